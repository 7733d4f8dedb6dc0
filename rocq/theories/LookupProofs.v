(** Proofs about pseudo-pext. *)
From Coq Require Import List NArith Bool Arith Lia ZifyBool ZifyN ZifyNat.
From Verif Require Import FieldModel LookupModel LookupSpec.
Import ListNotations.
Local Open Scope N_scope.

(** ** Counting bits *)
Lemma pc_le n m : popcount_upto n m <= N.of_nat n.
Proof. induction n as [|n IH]; cbn [popcount_upto]; [lia|]. destruct (N.testbit m _); lia. Qed.
Lemma pc_mono a b m : (a <= b)%nat -> popcount_upto a m <= popcount_upto b m.
Proof. induction 1; [lia|]. cbn [popcount_upto]. destruct (N.testbit m _); lia. Qed.
Lemma pc_lip a b m : (a <= b)%nat -> popcount_upto b m + N.of_nat a <= popcount_upto a m + N.of_nat b.
Proof. induction 1; [lia|]. cbn [popcount_upto]. destruct (N.testbit m _); lia. Qed.
Lemma pc_const a b m : (a <= b)%nat -> (forall i, (a <= i < b)%nat -> N.testbit m (N.of_nat i) = false) ->
  popcount_upto b m = popcount_upto a m.
Proof.
  induction 1 as [|b Hab IH]; auto. intros H. cbn [popcount_upto]. rewrite H by lia. rewrite IH; [lia|].
  intros i Hi. apply H. lia.
Qed.
Lemma pc_full a b m : (a <= b)%nat -> (forall i, (a <= i < b)%nat -> N.testbit m (N.of_nat i) = true) ->
  popcount_upto b m = popcount_upto a m + N.of_nat (b - a).
Proof.
  induction 1 as [|b Hab IH]; [intros; lia|]. intros H. cbn [popcount_upto]. rewrite H by lia. rewrite IH; [lia|].
  intros i Hi. apply H. lia.
Qed.

(** Zero bits of the mask below position [s]. *)
Definition zeros (m : N) (s : nat) : N := N.of_nat s - popcount_upto s m.
Lemma zeros_mono a b m : (a <= b)%nat -> zeros m a <= zeros m b.
Proof. intros H. unfold zeros. pose proof (pc_lip a b m H). lia. Qed.

Lemma size_testbit m : m <> 0 -> N.testbit m (N.size m - 1) = true.
Proof. intros H. rewrite N.size_log2 by auto. rewrite N.sub_1_r, N.pred_succ. apply N.bit_log2. auto. Qed.
Lemma size_above m i : N.size m <= i -> N.testbit m i = false.
Proof.
  intros H. destruct (N.eq_dec m 0) as [->|Hm]; [apply N.bits_0|].
  rewrite N.size_log2 in H by auto. apply N.bits_above_log2. lia.
Qed.
Lemma size_le m w : m < 2 ^ w -> N.size m <= w.
Proof.
  intros H. destruct (N.eq_dec m 0) as [->|Hm]; [cbn; lia|]. rewrite N.size_log2 by auto.
  assert (N.log2 m < w) by (apply N.log2_lt_pow2; lia). lia.
Qed.
Lemma lt_pow2_bits x k : (forall i, k <= i -> N.testbit x i = false) -> x < 2 ^ k.
Proof.
  intros H. destruct (N.eq_dec x 0) as [->|Hx]; [apply N.neq_0_lt_0, N.pow_nonzero; lia|].
  apply N.log2_lt_pow2; [lia|]. destruct (N.lt_ge_cases (N.log2 x) k); auto.
  pose proof (N.bit_log2 x Hx) as H1. rewrite H in H1 by auto. discriminate.
Qed.

Lemma half_shift a P : P <> 0 -> (a + P) mod (P * 2) <> a mod (P * 2).
Proof.
  intros HP. assert (HP2 : P * 2 <> 0) by lia.
  rewrite <- (N.add_mod_idemp_l a P) by exact HP2. pose proof (N.mod_lt a _ HP2) as Hlt.
  generalize dependent (a mod (P * 2)). clear a. intros r Hr.
  destruct (N.lt_ge_cases r P) as [H|H].
  - rewrite N.mod_small by lia. lia.
  - replace (r + P) with (r - P + 1 * (P * 2)) by lia. rewrite N.mod_add, N.mod_small by lia. lia.
Qed.

Section Pext.
Variable w mask : N.
Hypothesis Hmask : mask < 2 ^ w.
Notation pc := (fun s => popcount_upto s mask).
Notation z := (zeros mask).
Notation gap := (gap_bits w mask).
Notation n := (popcount w mask).
Notation coef := (coefficient w mask).

Lemma n_le_w : n <= w.
Proof. unfold popcount. pose proof (pc_le (N.to_nat w) mask). lia. Qed.
Lemma pc_top s : (N.size mask <= N.of_nat s)%N -> popcount_upto s mask = popcount_upto (N.to_nat (N.size mask)) mask.
Proof. intros H. apply pc_const; [lia|]. intros i Hi. apply size_above. lia. Qed.
Lemma n_size : n = popcount_upto (N.to_nat (N.size mask)) mask.
Proof. unfold popcount. apply pc_top. pose proof (size_le _ _ Hmask). lia. Qed.
Lemma gap_eq : gap = N.size mask - n /\ n <= N.size mask /\ gap + n = N.size mask /\ N.size mask <= w.
Proof.
  unfold gap_bits, countl_zero. pose proof (size_le _ _ Hmask). pose proof (pc_le (N.to_nat (N.size mask)) mask).
  rewrite <- n_size in *. lia.
Qed.
Lemma gap_n_le : gap + n <= w.
Proof. pose proof gap_eq. lia. Qed.
Lemma z_le_gap s : N.testbit mask (N.of_nat s) = true -> z s <= gap /\ N.of_nat s < w /\ popcount_upto s mask < n.
Proof.
  intros H. assert (Hs : N.of_nat s < N.size mask).
  { destruct (N.lt_ge_cases (N.of_nat s) (N.size mask)); auto. rewrite size_above in H by auto. discriminate. }
  destruct gap_eq as (H1 & H2 & H3 & H4). unfold zeros.
  pose proof (pc_lip (S s) (N.to_nat (N.size mask)) mask ltac:(lia)) as H5.
  pose proof (pc_mono (S s) (N.to_nat (N.size mask)) mask ltac:(lia)) as H6.
  rewrite <- n_size in *. cbn [popcount_upto] in H5, H6. rewrite H in H5, H6. lia.
Qed.

(** ** The coefficient *)
Definition starts (s : nat) : bool :=
  N.testbit mask (N.of_nat s) && negb (match s with O => false | S s' => N.testbit mask (N.of_nat s') end).

Lemma coef_loop_spec fuel : forall s acc i,
  N.testbit (coef_loop fuel (N.of_nat s) (gap + pc s) (match s with O => false | S s' => N.testbit mask (N.of_nat s') end) mask acc) i = true
  <-> N.testbit acc i = true \/ exists s', (s <= s' < s + fuel)%nat /\ starts s' = true /\ i = gap - z s'.
Proof.
  induction fuel as [|f IH]; intros s acc i; cbn [coef_loop].
  - split; [auto|]. intros [H|(s' & Hs & _)]; [auto|lia].
  - replace (N.of_nat s + 1) with (N.of_nat (S s)) by lia.
    replace (if N.testbit mask (N.of_nat s) then gap + popcount_upto s mask + 1 else gap + popcount_upto s mask)
      with (gap + popcount_upto (S s) mask) by (cbn [popcount_upto]; destruct (N.testbit mask (N.of_nat s)); lia).
    specialize (IH (S s)). cbn beta iota in IH. rewrite IH. fold (starts s).
    destruct (starts s) eqn:Hst.
    + assert (Hm : N.testbit mask (N.of_nat s) = true) by (unfold starts in Hst; rewrite andb_true_iff in Hst; tauto).
      assert (Hz : gap + popcount_upto s mask - N.of_nat s = gap - z s).
      { destruct (z_le_gap s Hm) as [A _]. unfold zeros in *. pose proof (pc_le s mask). lia. }
      rewrite Hz, N.setbit_iff. split.
      * intros [[H|H]|(s' & H1 & H2)]; [right; exists s; repeat split; auto; lia|auto|right; exists s'; split; [lia|auto]].
      * intros [H|(s' & H1 & H2 & H3)]; [auto|]. destruct (Nat.eq_dec s' s) as [->|Hn]; [auto|].
        right. exists s'. split; [lia|auto].
    + split.
      * intros [H|(s' & H1 & H2)]; [auto|right; exists s'; split; [lia|auto]].
      * intros [H|(s' & H1 & H2 & H3)]; [auto|]. destruct (Nat.eq_dec s' s) as [->|Hn]; [congruence|].
        right. exists s'. split; [lia|auto].
Qed.
Lemma coef_spec i : N.testbit coef i = true <-> exists s, starts s = true /\ i = gap - z s.
Proof.
  unfold coefficient, pack_coefficient. pose proof (coef_loop_spec (N.to_nat w) 0 0 i) as H.
  cbn [N.of_nat popcount_upto] in H. rewrite N.add_0_r in H. rewrite H. rewrite N.bits_0. split.
  - intros [|(s & _ & H1)]; [discriminate|eauto].
  - intros (s & H1 & H2). right. exists s. split; [|auto]. unfold starts in H1. rewrite andb_true_iff in H1.
    destruct (z_le_gap s (proj1 H1)) as (_ & Hw & _). lia.
Qed.

(** Within a stretch the zeros below do not change. *)
Lemma stretch_start s : N.testbit mask (N.of_nat s) = true -> exists s', starts s' = true /\ z s' = z s.
Proof.
  induction s as [|s IH]; intros H.
  - exists 0%nat. unfold starts. rewrite H. auto.
  - destruct (N.testbit mask (N.of_nat s)) eqn:Hs.
    + destruct (IH eq_refl) as (s' & H1 & H2). exists s'. split; auto. rewrite H2. unfold zeros. cbn [popcount_upto]. rewrite Hs.
      pose proof (pc_le s mask). lia.
    + exists (S s). unfold starts. rewrite H, Hs. auto.
Qed.
Lemma coef_own_bit s : N.testbit mask (N.of_nat s) = true -> N.testbit coef (gap - z s) = true.
Proof. intros H. destruct (stretch_start s H) as (s' & H1 & H2). apply coef_spec. exists s'. rewrite H2. auto. Qed.

Lemma coef_small : 2 <= w -> coef < 2 ^ (w - 1).
Proof.
  intros Hw. apply lt_pow2_bits. intros i Hi. destruct (N.testbit coef i) eqn:H; auto. exfalso.
  apply coef_spec in H. destruct H as (s & Hs & ->). unfold starts in Hs. rewrite andb_true_iff in Hs. destruct Hs as [Hs _].
  destruct (z_le_gap s Hs) as (H1 & H2 & H3). destruct gap_eq as (G1 & G2 & G3 & G4). unfold zeros in *.
  pose proof (pc_le s mask) as H4.
  assert (s = 0%nat /\ N.size mask = w /\ n = 1) as (-> & Hsz & Hn1) by lia.
  assert (Hm0 : mask <> 0) by (intros ->; discriminate).
  pose proof (size_testbit mask Hm0) as Ht. pose proof n_size as Hns.
  destruct (N.to_nat (N.size mask)) as [|k] eqn:Hk; [lia|]. cbn [popcount_upto] in Hns.
  replace (N.of_nat k) with (N.size mask - 1) in Hns by lia. rewrite Ht in Hns.
  pose proof (pc_mono 1 k mask ltac:(lia)) as H5. cbn [popcount_upto] in H5. rewrite Hs in H5. lia.
Qed.

(** No signed overflow when the key type is promoted to int. *)
Lemma product_no_overflow v : 2 <= w <= 16 -> v < 2 ^ w -> pext_product w mask v < 2 ^ 31.
Proof.
  intros Hw Hv. unfold pext_product. pose proof (coef_small ltac:(lia)) as Hc.
  assert (Hl : N.land v mask < 2 ^ w).
  { apply lt_pow2_bits. intros i Hi. rewrite N.land_spec, (size_above mask i); [apply andb_false_r|].
    pose proof (size_le _ _ Hmask). lia. }
  apply N.le_lt_trans with (2 ^ w * coef); [apply N.mul_le_mono_r; lia|].
  apply N.lt_le_trans with (2 ^ w * 2 ^ (w - 1)).
  - apply N.mul_lt_mono_pos_l; auto. apply N.neq_0_lt_0, N.pow_nonzero; lia.
  - rewrite <- N.pow_add_r. apply N.pow_le_mono_r; lia.
Qed.

(** ** The value *)
Lemma mod_mod_le x a b : a <= b -> (x mod 2 ^ b) mod 2 ^ a = x mod 2 ^ a.
Proof.
  intros H. apply N.bits_inj. intros i. destruct (N.lt_ge_cases i a).
  - rewrite !N.mod_pow2_bits_low by lia. reflexivity.
  - rewrite !N.mod_pow2_bits_high by lia. reflexivity.
Qed.
Lemma pext_eq v : pext w mask v = (N.land v mask * coef / 2 ^ gap) mod 2 ^ n.
Proof.
  unfold pext, final_mask. rewrite N.land_ones, N.shiftr_div_pow2. pose proof gap_n_le. pose proof n_le_w.
  fold (pext_product w mask v). rewrite mod_mod_le by lia.
  destruct (w <? 32); auto. apply N.bits_inj. intros i. destruct (N.lt_ge_cases i n).
  - rewrite !N.mod_pow2_bits_low by lia. rewrite <- !N.shiftr_div_pow2, !N.shiftr_spec by lia.
    rewrite N.mod_pow2_bits_low by lia. reflexivity.
  - rewrite !N.mod_pow2_bits_high by lia. reflexivity.
Qed.
Lemma pext_range v : pext w mask v < 2 ^ n.
Proof. rewrite pext_eq. apply N.mod_lt, N.pow_nonzero. lia. Qed.

(** Contribution of bit [b], above and below the gap. *)
Definition hi_part (b : nat) : N := 2 ^ popcount_upto b mask * (coef / 2 ^ (gap - z b)).
Definition lo_part (b : nat) : N := 2 ^ N.of_nat b * (coef mod 2 ^ (gap - z b)).
Fixpoint sum_bits (f : nat -> N) (k : nat) (x : N) : N :=
  match k with
  | O => 0
  | S k' => sum_bits f k' x + (if N.testbit x (N.of_nat k') then f k' else 0)
  end.

Lemma bit_split b : N.testbit mask (N.of_nat b) = true ->
  2 ^ N.of_nat b * coef = 2 ^ gap * hi_part b + lo_part b.
Proof.
  intros H. unfold hi_part, lo_part. destruct (z_le_gap b H) as (Hz & _ & _).
  assert (Hb : N.of_nat b = popcount_upto b mask + z b) by (unfold zeros; pose proof (pc_le b mask); lia).
  rewrite (N.div_mod coef (2 ^ (gap - z b))) at 1 by (apply N.pow_nonzero; lia).
  rewrite N.mul_add_distr_l. f_equal.
  replace (2 ^ gap) with (2 ^ z b * 2 ^ (gap - z b)) by (rewrite <- N.pow_add_r; f_equal; lia).
  rewrite Hb at 1. rewrite N.pow_add_r. ring.
Qed.

Definition sub_mask (x : N) : Prop := forall i, N.testbit x i = true -> N.testbit mask i = true.

Lemma mod_succ x k : x mod 2 ^ N.of_nat (S k) = x mod 2 ^ N.of_nat k + (if N.testbit x (N.of_nat k) then 2 ^ N.of_nat k else 0).
Proof.
  replace (N.of_nat (S k)) with (N.of_nat k + 1) by lia. rewrite N.pow_add_r, N.pow_1_r.
  rewrite N.mod_mul_r by (try apply N.pow_nonzero; lia). f_equal.
  rewrite <- N.shiftr_div_pow2, <- N.bit0_mod. rewrite N.shiftr_spec, N.add_0_l by lia.
  destruct (N.testbit x (N.of_nat k)); cbn; lia.
Qed.

Lemma sum_split x k : sub_mask x ->
  x mod 2 ^ N.of_nat k * coef = 2 ^ gap * sum_bits hi_part k x + sum_bits lo_part k x.
Proof.
  intros Hx. induction k as [|k IH]; cbn [sum_bits].
  - cbn [N.of_nat]. rewrite N.pow_0_r, N.mod_1_r. lia.
  - rewrite mod_succ. destruct (N.testbit x (N.of_nat k)) eqn:Hb.
    + rewrite N.mul_add_distr_r, IH, bit_split by (apply Hx; auto). ring.
    + rewrite N.add_0_r, IH. ring.
Qed.

Lemma sum_mono f x k : sub_mask x -> sum_bits f k x <= sum_bits f k mask.
Proof.
  intros Hx. induction k as [|k IH]; cbn [sum_bits]; [lia|].
  destruct (N.testbit x (N.of_nat k)) eqn:H; [rewrite (Hx _ H); lia|].
  destruct (N.testbit mask _); lia.
Qed.

(** The products that fall below the gap. *)
Definition overlap : N := sum_bits lo_part (N.to_nat w) mask.

Lemma sub_land v : sub_mask (N.land v mask).
Proof. intros i. rewrite N.land_spec, andb_true_iff. tauto. Qed.
Lemma sub_small x : sub_mask x -> x < 2 ^ w.
Proof.
  intros H. apply lt_pow2_bits. intros i Hi. destruct (N.testbit x i) eqn:Hb; auto.
  apply H in Hb. rewrite size_above in Hb; [discriminate|]. pose proof (size_le _ _ Hmask). lia.
Qed.

Lemma pext_sum v : overlap < 2 ^ gap ->
  pext w mask v = sum_bits hi_part (N.to_nat w) (N.land v mask) mod 2 ^ n.
Proof.
  intros Ho. rewrite pext_eq. f_equal. pose proof (sub_land v) as Hs. pose proof (sum_split _ (N.to_nat w) Hs) as H.
  rewrite N2Nat.id, N.mod_small in H by (apply sub_small; auto). rewrite H.
  symmetry. eapply N.div_unique; [|reflexivity].
  eapply N.le_lt_trans; [apply sum_mono; auto|exact Ho].
Qed.

Lemma hi_odd b : N.testbit mask (N.of_nat b) = true -> exists q, coef / 2 ^ (gap - z b) = 2 * q + 1.
Proof.
  intros H. pose proof (coef_own_bit b H) as Hc.
  assert (Ho : N.odd (coef / 2 ^ (gap - z b)) = true).
  { rewrite <- N.bit0_odd, <- N.shiftr_div_pow2, N.shiftr_spec, N.add_0_l by lia. auto. }
  apply N.odd_spec in Ho. exact Ho.
Qed.

(** Everything above bit [k] is a multiple of [2 ^ (bits of the mask up to k)]. *)
Lemma sum_tail x k m : sub_mask x -> (k <= m)%nat ->
  exists t, sum_bits hi_part m x = sum_bits hi_part k x + 2 ^ popcount_upto k mask * t.
Proof.
  intros Hx. induction 1 as [|m Hkm [t IH]].
  - exists 0. lia.
  - cbn [sum_bits]. destruct (N.testbit x (N.of_nat m)) eqn:Hb; [|exists t; lia].
    unfold hi_part at 2. pose proof (pc_mono k m mask Hkm) as Hp.
    exists (t + 2 ^ (popcount_upto m mask - popcount_upto k mask) * (coef / 2 ^ (gap - z m))).
    replace (2 ^ popcount_upto m mask) with (2 ^ popcount_upto k mask * 2 ^ (popcount_upto m mask - popcount_upto k mask))
      by (rewrite <- N.pow_add_r; f_equal; lia).
    rewrite IH. ring.
Qed.

Lemma mod_add_multiple a t e : (a + 2 ^ e * t) mod 2 ^ e = a mod 2 ^ e.
Proof. rewrite N.mul_comm. apply N.mod_add, N.pow_nonzero. lia. Qed.

Lemma hi_inj x y : sub_mask x -> sub_mask y ->
  sum_bits hi_part (N.to_nat w) x mod 2 ^ n = sum_bits hi_part (N.to_nat w) y mod 2 ^ n -> x = y.
Proof.
  intros Hx Hy Heq.
  assert (Hk : forall k, (k <= N.to_nat w)%nat -> forall i, (i < k)%nat -> N.testbit x (N.of_nat i) = N.testbit y (N.of_nat i)).
  { induction k as [|k IH]; [lia|]. intros Hkw i Hi. destruct (Nat.eq_dec i k) as [->|Hik]; [|apply IH; lia].
    specialize (IH ltac:(lia)).
    assert (Hsame : sum_bits hi_part k x = sum_bits hi_part k y).
    { clear -IH. revert IH. induction k as [|k IHk]; intros H; cbn [sum_bits]; auto.
      rewrite (H k) by lia. f_equal. apply IHk. intros; apply H; lia. }
    destruct (N.testbit mask (N.of_nat k)) eqn:Hm.
    2:{ destruct (N.testbit x (N.of_nat k)) eqn:H1; [apply Hx in H1; congruence|].
        destruct (N.testbit y (N.of_nat k)) eqn:H2; [apply Hy in H2; congruence|]. auto. }
    destruct (sum_tail x (S k) (N.to_nat w) Hx Hkw) as [t1 H1].
    destruct (sum_tail y (S k) (N.to_nat w) Hy Hkw) as [t2 H2].
    destruct (z_le_gap k Hm) as (_ & _ & Hpn).
    assert (Hpc : popcount_upto (S k) mask = popcount_upto k mask + 1) by (cbn [popcount_upto]; rewrite Hm; lia).
    assert (Hmod : sum_bits hi_part (N.to_nat w) x mod 2 ^ popcount_upto (S k) mask =
                   sum_bits hi_part (N.to_nat w) y mod 2 ^ popcount_upto (S k) mask).
    { rewrite <- (mod_mod_le (sum_bits hi_part (N.to_nat w) x) _ n), <- (mod_mod_le (sum_bits hi_part (N.to_nat w) y) _ n) by lia.
      congruence. }
    rewrite H1, H2, !mod_add_multiple in Hmod. cbn [sum_bits] in Hmod. rewrite Hsame in Hmod.
    destruct (hi_odd k Hm) as [q Hq].
    assert (Hne : forall a, (a + hi_part k) mod 2 ^ popcount_upto (S k) mask <> (a + 0) mod 2 ^ popcount_upto (S k) mask).
    { intros a. unfold hi_part. rewrite Hq, Hpc, N.add_0_r.
      replace (a + 2 ^ popcount_upto k mask * (2 * q + 1))
        with ((a + 2 ^ popcount_upto k mask) + 2 ^ (popcount_upto k mask + 1) * q)
        by (rewrite N.pow_add_r, N.pow_1_r; ring).
      rewrite mod_add_multiple. rewrite N.pow_add_r, N.pow_1_r.
      apply half_shift, N.pow_nonzero. discriminate. }
    destruct (N.testbit x (N.of_nat k)), (N.testbit y (N.of_nat k)); auto.
    - exfalso. apply (Hne _ Hmod).
    - exfalso. symmetry in Hmod. apply (Hne _ Hmod). }
  apply N.bits_inj. intros i. destruct (N.lt_ge_cases i w) as [Hi|Hi].
  - rewrite <- (N2Nat.id i). apply (Hk (N.to_nat w)); lia.
  - destruct (N.testbit x i) eqn:H1.
    + apply Hx in H1. rewrite size_above in H1; [discriminate|]. pose proof (size_le _ _ Hmask). lia.
    + destruct (N.testbit y i) eqn:H2; auto.
      apply Hy in H2. rewrite size_above in H2; [discriminate|]. pose proof (size_le _ _ Hmask). lia.
Qed.

Lemma pext_injective u v : overlap < 2 ^ gap -> pext w mask u = pext w mask v -> N.land u mask = N.land v mask.
Proof. intros Ho. rewrite !pext_sum by auto. apply hi_inj; apply sub_land. Qed.
End Pext.

(** ** Masks of one stretch *)
Definition stretch (a p : N) : N := N.ones p * 2 ^ a.
Lemma stretch_bit b q i : N.testbit (stretch b q) i = (b <=? i) && (i <? b + q).
Proof.
  unfold stretch. destruct (N.leb_spec b i) as [H|H].
  - rewrite N.mul_pow2_bits_high by auto. destruct (N.ltb_spec i (b + q)).
    + rewrite N.ones_spec_low by lia. reflexivity.
    + rewrite N.ones_spec_high by lia. reflexivity.
  - rewrite N.mul_pow2_bits_low by auto. reflexivity.
Qed.
Lemma stretch_lt b q k : b + q <= k -> stretch b q < 2 ^ k.
Proof. intros H. apply lt_pow2_bits. intros i Hi. rewrite stretch_bit. lia. Qed.
Section Contiguous.
Variable w a p : N.
Hypothesis Hp : 0 < p.
Hypothesis Hw : a + p <= w.
Notation mask := (stretch a p).
Lemma contiguous_starts s : starts mask s = Nat.eqb s (N.to_nat a).
Proof.
  unfold starts. destruct s as [|s]; rewrite ?stretch_bit; lia.
Qed.
Lemma contiguous_zeros s : a <= N.of_nat s < a + p -> zeros mask s = a.
Proof.
  intros H. unfold zeros.
  rewrite (pc_full (N.to_nat a) s) by (lia || (intros i Hi; rewrite stretch_bit; lia)).
  rewrite (pc_const 0 (N.to_nat a)) by (lia || (intros i Hi; rewrite stretch_bit; lia)). cbn [popcount_upto]. lia.
Qed.
Lemma contiguous_pext v : v < 2 ^ w -> pext w mask v = (v / 2 ^ a) mod 2 ^ p.
Proof.
  intros Hv. assert (HM : mask < 2 ^ w) by (apply stretch_lt; auto).
  assert (Hn : popcount w mask = p).
  { unfold popcount. rewrite (pc_const (N.to_nat (a + p)) (N.to_nat w)) by (lia || (intros i Hi; rewrite stretch_bit; lia)).
    rewrite (pc_full (N.to_nat a)) by (lia || (intros i Hi; rewrite stretch_bit; lia)).
    rewrite (pc_const 0) by (lia || (intros i Hi; rewrite stretch_bit; lia)). cbn [popcount_upto]. lia. }
  assert (Hsize : N.size mask = a + p).
  { assert (Hnz : mask <> 0).
    { intros H. pose proof (stretch_bit a p a) as Hb. rewrite H, N.bits_0 in Hb. lia. }
    rewrite N.size_log2 by auto.
    assert (N.log2 mask = a + p - 1); [|lia]. apply N.log2_unique; [lia|split].
    - destruct (N.le_gt_cases (2 ^ (a + p - 1)) mask) as [|Hlt]; auto. exfalso.
      assert (Hbit : N.testbit mask (a + p - 1) = true) by (rewrite stretch_bit; lia).
      rewrite N.bits_above_log2 in Hbit; [discriminate|]. apply N.log2_lt_pow2; lia.
    - replace (N.succ (a + p - 1)) with (a + p) by lia. apply stretch_lt. lia. }
  assert (Hgap : gap_bits w mask = a).
  { destruct (gap_eq w mask HM) as (_ & _ & H & _). rewrite Hn, Hsize in H. lia. }
  assert (Hcoef : coefficient w mask = 1).
  { apply N.bits_inj. intros i. apply eq_true_iff_eq. rewrite (coef_spec w mask HM), Hgap. split.
    - intros (s & Hs & ->). rewrite contiguous_starts in Hs. rewrite contiguous_zeros by lia.
      rewrite N.sub_diag. reflexivity.
    - intros H. exists (N.to_nat a). rewrite contiguous_starts, contiguous_zeros by lia. split; [apply Nat.eqb_refl|].
      destruct (N.eq_dec i 0) as [->|Hi]; [lia|]. exfalso.
      rewrite N.bits_above_log2 in H; [discriminate|]. cbn. lia. }
  rewrite pext_eq, Hn, Hgap, Hcoef, N.mul_1_r by auto.
  apply N.bits_inj. intros i. destruct (N.lt_ge_cases i p).
  - rewrite !N.mod_pow2_bits_low by lia. rewrite <- !N.shiftr_div_pow2, !N.shiftr_spec, N.land_spec, stretch_bit by lia.
    replace ((a <=? i + a) && (i + a <? a + p)) with true by lia. apply andb_true_r.
  - rewrite !N.mod_pow2_bits_high by lia. reflexivity.
Qed.
End Contiguous.

Lemma pext_ones w v : 0 < w -> v < 2 ^ w -> pext w (N.ones w) v = v.
Proof.
  intros Hw Hv. replace (N.ones w) with (stretch 0 w) by (unfold stretch; rewrite N.pow_0_r; lia).
  rewrite contiguous_pext by (auto; lia). rewrite N.pow_0_r, N.div_1_r. apply N.mod_small. auto.
Qed.

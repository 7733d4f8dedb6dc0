(** Masks of two stretches: when pseudo-pext separates keys. *)
From Coq Require Import List NArith Bool Arith Lia ZifyBool ZifyN ZifyNat.
From Verif Require Import FieldModel LookupModel LookupSpec LookupProofs.
Import ListNotations.
Local Open Scope N_scope.

Definition two_stretches (a p g q : N) : N := N.lor (stretch a p) (stretch (a + p + g) q).

Lemma two_bit a p g q i : N.testbit (two_stretches a p g q) i =
  ((a <=? i) && (i <? a + p)) || ((a + p + g <=? i) && (i <? a + p + g + q)).
Proof. unfold two_stretches. rewrite N.lor_spec, !stretch_bit. reflexivity. Qed.

Section Two.
Variable w a p g q : N.
Hypothesis Hp : 0 < p.
Hypothesis Hg : 0 < g.
Hypothesis Hq : 0 < q.
Hypothesis Hw : a + p + g + q <= w.
Notation mask := (two_stretches a p g q).

Lemma two_small : mask < 2 ^ w.
Proof. apply lt_pow2_bits. intros i Hi. rewrite two_bit. lia. Qed.
Lemma two_pc_low s : a <= N.of_nat s <= a + p -> popcount_upto s mask = N.of_nat s - a.
Proof.
  intros H. rewrite (pc_full (N.to_nat a) s) by (lia || (intros i Hi; rewrite two_bit; lia)).
  rewrite (pc_const 0 (N.to_nat a)) by (lia || (intros i Hi; rewrite two_bit; lia)). cbn [popcount_upto]. lia.
Qed.
Lemma two_pc_high s : a + p + g <= N.of_nat s <= a + p + g + q -> popcount_upto s mask = N.of_nat s - a - g.
Proof.
  intros H. rewrite (pc_full (N.to_nat (a + p + g)) s) by (lia || (intros i Hi; rewrite two_bit; lia)).
  rewrite (pc_const (N.to_nat (a + p)) (N.to_nat (a + p + g))) by (lia || (intros i Hi; rewrite two_bit; lia)).
  rewrite two_pc_low by lia. lia.
Qed.
Lemma two_n : popcount w mask = p + q.
Proof.
  unfold popcount. rewrite (pc_const (N.to_nat (a + p + g + q)) (N.to_nat w)) by (lia || (intros i Hi; rewrite two_bit; lia)).
  rewrite two_pc_high by lia. lia.
Qed.
Lemma two_size : N.size mask = a + p + g + q.
Proof.
  assert (Hnz : mask <> 0).
  { intros H. pose proof (two_bit a p g q a) as Hb. rewrite H, N.bits_0 in Hb. lia. }
  rewrite N.size_log2 by auto.
  assert (N.log2 mask = a + p + g + q - 1); [|lia]. apply N.log2_unique; [lia|split].
  - destruct (N.le_gt_cases (2 ^ (a + p + g + q - 1)) mask) as [|Hlt]; auto. exfalso.
    assert (Hbit : N.testbit mask (a + p + g + q - 1) = true) by (rewrite two_bit; lia).
    rewrite N.bits_above_log2 in Hbit; [discriminate|]. apply N.log2_lt_pow2; lia.
  - replace (N.succ (a + p + g + q - 1)) with (a + p + g + q) by lia. apply lt_pow2_bits.
    intros i Hi. rewrite two_bit. lia.
Qed.
Lemma two_gap : gap_bits w mask = a + g.
Proof. destruct (gap_eq w mask two_small) as (_ & _ & H & _). rewrite two_n, two_size in H. lia. Qed.
Lemma two_starts s : starts mask s = Nat.eqb s (N.to_nat a) || Nat.eqb s (N.to_nat (a + p + g)).
Proof. unfold starts. destruct s as [|s]; rewrite ?two_bit; lia. Qed.
Lemma bits_of_one i : N.testbit 1 i = (i =? 0).
Proof. destruct i; reflexivity. Qed.
Lemma two_coef : coefficient w mask = 2 ^ g + 1.
Proof.
  replace (2 ^ g + 1) with (N.lor (2 ^ g) 1).
  2:{ symmetry. rewrite <- N.lxor_lor; [apply N.add_nocarry_lxor|]; apply N.bits_inj; intros i; rewrite N.land_spec, N.bits_0, N.pow2_bits_eqb, bits_of_one; lia. }
  apply N.bits_inj. intros i. apply eq_true_iff_eq. rewrite (coef_spec w mask two_small), two_gap.
  rewrite N.lor_spec, N.pow2_bits_eqb, bits_of_one. split.
  - intros (s & Hs & ->). rewrite two_starts in Hs.
    assert (s = N.to_nat a \/ s = N.to_nat (a + p + g)) as [->| ->] by lia; unfold zeros.
    + rewrite two_pc_low by lia. lia.
    + rewrite two_pc_high by lia. lia.
  - intros H. assert (i = g \/ i = 0) as [->| ->] by lia.
    + exists (N.to_nat a). rewrite two_starts. unfold zeros. rewrite two_pc_low by lia. lia.
    + exists (N.to_nat (a + p + g)). rewrite two_starts. unfold zeros. rewrite two_pc_high by lia. lia.
Qed.

(** A key with the given two parts. *)
Definition two_key (A B : N) : N := A * 2 ^ a + B * 2 ^ (a + p + g).
Lemma two_key_bits A B i : A < 2 ^ p ->
  N.testbit (two_key A B) i =
  if i <? a + p then (a <=? i) && N.testbit A (i - a) else (a + p + g <=? i) && N.testbit B (i - (a + p + g)).
Proof.
  intros HA. unfold two_key.
  assert (Hd : N.land (A * 2 ^ a) (B * 2 ^ (a + p + g)) = 0).
  { apply N.bits_inj. intros j. rewrite N.land_spec, N.bits_0. destruct (N.lt_ge_cases j (a + p + g)).
    - rewrite (N.mul_pow2_bits_low B) by lia. apply andb_false_r.
    - rewrite N.mul_pow2_bits_high by lia. rewrite <- (N.mod_small A (2 ^ p)), N.mod_pow2_bits_high by (auto; lia). reflexivity. }
  rewrite N.add_nocarry_lxor, N.lxor_lor, N.lor_spec by auto.
  assert (HAb : N.testbit (A * 2 ^ a) i = (a <=? i) && N.testbit A (i - a)).
  { destruct (N.leb_spec a i); [rewrite N.mul_pow2_bits_high by lia|rewrite N.mul_pow2_bits_low by lia]; reflexivity. }
  assert (HBb : N.testbit (B * 2 ^ (a + p + g)) i = (a + p + g <=? i) && N.testbit B (i - (a + p + g))).
  { destruct (N.leb_spec (a + p + g) i); [rewrite N.mul_pow2_bits_high by lia|rewrite N.mul_pow2_bits_low by lia]; reflexivity. }
  rewrite HAb, HBb. destruct (N.ltb_spec i (a + p)).
  - replace (a + p + g <=? i) with false by lia. apply orb_false_r.
  - rewrite <- (N.mod_small A (2 ^ p)), N.mod_pow2_bits_high by (auto; lia). rewrite andb_false_r. reflexivity.
Qed.
Lemma two_key_masked A B : A < 2 ^ p -> B < 2 ^ q -> N.land (two_key A B) mask = two_key A B.
Proof.
  intros HA HB. apply N.bits_inj. intros i. rewrite N.land_spec, two_bit, two_key_bits by auto.
  destruct (N.ltb_spec i (a + p)).
  - replace (a + p + g <=? i) with false by lia. destruct (a <=? i); cbn; [|reflexivity]. apply andb_true_r.
  - destruct (N.lt_ge_cases i (a + p + g + q)).
    + replace (i <? a + p + g + q) with true by lia. rewrite !andb_true_r, !andb_false_r. cbn [orb].
      destruct (a + p + g <=? i); cbn; [apply andb_true_r|reflexivity].
    + rewrite <- (N.mod_small B (2 ^ q)), N.mod_pow2_bits_high by (auto; lia). rewrite andb_false_r. reflexivity.
Qed.
Lemma two_key_pext A B : A < 2 ^ p -> B < 2 ^ q ->
  pext w mask (two_key A B) = (A + A / 2 ^ g + 2 ^ p * (B * (2 ^ g + 1))) mod 2 ^ (p + q).
Proof.
  intros HA HB. rewrite pext_eq, two_key_masked, two_coef, two_gap, two_n by (auto using two_small). f_equal.
  unfold two_key.
  replace ((A * 2 ^ a + B * 2 ^ (a + p + g)) * (2 ^ g + 1))
    with ((A * (2 ^ g + 1)) * 2 ^ a + (2 ^ p * (B * (2 ^ g + 1))) * (2 ^ (a + g))).
  2:{ rewrite !N.pow_add_r. ring. }
  rewrite N.div_add by (apply N.pow_nonzero; lia). f_equal.
  rewrite N.pow_add_r, <- N.div_div by (apply N.pow_nonzero; lia). rewrite N.div_mul by (apply N.pow_nonzero; lia).
  rewrite N.mul_add_distr_l, N.mul_1_r, N.add_comm, N.div_add by (apply N.pow_nonzero; lia). lia.
Qed.

Lemma ivt (f : N -> N) T m : f 0 < T -> T <= f m -> exists k, k < m /\ f k < T <= f (k + 1).
Proof.
  intros H0. induction m as [|m IH] using N.peano_ind; intros Hm; [lia|].
  destruct (N.lt_ge_cases (f m) T) as [H|H].
  - exists m. rewrite N.add_1_r. lia.
  - destruct (IH H) as (k & H1 & H2). exists k. lia.
Qed.
Lemma minus_inverse c k : exists B, B < 2 ^ k /\ exists t, 1 + B * (2 * c + 1) = 2 ^ k * t.
Proof.
  induction k as [|k (B & HB & t & Ht)] using N.peano_ind.
  - exists 0. split; [cbn; lia|]. exists 1. reflexivity.
  - rewrite N.pow_succ_r by lia.
    destruct (N.Even_or_Odd t) as [[s Hs]|[s Hs]].
    + exists B. split; [lia|]. exists s. rewrite Ht, Hs. ring.
    + exists (B + 2 ^ k). split; [lia|]. exists (s + c + 1).
      replace (1 + (B + 2 ^ k) * (2 * c + 1)) with ((1 + B * (2 * c + 1)) + 2 ^ k * (2 * c + 1)) by ring.
      rewrite Ht, Hs. ring.
Qed.

Lemma two_collide : g < p -> exists u v, u < 2 ^ w /\ v < 2 ^ w /\ N.land u mask <> N.land v mask /\ pext w mask u = pext w mask v.
Proof.
  intros Hgp. set (h := fun A => A + A / 2 ^ g).
  assert (HG : 2 <= 2 ^ g) by (replace 2 with (2 ^ 1) at 1 by reflexivity; apply N.pow_le_mono_r; lia).
  assert (HGP : 2 * 2 ^ g <= 2 ^ p) by (rewrite <- N.pow_succ_r by lia; apply N.pow_le_mono_r; lia).
  destruct (ivt h (2 ^ p) (2 ^ p - 1)) as (k & Hk & Hlo & Hhi).
  { unfold h. rewrite N.div_0_l by lia. lia. }
  { unfold h. assert (1 <= (2 ^ p - 1) / 2 ^ g) by (apply N.div_le_lower_bound; lia). lia. }
  assert (Hstep : h (k + 1) <= h k + 2).
  { unfold h. assert ((k + 1) / 2 ^ g <= (k + 1 * 2 ^ g) / 2 ^ g) by (apply N.div_le_mono; lia).
    rewrite N.div_add in H by lia. lia. }
  assert (exists r, r < 2 /\ h (k + 1) = 2 ^ p + r) as (r & Hr & Hh) by (exists (h (k + 1) - 2 ^ p); lia).
  assert (exists G, 2 ^ g = 2 * G) as [G HGe].
  { exists (2 ^ (g - 1)). rewrite <- N.pow_succ_r by lia. f_equal. lia. }
  destruct (minus_inverse G q) as (B & HB & t & Ht). rewrite <- HGe in Ht.
  assert (Hk1 : k + 1 < 2 ^ p) by lia.
  assert (Hq0 : 0 < 2 ^ q) by (apply N.neq_0_lt_0, N.pow_nonzero; lia).
  assert (Hsmall : forall A C, A < 2 ^ p -> C < 2 ^ q -> two_key A C < 2 ^ w).
  { intros A C HA HC. rewrite <- two_key_masked by auto. eapply sub_small; [apply two_small|apply sub_land]. }
  exists (two_key (k + 1) B), (two_key r 0). repeat split; auto; try (apply Hsmall; lia).
  - rewrite !two_key_masked by lia. intros Heq.
    assert (Hkr : k + 1 = r).
    { apply N.bits_inj. intros i. destruct (N.lt_ge_cases i p) as [Hi|Hi].
      - pose proof (f_equal (fun x => N.testbit x (i + a)) Heq) as Hb. cbn beta in Hb.
        rewrite !two_key_bits in Hb by lia. replace (i + a <? a + p) with true in Hb by lia.
        replace (a <=? i + a) with true in Hb by lia. replace (i + a - a) with i in Hb by lia. exact Hb.
      - rewrite <- (N.mod_small (k + 1) (2 ^ p)), <- (N.mod_small r (2 ^ p)) by lia.
        rewrite !N.mod_pow2_bits_high by lia. reflexivity. }
    assert (Hr0 : h (k + 1) < 2 + 1).
    { unfold h. rewrite Hkr. rewrite N.div_small by lia. lia. }
    lia.
  - rewrite !two_key_pext by lia. fold (h (k + 1)). rewrite Hh, (N.div_small r) by lia.
    replace (2 ^ p + r + 2 ^ p * (B * (2 ^ g + 1))) with (r + 2 ^ p * (1 + B * (2 ^ g + 1))) by ring.
    rewrite Ht. replace (r + 2 ^ p * (2 ^ q * t)) with (r + t * 2 ^ (p + q)) by (rewrite N.pow_add_r; ring).
    rewrite N.mod_add by (apply N.pow_nonzero; lia). rewrite N.mul_0_l, N.mul_0_r, !N.add_0_r. reflexivity.
Qed.

Lemma two_overlap : p <= g -> overlap w mask < 2 ^ gap_bits w mask.
Proof.
  intros Hpg. unfold overlap. rewrite two_gap.
  assert (HG : 2 <= 2 ^ g) by (replace 2 with (2 ^ 1) at 1 by reflexivity; apply N.pow_le_mono_r; lia).
  assert (Hlow : forall s, (N.of_nat s <= a)%N -> sum_bits (lo_part w mask) s mask = 0).
  { induction s as [|s IH]; intros Hs; [reflexivity|]. cbn [sum_bits]. rewrite IH by lia. rewrite two_bit.
    replace _ with false by lia. reflexivity. }
  assert (Hmid : forall s, a <= N.of_nat s <= a + p -> sum_bits (lo_part w mask) s mask + 2 ^ a = 2 ^ N.of_nat s).
  { induction s as [|s IH]; intros Hs.
    - replace a with 0 by lia. reflexivity.
    - destruct (N.eq_dec a (N.of_nat (S s))) as [->|Hne]; [rewrite Hlow by lia; lia|].
      cbn [sum_bits]. replace (N.testbit mask (N.of_nat s)) with true by (rewrite two_bit; lia).
      unfold lo_part at 2. rewrite two_coef, two_gap. unfold zeros. rewrite two_pc_low by lia.
      replace (a + g - (N.of_nat s - (N.of_nat s - a))) with g by lia.
      replace ((2 ^ g + 1) mod 2 ^ g) with 1.
      2:{ replace (2 ^ g + 1) with (1 + 1 * 2 ^ g) by lia. rewrite N.mod_add, N.mod_small by lia. reflexivity. }
      replace (N.of_nat (S s)) with (N.succ (N.of_nat s)) by lia. rewrite N.pow_succ_r by lia.
      specialize (IH ltac:(lia)). lia. }
  assert (Hhi : forall s, a + p <= N.of_nat s <= w -> sum_bits (lo_part w mask) s mask + 2 ^ a = 2 ^ (a + p)).
  { induction s as [|s IH]; intros Hs; [lia|].
    destruct (N.eq_dec (a + p) (N.of_nat (S s))) as [He|Hne]; [rewrite He; apply Hmid; lia|].
    cbn [sum_bits]. destruct (N.testbit mask (N.of_nat s)) eqn:Hb.
    - unfold lo_part at 2. rewrite two_gap. unfold zeros. rewrite two_bit in Hb. rewrite two_pc_high by lia.
      replace (a + g - (N.of_nat s - (N.of_nat s - a - g))) with 0 by lia. rewrite N.pow_0_r, N.mod_1_r, N.mul_0_r.
      specialize (IH ltac:(lia)). lia.
    - specialize (IH ltac:(lia)). lia. }
  specialize (Hhi (N.to_nat w) ltac:(lia)).
  assert (2 ^ (a + p) <= 2 ^ (a + g)) by (apply N.pow_le_mono_r; lia).
  assert (0 < 2 ^ a) by (apply N.neq_0_lt_0, N.pow_nonzero; lia). lia.
Qed.

Theorem two_exact :
  (forall u v, u < 2 ^ w -> v < 2 ^ w -> pext w mask u = pext w mask v -> N.land u mask = N.land v mask) <-> p <= g.
Proof.
  split.
  - intros H. destruct (N.le_gt_cases p g) as [|Hgp]; auto. exfalso.
    destruct (two_collide Hgp) as (u & v & Hu & Hv & Hne & Heq). apply Hne, H; auto.
  - intros Hpg u v _ _. apply pext_injective; [apply two_small|apply two_overlap; auto].
Qed.
End Two.

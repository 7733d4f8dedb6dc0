(** Proofs about duplicates, runs and the choice of the mask. *)
From Coq Require Import List NArith Bool Arith Lia ZifyBool ZifyN ZifyNat Permutation Sorting.Sorted.
From Verif Require Import FieldModel LookupModel LookupSpec LookupProofs.
Import ListNotations.
Local Open Scope N_scope.

(** ** Sorting *)
Lemma insertN_perm x l : Permutation (insertN x l) (x :: l).
Proof.
  induction l as [|y r IH]; cbn [insertN]; auto. destruct (x <=? y); auto.
  rewrite IH. apply perm_swap.
Qed.
Lemma sortN_perm l : Permutation (sortN l) l.
Proof. induction l as [|x r IH]; cbn; auto. rewrite insertN_perm. auto. Qed.
Lemma insertN_sorted x l : StronglySorted N.le l -> StronglySorted N.le (insertN x l).
Proof.
  induction 1 as [|y r Hr IH Hy]; cbn [insertN]; [repeat constructor|].
  destruct (N.leb_spec x y) as [H|H].
  - constructor; [constructor; auto|]. constructor; [lia|]. eapply Forall_impl; [|exact Hy]. cbn. intros; lia.
  - constructor; auto. rewrite Forall_forall in *. intros a Ha.
    rewrite insertN_perm in Ha. destruct Ha as [->|Ha]; [lia|auto].
Qed.
Lemma sortN_sorted l : StronglySorted N.le (sortN l).
Proof. induction l as [|x r IH]; cbn; [constructor|]. apply insertN_sorted; auto. Qed.

(** ** Duplicates *)
Lemma adjacent_nodup l : StronglySorted N.le l -> (adjacent_equal l = 0 <-> NoDup l).
Proof.
  induction 1 as [|x r Hr IH Hx].
  - split; [constructor|reflexivity].
  - destruct r as [|y r]; [split; [repeat constructor; auto|reflexivity]|].
    replace (adjacent_equal (x :: y :: r)) with ((if x =? y then 1 else 0) + adjacent_equal (y :: r)) by reflexivity.
    split.
    + intros H. constructor; [|apply IH; lia].
      assert (Hxy : x <> y) by (destruct (N.eqb_spec x y); [lia|auto]).
      inversion_clear Hx. inversion_clear Hr. rewrite Forall_forall in *. intros [->|Hin]; [auto|].
      specialize (H3 x Hin). lia.
    + intros H. inversion_clear H. apply IH in H1. rewrite H1.
      destruct (N.eqb_spec x y) as [->|]; [|reflexivity]. exfalso. apply H0. left. auto.
Qed.
Lemma unique_spec l : keys_are_unique l = true <-> NoDup l.
Proof.
  unfold keys_are_unique, count_duplicates. rewrite N.eqb_eq, adjacent_nodup by apply sortN_sorted.
  split; apply Permutation_NoDup; [|symmetry]; apply sortN_perm.
Qed.

(** ** Runs *)
Definition cnt (x : N) (l : list N) : N := N.of_nat (count_occ N.eq_dec l x).
Lemma cnt_cons x y l : cnt x (y :: l) = (if y =? x then 1 else 0) + cnt x l.
Proof. unfold cnt. cbn [count_occ]. destruct (N.eq_dec y x), (N.eqb_spec y x); subst; try congruence; lia. Qed.
Lemma cnt_nil x : cnt x [] = 0. Proof. reflexivity. Qed.
Lemma cnt_perm x l l' : Permutation l l' -> cnt x l = cnt x l'.
Proof. intros H. unfold cnt. f_equal. revert x. apply (Permutation_count_occ N.eq_dec). auto. Qed.
Lemma cnt_app x l l' : cnt x (l ++ l') = cnt x l + cnt x l'.
Proof. unfold cnt. rewrite count_occ_app. lia. Qed.
Lemma cnt_zero x l : ~ In x l -> cnt x l = 0.
Proof. intros H. unfold cnt. rewrite (proj1 (count_occ_not_In N.eq_dec l x)); auto. Qed.
Lemma cnt_in x l : In x l -> 1 <= cnt x l.
Proof. intros H. unfold cnt. apply (count_occ_In N.eq_dec) in H. lia. Qed.

Lemma run_loop_spec l : forall prev longest current,
  StronglySorted N.le (prev :: l) -> current <= longest ->
  let R := run_loop l prev longest current in
  longest <= R /\ current + cnt prev l <= R /\ (forall x, x <> prev -> cnt x l <= R + 1) /\
  (R = longest \/ R = current + cnt prev l \/ exists x, x <> prev /\ cnt x l = R + 1).
Proof.
  induction l as [|c r IH]; intros prev longest current Hs Hc; cbn [run_loop].
  - cbn zeta. rewrite cnt_nil. repeat split; try lia. intros. rewrite cnt_nil. lia.
  - inversion_clear Hs as [|? ? Hs1 Hs2]. inversion_clear Hs2 as [|? ? Hpc Hpr].
    destruct (N.eqb_spec c prev) as [->|Hne].
    + specialize (IH prev (N.max longest (current + 1)) (current + 1) Hs1 ltac:(lia)). cbn zeta in *.
      set (R := run_loop r prev _ _) in *. destruct IH as (H1 & H2 & H3 & H4).
      rewrite cnt_cons, N.eqb_refl. repeat split; try lia.
      * intros x Hx. rewrite cnt_cons. replace (prev =? x) with false by lia. rewrite N.add_0_l. auto.
      * destruct H4 as [H4|[H4|(x & H4 & H5)]]; [lia|lia|].
        right. right. exists x. split; auto. rewrite cnt_cons. replace (prev =? x) with false by lia. lia.
    + specialize (IH c (N.max longest current) 0 Hs1 ltac:(lia)). cbn zeta in *.
      set (R := run_loop r c _ _) in *. destruct IH as (H1 & H2 & H3 & H4).
      assert (Hz : cnt prev r = 0).
      { apply cnt_zero. intros Hin. inversion_clear Hs1. rewrite Forall_forall in *.
        specialize (H0 prev Hin). lia. }
      rewrite cnt_cons. replace (c =? prev) with false by lia. rewrite Hz. repeat split; try lia.
      * intros x Hx. rewrite cnt_cons. destruct (N.eqb_spec c x) as [->|Hcx]; [lia|]. rewrite N.add_0_l. apply H3; auto.
      * destruct H4 as [H4|[H4|(x & H4 & H5)]]; [lia| |].
        -- right. right. exists c. split; auto. rewrite cnt_cons, N.eqb_refl. lia.
        -- right. right. exists x. split; [intros ->; lia|]. rewrite cnt_cons. replace (c =? x) with false by lia. lia.
Qed.
Lemma longest_run_spec l : l <> [] ->
  (forall x, cnt x l <= count_longest_run l + 1) /\ exists x, cnt x l = count_longest_run l + 1.
Proof.
  intros Hl. unfold count_longest_run. pose proof (sortN_perm l) as Hp. pose proof (sortN_sorted l) as Hs.
  destruct (sortN l) as [|k r]; [apply Permutation_nil in Hp; congruence|].
  destruct (run_loop_spec r k 0 0 Hs ltac:(lia)) as (H1 & H2 & H3 & H4). cbn zeta in *.
  set (R := run_loop r k 0 0) in *.
  assert (Hk : cnt k l = 1 + cnt k r) by (rewrite <- (cnt_perm _ _ _ Hp), cnt_cons, N.eqb_refl; lia).
  split.
  - intros x. rewrite <- (cnt_perm _ _ _ Hp), cnt_cons. destruct (N.eqb_spec k x) as [->|Hkx]; [lia|].
    rewrite N.add_0_l. apply H3; auto.
  - destruct H4 as [H4|[H4|(x & H4 & H5)]]; [exists k; lia|exists k; lia|].
    exists x. rewrite <- (cnt_perm _ _ _ Hp), cnt_cons. replace (k =? x) with false by lia. lia.
Qed.
Lemma nodup_cnt l : NoDup l -> l <> [] -> (forall x, cnt x l <= 0 + 1) /\ exists x, cnt x l = 0 + 1.
Proof.
  intros H Hl. assert (Hle : forall x, cnt x l <= 0 + 1).
  { intros x. unfold cnt. rewrite (NoDup_count_occ N.eq_dec) in H. specialize (H x). lia. }
  split; auto. destruct l as [|k r]; [congruence|]. exists k. specialize (Hle k).
  pose proof (cnt_in k (k :: r) ltac:(left; auto)). lia.
Qed.

(** ** The mask *)
Section Mask.
Variable w : N.
Variable keys : list N.
Hypothesis Hw : 0 < w.
Hypothesis Hk : Forall (fun k => k < 2 ^ w) keys.
Hypothesis Hu : NoDup keys.
Hypothesis Hne : keys <> [].

Definition mask_inv (mask run : N) : Prop :=
  mask < 2 ^ w /\ (forall x, cnt x (with_mask w mask keys) <= run + 1) /\
  exists x, cnt x (with_mask w mask keys) = run + 1.

Lemma clearbit_lt m i : m < 2 ^ w -> N.clearbit m i < 2 ^ w.
Proof.
  intros H. apply lt_pow2_bits. intros j Hj. rewrite N.clearbit_eqb, (size_above m j); [reflexivity|].
  pose proof (size_le _ _ H). lia.
Qed.
Lemma with_mask_ne m : with_mask w m keys <> [].
Proof. unfold with_mask. destruct keys; [congruence|discriminate]. Qed.
Lemma map_id_on (f : N -> N) (l : list N) : (forall x, In x l -> f x = x) -> map f l = l.
Proof. induction l as [|x r IH]; intros H; cbn; auto. rewrite H by (left; auto). f_equal. apply IH. intros; apply H; right; auto. Qed.

Lemma first_mask_ok : first_mask w keys < 2 ^ w /\ NoDup (with_mask w (first_mask w keys) keys).
Proof.
  unfold first_mask.
  assert (H0 : N.ones w < 2 ^ w /\ NoDup (with_mask w (N.ones w) keys)).
  { split.
    - rewrite N.ones_equiv. assert (2 ^ w <> 0) by (apply N.pow_nonzero; lia). lia.
    - unfold with_mask. rewrite map_id_on; auto. rewrite Forall_forall in Hk. intros x Hx.
      apply pext_ones; auto. }
  revert H0. generalize (N.ones w). induction (rev (bit_positions w)) as [|b bs IH]; intros m [H1 H2]; cbn [fold_left]; auto.
  apply IH. unfold try_clear. destruct (keys_are_unique _) eqn:Hq; auto.
  apply unique_spec in Hq. split; auto. apply clearbit_lt; auto.
Qed.
Lemma first_inv : mask_inv (first_mask w keys) 0.
Proof.
  destruct first_mask_ok as [H1 H2]. split; auto. apply nodup_cnt; auto. apply with_mask_ne.
Qed.
Lemma shrink_inv fuel M : forall mask run, mask_inv mask run -> run <= (if 1 <? M then M else 0) ->
  let r := shrink fuel w M keys mask run in
  mask_inv (fst r) (snd r) /\ snd r <= (if 1 <? M then M else 0).
Proof.
  induction fuel as [|f IH]; intros mask run H1 H2; cbn [shrink]; [auto|].
  destruct ((1 <? M) && (4 <? popcount w mask)) eqn:Hc; [|auto].
  destruct (N.leb_spec (count_longest_run (with_mask w (remove_cheapest_bit w mask keys) keys)) M) as [Hle|Hgt]; [|auto].
  apply IH.
  - destruct H1 as (H1 & _). split; [apply clearbit_lt; auto|].
    apply longest_run_spec. apply with_mask_ne.
  - destruct (1 <? M) eqn:HM; [lia|discriminate].
Qed.
Lemma calc_inv M :
  mask_inv (fst (calc_mask w M keys)) (snd (calc_mask w M keys)) /\
  snd (calc_mask w M keys) <= (if 1 <? M then M else 0).
Proof. apply shrink_inv; [apply first_inv|]. destruct (1 <? M); lia. Qed.
End Mask.

(** Lemmas on the tables of an indexed service: few constants, narrow fields, validators. *)
From Coq Require Import List Bool Arith ZArith NArith Lia ZifyBool ZifyN ZifyNat Permutation.
From Verif Require Import MatchModel MatchSpec MatchProofs FieldMatchersModel FieldMatchersSpec FieldMatchersProofs HandlerModel HandlerSpec IndexedProofs BakedModel BakedSpec BakedProofs BakedProofs2.
From Verif Require FieldModel LookupModel LookupSpec LookupProofs LookupProofs3 LookupProofs4 LookupProps.
Import ListNotations.
Local Open Scope N_scope.

(** ** At most three keys *)
Lemma run_bound l : forall prev longest current, LookupModel.run_loop l prev longest current <= N.max longest (current + N.of_nat (length l)).
Proof.
  induction l as [|c l IH]; intros prev longest current; cbn [LookupModel.run_loop length]; [lia|].
  specialize (IH c (N.max longest (if c =? prev then current + 1 else current)) (if c =? prev then (if c =? prev then current + 1 else current) else 0)).
  destruct (c =? prev); lia.
Qed.
Lemma longest_bound w m ks : (length ks <= 3)%nat -> LookupModel.count_longest_run (LookupModel.with_mask w m ks) <= 2.
Proof.
  intros H. unfold LookupModel.count_longest_run, LookupModel.with_mask.
  assert (L : length (LookupModel.sortN (map (LookupModel.pext w m) ks)) = length ks) by (rewrite (Permutation_length (LookupProofs3.sortN_perm _)), map_length; auto).
  destruct (LookupModel.sortN _) as [|k r]; [lia|]. cbn [length] in L. pose proof (run_bound r k 0 0). lia.
Qed.
Lemma pop_clear n m i : N.testbit m i = true -> i < N.of_nat n -> LookupModel.popcount_upto n (N.clearbit m i) + 1 = LookupModel.popcount_upto n m.
Proof.
  intros Ht. induction n as [|n IH]; cbn [LookupModel.popcount_upto]; [lia|]. intros Hi.
  destruct (N.eq_dec i (N.of_nat n)) as [->|Hne].
  - rewrite N.clearbit_eq, Ht. 
    assert (E : forall k, (k <= n)%nat -> LookupModel.popcount_upto k (N.clearbit m (N.of_nat n)) = LookupModel.popcount_upto k m).
    { induction k as [|k IHk]; intros Hk; cbn [LookupModel.popcount_upto]; auto. rewrite IHk, N.clearbit_neq by lia. auto. }
    rewrite E by lia. lia.
  - rewrite N.clearbit_neq by auto. specialize (IH ltac:(lia)). lia.
Qed.
Lemma cheapest_in w m ks bs : forall best, (forall i d, best = Some (i, d) -> In i (LookupModel.set_bits w m)) -> (forall i, In i bs -> In i (LookupModel.set_bits w m)) ->
  forall i d, LookupModel.cheapest w m ks bs best = Some (i, d) -> In i (LookupModel.set_bits w m).
Proof.
  induction bs as [|b bs IH]; intros best Hb Hs i d H; cbn [LookupModel.cheapest] in H; [eauto|].
  eapply IH; [| |exact H].
  - intros j e. destruct best as [[j0 d0]|]; [destruct (_ <? _)|]; intros [= <- <-]; eauto; apply Hs; left; auto.
  - intros j Hj. apply Hs. right; auto.
Qed.
Lemma cheapest_some w m ks bs : forall best, best <> None \/ bs <> [] -> LookupModel.cheapest w m ks bs best <> None.
Proof.
  induction bs as [|b bs IH]; intros best H; cbn [LookupModel.cheapest]; [destruct H; congruence|].
  apply IH. left. destruct best as [[? ?]|]; [destruct (_ <? _)|]; discriminate.
Qed.
Lemma set_bits_in w m i : In i (LookupModel.set_bits w m) <-> N.testbit m i = true /\ i < w.
Proof.
  unfold LookupModel.set_bits, LookupModel.bit_positions. rewrite filter_In, in_map_iff. split.
  - intros [(k & <- & K) H]. apply in_seq in K. split; auto. lia.
  - intros [H1 H2]. split; auto. exists (N.to_nat i). rewrite N2Nat.id. split; auto. apply in_seq. lia.
Qed.
Lemma pop_zero w m : LookupModel.set_bits w m = [] -> LookupModel.popcount w m = 0.
Proof.
  intros H. unfold LookupModel.popcount. assert (Z : forall n, (n <= N.to_nat w)%nat -> LookupModel.popcount_upto n m = 0).
  { induction n as [|n IH]; intros Hn; cbn [LookupModel.popcount_upto]; auto. rewrite IH by lia. destruct (N.testbit m (N.of_nat n)) eqn:T; auto.
    assert (I : In (N.of_nat n) (LookupModel.set_bits w m)) by (apply set_bits_in; split; auto; lia). rewrite H in I. destruct I. }
  apply Z. lia.
Qed.
Lemma pop_remove w m ks : 0 < LookupModel.popcount w m -> LookupModel.popcount w (LookupModel.remove_cheapest_bit w m ks) + 1 = LookupModel.popcount w m.
Proof.
  intros H. unfold LookupModel.remove_cheapest_bit.
  assert (Ne : LookupModel.set_bits w m <> []) by (intros E; apply pop_zero in E; lia).
  destruct (LookupModel.cheapest w m ks (LookupModel.set_bits w m) None) as [[i d]|] eqn:C; [|exfalso; eapply cheapest_some; [right; exact Ne|exact C]].
  apply cheapest_in in C; [|intros ? ? [=]|auto]. apply set_bits_in in C. destruct C as [C1 C2]. apply pop_clear; auto. lia.
Qed.
Lemma shrink_few w ks : (length ks <= 3)%nat -> forall fuel m r, LookupModel.popcount w m <= N.of_nat fuel + 4 ->
  LookupModel.popcount w (fst (LookupModel.shrink fuel w 2 ks m r)) <= 4.
Proof.
  intros Hk. induction fuel as [|fuel IH]; intros m r Hm; cbn [LookupModel.shrink]; [cbn [fst]; lia|].
  change (1 <? 2) with true. cbn [andb]. destruct (N.ltb_spec 4 (LookupModel.popcount w m)) as [H|H]; [|cbn [fst]; auto].
  pose proof (longest_bound w (LookupModel.remove_cheapest_bit w m ks) ks Hk) as L. apply N.leb_le in L. rewrite L.
  apply IH. pose proof (pop_remove w m ks). lia.
Qed.
Lemma calc_few w ks : (length ks <= 3)%nat -> LookupModel.popcount w (fst (LookupModel.calc_mask w 2 ks)) <= 4.
Proof. intros H. apply shrink_few; auto. unfold LookupModel.popcount. pose proof (LookupProofs.pc_le (N.to_nat w) (LookupModel.first_mask w ks)). lia. Qed.
Lemma pop_narrow w m : w <= 30 -> LookupModel.popcount w m <= 30.
Proof. intros H. unfold LookupModel.popcount. pose proof (LookupProofs.pc_le (N.to_nat w) m). lia. Qed.
Local Open Scope Z_scope.

(** ** Validators *)
Section Reject.
Context {E : Type}.
Variable ftype : nat -> cty.
Variable fld : nat -> E -> Z.
Variable psem : nat -> E -> bool.
Hypothesis Hty : forall f, cty_ok (ftype f).
Hypothesis Hfld : forall f e, in_range (ftype f) (fld f e).
Lemma collapsed_never fs m : conj_of_leaves m -> positive (Upos ftype) m -> remove_terms ftype fs m = Never -> forall e, eval (leaf_sem fld psem) m e = false.
Proof.
  intros Hc Hp Hn e. destruct (remove_spec ftype fld psem (positive (Upos ftype)) I I (positive_and ftype fld psem Hty Hfld) fs m Hc) as [_ R].
  { intros l Il _. exact (positive_leaf ftype m l Hp Il). }
  specialize (R e). rewrite Hn in R. destruct (eval (leaf_sem fld psem) m e); auto. destruct R as [R _]. destruct (R eq_refl) as (_ & _ & Q). discriminate.
Qed.
End Reject.

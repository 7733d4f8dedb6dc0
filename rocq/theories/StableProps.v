(** C131: simplifying again. *)
From Coq Require Import List Bool Arith ZArith Lia.
From Verif Require Import MatchModel MatchSpec MatchProofs FieldMatchersModel StableSpec StableProofs.
Import ListNotations.

(** In full: [simplify (simplify m) = simplify m], and [m and not m] is never,
    [m or not m] is always, [not not m] is the simplified m. False: [not (a and
    b) or not b] is simplified to [not ((a and b) and b)], and that to [not (a
    and b)]. *)
Theorem C131_refuted : exists m : mexpr nat,
  let simp := simplify nat Nat.eqb Nat.eqb (fun _ => None) in
  let not := op_not nat Nat.eqb Nat.eqb (fun _ => None) in
  simp (simp m) <> simp m /\ not (not m) <> simp m.
Proof. exists (Or (Not (And (Leaf 0) (Leaf 1))) (Not (Leaf 1))). vm_compute. split; discriminate. Qed.
Print Assumptions C131_refuted.
Theorem C131_complement_refuted : exists m : mexpr nat,
  let and := op_and nat Nat.eqb Nat.eqb (fun _ => None) in
  let or := op_or nat Nat.eqb Nat.eqb (fun _ => None) in
  let not := op_not nat Nat.eqb Nat.eqb (fun _ => None) in
  and m (not m) <> Never /\ or m (not m) <> Always.
Proof.
  exists (And (Not (Leaf 0)) (Not (Or (Or (Leaf 0) (Leaf 3)) (Or (Leaf 1) (Leaf 2))))). vm_compute. split; discriminate.
Qed.
Print Assumptions C131_complement_refuted.

(** Simplifying gives the matcher back or a smaller one; so after at most as many
    times as the matcher has parts, nothing changes any more, and what is left
    means the same. *)
Theorem C131_cheaper : forall (L : Type) leqb limpl (lneg : L -> option L) m,
  simplify L leqb limpl lneg m = m \/ size (simplify L leqb limpl lneg m) < size m.
Proof. intros. rewrite !size_cost. apply simplify_cheaper. Qed.
Print Assumptions C131_cheaper.
Theorem C131_settles : forall (L : Type) leqb limpl (lneg : L -> option L) m n, size m <= S n ->
  let simp := simplify L leqb limpl lneg in
  simp (times n simp m) = times n simp m /\ forall k, times k simp (times n simp m) = times n simp m.
Proof.
  intros L leqb limpl lneg m n H. rewrite size_cost in H. pose proof (settles leqb limpl lneg n m H) as E. split; auto.
  intros k. apply times_fixed. exact E.
Qed.
Print Assumptions C131_settles.
Theorem C131_settled_meaning : forall (L E : Type) (sem : L -> E -> bool) leqb limpl lneg (U : L -> Prop),
  truthful sem leqb limpl lneg U -> forall n m, all_leaves U m -> same_meaning sem (times n (simplify L leqb limpl lneg) m) m.
Proof.
  intros L E sem leqb limpl lneg U T. induction n as [|n IH]; intros m Hm e; cbn [times]; auto.
  destruct (simplify_sound sem leqb limpl lneg U T m Hm) as [H1 H2]. rewrite (IH _ H1 e). apply H2.
Qed.
Print Assumptions C131_settled_meaning.

(** Without a written negation the first simplification is final (missing: the
    matchers with negations). *)
Theorem C131_partial : forall (L : Type) leqb limpl (lneg : L -> option L) m, no_not m ->
  simplify L leqb limpl lneg (simplify L leqb limpl lneg m) = simplify L leqb limpl lneg m.
Proof. intros. apply no_not_fixed. auto. Qed.
Print Assumptions C131_partial.
(** Negating twice is simplifying twice, for every matcher. *)
Theorem C131_double_negation : forall (L : Type) leqb limpl (lneg : L -> option L), opposite_leaves limpl lneg -> forall m,
  op_not L leqb limpl lneg (op_not L leqb limpl lneg m) = simplify L leqb limpl lneg (simplify L leqb limpl lneg m).
Proof. intros. apply double_negation. auto. Qed.
Print Assumptions C131_double_negation.
(** The complement laws hold for every matcher, composite ones included, whose
    simplification is final. *)
Theorem C131_complement_partial : forall (L : Type) leqb limpl (lneg : L -> option L), opposite_leaves limpl lneg ->
  (forall a, leqb a a = true) -> (forall a, limpl a a = true) -> forall m,
  simplify L leqb limpl lneg (simplify L leqb limpl lneg m) = simplify L leqb limpl lneg m ->
  op_and L leqb limpl lneg m (op_not L leqb limpl lneg m) = Never /\ op_or L leqb limpl lneg m (op_not L leqb limpl lneg m) = Always.
Proof. intros. apply complement_fixed; auto. Qed.
Print Assumptions C131_complement_partial.

(** For the matchers on message fields, nothing more is needed. *)
Lemma fields_opposite ftype : opposite_leaves (leaf_implies ftype) leaf_neg.
Proof.
  intros [f o v|p] l' H; [|discriminate]. injection H as <-. split; [destruct o; reflexivity|].
  unfold leaf_implies. rewrite Nat.eqb_refl. destruct o; cbn; rewrite ?Z.eqb_refl; auto.
Qed.
Lemma fields_eq l : leaf_eqb l l = true.
Proof. destruct l as [f o v|p]; cbn; rewrite Nat.eqb_refl; auto. rewrite Z.eqb_refl. destruct o; reflexivity. Qed.
Lemma fields_impl ftype l : leaf_implies ftype l l = true.
Proof. destruct l as [f o v|p]; cbn; rewrite Nat.eqb_refl; auto. destruct o; cbn; rewrite ?Z.eqb_refl; auto. Qed.
Theorem C131_fields_partial : forall ftype m, no_not m ->
  fsimplify ftype (fsimplify ftype m) = fsimplify ftype m /\ fand ftype m (fnot ftype m) = Never /\ for_ ftype m (fnot ftype m) = Always /\
  fnot ftype (fnot ftype m) = fsimplify ftype m.
Proof.
  intros ftype m H. assert (E : fsimplify ftype (fsimplify ftype m) = fsimplify ftype m) by (apply C131_partial; auto).
  destruct (C131_complement_partial leaf leaf_eqb (leaf_implies ftype) leaf_neg (fields_opposite ftype) fields_eq (fields_impl ftype) m E) as [A B].
  repeat split; auto. unfold fnot. rewrite C131_double_negation by apply fields_opposite. exact E.
Qed.
Print Assumptions C131_fields_partial.

(** (f = 1 and g < 3) and not (f = 1 and g < 3) *)
Example C131_case : let m := And (Leaf (Rel 0 REq 1)) (Leaf (Rel 1 RLt 3)) in let t := fun _ => CInt 8 false in
  no_not m /\ fsimplify t m = m /\ fnot t m = Not m /\ fand t m (fnot t m) = Never.
Proof. vm_compute. auto. Qed.
(** Three times here: the bound is not met, but once is not enough. *)
Example C131_settles_case : let simp := simplify nat Nat.eqb Nat.eqb (fun _ => None) in
  let m := Or (Not (And (Leaf 0) (Leaf 1))) (Not (Leaf 1)) in
  size m = 7 /\ size (simp m) = 6 /\ size (simp (simp m)) = 4 /\ simp (simp (simp m)) = simp (simp m).
Proof. vm_compute. auto. Qed.
Example C131_opposite_case : opposite_leaves Nat.eqb (fun n : nat => None).
Proof. intros l l' H. discriminate. Qed.

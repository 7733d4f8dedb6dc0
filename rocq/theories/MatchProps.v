(** Property theorems for the match library (C01, C03-C07, C53). *)
From Coq Require Import List Bool Arith.
From Verif Require Import MatchModel MatchSpec MatchProofs.
Import ListNotations.

(** C01: simplification preserves meaning. *)
Theorem C01_simplify_preserves_meaning :
  forall (L E : Type) (sem : L -> E -> bool) leqb limpl lneg (U : L -> Prop),
  truthful sem leqb limpl lneg U ->
  (forall m, all_leaves U m -> same_meaning sem (simplify L leqb limpl lneg m) m) /\
  (forall a b, all_leaves U a -> all_leaves U b ->
     same_meaning sem (op_and L leqb limpl lneg a b) (And a b)) /\
  (forall a b, all_leaves U a -> all_leaves U b ->
     same_meaning sem (op_or L leqb limpl lneg a b) (Or a b)) /\
  (forall a, all_leaves U a -> same_meaning sem (op_not L leqb limpl lneg a) (Not a)) /\
  (forall ms, Forall (all_leaves U) ms -> forall e,
     eval sem (match_all L leqb limpl lneg ms) e = forallb (fun m => eval sem m e) ms) /\
  (forall ms, Forall (all_leaves U) ms -> forall e,
     eval sem (match_any L leqb limpl lneg ms) e = existsb (fun m => eval sem m e) ms).
Proof. exact (@ops_sound). Qed.
Print Assumptions C01_simplify_preserves_meaning.

(** C03: sum_of_products terminates, preserves meaning, and has the right shape. *)
Theorem C03_sum_of_products_meaning :
  forall (L E : Type) (sem : L -> E -> bool) (lneg : L -> option L),
  (forall a b, lneg a = Some b -> forall e, sem b e = negb (sem a e)) ->
  forall m, same_meaning sem (sum_of_products L lneg m) m.
Proof. exact (@sop_eval). Qed.
Print Assumptions C03_sum_of_products_meaning.

Theorem C03_sum_of_products_shape :
  forall (L : Type) (lneg : L -> option L) (m : mexpr L),
  no_double_neg m -> is_sum_of_products (sum_of_products L lneg m).
Proof. exact (fun L lneg m H => dnf_shape (fun _ _ => true) (fun _ _ => true) lneg m H true). Qed.
Print Assumptions C03_sum_of_products_shape.

Theorem C03_recursion_terminates :
  forall (L : Type) (lneg : L -> option L) (m : mexpr L),
  exists n, forall n', n <= n' -> sopF L lneg n' m = Some (sum_of_products L lneg m).
Proof. exact (@sopF_dnf). Qed.
Print Assumptions C03_recursion_terminates.

(** C04: the ordering is sound, and consistent when its arguments are swapped. *)
Theorem C04_ordering_sound :
  forall (L E : Type) (sem : L -> E -> bool) leqb limpl lneg (U : L -> Prop),
  truthful sem leqb limpl lneg U ->
  forall a b, all_leaves U a -> all_leaves U b ->
  match spaceship L leqb limpl lneg a b with
  | Some Lt => entails sem a b
  | Some Gt => entails sem b a
  | Some Eq => same_meaning sem a b
  | None => True
  end.
Proof. exact (@spaceship_sound). Qed.
Print Assumptions C04_ordering_sound.

Theorem C04_ordering_antisymmetric :
  forall (L : Type) leqb limpl (lneg : L -> option L) a b,
  spaceship L leqb limpl lneg b a = option_map CompOpp (spaceship L leqb limpl lneg a b).
Proof. exact (@spaceship_antisym). Qed.
Print Assumptions C04_ordering_antisymmetric.

(** C05 at full strength: [forall X, X <=> X is equivalent].  This is false: *)
Theorem C05_self_equivalence_refuted :
  exists X : mexpr nat,
    spaceship nat Nat.eqb Nat.eqb (fun _ => None) X X = None /\
    op_and nat Nat.eqb Nat.eqb (fun _ => None) X X = And X X.
Proof. exists (And (Leaf 0) (Leaf 1)). vm_compute. auto. Qed.
Print Assumptions C05_self_equivalence_refuted.

(** What does hold: X <=> X is equivalent exactly when the simplified X is not
    an [and] or an [or]; missing from the full property: compound matchers. *)
Theorem C05_self_equivalence_partial :
  forall (L : Type) (leqb limpl : L -> L -> bool) (lneg : L -> option L),
  (forall a, leqb a a = true) -> (forall a, limpl a a = true) ->
  forall m, spaceship L leqb limpl lneg m m =
            if compound (simplify L leqb limpl lneg m) then None else Some Eq.
Proof. exact (@spaceship_self). Qed.
Print Assumptions C05_self_equivalence_partial.

Theorem C05_self_collapse_partial :
  forall (L : Type) (leqb limpl : L -> L -> bool) (lneg : L -> option L),
  (forall a, leqb a a = true) -> (forall a, limpl a a = true) ->
  forall m, compound (simplify L leqb limpl lneg m) = false ->
  op_and L leqb limpl lneg m m = simplify L leqb limpl lneg m /\
  op_or L leqb limpl lneg m m = simplify L leqb limpl lneg m.
Proof. exact (@op_and_self). Qed.
Print Assumptions C05_self_collapse_partial.

(** C06: simplification never raises the cost. *)
Theorem C06_cost_never_increases :
  forall (L : Type) leqb limpl (lneg : L -> option L),
  (forall m, cost (simplify L leqb limpl lneg m) <= cost m) /\
  (forall a b, cost (op_and L leqb limpl lneg a b) <= cost (And a b)) /\
  (forall a b, cost (op_or L leqb limpl lneg a b) <= cost (Or a b)) /\
  (forall a, cost (op_not L leqb limpl lneg a) <= cost (Not a)) /\
  (forall ms, cost (match_all L leqb limpl lneg ms) <= cost (fold_left And ms Always)) /\
  (forall ms, cost (match_any L leqb limpl lneg ms) <= cost (fold_left Or ms Never)).
Proof. exact (@ops_cost). Qed.
Print Assumptions C06_cost_never_increases.

(** C07: constants never survive inside a simplified matcher. *)
Theorem C07_no_redundant_constants :
  forall (L : Type) leqb limpl (lneg : L -> option L) m,
  no_redundant_constants (simplify L leqb limpl lneg m).
Proof. exact (@simplify_nrc). Qed.
Print Assumptions C07_no_redundant_constants.

(** C53: the documented simplification laws. *)
Theorem C53_identity_laws :
  forall (L : Type) leqb limpl (lneg : L -> option L) m,
  let simp := simplify L leqb limpl lneg in
  let and := op_and L leqb limpl lneg in
  let or := op_or L leqb limpl lneg in
  and m Always = simp m /\ and Always m = simp m /\ or m Never = simp m /\ or Never m = simp m /\
  and m Never = Never /\ and Never m = Never /\ or m Always = Always /\ or Always m = Always.
Proof. exact (@identity_laws). Qed.
Print Assumptions C53_identity_laws.

Theorem C53_complement_laws :
  forall (L : Type) (leqb limpl : L -> L -> bool) (lneg : L -> option L),
  (forall a, leqb a a = true) -> (forall a, limpl a a = true) ->
  forall l,
  (forall l', lneg l = Some l' -> lneg l' = Some l /\ limpl l l' = false /\ limpl l' l = false) ->
  op_and L leqb limpl lneg (Leaf l) (op_not L leqb limpl lneg (Leaf l)) = Never /\
  op_or L leqb limpl lneg (Leaf l) (op_not L leqb limpl lneg (Leaf l)) = Always /\
  op_not L leqb limpl lneg (op_not L leqb limpl lneg (Leaf l)) = Leaf l.
Proof. exact (@complement_laws). Qed.
Print Assumptions C53_complement_laws.

Theorem C53_de_morgan_law :
  forall (L : Type) (leqb limpl : L -> L -> bool) (lneg : L -> option L) a b,
  lneg a = None -> lneg b = None -> leqb a b = false -> leqb b a = false ->
  limpl a b = false -> limpl b a = false ->
  op_and L leqb limpl lneg (op_not L leqb limpl lneg (Leaf a)) (op_not L leqb limpl lneg (Leaf b))
  = Not (Or (Leaf a) (Leaf b)).
Proof. exact (@demorgan_law). Qed.
Print Assumptions C53_de_morgan_law.

(** Absorption, [m1 or (m1 and m2)] simplifies to [m1]: full statement (any
    m1) is false, as [m1 = not p] shows; it holds for every leaf m1 and every
    m2.  Missing from the full law: compound or negated m1. *)
Theorem C53_absorption_partial :
  forall (L : Type) (leqb limpl : L -> L -> bool) (lneg : L -> option L),
  (forall a, limpl a a = true) ->
  forall a b, simplify L leqb limpl lneg (Or (Leaf a) (And (Leaf a) b)) = Leaf a.
Proof. exact (@absorption_law). Qed.
Print Assumptions C53_absorption_partial.

Theorem C53_absorption_refuted :
  exists m1 m2 : mexpr nat,
    let and := op_and nat Nat.eqb Nat.eqb (fun _ => None) in
    let or := op_or nat Nat.eqb Nat.eqb (fun _ => None) in
    or m1 (and m1 m2) <> m1.
Proof. exists (Not (Leaf 0)), (Not (Leaf 1)). vm_compute. discriminate. Qed.
Print Assumptions C53_absorption_refuted.

(** ** Concrete cases meeting the hypotheses.
    Leaves [n]: "the event is below n", with truthful implication. *)
Definition lt_sem (n e : nat) : bool := e <? n.
Example lt_truthful : truthful lt_sem Nat.eqb Nat.leb (fun _ => None) (fun _ => True).
Proof.
  split; try discriminate; auto.
  - intros a b H. apply Nat.eqb_eq in H. exact H.
  - intros a b _ _ H e. unfold lt_sem. rewrite Nat.leb_le in H. rewrite !Nat.ltb_lt.
    intros He. eapply Nat.lt_le_trans; eauto.
Qed.
Example C01_case :
  simplify nat Nat.eqb Nat.leb (fun _ => None)
    (And (Or (Leaf 3) (And (Leaf 5) Always)) (Not (Not (Leaf 7)))) = Leaf 5.
Proof. reflexivity. Qed.
Example C03_case :
  sum_of_products nat (fun _ => None) (And (Leaf 1) (Not (And (Leaf 2) (Leaf 3)))) =
  Or (And (Leaf 1) (Not (Leaf 2))) (And (Leaf 1) (Not (Leaf 3))) /\
  no_double_neg (And (Leaf 1) (Not (And (Leaf 2) (Leaf 3)))).
Proof. split; [reflexivity|cbn; auto]. Qed.
Example C04_case :
  spaceship nat Nat.eqb Nat.leb (fun _ => None) (And (Leaf 3) (Leaf 9)) (Or (Leaf 5) (Leaf 4)) = Some Lt.
Proof. reflexivity. Qed.
Example C06_case :
  cost (simplify nat Nat.eqb Nat.eqb (fun _ => None) (And (Not (Leaf 0)) (Not (Leaf 1)))) = 4 /\
  cost (And (Not (Leaf 0)) (Not (Leaf 1))) = 5.
Proof. split; reflexivity. Qed.
Example C07_case :
  simplify nat Nat.eqb Nat.eqb (fun _ => None) (Or (And (Leaf 0) Never) (Leaf 1)) = Leaf 1.
Proof. reflexivity. Qed.
Example C53_case :
  op_and nat Nat.eqb Nat.eqb (fun _ => None) (Or (Leaf 1) (Leaf 2)) Always = Or (Leaf 1) (Leaf 2).
Proof. reflexivity. Qed.

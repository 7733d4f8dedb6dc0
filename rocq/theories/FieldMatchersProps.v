(** Property theorems for field matchers (C02, C22, C54, and C01 at the level
    of field matchers). *)
From Coq Require Import List Bool ZArith Lia.
From Verif Require Import MatchModel MatchSpec MatchProofs FieldMatchersModel FieldMatchersSpec FieldMatchersProofs.
Import ListNotations.
Local Open Scope Z_scope.

(** C02 at full strength:
    [rel_implies t o1 x o2 y = Some true -> rel_holds o1 v x -> rel_holds o2 v y].
    It is false for != against !=: [f != 3] is said to imply [f != 5]. *)
Theorem C02_implication_refuted :
  exists x y v, in_range (CInt 8 false) x /\ in_range (CInt 8 false) y /\ in_range (CInt 8 false) v /\
    rel_implies (CInt 8 false) RNe x RNe y = Some true /\
    rel_holds RNe v x /\ ~ rel_holds RNe v y.
Proof. exists 3, 5, 5. unfold in_range; cbn. repeat split; lia. Qed.
Print Assumptions C02_implication_refuted.

(** It holds for every other pair of operators, all constants, all values, all
    widths and signednesses (missing: != against a different !=). *)
Theorem C02_implication_partial :
  forall t o1 x o2 y v,
  cty_ok t -> in_range t x -> in_range t y -> in_range t v ->
  (o1 = RNe -> o2 = RNe -> x = y) ->
  rel_implies t o1 x o2 y = Some true ->
  rel_holds o1 v x -> rel_holds o2 v y.
Proof. exact rel_implies_sound. Qed.
Print Assumptions C02_implication_partial.

(** Consequence for users: the library's [and] changes the meaning of
    [f != 3 and f != 5], which becomes [f != 3]. *)
Theorem C02_field_and_refuted :
  exists (m : fexpr),
    fsimplify (fun _ => CInt 8 false) m = Leaf (Rel 0 RNe 3) /\
    eval (leaf_sem (fun _ e => e) (fun _ _ => true)) (fsimplify (fun _ => CInt 8 false) m) 5 = true /\
    eval (leaf_sem (fun _ e => e) (fun _ _ => true)) m 5 = false.
Proof. exists (And (Leaf (Rel 0 RNe 3)) (Leaf (Rel 0 RNe 5))). vm_compute. auto. Qed.
Print Assumptions C02_field_and_refuted.

(** Simplification of field matchers preserves meaning when each field is
    compared with == and != against one constant only ... *)
Theorem C01_field_one_constant_partial :
  forall (E : Type) (ftype : nat -> cty) (fld : nat -> E -> Z) (psem : nat -> E -> bool),
  (forall f, cty_ok (ftype f)) -> (forall f e, in_range (ftype f) (fld f e)) ->
  forall (c : nat -> Z) m,
  all_leaves (fun l => leaf_in_range ftype l /\ one_eq_constant c l) m ->
  same_meaning (leaf_sem fld psem) (fsimplify ftype m) m.
Proof.
  exact (fun E ftype fld psem Ht Hf c => proj1 (ops_sound _ _ _ _ _ (truthful_one ftype fld psem Ht Hf c))).
Qed.
Print Assumptions C01_field_one_constant_partial.

(** ... and for every expression without [not] and != (any constants). *)
Theorem C01_field_positive_partial :
  forall (E : Type) (ftype : nat -> cty) (fld : nat -> E -> Z) (psem : nat -> E -> bool),
  (forall f, cty_ok (ftype f)) -> (forall f e, in_range (ftype f) (fld f e)) ->
  forall m, positive (fun l => leaf_in_range ftype l /\ not_ne l) m ->
  same_meaning (leaf_sem fld psem) (fsimplify ftype m) m.
Proof. exact (fun E ftype fld psem Ht Hf m H => proj2 (positive_sound ftype fld psem Ht Hf m H)). Qed.
Print Assumptions C01_field_positive_partial.

(** C22 at full strength: every with_* constraint accepts exactly what it says.
    False for with_less_than: *)
Theorem C22_with_less_than_refuted :
  exists f v (e : Z),
    eval (leaf_sem (fun _ e => e) (fun _ _ => true)) (constraint_matcher (fun _ => CInt 32 false) f (WithLessThan v)) e = true /\
    ~ constraint_holds (fun _ e => e) (fun _ _ => true) f (WithLessThan v) e.
Proof. exists 0%nat, 5, 5. split; [reflexivity|cbn; lia]. Qed.
Print Assumptions C22_with_less_than_refuted.

(** Every other constraint is exact (missing: with_less_than, which accepts
    one value too many, see C22_with_less_than_actual). *)
Theorem C22_constraints_partial :
  forall (E : Type) (ftype : nat -> cty) (fld : nat -> E -> Z) (psem : nat -> E -> bool),
  (forall f, cty_ok (ftype f)) -> (forall f e, in_range (ftype f) (fld f e)) ->
  forall f c e,
  match c with WithIn vs => Forall (in_range (ftype f)) vs | _ => True end ->
  (forall v, c <> WithLessThan v) ->
  (eval (leaf_sem fld psem) (constraint_matcher ftype f c) e = true <-> constraint_holds fld psem f c e).
Proof. exact (@constraint_sound). Qed.
Print Assumptions C22_constraints_partial.

Theorem C22_with_less_than_actual :
  forall (E : Type) (ftype : nat -> cty) (fld : nat -> E -> Z) (psem : nat -> E -> bool) f v e,
  eval (leaf_sem fld psem) (constraint_matcher ftype f (WithLessThan v)) e = true <-> fld f e <= v.
Proof. exact (@with_less_than_actual). Qed.
Print Assumptions C22_with_less_than_actual.

(** C54: the documented relational simplifications, for all constants. *)
Theorem C54_lt_and_gt :
  forall ftype f w s, ftype f = CInt w s -> 1 <= w ->
  forall a b, in_range (CInt w s) a -> in_range (CInt w s) b -> b < cmax (CInt w s) ->
  fand ftype (Leaf (Rel f RLt a)) (Leaf (Rel f RGt b)) =
  if a <=? b + 1 then Never else And (Leaf (Rel f RLt a)) (Leaf (Rel f RGt b)).
Proof. exact lt_and_gt. Qed.
Print Assumptions C54_lt_and_gt.
Theorem C54_lt_or_gt :
  forall ftype f a b,
  for_ ftype (Leaf (Rel f RLt a)) (Leaf (Rel f RGt b)) =
  if b <? a then Always else Or (Leaf (Rel f RLt a)) (Leaf (Rel f RGt b)).
Proof. exact lt_or_gt. Qed.
Print Assumptions C54_lt_or_gt.
Theorem C54_lt_and_lt :
  forall ftype f a b,
  fand ftype (Leaf (Rel f RLt a)) (Leaf (Rel f RLt b)) = Leaf (Rel f RLt (Z.min a b)).
Proof. exact lt_and_lt. Qed.
Print Assumptions C54_lt_and_lt.
Theorem C54_lt_or_lt :
  forall ftype f a b,
  for_ ftype (Leaf (Rel f RLt a)) (Leaf (Rel f RLt b)) = Leaf (Rel f RLt (Z.max a b)).
Proof. exact lt_or_lt. Qed.
Print Assumptions C54_lt_or_lt.
Theorem C54_eq_and_eq :
  forall ftype f a b,
  fand ftype (Leaf (Rel f REq a)) (Leaf (Rel f REq b)) =
  if a =? b then Leaf (Rel f REq a) else Never.
Proof. exact eq_and_eq. Qed.
Print Assumptions C54_eq_and_eq.

(** ** Concrete cases. *)
Example C02_case : (* u32: f < 4 implies f <= 3, with the increment wrapping only at the top *)
  rel_implies (CInt 32 false) RLt 4 RLe 3 = Some true /\
  rel_implies (CInt 32 false) RLt 5 RLe (2 ^ 32 - 1) = Some false /\
  in_range (CInt 32 false) (2 ^ 32 - 1).
Proof. vm_compute. repeat split; discriminate. Qed.
Example C02_overflow_case : (* the increment of INT_MAX is not a constant expression *)
  rel_implies (CInt 32 true) RGt (2 ^ 31 - 1) RGe 0 = None.
Proof. reflexivity. Qed.
Definition ev_fld (f : nat) (e : bool) : Z := if e then 7 else 2.
Example ev_in_range : (forall f e, in_range (CInt 8 false) (ev_fld f e)) /\ cty_ok (CInt 8 false).
Proof. split; [intros f [|]|]; unfold in_range; cbn; lia. Qed.
Example C01_field_one_constant_case :
  let m := And (Not (Leaf (Rel 0 REq 7))) (Or (Leaf (Rel 0 RLt 7)) (Leaf (Rel 0 RGe 9))) in
  all_leaves (fun l => leaf_in_range (fun _ => CInt 8 false) l /\ one_eq_constant (fun _ => 7) l) m /\
  fsimplify (fun _ => CInt 8 false) m = And (Leaf (Rel 0 RNe 7)) (Or (Leaf (Rel 0 RLt 7)) (Leaf (Rel 0 RGe 9))).
Proof. cbn. unfold in_range; cbn. repeat split; lia. Qed.
Example C01_field_positive_case :
  let m := And (Or (Leaf (Rel 0 REq 1)) (Leaf (Rel 0 REq 2))) (And (Leaf (Rel 0 RLt 5)) (Leaf (Rel 0 RLt 9))) in
  positive (fun l => leaf_in_range (fun _ => CInt 8 false) l /\ not_ne l) m /\
  fsimplify (fun _ => CInt 8 false) m = And (Or (Leaf (Rel 0 REq 1)) (Leaf (Rel 0 REq 2))) (Leaf (Rel 0 RLt 5)).
Proof. cbn. unfold in_range; cbn. repeat split; lia. Qed.
Example C22_case :
  constraint_matcher (fun _ => CInt 8 false) 0 (WithIn [1; 2; 2]) =
  Or (Leaf (Rel 0 REq 1)) (Leaf (Rel 0 REq 2)).
Proof. reflexivity. Qed.
Example C54_case : fand (fun _ => CInt 8 false) (Leaf (Rel 0 RLt 3)) (Leaf (Rel 0 RGt 5)) = Never.
Proof. reflexivity. Qed.

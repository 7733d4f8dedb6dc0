(** Specification vocabulary for field matchers: values in range, what a leaf
    means on an event, and what each with_* constraint promises. *)
From Coq Require Import List Bool ZArith.
From Verif Require Import MatchModel MatchSpec FieldMatchersModel.
Import ListNotations.
Local Open Scope Z_scope.

(** [v] is a value of type [t]. *)
Definition in_range (t : cty) (v : Z) : Prop := cmin t <= v <= cmax t.
Definition cty_ok (t : cty) : Prop :=
  match t with CInt w _ | CEnum w _ => 1 <= w | CBool => True end.

(** The relation each operator stands for. *)
Definition rel_holds (o : relop) (v x : Z) : Prop :=
  match o with
  | RLt => v < x | RLe => v <= x | RGt => v > x | RGe => v >= x
  | REq => v = x | RNe => v <> x
  end.

Section Sem.
Context {E : Type}.
(** The value of each field of an event, and the user's predicates. *)
Variable fld : nat -> E -> Z.
Variable psem : nat -> E -> bool.

(** operator() of rel_matcher_t (field_matchers.hpp:147-150) and of the
    predicate matchers (348-351; predicate.hpp:20-23). *)
Definition leaf_sem (l : leaf) (e : E) : bool :=
  match l with
  | Rel f o v => relb o (fld f e) v
  | Pred p => psem p e
  end.

(** What a constraint on field [f] promises about an accepted message. *)
Definition constraint_holds (f : nat) (c : constraint) (e : E) : Prop :=
  match c with
  | WithEqualTo v => fld f e = v
  | WithIn vs => In (fld f e) vs
  | WithGreaterThan v => fld f e > v
  | WithGreaterThanOrEqualTo v => fld f e >= v
  | WithLessThan v => fld f e < v
  | WithLessThanOrEqualTo v => fld f e <= v
  | WithPredicate p => psem p e = true
  | WithRequired v => fld f e = v
  end.
End Sem.

Definition leaf_in_range (ftype : nat -> cty) (l : leaf) : Prop :=
  match l with Rel f _ v => in_range (ftype f) v | Pred _ => True end.

(** At most one constant per field is used with == and !=. *)
Definition one_eq_constant (c : nat -> Z) (l : leaf) : Prop :=
  match l with Rel f (REq | RNe) v => v = c f | _ => True end.

(** Not a != matcher. *)
Definition not_ne (l : leaf) : Prop :=
  match l with Rel _ RNe _ => False | _ => True end.

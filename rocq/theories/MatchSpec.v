(** Independent specification of match expressions: what a boolean expression
    over leaf matchers means, and the syntactic shapes promised by the
    documentation.  Nothing here refers to [simplify], [implies] or
    [sum_of_products]. *)
From Coq Require Import List Bool.
From Verif Require Import MatchModel.
Import ListNotations.

Section Spec.
Context {L E : Type}.
Variable sem : L -> E -> bool.

(** operator() of and_t (and.hpp:21-24), or_t (or.hpp:21-24), not_t
    (not.hpp:23-26), always_t/never_t (constant.hpp:18-20, 39-41). *)
Fixpoint eval (m : mexpr L) (e : E) : bool :=
  match m with
  | Leaf l => sem l e
  | Always => true
  | Never => false
  | And a b => eval a e && eval b e
  | Or a b => eval a e || eval b e
  | Not a => negb (eval a e)
  end.

(** Two expressions accept the same events. *)
Definition same_meaning (a b : mexpr L) : Prop := forall e, eval a e = eval b e.
(** Every event accepted by [a] is accepted by [b]. *)
Definition entails (a b : mexpr L) : Prop := forall e, eval a e = true -> eval b e = true.

(** All leaves satisfy [U]. *)
Fixpoint all_leaves (U : L -> Prop) (m : mexpr L) : Prop :=
  match m with
  | Leaf l => U l
  | Always | Never => True
  | And a b | Or a b => all_leaves U a /\ all_leaves U b
  | Not a => all_leaves U a
  end.

(** A leaf vocabulary whose customisation points tell the truth. *)
Record truthful (leqb : L -> L -> bool) (limpl : L -> L -> bool)
       (lneg : L -> option L) (U : L -> Prop) : Prop := {
  t_eq : forall a b, leqb a b = true -> a = b;
  t_impl : forall a b, U a -> U b -> limpl a b = true ->
           forall e, sem a e = true -> sem b e = true;
  t_neg : forall a b, lneg a = Some b -> forall e, sem b e = negb (sem a e);
  t_closed : forall a b, U a -> lneg a = Some b -> U b
}.
End Spec.

Section Shapes.
Context {L : Type}.
(** No constant anywhere. *)
Fixpoint const_free (m : mexpr L) : Prop :=
  match m with
  | Leaf _ => True
  | Always | Never => False
  | And a b | Or a b => const_free a /\ const_free b
  | Not a => const_free a
  end.
Definition no_redundant_constants (m : mexpr L) : Prop :=
  m = Always \/ m = Never \/ const_free m.

(** No double negation anywhere. *)
Fixpoint no_double_neg (m : mexpr L) : Prop :=
  match m with
  | Leaf _ | Always | Never => True
  | And a b | Or a b => no_double_neg a /\ no_double_neg b
  | Not (Not _) => False
  | Not a => no_double_neg a
  end.

Definition is_literal (m : mexpr L) : Prop :=
  match m with
  | Leaf _ | Always | Never => True
  | Not (Leaf _) | Not Always | Not Never => True
  | _ => False
  end.
Fixpoint is_product (m : mexpr L) : Prop :=
  match m with
  | And a b => is_product a /\ is_product b
  | _ => is_literal m
  end.
Fixpoint is_sum_of_products (m : mexpr L) : Prop :=
  match m with
  | Or a b => is_sum_of_products a /\ is_sum_of_products b
  | _ => is_product m
  end.
End Shapes.

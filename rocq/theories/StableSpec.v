(** Specification for C131: when simplifying again changes nothing. *)
From Coq Require Import List Bool Arith.
From Verif Require Import MatchModel.

Section Spec.
Context {L : Type}.
(** No negation is written. *)
Fixpoint no_not (m : mexpr L) : Prop :=
  match m with
  | Leaf _ | Always | Never => True
  | And a b | Or a b => no_not a /\ no_not b
  | Not _ => False
  end.
(** How many matchers, operators and constants are written (this is what
    match::cost counts for leaves that do not say otherwise). *)
Fixpoint size (m : mexpr L) : nat :=
  match m with
  | Leaf _ | Always | Never => 1
  | And a b | Or a b => size a + size b + 1
  | Not a => size a + 1
  end.
(** A leaf that customises match::negate: negating twice gives it back, and the
    leaf and its negation do not imply one another. *)
Definition opposite_leaves (limpl : L -> L -> bool) (lneg : L -> option L) : Prop :=
  forall l l', lneg l = Some l' -> lneg l' = Some l /\ limpl l l' = false /\ limpl l' l = false.
(** n times. *)
Fixpoint times {A} (n : nat) (f : A -> A) (x : A) : A := match n with 0 => x | S n => times n f (f x) end.
End Spec.

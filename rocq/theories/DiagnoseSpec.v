(** Specification of the errors of flows. *)
From Coq Require Import String Bool Arith List Permutation Relations.
From Verif Require Import FlowModel FlowSpec.
Import ListNotations.

(** An order of names: it loses and repeats none. *)
Definition permutes (sorts : list string -> list string) : Prop := forall l, Permutation l (sorts l).
(** The list has exactly the things that are so, each once, and there are some. *)
Definition exactly {A} (l : list A) (P : A -> Prop) : Prop := l <> [] /\ NoDup l /\ forall x, In x l <-> P x.
(** The edge from x to y is part of a cycle. *)
Definition on_cycle {A} (R : A -> A -> Prop) (x y : A) : Prop := R x y /\ clos_refl_trans A R y x.
(** It is part of a cycle or comes after one. *)
Definition after_cycle {A} (R : A -> A -> Prop) (x y : A) : Prop :=
  R x y /\ exists z, clos_trans A R z z /\ clos_refl_trans A R z x.
(** A sequence of the description that asks for less than its steps: [a] and [b] are
    the steps added under the names it puts in sequence. *)
Definition lacks (b : builder) (ns : list node) (c : cond) (x y : node) (p : nat) : Prop :=
  In x ns /\ In y ns /\ (exists l r, in_sequence b c l r /\ leaf_name l = n_name x /\ leaf_name r = n_name y) /\
  (In p (c_preds (n_cond x)) \/ In p (c_preds (n_cond y))) /\ ~ In p (c_preds c).

(** Specification vocabulary for the ordering of matchers
    (include/match/ops.hpp:32-43, docs/match.adoc:366-383). *)
From Coq Require Import List Bool ZArith.
From Verif Require Import FieldMatchersModel FieldMatchersSpec.
Local Open Scope Z_scope.

(** The answer of [a <=> c] that [a <=> b] and [b <=> c] force when both point
    the same way: strict as soon as one of them is. *)
Definition composed (p q : comparison) : comparison := match p with Eq => q | p => p end.

(** [v + 1] is a value of the type in which it is computed
    (include/msg/field_matchers.hpp:229-230, 244-245). *)
Definition has_successor (t : cty) (v : Z) : Prop := match t with CInt w _ => w < 32 \/ v < cmax t | _ => True end.

(** Constants of <= and > have a successor
    (include/msg/field_matchers.hpp:218-259). *)
Definition successors (ftype : nat -> cty) (l : leaf) : Prop :=
  match l with Rel f (RLe | RGt) v => has_successor (ftype f) v | _ => True end.

(** A leaf with a constant of the field's type, one constant per field for ==
    and !=, and a successor where one is taken
    (include/msg/field_matchers.hpp:185-191, 218-259). *)
Definition order_leaf (ftype : nat -> cty) (c : nat -> Z) (l : leaf) : Prop :=
  leaf_in_range ftype l /\ one_eq_constant c l /\ successors ftype l.

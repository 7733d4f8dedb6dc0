(** Model of field definitions made step by step, and of the conditions that come
    with them: the aliases of field_t (include/msg/field.hpp), message::matcher_t
    (include/msg/message.hpp) and extract_field (include/msg/field_matchers.hpp).

    Simplifications: value types are unsigned integers; with_less_than (C22),
    with_predicate and with_matcher are left out; the matcher of a message is
    evaluated as it is put together, before simplification (C01, C02, C19). *)
From Coq Require Import List NArith Bool Arith.
From Verif Require Import MatchModel FieldModel MessageModel.
Import ListNotations.
Local Open Scope N_scope.

(** equal_to_t, in_t, greater_than_t, greater_than_or_equal_to_t,
    less_than_or_equal_to_t (include/msg/field_matchers.hpp:143-151, 334-337). *)
Inductive constraint := KEq (v : N) | KIn (vs : list N) | KGt (v : N) | KGe (v : N) | KLe (v : N).
(** rel_matcher_t::operator() (include/msg/field_matchers.hpp:147-150), and the or of in_t
    (include/msg/field_matchers.hpp:334-336). *)
Definition meets (k : constraint) (x : N) : bool :=
  match k with
  | KEq v => x =? v
  | KIn vs => existsb (fun v => x =? v) vs
  | KGt v => v <? x
  | KGe v => v <=? x
  | KLe v => x <=? v
  end.

(** A field type (include/msg/field.hpp:397-404): its name, value type, default and places
    are those of [c_field]; its matcher is about another field type, the one it
    was given to. *)
Record cfield := { c_field : mfield; c_matcher : option (mfield * constraint) }.
(** field<Name, T> (include/msg/field.hpp:569-572), T of [b] bytes. *)
Definition fresh (name : nat) (b : N) : cfield :=
  {| c_field := {| f_name := name; f_bytes := b; f_default := DDefault 0; f_match := Always; f_ats := [] |}; c_matcher := None |}.

(** The aliases of field_t (include/msg/field.hpp:475-555). *)
Inductive fop :=
| Located (ats : list at_)       (* located<ats...>, default_located *)
| Shifted (n : N)                (* shifted_by<n> *)
| Named (n : nat)                (* with_new_name<n> *)
| Typed (b : N)                  (* with_new_type<U>, U of b bytes *)
| Defaulted (d : fdefault)       (* with_default, with_const_default, without_default, uninitialized *)
| Constrained (k : constraint)   (* with_equal_to, with_in, with_greater_than, ... *)
| Required (v : N).              (* with_required<v> *)

(** A field type like another but for some parts (include/msg/field.hpp:475-555). *)
Definition like (f : mfield) (name : nat) (b : N) (d : fdefault) (ats : list at_) : mfield :=
  {| f_name := name; f_bytes := b; f_default := d; f_match := f_match f; f_ats := ats |}.
(** compatible_with_default (include/msg/field.hpp:356-374, 386-387). *)
Definition compatible (d : fdefault) (v : N) : bool := match d with DConst x => x =? v | _ => true end.
(** The constraints of with_equal_to and with_in (include/msg/field.hpp:494-502), and that the
    constants are values of the type, as template arguments. *)
Definition constraint_ok (f : mfield) (k : constraint) : bool :=
  let fits v := v <? 2 ^ (8 * f_bytes f) in
  match k with
  | KEq v => fits v && compatible (f_default f) v
  | KIn vs => forallb fits vs && existsb (compatible (f_default f)) vs
  | KGt v | KGe v | KLe v => fits v
  end.
(** The value of a default is one of the type (include/msg/field.hpp:356-364, 478-485). *)
Definition default_ok (f : mfield) (d : fdefault) : bool :=
  match d with DDefault v | DConst v => v <? 2 ^ (8 * f_bytes f) | _ => true end.
(** include/msg/field.hpp:475-555; the field type must be well formed (include/msg/field.hpp:411-414). *)
Definition fstep (o : fop) (c : cfield) : option cfield :=
  let f := c_field c in
  let made g m := if field_valid g then Some {| c_field := g; c_matcher := m |} else None in
  match o with
  | Located ats => made (like f (f_name f) (f_bytes f) (f_default f) ats) (c_matcher c)
  | Shifted n => made (like f (f_name f) (f_bytes f) (f_default f) (map (at_shift n) (f_ats f))) (c_matcher c)
  | Named n => made (like f n (f_bytes f) (f_default f) (f_ats f)) (c_matcher c)
  | Typed b => made (like f (f_name f) b (DDefault 0) (f_ats f)) None
  | Defaulted d => if default_ok f d then made (like f (f_name f) (f_bytes f) d (f_ats f)) (c_matcher c) else None
  | Constrained k => if constraint_ok f k then made f (Some (f, k)) else None
  | Required v =>
    if v <? 2 ^ (8 * f_bytes f) then made (like f (f_name f) (f_bytes f) (DConst v) (f_ats f)) (Some (f, KEq v)) else None
  end.
(** include/msg/field.hpp:475-555 *)
Fixpoint frun (os : list fop) (c : cfield) : option cfield :=
  match os with
  | [] => Some c
  | o :: r => match fstep o c with Some c' => frun r c' | None => None end
  end.

(** ** The condition of a message *)
Section Condition.
Variable es : N.
(** extract_field (include/msg/field_matchers.hpp:134-141): of raw data, from the places of
    the field type; of a message with fields [fs], the field of its name. *)
Definition read_field (fs : option (list mfield)) (g : mfield) (st : list N) : option (outcome N) :=
  match fs with
  | None => Some (field_extract es (f_ew g) (f_locs g) st)
  | Some l => m_get es l (f_name g) st
  end.
(** The matchers of the fields, all of them (include/msg/message.hpp:620). *)
Definition matchers (m : list cfield) : list (mfield * constraint) :=
  flat_map (fun c => match c_matcher c with Some q => [q] | None => [] end) m.
(** Evaluated from left to right (include/match/and.hpp:35-38). *)
Fixpoint all_meet (fs : option (list mfield)) (qs : list (mfield * constraint)) (st : list N) : outcome bool :=
  match qs with
  | [] => Done true
  | (g, k) :: r =>
    match read_field fs g st with
    | Some o => let! x := o in if meets k x then all_meet fs r st else Done false
    | None => OutOfFuel
    end
  end.
(** callback::is_match of a callback without a condition of its own
    (include/msg/callback.hpp:26-28, 92-97), given an array ([raw]) or a message. *)
Definition message_matches (raw : bool) (m : list cfield) (st : list N) : option (outcome bool) :=
  let fs := if raw then None else Some (map c_field m) in
  if forallb (fun q => match read_field fs (fst q) st with Some _ => true | None => false end) (matchers m)
  then Some (all_meet fs (matchers m) st) else None.
End Condition.

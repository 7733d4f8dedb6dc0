(** What field definitions made step by step are meant to be. *)
From Coq Require Import List NArith Bool Arith.
From Verif Require Import FieldModel FieldSpec FieldProofs2 MessageModel MessageSpec FieldOpsModel.
Import ListNotations.
Local Open Scope N_scope.

(** The constraint a definition asks for: the last one, since the type was given. *)
Fixpoint asked (before : option constraint) (os : list fop) : option constraint :=
  match os with
  | [] => before
  | Constrained k :: r => asked (Some k) r
  | Required v :: r => asked (Some (KEq v)) r
  | Typed _ :: r => asked None r
  | _ :: r => asked before r
  end.
(** The name, type and default it asks for: the last ones. *)
Fixpoint name_asked (n : nat) (os : list fop) : nat :=
  match os with [] => n | Named k :: r => name_asked k r | _ :: r => name_asked n r end.
Fixpoint bytes_asked (b : N) (os : list fop) : N :=
  match os with [] => b | Typed k :: r => bytes_asked k r | _ :: r => bytes_asked b r end.
Fixpoint default_asked (d : fdefault) (os : list fop) : fdefault :=
  match os with
  | [] => d
  | Defaulted e :: r => default_asked e r
  | Required v :: r => default_asked (DConst v) r
  | Typed _ :: r => default_asked (DDefault 0) r
  | _ :: r => default_asked d r
  end.
(** Its places: those last given, moved by the shifts since. *)
Fixpoint places_asked (l : list at_) (os : list fop) : list at_ :=
  match os with
  | [] => l
  | Located ats :: r => places_asked ats r
  | Shifted n :: r => places_asked (map (fun a => {| a_msb := a_msb a + n; a_lsb := a_lsb a + n |}) l) r
  | _ :: r => places_asked l r
  end.

(** A value that satisfies a constraint. *)
Definition satisfies (x : N) (k : constraint) : Prop :=
  match k with
  | KEq v => x = v
  | KIn vs => In x vs
  | KGt v => v < x
  | KGe v => v <= x
  | KLe v => x <= v
  end.
(** A definition: field<name, T of b bytes> and what is done with it. *)
Record definition := { d_name : nat; d_bytes : N; d_ops : list fop }.
Definition defines (d : definition) (c : cfield) : Prop := frun (d_ops d) (fresh (d_name d) (d_bytes d)) = Some c.
(** After the last constraint there is no change of place (of name). *)
Fixpoint place_kept (ok : bool) (os : list fop) : bool :=
  match os with
  | [] => ok
  | (Constrained _ | Required _ | Typed _) :: r => place_kept true r
  | (Located _ | Shifted _) :: r => place_kept false r
  | _ :: r => place_kept ok r
  end.
Fixpoint name_kept (ok : bool) (os : list fop) : bool :=
  match os with
  | [] => ok
  | (Constrained _ | Required _ | Typed _) :: r => name_kept true r
  | Named _ :: r => name_kept false r
  | _ :: r => name_kept ok r
  end.
(** The name and the places when the last constraint was given. *)
Fixpoint constrained_at (n : nat) (l : list at_) (before : option (nat * list at_ * constraint)) (os : list fop) : option (nat * list at_ * constraint) :=
  match os with
  | [] => before
  | Constrained k :: r => constrained_at n l (Some (n, l, k)) r
  | Required v :: r => constrained_at n l (Some (n, l, KEq v)) r
  | Typed _ :: r => constrained_at n l None r
  | Located ats :: r => constrained_at n ats before r
  | Shifted k :: r => constrained_at n (map (fun a => {| a_msb := a_msb a + k; a_lsb := a_lsb a + k |}) l) before r
  | Named k :: r => constrained_at k l before r
  | Defaulted _ :: r => constrained_at n l before r
  end.
(** The value that data has at some places. *)
Definition value_at (es : N) (st : list N) (l : list at_) : N := concat_value (image es st) (map at_loc l).
(** The place, the name and the constraint of the last constraint of a definition. *)
Definition constraint_of (d : definition) : option (nat * list at_ * constraint) := constrained_at (d_name d) [] None (d_ops d).
(** The name that a definition ends up with. *)
Definition final_name (d : definition) : nat := name_asked (d_name d) (d_ops d).
Definition final_places (d : definition) : list at_ := places_asked [] (d_ops d).
(** The field of a definition has a value that the definition asks for. *)
Definition obeys (es : N) (st : list N) (d : definition) : Prop :=
  forall k, asked None (d_ops d) = Some k -> satisfies (value_at es st (final_places d)) k.

(** The steps that make sense for a field of [b] bytes with default [d] at [l]. *)
Definition holds (b v : N) : Prop := v < 2 ^ (8 * b).
Definition allows (d : fdefault) (v : N) : Prop := forall x, d = DConst x -> x = v.
Definition room (b : N) (l : list at_) : Prop :=
  b <= 8 /\ (forall a, In a l -> a_lsb a <= a_msb a /\ a_msb a < a_lsb a + 64) /\
  fold_right N.add 0 (map (fun a => a_msb a + 1 - a_lsb a) l) <= 8 * b.
Definition sensible (b : N) (d : fdefault) (l : list at_) (o : fop) : Prop :=
  match o with
  | Located ats => room b ats
  | Shifted _ | Named _ => True
  | Typed b' => room b' l
  | Defaulted (DDefault v) | Defaulted (DConst v) => holds b v
  | Defaulted _ => True
  | Constrained (KEq v) => holds b v /\ allows d v
  | Constrained (KIn vs) => Forall (holds b) vs /\ Exists (allows d) vs
  | Constrained (KGt v) | Constrained (KGe v) | Constrained (KLe v) => holds b v
  | Required v => holds b v
  end.

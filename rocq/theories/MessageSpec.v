(** Specification vocabulary for messages. *)
From Coq Require Import List NArith Bool Permutation.
From Verif Require Import FieldModel FieldSpec FieldProofs2 MessageModel.
Import ListNotations.
Local Open Scope N_scope.

Definition width (f : mfield) : N := total_size (f_locs f).
(** The field's value in a storage, read off the bit image. *)
Definition value_in (es : N) (st : list N) (f : mfield) : N := concat_value (image es st) (f_locs f).
Definition fcovers (f : mfield) (k : N) : Prop := covers (f_locs f) k.
Definition covered (fs : list mfield) (k : N) : Prop := exists f, In f fs /\ fcovers f k.
Definition fields_disjoint (f g : mfield) : Prop := forall k, fcovers f k -> ~ fcovers g k.

(** The value a field gets when none is supplied. *)
Definition default_of (d : fdefault) : option N :=
  match d with DDefault v => Some v | DConst v => Some v | DWithout => None | DUninit => None end.

(** A field accepted by the library, whose default is a value of its type and
    whose own locations do not overlap. *)
Definition field_good (f : mfield) : Prop :=
  field_valid f = true /\ disjoint_locs (f_locs f) /\
  (forall v, default_of (f_default f) = Some v -> v < 2 ^ (8 * f_bytes f)).
(** A message with distinct names and non-overlapping fields. *)
Definition msg_good (fs : list mfield) : Prop :=
  NoDup (map f_name fs) /\ Forall field_good fs /\
  (forall f g, In f fs -> In g fs -> f_name f <> f_name g -> fields_disjoint f g).

Definition fields_fit (n : N) (fs : list mfield) : Prop := forall f, In f fs -> fits n (f_locs f).

(** The last value supplied for a name. *)
Definition supplied (vs : list (nat * N)) (n : nat) : option N :=
  fold_left (fun acc nv => if Nat.eqb (fst nv) n then Some (snd nv) else acc) vs None.

(** What a freshly constructed message must hold. *)
Definition expected (vs : list (nat * N)) (f : mfield) : N :=
  match supplied vs (f_name f) with
  | Some v => v mod 2 ^ width f
  | None => match default_of (f_default f) with Some v => v mod 2 ^ width f | None => 0 end
  end.
(** What a message must hold after setting values over an old storage. *)
Definition updated (es : N) (old : list N) (vs : list (nat * N)) (f : mfield) : N :=
  match supplied vs (f_name f) with
  | Some v => v mod 2 ^ width f
  | None => value_in es old f
  end.

(** Sort keys. *)
Definition key_of (f : mfield) : N := match sort_key f with Some k => k | None => 0 end.

(** Specification of fields against the little-endian bit image of a message. *)
From Coq Require Import List NArith Bool.
From Verif Require Import FieldModel.
Import ListNotations.
Local Open Scope N_scope.

(** The message as one number: element [i] supplies bits [es*i ..]. *)
Fixpoint image (es : N) (st : list N) : N :=
  match st with
  | [] => 0
  | e :: r => e + 2 ^ es * image es r
  end.

(** A storage whose elements are values of an [es]-bit type. *)
Definition storage_ok (es : N) (st : list N) : Prop := Forall (fun e => e < 2 ^ es) st.
Definition elem_width (es : N) : Prop := es = 8 \/ es = 16 \/ es = 32 \/ es = 64.
(** Number of bits in a storage. *)
Definition nbits (es : N) (st : list N) : N := es * N.of_nat (length st).

(** Bits [p .. p+len-1] of an image, as a number. *)
Definition slice (img p len : N) : N := N.shiftr img p mod 2 ^ len.

(** The first bit of a location in the message. *)
Definition loc_start (l : loc) : N := l_index l * 32 + l_lsb l.
Definition loc_covers (l : loc) (k : N) : Prop := loc_start l <= k < loc_start l + l_size l.
Definition covers (ls : list loc) (k : N) : Prop := exists l, In l ls /\ loc_covers l k.

(** A field's value is the concatenation of its locations, first one most
    significant. *)
Definition concat_value (img : N) (ls : list loc) : N :=
  fold_left (fun acc l => acc * 2 ^ l_size l + slice img (loc_start l) (l_size l)) ls 0.

Definition total_size (ls : list loc) : N := fold_right (fun l n => l_size l + n) 0 ls.

(** No two locations overlap. *)
Fixpoint disjoint_locs (ls : list loc) : Prop :=
  match ls with
  | [] => True
  | l :: r => (forall k, loc_covers l k -> ~ covers r k) /\ disjoint_locs r
  end.

(** A location produced by [msg::at] (so its lsb is below 32), non-empty. *)
Definition loc_wf (l : loc) : Prop := l_lsb l < 32 /\ 0 < l_size l.
Definition fits (n : N) (ls : list loc) : Prop :=
  forall l, In l ls -> loc_start l + l_size l <= n.

(** Two images agree outside a field. *)
Definition same_outside (ls : list loc) (a b : N) : Prop :=
  forall k, ~ covers ls k -> N.testbit a k = N.testbit b k.

(** Widths of the integral type covering the field's value type. *)
Definition raw_width (ew : N) : Prop := ew = 8 \/ ew = 16 \/ ew = 32 \/ ew = 64.

(** The element containing the location starts on the location's dword:
    always so for elements of at most 32 bits. *)
Definition aligned_for (es : N) (l : loc) : Prop := es <= 32 \/ N.even (l_index l) = true.
(** The value shifted into place fits the type the shift is computed in. *)
Definition shift_fits (es ew : N) (l : loc) : Prop := es <= 32 \/ ew = 64 \/ l_lsb l + l_size l <= 32.

(** The bits of [v] scattered over the locations: the last location takes the
    least significant bits. *)
Fixpoint place_rev (rls : list loc) (v : N) (k : N) : option bool :=
  match rls with
  | [] => None
  | l :: r =>
    if (loc_start l <=? k) && (k <? loc_start l + l_size l)
    then Some (N.testbit v (k - loc_start l))
    else place_rev r (N.shiftr v (l_size l)) k
  end.
Definition place (ls : list loc) (v k : N) : option bool := place_rev (rev ls) v k.

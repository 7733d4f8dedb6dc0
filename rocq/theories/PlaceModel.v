(** Model of the arithmetic of the places of fields in 32 bits: msg::at, its index
    literals and units, shifted_by with any amount (include/msg/field.hpp:273-352,
    545-548), and what packing messages makes of it (include/msg/message.hpp:189-193,
    405-407, 737-779). FieldModel and MessageModel have the same functions on numbers
    without bound.

    Simplifications: the values of msb_t and lsb_t are given as such; std::size_t has
    64 bits, and sums of sizes do not overflow it. *)
From Coq Require Import List NArith ZArith Bool Arith.
From Verif Require Import FieldModel MessageModel.
Import ListNotations.
Local Open Scope N_scope.

(** static_cast<std::uint32_t> of any integer (include/msg/field.hpp:299, 301) *)
Definition to_u32 (z : Z) : N := Z.to_N (z mod 2 ^ 32).
(** bit_unit, or a type of [n] bytes (include/msg/field.hpp:294-303) *)
Inductive unit_ := Bits | Bytes (n : N).
(** unit_bit_size: the product is one of std::size_t, its value made std::uint32_t
    (include/msg/field.hpp:296-303). *)
Definition unit_bit_size (u : unit_) (t : Z) : N :=
  match u with
  | Bits => to_u32 t
  | Bytes n => ((to_u32 t * n) mod 2 ^ 64 * 8) mod 2 ^ 64 mod 2 ^ 32
  end.
(** The literals _bi, _dwi and _dw (include/msg/field.hpp:281-290) *)
Definition index_literal (v : N) : N := v mod 2 ^ 32.
(** Sums of std::uint32_t (include/msg/field.hpp:311-320, 343-346) *)
Definition add32 (a b : N) : N := (a + b) mod 2 ^ 32.
(** at(dword_index, msb, lsb) (include/msg/field.hpp:311-315) *)
Definition at32_dword (d m l : N) : at_ :=
  {| a_msb := add32 (unit_bit_size (Bytes 4) (Z.of_N d)) m; a_lsb := add32 (unit_bit_size (Bytes 4) (Z.of_N d)) l |}.
(** at(byte_index, msb, lsb) (include/msg/field.hpp:316-320) *)
Definition at32_byte (b m l : N) : at_ :=
  {| a_msb := add32 (unit_bit_size (Bytes 1) (Z.of_N b)) m; a_lsb := add32 (unit_bit_size (Bytes 1) (Z.of_N b)) l |}.
(** at::shifted_by (include/msg/field.hpp:343-346) with what field_t::shifted_by gives it
    (include/msg/field.hpp:546-548) *)
Definition at32_shift (u : unit_) (z : Z) (a : at_) : at_ :=
  {| a_msb := add32 (a_msb a) (unit_bit_size u z); a_lsb := add32 (a_lsb a) (unit_bit_size u z) |}.
(** at::size (include/msg/field.hpp:332-334) *)
Definition at32_size (a : at_) : N := (a_msb a + 2 ^ 32 - a_lsb a + 1) mod 2 ^ 32.
(** at::valid (include/msg/field.hpp:335-338) *)
Definition at32_valid (a : at_) : bool := (at32_size a <=? 64) && (a_lsb a <=? a_msb a).
(** locator_for (include/msg/field.hpp:350-352) with index and lsb (include/msg/field.hpp:322-328) *)
Definition at32_loc (a : at_) : loc := {| l_index := a_lsb a / 32; l_size := at32_size a; l_lsb := a_lsb a mod 32 |}.

(** ** Messages *)
(** field_t::shifted_by (include/msg/field.hpp:545-548) *)
Definition shift_field32 (u : unit_) (z : Z) (f : mfield) : mfield :=
  {| f_name := f_name f; f_bytes := f_bytes f; f_default := f_default f; f_match := f_match f; f_ats := map (at32_shift u z) (f_ats f) |}.
(** message::shifted_by (include/msg/message.hpp:405-407) *)
Definition shift_msg32 (u : unit_) (z : Z) (m : list mfield) : list mfield := map (shift_field32 u z) m.
(** storage_size<Fields...>::in<T> (include/msg/message.hpp:189-193) *)
Definition storage_size32 (es : N) (fs : list mfield) : N :=
  fold_left N.max (map (fun f => field_extent es (map at32_loc (f_ats f))) fs) 0.
(** The static_asserts of field_t; field_size is a sum of std::uint32_t
    (include/msg/field.hpp:354, 411-414, 224-225). *)
Definition field_valid32 (f : mfield) : bool :=
  forallb at32_valid (f_ats f) &&
  (fold_right (fun a n => add32 (at32_size a) n) 0 (f_ats f) <=? 8 * f_bytes f) &&
  (f_bytes f <=? 8).
(** message_with_unique_field_names (include/msg/message.hpp:317-325) *)
Definition message32 (l : list mfield) : option (list mfield) :=
  if names_distinct l && forallb locatable l && forallb field_valid32 l then Some (unique_by_name l) else None.
(** msg_offsets, shifted_msgs (include/msg/message.hpp:741-757); the empty message at the
    end adds nothing. *)
Fixpoint shifted_from32 (A off : N) (ms : list (list mfield)) : list (list mfield) :=
  match ms with
  | [] => []
  | m :: r => shift_msg32 (Bytes (A / 8)) (Z.of_N off) m :: shifted_from32 A (off + storage_size32 A m) r
  end.
(** pack (include/msg/message.hpp:776-779) *)
Definition pack32 (A : N) (ms : list (list mfield)) : option (list mfield) := message32 (concat (shifted_from32 A 0 ms)).

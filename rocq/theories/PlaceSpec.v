(** Specification of places. *)
From Coq Require Import List NArith ZArith Bool.
From Verif Require Import FieldModel MessageModel PlaceModel.
Import ListNotations.
Local Open Scope Z_scope.

(** The ways to write a place: bits of the message, bits from a double word or byte on,
    and a place moved by an amount, in either direction, in bits or units of [n] bytes. *)
Inductive place :=
| At (m l : Z)
| AtDword (d m l : Z)
| AtByte (b m l : Z)
| Moved (n : Z) (u : unit_) (p : place).
(** The bits that are meant: the last and the first. *)
Definition per (u : unit_) : Z := match u with Bits => 1 | Bytes n => 8 * Z.of_N n end.
Fixpoint meant (p : place) : Z * Z :=
  match p with
  | At m l => (m, l)
  | AtDword d m l => (32 * d + m, 32 * d + l)
  | AtByte b m l => (8 * b + m, 8 * b + l)
  | Moved n u p => (fst (meant p) + n * per u, snd (meant p) + n * per u)
  end.
(** The numbers written are numbers of their types: literals have 64 bits, msb_t and lsb_t 32. *)
Definition u32 (z : Z) : Prop := 0 <= z < 2 ^ 32.
Fixpoint written (p : place) : Prop :=
  match p with
  | At m l => u32 m /\ u32 l
  | AtDword i m l | AtByte i m l => 0 <= i < 2 ^ 64 /\ u32 m /\ u32 l
  | Moved _ _ p => written p
  end.
(** What the library makes of it. *)
Fixpoint made (p : place) : at_ :=
  match p with
  | At m l => {| a_msb := Z.to_N m; a_lsb := Z.to_N l |}
  | AtDword d m l => at32_dword (index_literal (Z.to_N d)) (Z.to_N m) (Z.to_N l)
  | AtByte b m l => at32_byte (index_literal (Z.to_N b)) (Z.to_N m) (Z.to_N l)
  | Moved n u p => at32_shift u n (made p)
  end.
(** Places inside 2^32 bits. *)
Definition inside (p : place) : Prop := u32 (fst (meant p)) /\ u32 (snd (meant p)).
(** Fields of messages as far as sizes go: each place has at least one bit, at most 64,
    below 2^32; there are fewer than 2^26 of them. *)
Definition sound_at (a : at_) : Prop := (a_lsb a <= a_msb a /\ a_msb a < a_lsb a + 64 /\ a_msb a < 2 ^ 32)%N.
Definition sound (m : list mfield) : Prop := forall f, In f m -> Forall sound_at (f_ats f) /\ (N.of_nat (length (f_ats f)) < 2 ^ 26)%N.
(** The bits messages take in a pack. *)
Definition total (A : N) (ms : list (list mfield)) : N := fold_right (fun m n => (storage_size A m * A + n)%N) 0%N ms.

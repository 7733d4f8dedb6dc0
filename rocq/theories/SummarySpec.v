(** How a person reads the description of a message. *)
From Coq Require Import String Ascii Bool List ZArith NArith.
From Verif Require MessageModel MessageSpec MipiModel DescribeSpec.
Import ListNotations.
Local Open Scope string_scope.

(** Text that has no meaning in a format. *)
Fixpoint braceless (s : string) : Prop :=
  match s with EmptyString => True | String a r => a <> "{"%char /\ a <> "}"%char /\ braceless r end.
(** A number without leading zeros. *)
Definition tidy (s : string) : Prop :=
  match s with
  | String "0" r => r = ""
  | String "-" (String "0" _) => False
  | _ => True
  end.
(** [value h z]: h are the hexadecimal digits of z. *)
Definition value (h : string) (z : Z) : Prop := DescribeSpec.number h = Some z /\ tidy h.
(** name: 0xH, name: 0xH, ... *)
Inductive lists : list (string * Z) -> string -> Prop :=
| lists_nil : lists [] ""
| lists_one n z h : value h z -> lists [(n, z)] (n ++ ": 0x" ++ h)
| lists_more n z h x l s : value h z -> lists (x :: l) s -> lists ((n, z) :: x :: l) (n ++ ": 0x" ++ h ++ ", " ++ s).
(** The number that the bits of a type stand for; a char stands for its code. *)
Definition number_of (p : MipiModel.platform) (t : MipiModel.argty) (raw : N) : Z :=
  let b := MipiModel.underlying t in
  let bits := (8 * MipiModel.base_bytes p b)%N in
  match b with
  | MipiModel.Char => Z.of_N raw
  | _ => if MipiModel.base_signed p b && (2 ^ (bits - 1) <=? raw)%N then (Z.of_N raw - 2 ^ Z.of_N bits)%Z else Z.of_N raw
  end.
(** Types whose values the decoder shows under {:x}, and as what. *)
Definition decoder_number (p : MipiModel.platform) (t : MipiModel.argty) (raw : N) : option Z :=
  match t with
  | MipiModel.Plain (MipiModel.Float | MipiModel.Double | MipiModel.Char) => None
  | MipiModel.Plain MipiModel.Bool => Some (if (raw =? 1)%N then -1 else Z.of_N raw)%Z
  | MipiModel.Plain _ => Some (number_of p t raw)
  | MipiModel.Scoped _ _ | MipiModel.Unscoped _ _ => None
  end.
(** A field has the size of its type; a bool is one bit. *)
Definition typed (p : MipiModel.platform) (t : MipiModel.argty) (f : MessageModel.mfield) : Prop :=
  MessageModel.f_bytes f = MipiModel.arg_bytes p t /\ (MipiModel.underlying t = MipiModel.Bool -> MessageSpec.width f <= 1)%N.

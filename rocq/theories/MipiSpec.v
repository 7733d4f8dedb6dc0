(** Specification of the binary log format. *)
From Coq Require Import String Ascii Bool Arith List NArith ZArith.
From Verif Require Import FieldModel FieldSpec MessageModel MipiModel.
Import ListNotations.
Local Open Scope N_scope.

(** One log call as the program makes it. *)
Record call := { c_level : N; c_module : N; c_unit : N; c_id : N; c_args : list (argty * N) }.
(** The bits of an argument belong to its type. *)
Definition arg_ok (p : platform) (a : argty * N) : Prop :=
  snd a < 2 ^ (8 * arg_bytes p (fst a)) /\ (underlying (fst a) = Bool -> snd a < 2).
(** The number an argument stands for. *)
Definition numeric (p : platform) (t : argty) (raw : N) : Z :=
  if base_signed p (underlying t) then signed_value (8 * arg_bytes p t) raw else Z.of_N raw.
(** What a reader of the log wants to see. *)
Definition wanted (p : platform) (db : database) (t : argty) (raw : N) : shown :=
  match t with
  | Plain Float | Plain Double => VFloat raw
  | Plain Char => VChar raw
  | Plain _ => VInt (numeric p t raw)
  | Scoped n _ | Unscoped n _ => match db_enums db n (numeric p t raw) with Some s => VName s | None => VCast n (VInt (numeric p t raw)) end
  end.
Definition wanted_message (p : platform) (db : database) (c : call) : decoded :=
  DCatalog (c_level c) (c_unit c) (c_module c) (c_id c) (map (fun a => wanted p db (fst a) (snd a)) (c_args c)).

(** The bytes an argument takes on the wire: eight for the types of eight bytes,
    four for all others. *)
Definition wire_size (p : platform) (t : argty) : nat :=
  match underlying t with
  | LongLong | ULongLong | Double => 8
  | Long | ULong => if long8 p then 8 else 4
  | _ => 4
  end.
(** The bytes of a number of either sign, least significant first. *)
Definition number_bytes (n : nat) (z : Z) : list N :=
  map (fun i => Z.to_N ((z / 256 ^ Z.of_nat i) mod 256)) (seq 0 n).

(** The types of C++: how many bits each has, and which have a sign. *)
Definition width (p : platform) (b : base) : Z :=
  match b with
  | Char | SChar | UChar | Bool => 8
  | Short | UShort => 16
  | Int | UInt | Float => 32
  | Long | ULong => if long8 p then 64 else 32
  | LongLong | ULongLong | Double => 64
  end.
Definition has_sign (p : platform) (b : base) : bool :=
  match b with
  | SChar | Short | Int | Long | LongLong => true
  | Char => char_signed p
  | UChar | Bool | UShort | UInt | ULong | ULongLong | Float | Double => false
  end.
(** A number is the value of a type with some bits if it is in the range of the type and
    equal to the bits modulo its size. *)
Definition value_of (p : platform) (b : base) (raw : N) (z : Z) : Prop :=
  (z mod 2 ^ width p b = Z.of_N raw)%Z /\
  (if has_sign p b then - 2 ^ (width p b - 1) <= z < 2 ^ (width p b - 1) else 0 <= z < 2 ^ width p b)%Z.

(** The catalog knows the message, with these argument types, and the module. *)
Definition in_catalog (p : platform) (db : database) (c : call) : Prop :=
  db_messages db (c_id c) = Some (map (fun a => encode_text p (fst a)) (c_args c)) /\ exists s, db_modules db (c_module c) = Some s.
(** The values fit the wire. *)
Definition fits_wire (c : call) : Prop :=
  c_level c < 2 ^ 3 /\ c_module c < 2 ^ 7 /\ c_unit c < 2 ^ 4 /\ c_id c < (if c_args c then 2 ^ 28 else 2 ^ 32).
(** A type name the decoder can take apart. *)
Fixpoint mentions (c : ascii) (s : string) : Prop := match s with EmptyString => False | String a r => a = c \/ mentions c r end.
Definition plain_name (n : string) : Prop := ~ mentions "<"%char n /\ ~ mentions ","%char n /\ format_table n = None.
Definition name_ok (t : argty) : Prop := match t with Plain _ => True | Scoped n _ | Unscoped n _ => plain_name n end.
(** The arguments the decoder shows as wanted. *)
Definition shows_right (p : platform) (a : argty * N) : Prop :=
  match fst a with
  | Plain Bool => snd a = 0
  | Plain _ => True
  | Scoped _ b => b <> Char /\ (b = Bool -> snd a = 0)
  | Unscoped _ b => (0 <= numeric p (fst a) (snd a))%Z
  end.
Definition integral (b : base) : Prop := b <> Float /\ b <> Double.
Definition type_ok (t : argty) : Prop := match t with Plain _ => True | Scoped _ b | Unscoped _ b => integral b end.

(** Reader of a build-version message (mipi_messages.hpp:18-44): the version, the
    string and the bytes that follow. Bit 9 says that a length follows. *)
Definition read_version (bs : list N) : option (N * list N * list N) :=
  let w := from_le (firstn 4 bs) in
  if (length bs <? 4)%nat || negb (bits w 0 4 =? 0) then None
  else match bits w 24 6 with
  | 0 => Some (bits w 30 2 * 2 ^ 20 + bits w 4 20, [], skipn 4 bs)
  | 1 => if (length bs <? 8)%nat then None
         else Some ((from_le (firstn 4 (skipn 4 bs)) * 2 ^ 2 + bits w 30 2) * 2 ^ 20 + bits w 4 20, [], skipn 8 bs)
  | 2 => let len := from_le (firstn 2 (skipn 4 bs)) in
         if (length bs <? 14)%nat || negb (bits w 9 1 =? 1) || (len <? 8) || (N.of_nat (length (skipn 6 bs)) <? len) then None
         else Some (from_le (firstn 8 (skipn 6 bs)), firstn (N.to_nat len - 8) (skipn 14 bs), skipn (6 + N.to_nat len) bs)
  | _ => None
  end.
(** The size of the smallest message that can hold the version and the string. *)
Definition smallest (version : N) (s : list N) : N :=
  match s with
  | [] => if version <? 2 ^ 22 then 4 else if version <? 2 ^ 54 then 8 else 14
  | _ => 14 + N.of_nat (length s)
  end.

(** Model of the binary logger's MIPI Sys-T packets (include/log_binary/catalog/
    include/log_binary/catalog/mipi_messages.hpp, include/log_binary/catalog/mipi_builder.hpp, include/log_binary/catalog/arguments.hpp) on top of the message
    model, and of the Python decoder (python/cib/log_decode.py, python/cib/mipi_messages.py).

    Simplifications: the target is little endian (stdx::to_le is the identity);
    values are raw bit patterns; argument types are the fundamental types and
    enumerations over them, and the text of an encode_… type is what the
    demangler prints for it (T in encode_32<T>; "encode_enum<E, int, 4>"). *)
From Coq Require Import String Ascii Bool Arith List NArith ZArith.
From Verif Require Import MatchModel FieldModel MessageModel.
Import ListNotations.
Local Open Scope N_scope.

(** ** Messages (include/log_binary/catalog/mipi_messages.hpp:10-76) *)
Definition fld (n : nat) (bytes : N) (d : fdefault) (ats : list at_) : mfield :=
  {| f_name := n; f_bytes := bytes; f_default := d; f_match := Always; f_ats := ats |}.
(** include/log_binary/catalog/mipi_messages.hpp:10-76 *)
Definition n_type := 0%nat.
(** include/log_binary/catalog/mipi_messages.hpp:10-76 *)
Definition n_opt_len := 1%nat.
(** include/log_binary/catalog/mipi_messages.hpp:10-76 *)
Definition n_payload_len := 2%nat.
(** include/log_binary/catalog/mipi_messages.hpp:10-76 *)
Definition n_subtype := 3%nat.
(** include/log_binary/catalog/mipi_messages.hpp:10-76 *)
Definition n_build_id := 4%nat.
(** include/log_binary/catalog/mipi_messages.hpp:10-76 *)
Definition n_payload := 5%nat.
(** include/log_binary/catalog/mipi_messages.hpp:10-76 *)
Definition n_severity := 6%nat.
(** include/log_binary/catalog/mipi_messages.hpp:10-76 *)
Definition n_module := 7%nat.
(** include/log_binary/catalog/mipi_messages.hpp:10-76 *)
Definition n_unit := 8%nat.
(** include/log_binary/catalog/mipi_messages.hpp:10-76 *)
Definition type_f (v : N) := fld n_type 1 (DConst v) [at_dword 0 3 0].
(** include/log_binary/catalog/mipi_messages.hpp:10-76 *)
Definition opt_len_f := fld n_opt_len 1 (DConst 1) [at_dword 0 9 9].
(** include/log_binary/catalog/mipi_messages.hpp:10-76 *)
Definition payload_len_f := fld n_payload_len 2 (DDefault 0) [at_dword 1 15 0].
(** include/log_binary/catalog/mipi_messages.hpp:10-76 *)
Definition subtype_f (v : N) := fld n_subtype 1 (DConst v) [at_dword 0 29 24].
(** include/log_binary/catalog/mipi_messages.hpp:10-76 *)
Definition compact32_build_id_f := fld n_build_id 4 (DDefault 0) [at_dword 0 31 30; at_dword 0 23 4].
(** include/log_binary/catalog/mipi_messages.hpp:10-76 *)
Definition compact64_build_id_f := fld n_build_id 8 (DDefault 0) [at_dword 1 31 0; at_dword 0 31 30; at_dword 0 23 4].
(** include/log_binary/catalog/mipi_messages.hpp:10-76 *)
Definition short32_payload_f := fld n_payload 4 (DDefault 0) [at_dword 0 31 4].
(** include/log_binary/catalog/mipi_messages.hpp:10-76 *)
Definition severity_f := fld n_severity 1 (DDefault 0) [at_dword 0 6 4].
(** include/log_binary/catalog/mipi_messages.hpp:10-76 *)
Definition module_id_f := fld n_module 1 (DDefault 0) [at_dword 0 22 16].
(** include/log_binary/catalog/mipi_messages.hpp:10-76 *)
Definition unit_f := fld n_unit 2 (DDefault 0) [at_dword 0 15 12].
(** include/log_binary/catalog/mipi_messages.hpp:10-76 *)
Definition normal_build_msg := [type_f 0; opt_len_f; subtype_f 2; payload_len_f].
(** include/log_binary/catalog/mipi_messages.hpp:10-76 *)
Definition compact32_build_msg := [type_f 0; subtype_f 0; compact32_build_id_f].
(** include/log_binary/catalog/mipi_messages.hpp:10-76 *)
Definition compact64_build_msg := [type_f 0; subtype_f 1; compact64_build_id_f].
(** include/log_binary/catalog/mipi_messages.hpp:10-76 *)
Definition short32_msg := [type_f 1; short32_payload_f].
(** include/log_binary/catalog/mipi_messages.hpp:10-76 *)
Definition catalog_msg := [type_f 3; severity_f; unit_f; module_id_f; subtype_f 1].
(** A message object over a storage of n elements; a rejected definition or
    construction is [None] (include/log_binary/catalog/mipi_messages.hpp:10-76). *)
Definition make (es : N) (n : nat) (fields : list mfield) (vs : list (nat * N)) : option (outcome (list N)) :=
  match message fields with Some fs => construct es n fs vs | None => None end.
(** include/log_binary/catalog/mipi_messages.hpp:10-76 *)
Definition size_in (es : N) (fields : list mfield) : nat := N.to_nat (storage_size es fields).

(** ** Arguments (include/log_binary/catalog/arguments.hpp:14-80) *)
Inductive base := Char | SChar | UChar | Bool | Short | UShort | Int | UInt | Long | ULong | LongLong | ULongLong | Float | Double.
(** The platform: sizeof(long), and whether char is signed
    (include/log_binary/catalog/arguments.hpp:14-80). *)
Record platform := { long8 : bool; char_signed : bool }.
(** include/log_binary/catalog/arguments.hpp:14-80 *)
Definition base_bytes (p : platform) (b : base) : N :=
  match b with
  | Char | SChar | UChar | Bool => 1
  | Short | UShort => 2
  | Int | UInt | Float => 4
  | Long | ULong => if long8 p then 8 else 4
  | LongLong | ULongLong | Double => 8
  end.
(** include/log_binary/catalog/arguments.hpp:14-80 *)
Definition base_signed (p : platform) (b : base) : bool :=
  match b with Char => char_signed p | SChar | Short | Int | Long | LongLong => true | _ => false end.
Local Open Scope string_scope.
(** include/log_binary/catalog/arguments.hpp:14-80 *)
Definition base_name (b : base) : string :=
  match b with
  | Char => "char" | SChar => "signed char" | UChar => "unsigned char" | Bool => "bool"
  | Short => "short" | UShort => "unsigned short" | Int => "int" | UInt => "unsigned int"
  | Long => "long" | ULong => "unsigned long" | LongLong => "long long" | ULongLong => "unsigned long long"
  | Float => "float" | Double => "double"
  end.
(** include/log_binary/catalog/arguments.hpp:14-80 *)
Inductive argty := Plain (b : base) | Scoped (name : string) (b : base) | Unscoped (name : string) (b : base).
(** include/log_binary/catalog/arguments.hpp:14-80 *)
Definition underlying (t : argty) : base := match t with Plain b | Scoped _ b | Unscoped _ b => b end.
(** include/log_binary/catalog/arguments.hpp:14-80 *)
Definition arg_bytes (p : platform) (t : argty) : N := base_bytes p (underlying t).
(** sizeof(pack_as_t<T>) (include/log_binary/catalog/arguments.hpp:14-80) *)
Definition pack_bytes (p : platform) (t : argty) : N := if (arg_bytes p t <=? 4)%N then 4 else 8.
(** encode_as_t<T>, as text (include/log_binary/catalog/arguments.hpp:14-80) *)
Definition encode_tag (p : platform) (b : base) : string :=
  if base_signed p b then (if (base_bytes p b <=? 4)%N then "encode_32" else "encode_64")
  else (if (base_bytes p b <=? 4)%N then "encode_u32" else "encode_u64").
(** include/log_binary/catalog/arguments.hpp:14-80 *)
Definition encode_text (p : platform) (t : argty) : string :=
  match t with
  | Plain b => encode_tag p b ++ "<" ++ base_name b ++ ">"
  | Unscoped n b => encode_tag p b ++ "<" ++ n ++ ">"
  | Scoped n b => "encode_enum<" ++ n ++ ", " ++ base_name b ++ ", " ++ (if (pack_bytes p t =? 4)%N then "4" else "8") ++ ">"
  end.

Local Close Scope string_scope.
(** The number a bit pattern stands for
    (include/log_binary/catalog/arguments.hpp:14-80). *)
Definition signed_value (bits raw : N) : Z := if raw <? 2 ^ (bits - 1) then Z.of_N raw else (Z.of_N raw - Z.of_N (2 ^ bits))%Z.
(** pack_arg (include/log_binary/catalog/mipi_builder.hpp:44-58): bit_cast when the sizes agree, otherwise a conversion that
    preserves the value modulo the width. *)
Definition packed (p : platform) (t : argty) (raw : N) : N :=
  if arg_bytes p t =? pack_bytes p t then raw
  else if base_signed p (underlying t) then Z.to_N (signed_value (8 * arg_bytes p t) raw mod Z.of_N (2 ^ (8 * pack_bytes p t)))
  else raw.
(** The dwords memcpy stores (include/log_binary/catalog/mipi_builder.hpp:44-58). *)
Definition dwords (bytes v : N) : list N := if bytes =? 4 then [v] else [v mod 2 ^ 32; v / 2 ^ 32].
(** include/log_binary/catalog/mipi_builder.hpp:44-58 *)
Fixpoint put (i : N) (ws : list N) (st : list N) : outcome (list N) :=
  match ws with [] => Done st | w :: r => let! st' := wr st i w in put (i + 1) r st' end.

(** ** Builders *)
(** builder<short32_msg_t> (include/log_binary/catalog/mipi_builder.hpp:25-30) *)
Definition build_short32 (id : N) : option (outcome (list N)) :=
  make 32 (size_in 32 short32_msg) short32_msg [(n_payload, id)].
(** builder<catalog_msg_t> (include/log_binary/catalog/mipi_builder.hpp:67-81) and catalog_builder (include/log_binary/catalog/mipi_builder.hpp:32-65); an argument is its
    type and bits. *)
Definition build_catalog (p : platform) (level id m u : N) (args : list (argty * N)) : option (outcome (list N)) :=
  let payload_size := 4 + fold_right (fun a n => pack_bytes p (fst a) + n) 0 args in
  let header_size := size_in 32 catalog_msg in
  match make 32 (header_size + N.to_nat ((payload_size + 3) / 4)) catalog_msg [(n_severity, level); (n_module, m); (n_unit, u)] with
  | Some o => Some (
      let! st := o in
      put (N.of_nat header_size) (flat_map (fun a => dwords (pack_bytes p (fst a)) (packed p (fst a) (snd a))) ((Plain UInt, id) :: args)) st)
  | None => None
  end.
(** default_builder::build (include/log_binary/catalog/mipi_builder.hpp:118-127) *)
Definition build (p : platform) (level id m u : N) (args : list (argty * N)) : option (outcome (list N)) :=
  match args with [] => build_short32 id | _ => build_catalog p level id m u args end.
(** builder<compact32_build_msg_t>, builder<compact64_build_msg_t> (include/log_binary/catalog/mipi_builder.hpp:83-95) *)
Definition build_compact32 (version : N) := make 32 (size_in 32 compact32_build_msg) compact32_build_msg [(n_build_id, version)].
(** include/log_binary/catalog/mipi_builder.hpp:83-95 *)
Definition build_compact64 (version : N) := make 32 (size_in 32 compact64_build_msg) compact64_build_msg [(n_build_id, version)].
(** The bytes of a number, least significant first
    (include/log_binary/catalog/mipi_builder.hpp:97-115). *)
Fixpoint le_bytes (n : nat) (v : N) : list N := match n with O => [] | S n => v mod 256 :: le_bytes n (v / 256) end.
(** builder<normal_build_msg_t> (include/log_binary/catalog/mipi_builder.hpp:97-115), a storage of bytes *)
Definition build_normal (version : N) (s : list N) : option (outcome (list N)) :=
  let header_size := size_in 8 normal_build_msg in
  let payload_len := N.of_nat (length s) + 8 in
  match make 8 (header_size + N.to_nat payload_len) normal_build_msg [(n_payload_len, payload_len)] with
  | Some o => Some (let! st := o in put (N.of_nat header_size) (le_bytes 8 version ++ s)%list st)
  | None => None
  end.
(** default_builder::build_version (include/log_binary/catalog/mipi_builder.hpp:129-141); a version packet is in dwords or in
    bytes. *)
Inductive packet := Dwords (ws : list N) | Bytes (bs : list N).
(** include/log_binary/catalog/mipi_builder.hpp:129-141 *)
Definition as_dwords := option_map (fun o => let! ws := o in Done (Dwords ws)).
(** include/log_binary/catalog/mipi_builder.hpp:129-141 *)
Definition as_bytes := option_map (fun o => let! bs := o in Done (Bytes bs)).
(** include/log_binary/catalog/mipi_builder.hpp:129-141 *)
Definition build_version (version : N) (s : list N) : option (outcome packet) :=
  match s with
  | [] => if N.size version <=? 22 then as_dwords (build_compact32 version)
          else if N.size version <=? 54 then as_dwords (build_compact64 version)
          else as_bytes (build_normal version s)
  | _ => as_bytes (build_normal version s)
  end.
(** What the writer sends (include/log_binary/catalog/encoder.hpp:72-79, 121-128): the storage's bytes. *)
Definition wire (k : packet) : list N := match k with Dwords ws => flat_map (le_bytes 4) ws | Bytes bs => bs end.

(** ** The decoder (python/cib/mipi_messages.py, python/cib/log_decode.py) *)
(** A Python exception is [Raised] (python/cib/mipi_messages.py:7-51). *)
Inductive py (A : Type) : Type := Ok (a : A) | Raised.
Arguments Ok {A}. Arguments Raised {A}.
(** python/cib/mipi_messages.py:7-51 *)
Definition py_bind {A B} (x : py A) (f : A -> py B) : py B := match x with Ok a => f a | Raised => Raised end.
Notation "'do' x <- a ; b" := (py_bind a (fun x => b)) (at level 200, x pattern, right associativity).
(** bytes(itertools.islice(reader, n)) (python/cib/mipi_messages.py:7-51) *)
Definition islice (n : nat) (reader : list N) : list N * list N := (firstn n reader, skipn n reader).
(** python/cib/mipi_messages.py:7-51 *)
Definition from_le (bs : list N) : N := fold_right (fun b acc => b + 256 * acc) 0 bs.
(** struct.unpack("<…", seq): needs exactly the right number of bytes
    (python/cib/mipi_messages.py:7-51). *)
Definition unpack (n : nat) (seq : list N) : py N := if Nat.eqb (length seq) n then Ok (from_le seq) else Raised.
(** What a value is shown as: a number, a char (bytes of length 1), a floating
    point number by its bits, an enumerator, or static_cast<E>(value)
    (python/cib/mipi_messages.py:7-51). *)
Inductive shown := VInt (z : Z) | VChar (b : N) | VFloat (bits : N) | VName (s : string) | VCast (enum : string) (v : shown).

Local Open Scope string_scope.
(** python/cib/mipi_messages.py:7-51 *)
Inductive fmt := Fc | Fs (n : nat) | Fu (n : nat) | Ff (n : nat).
(** format_table (python/cib/mipi_messages.py:19-34) and alt_format_table (python/cib/mipi_messages.py:36-39) *)
Definition format_table (c_type : string) : option (nat * fmt) :=
  if c_type =? "char" then Some (1%nat, Fc)
  else if c_type =? "signed char" then Some (1%nat, Fs 1)
  else if c_type =? "unsigned char" then Some (1%nat, Fu 1)
  else if c_type =? "bool" then Some (1%nat, Fs 1)
  else if c_type =? "short" then Some (2%nat, Fs 2)
  else if c_type =? "unsigned short" then Some (2%nat, Fu 2)
  else if c_type =? "int" then Some (4%nat, Fs 4)
  else if c_type =? "unsigned int" then Some (4%nat, Fu 4)
  else if c_type =? "long" then Some (4%nat, Fs 4)
  else if c_type =? "unsigned long" then Some (4%nat, Fu 4)
  else if c_type =? "long long" then Some (8%nat, Fs 8)
  else if c_type =? "unsigned long long" then Some (8%nat, Fu 8)
  else if c_type =? "float" then Some (4%nat, Ff 4)
  else if c_type =? "double" then Some (8%nat, Ff 8)
  else None.
(** python/cib/mipi_messages.py:36-39 *)
Definition alt_format (c_type : string) : nat * fmt := if c_type =? "long" then (8%nat, Fs 8) else (8%nat, Fu 8).
(** python/cib/mipi_messages.py:36-39 *)
Definition unpack_as (f : fmt) (seq : list N) : py shown :=
  match f with
  | Fc => do v <- unpack 1 seq; Ok (VChar v)
  | Fs n => do v <- unpack n seq; Ok (VInt (signed_value (8 * N.of_nat n) v))
  | Fu n => do v <- unpack n seq; Ok (VInt (Z.of_N v))
  | Ff n => do v <- unpack n seq; Ok (VFloat v)
  end.
(** convert (python/cib/mipi_messages.py:42-51) *)
Definition convert (c_type : string) (seq : list N) : py shown :=
  match format_table c_type with
  | None => Raised
  | Some (sz, f) =>
    let '(sz, f) := if ((c_type =? "long") || (c_type =? "unsigned long")) && Nat.eqb (length seq) 8 then alt_format c_type else (sz, f) in
    do result <- unpack_as f (firstn sz seq);
    Ok (match result with VInt z => if (c_type =? "bool") && Z.eqb z 1 then VInt (-1) else VInt z | v => v end)
  end.
(** The catalog: arg_types of each message id; module names; enumerators by
    enumeration and value (the decimal keys of db["enums"] as numbers)
    (python/cib/log_decode.py:37-40). *)
Record database := {
  db_messages : N -> option (list string);
  db_modules : N -> option string;
  db_enums : string -> Z -> option string;
}.
(** enum_lookup (python/cib/mipi_messages.py:54-58): str() of a bytes object is not a decimal number. *)
Definition enum_lookup (db : database) (enum : string) (v : shown) : shown :=
  match v with
  | VInt z => match db_enums db enum z with Some s => VName s | None => VCast enum v end
  | _ => VCast enum v
  end.
(** enum_converter (python/cib/mipi_messages.py:61-63) *)
Definition enum_convert (db : database) (enum under : string) (seq : list N) : py shown :=
  do v <- convert under seq; Ok (enum_lookup db enum v).
(** str.split(c) (python/cib/mipi_messages.py:158-175) *)
Fixpoint split (c : ascii) (s : string) : list string :=
  match s with
  | EmptyString => [EmptyString]
  | String a r =>
    if Ascii.eqb a c then EmptyString :: split c r
    else match split c r with p :: ps => String a p :: ps | [] => [String a EmptyString] end
  end.
(** s[:-1] (python/cib/mipi_messages.py:158-175) *)
Fixpoint but_last (s : string) : string :=
  match s with EmptyString => EmptyString | String a EmptyString => EmptyString | String a r => String a (but_last r) end.
(** str.strip(), spaces only (python/cib/mipi_messages.py:158-175) *)
Fixpoint lstrip (s : string) : string := match s with String " "%char r => lstrip r | _ => s end.
(** python/cib/mipi_messages.py:158-175 *)
Fixpoint rev_string (s : string) : string := match s with EmptyString => EmptyString | String a r => rev_string r ++ String a EmptyString end.
(** python/cib/mipi_messages.py:158-175 *)
Definition strip (s : string) : string := rev_string (lstrip (rev_string (lstrip s))).
(** int(), for the sizes that occur; anything else is refused here
    (python/cib/mipi_messages.py:158-175). *)
Definition parse_size (s : string) : py nat :=
  if strip s =? "4" then Ok 4%nat else if strip s =? "8" then Ok 8%nat else Raised.
(** encoding_reader (python/cib/mipi_messages.py:7-12) *)
Definition encoding_reader (tag : string) : option nat :=
  if tag =? "encode_u32" then Some 4%nat else if tag =? "encode_32" then Some 4%nat
  else if tag =? "encode_u64" then Some 8%nat else if tag =? "encode_64" then Some 8%nat else None.
(** Catalog.extract_arg (python/cib/mipi_messages.py:158-175); "32" in encode_tag is so exactly for the tags
    that read four bytes. *)
Definition extract_arg (db : database) (reader : list N) (arg : string) : py (shown * list N) :=
  match split "<" (but_last arg) with
  | [encode_tag; spec] =>
    if encode_tag =? "encode_enum" then
      match split "," spec with
      | [cpp_type; under; sz] =>
        do n <- parse_size sz;
        let (seq, rest) := islice n reader in
        do v <- enum_convert db cpp_type (strip under) seq; Ok (v, rest)
      | _ => Raised
      end
    else
      match encoding_reader encode_tag with
      | None => Raised
      | Some n =>
        let (seq, rest) := islice n reader in
        do v <- (match format_table spec with
                 | Some _ => convert spec seq
                 | None => enum_convert db spec (if Nat.eqb n 4 then "unsigned int" else "unsigned long long") seq
                 end);
        Ok (v, rest)
      end
  | _ => Raised
  end.
(** python/cib/mipi_messages.py:158-175 *)
Fixpoint extract_args (db : database) (reader : list N) (args : list string) : py (list shown * list N) :=
  match args with
  | [] => Ok ([], reader)
  | a :: r => do (v, rest) <- extract_arg db reader a; do (vs, rest') <- extract_args db rest r; Ok (v :: vs, rest')
  end.
Local Close Scope string_scope.
(** read_struct (python/cib/mipi_messages.py:110-111) and the bit fields of HeaderStruct, Short32Struct and
    Short64Struct (python/cib/mipi_messages.py:78-107): w bits starting at bit k. *)
Definition read_struct (n : nat) (reader : list N) : py (N * list N) :=
  let (seq, rest) := islice n reader in do v <- unpack n seq; Ok (v, rest).
(** python/cib/mipi_messages.py:78-107 *)
Definition bits (v k w : N) : N := (v / 2 ^ k) mod 2 ^ w.
(** A decoded message; the text of the message is not modelled here
    (python/cib/mipi_messages.py:114-202). *)
Inductive decoded :=
| DShort (id : N)
| DCatalog (severity unit module id : N) (args : list shown).
(** Short32, Short64 (python/cib/mipi_messages.py:114-137) *)
Definition decode_short (db : database) (n : nat) (reader : list N) : py (decoded * list N) :=
  do (v, rest) <- read_struct n reader;
  let id := bits v 4 (8 * N.of_nat n - 4) in
  match db_messages db id with Some _ => Ok (DShort id, rest) | None => Raised end.
(** Catalog (python/cib/mipi_messages.py:152-197) *)
Definition decode_catalog (db : database) (reader : list N) : py (decoded * list N) :=
  do (v, rest) <- read_struct 4 reader;
  if bits v 24 6 =? 1 then
    match db_modules db (bits v 16 7) with
    | None => Raised
    | Some _ =>
      let (seq, rest) := islice 4 rest in
      do id <- unpack 4 seq;
      match db_messages db id with
      | None => Raised
      | Some types => do (args, rest) <- extract_args db rest types; Ok (DCatalog (bits v 4 3) (bits v 12 4) (bits v 16 7) id args, rest)
      end
    end
  else Raised.
(** construct_msg (python/cib/log_decode.py:30-34) *)
Definition construct_msg (db : database) (reader : list N) : py (decoded * list N) :=
  match reader with
  | [] => Raised
  | first_byte :: _ =>
    let msg_type := first_byte mod 16 in
    if msg_type =? 1 then decode_short db 4 reader
    else if msg_type =? 3 then decode_catalog db reader
    else if msg_type =? 7 then decode_short db 8 reader
    else Raised
  end.
(** read_logs (python/cib/log_decode.py:37-51): the messages yielded, and whether it ended by an
    exception. The length of the input bounds the number of messages. *)
Fixpoint read_logs_from (fuel : nat) (db : database) (reader : list N) : list decoded * bool :=
  match reader with
  | [] => ([], false)
  | _ =>
    match fuel with
    | O => ([], true)
    | S fuel =>
      match construct_msg db reader with
      | Raised => ([], true)
      | Ok (m, rest) => let (ms, e) := read_logs_from fuel db rest in (m :: ms, e)
      end
    end
  end.
(** python/cib/log_decode.py:37-51 *)
Definition read_logs (db : database) (reader : list N) : list decoded * bool := read_logs_from (length reader) db reader.

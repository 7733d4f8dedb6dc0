(** Model of the way of a log call from the program to the printed line: the
    catalog generator from the listing of undefined symbols to the definitions
    and the JSON file (python/cib/gen_str_catalog.py, main), the program linked
    with the definitions (include/log_binary/catalog/encoder.hpp:97-131), and the
    decoder with the JSON file (python/cib/log_decode.py, python/cib/mipi_messages.py).

    Simplifications: characters have codes below 128; named arguments and tags in
    the JSON are one opaque number; extra JSON inputs have enumerations only; the
    enumerations clang finds are given; the text of a floating point number is
    given; fields of format strings are {} only. An exception is [None]. *)
From Coq Require Import String Ascii Bool Arith List NArith ZArith.
From Verif Require Import FieldModel MessageModel CatalogModel GenModel SymbolModel MipiModel.
Import ListNotations.
Local Open Scope Z_scope.

(** ** From symbols to entries *)
(** "".join(chr(…)) (python/cib/gen_str_catalog.py:169-185) *)
Definition text_of_codes (codes : list Z) : string := fold_right (fun c s => String (ascii_of_nat (Z.to_nat c)) s) EmptyString codes.
(** python/cib/gen_str_catalog.py:147-167, 232-239 *)
Definition entry_of_message (extra : sym_message -> N) (m : sym_message) : entry :=
  {| m_text := text_of_codes (sm_text m); m_args := sm_args m; m_id := sm_id m; m_extra := extra m |}.
(** python/cib/gen_str_catalog.py:147-167, 232-239 *)
Definition entry_of_module (m : sym_module) : entry :=
  {| m_text := text_of_codes (so_text m); m_args := []; m_id := so_id m; m_extra := 0%N |}.
(** filter isinstance (python/cib/gen_str_catalog.py:351, 353) *)
Definition messages_of (is : list item) : list sym_message := flat_map (fun i => match i with IMessage m => [m] | IModule _ => [] end) is.
(** python/cib/gen_str_catalog.py:351, 353 *)
Definition modules_of (is : list item) : list sym_module := flat_map (fun i => match i with IModule m => [m] | IMessage _ => [] end) is.

(** ** The generator *)
(** python/cib/gen_str_catalog.py:642-726 *)
Record options := {
  o_hash : string -> Z; o_extra : sym_message -> N; o_reserved : list (Z * Z); o_forget : bool; o_module_max : Z;
  o_enums : list (string * list (string * Z)); o_extra_enums : list (option (list (string * list (string * string))))
}.
(** python/cib/gen_str_catalog.py:452-483 *)
Record json_file := { j_messages : list entry; j_modules : list entry; j_enums : list (string * names) }.
(** {m.key(): m for m in …}.values() (python/cib/gen_str_catalog.py:352, 354), as the objects themselves *)
Definition kept {A} (key : A -> Z) (l : list A) : list A := map snd (fold_left (fun d m => GenModel.put Z.eqb (key m) m d) l []).
(** The objects with the ids given to them by assign_ids_with (python/cib/gen_str_catalog.py:300-304): to_cpp_type
    uses the original id, the value returned is the new one. *)
Definition given {A} (key : entry -> Z) (entry_of : A -> entry) (ms : list entry) (l : list A) : list (A * Z) :=
  flat_map (fun m => match find (fun e => key e =? key (entry_of m)) ms with Some e => [(m, m_id e)] | None => [] end) (kept (fun m => key (entry_of m)) l).
(** What is written: the definitions in the C++ file, by the type they are for,
    and the JSON file (python/cib/gen_str_catalog.py:742-808). *)
Record generated := { g_messages : list (sym_message * Z); g_modules : list (sym_module * Z); g_json : json_file }.
(** main (python/cib/gen_str_catalog.py:742-806) *)
Definition generate (o : options) (stable : list json_file) (lines : list string) : option generated :=
  match read_file lines with
  | None => None
  | Some is =>
    let mkey := msg_key (o_hash o) in
    let okey := module_key (o_hash o) in
    let ments := map (entry_of_message (o_extra o)) (messages_of is) in
    let oents := map entry_of_module (modules_of is) in
    let (ms, mj) := run mkey (o_forget o) (o_reserved o) (map (fun j => Some (j_messages j)) stable) ments in
    let (os, oj) := run okey (o_forget o) [] (map (fun j => Some (j_modules j)) stable) oents in
    if check_limit (o_module_max o) os then
      Some {| g_messages := given mkey (entry_of_message (o_extra o)) ms (messages_of is);
              g_modules := given okey entry_of_module os (modules_of is);
              g_json := {| j_messages := mj; j_modules := oj; j_enums := write_enums (o_enums o) (o_extra_enums o) |} |}
    else None
  end.

(** ** The linked program *)
(** Equality of the above: include/log_binary/catalog/encoder.hpp:113-123 *)
Definition named_dec (a b : sym_named) : {a = b} + {a <> b}.
Proof. repeat decide equality. Defined.
(** Equality of the above: include/log_binary/catalog/encoder.hpp:113-123 *)
Definition tag_dec (a b : sym_tag) : {a = b} + {a <> b}.
Proof. repeat decide equality. Defined.
(** Equality of the above: include/log_binary/catalog/encoder.hpp:113-123 *)
Definition message_dec (a b : sym_message) : {a = b} + {a <> b}.
Proof. repeat decide equality. Defined.
(** Equality of the above: include/log_binary/catalog/encoder.hpp:113-123 *)
Definition module_dec (a b : sym_module) : {a = b} + {a <> b}.
Proof. repeat decide equality. Defined.
(** The definition of catalog<T>() or module<T>() for a type T, which returns an
    unsigned 32-bit number; [None]: undefined at link time
    (include/log_binary/catalog/encoder.hpp:113-123). *)
Definition linked {A} (dec : forall a b : A, {a = b} + {a <> b}) (defs : list (A * Z)) (t : A) : option N :=
  match find (fun d => if dec (fst d) t then true else false) defs with Some d => Some (Z.to_N (snd d mod 2 ^ 32)) | None => None end.
(** A log call: the environment's level, module and unit, and the result of the
    formatting, whose text and argument types are in the message
    (include/log_binary/catalog/encoder.hpp:97-131). *)
Record log_call := { l_level : N; l_module : sym_module; l_unit : N; l_message : sym_message; l_args : list (argty * N) }.
(** log_msg (include/log_binary/catalog/encoder.hpp:105-129) *)
Definition send (p : platform) (g : generated) (c : log_call) : option (list N) :=
  match linked message_dec (g_messages g) (l_message c), linked module_dec (g_modules g) (l_module c) with
  | Some id, Some m => match MipiModel.build p (l_level c) id m (l_unit c) (l_args c) with Some (Done ws) => Some (wire (Dwords ws)) | _ => None end
  | _, _ => None
  end.
(** include/log_binary/catalog/encoder.hpp:97-131 *)
Fixpoint program (p : platform) (g : generated) (cs : list log_call) : option (list N) :=
  match cs with
  | [] => Some []
  | c :: r => match send p g c, program p g r with Some a, Some b => Some (a ++ b)%list | _, _ => None end
  end.

(** ** The decoder *)
(** {msg["id"]: msg for msg in db["messages"]} (python/cib/log_decode.py:39-40): the last with
    the id *)
Definition by_id (l : list entry) (i : Z) : option entry := fold_left (fun acc m => if m_id m =? i then Some m else acc) l None.
(** python/cib/log_decode.py:39-40 *)
Definition database_of (j : json_file) : database :=
  {| db_messages := fun i => option_map m_args (by_id (j_messages j) (Z.of_N i));
     db_modules := fun i => option_map m_text (by_id (j_modules j) (Z.of_N i));
     db_enums := enum_name (j_enums j) |}.
(** db["enums"][type][value], the value being text (python/cib/mipi_messages.py:54-58) *)
Definition enum_named (file : list (string * names)) (ty v : string) : option string :=
  match GenModel.get String.eqb ty file with Some n => GenModel.get String.eqb v (load_names n) | None => None end.
(** severity (python/cib/mipi_messages.py:140-149) *)
Definition severity : list string := ["MAX"; "FATAL"; "ERROR"; "WARN"; "INFO"; "USER1"; "USER2"; "TRACE"]%string.
Section Decoder.
Variable float_text : N -> string.
(** The arguments as the format method gets them
    (python/cib/mipi_messages.py:199-202). *)
Fixpoint shown_val (v : shown) : pyval :=
  match v with
  | VInt z => PInt z
  | VChar b => PByte (ascii_of_N b)
  | VFloat bits => PStr (float_text bits)
  | VName s => PStr s
  | VCast e v => PStr ("static_cast<" ++ e ++ ">(" ++ py_text (shown_val v) ++ ")")
  end.
(** str() of a decoded message (python/cib/mipi_messages.py:123-124, 199-202). The text has its
    compile-time enumerators replaced when the message is read, in at most the
    given number of turns. *)
Definition line (turns : nat) (j : json_file) (d : decoded) : option string :=
  let text m := convert_ct_enums turns (enum_named (j_enums j)) (m_text m) in
  match d with
  | DShort id => match by_id (j_messages j) (Z.of_N id) with Some m => text m | None => None end
  | DCatalog sev _ mod_ id args =>
    match by_id (j_messages j) (Z.of_N id), by_id (j_modules j) (Z.of_N mod_), nth_error severity (N.to_nat sev) with
    | Some m, Some o, Some s => match text m with Some t => catalog_line s (m_text o) t (map shown_val args) | None => None end
    | _, _, _ => None
    end
  end.
(** python/cib/log_decode.py:37-51 *)
Fixpoint lines_of (turns : nat) (j : json_file) (ds : list decoded) : list string * bool :=
  match ds with
  | [] => ([], false)
  | d :: r => match line turns j d with None => ([], true) | Some l => let (ls, e) := lines_of turns j r in (l :: ls, e) end
  end.
(** main (python/cib/log_decode.py:75-81): the lines printed, and whether it ended by an
    exception. *)
Definition decode (turns : nat) (j : json_file) (bytes : list N) : list string * bool :=
  let (ds, e) := read_logs (database_of j) bytes in let (ls, f) := lines_of turns j ds in (ls, e || f).
End Decoder.

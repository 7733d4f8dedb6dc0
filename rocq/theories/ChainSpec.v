(** Specification of what a log shows of the calls of a program. *)
From Coq Require Import String Ascii Bool Arith List NArith ZArith.
From Verif Require Import CatalogModel CatalogSpec GenModel GenSpec SymbolModel SymbolSpec MipiModel MipiSpec ChainModel.
Import ListNotations.
Local Open Scope Z_scope.

(** The names of the levels, by number (include/log/level.hpp:8-17). *)
Definition level_names : list string := ["MAX"; "FATAL"; "ERROR"; "WARN"; "INFO"; "USER1"; "USER2"; "TRACE"]%string.
(** The text of these characters. *)
Definition spells (codes : list Z) (s : string) : Prop := map (fun a => Z.of_nat (nat_of_ascii a)) (list_ascii_of_string s) = codes.
(** The format string with words in the places for arguments. *)
Inductive fills : list part -> list string -> string -> Prop :=
| fill_nil : fills [] [] EmptyString
| fill_chars t ps ws s : fills ps ws s -> fills (Chars t :: ps) ws (t ++ s)
| fill_open ps ws s : fills ps ws s -> fills (OpenBrace :: ps) ws ("{" ++ s)
| fill_close ps ws s : fills ps ws s -> fills (CloseBrace :: ps) ws ("}" ++ s)
| fill_hole ps w ws s : fills ps ws s -> fills (Hole :: ps) (w :: ws) (w ++ s).
(** The enumerations of a program: name, and enumerators with their values. *)
Definition enumerations := list (string * list (string * Z)).
Definition enumerator (enums : enumerations) (e n : string) (z : Z) : Prop := exists vs, In (e, vs) enums /\ In (n, z) vs.
(** What is to be shown for an argument: a number, or an enumerator's name. *)
Definition arg_shown (p : platform) (enums : enumerations) (a : argty * N) (s : string) : Prop :=
  let z := numeric p (fst a) (snd a) in
  match fst a with
  | MipiModel.Plain _ => prints (GenModel.VInt z) s
  | Scoped e _ | Unscoped e _ =>
    enumerator enums e s z \/
    (forall n, ~ enumerator enums e n z) /\ exists d, prints (GenModel.VInt z) d /\ s = ("static_cast<" ++ e ++ ">(" ++ d ++ ")")%string
  end.
(** The whole line for a call whose format string is made of these parts. *)
Definition call_line (p : platform) (enums : enumerations) (c : log_call) (ps : list part) (l : string) : Prop :=
  exists level mod_ words body, nth_error level_names (N.to_nat (l_level c)) = Some level /\ spells (so_text (l_module c)) mod_ /\
    Forall2 (arg_shown p enums) (l_args c) words /\ fills ps words body /\ l = (level ++ " [" ++ mod_ ++ "] " ++ body)%string.

(** ** Calls *)
Definition is_hole (p : part) : bool := match p with Hole => true | _ => false end.
Definition braces_ok (p : part) : Prop := match p with Chars t => braceless t | _ => True end.
(** A number, not a truth value, a character or a fraction; or an enumerator. *)
Definition number_or_enum (t : argty) : Prop :=
  match t with MipiModel.Plain b => integral b /\ b <> Char /\ b <> Bool | _ => True end.
(** Somewhere (T)12, as the formatter writes compile-time enumerators. *)
Definition mentions_enum (s : string) : Prop :=
  exists a ty v b, s = (a ++ String "(" (ty ++ String ")" (v ++ b)))%string /\ ty <> EmptyString /\ all_chars is_word ty = true /\
    v <> EmptyString /\ all_chars is_digit v = true /\ not_word_first b.
(** A call as a program can make it: level and unit are in range, the format
    string is made of these parts with a place for every argument, and the
    message has the types of the arguments. *)
Definition good_call (p : platform) (c : log_call) (ps : list part) : Prop :=
  (l_level c < 8)%N /\ (l_unit c < 16)%N /\ Forall braces_ok ps /\ length (filter is_hole ps) = length (l_args c) /\
  spells (sm_text (l_message c)) (format_text ps) /\ ~ mentions_enum (format_text ps) /\
  sm_args (l_message c) = map (fun a => encode_text p (fst a)) (l_args c) /\
  Forall (fun a => type_ok (fst a) /\ name_ok (fst a) /\ MipiSpec.arg_ok p a /\ number_or_enum (fst a) /\ shows_right p a) (l_args c).

(** ** Builds *)
Definition ascii_text (codes : list Z) : Prop := Forall (fun c => 0 <= c < 128) codes.
(** The symbols of a program: ASCII texts; messages with one text and the same
    argument types, and modules with one text, are the same. *)
Definition good_symbols (is : list item) : Prop :=
  (forall m, In (IMessage m) is -> ascii_text (sm_text m)) /\ (forall o, In (IModule o) is -> ascii_text (so_text o)) /\
  (forall m n, In (IMessage m) is -> In (IMessage n) is -> sm_text m = sm_text n -> sm_args m = sm_args n -> m = n) /\
  (forall m n, In (IModule m) is -> In (IModule n) is -> so_text m = so_text n -> m = n).
(** The catalog before the build fits the build (as for C43). *)
Definition fits_catalog (o : options) (j : json_file) (is : list item) : Prop :=
  let ms := map (entry_of_message (o_extra o)) (messages_of is) in
  let os := map entry_of_module (modules_of is) in
  separates (msg_key (o_hash o)) (j_messages j ++ ms) /\ pins_ok (j_messages j) ms /\
  separates (module_key (o_hash o)) (j_modules j ++ os) /\ pins_ok (j_modules j) os.
Definition consistent (j : json_file) : Prop := one_to_one (j_messages j) /\ one_to_one (j_modules j).
(** The ids fit the packets; modules have at most seven bits. *)
Definition ids_fit (g : generated) : Prop :=
  (forall d, In d (g_messages g) -> 0 <= snd d < 2 ^ 28) /\ (forall d, In d (g_modules g) -> 0 <= snd d < 2 ^ 7).
(** A build with its symbols. *)
Definition good_generate (o : options) (j : json_file) (lines : list string) (is : list item) (g : generated) : Prop :=
  (exists spaced, listing spaced lines is) /\ forallb readable is = true /\ fits_catalog o j is /\
  NoDup (map fst (o_enums o)) /\ o_extra_enums o = [] /\ generate o [j] lines = Some g.
(** Later builds, each with the catalog of the one before. *)
Inductive later : json_file -> json_file -> enumerations -> Prop :=
| later_one j o lines is g : o_forget o = false -> good_generate o j lines is g -> later j (g_json g) (o_enums o)
| later_more j o lines is g j' es : o_forget o = false -> good_generate o j lines is g -> later (g_json g) j' es -> later j j' es.

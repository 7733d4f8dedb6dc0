(** Computed cases for the programs that read and write text (see CasesProps.v).
    Tests, not proofs. *)
From Coq Require Import String Ascii List ZArith Bool Arith.
From Verif Require Import GenModel SymbolModel.
From Verif Require WrapModel.
Import ListNotations.
Local Open Scope string_scope.

(** ** C78, C79, C82, C85: the generator's texts *)
Example C78_case_numbers : map int0 ["00"; "0"; "07"; "10"; "0x1F"; "0o17"; "0b101"; " 5 "; "x"; ""] = [Some 0; Some 0; None; Some 10; Some 31; Some 15; Some 5; Some 5; None; None]%Z.
Proof. vm_compute. reflexivity. Qed.
Example C78_case_intervals : map interval_of [""; "5"; "3-9"; "1-2-3"; "-"] = [Some []; Some [(5, 5)]; Some [(3, 9)]; Some [(1, 1)]; None]%Z.
Proof. vm_compute. reflexivity. Qed.
Definition na (b e : Z) : named_arg := {| na_name := "x"; na_begin := b; na_end := e |}.
Example C79_case_places : map to_json [na 2 1; na 2 2; na 2 5]%Z = [JRef "x" 2; JLoc "x" "[2:2]"; JLoc "x" "[2:5]"]%Z /\
  map from_json [JRef "x" 2; JLoc "x" "[2:5]"; JLoc "x" "2:5"]%Z = [Some (na 2 1); Some (na 2 5); None]%Z.
Proof. vm_compute. auto. Qed.
Example C80_case_printf : map arg_printf_spec [Enc "encode_u32" "unsigned int"; Enc "encode_u32" "T"; Enc "encode_64" "T"; Enc "encode_32" "char"; EncEnum "int" "unsigned char" "1"; Enc "other" "T"] =
  ["%u"; "%u"; "%lld"; "%c"; "%u"; "%d"].
Proof. vm_compute. reflexivity. Qed.
Example C80_case_first : sub_plain "%d" "a {} b {} c" = "a %d b {} c".
Proof. vm_compute. reflexivity. Qed.
Definition nl := String (ascii_of_nat 10) "".
Example C82_case_texts : catalog_defn "Hi {}" "[int]" "T" 7 = "// ""Hi {}""" ++ nl ++ "// [int]" ++ nl ++ "template<> auto catalog<T>() -> string_id {" ++ nl ++ "    return 7;" ++ nl ++ "}" /\
  module_defn "m" "T" 7 = "// ""m""" ++ nl ++ "template<> auto module<T>() -> module_id {" ++ nl ++ "    return 7;" ++ nl ++ "}".
Proof. vm_compute. auto. Qed.
Example C85_case_values : map decoded [VBool true; VBool false; VInt 5; VChar "a"] = [PInt (-1); PInt 0; PInt 5; PByte "a"]%Z.
Proof. vm_compute. reflexivity. Qed.

(** ** C93, C94, C96: symbols, in the spellings of two compilers *)
Definition hi : sym_message := {| sm_text := [72; 105]; sm_args := ["encode_32<int>"; "encode_enum<ns::E, unsigned int, 4>"]; sm_id := 17; sm_suffix := "u";
  sm_named := [{| sn_name := [120]; sn_begin := 0; sn_end := -1 |}]; sm_tags := [{| st_name := [97]; st_value := [98] |}; {| st_name := [99]; st_value := [955] |}] |}%Z.
Definition mo : sym_module := {| so_text := [109; 62]; so_id := 3; so_suffix := "ul" |}%Z.
Definition line1 : string := "   U unsigned int catalog<sc::message<sc::undefined<sc::args<encode_32<int>, encode_enum<ns::E, unsigned int, 4>>, 17u, sc::string<(char)72, (char)105>, sc::tags<sc::tag<sc::string<(char)97>, sc::string<(char)98>>, sc::tag<sc::string<(char)99>, sc::string<(char)955>>>, sc::named_args<sc::named_arg<sc::string<(char)120>, 0, -1>>>>>()  ".
Definition line2 : string := "   U unsigned long catalog<sc::message<sc::undefined<sc::args<encode_32<int>, encode_enum<ns::E, unsigned int, 4> >, 17u, sc::string<72,105>, sc::tags<sc::tag<sc::string<(char)97>, sc::string<(char)98> >, sc::tag<sc::string<(char)99>, sc::string<(char)955> > >, sc::named_args<sc::named_arg<sc::string<(char)120>, 0, -1> > > > >()".
Definition line3 : string := "   U unsigned int module<sc::module_string<sc::undefined<void, 3ul, sc::string<(char)109, (char)62> > > >()".
Example C93_case_lines : map read_file [[line1]; [line2]; [line3]; ["   U operator new(unsigned long)"; line3; "unsigned int module<sc::module_string<>"; line3 ++ " const"]] =
  [Some [IMessage hi]; Some [IMessage hi]; Some [IModule mo]; Some [IModule mo]].
Proof. vm_compute. reflexivity. Qed.
Example C93_case_before : option_map (@length _) (read_file ["0000 T unsigned int module<sc::module_string<sc::undefined<void, 3ul, sc::string<(char)109>>>>()"]) = Some 1.
Proof. vm_compute. reflexivity. Qed.
Example C93_case_chars : map chars_of ["72 , (char)105"; "72,105"; "1114111"; "1114112"] = [Some [72; 105]; Some [72; 105]; Some [1114111]; None]%Z.
Proof. vm_compute. reflexivity. Qed.
Example C93_case_letters : map is_letter ["a"; "z"; "{"; "`"; "A"; "1"]%char = [true; true; false; false; true; false].
Proof. vm_compute. reflexivity. Qed.
Example C94_case_types : message_type {| sm_text := [72]; sm_args := ["a"; "b"]; sm_id := 17; sm_suffix := "u"; sm_named := sm_named hi; sm_tags := sm_tags hi |}%Z =
    "sc::message<sc::undefined<sc::args<a, b>, 17u, sc::string<static_cast<char>(72)>, sc::tags<sc::tag<sc::string<static_cast<char>(97)>, sc::string<static_cast<char>(98)>>, sc::tag<sc::string<static_cast<char>(99)>, sc::string<static_cast<char>(955)>>>, sc::named_args<sc::named_arg<sc::string<static_cast<char>(120)>, 0, -1>>>>" /\
  module_type mo = "sc::module_string<sc::undefined<void, 3ul, sc::string<static_cast<char>(109), static_cast<char>(62)>>>".
Proof. vm_compute. auto. Qed.
Example C96_case_names : map (fun e => enum_decl e "int") ["E"; "a::b::E"; "(anonymous namespace)::E"; "a::{anonymous}::E"] =
  [Some "enum struct E : int;"; Some "namespace a::b { enum struct E : int; }"; None; None].
Proof. vm_compute. reflexivity. Qed.

(** ** C142, C143: the command line of the generator and when it is run *)
Definition all_words : list string := ["VERSION"; "1"; "lost"; "INPUT_LIBS"; "a"; ""; "b"; "INPUT_JSON"; "i.json"; "OUTPUT_CPP"; "o.cpp"; "OUTPUT_JSON"; "o.json"; "OUTPUT_XML"; "o.xml";
  "INPUT_HEADERS"; "h1"; "h2"; "STABLE_JSON"; "s.json"; "GUID_ID"; "g"; "GUID_MASK"; "m"; "MODULE_ID_MAX"; "9"; "RESERVED_IDS"; "1-2"; "CLIENT_NAME"; "me"; "GEN_STR_CATALOG"; "g.py"].
Definition in_src (f : string) : string := "/s/" ++ f.
Example C142_case_words : WrapModel.command (fun _ => []) in_src "/b" "py" all_words =
  ["py"; "g.py"; "--input"; "/b/undefined_symbols_a.txt"; "/b/undefined_symbols_b.txt"; "--json_input"; "/s/i.json"; "--cpp_headers"; "/s/h1"; "/s/h2";
   "--cpp_output"; "o.cpp"; "--json_output"; "o.json"; "--xml_output"; "o.xml"; "--stable_json"; "/s/s.json";
   "--client_name"; "me"; "--version"; "1"; "--guid_id"; "g"; "--guid_mask"; "m"; "--module_id_max"; "9"; "--reserved_ids"; "1-2"].
Proof. vm_compute. reflexivity. Qed.
Example C142_case_empty : WrapModel.arguments ["CLIENT_NAME"; ""; "me"; "you"; "INPUT_LIBS"; "a"; ""; "b"] =
  [("CLIENT_NAME", None); ("CLIENT_NAME", Some "me"); ("INPUT_LIBS", None); ("INPUT_LIBS", Some "a"); ("INPUT_LIBS", Some "b")].
Proof. vm_compute. reflexivity. Qed.
Example C142_case_defaults : option_map (fun p => (WrapModel.g_client p, WrapModel.g_version p, WrapModel.g_guid_id p, WrapModel.g_guid_mask p, WrapModel.g_forget p, WrapModel.g_module_max p))
    (WrapModel.parse_cmdline ["--input"; "f"]) = Some ("CIB Framework FW", "VERSION", "00000000-0017-0001-0000-000000000000", "00000000-FFFF-FFFF-8000-000000000000", false, 127%Z).
Proof. vm_compute. reflexivity. Qed.
Definition files : WrapModel.tree := {| WrapModel.contents := fun _ => "0"; WrapModel.changed_at := fun _ => 0; WrapModel.now := 0; WrapModel.made := None |}.
Definition rebuild (deps : list string) (t : WrapModel.tree) : WrapModel.tree := WrapModel.build deps ["a"; "s"] (fun l => l) t.
Example C143_case_builds : let d := WrapModel.depends ["a"] [] ["s"] "g" in
  let b1 := rebuild d files in let b2 := rebuild d (WrapModel.edit "s" "1" b1) in let b3 := rebuild d (WrapModel.edit "x" "1" b2) in let b4 := rebuild d (WrapModel.edit "a" "2" b3) in
  d = ["a"; "g"; "s"] /\ map (fun t => option_map snd (WrapModel.made t)) [b1; b2; b3; b4] = [Some ["0"; "0"]; Some ["0"; "1"]; Some ["0"; "1"]; Some ["2"; "1"]].
Proof. vm_compute. auto. Qed.

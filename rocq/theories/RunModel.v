(** Model of a run of python/cib/gen_str_catalog.py (main, python/cib/gen_str_catalog.py:742-808): the enumerations
    clang finds in the generated C++ (python/cib/gen_str_catalog.py:422-449), the C++ file (python/cib/gen_str_catalog.py:393-419) and the files
    written.

    Simplifications: what libclang gives is a tree of cursors, each with the spellings
    of its semantic parents; a JSON file is its value, not its text; an argument type
    that is not understood is an exception wherever it is in the message; files can be
    opened; textwrap.dedent, which only changes lines of blanks here, is left out; the
    printed form of a list of argument types has no escapes. *)
From Coq Require Import String Ascii Bool Arith ZArith NArith List.
From Verif Require Import CatalogModel GenModel SymbolModel ChainModel OutputModel.
Import ListNotations.
Local Open Scope list_scope.
Local Open Scope string_scope.

(** ** extract_enums (python/cib/gen_str_catalog.py:422-449) *)
Inductive kind := EnumDecl | EnumConstant | OtherDecl.
(** python/cib/gen_str_catalog.py:422-449 *)
Inductive cursor := Cursor (k : kind) (spelling : string) (scope : list string) (value : Z) (children : list cursor).
(** python/cib/gen_str_catalog.py:422-449 *)
Definition c_kind (c : cursor) : kind := match c with Cursor k _ _ _ _ => k end.
(** python/cib/gen_str_catalog.py:422-449 *)
Definition c_spelling (c : cursor) : string := match c with Cursor _ s _ _ _ => s end.
(** python/cib/gen_str_catalog.py:422-449 *)
Definition c_scope (c : cursor) : list string := match c with Cursor _ _ s _ _ => s end.
(** python/cib/gen_str_catalog.py:422-449 *)
Definition c_value (c : cursor) : Z := match c with Cursor _ _ _ v _ => v end.
(** Cursor.walk_preorder (python/cib/gen_str_catalog.py:422-449) *)
Fixpoint walk_preorder (c : cursor) : list cursor := match c with Cursor _ _ _ _ l => c :: concat (map walk_preorder l) end.
(** fq_name (python/cib/gen_str_catalog.py:434-435): the names from the outermost parent inwards *)
Definition fq_name (c : cursor) : string := join_with "::" (c_scope c ++ [c_spelling c])%list.
(** python/cib/gen_str_catalog.py:434-435 *)
Definition is_kind (k : kind) (c : cursor) : bool :=
  match k, c_kind c with EnumDecl, EnumDecl => true | EnumConstant, EnumConstant => true | OtherDecl, OtherDecl => true | _, _ => false end.
(** new_decl (python/cib/gen_str_catalog.py:443-447) *)
Definition new_decl (node : cursor) : list (string * Z) :=
  fold_left (fun d e => put String.eqb (c_spelling e) (c_value e) d) (filter (is_kind EnumConstant) (walk_preorder node)) [].
(** enums[name] = enums.get(name, {}) | new_decl (python/cib/gen_str_catalog.py:448) *)
Definition add_decl (enums : list (string * list (string * Z))) (node : cursor) : list (string * list (string * Z)) :=
  put String.eqb (fq_name node) (update String.eqb (match get String.eqb (fq_name node) enums with Some d => d | None => [] end) (new_decl node)) enums.
(** python/cib/gen_str_catalog.py:448 *)
Definition extract_enums (unit : cursor) : list (string * list (string * Z)) := fold_left add_decl (filter (is_kind EnumDecl) (walk_preorder unit)) [].
(** The numbers given to them (python/cib/gen_str_catalog.py:772-780) *)
Fixpoint numbered {A} (i : Z) (l : list (string * A)) : list (string * (Z * A)) :=
  match l with [] => [] | (n, v) :: r => (n, (i, v)) :: numbered (i + 1) r end.

(** ** write_cpp (python/cib/gen_str_catalog.py:393-419) *)
Definition lines_of (l : list string) : string := join_with newline l.
(** gen.disclaimer (python/cib/gen_utils.py:6-16) *)
Definition disclaimer (argv date : string) : string :=
  lines_of ["//"; "// This file was automatically generated by"; "// " ++ argv; "// At " ++ date; "// DO NOT MODIFY THIS FILE MANUALLY"; "//"].
(** python/cib/gen_str_catalog.py:393-419 *)
Definition list_repr (l : list string) : string := "[" ++ join_with ", " (map (fun a => "'" ++ a ++ "'") l) ++ "]".
(** python/cib/gen_str_catalog.py:393-419 *)
Definition cpp_file (argv date : string) (headers decls catalog_defns module_defns : list string) : string :=
  disclaimer argv date ++ newline ++ newline ++
  lines_of (map (fun h => "#include """ ++ h ++ """") headers) ++ newline ++ newline ++
  "#include <log_binary/catalog/arguments.hpp>" ++ newline ++ "#include <log_binary/catalog/catalog.hpp>" ++ newline ++ newline ++
  lines_of decls ++ newline ++ newline ++
  join_with (newline ++ newline) catalog_defns ++ newline ++ newline ++
  join_with (newline ++ newline) module_defns ++ newline.

(** ** main (python/cib/gen_str_catalog.py:742-808) *)
Record settings := {
  s_options : options; s_cpp : option string; s_json : option string; s_xml : option string;
  s_headers : list string; s_argv : string; s_date : string;
  s_client : string; s_version : string; s_guid_id : string; s_guid_mask : string;
  (** index.parse on the C++ file; None: an exception *)
  s_clang : string -> option cursor }.
(** python/cib/gen_str_catalog.py:393-419, 742-808 *)
Inductive content := Plain (s : string) | Json (j : json_file).
(** python/cib/gen_str_catalog.py:393-419, 742-808 *)
Definition files := list (string * content).
(** python/cib/gen_str_catalog.py:393-419, 742-808 *)
Definition write (path : string) (c : content) (fs : files) : files := put String.eqb path c fs.
(** The objects in the order of the entries (python/cib/gen_str_catalog.py:742-808). *)
Definition objects {A} (key : entry -> Z) (entry_of : A -> entry) (ms : list entry) (l : list A) : list (A * Z) :=
  flat_map (fun e => match find (fun m => (key (entry_of m) =? key e)%Z) (kept (fun m => key (entry_of m)) l) with Some m => [(m, m_id e)] | None => [] end) ms.
(** python/cib/gen_str_catalog.py:742-808 *)
Definition catalog_defns (l : list (sym_message * Z)) : list string :=
  map (fun mi => catalog_defn (text_of_codes (sm_text (fst mi))) (list_repr (sm_args (fst mi))) (message_type (fst mi)) (snd mi)) l.
(** python/cib/gen_str_catalog.py:742-808 *)
Definition module_defns (l : list (sym_module * Z)) : list string :=
  map (fun mi => module_defn (text_of_codes (so_text (fst mi))) (module_type (fst mi)) (snd mi)) l.
(** arg_type_encoding of an argument (python/cib/gen_str_catalog.py:742-808) *)
Definition arg_of (a : string) : option arg_type :=
  match arg_type_encoding a with
  | Some (enc, e, ut, size) => Some (if enc =? "encode_enum" then EncEnum e ut size else Enc enc ut)
  | None => None
  end.
(** A message as write_xml sees it; enums is empty when there is no lookup
    (python/cib/gen_str_catalog.py:742-808). *)
Definition xml_message_of (enums : list (string * Z)) (e : entry) : option xml_message :=
  match SymbolModel.all_some (map arg_of (m_args e)) with
  | Some args => Some {| x_id := Z.to_N (m_id e); x_lookup := enum_lookup enums args; x_args := args; x_text := m_text e |}
  | None => None
  end.
(** The files after the run, and whether it ended without an exception
    (python/cib/gen_str_catalog.py:742-808). *)
Definition main (st : settings) (stable : list json_file) (lines : list string) (fs : files) : files * bool :=
  let o := s_options st in
  match read_file lines with
  | None => (fs, false)
  | Some is =>
    let mkey := msg_key (o_hash o) in
    let okey := module_key (o_hash o) in
    let (ms, mj) := run mkey (o_forget o) (o_reserved o) (map (fun j => Some (j_messages j)) stable) (map (entry_of_message (o_extra o)) (messages_of is)) in
    let (os, oj) := run okey (o_forget o) [] (map (fun j => Some (j_modules j)) stable) (map entry_of_module (modules_of is)) in
    let mos := objects mkey (entry_of_message (o_extra o)) ms (messages_of is) in
    let oos := objects okey entry_of_module os (modules_of is) in
    (** scoped_enums, write_cpp (python/cib/gen_str_catalog.py:752-760): the file is opened before its text is made *)
    match (match s_cpp st with
           | None => Some (fs, None, true)
           | Some path =>
             match collect_enums (flat_map (fun m => sm_args (fst m)) mos) [] with
             | None => None
             | Some d =>
               match SymbolModel.all_some (map (fun kv => enum_decl (fst kv) (snd kv)) d) with
               | None => Some (write path (Plain EmptyString) fs, None, false)
               | Some decls =>
                 let text := cpp_file (s_argv st) (s_date st) (s_headers st) decls (catalog_defns mos) (module_defns oos) in
                 Some (write path (Plain text) fs, Some text, true)
               end
             end
           end)
    with
    | None => (fs, false)
    | Some (fs1, _, false) => (fs1, false)
    | Some (fs1, cpp, true) =>
      (** check_module_limit (python/cib/gen_str_catalog.py:769) *)
      if check_limit (o_module_max o) os then
        let enums := match cpp with
                     | Some text => match s_clang st text with Some unit => numbered 0 (extract_enums unit) | None => [] end
                     | None => []
                     end in
        let numbers := map (fun e => (fst e, fst (snd e))) enums in
        (** write_json (python/cib/gen_str_catalog.py:793-796) *)
        let fs2 := match s_json st with
                   | Some path => write path (Json {| j_messages := mj; j_modules := oj; j_enums := write_enums (map (fun e => (fst e, snd (snd e))) enums) (o_extra_enums o) |}) fs1
                   | None => fs1
                   end in
        (** write_xml (python/cib/gen_str_catalog.py:798-808) *)
        match s_xml st with
        | None => (fs2, true)
        | Some path =>
          match SymbolModel.all_some (map (xml_message_of numbers) ms) with
          | None => (fs2, false)
          | Some xms =>
            (write path (Plain (write_xml {| client_name := s_client st; version := s_version st; guid_id := s_guid_id st; guid_mask := s_guid_mask st;
                                             c_enums := enums; c_modules := map (fun m => (m_id m, m_text m)) os; c_messages := xms |})) fs2, true)
          end
        end
      else (fs1, false)
    end
  end.

(** Model of the CMake function that runs the catalog generator, from the
    arguments of a call to the command line and to what the generator's parser
    makes of it (cmake/string_catalog.cmake:1-101,
    python/cib/gen_str_catalog.py:642-725); and of the rule that says when the
    generator is run again.

    Simplifications: arguments have no semicolons and no brackets; the target
    properties, the commands that run nm and the library of the C++ file are
    left out; file(REAL_PATH) is any function of a path.  The command line is
    that of the Makefile and Ninja generators on Unix. *)
From Coq Require Import String Ascii Bool Arith List ZArith.
From Verif Require Import CatalogModel GenModel.
Import ListNotations.
Local Open Scope string_scope.

(** ** cmake_parse_arguments (cmake/string_catalog.cmake:2-18) *)
(** cmake/string_catalog.cmake:2 *)
Definition option_words : list string := ["FORGET_OLD_IDS"].
(** cmake/string_catalog.cmake:3-15 *)
Definition one_words : list string :=
  ["OUTPUT_CPP"; "OUTPUT_XML"; "OUTPUT_JSON"; "GEN_STR_CATALOG"; "OUTPUT_LIB"; "CLIENT_NAME"; "VERSION"; "GUID_ID"; "GUID_MASK";
   "MODULE_ID_MAX"; "RESERVED_IDS"; "OUTPUTS_TARGET"].
(** cmake/string_catalog.cmake:16 *)
Definition multi_words : list string := ["INPUT_JSON"; "INPUT_LIBS"; "INPUT_HEADERS"; "STABLE_JSON"].
(** cmake/string_catalog.cmake:17-18 *)
Definition listed (ws : list string) (t : string) : bool := existsb (String.eqb t) ws.
(** The keywords met, each followed by the values that go to it; [cur] is the
    keyword that takes the next value (cmake/string_catalog.cmake:17-18). *)
Fixpoint read_words (cur : option string) (ts : list string) : list (string * option string) :=
  match ts with
  | [] => []
  | t :: ts =>
    if listed option_words t then (t, None) :: read_words None ts
    else if listed one_words t || listed multi_words t then (t, None) :: read_words (Some t) ts
    else match cur with
         | Some k => (k, Some t) :: read_words (if listed one_words k then None else Some k) ts
         | None => read_words None ts
         end
  end.
(** ${ARGN} drops empty arguments (cmake/string_catalog.cmake:17-18). *)
Definition arguments (argn : list string) : list (string * option string) :=
  read_words None (filter (fun t => negb (t =? "")) argn).
(** SC_… of an option (cmake/string_catalog.cmake:17-18) *)
Definition flag (k : string) (a : list (string * option string)) : bool := existsb (fun e => fst e =? k) a.
(** SC_… of a keyword with several values (cmake/string_catalog.cmake:17-18) *)
Definition many (k : string) (a : list (string * option string)) : list string :=
  flat_map (fun e => if fst e =? k then match snd e with Some v => [v] | None => [] end else []) a.
(** SC_… of a keyword with one value: the last one wins
    (cmake/string_catalog.cmake:17-18). *)
Definition one (k : string) (a : list (string * option string)) : option string :=
  match rev (many k a) with v :: _ => Some v | [] => None end.

(** ** The command (cmake/string_catalog.cmake:20-89) *)
(** The values that if() takes for false (cmake/string_catalog.cmake:54-77). *)
Definition upper (a : ascii) : ascii :=
  let n := nat_of_ascii a in if (Nat.leb 97 n && Nat.leb n 122)%bool then ascii_of_nat (n - 32) else a.
(** cmake/string_catalog.cmake:54-77 *)
Fixpoint upper_case (s : string) : string := match s with EmptyString => EmptyString | String a r => String (upper a) (upper_case r) end.
(** cmake/string_catalog.cmake:54-77 *)
Fixpoint ends_in (suffix s : string) : bool :=
  (s =? suffix) || match s with EmptyString => false | String _ r => ends_in suffix r end.
(** cmake/string_catalog.cmake:54-77 *)
Definition is_off (s : string) : bool :=
  listed [""; "0"; "N"; "NO"; "OFF"; "FALSE"; "IGNORE"] (upper_case s) || (s =? "NOTFOUND") || ends_in "-NOTFOUND" s.
(** The variables of the scope the function is called in, lists of values; they
    are seen in the function (cmake/string_catalog.cmake:1). *)
Definition scope := string -> list string.
(** if(SC_k) set(var arg ${SC_k}) (cmake/string_catalog.cmake:57-74) *)
Definition optional (outer : scope) (var arg k : string) (a : list (string * option string)) : list string :=
  match one k a with
  | Some v => if is_off v then outer var else [arg; v]
  | None => outer var
  end.
(** list(APPEND var …) (cmake/string_catalog.cmake:41-52) *)
Definition appended (outer : scope) (var : string) (real : string -> string) (k : string) (a : list (string * option string)) : list string :=
  (outer var ++ map real (many k a))%list.
(** cmake/string_catalog.cmake:20-23 *)
Definition undefs (dir : string) (a : list (string * option string)) : list string :=
  map (fun l => dir ++ "/undefined_symbols_" ++ l ++ ".txt") (many "INPUT_LIBS" a).
(** cmake/string_catalog.cmake:79-89 *)
Definition opt_list (o : option string) : list string := match o with Some v => [v] | None => [] end.
(** cmake/string_catalog.cmake:79-87 *)
Definition command (outer : scope) (real : string -> string) (dir python : string) (argn : list string) : list string :=
  let a := arguments argn in
  ([python] ++ match one "GEN_STR_CATALOG" a with Some v => if is_off v then outer "GEN_STR_CATALOG" else [v] | None => outer "GEN_STR_CATALOG" end
   ++ ["--input"] ++ undefs dir a
   ++ ["--json_input"] ++ appended outer "INPUT_JSON" real "INPUT_JSON" a
   ++ ["--cpp_headers"] ++ appended outer "INPUT_HEADERS" real "INPUT_HEADERS" a
   ++ ["--cpp_output"] ++ opt_list (one "OUTPUT_CPP" a) ++ ["--json_output"] ++ opt_list (one "OUTPUT_JSON" a)
   ++ ["--xml_output"] ++ opt_list (one "OUTPUT_XML" a) ++ ["--stable_json"] ++ appended outer "STABLE_JSON" real "STABLE_JSON" a
   ++ (if flag "FORGET_OLD_IDS" a then ["--forget_old_ids"] else outer "FORGET_ARG")
   ++ optional outer "CLIENT_NAME_ARG" "--client_name" "CLIENT_NAME" a
   ++ optional outer "VERSION_ARG" "--version" "VERSION" a
   ++ optional outer "GUID_ID_ARG" "--guid_id" "GUID_ID" a
   ++ optional outer "GUID_MASK_ARG" "--guid_mask" "GUID_MASK" a
   ++ optional outer "MODULE_ID_MAX_ARG" "--module_id_max" "MODULE_ID_MAX" a
   ++ optional outer "RESERVED_IDS_ARG" "--reserved_ids" "RESERVED_IDS" a)%list.
(** Without VERBATIM only spaces are escaped (cmake/string_catalog.cmake:79-89). *)
Fixpoint old_style (s : string) : string :=
  match s with
  | EmptyString => EmptyString
  | String a r => if Ascii.eqb a " " then String "\" (String a (old_style r)) else String a (old_style r)
  end.
(** cmake/string_catalog.cmake:79-89 *)
Definition command_text (ws : list string) : string := join_with " " (map old_style ws).
(** What the shell treats specially outside quotes, other than spaces, backslashes
    and the ends of commands (cmake/string_catalog.cmake:79-89). *)
Definition shell_special : list ascii :=
  ["|"; "<"; ">"; "("; ")"; "$"; "`"; ascii_of_nat 34; "'"; "*"; "?"; "["; "]"; "#"; "~"; "!"; "{"; "}"; ascii_of_nat 9; ascii_of_nat 10]%char.
(** The words of the first command of a text; None: quotes, expansions and the like
    are not modelled (cmake/string_catalog.cmake:79-89). *)
Fixpoint shell_words (cur : option string) (s : string) : option (list string) :=
  let add c := Some (match cur with Some w => w ++ String c "" | None => String c "" end) in
  match s with
  | EmptyString => Some (opt_list cur)
  | String a r =>
    if Ascii.eqb a "\" then match r with String c r' => shell_words (add c) r' | EmptyString => None end
    else if Ascii.eqb a " " then match cur with Some w => option_map (cons w) (shell_words None r) | None => shell_words None r end
    else if (Ascii.eqb a "&" || Ascii.eqb a ";")%bool then Some (opt_list cur)
    else if existsb (Ascii.eqb a) shell_special then None
    else shell_words (add a) r
  end.

(** ** parse_cmdline (python/cib/gen_str_catalog.py:642-725) *)
Inductive arity := Single | Star | Plus | Switch.
(** python/cib/gen_str_catalog.py:643-724 *)
Definition program_options : list (string * arity) :=
  [("--input", Plus); ("--cpp_output", Single); ("--json_output", Single); ("--xml_output", Single); ("--json_input", Star); ("--cpp_headers", Star);
   ("--client_name", Single); ("--version", Single); ("--guid_id", Single); ("--guid_mask", Single); ("--stable_json", Star);
   ("--forget_old_ids", Switch); ("--module_id_max", Single); ("--reserved_ids", Single)].
(** python/cib/gen_str_catalog.py:725 *)
Definition dashed (t : string) : bool := match t with String "-" _ => true | _ => false end.
(** Each option with the values after it, and the values before the first
    (python/cib/gen_str_catalog.py:725). *)
Fixpoint segments (ts : list string) : list string * list (string * list string) :=
  match ts with
  | [] => ([], [])
  | t :: ts => let (vs, ss) := segments ts in if dashed t then ([], (t, vs) :: ss) else (t :: vs, ss)
  end.
(** Whether the parser takes an option with these values; abbreviated options, those
    with an equals sign and values that begin with a dash are not modelled (refused)
    (python/cib/gen_str_catalog.py:725). *)
Definition accepted (s : string * list string) : bool :=
  match find (fun o => fst o =? fst s) program_options with
  | Some (_, Single) => Nat.eqb (length (snd s)) 1
  | Some (_, Star) => true
  | Some (_, Plus) => negb (Nat.eqb (length (snd s)) 0)
  | Some (_, Switch) => Nat.eqb (length (snd s)) 0
  | None => false
  end.
(** The values of the last of the options of a name
    (python/cib/gen_str_catalog.py:725). *)
Definition last_of (k : string) (ss : list (string * list string)) : option (list string) :=
  option_map snd (find (fun s => fst s =? k) (rev ss)).
(** python/cib/gen_str_catalog.py:725 *)
Definition value_of (k : string) (ss : list (string * list string)) : option string :=
  match last_of k ss with Some (v :: _) => Some v | _ => None end.
(** python/cib/gen_str_catalog.py:725 *)
Definition values_of (k : string) (ss : list (string * list string)) : list string := match last_of k ss with Some vs => vs | None => [] end.
(** python/cib/gen_str_catalog.py:725 *)
Definition or_default (d : string) (o : option string) : string := match o with Some v => v | None => d end.
(** args (python/cib/gen_str_catalog.py:642-725) *)
Record program := {
  g_input : list string; g_cpp : option string; g_json : option string; g_xml : option string;
  g_json_input : list string; g_headers : list string; g_client : string; g_version : string; g_guid_id : string; g_guid_mask : string;
  g_stable : list string; g_forget : bool; g_module_max : Z; g_reserved : list (Z * Z) }.
(** python/cib/gen_str_catalog.py:677-682 *)
Definition default_client : string := "CIB Framework FW".
(** python/cib/gen_str_catalog.py:683-688 *)
Definition default_version : string := "VERSION".
(** python/cib/gen_str_catalog.py:689-694 *)
Definition default_guid_id : string := "00000000-0017-0001-0000-000000000000".
(** python/cib/gen_str_catalog.py:695-700 *)
Definition default_guid_mask : string := "00000000-FFFF-FFFF-8000-000000000000".
(** None: the program ends with a message about its usage
    (python/cib/gen_str_catalog.py:642-725). *)
Definition parse_cmdline (ts : list string) : option program :=
  match segments ts with
  | ([], ss) =>
    if (forallb accepted ss && existsb (fun s => fst s =? "--input") ss)%bool then
      match match value_of "--module_id_max" ss with Some v => int10 v | None => Some 127%Z end, intervals (or_default "" (value_of "--reserved_ids" ss)) with
      | Some m, Some r =>
        Some {| g_input := values_of "--input" ss; g_cpp := value_of "--cpp_output" ss; g_json := value_of "--json_output" ss; g_xml := value_of "--xml_output" ss;
                g_json_input := values_of "--json_input" ss; g_headers := values_of "--cpp_headers" ss;
                g_client := or_default default_client (value_of "--client_name" ss); g_version := or_default default_version (value_of "--version" ss);
                g_guid_id := or_default default_guid_id (value_of "--guid_id" ss); g_guid_mask := or_default default_guid_mask (value_of "--guid_mask" ss);
                g_stable := values_of "--stable_json" ss; g_forget := existsb (fun s => fst s =? "--forget_old_ids") ss;
                g_module_max := m; g_reserved := r |}
      | _, _ => None
      end
    else None
  | _ => None
  end.
(** The generator as it is run by the build (cmake/string_catalog.cmake:79-89). *)
Definition generator_run (outer : scope) (real : string -> string) (dir python : string) (argn : list string) : option (string * option program) :=
  match shell_words None (command_text (command outer real dir python argn)) with
  | Some (py :: script :: args) => Some (script, parse_cmdline args)
  | _ => None
  end.

(** ** When the generator is run again (cmake/string_catalog.cmake:79-89) *)
(** What can change between two builds: the contents of files, a time of the last
    change for each, and what the command left (cmake/string_catalog.cmake:79-89). *)
Record tree := { contents : string -> string; changed_at : string -> nat; now : nat; made : option (nat * list string) }.
(** The files the command depends on (cmake/string_catalog.cmake:88). *)
Definition depends (undefs input_json stable : list string) (script : string) : list string :=
  (undefs ++ input_json ++ [script] ++ stable)%list.
(** A file is edited (cmake/string_catalog.cmake:79-89). *)
Definition edit (f text : string) (t : tree) : tree :=
  {| contents := fun g => if g =? f then text else contents t g; changed_at := fun g => if g =? f then S (now t) else changed_at t g;
     now := S (now t); made := made t |}.
(** A build: the command is run if there are no outputs yet or a dependency is newer;
    [gen] is what it writes for the contents of the files it reads
    (cmake/string_catalog.cmake:79-89). *)
Definition build (deps reads : list string) (gen : list string -> list string) (t : tree) : tree :=
  let fresh := match made t with Some (m, _) => forallb (fun f => Nat.leb (changed_at t f) m) deps | None => false end in
  if fresh then t
  else {| contents := contents t; changed_at := changed_at t; now := S (now t); made := Some (S (now t), gen (map (contents t) reads)) |}.

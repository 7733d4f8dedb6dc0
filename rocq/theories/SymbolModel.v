(** Model of the reading of undefined symbols and of the C++ types and
    declarations written for them: python/cib/gen_str_catalog.py.

    Regular expressions are matched as Python's re module does: alternatives in
    order, greedy and lazy repetition with backtracking, the first match found is
    the match. Simplifications: the characters of a line are ASCII (so \s, \d and
    [a-zA-Z] are the ASCII classes); int() accepts a minus sign and decimal digits
    with white space around (no plus sign, no underscores); texts are lists of
    code points. An exception is [None]. *)
From Coq Require Import String Ascii Bool Arith List ZArith.
From Verif Require Import CatalogModel GenModel.
Import ListNotations.
Local Open Scope string_scope.

(** ** Regular expressions *)
(** Repetition is of one character class only, as in all expressions used
    (python/cib/gen_str_catalog.py:71-80, 119-128, 168-183, 241-252). *)
Inductive re :=
| Eps
| One (p : ascii -> bool)
| Many (greedy : bool) (p : ascii -> bool)
| Seq (a b : re)
| Alt (a b : re)
| Grp (n : nat) (a : re)
| Eos.
(** python/cib/gen_str_catalog.py:71-80, 119-128, 168-183, 241-252 *)
Definition groups := list (nat * string).

Section Match.
Context {R : Type}.
(** python/cib/gen_str_catalog.py:71-80, 119-128, 168-183, 241-252 *)
Definition or_else (x y : option R) : option R := match x with Some _ => x | None => y end.
(** p* or p*? before the rest k
    (python/cib/gen_str_catalog.py:71-80, 119-128, 168-183, 241-252) *)
Fixpoint many (greedy : bool) (p : ascii -> bool) (k : string -> option R) (s : string) : option R :=
  match s with
  | EmptyString => k s
  | String a r =>
    if p a then if greedy then or_else (many greedy p k r) (k s) else or_else (k s) (many greedy p k r)
    else k s
  end.
(** The text between two positions, the second given by what follows it
    (python/cib/gen_str_catalog.py:71-80, 119-128, 168-183, 241-252). *)
Definition between (s rest : string) : string := substring 0 (String.length s - String.length rest) s.
(** python/cib/gen_str_catalog.py:71-80, 119-128, 168-183, 241-252 *)
Fixpoint mtch (r : re) (s : string) (g : groups) (k : string -> groups -> option R) : option R :=
  match r with
  | Eps => k s g
  | One p => match s with String a t => if p a then k t g else None | EmptyString => None end
  | Many greedy p => many greedy p (fun t => k t g) s
  | Seq a b => mtch a s g (fun t h => mtch b t h k)
  | Alt a b => or_else (mtch a s g k) (mtch b s g k)
  | Grp n a => mtch a s g (fun t h => k t ((n, between s t) :: h))
  | Eos => match s with
           | EmptyString => k s g
           | String a EmptyString => if Nat.eqb (nat_of_ascii a) 10 then k s g else None
           | _ => None
           end
  end.
End Match.

(** pattern.match(s): at the start of s
    (python/cib/gen_str_catalog.py:71-80, 119-128, 168-183, 241-252) *)
Definition re_match (r : re) (s : string) : option groups := mtch r s [] (fun _ g => Some g).
(** m.group(n) (python/cib/gen_str_catalog.py:71-80, 119-128, 168-183, 241-252) *)
Definition group (n : nat) (g : groups) : string :=
  match find (fun x => Nat.eqb (fst x) n) g with Some x => snd x | None => EmptyString end.
(** python/cib/gen_str_catalog.py:71-80, 119-128, 168-183, 241-252 *)
Definition dot (a : ascii) : bool := negb (Nat.eqb (nat_of_ascii a) 10).
(** python/cib/gen_str_catalog.py:71-80, 119-128, 168-183, 241-252 *)
Definition is_letter (a : ascii) : bool :=
  (Nat.leb 65 (nat_of_ascii a) && Nat.leb (nat_of_ascii a) 90) || (Nat.leb 97 (nat_of_ascii a) && Nat.leb (nat_of_ascii a) 122).
(** python/cib/gen_str_catalog.py:71-80, 119-128, 168-183, 241-252 *)
Fixpoint lit (l : string) : re := match l with EmptyString => Eps | String a r => Seq (One (Ascii.eqb a)) (lit r) end.
(** python/cib/gen_str_catalog.py:71-80, 119-128, 168-183, 241-252 *)
Fixpoint seqs (l : list re) : re := match l with [] => Eps | [r] => r | r :: q => Seq r (seqs q) end.
(** python/cib/gen_str_catalog.py:71-80, 119-128, 168-183, 241-252 *)
Definition any : re := Many true dot.
(** python/cib/gen_str_catalog.py:71-80, 119-128, 168-183, 241-252 *)
Definition blanks : re := Many true is_space.
(** -?\d+ (python/cib/gen_str_catalog.py:71-80, 119-128, 168-183, 241-252) *)
Definition number : re := seqs [Alt (lit "-") Eps; One is_digit; Many true is_digit].

(** ** Character lists *)
(** s.replace(old, ""), for a non-empty old
    (python/cib/gen_str_catalog.py:75-77, 123-127, 175-177, 247-249) *)
Fixpoint remove_from (fuel : nat) (old s : string) : string :=
  match fuel with
  | O => s
  | S n =>
    match s with
    | EmptyString => EmptyString
    | String a r =>
      if String.prefix old s then remove_from n old (substring (String.length old) (String.length s - String.length old) s)
      else String a (remove_from n old r)
    end
  end.
(** python/cib/gen_str_catalog.py:75-77, 123-127, 175-177, 247-249 *)
Definition remove (old s : string) : string := remove_from (S (String.length s)) old s.
(** re.split(r"\s*,\s*", s): the piece so far is kept in reverse
    (python/cib/gen_str_catalog.py:75-77, 123-127, 175-177, 247-249) *)
Definition comma_here (s : string) : option string := mtch (seqs [blanks; lit ","; blanks]) s [] (fun t _ => Some t).
(** python/cib/gen_str_catalog.py:75-77, 123-127, 175-177, 247-249 *)
Fixpoint re_split_from (fuel : nat) (acc : string) (s : string) : list string :=
  match fuel with
  | O => []
  | S n =>
    match comma_here s with
    | Some rest => acc :: re_split_from n EmptyString rest
    | None => match s with EmptyString => [acc] | String a r => re_split_from n (acc ++ String a EmptyString) r end
    end
  end.
(** python/cib/gen_str_catalog.py:75-77, 123-127, 175-177, 247-249 *)
Definition re_split (s : string) : list string := re_split_from (S (String.length s)) EmptyString s.
(** chr(int(c)) (python/cib/gen_str_catalog.py:75-77, 123-127, 175-177, 247-249) *)
Definition chr (n : Z) : option Z := if ((0 <=? n) && (n <? 1114112))%Z then Some n else None.
(** python/cib/gen_str_catalog.py:75-77, 123-127, 175-177, 247-249 *)
Definition chr_int (c : string) : option Z := match int10 (strip c) with Some n => chr n | None => None end.
(** python/cib/gen_str_catalog.py:75-77, 123-127, 175-177, 247-249 *)
Fixpoint all_some {A} (l : list (option A)) : option (list A) :=
  match l with
  | [] => Some []
  | Some x :: r => match all_some r with Some q => Some (x :: q) | None => None end
  | None :: _ => None
  end.
(** "".join((chr(int(c)) for c in re.split(r"\s*,\s*", t.replace("(char)", "")))) (python/cib/gen_str_catalog.py:75-77, 123-127, 175-177, 247-249) *)
Definition chars_of (t : string) : option (list Z) := all_some (map chr_int (re_split (remove "(char)" t))).

(** ** Reading types *)
(** python/cib/gen_str_catalog.py:75-77, 123-127, 175-177, 247-249 *)
Record sym_named := { sn_name : list Z; sn_begin : Z; sn_end : Z }.
(** python/cib/gen_str_catalog.py:75-77, 123-127, 175-177, 247-249 *)
Record sym_tag := { st_name : list Z; st_value : list Z }.
(** python/cib/gen_str_catalog.py:75-77, 123-127, 175-177, 247-249 *)
Record sym_message := {
  sm_text : list Z; sm_args : list string; sm_id : Z; sm_suffix : string;
  sm_named : list sym_named; sm_tags : list sym_tag
}.
(** python/cib/gen_str_catalog.py:75-77, 123-127, 175-177, 247-249 *)
Record sym_module := { so_text : list Z; so_id : Z; so_suffix : string }.

(** NamedArg.from_cpp_type (python/cib/gen_str_catalog.py:71-80) *)
Definition named_re : re :=
  seqs [lit "sc::named_arg<sc::string<"; Grp 1 any; lit ">, "; Grp 2 number; lit ", "; Grp 3 number; lit ">"].
(** python/cib/gen_str_catalog.py:71-80 *)
Definition named_from (s : string) : option sym_named :=
  match re_match named_re s with
  | Some g =>
    match chars_of (group 1 g), int10 (group 2 g), int10 (group 3 g) with
    | Some n, Some b, Some e => Some {| sn_name := n; sn_begin := b; sn_end := e |}
    | _, _, _ => None
    end
  | None => None
  end.
(** Tag.from_cpp_type (python/cib/gen_str_catalog.py:119-128) *)
Definition tag_re : re :=
  seqs [lit "sc::tag<sc::string<"; Grp 1 any; lit ">, sc::string<"; Grp 2 any; lit ">"; blanks; lit ">"].
(** python/cib/gen_str_catalog.py:119-128 *)
Definition tag_from (s : string) : option sym_tag :=
  match re_match tag_re s with
  | Some g =>
    match chars_of (group 1 g), chars_of (group 2 g) with
    | Some n, Some v => Some {| st_name := n; st_value := v |}
    | _, _ => None
    end
  | None => None
  end.
(** Message.from_cpp_type (python/cib/gen_str_catalog.py:168-183) *)
Definition message_re : re :=
  seqs [lit "sc::message<sc::undefined<sc::args<"; Grp 1 any; lit ">, "; Grp 2 number; Grp 3 (Many true is_letter);
        lit ", sc::string<"; Grp 4 any; lit ">, sc::tags<"; Grp 5 any; lit ">, sc::named_args<"; Grp 6 any;
        lit ">"; blanks; lit ">"; blanks; lit ">"].
(** python/cib/gen_str_catalog.py:168-183 *)
Definition message_from (s : string) : option sym_message :=
  match re_match message_re s with
  | Some g =>
    match chars_of (group 4 g), int10 (group 2 g),
          all_some (map named_from (split_args (group 6 g))), all_some (map tag_from (split_args (group 5 g))) with
    | Some t, Some i, Some ns, Some ts =>
      Some {| sm_text := t; sm_args := split_args (group 1 g); sm_id := i; sm_suffix := group 3 g; sm_named := ns; sm_tags := ts |}
    | _, _, _, _ => None
    end
  | None => None
  end.
(** Module.from_cpp_type (python/cib/gen_str_catalog.py:241-252) *)
Definition module_re : re :=
  seqs [lit "sc::module_string<sc::undefined<"; Grp 1 any; lit ", "; Grp 2 number; Grp 3 (Many true is_letter);
        lit ", sc::string<"; Grp 4 any; lit ">"; blanks; lit ">"; blanks; lit ">"].
(** python/cib/gen_str_catalog.py:241-252 *)
Definition module_from (s : string) : option sym_module :=
  match re_match module_re s with
  | Some g =>
    match chars_of (group 4 g), int10 (group 2 g) with
    | Some t, Some i => Some {| so_text := t; so_id := i; so_suffix := group 3 g |}
    | _, _ => None
    end
  | None => None
  end.

(** ** Reading a file *)
(** python/cib/gen_str_catalog.py:287-297 *)
Inductive item := IMessage (m : sym_message) | IModule (m : sym_module).
(** line_re (python/cib/gen_str_catalog.py:342) *)
Definition line_re : re :=
  seqs [any; lit "unsigned "; Alt (lit "int") (lit "long"); lit " "; Grp 1 (Alt (lit "catalog") (lit "module"));
        lit "<"; Grp 2 (Seq (One dot) (Many false dot)); lit ">()"; Eos].
(** extract (python/cib/gen_str_catalog.py:287-297) *)
Definition extract (g : groups) : option item :=
  if group 1 g =? "catalog" then option_map IMessage (message_from (group 2 g)) else option_map IModule (module_from (group 2 g)).
(** read_file (python/cib/gen_str_catalog.py:341-348): lines that do not match are left out. *)
Fixpoint read_file (lines : list string) : option (list item) :=
  match lines with
  | [] => Some []
  | l :: r =>
    match re_match line_re (strip l) with
    | None => read_file r
    | Some g => match extract g, read_file r with Some i, Some q => Some (i :: q) | _, _ => None end
    end
  end.

(** ** Writing types *)
(** ', '.join(f'static_cast<char>({ord(c)})' for c in text)
    (python/cib/gen_str_catalog.py:100-101) *)
Definition chars_text (text : list Z) : string := join_with ", " (map (fun c => "static_cast<char>(" ++ str c ++ ")") text).
(** NamedArg.to_cpp_type (python/cib/gen_str_catalog.py:100-101) *)
Definition named_text (n : sym_named) : string :=
  "sc::named_arg<sc::string<" ++ chars_text (sn_name n) ++ ">, " ++ str (sn_begin n) ++ ", " ++ str (sn_end n) ++ ">".
(** Tag.to_cpp_type (python/cib/gen_str_catalog.py:137-138) *)
Definition tag_text (t : sym_tag) : string :=
  "sc::tag<sc::string<" ++ chars_text (st_name t) ++ ">, sc::string<" ++ chars_text (st_value t) ++ ">>".
(** Message.to_cpp_type (python/cib/gen_str_catalog.py:209-210), with the id it was read with *)
Definition message_type (m : sym_message) : string :=
  "sc::message<sc::undefined<sc::args<" ++ join_with ", " (sm_args m) ++ ">, " ++ str (sm_id m) ++ sm_suffix m ++
  ", sc::string<" ++ chars_text (sm_text m) ++ ">, sc::tags<" ++ join_with ", " (map tag_text (sm_tags m)) ++
  ">, sc::named_args<" ++ join_with ", " (map named_text (sm_named m)) ++ ">>>".
(** Module.to_cpp_type (python/cib/gen_str_catalog.py:267-268) *)
Definition module_type (m : sym_module) : string :=
  "sc::module_string<sc::undefined<void, " ++ str (so_id m) ++ so_suffix m ++ ", sc::string<" ++ chars_text (so_text m) ++ ">>>".

(** ** Enumerations *)
(** arg_type_encoding (python/cib/gen_str_catalog.py:533-545), on text: the encoding, the enumeration or type,
    the underlying type and the size. *)
Definition encoding_re : re :=
  seqs [lit "encode_"; Grp 1 (Alt (lit "32") (Alt (lit "u32") (Alt (lit "64") (Alt (lit "u64") (lit "enum"))))); lit "<"; Grp 2 any; lit ">"].
(** python/cib/gen_str_catalog.py:533-545 *)
Definition enum_re : re := seqs [Grp 1 any; lit ", "; Grp 2 any; lit ", "; Grp 3 (Seq (One is_digit) (Many true is_digit))].
(** python/cib/gen_str_catalog.py:533-545 *)
Definition arg_type_encoding (arg : string) : option (string * string * string * string) :=
  match re_match encoding_re arg with
  | None => None
  | Some g =>
    if group 1 g =? "enum" then
      match re_match enum_re (group 2 g) with
      | Some h => Some ("encode_" ++ group 1 g, group 1 h, group 2 h, group 3 h)
      | None => None
      end
    else Some ("encode_" ++ group 1 g, group 2 g, group 2 g, group 2 g)
  end.
(** e.split("::") (python/cib/gen_str_catalog.py:359-369) *)
Fixpoint split_scopes (acc s : string) : list string :=
  match s with
  | EmptyString => [acc]
  | String a r =>
    match r with
    | String b q => if (Ascii.eqb a ":" && Ascii.eqb b ":")%bool then acc :: split_scopes EmptyString q else split_scopes (acc ++ String a EmptyString) r
    | EmptyString => [acc ++ String a EmptyString]
    end
  end.
(** make_cpp_scoped_enum_decl (python/cib/gen_str_catalog.py:359-369) *)
Definition enum_decl (e ut : string) : option string :=
  let parts := split_scopes EmptyString e in
  let enum := List.last parts EmptyString in
  if existsb (String.eqb "(anonymous namespace)") parts || existsb (String.eqb "{anonymous}") parts then None
  else if Nat.ltb 1 (List.length parts) then
    Some ("namespace " ++ join_with "::" (removelast parts) ++ " { enum struct " ++ enum ++ " : " ++ ut ++ "; }")
  else Some ("enum struct " ++ enum ++ " : " ++ ut ++ ";").
(** The loop over the arguments in main (python/cib/gen_str_catalog.py:752-758): a dictionary from the
    enumeration to its underlying type, the last one written kept. *)
Fixpoint collect_enums (args : list string) (d : list (string * string)) : option (list (string * string)) :=
  match args with
  | [] => Some d
  | a :: r =>
    match arg_type_encoding a with
    | None => None
    | Some (enc, e, ut, _) => collect_enums r (if enc =? "encode_enum" then put String.eqb e ut d else d)
    end
  end.
(** scoped_enum_decls (python/cib/gen_str_catalog.py:396-398) *)
Definition enum_decls (ms : list sym_message) : option (list string) :=
  match collect_enums (flat_map sm_args ms) [] with
  | None => None
  | Some d => all_some (map (fun kv => enum_decl (fst kv) (snd kv)) d)
  end.

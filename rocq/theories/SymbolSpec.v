(** Specification of the symbols the catalog generator reads and of the C++ it
    writes for them. *)
From Coq Require Import String Ascii Bool List ZArith.
From Verif Require Import CatalogModel CatalogSpec GenModel GenSpec SymbolModel.
Import ListNotations.
Local Open Scope string_scope.

(** ** Symbols as the demangler prints them *)
(** A template-id, or the text of any other template argument. *)
Inductive tree := Node (name : string) (args : list tree) | Atom (text : string).
Fixpoint ends_angle (s : string) : bool :=
  match s with EmptyString => false | String a EmptyString => Ascii.eqb a ">" | String _ r => ends_angle r end.
(** Some demanglers print a space between two closing brackets. *)
Definition close (spaced : bool) (s : string) : string := s ++ (if spaced && ends_angle s then " >" else ">").
Fixpoint print (spaced : bool) (t : tree) : string :=
  match t with
  | Atom s => s
  | Node n l => close spaced (n ++ "<" ++ comma_list " " (map (print spaced) l))
  end.

(** sc::string<…> of a text, and the types made by to_message and to_module
    (include/log_binary/catalog/encoder.hpp:28-63). *)
Definition string_tree (text : list Z) : tree := Node "sc::string" (map (fun c => Atom ("(char)" ++ str c)) text).
Definition tag_tree (t : sym_tag) : tree := Node "sc::tag" [string_tree (st_name t); string_tree (st_value t)].
Definition named_tree (n : sym_named) : tree := Node "sc::named_arg" [string_tree (sn_name n); Atom (str (sn_begin n)); Atom (str (sn_end n))].
Definition message_tree (m : sym_message) : tree :=
  Node "sc::message" [Node "sc::undefined" [Node "sc::args" (map Atom (sm_args m)); Atom (str (sm_id m) ++ sm_suffix m);
    string_tree (sm_text m); Node "sc::tags" (map tag_tree (sm_tags m)); Node "sc::named_args" (map named_tree (sm_named m))]].
Definition module_tree (m : sym_module) : tree :=
  Node "sc::module_string" [Node "sc::undefined" [Atom "void"; Atom (str (so_id m) ++ so_suffix m); string_tree (so_text m)]].
Definition item_tree (i : item) : tree :=
  match i with IMessage m => Node "catalog" [message_tree m] | IModule m => Node "module" [module_tree m] end.

(** ** What can be read *)
Definition one_line (s : string) : Prop := ~ char_in (ascii_of_nat 10) s.
(** What a line for a symbol of the catalog contains. *)
Definition markers : list string := ["unsigned int catalog<"; "unsigned long catalog<"; "unsigned int module<"; "unsigned long module<"].
Definition unmarked (s : string) : Prop := forall p, In p markers -> ~ occurs p s.
Definition arg_ok (a : string) : Prop := nested a /\ trimmed a /\ one_line a /\ unmarked a.
Definition suffix_ok (s : string) : Prop := all_chars is_letter s = true.
Definition item_ok (i : item) : Prop :=
  match i with
  | IMessage m => Forall arg_ok (sm_args m) /\ suffix_ok (sm_suffix m)
  | IModule m => suffix_ok (so_suffix m)
  end.
(** A text of at least one character, all of them characters. *)
Definition text_ok (t : list Z) : bool := negb (match t with [] => true | _ => false end) && forallb (fun c => (0 <=? c) && (c <? 1114112))%Z t.
Definition readable (i : item) : bool :=
  match i with
  | IMessage m => text_ok (sm_text m) && forallb (fun t => text_ok (st_name t) && text_ok (st_value t)) (sm_tags m) &&
                  forallb (fun n => text_ok (sn_name n)) (sm_named m)
  | IModule m => text_ok (so_text m)
  end.
(** The listing of a program's undefined symbols: lines for the items in order,
    among lines for other symbols. *)
Inductive listing (spaced : bool) : list string -> list item -> Prop :=
| l_nil : listing spaced [] []
| l_other l ls is : unmarked l -> listing spaced ls is -> listing spaced (l :: ls) is
| l_symbol pre ty post i ls is : one_line pre -> In ty ["int"; "long"] -> blank post -> item_ok i -> listing spaced ls is ->
    listing spaced ((pre ++ "unsigned " ++ ty ++ " " ++ print spaced (item_tree i) ++ "()" ++ post) :: ls) (i :: is).

(** ** When two texts are the same C++ type *)
(** Words (letters, digits, underscores) and single other characters. *)
Definition flush (acc : string) : list string := match acc with EmptyString => [] | _ => [acc] end.
Fixpoint tokens_from (acc s : string) : list string :=
  match s with
  | EmptyString => flush acc
  | String a r =>
    if is_word a then tokens_from (acc ++ String a EmptyString) r
    else (flush acc ++ (if is_space a then [] else [String a EmptyString]) ++ tokens_from EmptyString r)%list
  end.
Definition tokens (s : string) : list string := tokens_from EmptyString s.
(** static_cast<char>(n) is (char)n. *)
Fixpoint casts (l : list string) : list string :=
  match l with
  | [] => []
  | t :: r =>
    match r with
    | a :: b :: c :: d :: n :: e :: q =>
      if (t =? "static_cast") && (a =? "<") && (b =? "char") && (c =? ">") && (d =? "(") && (e =? ")") then "(" :: "char" :: ")" :: n :: casts q else t :: casts r
    | _ => t :: casts r
    end
  end.
Definition same_type (a b : string) : Prop := casts (tokens a) = casts (tokens b).

(** No argument of the message has a cast in it. *)
Definition castless (i : item) : Prop := match i with IMessage m => Forall (fun a => ~ In "static_cast" (tokens a)) (sm_args m) | IModule _ => True end.
(** The type the generator writes for an item. *)
Definition written_type (i : item) : string := match i with IMessage m => message_type m | IModule m => module_type m end.
(** The type in the symbol: the template argument of catalog or module. *)
Definition symbol_type (i : item) : tree := match i with IMessage m => message_tree m | IModule m => module_tree m end.

(** ** Encodings and enumerations *)
Definition encodings : list string := ["encode_32"; "encode_u32"; "encode_64"; "encode_u64"].
(** The text of an argument's encoding (include/log_binary/catalog/arguments.hpp:9-13). *)
Definition encoding_text (a : arg_type) : string :=
  match a with
  | Enc tag ty => tag ++ "<" ++ ty ++ ">"
  | EncEnum e ut size => "encode_enum<" ++ e ++ ", " ++ ut ++ ", " ++ size ++ ">"
  end.
Definition encoding_ok (a : arg_type) : Prop :=
  match a with
  | Enc tag ty => In tag encodings /\ one_line ty
  | EncEnum e ut size => one_line e /\ one_line ut /\ ~ occurs ", " ut /\ size <> "" /\ all_chars is_digit size = true
  end.
(** d declares the enumeration e with the underlying type ut. *)
Inductive declares : string -> string -> string -> Prop :=
| decl_global n ut : ~ occurs "::" n -> declares ("enum struct " ++ n ++ " : " ++ ut ++ ";") n ut
| decl_in ns n ut : ~ occurs "::" n -> declares ("namespace " ++ ns ++ " { enum struct " ++ n ++ " : " ++ ut ++ "; }") (ns ++ "::" ++ n) ut.
(** The name of an enumeration: its scopes, the enumeration last. *)
Definition scopes_of (e : string) (l : list string) : Prop := l <> [] /\ Forall (fun s => ~ char_in ":" s) l /\ e = join_with "::" l.
(** e is in an anonymous namespace (as gcc and clang print it). *)
Definition anonymous (e : string) : Prop := exists l, scopes_of e l /\ (In "(anonymous namespace)" l \/ In "{anonymous}" l).
(** The enumerations among some arguments, with their underlying types. *)
Definition enums_in (l : list arg_type) (e ut : string) : Prop := exists size, In (EncEnum e ut size) l.

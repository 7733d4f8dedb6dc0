(** Specification of the runs of the catalog generator. *)
From Coq Require Import String Ascii Bool Arith ZArith NArith List.
From Verif Require Import CatalogModel GenModel GenSpec SymbolModel ChainModel OutputModel OutputSpec RunModel.
Import ListNotations.
Local Open Scope list_scope.
Local Open Scope string_scope.

(** ** Enumerations of a translation unit *)
(** A cursor is in another. *)
Inductive inside : cursor -> cursor -> Prop :=
| inside_self c : inside c c
| inside_child c k s sc v l d : In d l -> inside c d -> inside c (Cursor k s sc v l).
Definition qualified (c : cursor) : string := String.concat "::" (c_scope c ++ [c_spelling c])%list.
Definition an_enum (u node : cursor) (q : string) : Prop := inside node u /\ c_kind node = EnumDecl /\ qualified node = q.
(** An enumeration named q in u has the enumerator n with the value v. *)
Definition declares (u : cursor) (q n : string) (v : Z) : Prop :=
  exists node c, an_enum u node q /\ inside c node /\ c_kind c = EnumConstant /\ c_spelling c = n /\ c_value c = v.
(** Enumerations of one name agree where they meet. *)
Definition unambiguous (u : cursor) : Prop := forall q n v v', declares u q n v -> declares u q n v' -> v = v'.

(** ** The C++ file *)
(** What is left without comments and empty lines. *)
Definition program_lines (file : string) : list string := filter (fun l => negb (l =? "")) (code file).
Definition includes (headers : list string) : list string :=
  (map (fun h => ("#include """ ++ h ++ """")%string) headers ++ ["#include <log_binary/catalog/arguments.hpp>"; "#include <log_binary/catalog/catalog.hpp>"])%list.
(** A function template specialised for a type, returning a number. *)
Definition returns (function result type : string) (id : Z) : list string :=
  ["template<> auto " ++ function ++ "<" ++ type ++ ">() -> " ++ result ++ " {"; "    return " ++ str id ++ ";"; "}"].
Definition one_line (s : string) : Prop := ~ char_in (ascii_of_nat 10) s.

(** ** Files *)
Definition file (path : string) (fs : files) : option content := get String.eqb path fs.
(** The enumerations a run gets from its C++ file. *)
Definition enums_seen (st : settings) (cpp : string) : list (string * list (string * Z)) :=
  match s_clang st cpp with Some u => extract_enums u | None => [] end.
(** Texts that an XML file can carry, and those the XML file does carry (C116). *)
Definition carried (t : string) : Prop := legal t /\ closed t /\ ~ has_cr t.
Definition good_text (t : string) : Prop := legal t /\ closed t /\ ~ has_cr t /\ no_amp t.

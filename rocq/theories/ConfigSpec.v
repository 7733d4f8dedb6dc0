(** When a text is one item of a list: brackets and quotes are closed, and commas
    are inside of them. And configurations that differ only in types that are shown
    alike. *)
From Coq Require Import String Ascii Bool List NArith.
From Verif Require Import ConfigModel.
Import ListNotations.

Definition opens (c : ascii) : Prop := In c ["<"; "("; "{"; "["]%char.
Definition closes (c : ascii) : Prop := In c [">"; ")"; "}"; "]"]%char.
(** [item d q s]: [s] ends an item, from inside [d] brackets and, if [q], a quote. *)
Inductive item : nat -> bool -> string -> Prop :=
| item_end : item 0 false EmptyString
| item_quoted d c s : c <> """"%char -> item d true s -> item d true (String c s)
| item_quote d q s : item d (negb q) s -> item d q (String """" s)
| item_open d c s : opens c -> item (S d) false s -> item d false (String c s)
| item_close d c s : closes c -> item d false s -> item (S d) false (String c s)
| item_comma d s : item (S d) false s -> item (S d) false (String "," s)
| item_char d c s : c <> """"%char -> ~ opens c -> ~ closes c -> c <> ","%char -> item d false s -> item d false (String c s).
Definition one_item (s : string) : Prop := item 0 false s.
Definition unquoted (s : string) : Prop := ~ In """"%char (list_ascii_of_string s).

Definition types_of_control (c : control) : list type := match c with Mcu _ _ e => [e] | Fields e s => [e; s] end.
Fixpoint types_of (x : config) : list type :=
  match x with
  | Element _ c p fs => types_of_control c ++ p :: fs
  | Container _ c p xs => types_of_control c ++ p :: flat_map types_of xs
  end.
Fixpoint names_of (x : config) : list string :=
  match x with
  | Element n _ _ _ => [n]
  | Container n _ _ xs => n :: flat_map names_of xs
  end.

(** What is the same: everything but the types, which are shown alike. *)
Definition shown_alike (a b : type) : Prop := config_string1 a = config_string1 b.
Inductive control_alike : control -> control -> Prop :=
| alike_mcu n p e e' : shown_alike e e' -> control_alike (Mcu n p e) (Mcu n p e')
| alike_fields e s e' s' : shown_alike e e' -> shown_alike s s' -> control_alike (Fields e s) (Fields e' s').
Inductive alike : config -> config -> Prop :=
| alike_element n c c' p p' fs fs' : control_alike c c' -> shown_alike p p' -> Forall2 shown_alike fs fs' -> alike (Element n c p fs) (Element n c' p' fs')
| alike_container n c c' p p' xs xs' : control_alike c c' -> shown_alike p p' -> Forall2 alike xs xs' -> alike (Container n c p xs) (Container n c' p' xs').
(** What is shown of a type: what it says of itself, else its name, else how it is
    written. *)
Inductive shown (t : type) : string -> Prop :=
| shown_config s : t_config t = Some s -> shown t s
| shown_name s : t_config t = None -> t_name t = Some s -> shown t s
| shown_spelling : t_config t = None -> t_name t = None -> shown t (t_spelling t).

(** Model of the description of a message (include/msg/message.hpp:260-274,
    377-379, include/msg/field.hpp:466-468) and of the two ways it is printed: by
    the text logger (include/log_fmt/logger.hpp:28-35, 65-71), and by the decoder
    after it was sent in binary (python/cib/mipi_messages.py:177-202).

    Simplifications: a field has the type its name is given; enumerations have no
    format_as of their own; the description is all that is formatted, with text
    before and after it; fields of the format are {:x} only. A format that is
    refused, at compile time or by an exception, is [None]. *)
From Coq Require Import String Ascii Bool List NArith ZArith.
From Verif Require Import FieldModel MessageModel.
From Verif Require MipiModel DescribeModel.
Import ListNotations.

Section Describe.
Import MipiModel.
Local Open Scope string_scope.
Variable label : nat -> string.
Variable ctype : nat -> argty.
(** field_t::describe (include/msg/field.hpp:466-468): the name is put into the
    format at compile time, the value is an argument of it. *)
Definition field_format (f : mfield) : string := label (f_name f) ++ ": 0x{:x}".
(** field_descriptions.join (include/msg/message.hpp:266-271) *)
Fixpoint joined (l : list string) : string :=
  match l with [] => "" | [x] => x | x :: r => x ++ ", " ++ joined r end.
(** Fields::extract(r)... (include/msg/message.hpp:264-265) *)
Fixpoint field_values (es : N) (fs : list mfield) (st : list N) : outcome (list (argty * N)) :=
  match fs with
  | [] => Done []
  | f :: r => let! v := field_extract es (f_ew f) (f_locs f) st in let! vs := field_values es r st in Done ((ctype (f_name f), v) :: vs)
  end.
(** msg_access::describe (include/msg/message.hpp:260-274): the format string and
    its arguments. *)
Definition describe (es : N) (name : string) (fs : list mfield) (st : list N) : outcome (string * list (argty * N)) :=
  let! vs := field_values es fs st in Done (name ++ "(" ++ joined (map field_format fs) ++ ")", vs).
End Describe.

(** fmt::format_to (include/log_fmt/logger.hpp:68-70) and str.format
    (python/cib/mipi_messages.py:201) with a function that gives the text of an
    argument under {:x}; {{ and }} stand for braces. *)
Fixpoint format {V} (show : V -> option string) (fuel : nat) (s : string) (args : list V) : option string :=
  match fuel with
  | O => None
  | S k =>
    match s with
    | EmptyString => Some EmptyString
    | String "{" (String "{" r) => option_map (String "{") (format show k r args)
    | String "}" (String "}" r) => option_map (String "}") (format show k r args)
    | String "{" (String ":" (String "x" (String "}" r))) =>
      match args with
      | v :: vs => match show v, format show k r vs with Some a, Some b => Some (a ++ b)%string | _, _ => None end
      | [] => None
      end
    | String "{" _ | String "}" _ => None
    | String a r => option_map (String a) (format show k r args)
    end
  end.

Section Shown.
Import MipiModel.
(** The text logger: decay_enum_value (include/log_fmt/logger.hpp:28-35) gives the
    underlying number of an enumeration; {:x} takes numbers, bool as 0 or 1 and
    char as its code, and refuses floating point. *)
Definition text_shows (p : platform) (a : argty * N) : option string :=
  match underlying (fst a) with
  | Float | Double => None
  | Char => Some (DescribeModel.hex (Z.of_N (snd a)))
  | b => Some (DescribeModel.hex (if base_signed p b then signed_value (8 * base_bytes p b) (snd a) else Z.of_N (snd a)))
  end.
(** The decoder (python/cib/mipi_messages.py:201): {:x} takes int; str, bytes and
    float refuse it. *)
Definition decoder_shows (v : shown) : option string :=
  match v with VInt z => Some (DescribeModel.hex z) | _ => None end.
(** A log call with the description between two texts: what the text logger
    prints after the prefix of the line (include/log_fmt/logger.hpp:65-71). *)
Definition text_line (p : platform) (before after : string) (d : string * list (argty * N)) : option string :=
  let f := (before ++ fst d ++ after)%string in format (text_shows p) (S (String.length f)) f (snd d).
(** Catalog.__str__ after severity and module (python/cib/mipi_messages.py:199-202),
    of a packet read from the stream (python/cib/mipi_messages.py:177-197); the
    text is the one in the catalog, and has no compile-time enumerators. *)
Definition decoder_line (db : database) (text : string) (bytes : list N) : option string :=
  match construct_msg db bytes with
  | Ok (DCatalog _ _ _ _ vs, _) => format decoder_shows (S (String.length text)) text vs
  | Ok (DShort _, _) => Some text
  | Raised => None
  end.
End Shown.

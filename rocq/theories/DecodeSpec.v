(** Specification of the program that decodes a log. *)
From Coq Require Import String List NArith.
From Verif Require Import MipiModel MipiSpec ChainModel DecodeModel.
Import ListNotations.

(** The lines of a text file, each ended by a line feed. *)
Definition text_of (ls : list string) : list N :=
  flat_map (fun l => map Ascii.N_of_ascii (list_ascii_of_string l) ++ [10%N]) ls.
(** Where the lines of the log should be: in the file asked for, or else on the standard
    output. *)
Definition lines_go (a : arguments) (ls : list string) (o : outcome) : Prop :=
  match a_output a with
  | None => printed o = ls
  | Some f => left o f = Some (text_of ls)
  end.
(** The files the program needs. *)
Definition has_files (load : list N -> option json_file) (a : arguments) (fs : files) (db : json_file) (bytes : list N) : Prop :=
  (exists text, fs (a_json a) = Some text /\ load text = Some db) /\ fs (a_input a) = Some bytes.
(** The arguments whose bytes can be cut without showing another value: all but numbers and scoped
    enumerations of type long and unsigned long, where these have eight bytes. *)
Definition cut_safe (p : platform) (t : argty) : Prop :=
  match t with
  | Plain b | Scoped _ b => (b = Long \/ b = ULong) -> long8 p = false
  | Unscoped _ _ => True
  end.
(** The catalog describes messages with such arguments. *)
Definition described (p : platform) (ok : argty -> Prop) (db : database) : Prop :=
  forall id types, db_messages db id = Some types ->
  exists ts, types = map (encode_text p) ts /\ Forall (fun t => name_ok t /\ ok t) ts.

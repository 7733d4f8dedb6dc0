(** Model of the program that decodes a binary log (python/cib/log_decode.py:13-21,
    37-81) from its command line to what it prints.  The decoding of bytes and the
    lines are those of ChainModel.

    Simplifications: files are lists of bytes and do not change while they are read; what
    json.load makes of a file is a parameter, [None] if it fails; the arguments of the command
    line are parsed.  As read_logs is a generator, lines are printed before an exception
    ends the program. *)
From Coq Require Import String List NArith.
From Verif Require Import MipiModel ChainModel.
Import ListNotations.

(** Files by name (python/cib/log_decode.py:13-14, 78-79). *)
Definition files := string -> option (list N).
(** file_reader (python/cib/log_decode.py:13-21): all bytes yielded; each turn reads
    one chunk, and there are no more turns than bytes and one. *)
Fixpoint read_chunks (turns chunk_size : nat) (rest : list N) : list N :=
  match turns with
  | O => []
  | S turns =>
    match firstn chunk_size rest with
    | [] => []
    | chunk => chunk ++ read_chunks turns chunk_size (skipn chunk_size rest)
    end
  end.
(** python/cib/log_decode.py:13-21 *)
Definition file_reader (chunk_size : nat) (content : list N) : list N := read_chunks (S (length content)) chunk_size content.
(** parse_cmdline (python/cib/log_decode.py:54-72) *)
Record arguments := { a_input : string; a_output : option string; a_json : string }.
(** What is left when the program ends (python/cib/log_decode.py:75-81). *)
Record outcome := { printed : list string; failed : bool; left : files }.
(** main (python/cib/log_decode.py:75-81) *)
Definition main (float_text : N -> string) (turns chunk_size : nat) (load : list N -> option json_file) (a : arguments) (fs : files) : outcome :=
  match fs (a_json a) with
  | None => {| printed := []; failed := true; left := fs |}
  | Some text =>
    match load text with
    | None => {| printed := []; failed := true; left := fs |}
    | Some db =>
      match fs (a_input a) with
      | None => {| printed := []; failed := true; left := fs |}
      | Some content =>
        let (ls, e) := decode float_text turns db (file_reader chunk_size content) in
        {| printed := ls; failed := e; left := fs |}
      end
    end
  end.

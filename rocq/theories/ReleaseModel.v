(** Model of tools/gen_release_header.py: the single header made of all headers.

    Simplifications: a path is its text (two spellings of one path are two files);
    conditional blocks are #if, #else and #endif (no #elif); the empty lines that
    print adds and the replacement of the version are not modelled. *)
From Coq Require Import String Bool Arith List.
Import ListNotations.

(** A line as the script tells lines apart (tools/gen_release_header.py:27, 44, 47-49), with the conditional
    directives, which are ordinary text to the script, set apart from other text. *)
Inductive line :=
| Text (t : string)
| If (c : string)
| Else
| Endif
| Once
| Include (target : string) (whole : string).
(** The files below root (tools/gen_release_header.py:34-37). *)
Definition files := list (string * list line).
(** tools/gen_release_header.py:34-37 *)
Fixpoint file (fs : files) (p : string) : option (list line) :=
  match fs with [] => None | (q, ls) :: r => if (q =? p)%string then Some ls else file r p end.
(** tools/gen_release_header.py:34-37 *)
Definition exists_ (fs : files) (p : string) : bool := match file fs p with Some _ => true | None => false end.

(** The globals (tools/gen_release_header.py:9-16); the set of system headers as a list without duplicates. *)
Record state := { visited : list string; content : list line; system : list string; insert_at : option nat }.
(** tools/gen_release_header.py:9-16 *)
Definition mem (x : string) (l : list string) : bool := existsb (String.eqb x) l.
(** tools/gen_release_header.py:9-16 *)
Definition add (x : string) (l : list string) : list string := if mem x l then l else l ++ [x].
(** if not insert_system_headers_line (tools/gen_release_header.py:31-32): 0 counts as not set. *)
Definition note_include (s : state) : state :=
  {| visited := visited s; content := content s; system := system s;
     insert_at := match insert_at s with Some (S n) => Some (S n) | _ => Some (List.length (content s)) end |}.
(** tools/gen_release_header.py:31-32 *)
Definition emit (l : line) (s : state) : state :=
  {| visited := visited s; content := content s ++ [l]; system := system s; insert_at := insert_at s |}.
(** tools/gen_release_header.py:31-32 *)
Definition add_system (h : string) (s : state) : state :=
  {| visited := visited s; content := content s; system := add h (system s); insert_at := insert_at s |}.
(** tools/gen_release_header.py:31-32 *)
Definition visit (p : string) (s : state) : state :=
  {| visited := p :: visited s; content := content s; system := system s; insert_at := insert_at s |}.

(** process (tools/gen_release_header.py:19-49). The fuel bounds the depth of the recursion; None: out of fuel
    or no such file. *)
Section Process.
Variable fs : files.
(** tools/gen_release_header.py:19-49 *)
Fixpoint process (fuel : nat) (p : string) (s : state) : option state :=
  match fuel with
  | O => None
  | S k =>
    if mem p (visited s) then Some s
    else match file fs p with
    | None => None
    | Some ls =>
      (fix lines (ls : list line) (s : state) : option state :=
         match ls with
         | [] => Some s
         | Include t w :: r =>
           let s := note_include s in
           if exists_ fs t then match process k t s with Some s' => lines r s' | None => None end
           else lines r (add_system w s)
         | Once :: r => lines r s
         | l :: r => lines r (emit l s)
         end) ls (visit p s)
    end
  end.
End Process.
(** tools/gen_release_header.py:19-49 *)
Definition start : state := {| visited := []; content := []; system := []; insert_at := None |}.
(** The output (tools/gen_release_header.py:56-58): the slices [:n] and [n:]; with None both are everything.
    The order of the sorted system headers does not matter here; they are Include
    lines again. *)
Definition release (fs : files) (fuel : nat) (root : string) : option (list line) :=
  match process fs fuel root start with
  | None => None
  | Some s =>
    let heads := map (fun h => Include h h) (system s) in
    Some (match insert_at s with
          | Some n => firstn n (content s) ++ heads ++ skipn n (content s)
          | None => content s ++ heads ++ content s
          end)
  end.

(** Model of cmake/single_header.cmake: when the release header is made again. What the
    script makes of the headers is in ReleaseModel; here its result is stamped with the
    version, and there is a build that runs it.

    Simplifications: every change gets a later time than all before it; the list of
    dependencies is the one of the last configuration; a dependency that is missing stops
    the build before the command is run; [changed_at] counts for files that are there. *)
From Coq Require Import String Ascii Bool Arith List.
From Verif Require Import ReleaseModel.
Import ListNotations.
Local Open Scope string_scope.

(** The version that is replaced by the one of git (tools/gen_release_header.py:9, 48). *)
Definition marker : string := "..~~VERSION~~..".
(** re.sub with a pattern without special characters (tools/gen_release_header.py:48): from left to right,
    not within what was put in. Simplified: backslashes in the version are not special. *)
Fixpoint stamped (fuel : nat) (version s : string) : string :=
  match fuel with
  | O => s
  | S k =>
    if String.prefix marker s then version ++ stamped k version (substring (String.length marker) (String.length s - String.length marker) s)
    else match s with EmptyString => EmptyString | String a r => String a (stamped k version r) end
  end.
(** tools/gen_release_header.py:47-49: lines that are neither includes nor #pragma once. *)
Definition stamp (version : string) (l : line) : line :=
  match l with Text t => Text (stamped (S (String.length t)) version t) | If c => If (stamped (S (String.length c)) version c) | _ => l end.
(** What the command prints (cmake/single_header.cmake:12-13, tools/gen_release_header.py:52-58). *)
Definition printed (fs : files) (version root : string) : option (list line) :=
  option_map (map (stamp version)) (release fs (S (List.length fs)) root).

(** ** The working tree and the build directory *)
(** The headers, when each was changed last, the version that git describe tells, a clock, and the
    release header with the time it was made (cmake/single_header.cmake:9-14). *)
Record tree := { sources : files; changed_at : string -> nat; version : string; now : nat; made : option (nat * list line) }.
(** What can happen between two builds (cmake/single_header.cmake:9-14). *)
Inductive change := Write (p : string) (ls : list line) | Remove (p : string) | Tag (v : string).
(** Files that are written are found first (cmake/single_header.cmake:9-14). *)
Definition without (p : string) (fs : files) : files := filter (fun f => negb (fst f =? p)) fs.
(** cmake/single_header.cmake:9-14 *)
Definition alter (t : tree) (c : change) : tree :=
  match c with
  | Write p ls => {| sources := (p, ls) :: without p (sources t); changed_at := fun q => if q =? p then S (now t) else changed_at t q;
                     version := version t; now := S (now t); made := made t |}
  | Remove p => {| sources := without p (sources t); changed_at := changed_at t; version := version t; now := S (now t); made := made t |}
  | Tag v => {| sources := sources t; changed_at := changed_at t; version := v; now := S (now t); made := made t |}
  end.
(** add_custom_command with DEPENDS (cmake/single_header.cmake:9-14): nothing is done if a dependency is missing,
    or if the output is there and no dependency is newer. If the script fails, its output is removed. *)
Definition build (deps : list string) (root : string) (t : tree) : tree :=
  let fresh := match made t with Some (m, _) => forallb (fun p => Nat.leb (changed_at t p) m) deps | None => false end in
  if negb (forallb (exists_ (sources t)) deps) || fresh then t
  else {| sources := sources t; changed_at := changed_at t; version := version t; now := S (now t);
          made := option_map (fun text => (S (now t), text)) (printed (sources t) (version t) root) |}.
(** ${SH_GEN_HEADER} ${HEADERS} as gen_single_header is called for this library: the headers of the file
    set cib of the target cib (cmake/single_header.cmake:6-10, CMakeLists.txt:301-312, CMakeLists.txt:337-349). *)
Definition library_depends : list string := ["tools/gen_release_header.py"; "cib/cib.hpp"; "cib/top.hpp"].
(** CMakeLists.txt:346-347 *)
Definition library_root : string := "cib/cib.hpp".

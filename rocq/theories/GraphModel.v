(** Model of the pipeline by which generate_flow_graph gets the text of a graph out of
    the output of a build that fails (cmake/debug_flow.cmake:78-90), and of the message
    in that output (include/flow/debug_builder.hpp:46-50).

    Simplifications: the output is a list of lines; the compiler shows the message of a
    failed assertion in one line, with line feeds as escapes. *)
From Coq Require Import String Ascii Bool Arith List.
From Verif Require Import FlowModel.
Import ListNotations.
Local Open Scope string_scope.

(** The lines awk prints for a line when what matches is replaced by line feeds; [skip]
    characters are still of the last match, [cur] is the line so far
    (cmake/debug_flow.cmake:78-79). *)
Fixpoint gsub (pattern : string) (skip : nat) (cur s : string) : list string :=
  match s with
  | EmptyString => [cur]
  | String a r =>
    match skip with
    | S k => gsub pattern k cur r
    | O => if prefix pattern s then cur :: gsub pattern (String.length pattern - 1) "" r else gsub pattern 0 (cur ++ String a "") r
    end
  end.
(** cmake/debug_flow.cmake:78-79, 86 *)
Definition awk (pattern : string) (ls : list string) : list string := flat_map (gsub pattern 0 "") ls.
(** cmake/debug_flow.cmake:78 *)
Definition gcc_newline : string := "\012".
(** cmake/debug_flow.cmake:79 *)
Definition clang_newline : string := "\n".
(** In the range: the lines are printed, up to and with one that matches; then the
    program ends (cmake/debug_flow.cmake:87). *)
Fixpoint sed_in (ls : list string) : list string :=
  match ls with
  | [] => []
  | l :: ls => l :: if prefix "~~~~START" l then [] else sed_in ls
  end.
(** sed -n "/^~~~~END/,/^~~~~START/{p;/^~~~~START/q}" (cmake/debug_flow.cmake:87) *)
Fixpoint sed (ls : list string) : list string :=
  match ls with
  | [] => []
  | l :: ls => if prefix "~~~~END" l then l :: sed_in ls else sed ls
  end.
(** cmake/debug_flow.cmake:85-89: tac, tail -n +2, head -n -1. *)
Definition pipeline (output : list string) : list string :=
  removelast (tl (rev (sed (rev (awk clang_newline (awk gcc_newline output)))))).
(** The file (cmake/debug_flow.cmake:88-89). *)
Definition graph_file (output : list string) : string := fold_right (fun l r => l ++ newline ++ r) "" (pipeline output).

(** What the compiler writes for line feeds (include/flow/debug_builder.hpp:46-50). *)
Fixpoint escaped (esc s : string) : string :=
  match s with
  | EmptyString => EmptyString
  | String a r => if Ascii.eqb a (ascii_of_nat 10) then esc ++ escaped esc r else String a (escaped esc r)
  end.
(** The message of the assertion (include/flow/debug_builder.hpp:47-49). *)
Definition message (graph : string) : string := "subgraph debug" ++ newline ++ "~~~~START" ++ newline ++ graph ++ "~~~~END".
(** The name of what is shown (include/flow/debug_builder.hpp:52). *)
Definition debug_name (first last : string) : string := first ++ " -> " ++ last.

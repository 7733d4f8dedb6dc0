(** C144: the file of a graph has the text of the graph that the failed build shows. *)
From Coq Require Import String Ascii Bool Arith List.
From Verif Require Import GenSpec FlowModel GraphModel GraphSpec GraphProofs.
Import ListNotations.
Local Open Scope string_scope.

(** For the graphs whose names have no backslashes or line feeds. Missing: other names,
    see [C144_refuted]. *)
Theorem C144_partial : forall output esc name ns es, esc = "\012" \/ esc = "\n" ->
  clean name -> Forall (fun n => clean (n_name n)) ns -> Forall edge_clean es ->
  shows output esc (visualize mermaid name ns es) -> graph_file output = visualize mermaid name ns es.
Proof.
  intros output esc name ns es E N Hn He S. rewrite <- graph_text in *. unfold graph_file. rewrite (graph_found output esc (graph_lines name ns es) E (lines_good name ns es N Hn He) S). reflexivity.
Qed.
Print Assumptions C144_partial.

(** For all texts of lines without backslashes of which none begins with the marker. *)
Theorem C144_exact : forall output esc ls, esc = "\012" \/ esc = "\n" ->
  Forall (fun l => clean l /\ prefix "~~~~START" l = false) ls -> shows output esc (text_of ls) -> graph_file output = text_of ls.
Proof.
  intros output esc ls E H S. unfold graph_file. rewrite (graph_found output esc ls E); [reflexivity| |exact S].
  eapply Forall_impl; [|exact H]. intros l [[A B] C]. apply no_char_iff in A, B. auto.
Qed.
Print Assumptions C144_exact.

(** Nothing is written when the build shows no graph. *)
Theorem C144_silent : forall output, Forall (fun l => ~ occurs "~~~~END" l) output -> graph_file output = "".
Proof. intros output H. unfold graph_file. now rewrite pipeline_none. Qed.
Print Assumptions C144_silent.

Definition act (name : string) : node := {| n_type := Action; n_name := name; n_value := true; n_cond := always; n_func := 0 |}.
Definition goes (a b : node) : edge := {| e_src := LNode a; e_dst := LNode b; e_cond := always |}.
(** Names with a backslash: the line is broken in two, and the text is not that of the graph. *)
Theorem C144_refuted : exists output esc name ns es, (esc = "\012" \/ esc = "\n") /\
  shows output esc (visualize mermaid name ns es) /\ graph_file output <> visualize mermaid name ns es.
Proof.
  exists ["error: " ++ escaped "\012" (message (visualize mermaid "start -> end" [act "read\next"] [])) ++ ""], "\012", "start -> end", [act "read\next"], [].
  split; [auto|]. split; [|vm_compute; discriminate].
  exists [], "error: ", "", []. split; [reflexivity|]. repeat split; try constructor; apply no_char_iff; reflexivity.
Qed.
Print Assumptions C144_refuted.

Example C144_case :
  let ns := [act "read"; act "write it"] in
  let es := [goes (act "read") (act "write it")] in
  let g := visualize mermaid (debug_name "read" "write it") ns es in
  let output := ["[1/2] Building CXX object main.cpp.o"; "~~~~START"; "FAILED: main.cpp.o"; "error: static assertion failed: " ++ escaped "\012" (message g) ++ "'"; "ninja: build stopped: subcommand failed."] in
  shows output "\012" g /\ Forall (fun n => clean (n_name n)) ns /\ Forall edge_clean es /\ pipeline output =
    ["---"; "title: read -> write it"; "---"; "flowchart TD"; "  _read(read)"; "  _write_it(write it)"; "  _read --> _write_it"].
Proof.
  cbv zeta. split; [|split; [|split; [|vm_compute; reflexivity]]].
  - exists ["[1/2] Building CXX object main.cpp.o"; "~~~~START"; "FAILED: main.cpp.o"], "error: static assertion failed: ", "'", ["ninja: build stopped: subcommand failed."].
    split; [reflexivity|]. split; [split; apply no_char_iff; reflexivity|]. split; [split; apply no_char_iff; reflexivity|].
    constructor; [|constructor]. intros (x & y & E).
    assert (T : char_in "~" "ninja: build stopped: subcommand failed.") by (exists x, ("~~~END" ++ y); exact E).
    revert T. apply no_char_iff. reflexivity.
  - repeat constructor; apply no_char_iff; reflexivity.
  - repeat constructor; cbn; apply no_char_iff; reflexivity.
Qed.

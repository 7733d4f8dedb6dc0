(** When the output of a build has the text of a graph in it. *)
From Coq Require Import String Ascii Bool Arith List.
From Verif Require Import GenSpec FlowModel GraphModel.
Import ListNotations.
Local Open Scope string_scope.

Definition clean (s : string) : Prop := ~ char_in "\" s /\ ~ char_in (ascii_of_nat 10) s.
(** A text of whole lines. *)
Definition text_of (ls : list string) : string := fold_right (fun l r => l ++ newline ++ r) "" ls.
(** The last message of this kind in the output: in one line, with anything around it that
    has no escapes; what comes later does not look like another. *)
Definition shows (output : list string) (esc graph : string) : Prop :=
  exists before left right after, output = (before ++ (left ++ escaped esc (message graph) ++ right)%string :: after)%list /\
    clean left /\ clean right /\ Forall (fun l => ~ occurs "~~~~END" l) after.
Definition edge_clean (e : edge) : Prop := clean (leaf_name (e_src e)) /\ clean (leaf_name (e_dst e)) /\ clean (c_name (e_cond e)).

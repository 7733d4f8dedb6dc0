(** Model of the compile-time errors of a flow: the texts of the static_asserts of
    graph_builder (include/flow/graph_builder.hpp:35-63, 71-116, 173-213, 244-272).

    Simplifications: the order in which stdx::to_sorted_set and stdx::gather put the
    names of steps is a parameter ([sorts]); the name of a predicate's type is a
    parameter ([pname]); the compiler's own text around the errors is left out. *)
From Coq Require Import String Bool Arith List.
From Verif Require Import FlowModel.
Import ListNotations.
Local Open Scope string_scope.

Section Errors.
Variable sorts : list string -> list string.
Variable pname : nat -> string.

(** error_join (include/flow/graph_builder.hpp:35-40): stdx::join from the left *)
Definition error_join (sep : string) (l : list string) : string :=
  match l with [] => "" | x :: r => fold_left (fun a y => a ++ sep ++ y) r x end.
(** to_sorted_set (include/flow/graph_builder.hpp:191-193) *)
Definition sorted_set (l : list string) : list string := sorts (nodup string_dec l).
(** missing_nodes_t (include/flow/graph_builder.hpp:194-196) *)
Definition missing_names (names mentioned : list string) : list string :=
  filter (fun x => negb (existsb (String.eqb x) (sorted_set names))) (sorted_set mentioned).
(** include/flow/graph_builder.hpp:197-202 *)
Definition missing_text (flow : string) (names mentioned : list string) : string :=
  "One or more steps are referenced in the flow (" ++ flow ++ ") but not explicitly added with the * operator. The missing steps are: "
  ++ error_join ", " (missing_names names mentioned) ++ ".".
(** stdx::gather (include/flow/graph_builder.hpp:206): equal names together *)
Definition gather (l : list string) : list (list string) := map (fun x => filter (String.eqb x) l) (sorted_set l).
(** duplicates, is_duplicated (include/flow/graph_builder.hpp:27, 204-206) *)
Definition duplicate_names (names : list string) : list string :=
  map (hd "") (filter (fun e => Nat.ltb 1 (List.length e)) (gather names)).
(** include/flow/graph_builder.hpp:208-212 *)
Definition duplicate_text (flow : string) (names : list string) : string :=
  "One or more steps in the flow (" ++ flow ++ ") are explicitly added more than once using the * operator. The duplicate steps are: "
  ++ error_join ", " (duplicate_names names) ++ ".".
(** The predicates missing from an edge, and the errors about them
    (include/flow/graph_builder.hpp:94-110) *)
Definition weak_preds (a b : node) (e : edge) : list nat :=
  filter (fun p => negb (existsb (Nat.eqb p) (c_preds (e_cond e)))) (nodup Nat.eq_dec (c_preds (n_cond a) ++ c_preds (n_cond b))).
(** include/flow/graph_builder.hpp:99-107 *)
Definition weak_text (a b : node) (e : edge) (p : nat) : string :=
  "The conditions on the sequence (" ++ n_name a ++ " >> " ++ n_name b ++ ")[" ++ c_name (e_cond e) ++ "] are weaker than those on "
  ++ n_name a ++ "[" ++ c_name (n_cond a) ++ "] or " ++ n_name b ++ "[" ++ c_name (n_cond b)
  ++ "]. Specifically, the sequence is missing the predicate: " ++ pname p.
(** include/flow/graph_builder.hpp:82-113 *)
Definition weak_texts (ns : list node) (es : list edge) : list string :=
  flat_map (fun e =>
    match named ns (leaf_name (e_src e)), named ns (leaf_name (e_dst e)) with
    | Some a, Some b => map (weak_text a b e) (weak_preds a b e)
    | _, _ => []
    end) es.
(** leftover_edges, make_edge (include/flow/graph_builder.hpp:59-62, 250-270) *)
Definition leftover_edges (g : graph node) : list (string * string) :=
  flat_map (fun e => map (fun m => (n_name (fst e), n_name m)) (snd e)) g.
(** include/flow/graph_builder.hpp:59-62 *)
Definition make_edge (p : string * string) : string := fst p ++ " -> " ++ snd p.
(** diagnose_cycle (include/flow/graph_builder.hpp:173-181) *)
Definition cycle_text (g : graph node) : string :=
  let nl := String (Ascii.ascii_of_nat 10) "" in
  "Topological sort failed: cycle in flow." ++ nl ++ nl ++ "Unresolved edges involved in cycle:" ++ nl
  ++ error_join nl (map make_edge (leftover_edges g)) ++ nl ++ nl.

(** The errors of a flow (include/flow/graph_builder.hpp:184-280).  An error of the
    checks does not stop the compiler, but what it says after the first kind of
    error is not modelled. *)
Definition errors (flow : string) (pops : nat -> list node -> option (node * list node)) (enum : nat -> list node -> list node) (b : builder) : list string :=
  match b_nodes b with
  | None => []
  | Some ns =>
    match build pops enum b with
    | MissingSteps => [missing_text flow (map n_name ns) (map leaf_name (b_mentioned b))]
    | DuplicateSteps => [duplicate_text flow (map n_name ns)]
    | WeakCondition => weak_texts (unique node_eq_dec ns) (unique edge_eq_dec (b_edges b))
    | Cycle g => [cycle_text g]
    | _ => []
    end
  end.
End Errors.

(** Model of the flow library (include/flow/*.hpp, include/flow/dsl/*.hpp) and of
    runtime conditions (include/nexus/detail/runtime_conditional.hpp).

    A template that does not compile is [None] or one of the [rejected] results.
    Steps, conditions and edges are types in the code; equality of types is
    equality of the records below.

    Simplifications: predicates and step functions are numbered; the order in
    which the cx_set and cx_multimap containers enumerate and pop is a parameter
    ([pops], [enum]) that may change from one use to the next; capacities of
    those containers are not part of the computation (see C56 for why they
    suffice); the log environment of a step is not modelled. *)
From Coq Require Import Ascii String Bool Arith List.
Import ListNotations.

(** ** Runtime conditions *)
(** runtime_condition (include/nexus/detail/runtime_conditional.hpp:54-67). *)
Record cond := { c_name : string; c_preds : list nat }.
(** include/nexus/detail/runtime_conditional.hpp:54-67 *)
Definition always : cond := {| c_name := "always"; c_preds := [] |}.
(** operator and (include/nexus/detail/runtime_conditional.hpp:69-87). *)
Definition cond_and (l r : cond) : cond :=
  match c_preds l, c_preds r with
  | [], [] => always
  | [], _ => r
  | _, [] => l
  | _, _ => {| c_name := c_name l ++ " and " ++ c_name r; c_preds := c_preds l ++ c_preds r |}
  end%string.
(** operator bool (include/nexus/detail/runtime_conditional.hpp:66): [(Ps{}() and ...)]. *)
Definition holds (pred : nat -> bool) (c : cond) : bool := forallb pred (c_preds c).

(** ** The description language *)
(** include/flow/step.hpp:14-35 *)
Inductive step_type := Action | Milestone.
(** ct_node (include/flow/step.hpp:14-35); [n_value] is Identity == VALUE. *)
Record node := { n_type : step_type; n_name : string; n_value : bool; n_cond : cond; n_func : nat }.
(** A leaf is a node or a node_reference (include/flow/dsl/walk.hpp:28-38). *)
Inductive leaf := LNode (n : node) | LRef (name : string).
(** seq (include/flow/dsl/seq.hpp:10-24) and par (include/flow/dsl/par.hpp:10-22); the flag is Identity == VALUE. *)
Inductive subgraph :=
| Leaf (l : leaf)
| Seq (l r : subgraph) (value : bool) (c : cond)
| Par (l r : subgraph) (value : bool).

(** Equality of the above: include/flow/step.hpp:14-35 *)
Definition step_type_eq_dec (a b : step_type) : {a = b} + {a <> b}.
Proof. decide equality. Defined.
(** Equality of the above: include/nexus/detail/runtime_conditional.hpp:54-67 *)
Definition cond_eq_dec (a b : cond) : {a = b} + {a <> b}.
Proof. decide equality; [apply (list_eq_dec Nat.eq_dec)|apply string_dec]. Defined.
(** Equality of the above: include/flow/step.hpp:14-35 *)
Definition node_eq_dec (a b : node) : {a = b} + {a <> b}.
Proof. decide equality; [apply Nat.eq_dec|apply cond_eq_dec|apply bool_dec|apply string_dec|apply step_type_eq_dec]. Defined.
(** Equality of the above: include/flow/step.hpp:14-35 *)
Definition leaf_eq_dec (a b : leaf) : {a = b} + {a <> b}.
Proof. decide equality; [apply node_eq_dec|apply string_dec]. Defined.

(** name_t (include/flow/step.hpp:14-35) *)
Definition leaf_name (l : leaf) : string := match l with LNode n => n_name n | LRef s => s end.

(** operator* of a node (include/flow/step.hpp:27-34) and of a composite; a node_reference has none. *)
Definition star_node (n : node) : node :=
  {| n_type := n_type n; n_name := n_name n; n_value := true; n_cond := n_cond n; n_func := n_func n |}.
(** include/flow/step.hpp:27-34 *)
Definition star_leaf (l : leaf) : option node := match l with LNode n => Some (star_node n) | LRef _ => None end.
(** include/flow/step.hpp:27-34 *)
Definition star (g : subgraph) : option subgraph :=
  match g with
  | Leaf l => option_map (fun n => Leaf (LNode n)) (star_leaf l)
  | Seq l r _ c => Some (Seq l r true c)
  | Par l r _ => Some (Par l r true)
  end.
(** operator>> (include/flow/dsl/seq.hpp:68-71) and operator&& (include/flow/dsl/par.hpp:63-66). *)
Definition seq_of (l r : subgraph) : subgraph := Seq l r false always.
(** include/flow/dsl/par.hpp:63-66 *)
Definition par_of (l r : subgraph) : subgraph := Par l r false.

(** initials_of, finals_of, all_mentioned_of (include/flow/dsl/walk.hpp:42-59, include/flow/dsl/seq.hpp:28-42, include/flow/dsl/par.hpp:27-41). *)
Fixpoint initials (g : subgraph) : list leaf :=
  match g with Leaf l => [l] | Seq l _ _ _ => initials l | Par l r _ => initials l ++ initials r end.
(** include/flow/dsl/par.hpp:27-41 *)
Fixpoint finals (g : subgraph) : list leaf :=
  match g with Leaf l => [l] | Seq _ r _ _ => finals r | Par l r _ => finals l ++ finals r end.
(** include/flow/dsl/par.hpp:27-41 *)
Fixpoint mentioned (g : subgraph) : list leaf :=
  match g with Leaf l => [l] | Seq l r _ _ | Par l r _ => mentioned l ++ mentioned r end.

(** Sequencing lists of options: the whole does not compile if a part does not
    (include/flow/dsl/par.hpp:27-41). *)
Fixpoint all_some {A} (l : list (option A)) : option (list A) :=
  match l with
  | [] => Some []
  | Some x :: r => option_map (cons x) (all_some r)
  | None :: _ => None
  end.
(** mp_unique and to_unsorted_set: the first of each type. *)
Section Unique.
Context {A : Type} (dec : forall a b : A, {a = b} + {a <> b}).
(** include/flow/dsl/par.hpp:27-41 *)
Fixpoint unique_acc (seen l : list A) : list A :=
  match l with
  | [] => []
  | x :: r => if in_dec dec x seen then unique_acc seen r else x :: unique_acc (x :: seen) r
  end.
(** include/flow/dsl/par.hpp:27-41 *)
Definition unique (l : list A) : list A := unique_acc [] l.
End Unique.

(** nodes_of (include/flow/dsl/walk.hpp:61-67, include/flow/dsl/seq.hpp:45-55, include/flow/dsl/par.hpp:43-53). *)
Fixpoint nodes (g : subgraph) : option (list node) :=
  match g with
  | Leaf (LNode n) => Some (if n_value n then [n] else [])
  | Leaf (LRef _) => Some []
  | Seq l r false _ | Par l r false =>
    match nodes l, nodes r with Some a, Some b => Some (a ++ b) | _, _ => None end
  | Seq l r true _ | Par l r true => all_some (map star_leaf (unique leaf_eq_dec (mentioned l ++ mentioned r)))
  end.

(** edge (include/flow/dsl/walk.hpp:22-26), edges_of (include/flow/dsl/walk.hpp:69-71, include/flow/dsl/seq.hpp:58-63, include/flow/dsl/par.hpp:55-58). *)
Record edge := { e_src : leaf; e_dst : leaf; e_cond : cond }.
(** Equality of the above: include/flow/dsl/par.hpp:55-58 *)
Definition edge_eq_dec (a b : edge) : {a = b} + {a <> b}.
Proof. decide equality; [apply cond_eq_dec|apply leaf_eq_dec|apply leaf_eq_dec]. Defined.
(** include/flow/dsl/par.hpp:55-58 *)
Definition cross (c : cond) (ls rs : list leaf) : list edge :=
  flat_map (fun a => map (fun b => {| e_src := a; e_dst := b; e_cond := c |}) rs) ls.
(** include/flow/dsl/par.hpp:55-58 *)
Fixpoint edges (g : subgraph) : list edge :=
  match g with
  | Leaf _ => []
  | Seq l r _ c => edges l ++ edges r ++ cross c (finals l) (initials r)
  | Par l r _ => edges l ++ edges r
  end.

(** builder_for: fragments and their aggregation (include/flow/builder.hpp:17-71). *)
Definition builder := list subgraph.
(** include/flow/builder.hpp:17-71 *)
Definition add (b : builder) (fs : list subgraph) : builder := b ++ fs.
(** include/flow/builder.hpp:17-71 *)
Definition b_mentioned (b : builder) : list leaf := flat_map mentioned b.
(** include/flow/builder.hpp:17-71 *)
Definition b_edges (b : builder) : list edge := flat_map edges b.
(** include/flow/builder.hpp:17-71 *)
Definition b_nodes (b : builder) : option (list node) := option_map (@concat node) (all_some (map nodes b)).

(** make_runtime_conditional (include/flow/step.hpp:83-93, include/flow/dsl/seq.hpp:73-85, include/flow/dsl/par.hpp:68-79);
    there is none for a node_reference. *)
Fixpoint conditional (c : cond) (g : subgraph) : option subgraph :=
  match g with
  | Leaf (LNode n) =>
    Some (Leaf (LNode (if n_value n then
      {| n_type := n_type n; n_name := n_name n; n_value := n_value n; n_cond := cond_and (n_cond n) c; n_func := n_func n |}
      else n)))
  | Leaf (LRef _) => None
  | Seq l r v ec =>
    match conditional c l, conditional c r with
    | Some l', Some r' => Some (Seq l' r' v (cond_and ec c))
    | _, _ => None
    end
  | Par l r v =>
    match conditional c l, conditional c r with
    | Some l', Some r' => Some (Par l' r' v)
    | _, _ => None
    end
  end.
(** What components contribute to one flow: fragments, possibly under nested
    conditions (runtime_conditional::extends_tuple, include/nexus/detail/runtime_conditional.hpp:25-42). *)
Inductive config :=
| Fragment (g : subgraph)
| When (c : cond) (body : list config).
(** include/nexus/detail/runtime_conditional.hpp:25-42 *)
Fixpoint extends (x : config) : option (list subgraph) :=
  match x with
  | Fragment g => Some [g]
  | When c body =>
    match all_some (map extends body) with
    | None => None
    | Some gs => all_some (map (conditional c) (concat gs))
    end
  end.

(** ** Graphs and the topological sort *)
Section Topo.
Context {K : Type} (dec : forall a b : K, {a = b} + {a <> b}).
(** cx_multimap (include/flow/graph_builder.hpp:71-171) *)
Definition graph := list (K * list K).
(** include/flow/graph_builder.hpp:71-171 *)
Definition keys (g : graph) : list K := map fst g.
(** include/flow/graph_builder.hpp:71-171 *)
Definition has (x : K) (l : list K) : bool := if in_dec dec x l then true else false.
(** include/flow/graph_builder.hpp:71-171 *)
Definition put_node (g : graph) (k : K) : graph := if has k (keys g) then g else g ++ [(k, [])].
(** include/flow/graph_builder.hpp:71-171 *)
Fixpoint put_edge (g : graph) (k v : K) : graph :=
  match g with
  | [] => [(k, [v])]
  | (k', vs) :: r =>
    if dec k' k then (k', if has v vs then vs else vs ++ [v]) :: r else (k', vs) :: put_edge r k v
  end.
(** include/flow/graph_builder.hpp:71-171 *)
Definition get (g : graph) (k : K) : list K :=
  match find (fun e => if dec (fst e) k then true else false) g with Some e => snd e | None => [] end.
(** include/flow/graph_builder.hpp:71-171 *)
Definition erase_key (g : graph) (k : K) : graph := filter (fun e => if dec (fst e) k then false else true) g.
(** cx_multimap::erase(key, value); a key left without values is removed
    (include/flow/graph_builder.hpp:71-171). *)
Definition remove_value (v : K) (vs : list K) : list K := filter (fun x => if dec x v then false else true) vs.
(** include/flow/graph_builder.hpp:71-171 *)
Definition erase_edge (g : graph) (k v : K) : graph :=
  flat_map (fun e => if dec (fst e) k then
                       match remove_value v (snd e) with [] => [] | vs => [(fst e, vs)] end
                     else [e]) g.
(** is_source_of (include/flow/graph_builder.hpp:119-125) *)
Definition is_source_of (x : K) (g : graph) : bool := forallb (fun e => negb (has x (snd e))) g.
(** get_sources (include/flow/graph_builder.hpp:127-140) *)
Definition get_sources (g : graph) : list K :=
  filter (fun k => negb (has k (flat_map snd g))) (keys g).
(** include/flow/graph_builder.hpp:127-140 *)
Definition insert (x : K) (s : list K) : list K := if has x s then s else s ++ [x].

(** The order in which cx_set pops and enumerates, at the given step. *)
Variable pops : nat -> list K -> option (K * list K).
Variable enum : nat -> list K -> list K.

(** The body of the loop for one source (include/flow/graph_builder.hpp:150-165). *)
Fixpoint visit (g : graph) (n : K) (ms : list K) (sources : list K) : graph * list K :=
  match ms with
  | [] => (g, sources)
  | m :: r =>
    let g' := erase_edge g n m in
    visit g' n r (if is_source_of m g' then insert m sources else sources)
  end.
(** topo_sort (include/flow/graph_builder.hpp:142-171); [None] when fuel runs out. *)
Fixpoint topo_loop (fuel : nat) (g : graph) (sources : list K) (order : list K) : option (list K * graph) :=
  match pops fuel sources with
  | None => Some (order, g)
  | Some (n, rest) =>
    match fuel with
    | O => None
    | S f =>
      let order' := order ++ [n] in
      if has n (keys g) then
        match enum fuel (get g n) with
        | [] => topo_loop f (erase_key g n) rest order'
        | ms => let (g', s') := visit g n ms rest in topo_loop f g' s' order'
        end
      else topo_loop f g rest order'
    end
  end.
(** include/flow/graph_builder.hpp:142-171 *)
Definition topo_sort (g : graph) : option (list K * graph) := topo_loop (S (length g)) g (get_sources g) [].
End Topo.
Arguments graph : clear implicits.

(** ** Building *)
(** include/flow/graph_builder.hpp:184-280 *)
Inductive build_result :=
| Rejected                                   (* a template or static_assert other than the below *)
| MissingSteps                               (* 197-202 *)
| DuplicateSteps                             (* 208-212 *)
| WeakCondition                              (* 99-107 *)
| Cycle (leftover : graph node)              (* 250-272 *)
| Built (order : list node).

(** include/flow/graph_builder.hpp:184-280 *)
Definition names_subset (a b : list string) : bool := forallb (fun x => existsb (String.eqb x) b) a.
(** include/flow/graph_builder.hpp:184-280 *)
Fixpoint has_duplicate (l : list string) : bool :=
  match l with [] => false | x :: r => existsb (String.eqb x) r || has_duplicate r end.
(** include/flow/graph_builder.hpp:184-280 *)
Definition named (ns : list node) (x : string) : option node := find (fun n => String.eqb (n_name n) x) ns.

(** make_graph (include/flow/graph_builder.hpp:71-116): the condition check, then the graph. *)
Definition edge_ok (ns : list node) (e : edge) : bool :=
  match named ns (leaf_name (e_src e)), named ns (leaf_name (e_dst e)) with
  | Some a, Some b =>
    forallb (fun p => existsb (Nat.eqb p) (c_preds (e_cond e))) (c_preds (n_cond a) ++ c_preds (n_cond b))
  | _, _ => false
  end.
(** include/flow/graph_builder.hpp:71-116 *)
Definition add_edge (ns : list node) (g : graph node) (e : edge) : graph node :=
  match named ns (leaf_name (e_src e)), named ns (leaf_name (e_dst e)) with
  | Some a, Some b => put_edge node_eq_dec g a b
  | _, _ => g
  end.
(** include/flow/graph_builder.hpp:71-116 *)
Definition make_graph (ns : list node) (es : list edge) : graph node :=
  fold_left (add_edge ns) es (fold_left (put_node node_eq_dec) ns []).

Section Build.
Variable pops : nat -> list node -> option (node * list node).
Variable enum : nat -> list node -> list node.

(** build (include/flow/graph_builder.hpp:215-240) with check_for_missing_nodes (include/flow/graph_builder.hpp:184-213), then built_flow::built (include/flow/graph_builder.hpp:246-280). *)
Definition build (b : builder) : build_result :=
  match b_nodes b with
  | None => Rejected
  | Some ns =>
    let names := map n_name ns in
    let ment := map leaf_name (b_mentioned b) in
    if negb (names_subset names ment && names_subset ment names) then MissingSteps else
    if has_duplicate names then DuplicateSteps else
    let node_set := unique node_eq_dec ns in
    let edge_set := unique edge_eq_dec (b_edges b) in
    if negb (forallb (edge_ok node_set) edge_set) then WeakCondition else
    match topo_sort node_eq_dec pops enum (make_graph node_set edge_set) with
    | None => Rejected
    | Some (order, []) => Built order
    | Some (_, g) => Cycle g
    end
  end.
End Build.

(** ** Capacities *)
(** edge_size (include/flow/graph_common.hpp:14-35): the most edges touching one node, at least 1. *)
Definition touches (n : node) (e : edge) : bool :=
  String.eqb (leaf_name (e_src e)) (n_name n) || String.eqb (leaf_name (e_dst e)) (n_name n).
(** include/flow/graph_common.hpp:14-35 *)
Definition edge_size (ns : list node) (es : list edge) : nat :=
  fold_left Nat.max (map (fun n => length (filter (touches n) es)) ns) 1.
(** The same computations with containers of fixed capacity ([nodes_cap] keys,
    set elements and vector elements, [edges_cap] values per key): [None] as
    soon as one of them would overflow. *)
Section Capacity.
Variables nodes_cap edges_cap : nat.
(** include/flow/graph_builder.hpp:71-171 *)
Definition fits (g : graph node) : option (graph node) :=
  if (length g <=? nodes_cap) && forallb (fun e => length (snd e) <=? edges_cap) g then Some g else None.
(** include/flow/graph_builder.hpp:71-171 *)
Definition bind_graph (g : option (graph node)) (f : graph node -> graph node) : option (graph node) :=
  match g with None => None | Some g => fits (f g) end.
(** include/flow/graph_builder.hpp:71-171 *)
Definition make_graph_fixed (ns : list node) (es : list edge) : option (graph node) :=
  fold_left (fun g e => bind_graph g (fun g => add_edge ns g e)) es
    (fold_left (fun g n => bind_graph g (fun g => put_node node_eq_dec g n)) ns (Some [])).
Variable pops : nat -> list node -> option (node * list node).
Variable enum : nat -> list node -> list node.
(** include/flow/graph_builder.hpp:71-171 *)
Definition fits_set (s : list node) : bool := length s <=? nodes_cap.
(** include/flow/graph_builder.hpp:71-171 *)
Fixpoint visit_fixed (g : graph node) (n : node) (ms : list node) (sources : list node) : option (graph node * list node) :=
  match ms with
  | [] => Some (g, sources)
  | m :: r =>
    let g' := erase_edge node_eq_dec g n m in
    let s' := if is_source_of node_eq_dec m g' then insert node_eq_dec m sources else sources in
    if fits_set s' then visit_fixed g' n r s' else None
  end.
(** include/flow/graph_builder.hpp:71-171 *)
Fixpoint topo_loop_fixed (fuel : nat) (g : graph node) (sources order : list node) : option (list node * graph node) :=
  match pops fuel sources with
  | None => Some (order, g)
  | Some (n, rest) =>
    match fuel with
    | O => None
    | S f =>
      let order' := order ++ [n] in
      if negb (fits_set order') then None else
      if has node_eq_dec n (keys g) then
        match enum fuel (get node_eq_dec g n) with
        | [] => topo_loop_fixed f (erase_key node_eq_dec g n) rest order'
        | ms =>
          match visit_fixed g n ms rest with
          | None => None
          | Some (g', s') => topo_loop_fixed f g' s' order'
          end
        end
      else topo_loop_fixed f g rest order'
    end
  end.
(** include/flow/graph_builder.hpp:71-171 *)
Definition topo_sort_fixed (g : graph node) : option (list node * graph node) :=
  if fits_set (get_sources node_eq_dec g) then topo_loop_fixed (S (length g)) g (get_sources node_eq_dec g) [] else None.
End Capacity.

(** ** Running *)
(** What running a flow does, seen from outside: log lines (text after the
    format is applied) and calls of step functions
    (include/flow/func_list.hpp:21-35). *)
Inductive event := Log (text : string) | Call (func : nat).
(** include/flow/func_list.hpp:21-35 *)
Definition type_text (t : step_type) : string := match t with Action => "action" | Milestone => "milestone" end.

Section Run.
Context {St : Type}.
Variable pred : nat -> St -> bool.
Variable step : nat -> St -> St.
(** LogPolicy: none for a flow without a name (include/flow/log.hpp:55-57). *)
Definition log_text (logged : bool) (s : string) : list event := if logged then [Log s] else [].
(** run_func (include/flow/func_list.hpp:21-35). *)
Definition run_node (logged : bool) (n : node) (s : St) : list event * St :=
  if holds (fun p => pred p s) (n_cond n) then
    (log_text logged ("flow." ++ type_text (n_type n) ++ "(" ++ n_name n ++ ")") ++ [Call (n_func n)],
     step (n_func n) s)
  else ([], s).
(** include/flow/func_list.hpp:21-35 *)
Fixpoint run_nodes (logged : bool) (ns : list node) (s : St) : list event * St :=
  match ns with
  | [] => ([], s)
  | n :: r =>
    let (es, s1) := run_node logged n s in
    let (es', s2) := run_nodes logged r s1 in
    (es ++ es', s2)
  end.
(** inlined_func_list::operator() (include/flow/func_list.hpp:42-53). *)
Definition run_flow (flow_name : string) (ns : list node) (s : St) : list event * St :=
  let logged := negb (String.eqb flow_name "") in
  let (es, s') := run_nodes logged ns s in
  (log_text logged ("flow.start(" ++ flow_name ++ ")") ++ es ++ log_text logged ("flow.end(" ++ flow_name ++ ")"), s').
End Run.

(** ** Debug sub-flow *)
(** parents_of, children_of (include/flow/graph_common.hpp:71-77). *)
Definition parents_of (x : string) (es : list edge) : list string :=
  map (fun e => leaf_name (e_src e)) (filter (fun e => String.eqb (leaf_name (e_dst e)) x) es).
(** include/flow/graph_common.hpp:71-77 *)
Definition children_of (x : string) (es : list edge) : list string :=
  map (fun e => leaf_name (e_dst e)) (filter (fun e => String.eqb (leaf_name (e_src e)) x) es).
(** descendant_of_q, ancestor_of_q (include/flow/graph_common.hpp:79-102): mp_any_of looks at every parent
    (child); the recursion has no other end than reaching [start] or a node
    without parents, so [None] (instantiation depth) is possible. *)
Fixpoint reaches (fuel : nat) (next : string -> list string) (start x : string) : option bool :=
  if String.eqb x start then Some true else
  match fuel with
  | O => None
  | S f => option_map (existsb (fun b => b)) (all_some (map (reaches f next start) (next x)))
  end.
(** include/flow/graph_common.hpp:79-102 *)
Definition copy_if (f : string -> option bool) (ns : list node) : option (list node) :=
  option_map (fun bs => map fst (filter snd (combine ns bs))) (all_some (map (fun n => f (n_name n)) ns)).
(** debug_builder::build (include/flow/debug_builder.hpp:20-50); [depth] bounds template recursion. *)
Definition debug_build (depth : nat) (start finish : string) (b : builder) : option (list node * list edge) :=
  match b_nodes b with
  | None => None
  | Some ns0 =>
    let ns := unique node_eq_dec ns0 in
    let es := unique edge_eq_dec (b_edges b) in
    match named ns start, named ns finish with
    | Some _, Some _ =>
      match copy_if (reaches depth (fun x => parents_of x es) start) ns,
            copy_if (reaches depth (fun x => children_of x es) finish) ns with
      | Some down, Some up =>
        let sub := filter (fun n => if in_dec node_eq_dec n up then true else false) down in
        let inside x := existsb (fun n => String.eqb (n_name n) x) sub in
        Some (sub, filter (fun e => inside (leaf_name (e_src e)) && inside (leaf_name (e_dst e))) es)
      | _, _ => None
      end
    | _, _ => None
    end
  end.

(** ** Visualisation *)
Section Viz.
(** to_sorted_set orders by the type's name; the order itself is left open. *)
Variable sort_nodes : list node -> list node.
Variable sort_edges : list edge -> list edge.
(** include/flow/viz_builder.hpp:121-159 *)
Definition milestone (x : string) : node :=
  {| n_type := Milestone; n_name := x; n_value := false; n_cond := always; n_func := 0 |}.
(** viz_builder::build (include/flow/viz_builder.hpp:121-159): nodes and edges to render. *)
Definition viz_build (b : builder) : option (list node * list edge) :=
  match b_nodes b with
  | None => None
  | Some ns0 =>
    let ns := sort_nodes (unique node_eq_dec ns0) in
    let es := sort_edges (unique edge_eq_dec (b_edges b)) in
    let sources := filter (fun n => negb (existsb (fun e => String.eqb (n_name n) (leaf_name (e_dst e))) es)) ns in
    let sinks := filter (fun n => negb (existsb (fun e => String.eqb (n_name n) (leaf_name (e_src e))) es)) ns in
    Some (milestone "start" :: milestone "end" :: ns,
          es ++ map (fun n => {| e_src := LNode (milestone "start"); e_dst := LNode n; e_cond := n_cond n |}) sources
             ++ map (fun n => {| e_src := LNode n; e_dst := LNode (milestone "end"); e_cond := n_cond n |}) sinks)
  end.
End Viz.

(** The renderers (include/flow/viz_builder.hpp:18-92). *)
Record renderer := {
  prologue : string -> string; epilogue : string -> string;
  render_node : node -> string; render_edge : edge -> string }.
(** include/flow/viz_builder.hpp:18-92 *)
Definition newline : string := String (Ascii.ascii_of_nat 10) EmptyString.
(** include/flow/viz_builder.hpp:18-92 *)
Definition graphviz : renderer := {|
  prologue := fun name => "digraph " ++ name ++ " {";
  epilogue := fun _ => "}";
  render_node := fun n => "  " ++ n_name n;
  render_edge := fun e => "  " ++ leaf_name (e_src e) ++ " -> " ++ leaf_name (e_dst e) |}%string.
(** include/flow/viz_builder.hpp:18-92 *)
Fixpoint spaces_to_underscores (s : string) : string :=
  match s with
  | EmptyString => EmptyString
  | String c r => String (if Ascii.eqb c " "%char then "_"%char else c) (spaces_to_underscores r)
  end.
(** include/flow/viz_builder.hpp:18-92 *)
Definition to_id (name : string) : string := "_" ++ spaces_to_underscores name.
(** include/flow/viz_builder.hpp:18-92 *)
Definition to_box (n : node) : string :=
  match n_type n with Milestone => "[" ++ n_name n ++ "]" | Action => "(" ++ n_name n ++ ")" end.
(** include/flow/viz_builder.hpp:18-92 *)
Definition mermaid : renderer := {|
  prologue := fun name => "---" ++ newline ++ "title: " ++ name ++ newline ++ "---" ++ newline ++ "flowchart TD";
  epilogue := fun _ => "";
  render_node := fun n =>
    if String.eqb (n_name n) "start" || String.eqb (n_name n) "end"
    then "  " ++ to_id (n_name n) ++ "((" ++ n_name n ++ "))"
    else "  " ++ to_id (n_name n) ++ to_box n;
  render_edge := fun e =>
    if String.eqb (c_name (e_cond e)) "always"
    then "  " ++ to_id (leaf_name (e_src e)) ++ " --> " ++ to_id (leaf_name (e_dst e))
    else "  " ++ to_id (leaf_name (e_src e)) ++ " --" ++ c_name (e_cond e) ++ "--> " ++ to_id (leaf_name (e_dst e)) |}%string.
(** visualize (include/flow/viz_builder.hpp:96-119): tuple join with newlines. *)
Fixpoint join_lines (ls : list string) : string :=
  match ls with [] => "" | [x] => x | x :: r => x ++ newline ++ join_lines r end.
(** include/flow/viz_builder.hpp:96-119 *)
Definition visualize (r : renderer) (name : string) (ns : list node) (es : list edge) : string :=
  (prologue r name ++ newline ++ join_lines (map (render_node r) ns) ++ newline ++
   join_lines (map (render_edge r) es) ++ newline ++ epilogue r name)%string.

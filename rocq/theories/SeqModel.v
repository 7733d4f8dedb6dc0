(** Model of the sequencer (include/seq/impl.hpp, include/seq/step.hpp, include/seq/builder.hpp) and of
    the part of the flow language that carries its step values
    (include/flow/dsl/walk.hpp, include/flow/dsl/seq.hpp, include/flow/dsl/par.hpp).

    Simplifications: step functions are numbered; what a step function returns
    is decided by the environment, whose state may change with every call;
    logging is not modelled. Indexing a vector out of range and calling a null
    function pointer are undefined behaviour, [None]. *)
From Coq Require Import String Bool Arith List.
From Verif Require FlowModel.
Import ListNotations.

(** include/seq/impl.hpp:15 *)
Inductive direction := Forward | Backward.
(** include/seq/step.hpp:12 *)
Inductive status := NotDone | Done.
(** Equality of the above: include/seq/impl.hpp:15 *)
Definition direction_eqb (a b : direction) : bool :=
  match a, b with Forward, Forward | Backward, Backward => true | _, _ => false end.
(** Equality of the above: include/seq/step.hpp:12 *)
Definition status_eqb (a b : status) : bool :=
  match a, b with Done, Done | NotDone, NotDone => true | _, _ => false end.
(** opposite (include/seq/impl.hpp:74-81) *)
Definition opposite (d : direction) : direction := match d with Forward => Backward | Backward => Forward end.

(** The members of impl (include/seq/impl.hpp:19-24). *)
Record sequencer := { next_step : nat; prev_status : status; prev_direction : direction }.
(** include/seq/impl.hpp:19-24 *)
Definition initial : sequencer := {| next_step := 0; prev_status := Done; prev_direction := Backward |}.
(** include/seq/impl.hpp:19-24 *)
Definition with_next (q : sequencer) (k : nat) : sequencer :=
  {| next_step := k; prev_status := prev_status q; prev_direction := prev_direction q |}.
(** include/seq/impl.hpp:19-24 *)
Definition with_status (q : sequencer) (s : status) : sequencer :=
  {| next_step := next_step q; prev_status := s; prev_direction := prev_direction q |}.
(** include/seq/impl.hpp:19-24 *)
Definition with_direction (q : sequencer) (d : direction) : sequencer :=
  {| next_step := next_step q; prev_status := prev_status q; prev_direction := d |}.

(** One call of a step function: which direction, which step, what it returned
    (include/seq/impl.hpp:19-24). *)
Record invocation := { i_dir : direction; i_step : nat; i_result : status }.

Section Run.
Context {Env : Type}.
(** The step functions. *)
Variable num_steps : nat.
Variable call : direction -> nat -> Env -> status * Env.

(** step_forward (include/seq/impl.hpp:41-47), step_backward (include/seq/impl.hpp:49-55). *)
Definition step (d : direction) (q : sequencer) (e : Env) : option (status * sequencer * Env * list invocation) :=
  match d with
  | Forward =>
    if next_step q <? num_steps then
      let (r, e') := call Forward (next_step q) e in
      let ev := [{| i_dir := Forward; i_step := next_step q; i_result := r |}] in
      match r with NotDone => Some (NotDone, q, e', ev) | Done => Some (Done, with_next q (S (next_step q)), e', ev) end
    else None
  | Backward =>
    match next_step q with
    | O => None
    | S k =>
      if k <? num_steps then
        let (r, e') := call Backward k e in
        let ev := [{| i_dir := Backward; i_step := k; i_result := r |}] in
        match r with NotDone => Some (NotDone, q, e', ev) | Done => Some (Done, with_next q k, e', ev) end
      else None
    end
  end.
(** can_continue (include/seq/impl.hpp:65-72) *)
Definition can_continue (d : direction) (q : sequencer) : bool :=
  match d with Forward => next_step q <? num_steps | Backward => 0 <? next_step q end.
(** The while loop of go (include/seq/impl.hpp:94-100); [fuel] bounds its iterations, running out is [None]. *)
Fixpoint proceed (fuel : nat) (d : direction) (q : sequencer) (e : Env) : option (status * sequencer * Env * list invocation) :=
  if can_continue d q then
    match fuel with
    | O => None
    | S f =>
      match step d q e with
      | None => None
      | Some (NotDone, q', e', ev) => Some (NotDone, with_status q' NotDone, e', ev)
      | Some (Done, q', e', ev) =>
        match proceed f d q' e' with
        | None => None
        | Some (r, q'', e'', ev') => Some (r, q'', e'', ev ++ ev')
        end
      end
    end
  else Some (Done, with_status q Done, e, []).
(** go (include/seq/impl.hpp:83-104) *)
Definition go (d : direction) (q : sequencer) (e : Env) : option (status * sequencer * Env * list invocation) :=
  let continue_with q e ev :=
    match proceed (S num_steps) d (with_direction q d) e with
    | None => None
    | Some (r, q', e', ev') => Some (r, q', e', ev ++ ev')
    end in
  if direction_eqb (prev_direction q) (opposite d) && status_eqb (prev_status q) NotDone then
    match step (opposite d) q e with
    | None => None
    | Some (NotDone, q', e', ev) => Some (NotDone, q', e', ev)
    | Some (Done, q', e', ev) => continue_with q' e' ev
    end
  else continue_with q e [].
(** Any history of forward() and backward() calls: the result and the
    invocations of each (include/seq/impl.hpp:83-104). *)
Fixpoint history (ds : list direction) (q : sequencer) (e : Env) : option (list (direction * status * list invocation) * sequencer * Env) :=
  match ds with
  | [] => Some ([], q, e)
  | d :: r =>
    match go d q e with
    | None => None
    | Some (s, q', e', ev) =>
      match history r q' e' with
      | None => None
      | Some (l, q'', e'') => Some ((d, s, ev) :: l, q'', e'')
      end
    end
  end.
End Run.

(** ** Building *)
(** ct_step (include/seq/step.hpp:30-44): the type is the name and whether the step is
    starred; the value is its two functions, null when default-constructed
    (the third pointer logs the name, one function per name, null likewise).
    Its identity is VALUE either way. *)
Record seq_step := { s_name : string; s_starred : bool; s_funcs : option (nat * nat) }.
(** step (include/seq/step.hpp:55-60) *)
Definition step_of (name : string) (f b : nat) : seq_step := {| s_name := name; s_starred := false; s_funcs := Some (f, b) |}.
(** operator* (include/seq/step.hpp:41-43) *)
Definition star_step (s : seq_step) : seq_step := {| s_name := s_name s; s_starred := true; s_funcs := s_funcs s |}.
(** include/seq/step.hpp:41-43 *)
Definition step_type (s : seq_step) : string * bool := (s_name s, s_starred s).
(** Equality of the above: include/seq/step.hpp:41-43 *)
Definition type_eq_dec (a b : string * bool) : {a = b} + {a <> b}.
Proof. decide equality; [apply bool_dec|apply string_dec]. Defined.
(** seq and par without conditions, over steps and references by name
    (flow::dsl::node_reference, include/flow/dsl/walk.hpp:28-38); the flag is Identity ==
    VALUE. *)
Inductive description :=
| SLeaf (s : seq_step)
| SRef (name : string)
| SSeq (l r : description) (value : bool)
| SPar (l r : description) (value : bool).
(** Lhs{}, Rhs{}: default construction (include/flow/dsl/walk.hpp:28-38). *)
Fixpoint default_value (g : description) : description :=
  match g with
  | SLeaf s => SLeaf {| s_name := s_name s; s_starred := s_starred s; s_funcs := None |}
  | SRef x => SRef x
  | SSeq l r v => SSeq (default_value l) (default_value r) v
  | SPar l r v => SPar (default_value l) (default_value r) v
  end.
(** operator* of step, seq (include/flow/dsl/seq.hpp:21-23) and par (include/flow/dsl/par.hpp:19-21); a reference
    has none. *)
Definition star (g : description) : option description :=
  match g with
  | SLeaf s => Some (SLeaf (star_step s))
  | SRef _ => None
  | SSeq l r _ => Some (SSeq (default_value l) (default_value r) true)
  | SPar l r _ => Some (SPar (default_value l) (default_value r) true)
  end.
(** all_mentioned_of (include/flow/dsl/walk.hpp:55-60, include/flow/dsl/seq.hpp:39-43, include/flow/dsl/par.hpp:37-41), as names. *)
Fixpoint mention (g : description) : list string :=
  match g with SLeaf s => [s_name s] | SRef x => [x] | SSeq l r _ | SPar l r _ => mention l ++ mention r end.
(** collect_node_values (include/flow/dsl/walk.hpp:96-114). *)
Fixpoint leaves (g : description) : list seq_step :=
  match g with SLeaf s => [s] | SRef _ => [] | SSeq l r _ | SPar l r _ => leaves l ++ leaves r end.
(** include/flow/dsl/walk.hpp:96-114 *)
Fixpoint has_ref (g : description) : bool :=
  match g with SLeaf _ => false | SRef _ => true | SSeq l r _ | SPar l r _ => has_ref l || has_ref r end.
(** nodes_of (include/flow/dsl/walk.hpp:62-66, include/flow/dsl/seq.hpp:45-56, include/flow/dsl/par.hpp:43-53), as types; star_t of
    a reference does not compile. *)
Fixpoint node_types (g : description) : option (list (string * bool)) :=
  match g with
  | SLeaf s => Some [step_type s]
  | SRef _ => Some []
  | SSeq l r false | SPar l r false =>
    match node_types l, node_types r with Some a, Some b => Some (a ++ b) | _, _ => None end
  | SSeq l r true | SPar l r true =>
    if has_ref l || has_ref r then None else
    Some (map (fun t => (fst t, true)) (FlowModel.unique type_eq_dec (map step_type (leaves l ++ leaves r))))
  end.
(** pick_node (include/flow/dsl/walk.hpp:116-127): the first leaf whose starred type is the wanted one, or
    a default-constructed value. *)
Definition pick_node (ls : list seq_step) (t : string * bool) : seq_step :=
  match find (fun s => if type_eq_dec (s_name s, true) t then true else false) ls with
  | Some s => star_step s
  | None => {| s_name := fst t; s_starred := snd t; s_funcs := None |}
  end.
(** get_nodes of a builder (include/flow/dsl/walk.hpp:137-140). *)
Definition seq_nodes (b : list description) : option (list seq_step) :=
  match FlowModel.all_some (map node_types b) with
  | None => None
  | Some ts => Some (map (pick_node (flat_map leaves b)) (concat ts))
  end.
(** get_edges (include/flow/dsl/walk.hpp:148-151), as names. *)
Fixpoint seq_initials (g : description) : list string :=
  match g with SLeaf s => [s_name s] | SRef x => [x] | SSeq l _ _ => seq_initials l | SPar l r _ => seq_initials l ++ seq_initials r end.
(** include/flow/dsl/walk.hpp:148-151 *)
Fixpoint seq_finals (g : description) : list string :=
  match g with SLeaf s => [s_name s] | SRef x => [x] | SSeq _ r _ => seq_finals r | SPar l r _ => seq_finals l ++ seq_finals r end.
(** include/flow/dsl/walk.hpp:148-151 *)
Fixpoint seq_edges (g : description) : list (string * string) :=
  match g with
  | SLeaf _ | SRef _ => []
  | SSeq l r _ => seq_edges l ++ seq_edges r ++ list_prod (seq_finals l) (seq_initials r)
  | SPar l r _ => seq_edges l ++ seq_edges r
  end.
(** rt_step with its equality (include/seq/step.hpp:17-28): all three pointers. *)
Definition rt_step : Type := option (nat * nat * string).
(** Equality of the above: include/seq/step.hpp:17-28 *)
Definition rt_eq_dec (a b : rt_step) : {a = b} + {a <> b}.
Proof. repeat decide equality. Defined.
(** create_node (include/seq/impl.hpp:28-31) slices the step. *)
Definition rt_of (s : seq_step) : rt_step := option_map (fun f => (f, s_name s)) (s_funcs s).
(** make_graph (include/flow/graph_builder.hpp:71-116). *)
Definition seq_add_edge (ns : list seq_step) (g : FlowModel.graph rt_step) (e : string * string) : FlowModel.graph rt_step :=
  match find (fun s => String.eqb (s_name s) (fst e)) ns, find (fun s => String.eqb (s_name s) (snd e)) ns with
  | Some a, Some b => FlowModel.put_edge rt_eq_dec g (rt_of a) (rt_of b)
  | _, _ => g
  end.
(** include/flow/graph_builder.hpp:71-116 *)
Definition seq_graph (ns : list seq_step) (es : list (string * string)) : FlowModel.graph rt_step :=
  fold_left (seq_add_edge ns) es (fold_left (FlowModel.put_node rt_eq_dec) (map rt_of ns) []).
(** graph_builder::build (include/flow/graph_builder.hpp:215-240): the steps in the order of the sequencer, and
    the left over edges. [None]: rejected at compile time. *)
Definition seq_build (pops : nat -> list rt_step -> option (rt_step * list rt_step)) (enum : nat -> list rt_step -> list rt_step)
    (b : list description) : option (list rt_step * FlowModel.graph rt_step) :=
  match seq_nodes b with
  | None => None
  | Some ns =>
    let names := map s_name ns in
    let ment := flat_map mention b in
    if negb (FlowModel.names_subset names ment && FlowModel.names_subset ment names) then None else
    if FlowModel.has_duplicate names then None else
    FlowModel.topo_sort rt_eq_dec pops enum (seq_graph ns (flat_map seq_edges b))
  end.

(** Model of message callbacks and the two message handlers:
    include/msg/callback.hpp, include/msg/handler.hpp, include/msg/handler_builder.hpp,
    include/msg/detail/separate_sum_terms.hpp, include/msg/detail/indexed_builder_common.hpp,
    include/msg/detail/indexed_handler_common.hpp, include/msg/indexed_handler.hpp.

    Simplifications: matchers are pure functions of the message (a predicate's
    answer does not change while one message is handled); log messages are
    reduced to which message it is; stdx::bitset is a set of indices, visited in
    ascending order; the operands of the fold over [|] in include/msg/handler.hpp:28 are
    evaluated left to right (the language leaves this open, the supported
    compilers do so); capacities (512 keys, 256 callbacks) are not exceeded;
    the lookup tables are the maps they are built from (see BakedModel.v for the tables
    and capacities, and C122, C123). *)
From Coq Require Import List Bool Arith ZArith.
From Verif Require Import MatchModel MatchSpec FieldMatchersModel FieldMatchersSpec.
Import ListNotations.

(** What an observer sees while a message is handled
    (include/msg/handler.hpp:25-40). *)
Inductive event :=
| Ran (id : nat)
| LogUnclaimed
| LogMismatch (id : nat).

Section Plain.
Context {L E : Type}.
Variable sem : L -> E -> bool.
Variable leqb : L -> L -> bool.
Variable limpl : L -> L -> bool.
Variable lneg : L -> option L.

(** detail::callback (include/msg/callback.hpp:25-72); [cb_id] names the callable. *)
Record callback := { cb_id : nat; cb_matcher : mexpr L }.

(** callback_construct_t (include/msg/callback.hpp:74-95): with and without a matcher;
    [msg_matcher] is Msg::matcher_t = match::all of the fields' matchers
    (include/msg/message.hpp:620). *)
Definition msg_matcher (field_matchers : list (mexpr L)) : mexpr L :=
  match_all L leqb limpl lneg field_matchers.
(** include/msg/message.hpp:620 *)
Definition make_callback (id : nat) (user : option (mexpr L)) (field_matchers : list (mexpr L)) : callback :=
  {| cb_id := id;
     cb_matcher := match user with
       | Some m => sum_of_products L lneg (op_and L leqb limpl lneg m (msg_matcher field_matchers))
       | None => msg_matcher field_matchers
       end |}.
(** make_runtime_conditional (include/msg/callback.hpp:104-119). *)
Definition make_conditional (cond : L) (c : callback) : callback :=
  {| cb_id := cb_id c; cb_matcher := sum_of_products L lneg (op_and L leqb limpl lneg (cb_matcher c) (Leaf cond)) |}.

(** callback::is_match and callback::handle (include/msg/callback.hpp:26-47). *)
Definition cb_is_match (c : callback) (e : E) : bool := eval sem (cb_matcher c) e.
(** include/msg/callback.hpp:26-47 *)
Definition cb_handle (c : callback) (e : E) : list event * bool :=
  if cb_is_match c e then ([Ran (cb_id c)], true) else ([], false).

(** handler::is_match (include/msg/handler.hpp:20-23): any_of, stopping at the first. *)
Fixpoint is_match (cbs : list callback) (e : E) : bool :=
  match cbs with
  | [] => false
  | c :: r => if cb_is_match c e then true else is_match r e
  end.
(** (0u | ... | cbs.handle(msg, args...)) (include/msg/handler.hpp:27-31). *)
Fixpoint handle_all (cbs : list callback) (e : E) (acc : bool) : list event * bool :=
  match cbs with
  | [] => ([], acc)
  | c :: r =>
    let (ev, b) := cb_handle c e in
    let (evs, res) := handle_all r e (acc || b) in
    (ev ++ evs, res)
  end.
(** handler::handle (include/msg/handler.hpp:25-40). *)
Definition handle (cbs : list callback) (e : E) : list event * bool :=
  let (evs, found) := handle_all cbs e false in
  if found then (evs, true)
  else (evs ++ LogUnclaimed :: map (fun c => LogMismatch (cb_id c)) cbs, false).

(** handler_builder::add (include/msg/handler_builder.hpp:15-21): appends. *)
Definition builder_add (cbs new : list callback) : list callback := cbs ++ new.

(** separate_sum_terms (include/msg/detail/separate_sum_terms.hpp:17-42). *)
Fixpoint split_terms (m : mexpr L) (id : nat) : list callback :=
  match m with
  | Or a b => split_terms a id ++ split_terms b id
  | _ => [ {| cb_id := id; cb_matcher := m |} ]
  end.
(** include/msg/detail/separate_sum_terms.hpp:17-42 *)
Definition separate_sum_terms (c : callback) : list callback :=
  split_terms (sum_of_products L lneg (match_all L leqb limpl lneg [cb_matcher c])) (cb_id c).
End Plain.
Arguments callback : clear implicits.

Local Open Scope Z_scope.

(** temp_index (include/msg/detail/indexed_builder_common.hpp:64-121); a bitset is its
    characteristic function. *)
Definition bits := nat -> bool.
(** include/msg/detail/indexed_builder_common.hpp:64-121 *)
Record temp_index := { ti_entries : list (Z * bits); ti_default : bits; ti_negative : bits }.
(** include/msg/detail/indexed_builder_common.hpp:64-121 *)
Definition empty_bits : bits := fun _ => false.
(** include/msg/detail/indexed_builder_common.hpp:64-121 *)
Definition bit_set (b : bits) (i : nat) : bits := fun j => Nat.eqb j i || b j.
(** include/msg/detail/indexed_builder_common.hpp:64-121 *)
Definition bit_reset (b : bits) (i : nat) : bits := fun j => negb (Nat.eqb j i) && b j.
(** include/msg/detail/indexed_builder_common.hpp:64-121 *)
Definition bit_or (a b : bits) : bits := fun j => a j || b j.

(** include/msg/detail/indexed_builder_common.hpp:64-121 *)
Fixpoint get_entry (k : Z) (es : list (Z * bits)) : option bits :=
  match es with
  | [] => None
  | (k', v) :: r => if k' =? k then Some v else get_entry k r
  end.
(** [if (not entries.contains(key)) entries.put(key, value_t{})] (include/msg/detail/indexed_builder_common.hpp:77-79, 97-99). *)
Definition ensure (k : Z) (es : list (Z * bits)) : list (Z * bits) :=
  match get_entry k es with Some _ => es | None => es ++ [(k, empty_bits)] end.
(** include/msg/detail/indexed_builder_common.hpp:77-79, 97-99 *)
Definition update (k : Z) (f : bits -> bits) (es : list (Z * bits)) : list (Z * bits) :=
  map (fun kv => if fst kv =? k then (fst kv, f (snd kv)) else kv) es.
(** add_positive (include/msg/detail/indexed_builder_common.hpp:74-80). *)
Definition add_positive (t : temp_index) (k : Z) (i : nat) : temp_index :=
  {| ti_entries := update k (fun v => bit_set v i) (ensure k (ti_entries t));
     ti_default := ti_default t; ti_negative := ti_negative t |}.
(** collect_defaults (include/msg/detail/indexed_builder_common.hpp:82-92). *)
Definition collect_defaults (t : temp_index) (count : nat) : temp_index :=
  {| ti_entries := ti_entries t;
     ti_default := fun i => (Nat.ltb i count && negb (existsb (fun kv => snd kv i) (ti_entries t))) || ti_default t i;
     ti_negative := ti_negative t |}.
(** add_negative (include/msg/detail/indexed_builder_common.hpp:95-110). *)
Definition add_negative (t : temp_index) (k : Z) (i : nat) : temp_index :=
  {| ti_entries := map (fun kv => if fst kv =? k
                                  then (fst kv, bit_reset (bit_or (snd kv) (ti_default t)) i)
                                  else (fst kv, bit_set (snd kv) i)) (ensure k (ti_entries t));
     ti_default := ti_default t; ti_negative := bit_set (ti_negative t) i |}.
(** propagate_positive_defaults (include/msg/detail/indexed_builder_common.hpp:112-119). *)
Definition propagate (t : temp_index) : temp_index :=
  {| ti_entries := map (fun kv => (fst kv, bit_or (snd kv) (fun i => ti_default t i && negb (ti_negative t i)))) (ti_entries t);
     ti_default := ti_default t; ti_negative := ti_negative t |}.

(** index_terms on field [f]: the values compared with == (include/msg/field_matchers.hpp:22-43, 261-266). *)
Fixpoint index_terms (f : nat) (m : fexpr) : list Z :=
  match m with
  | And a b | Or a b => index_terms f a ++ index_terms f b
  | Leaf (Rel g REq v) => if Nat.eqb g f then [v] else []
  | _ => []
  end.
(** index_not_terms on field [f]: the values compared with != (include/msg/field_matchers.hpp:45-68, 273-278). *)
Fixpoint index_not_terms (f : nat) (m : fexpr) : list Z :=
  match m with
  | And a b | Or a b => index_not_terms f a ++ index_not_terms f b
  | Not a => index_not_terms f a
  | Leaf (Rel g RNe v) => if Nat.eqb g f then [v] else []
  | _ => []
  end.

(** walk_matcher (include/msg/detail/indexed_builder_common.hpp:174-179): callbacks in order. *)
Fixpoint walk (terms : fexpr -> list Z) (i : nat) (ms : list fexpr) : list (Z * nat) :=
  match ms with
  | [] => []
  | m :: r => map (fun v => (v, i)) (terms m) ++ walk terms (S i) r
  end.
(** include/msg/detail/indexed_builder_common.hpp:174-179 *)
Definition empty_index : temp_index := {| ti_entries := []; ti_default := empty_bits; ti_negative := empty_bits |}.
(** create_temp_indices (include/msg/detail/indexed_builder_common.hpp:181-205) for one indexed field. *)
Definition build_index (f : nat) (ms : list fexpr) : temp_index :=
  let t1 := fold_left (fun t vi => add_positive t (fst vi) (snd vi)) (walk (index_terms f) 0 ms) empty_index in
  let t2 := collect_defaults t1 (length ms) in
  let t3 := fold_left (fun t vi => add_negative t (fst vi) (snd vi)) (walk (index_not_terms f) 0 ms) t2 in
  propagate t3.
(** lookup::input{default_value, entries} and operator[] (include/msg/indexed_builder.hpp:34-51,
    include/msg/detail/indexed_handler_common.hpp:23-29). *)
Definition index_lookup (t : temp_index) (v : Z) : bits :=
  match get_entry v (ti_entries t) with Some b => b | None => ti_default t end.

Section Indexed.
Context {E : Type}.
Variable ftype : nat -> cty.
Variable fld : nat -> E -> Z.
Variable psem : nat -> E -> bool.
Notation cb := (callback leaf).

(** remove_terms (include/msg/field_matchers.hpp:70-98, 280-302). *)
Fixpoint remove_terms (fs : list nat) (m : fexpr) : fexpr :=
  match m with
  | Or a b => for_ ftype (remove_terms fs a) (remove_terms fs b)
  | And a b => fand ftype (remove_terms fs a) (remove_terms fs b)
  | Not a => remove_terms fs a
  | Leaf (Rel f (REq | RNe) _) => if existsb (Nat.eqb f) fs then Always else m
  | _ => m
  end.

(** indexed_builder_base::add (include/msg/detail/indexed_builder_common.hpp:134-141). *)
Definition indexed_add (cbs new : list cb) : list cb :=
  cbs ++ flat_map (separate_sum_terms leaf_eqb (leaf_implies ftype) leaf_neg) new.

(** indices::operator() (include/msg/indexed_handler.hpp:10-26): conjunction of the lookups;
    no index gives the empty bitset. *)
Definition candidates (fs : list nat) (cbs : list cb) (e : E) : bits :=
  match fs with
  | [] => empty_bits
  | _ => fun i => forallb (fun f => index_lookup (build_index f (map cb_matcher cbs)) (fld f e) i) fs
  end.
(** indexed_handler::is_match (include/msg/detail/indexed_handler_common.hpp:43-47). *)
Definition indexed_is_match (fs : list nat) (cbs : list cb) (e : E) : bool :=
  existsb (candidates fs cbs e) (seq 0 (length cbs)).
(** invoke_callback (include/msg/detail/indexed_builder_common.hpp:146-166). *)
Definition invoke_callback (fs : list nat) (c : cb) (e : E) : list event * bool :=
  cb_handle (leaf_sem fld psem) {| cb_id := cb_id c; cb_matcher := remove_terms fs (cb_matcher c) |} e.
(** transform_reduce over the candidate bits (include/msg/detail/indexed_handler_common.hpp:52-56). *)
Fixpoint invoke_from (fs : list nat) (cand : bits) (i : nat) (cbs : list cb) (e : E) (acc : bool) : list event * bool :=
  match cbs with
  | [] => ([], acc)
  | c :: r =>
    if cand i then
      let (ev, b) := invoke_callback fs c e in
      let (evs, res) := invoke_from fs cand (S i) r e (acc || b) in
      (ev ++ evs, res)
    else invoke_from fs cand (S i) r e acc
  end.
(** indexed_handler::handle (include/msg/detail/indexed_handler_common.hpp:49-64). *)
Definition indexed_handle (fs : list nat) (cbs : list cb) (e : E) : list event * bool :=
  let (evs, handled) := invoke_from fs (candidates fs cbs e) 0 cbs e false in
  if handled then (evs, true) else (evs ++ [LogUnclaimed], false).
End Indexed.

(** Model of a project with message services: components add callbacks under
    conditions, a nexus builds a handler for each service, and messages are
    handled while the callbacks change the world, send messages and initialise
    nexuses themselves.

    include/msg/service.hpp, include/msg/indexed_service.hpp, include/msg/handler_interface.hpp:9-43,
    include/msg/handler_builder.hpp:10-28, include/msg/handler.hpp:12-41, include/msg/callback.hpp:24-120,
    include/msg/detail/indexed_builder_common.hpp:130-205,
    include/msg/detail/indexed_handler_common.hpp:16-66, include/nexus/service.hpp, include/nexus/nexus.hpp,
    include/nexus/detail/runtime_conditional.hpp:18-48.

    Simplifications: as in HandlerModel and NexusModel, but predicates may look at
    the world, which changes while a message is handled; all services take one type
    of message, which does not change while it is handled; a callback keeps what it
    was constructed from, and its matcher is computed from that when the service is
    built; conditions with one number are one predicate type; extra arguments of
    handle are left out; a panic does not return. *)
From Coq Require Import String Bool Arith ZArith List.
From Verif Require Import MatchModel MatchSpec FieldMatchersModel FieldMatchersSpec HandlerModel FlowModel NexusModel.
Import ListNotations.
Local Notation leaf := FieldMatchersModel.leaf.
Local Notation callback := HandlerModel.callback.
Local Notation cb_id := HandlerModel.cb_id.

(** msg::callback<Name, Msg>(matcher, callable), under runtime conditions, the
    innermost first; [i_fields] are the matchers of the fields of Msg
    (include/msg/callback.hpp:74-95). *)
Record item := { i_name : nat; i_user : option fexpr; i_fields : list fexpr; i_conds : list cond; i_call : callable }.
(** The transform in include/nexus/detail/runtime_conditional.hpp:29-40 with make_runtime_conditional
    (include/msg/callback.hpp:104-119): the callback is value-initialised twice. *)
Definition item_when (c : cond) (i : item) : option item :=
  match value_init (i_call i) with
  | Some f => option_map (fun g => {| i_name := i_name i; i_user := i_user i; i_fields := i_fields i; i_conds := i_conds i ++ [c]; i_call := g |}) (value_init f)
  | None => None
  end.
(** How a service handles messages: msg::service or msg::indexed_service over
    these fields
    (include/msg/service.hpp:8-18, include/msg/indexed_service.hpp:9-21). *)
Inductive kind := Plain | Indexed (fs : list nat).
(** What it is built to: the callbacks with what they call
    (include/msg/handler_builder.hpp:15-21, include/msg/detail/indexed_builder_common.hpp:134-141). *)
Record handler := { h_kind : kind; h_callbacks : list (callback leaf * callable) }.

Section Build.
Context (ftype : nat -> cty) (cond_no : cond -> nat) (kind_of : svc -> kind).
(** callback_construct_t and make_runtime_conditional (include/msg/callback.hpp:74-119) *)
Definition callback_of (i : item) : callback leaf :=
  fold_left (fun c p => make_conditional leaf_eqb (leaf_implies ftype) leaf_neg (Pred (cond_no p)) c) (i_conds i)
    (make_callback leaf_eqb (leaf_implies ftype) leaf_neg (i_name i) (i_user i) (i_fields i)).
(** handler_builder::add and indexed_builder_base::add
    (include/msg/handler_builder.hpp:15-21, include/msg/detail/indexed_builder_common.hpp:134-141) *)
Definition entries_of (k : kind) (i : item) : list (callback leaf * callable) :=
  match k with
  | Plain => [(callback_of i, i_call i)]
  | Indexed _ => map (fun c => (c, i_call i)) (separate_sum_terms leaf_eqb (leaf_implies ftype) leaf_neg (callback_of i))
  end.
(** The handler of a service of a nexus; [None] if the nexus does not compile or
    does not export the service (include/nexus/nexus.hpp:25-45). *)
Definition handler_of (x : config item) (s : svc) : option handler :=
  match builders item_when x with
  | None => None
  | Some bs => option_map (fun l => {| h_kind := kind_of s; h_callbacks := flat_map (entries_of (kind_of s)) l |}) (builder_of bs s)
  end.
(** include/nexus/nexus.hpp:25-45 *)
Definition compiles (x : config item) : bool := match builders item_when x with Some _ => true | None => false end.

(** ** Running *)
Section Run.
Context {M W : Type} (fld : nat -> M -> Z) (psem : nat -> M * W -> bool) (act : nat -> W -> W).
(** What a callable does: actions on the world, looking at it, sending a message
    to a service or asking whether the service has a match, of the nexus
    initialised last (cib::service<S>) or of a certain one (nexus::service<S>),
    and initialising a nexus (include/nexus/service.hpp:67-83). *)
Inductive via := Current | Of (n : nat).
(** include/nexus/service.hpp:67-83 *)
Inductive prog :=
| End
| Do (a : nat) (k : prog)
| Look (k : W -> prog)
| Send (v : via) (s : svc) (m : M) (k : bool -> prog)
| Ask (v : via) (s : svc) (m : M) (k : bool -> prog)
| Start (n : nat) (k : prog).
(** include/nexus/service.hpp:67-83 *)
Inductive happening := Did (a : nat) | Matched (name : nat) | Unclaimed | Mismatch (name : nat) | Panicked | Null.
Context (body : nat -> nat -> M -> prog) (nexus : nat -> config item).
(** include/nexus/service.hpp:67-83 *)
Record sys := { ptrs : NexusModel.state; world : W; halted : bool }.
(** [None]: does not compile, or messages nest deeper than the fuel
    (include/nexus/service.hpp:67-83). *)
Definition result := option (list happening * sys).
(** include/nexus/service.hpp:67-83 *)
Definition eval_at (m : M) (w : W) (x : fexpr) : bool := eval (leaf_sem (fun f (e : M * W) => fld f (fst e)) psem) x (m, w).
(** A panic, or a call through a null pointer: nothing after it is said
    (include/msg/handler_interface.hpp:32-44). *)
Definition halts (x : sys) : sys := {| ptrs := ptrs x; world := world x; halted := true |}.
(** include/nexus/service.hpp:67-83 *)
Definition then_ (t : list happening) (r : result) : result := option_map (fun p => (t ++ fst p, snd p)) r.

(** cib::service<S> (include/nexus/service.hpp:67-83) *)
Definition serving (v : via) (s : svc) (x : sys) : option nat := match v with Current => by_type (ptrs x) s | Of n => Some n end.
(** uninitialized_handler_t::is_match (include/msg/handler_interface.hpp:35), handler::is_match
    (include/msg/handler.hpp:20-23), indexed_handler::is_match (include/msg/detail/indexed_handler_common.hpp:45-47). *)
Definition is_match_at (v : via) (s : svc) (m : M) (x : sys) : option bool :=
  match serving v s x with
  | None => Some false
  | Some n =>
    option_map (fun h =>
      match h_kind h with
      | Plain => existsb (fun e => eval_at m (world x) (cb_matcher (fst e))) (h_callbacks h)
      | Indexed fs => indexed_is_match fld fs (map fst (h_callbacks h)) m
      end) (handler_of (nexus n) s)
  end.
(** The body of a callable; [send n s m x] handles a message by a service of a nexus
    (include/nexus/service.hpp:67-83). *)
Fixpoint run_prog (send : nat -> svc -> M -> sys -> option (list happening * sys * bool)) (p : prog) (x : sys) : result :=
  match p with
  | End => Some ([], x)
  | Do a k => then_ [Did a] (run_prog send k {| ptrs := ptrs x; world := act a (world x); halted := halted x |})
  | Look k => run_prog send (k (world x)) x
  | Send v s m k =>
    match serving v s x with
    | None => Some ([Panicked], halts x)
    | Some n =>
      match send n s m x with
      | None => None
      | Some (t, y, b) => if halted y then Some (t, y) else then_ t (run_prog send (k b) y)
      end
    end
  | Ask v s m k => match is_match_at v s m x with Some b => run_prog send (k b) x | None => None end
  | Start n k =>
    if compiles (nexus n) then run_prog send k {| ptrs := init item_when nexus n (ptrs x); world := world x; halted := halted x |} else None
  end.
(** call_with_message<Msg, Nexus>(callable, data) (include/msg/message.hpp:684-735) *)
Definition run_call (send : nat -> svc -> M -> sys -> option (list happening * sys * bool)) (n : nat) (m : M) (c : callable) (x : sys) : result :=
  match called c with Some f => run_prog send (body f n m) x | None => Some ([Null], halts x) end.
(** callback::handle of each entry that [test]s true in turn: (0u | ... | handle)
    (include/msg/handler.hpp:27-31) and transform_reduce (include/msg/detail/indexed_handler_common.hpp:52-56). *)
Fixpoint run_entries (send : nat -> svc -> M -> sys -> option (list happening * sys * bool)) (n : nat) (m : M)
  (l : list ((W -> bool) * (nat * callable))) (found : bool) (x : sys) : option (list happening * sys * bool) :=
  match l with
  | [] => Some ([], x, found)
  | (test, (name, c)) :: r =>
    if test (world x) then
      match run_call send n m c x with
      | None => None
      | Some (t, y) =>
        if halted y then Some (Matched name :: t, y, true)
        else option_map (fun p => (Matched name :: t ++ fst (fst p), snd (fst p), snd p)) (run_entries send n m r true y)
      end
    else run_entries send n m r found x
  end.
(** The entries with the test each makes: the whole matcher, or, for the candidates
    of an index computed beforehand, what the index leaves
    (include/msg/detail/indexed_handler_common.hpp:52-56). *)
Fixpoint indexed_tests (fs : list nat) (cand : bits) (m : M) (i : nat) (l : list (callback leaf * callable)) : list ((W -> bool) * (nat * callable)) :=
  match l with
  | [] => []
  | (c, f) :: r =>
    if cand i then ((fun w => eval_at m w (remove_terms ftype fs (cb_matcher c))), (cb_id c, f)) :: indexed_tests fs cand m (S i) r
    else indexed_tests fs cand m (S i) r
  end.
(** include/msg/detail/indexed_handler_common.hpp:52-56 *)
Definition tests (h : handler) (m : M) : list ((W -> bool) * (nat * callable)) :=
  match h_kind h with
  | Plain => map (fun e => ((fun w => eval_at m w (cb_matcher (fst e))), (cb_id (fst e), snd e))) (h_callbacks h)
  | Indexed fs => indexed_tests fs (candidates fld fs (map fst (h_callbacks h)) m) m 0 (h_callbacks h)
  end.
(** What is logged when no callback claimed the message
    (include/msg/handler.hpp:32-38). *)
Definition complaint (h : handler) : list happening :=
  match h_kind h with
  | Plain => Unclaimed :: map (fun e => Mismatch (cb_id (fst e))) (h_callbacks h)
  | Indexed _ => [Unclaimed]
  end.
(** include/msg/handler.hpp:25-40 *)
Definition run_handler (send : nat -> svc -> M -> sys -> option (list happening * sys * bool)) (n : nat) (h : handler) (m : M) (x : sys) : option (list happening * sys * bool) :=
  match run_entries send n m (tests h m) false x with
  | None => None
  | Some (t, y, found) => if found then Some (t, y, true) else Some (t ++ complaint h, y, false)
  end.
(** include/nexus/nexus.hpp:47-63, include/nexus/service.hpp:67-83 *)
Fixpoint run_send (fuel : nat) (n : nat) (s : svc) (m : M) (x : sys) : option (list happening * sys * bool) :=
  match fuel with
  | O => None
  | S k => match handler_of (nexus n) s with Some h => run_handler (run_send k) n h m x | None => None end
  end.
(** include/nexus/nexus.hpp:47-63, include/nexus/service.hpp:67-83 *)
Definition initial (w : W) : sys := {| ptrs := uninitialized; world := w; halted := false |}.
(** include/nexus/nexus.hpp:47-63, include/nexus/service.hpp:67-83 *)
Definition run_main (fuel : nat) (p : prog) (w : W) : result := run_prog (run_send fuel) p (initial w).
End Run.
End Build.

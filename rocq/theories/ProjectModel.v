(** Model of a running project: the configuration of NexusModel with flows
    (FlowModel) and callback services, built, initialised and run. Step functions
    and callbacks may run services themselves.

    include/flow/service.hpp, include/flow/run.hpp, include/flow/func_list.hpp:21-53,
    include/flow/graph_builder.hpp:215-290, include/nexus/nexus.hpp, include/nexus/callback.hpp:10-78,
    include/cib/top.hpp, include/interrupt/config.hpp:95-125, include/interrupt/impl.hpp:41-62.

    Simplifications: as in FlowModel and NexusModel; a service with a name is a
    flow::service, one without is a callback::service<> (no arguments); every
    exported service of a nexus is built (nexus::init needs them all); a panic
    does not return; predicates only look at the world, which only actions
    change. *)
From Coq Require Import String Bool Arith List.
From Verif Require Import FlowModel NexusModel.
Import ListNotations.

(** What an extension holds
    (include/flow/builder.hpp:23-30, include/nexus/callback.hpp:10-31). *)
Inductive element := Frag (g : subgraph) | Function (f : nat).
(** Fragments take runtime conditions, functions do not (include/nexus/detail/runtime_conditional.hpp:13-16). *)
Definition element_when (c : cond) (e : element) : option element :=
  match e with Frag g => option_map Frag (conditional c g) | Function _ => None end.
(** A flow takes fragments only (include/flow/builder.hpp:23-30), a callback service functions. *)
Definition fragments (l : list element) : option (list subgraph) :=
  all_some (map (fun e => match e with Frag g => Some g | Function _ => None end) l).
(** include/flow/builder.hpp:23-30 *)
Definition functions (l : list element) : option (list nat) :=
  all_some (map (fun e => match e with Function f => Some f | Frag _ => None end) l).
(** What a service is built to: an inlined_func_list or callback::builder::run
    (include/flow/graph_builder.hpp:246-290, include/nexus/callback.hpp:28-31). *)
Inductive impl := FlowImpl (name : string) (steps : list node) | CallbackImpl (fs : list nat).

Section Build.
Variable pops : nat -> list node -> option (node * list node).
Variable enum : nat -> list node -> list node.
(** include/flow/graph_builder.hpp:246-290, include/nexus/callback.hpp:28-31 *)
Definition build_service (s : svc) (l : list element) : option impl :=
  match s_name s with
  | Some n =>
    match fragments l with
    | Some b => match build pops enum b with Built o => Some (FlowImpl n o) | _ => None end
    | None => None
    end
  | None => option_map CallbackImpl (functions l)
  end.
(** The services of a nexus; [None] if it does not compile
    (include/nexus/detail/nexus_details.hpp:78-104). *)
Definition services (x : config element) : option (list (svc * impl)) :=
  match builders element_when x with
  | None => None
  | Some bs => all_some (map (fun p => option_map (pair (fst p)) (build_service (fst p) (snd p))) bs)
  end.
(** include/nexus/detail/nexus_details.hpp:78-104 *)
Definition impl_of (x : config element) (s : svc) : option impl :=
  match services x with None => None | Some l => option_map snd (find (fun p => svc_eqb s (fst p)) l) end.
(** service_v<Flow>.active (include/flow/func_list.hpp:39); a callback service has none. *)
Definition is_active (x : config element) (s : svc) : bool :=
  match impl_of x s with Some (FlowImpl _ o) => negb (length o =? 0) | _ => false end.

(** ** Running *)
(** What functions do: an action on the world, running a service of the nexus
    initialised last, by type (flow::run, cib::service) or by name
    (cib::invoke_service<Name>), running a service of their own nexus
    (operator()<Nexus>, include/flow/func_list.hpp:29-30, include/nexus/callback.hpp:57-66), and initialising a
    nexus. *)
Inductive op := Do (a : nat) | Run (s : svc) | RunName (m : string) | RunOwn (s : svc) | Start (n : nat).
(** include/nexus/callback.hpp:57-66 *)
Inductive happening := Did (a : nat) | Said (text : string) | Panicked.
Section Run.
Context {W : Type} (pred : nat -> W -> bool) (act : nat -> W -> W) (body : nat -> list op) (nexus : nat -> config element).
(** include/nexus/callback.hpp:57-66 *)
Record sys := { ptrs : NexusModel.state; world : W; panicked : bool }.
(** [None]: does not compile, or services nest deeper than the fuel
    (include/nexus/callback.hpp:57-66). *)
Definition result := option (list happening * sys).
(** include/nexus/callback.hpp:57-66 *)
Definition and_then (a b : sys -> result) (x : sys) : result :=
  match a x with
  | None => None
  | Some (t, y) => if panicked y then Some (t, y) else match b y with None => None | Some (t', z) => Some (t ++ t', z) end
  end.
(** include/nexus/callback.hpp:57-66 *)
Definition all_of (l : list (sys -> result)) : sys -> result := fold_right and_then (fun x => Some ([], x)) l.
(** include/nexus/callback.hpp:57-66 *)
Definition says (logged : bool) (text : string) (x : sys) : result := Some (if logged then [Said text] else [], x).
(** include/nexus/callback.hpp:57-66 *)
Definition panics (x : sys) : result := Some ([Panicked], {| ptrs := ptrs x; world := world x; panicked := true |}).
(** One operation of a function of nexus [own]; [run] runs a service of a nexus
    (include/nexus/callback.hpp:57-66). *)
Definition run_op (run : nat -> svc -> sys -> result) (own : nat) (o : op) (x : sys) : result :=
  match o with
  | Do a => Some ([Did a], {| ptrs := ptrs x; world := act a (world x); panicked := panicked x |})
  | Run s => match by_type (ptrs x) s with Some n => run n s x | None => panics x end
  | RunName m =>
    match by_name_ret (ptrs x) m 0 with
    | Some n => match by_name (nexus n) m with Some s => run n s x | None => None end
    | None => panics x
    end
  | RunOwn s => run own s x
  | Start n => match services (nexus n) with Some _ => Some ([], {| ptrs := init element_when nexus n (ptrs x); world := world x; panicked := panicked x |}) | None => None end
  end.
(** include/nexus/callback.hpp:57-66 *)
Definition run_ops (run : nat -> svc -> sys -> result) (own : nat) (l : list op) : sys -> result := all_of (map (run_op run own) l).
(** run_func (include/flow/func_list.hpp:21-35) *)
Definition run_step (run : nat -> svc -> sys -> result) (own : nat) (logged : bool) (n : node) (x : sys) : result :=
  if holds (fun p => pred p (world x)) (n_cond n) then
    and_then (says logged ("flow." ++ type_text (n_type n) ++ "(" ++ n_name n ++ ")")) (run_ops run own (body (n_func n))) x
  else Some ([], x).
(** include/flow/func_list.hpp:21-35 *)
Definition run_impl (run : nat -> svc -> sys -> result) (own : nat) (i : impl) : sys -> result :=
  match i with
  | FlowImpl name o =>
    let logged := negb (String.eqb name "") in
    all_of (says logged ("flow.start(" ++ name ++ ")") :: map (run_step run own logged) o ++ [says logged ("flow.end(" ++ name ++ ")")])
  | CallbackImpl fs => all_of (map (fun f => run_ops run own (body f)) fs)
  end.
(** include/nexus/service.hpp:67-83 *)
Fixpoint run_service (fuel : nat) (n : nat) (s : svc) (x : sys) : result :=
  match fuel with
  | O => None
  | S k => match impl_of (nexus n) s with Some i => run_impl (run_service k) n i x | None => None end
  end.
(** include/nexus/service.hpp:67-83 *)
Definition initial (w : W) : sys := {| ptrs := uninitialized; world := w; panicked := false |}.
(** The beginning of a program; the program itself belongs to no nexus
    (include/nexus/service.hpp:67-83). *)
Definition run_program (fuel : nat) (l : list op) (w : W) : result := run_ops (run_service fuel) 0 l (initial w).
End Run.
End Build.
(** main of cib::top (include/cib/top.hpp:52-65), the first statements. *)
Definition op_of_event (e : NexusModel.event) : op := match e with Init n => Start n | Call s => Run s | CallName m _ => RunName m end.
(** include/cib/top.hpp:52-65 *)
Definition main_ops (early rt_init start main_loop : svc) (j : nat) : list op := map op_of_event (top_events early rt_init start main_loop j PInit).

(** ** Interrupts *)
(** service_v<Flow> of a nexus called by an isr (include/interrupt/config.hpp:102-119), with what
    has happened so far; nothing after a panic. *)
Definition serve_project {W} pops enum (pred : nat -> W -> bool) act body nexus (fuel n : nat) (s : svc) (a : @sys W * list happening) : @sys W * list happening :=
  if panicked (fst a) then a else
  match run_service pops enum pred act body nexus fuel n s (fst a) with Some (t, y) => (y, snd a ++ t) | None => a end.

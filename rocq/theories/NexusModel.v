(** Model of the nexus (include/nexus/*.hpp, include/nexus/detail/*.hpp), of
    callback services (include/nexus/callback.hpp) and of cib::top
    (include/cib/top.hpp).

    A configuration that does not compile is [None]. Services are types; equality
    of types is equality of the records below. What the extensions hold is a type
    [A] with its own make_runtime_conditional.

    Simplifications: a constexpr condition is the value of its predicates;
    stdx::gather_by is assumed to keep the order within a group, the order of the
    groups is not used; builders are the lists of the items added to them. *)
From Coq Require Import String Bool Arith List.
From Verif Require Import FlowModel.
Import ListNotations.

(** A service type; [s_ret] is the type its nullary call returns
    (include/nexus/service.hpp:55-65). *)
Record svc := { s_id : nat; s_name : option string; s_ret : nat }.
(** Equality of the above: include/nexus/service.hpp:55-65 *)
Definition svc_eq_dec (a b : svc) : {a = b} + {a <> b}.
Proof. decide equality; [apply Nat.eq_dec|decide equality; apply string_dec|apply Nat.eq_dec]. Defined.
(** Equality of the above: include/nexus/service.hpp:55-65 *)
Definition svc_eqb (a b : svc) : bool := if svc_eq_dec a b then true else false.
(** include/nexus/service.hpp:55-65 *)
Definition has_name (n : string) (s : svc) : bool := match s_name s with Some m => String.eqb m n | None => false end.
(** What an extension extends (type_extend, name_extend; include/nexus/detail/extend.hpp:10-33). *)
Inductive target := ByType (s : svc) | ByName (n : string).

Section Nexus.
Context {A : Type} (item_when : cond -> A -> option A).

(** cib::config and cib::components (include/nexus/detail/config_details.hpp:17-33, include/nexus/detail/components.hpp:10-21)
    both concatenate; include/nexus/detail/exports.hpp:15-26; include/nexus/detail/constexpr_conditional.hpp:13-34;
    include/nexus/detail/runtime_conditional.hpp:18-48. *)
Inductive config :=
| Exports (l : list svc)
| Extend (t : target) (args : list A)
| Many (l : list config)
| IfConst (b : bool) (l : list config)
| When (c : cond) (l : list config).

(** One element of an extends_tuple (include/nexus/detail/extend.hpp:10-33) *)
Definition extension := (target * list A)%type.
(** The body of the transform in include/nexus/detail/runtime_conditional.hpp:26-41: there is no
    service_type in an extension by name. *)
Definition extension_when (c : cond) (e : extension) : option extension :=
  match fst e with
  | ByName _ => None
  | ByType s => option_map (fun a => (ByType s, a)) (all_some (map (item_when c) (snd e)))
  end.
(** extends_tuple (include/nexus/detail/config_details.hpp:17-33) *)
Fixpoint extends (x : config) : option (list extension) :=
  match x with
  | Exports l => Some (map (fun s => (ByType s, [])) l)
  | Extend t a => Some [(t, a)]
  | Many l => option_map (@concat extension) (all_some (map extends l))
  | IfConst b l => if b then option_map (@concat extension) (all_some (map extends l)) else Some []
  | When c l =>
    match all_some (map extends l) with
    | None => None
    | Some es => all_some (map (extension_when c) (concat es))
    end
  end.
(** get_exports (include/nexus/detail/config_details.hpp:17-33) *)
Fixpoint exports (x : config) : list svc :=
  match x with
  | Exports l => l
  | Extend _ _ => []
  | Many l => concat (map exports l)
  | IfConst b l => if b then concat (map exports l) else []
  | When _ l => concat (map exports l)
  end.

(** locate_service (include/nexus/detail/nexus_details.hpp:23-76) *)
Definition locate (ex : list svc) (t : target) : option svc :=
  match t with
  | ByType s => find (svc_eqb s) ex
  | ByName n => find (has_name n) ex
  end.
(** The extensions with the service each belongs to
    (include/nexus/detail/nexus_details.hpp:23-76). *)
Definition located (ex : list svc) (es : list extension) : option (list (svc * list A)) :=
  all_some (map (fun e => option_map (fun s => (s, snd e)) (locate ex (fst e))) es).
(** initialized_builders (include/nexus/detail/nexus_details.hpp:78-98): gather_by, then fold_right over the extensions
    of a service, which starts with the last. *)
Definition group (s : svc) (l : list (svc * list A)) : list (list A) := map snd (filter (fun p => svc_eqb s (fst p)) l).
(** include/nexus/detail/nexus_details.hpp:78-98 *)
Definition build_items (exts : list (list A)) : list A := fold_right (fun args b => b ++ args) [] exts.
(** include/nexus/detail/nexus_details.hpp:78-98 *)
Definition builders (x : config) : option (list (svc * list A)) :=
  match extends x with
  | None => None
  | Some es =>
    option_map (fun l => map (fun s => (s, build_items (group s l))) (nodup svc_eq_dec (map fst l))) (located (exports x) es)
  end.
(** initialized<Config, T>::value (include/nexus/detail/nexus_details.hpp:100-104) *)
Definition builder_of (bs : list (svc * list A)) (s : svc) : option (list A) :=
  option_map snd (find (fun p => svc_eqb s (fst p)) bs).
(** nexus::service<Name>() (include/nexus/nexus.hpp:34-45) *)
Definition by_name (x : config) (n : string) : option svc := find (has_name n) (exports x).
End Nexus.
Arguments config : clear implicits.

(** ** Callback services (include/nexus/callback.hpp) *)
(** A callback: what it does to the arguments it is handed as lvalues (only a
    callback with reference parameters changes them)
    (include/nexus/callback.hpp:10-31). *)
Record callback (V : Type) := { cb_id : nat; cb_effect : V -> V }.
Arguments cb_id {V}. Arguments cb_effect {V}.
(** run (include/nexus/callback.hpp:34-51), for copyable arguments: the calls made, with the arguments each
    saw. *)
Fixpoint run_callbacks {V} (fs : list (callback V)) (args : V) : list (nat * V) :=
  match fs with [] => [] | f :: r => (cb_id f, args) :: run_callbacks r (cb_effect f args) end.
(** The move-only case (include/nexus/callback.hpp:40-49): a static_assert allows one callback at most. *)
Definition run_move_only {V} (fs : list (callback V)) (args : V) : option (list (nat * V)) :=
  match fs with [] => Some [] | [f] => Some [(cb_id f, args)] | _ => None end.
(** There is no make_runtime_conditional for plain functions (include/nexus/detail/runtime_conditional.hpp:13-16). *)
Definition no_conditional {B} (_ : cond) (_ : B) : option B := None.

(** ** Initialisation and calls (include/nexus/nexus.hpp:47-63, include/nexus/service.hpp:67-83) *)
Section Calls.
Context {A : Type} (item_when : cond -> A -> option A) (nexus : nat -> config A).
(** cib::service<T> and cib::invoke_service<Name, R>: the nexus that was
    initialised last, if any (include/nexus/service.hpp:67-83). *)
Record state := { by_type : svc -> option nat; by_name_ret : string -> nat -> option nat }.
(** include/nexus/service.hpp:67-83 *)
Definition uninitialized : state := {| by_type := fun _ => None; by_name_ret := fun _ _ => None |}.
(** include/nexus/service.hpp:67-83 *)
Definition init_service (n : nat) (st : state) (s : svc) : state :=
  {| by_type := fun t => if svc_eqb t s then Some n else by_type st t;
     by_name_ret := fun m r =>
       match s_name s with
       | Some m' => if (String.eqb m m' && (r =? s_ret s))%bool then Some n else by_name_ret st m r
       | None => by_name_ret st m r
       end |}.
(** nexus::init: every entry of initialized_builders; a nexus that does not compile
    is never initialised (include/nexus/service.hpp:67-83). *)
Definition init (n : nat) (st : state) : state :=
  match builders item_when (nexus n) with Some bs => fold_left (init_service n) (map fst bs) st | None => st end.
(** include/nexus/service.hpp:67-83 *)
Inductive event := Init (n : nat) | Call (s : svc) | CallName (m : string) (r : nat).
(** include/nexus/service.hpp:67-83 *)
Inductive effect := Panic | Ran (n : nat) (s : svc).
(** include/nexus/service.hpp:67-83 *)
Definition call_effect (o : option nat) (s : svc) : effect := match o with None => Panic | Some n => Ran n s end.
(** include/nexus/service.hpp:67-83 *)
Definition step (st : state) (e : event) : state * list effect :=
  match e with
  | Init n => (init n st, [])
  | Call s => (st, [call_effect (by_type st s) s])
  | CallName m r =>
    (st, match by_name_ret st m r with
         | None => [Panic]
         | Some n => match by_name (nexus n) m with Some s => [Ran n s] | None => [] end
         end)
  end.
(** include/nexus/service.hpp:67-83 *)
Fixpoint run_events (st : state) (es : list event) : state * list effect :=
  match es with
  | [] => (st, [])
  | e :: r => let (st1, o) := step st e in let (st2, o') := run_events st1 r in (st2, o ++ o')
  end.
End Calls.

(** ** cib::top (include/cib/top.hpp) *)
Section Top.
Context {A : Type} (early rt_init start main_loop : svc) (project : config A).
(** component::config (include/cib/top.hpp:40-44) *)
Definition top_config : config A := Many [Exports [early; rt_init; start; main_loop]; Many [project]].
(** include/cib/top.hpp:40-44 *)
Inductive pc := PInit | PEarly | PRuntimeInit | PStart | PLoop.
(** main (include/cib/top.hpp:52-65), one statement at a time; log messages are left out. *)
Definition top_event (p : pc) : event :=
  match p with PInit => Init 0 | PEarly => Call early | PRuntimeInit => Call rt_init | PStart => Call start | PLoop => Call main_loop end.
(** include/cib/top.hpp:52-65 *)
Definition top_next (p : pc) : pc := match p with PInit => PEarly | PEarly => PRuntimeInit | PRuntimeInit => PStart | PStart => PLoop | PLoop => PLoop end.
(** include/cib/top.hpp:52-65 *)
Fixpoint top_events (steps : nat) (p : pc) : list event :=
  match steps with O => [] | S k => top_event p :: top_events k (top_next p) end.
End Top.

(** ** Message callbacks under a runtime condition (include/msg/callback.hpp:104-119) *)
(** The callable of a callback: a function object without state, one that cannot
    be default-constructed, or a function pointer (include/msg/callback.hpp:25-72). *)
Inductive callable := Stateless (f : nat) | Stateful (f : nat) | Pointer (f : option nat).
(** Arg{} (include/msg/callback.hpp:25-72) *)
Definition value_init (c : callable) : option callable :=
  match c with Stateless f => Some (Stateless f) | Stateful _ => None | Pointer _ => Some (Pointer None) end.
(** A callback with the conditions in its matcher; include/nexus/detail/runtime_conditional.hpp:29-40
    value-initialises it before and after adding a condition. *)
Record mcallback := { mc_conds : list cond; mc_call : callable }.
(** include/nexus/detail/runtime_conditional.hpp:29-40 *)
Definition mcallback_when (c : cond) (m : mcallback) : option mcallback :=
  match value_init (mc_call m) with
  | Some f => option_map (fun g => {| mc_conds := mc_conds m ++ [c]; mc_call := g |}) (value_init f)
  | None => None
  end.
(** What a match calls; a null pointer is undefined behaviour
    (include/msg/callback.hpp:25-72). *)
Definition called (c : callable) : option nat := match c with Stateless f | Stateful f => Some f | Pointer f => f end.

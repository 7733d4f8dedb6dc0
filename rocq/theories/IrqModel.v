(** Model of the interrupt library: configuration (include/interrupt/config.hpp),
    dynamic controller (include/interrupt/dynamic_controller.hpp), enable policy and status
    policies (include/interrupt/policies.hpp), service routines (include/interrupt/impl.hpp) and manager
    (include/interrupt/manager.hpp).

    Simplifications: resources, flows, fields, registers and nexuses are
    numbered, and an interrupt name, a resource and a flow are never the same
    type; the custom types of a user enable policy are not modelled. Register
    values are natural numbers without a width (masks fit the register). Critical
    sections make each operation atomic and do nothing else. *)
From Coq Require Import String Bool Arith List NArith.
Import ListNotations.
Local Open Scope nat_scope.

(** include/interrupt/policies.hpp:22-55 *)
Inductive clear_policy := ClearFirst | ClearLast | DontClear.
(** element_irq and container_irq (include/interrupt/config.hpp:134-187) with mcu_control_config
    (include/interrupt/config.hpp:26-46) or field_control_config (include/interrupt/config.hpp:48-64). No field is [None]. A container has
    children and its flows_t is empty (include/interrupt/config.hpp:122-125); an element has flows and no
    children. *)
Record info := {
  i_name : string;
  i_enable : option nat;
  i_status : option nat;
  i_policy : clear_policy;
  i_resources : list nat;
  i_flows : list nat;
}.
(** include/interrupt/config.hpp:134-187 *)
Inductive irq := Irq (i : info) (children : list irq).
(** include/interrupt/config.hpp:134-187 *)
Definition info_of (x : irq) : info := match x with Irq i _ => i end.
(** include/interrupt/config.hpp:134-187 *)
Definition children_of (x : irq) : list irq := match x with Irq _ cs => cs end.
(** include/interrupt/config.hpp:134-187 *)
Definition name_of (x : irq) : string := i_name (info_of x).
(** The kind of every interrupt in the tree (include/interrupt/config.hpp:134-187). *)
Fixpoint well_formed (x : irq) : bool :=
  match x with Irq i cs => (match i_flows i, cs with [], _ | _, [] => true | _, _ => false end) && forallb well_formed cs end.

(** parent_config::descendants (include/interrupt/config.hpp:86-89): children first, then their descendants. *)
Fixpoint descendants_of (x : irq) : list irq :=
  match x with Irq _ cs => cs ++ flat_map descendants_of cs end.
(** include/interrupt/config.hpp:84-93 *)
Definition root := list irq.
(** include/interrupt/config.hpp:84-93 *)
Definition descendants (r : root) : list irq := r ++ flat_map descendants_of r.
(** resources_t, all_resources_t (include/interrupt/config.hpp:74-81) *)
Definition resources_of (x : irq) : list nat := i_resources (info_of x).
(** include/interrupt/config.hpp:74-81 *)
Definition all_resources_of (x : irq) : list nat := resources_of x ++ flat_map resources_of (children_of x).
(** flows_t, all_flows_t (include/interrupt/config.hpp:108-109, 122-125, 171-173) *)
Definition flows_of (x : irq) : list nat := i_flows (info_of x).
(** include/interrupt/config.hpp:108-109, 122-125, 171-173 *)
Fixpoint all_flows_of (x : irq) : list nat :=
  match x with Irq i cs => i_flows i ++ flat_map all_flows_of cs end.

(** ** Dynamic controller *)
(** What can be enabled and disabled
    (include/interrupt/dynamic_controller.hpp:257-264). *)
Inductive item := Resource (n : nat) | Flow (n : nat) | Name (s : string).
(** Equality of the above: include/interrupt/dynamic_controller.hpp:257-264 *)
Definition item_eq_dec (a b : item) : {a = b} + {a <> b}.
Proof. decide equality; (apply Nat.eq_dec || apply string_dec). Defined.
(** resources_t, flows_t, irq_names_t (include/interrupt/dynamic_controller.hpp:257-264), as membership. *)
Definition memb (x : nat) (l : list nat) : bool := existsb (Nat.eqb x) l.
(** include/interrupt/dynamic_controller.hpp:257-264 *)
Definition known (r : root) (t : item) : bool :=
  match t with
  | Resource n => memb n (flat_map resources_of (descendants r))
  | Flow n => memb n (flat_map flows_of (descendants r))
  | Name s => existsb (fun x => String.eqb (name_of x) s) (descendants r)
  end.
(** Which fields are where (the Hal)
    (include/interrupt/dynamic_controller.hpp:295-300, 328-331). *)
Record hal := { reg_of : nat -> nat; mask_of : nat -> N }.
(** The enables (include/interrupt/dynamic_controller.hpp:258-264), the shadow values (include/interrupt/dynamic_controller.hpp:299-300), the hardware registers
    and the writes so far, latest first. *)
Record state := {
  enables : item -> bool;
  shadow : nat -> N;
  registers : nat -> N;
  writes : list (nat * N);
}.
(** include/interrupt/dynamic_controller.hpp:299-300 *)
Definition set_item (f : item -> bool) (t : item) (v : bool) : item -> bool :=
  fun u => if item_eq_dec u t then v else f u.
(** include/interrupt/dynamic_controller.hpp:299-300 *)
Definition set_reg (f : nat -> N) (r : nat) (v : N) : nat -> N := fun s => if Nat.eqb s r then v else f s.
(** include/interrupt/dynamic_controller.hpp:299-300 *)
Definition with_enables (s : state) (e : item -> bool) : state :=
  {| enables := e; shadow := shadow s; registers := registers s; writes := writes s |}.
(** enable_one, disable_one (include/interrupt/dynamic_controller.hpp:266-291): [None] when error_unknowns (include/interrupt/dynamic_controller.hpp:200-209)
    rejects an unknown item. *)
Definition set_one (r : root) (ignore_unknowns v : bool) (s : option state) (t : item) : option state :=
  match s with
  | None => None
  | Some s =>
    if known r t then Some (with_enables s (set_item (enables s) t v))
    else if ignore_unknowns then Some s else None
  end.
(** is_on (include/interrupt/policies.hpp:82-118) *)
Fixpoint is_on (e : item -> bool) (x : irq) : bool :=
  match x with
  | Irq i cs =>
    e (Name (i_name i)) && forallb (fun n => e (Resource n)) (i_resources i) &&
    (existsb (fun n => e (Flow n)) (i_flows i) || existsb (is_on e) cs)
  end.

(** compute_affected_irqs (include/interrupt/dynamic_controller.hpp:303-325) with the maps of propagate_t and
    no_propagate_t (include/interrupt/dynamic_controller.hpp:172-194). *)
Definition influences (propagate : bool) (t : item) (x : irq) : bool :=
  match t with
  | Resource n => memb n (if propagate then all_resources_of x else resources_of x)
  | Flow n => memb n (if propagate then all_flows_of x else flows_of x)
  | Name _ => false
  end.
(** include/interrupt/dynamic_controller.hpp:303-325 *)
Definition with_name (r : root) (s : string) : list irq := filter (fun x => String.eqb (name_of x) s) (descendants r).
(** include/interrupt/dynamic_controller.hpp:303-325 *)
Definition is_resource (t : item) : bool := match t with Resource _ => true | _ => false end.
(** include/interrupt/dynamic_controller.hpp:303-325 *)
Definition is_flow (t : item) : bool := match t with Flow _ => true | _ => false end.
(** include/interrupt/dynamic_controller.hpp:303-325 *)
Definition influenced_names (r : root) (propagate : bool) (ts : list item) : list string :=
  flat_map (fun t => if known r t then map name_of (filter (influences propagate t) (descendants r)) else []) ts.
(** include/interrupt/dynamic_controller.hpp:303-325 *)
Definition affected (r : root) (propagate : bool) (ts : list item) : list irq :=
  flat_map (with_name r) (nodup string_dec (influenced_names r propagate (filter is_resource ts) ++ influenced_names r propagate (filter is_flow ts))).
(** The interrupts named in enable<names...>() (include/interrupt/dynamic_controller.hpp:503-530). *)
Definition affected_by_name (r : root) (ns : list string) : list irq := flat_map (with_name r) ns.

Section Update.
Variable h : hal.
(** from_irq (include/interrupt/dynamic_controller.hpp:129-132): no field, no register. *)
Definition register_of (x : irq) : option nat := option_map (reg_of h) (i_enable (info_of x)).
(** mask_for (include/interrupt/dynamic_controller.hpp:328-331) *)
Definition mask_for (x : irq) : N := match i_enable (info_of x) with Some f => mask_of h f | None => 0%N end.
(** The registers of some interrupts, each once; stdx::gather_by is assumed to
    group by register, and the order of the groups is left open: they are
    different registers (include/interrupt/dynamic_controller.hpp:328-331). *)
Definition registers_of (xs : list irq) : list nat :=
  nodup Nat.eq_dec (flat_map (fun x => match register_of x with Some r => [r] | None => [] end) xs).
(** include/interrupt/dynamic_controller.hpp:328-331 *)
Definition in_register (r : nat) (x : irq) : bool := match register_of x with Some r' => Nat.eqb r' r | None => false end.
(** include/interrupt/dynamic_controller.hpp:328-331 *)
Definition mask_all (xs : list irq) : N := fold_right (fun x m => N.lor (mask_for x) m) 0%N xs.
(** update (include/interrupt/dynamic_controller.hpp:356-383) for one register, with force_write (include/interrupt/dynamic_controller.hpp:342-346) or
    write_if_changed (include/interrupt/dynamic_controller.hpp:348-353). *)
Definition update_register (force : bool) (xs : list irq) (s : state) (r : nat) : state :=
  let group := filter (in_register r) xs in
  let mask := mask_all group in
  let value := mask_all (filter (is_on (enables s)) group) in
  let new_value := N.lor (N.ldiff (shadow s r) mask) value in
  let s' := set_reg (shadow s) r new_value in
  if force || negb (N.eqb new_value (shadow s r)) then
    {| enables := enables s; shadow := s'; registers := set_reg (registers s) r new_value; writes := (r, new_value) :: writes s |}
  else {| enables := enables s; shadow := s'; registers := registers s; writes := writes s |}.
(** include/interrupt/dynamic_controller.hpp:356-383 *)
Definition update (force : bool) (xs : list irq) (s : state) : state :=
  fold_left (update_register force xs) (registers_of xs) s.
(** include/interrupt/dynamic_controller.hpp:385-391 *)
Definition has_enable_field (x : irq) : bool := match i_enable (info_of x) with Some _ => true | None => false end.

Variable r : root.
(** refresh_enables (include/interrupt/dynamic_controller.hpp:385-391) for the top level or for all. *)
Definition refresh (all : bool) (s : state) : state :=
  update true (filter has_enable_field (if all then descendants r else r)) s.
(** reset (include/interrupt/dynamic_controller.hpp:439-448) *)
Definition reset (s : state) : state :=
  update true (filter has_enable_field (descendants r)) (with_enables s (fun _ => false)).
(** init (include/interrupt/dynamic_controller.hpp:450-471) with reset_internal_state (include/interrupt/dynamic_controller.hpp:395-414) and set_internal_state
    (include/interrupt/dynamic_controller.hpp:417-433). The policy gives the active resources and flows; every name is on. *)
Definition init (active : item -> bool) (already : irq -> bool) (s : state) : state :=
  let potential := filter has_enable_field (descendants r) in
  let zeroed := fun g => if memb g (registers_of potential) then 0%N else shadow s g in
  let marked := fun g => N.lor (zeroed g) (mask_all (filter (in_register g) (filter already (descendants r)))) in
  update false (filter (fun x => negb (already x)) potential)
    {| enables := fun t => known r t && match t with Name _ => true | _ => active t end;
       shadow := marked; registers := registers s; writes := writes s |}.
(** enable and disable, by type (include/interrupt/dynamic_controller.hpp:478-501) and by name (include/interrupt/dynamic_controller.hpp:503-530). *)
Definition switch (v : bool) (propagate ignore_unknowns : bool) (ts : list item) (s : state) : option state :=
  option_map (update false (affected r propagate ts)) (fold_left (set_one r ignore_unknowns v) ts (Some s)).
(** include/interrupt/dynamic_controller.hpp:503-530 *)
Definition switch_names (v : bool) (ignore_unknowns : bool) (ns : list string) (s : state) : option state :=
  option_map (update false (affected_by_name r ns)) (fold_left (set_one r ignore_unknowns v) (map Name ns) (Some s)).

(** include/interrupt/dynamic_controller.hpp:439-530 *)
Inductive operation :=
| Switch (v propagate ignore_unknowns : bool) (ts : list item)
| SwitchNames (v ignore_unknowns : bool) (ns : list string)
| Refresh (all : bool)
| Reset
| Init (active : item -> bool) (already : irq -> bool).
(** include/interrupt/dynamic_controller.hpp:439-530 *)
Definition perform (o : operation) (s : state) : option state :=
  match o with
  | Switch v p i ts => switch v p i ts s
  | SwitchNames v i ns => switch_names v i ns s
  | Refresh a => Some (refresh a s)
  | Reset => Some (reset s)
  | Init a al => Some (init a al s)
  end.
(** include/interrupt/dynamic_controller.hpp:439-530 *)
Fixpoint perform_all (os : list operation) (s : state) : option state :=
  match os with [] => Some s | o :: os => match perform o s with Some s' => perform_all os s' | None => None end end.
End Update.

(** ** Running *)
(** include/interrupt/impl.hpp:63-104 *)
Inductive event := Read (field : nat) (v : bool) | Clear (field : nat) | Serve (nexus flow : nat).
Section Run.
Context {Env : Type}.
(** The hardware: reading and clearing a field, and what a service does. *)
Variable read : nat -> Env -> bool * Env.
Variable clear : nat -> Env -> Env.
Variable serve : nat -> nat -> Env -> Env.
(** Which services are active: [active nexus flow] (service_v<Flow>.active); the nexuses. *)
Variable service_active : nat -> nat -> bool.
Variable nexi : list nat.

(** flow_config::one_active, active (include/interrupt/config.hpp:97-112); container active (include/interrupt/impl.hpp:82). *)
Definition flow_active (f : nat) : bool := existsb (fun n => service_active n f) nexi.
(** include/interrupt/impl.hpp:82 *)
Fixpoint active (x : irq) : bool :=
  match x with Irq i [] => existsb flow_active (i_flows i) | Irq _ cs => existsb active cs end.
(** read_field, clear_field (include/interrupt/impl.hpp:12-39) *)
Definition read_field (f : option nat) (e : Env) : bool * Env * list event :=
  match f with
  | None => (true, e, [])
  | Some f => let (v, e') := read f e in (v, e', [Read f v])
  end.
(** include/interrupt/impl.hpp:12-39 *)
Definition clear_field (f : option nat) (e : Env) : Env * list event :=
  match f with None => (e, []) | Some f => (clear f e, [Clear f]) end.
(** include/interrupt/policies.hpp:22-55 *)
Definition chain (a b : Env -> Env * list event) (e : Env) : Env * list event :=
  let (e1, t1) := a e in let (e2, t2) := b e1 in (e2, t1 ++ t2).
(** include/interrupt/policies.hpp:22-55 *)
Definition nothing (e : Env) : Env * list event := (e, []).
(** The status policies (include/interrupt/policies.hpp:22-55). *)
Definition run_policy (p : clear_policy) (clr body : Env -> Env * list event) : Env -> Env * list event :=
  match p with ClearFirst => chain clr body | ClearLast => chain body clr | DontClear => body end.
(** isr, one_isr (include/interrupt/config.hpp:102-119) *)
Definition isr (flows : list nat) : Env -> Env * list event :=
  fold_right (fun f k => chain (fold_right (fun n k => chain (fun e => (serve n f e, [Serve n f])) k) nothing nexi) k) nothing flows.
(** element run (include/interrupt/impl.hpp:63-76), container run (include/interrupt/impl.hpp:91-104). *)
Fixpoint run (x : irq) (e : Env) : Env * list event :=
  match x with
  | Irq i cs =>
    if active x then
      let '(en, e1, t1) := read_field (i_enable i) e in
      if en then
        let '(st, e2, t2) := read_field (i_status i) e1 in
        if st then
          let (e3, t3) := run_policy (i_policy i) (clear_field (i_status i))
            (match cs with [] => isr (i_flows i) | _ => fold_right (fun c k => chain (run c) k) nothing cs end) e2 in
          (e3, t1 ++ t2 ++ t3)
        else (e2, t1 ++ t2)
      else (e1, t1)
    else (e, [])
  end.
(** manager::run (include/interrupt/manager.hpp:64-71): the interrupt of that number, if any
    (stdx::type_map; the numbers of top-level interrupts are assumed different). *)
Definition manager_run (tops : list (nat * irq)) (number : nat) (e : Env) : Env * list event :=
  match find (fun t => Nat.eqb (fst t) number) tops with Some (_, x) => run x e | None => (e, []) end.
(** max_irq (include/interrupt/manager.hpp:73-76) *)
Definition max_irq (tops : list (nat * irq)) : nat := fold_right Nat.max 0 (map fst tops).
(** active_flows_t (include/interrupt/impl.hpp:55-57, 84-85) *)
Fixpoint active_flows (x : irq) : list nat :=
  match x with Irq i [] => filter flow_active (i_flows i) | Irq _ cs => flat_map active_flows cs end.
(** manager::init (include/interrupt/manager.hpp:34-57): Hal::init, irq_init for each top-level
    interrupt, then the dynamic controller with the default policy (include/interrupt/manager.hpp:19-26): no
    resources, the active flows, the top level already enabled. *)
Inductive mcu_event := HalInit | IrqInit (number : nat) (enable : bool).
(** include/interrupt/manager.hpp:19-57 *)
Definition init_mcu (tops : list (nat * irq)) : list mcu_event :=
  HalInit :: map (fun t => IrqInit (fst t) (active (snd t))) tops.
(** include/interrupt/manager.hpp:19-57 *)
Definition default_active (tops : list (nat * irq)) (t : item) : bool :=
  match t with Flow f => memb f (flat_map (fun t => active_flows (snd t)) tops) | _ => false end.
End Run.

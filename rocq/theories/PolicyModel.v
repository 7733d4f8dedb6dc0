(** Model of the policies given to calls of the dynamic controller
    (include/interrupt/dynamic_controller.hpp:168-248, 450-530) and of the policies
    of its initialization (include/interrupt/policies.hpp:120-154).

    Simplifications: a policy about propagation is propagate or no_propagate, and one
    about unknowns is error_unknowns or ignore_unknowns, but a type may be one of
    each, or neither; initialization policies name interrupts by their names. *)
From Coq Require Import String Bool Arith List.
From Verif Require Import IrqModel.
Import ListNotations.

(** A type given as a policy: what it says on unknowns (whether they are ignored) if
    it is an unknown_policylike, on propagation if it is a propagate_policylike
    (include/interrupt/dynamic_controller.hpp:224-247). *)
Record policy := { on_unknowns : option bool; on_propagation : option bool }.
(** include/interrupt/dynamic_controller.hpp:172-194, 200-216 *)
Definition propagate : policy := {| on_unknowns := None; on_propagation := Some true |}.
(** include/interrupt/dynamic_controller.hpp:184-194 *)
Definition no_propagate : policy := {| on_unknowns := None; on_propagation := Some false |}.
(** include/interrupt/dynamic_controller.hpp:200-209 *)
Definition error_unknowns : policy := {| on_unknowns := Some false; on_propagation := None |}.
(** include/interrupt/dynamic_controller.hpp:210-213 *)
Definition ignore_unknowns : policy := {| on_unknowns := Some true; on_propagation := None |}.
(** is_unknown_policy, is_propagate_policy (include/interrupt/dynamic_controller.hpp:230-231, 242-243) *)
Definition is_unknown (p : policy) : bool := match on_unknowns p with Some _ => true | None => false end.
(** include/interrupt/dynamic_controller.hpp:236-243 *)
Definition is_propagate (p : policy) : bool := match on_propagation p with Some _ => true | None => false end.
(** select_policy_t (include/interrupt/dynamic_controller.hpp:219-222) *)
Definition select (default : policy) (pred : policy -> bool) (ps : list policy) : policy :=
  if existsb pred ps then hd default (filter pred ps) else default.
(** What enable_one and compute_affected_irqs use of the policies selected
    (include/interrupt/dynamic_controller.hpp:266-291, 303-325). *)
Definition ignores (p : policy) : bool := match on_unknowns p with Some b => b | None => false end.
(** include/interrupt/dynamic_controller.hpp:303-325 *)
Definition propagates (p : policy) : bool := match on_propagation p with Some b => b | None => false end.

Section Calls.
Variable h : hal.
Variable r : root.
(** enable<Ts...>(policies...) and disable (include/interrupt/dynamic_controller.hpp:478-501) *)
Definition call_types (v : bool) (ts : list item) (ps : list policy) (s : state) : option state :=
  switch h r v (propagates (select no_propagate is_propagate ps)) (ignores (select error_unknowns is_unknown ps)) ts s.
(** enable<Names...>(policies...) and disable (include/interrupt/dynamic_controller.hpp:503-530) *)
Definition call_names (v : bool) (ns : list string) (ps : list policy) (s : state) : option state :=
  switch_names h r v (ignores (select error_unknowns is_unknown ps)) ns s.

(** A policy of init: all of a kind, or those listed
    (include/interrupt/policies.hpp:121-144). *)
Record init_policy := { for_resources : option (list nat); for_flows : option (list nat); for_irqs : option (list string) }.
(** default_policy (include/interrupt/policies.hpp:150-154) *)
Definition default_policy : init_policy := {| for_resources := None; for_flows := None; for_irqs := None |}.
(** active_resources_t, active_flows_t (include/interrupt/dynamic_controller.hpp:461-463) *)
Definition activates (p : init_policy) (t : item) : bool :=
  match t with
  | Resource n => match for_resources p with Some l => memb n l | None => true end
  | Flow n => match for_flows p with Some l => memb n l | None => true end
  | Name _ => true
  end.
(** init<Policy, AlreadyEnabled...> (include/interrupt/dynamic_controller.hpp:450-471) *)
Definition init_with (p : init_policy) (already : irq -> bool) (s : state) : state := init h r (activates p) already s.
End Calls.

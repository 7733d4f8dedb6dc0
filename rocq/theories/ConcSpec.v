(** Specification of the interrupt controller used from several threads. *)
From Coq Require Import String Bool Arith List NArith.
From Verif Require Import IrqModel IrqSpec ConcModel.
Import ListNotations.
Local Open Scope nat_scope.

(** Two states that no access can tell apart. *)
Definition same_state (a b : state) : Prop :=
  (forall t, enables a t = enables b t) /\ (forall g, shadow a g = shadow b g) /\ (forall g, registers a g = registers b g) /\ writes a = writes b.
(** The field reads as on. *)
Definition reads_on (h : hal) (s : state) (f : nat) : bool := negb (N.eqb (N.land (registers s (reg_of h f)) (mask_of h f)) 0).
(** Actions one after the other, with the answers of the reads. *)
Inductive in_turn (h : hal) (r : root) : state -> list (nat * action) -> state -> list (nat * nat * bool) -> Prop :=
| turn_none s : in_turn h r s [] s []
| turn_op s t o q s1 s2 as_ : perform h r o s = Some s1 -> in_turn h r s1 q s2 as_ -> in_turn h r s ((t, Op o) :: q) s2 as_
| turn_read s t f q s2 as_ : in_turn h r s q s2 as_ -> in_turn h r s ((t, ReadEnable f) :: q) s2 ((t, f, reads_on h s f) :: as_).
(** What one thread did. *)
Definition of_thread (t : nat) (q : list (nat * action)) : list action := map snd (filter (fun x => fst x =? t) q).
Definition idle (s : system) (t : nat) : Prop := t_phase (threads s t) = Out.
Definition done (s : system) : Prop := forall t, threads s t = {| t_phase := Out; t_todo := [] |}.
(** No thread resets. *)
Definition no_reset (prog : nat -> list action) : Prop := forall t, ~ In (Op Reset) (prog t).
Definition compiles (r : root) (prog : nat -> list action) : Prop := forall t o, In (Op o) (prog t) -> accepted r o = true.

(** Model of msg::send and msg::then_receive (include/msg/send.hpp:20-73).

    The senders come from another library (async), which is not part of this
    repository and whose source is not at hand.  Assumed of it, in agreement with the use
    made of it in test/msg/send.cpp:25-82: starting just(f) | incite_on(s) | then(g)
    puts the operation in the queue of the trigger scheduler s, then calls f; and
    run_triggers takes the whole queue of its trigger, then completes its operations in
    turn, calling g with the values given.  A trigger is a name with the types of the
    values (async::trigger_scheduler<Name, Args...>), here a number, and the values are
    lists; the interruption of one thread by another, stop requests and errors are not
    modelled.

    What functions do is a list of actions: to start a request, or to run a trigger.
    Functions may start requests and run triggers from within others, to any depth. *)
From Coq Require Import List Arith.
Import ListNotations.

Section Send.
Variable V : Type.

(** include/msg/send.hpp:49-64: send(f, args...) | then_receive<Name, RecvArgs...>(g, extra...), started; and
    async::run_triggers<Name>(values...) *)
Inductive action :=
| Start (f : list V -> list action) (args : list V) (trigger : nat) (g : list V -> list action) (extra : list V)
| Run (trigger : nat) (values : list V).

(** What is seen: requests are numbered as they are started
    (include/msg/send.hpp:35-42). *)
Inductive event :=
| Started (i trigger : nat) (extra : list V)
| Sent (i : nat) (args : list V)
| Ran (trigger : nat) (values : list V)
| Received (i : nat) (values : list V).

(** An operation in a queue: its number, trigger, function and arguments
    (include/msg/send.hpp:35-42). *)
Record operation := { o_id : nat; o_trigger : nat; o_recv : list V -> list action; o_extra : list V }.
(** What is left to do: actions, and operations to complete with values
    (include/msg/send.hpp:35-42). *)
Inductive item := Do (a : action) | Complete (o : operation) (values : list V).
(** include/msg/send.hpp:35-42 *)
Record state := { todo : list item; queue : list operation; next : nat; trace : list event }.

(** One step.  A call is done before what comes after it
    (include/msg/send.hpp:35-42, 49-64). *)
Definition step (s : state) : option state :=
  match todo s with
  | [] => None
  | Do (Start f args t g extra) :: r =>
    Some {| todo := map Do (f args) ++ r;
            queue := queue s ++ [{| o_id := next s; o_trigger := t; o_recv := g; o_extra := extra |}];
            next := S (next s);
            trace := trace s ++ [Started (next s) t extra; Sent (next s) args] |}
  | Do (Run t vs) :: r =>
    Some {| todo := map (fun o => Complete o vs) (filter (fun o => Nat.eqb (o_trigger o) t) (queue s)) ++ r;
            queue := filter (fun o => negb (Nat.eqb (o_trigger o) t)) (queue s);
            next := next s;
            trace := trace s ++ [Ran t vs] |}
  | Complete o vs :: r =>
    (* f(as..., args...) *)
    Some {| todo := map Do (o_recv o (vs ++ o_extra o)) ++ r;
            queue := queue s;
            next := next s;
            trace := trace s ++ [Received (o_id o) (vs ++ o_extra o)] |}
  end.
(** A program, from no requests (include/msg/send.hpp:49-73). *)
Definition initial (p : list action) : state := {| todo := map Do p; queue := []; next := 0; trace := [] |}.
(** include/msg/send.hpp:49-73 *)
Inductive reaches (p : list action) : state -> Prop :=
| reaches_initial : reaches p (initial p)
| reaches_step s s' : reaches p s -> step s = Some s' -> reaches p s'.
End Send.
Arguments Start {V}. Arguments Run {V}. Arguments Started {V}. Arguments Sent {V}. Arguments Ran {V}. Arguments Received {V}.
Arguments Do {V}. Arguments Complete {V}. Arguments todo {V}. Arguments queue {V}. Arguments next {V}. Arguments trace {V}.
Arguments o_id {V}. Arguments o_trigger {V}. Arguments o_recv {V}. Arguments o_extra {V}. Arguments step {V}. Arguments initial {V}. Arguments reaches {V}.

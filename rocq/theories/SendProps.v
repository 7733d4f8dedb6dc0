(** Properties of requests and replies (include/msg/send.hpp). *)
From Coq Require Import List Arith Lia.
From Verif Require Import SendModel SendSpec SendProofs.
Import ListNotations.

(** C139: whatever is started and run, from within what, in the end each request has
    received exactly the values of the first run of its trigger after it was started,
    with its own values after them; once; and nothing if there was no such run. *)
Theorem C139_answered : forall V (p : list (action V)) s i, reaches p s -> finished s ->
  received i (trace s) = as_list (answer i (trace s)).
Proof. intros V p s i. exact (finished_received p s i). Qed.
Print Assumptions C139_answered.

(** C139, at all times: what is received had been sent by then, so a reply is never early, is
    never for another, and never comes twice. *)
Theorem C139_after : forall V (p : list (action V)) s, reaches p s ->
  (forall es i vs fs, trace s = es ++ Received i vs :: fs -> answer i es = Some vs) /\
  (forall i, length (received i (trace s)) <= 1).
Proof.
  intros V p s H. split.
  - exact (received_after p s H).
  - intro i. destruct (received_once p s i H) as [->| ->]; [cbn; lia|]. destruct (answer i (trace s)); cbn; lia.
Qed.
Print Assumptions C139_after.

(** C139: a request is in the queue before its function is called, and the function is called
    at once, and once. *)
Theorem C139_sent : forall V (p : list (action V)) s, reaches p s ->
  (forall es i t x fs, trace s = es ++ Started i t x :: fs -> exists args gs, fs = Sent i args :: gs) /\
  (forall i, length (sent i (trace s)) = if i <? next s then 1 else 0).
Proof.
  intros V p s H. split; [exact (started_sent p s H)|]. intro i. exact (sent_once p s i H).
Qed.
Print Assumptions C139_sent.

(** C139: a request without a reply is not lost. *)
Theorem C139_kept : forall V (p : list (action V)) s i t x, reaches p s ->
  In (Started i t x) (trace s) -> answer i (trace s) = None -> In i (map o_id (queue s)).
Proof.
  intros V p s i t x H Hi. apply (unanswered_kept p s i H).
  unfold starts. apply in_flat_map. eexists. split; [exact Hi|]. left. reflexivity.
Qed.
Print Assumptions C139_kept.

(** C139: a request whose function replies with values made of its arguments, and whose
    receiving function passes on what it is given: all that happens, in order. *)
Theorem C139_round : forall V (h k : list V -> list V) args extra t u,
  exists s, reaches [Start (fun a => [Run t (h a)]) args t (fun b => [Run u (k b)]) extra] s /\ finished s /\
    queue s = [] /\
    trace s = [Started 0 t extra; Sent 0 args; Ran t (h args); Received 0 (h args ++ extra); Ran u (k (h args ++ extra))].
Proof.
  intros V h k args extra t u. eexists. split.
  - eapply reaches_step; [eapply reaches_step; [eapply reaches_step; [eapply reaches_step;
      [apply reaches_initial|reflexivity]|]|]|].
    + cbn. rewrite Nat.eqb_refl. reflexivity.
    + reflexivity.
    + reflexivity.
  - split; [|split]; reflexivity.
Qed.
Print Assumptions C139_round.

(** A request whose function replies to it at once; the function that receives the reply
    makes another request, of the same trigger, and runs a trigger; a reply comes before any
    request. *)
Definition nested : list (action nat) :=
  [Run 7 [9];
   Start (fun args => [Run 7 args]) [42] 7
     (fun vs => [Start (fun _ => []) [] 7 (fun _ => []) [5]; Run 8 vs]) [17];
   Start (fun _ => []) [1] 8 (fun _ => []) [];
   Run 7 [3; 4]].
Fixpoint steps (n : nat) (s : state nat) : state nat :=
  match n with 0 => s | S m => match step s with Some s' => steps m s' | None => s end end.
Lemma steps_reach n p s : reaches p s -> reaches p (steps n s).
Proof.
  revert s. induction n as [|n IH]; intros s H; [exact H|]. cbn. destruct (step s) as [s'|] eqn:E; [|exact H].
  apply IH. exact (reaches_step _ p s s' H E).
Qed.
Example C139_case :
  let s := steps 20 (initial nested) in
  reaches nested s /\ finished s /\
  received 0 (trace s) = [[42; 17]] /\ received 1 (trace s) = [[3; 4; 5]] /\ received 2 (trace s) = [] /\
  map o_id (queue s) = [2].
Proof.
  cbv zeta. split; [apply steps_reach; constructor|]. vm_compute. auto 10.
Qed.
(** Needed: while something is left to do, a request may have a reply it has not
    received. *)
Example C139_needed :
  let s := steps 3 (initial nested) in
  reaches nested s /\ answer 0 (trace s) = Some [42; 17] /\ received 0 (trace s) = [].
Proof. cbv zeta. split; [apply steps_reach; constructor|]. vm_compute. auto. Qed.

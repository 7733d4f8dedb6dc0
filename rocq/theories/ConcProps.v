(** Theorem C107. *)
From Coq Require Import String Bool Arith List NArith Lia.
From Verif Require Import IrqModel IrqSpec IrqProofs IrqProofs2 IrqProofs3 IrqProps ConcModel ConcSpec ConcProofs.
Import ListNotations.
Local Open Scope nat_scope.

(** ** C107: the controller and the service routines used from several threads *)
(** Whenever no thread is in the critical section, the state and all answers are
    those of the actions finished so far, done one after the other in some order
    that keeps the order of each thread. *)
Theorem C107_partial h r s0 prog s : no_reset prog -> compiles r prog -> reachable h r s0 prog s ->
  exists q, (forall t, exists later, (of_thread t q ++ later)%list = prog t) /\
    (mutex s = None -> (forall t, (of_thread t q ++ t_todo (threads s t))%list = prog t) /\
       exists s', in_turn h r s0 q s' (rev (answers s)) /\ same_state (shared s) s').
Proof.
  intros N C R. destruct (reach_invariant h r s0 prog s N R) as (q & I). exists q. split; [intros t; eexists; apply (inv_todo _ _ _ _ _ _ I)|].
  intros M. destruct (inv_free _ _ _ _ _ _ I M) as [Es Eo]. split.
  - intros t. rewrite <- (inv_todo _ _ _ _ _ _ I t), Eo. reflexivity.
  - rewrite (inv_answers _ _ _ _ _ _ I), rev_involutive, Es. apply serial_in_turn; [|apply same_refl].
    intros t o Hin. apply (C t). rewrite <- (inv_todo _ _ _ _ _ _ I t). apply in_or_app. left. unfold of_thread. apply in_map_iff. exists (t, Op o). split; auto. apply filter_In. split; auto. apply Nat.eqb_refl.
Qed.
Print Assumptions C107_partial.
(** While one thread is in the critical section, no other is. *)
Theorem C107_exclusive h r s0 prog s t u : no_reset prog -> reachable h r s0 prog s -> ~ idle s t -> ~ idle s u -> t = u /\ mutex s = Some t.
Proof.
  intros N R. destruct (reach_invariant h r s0 prog s N R) as (q & I). unfold idle. intros Ht Hu. destruct (mutex s) as [v|] eqn:M.
  - destruct (inv_held _ _ _ _ _ _ I v M) as (_ & _ & _ & _ & _ & _ & _ & U). destruct (Nat.eq_dec t v) as [->|]; [|destruct (Ht (U t n))]. destruct (Nat.eq_dec u v) as [->|]; [auto|destruct (Hu (U u n))].
  - destruct (inv_free _ _ _ _ _ _ I M) as [_ F]. destruct (Ht (F t)).
Qed.
Print Assumptions C107_exclusive.
(** With the operations for which one thread keeps the hardware to the documented
    rule (C36), several threads keep it, and each read of an enable field tells
    what the rule says at that moment. *)
Inductive rule_answers (h : hal) (r : root) : state -> list (nat * action) -> list (nat * nat * bool) -> Prop :=
| rule_none s : rule_answers h r s [] []
| rule_op s t o q s1 as_ : perform h r o s = Some s1 -> rule_answers h r s1 q as_ -> rule_answers h r s ((t, Op o) :: q) as_
| rule_read s t f q as_ b : (forall x, in_tree r x -> i_enable (info_of x) = Some f -> b = true <-> should_be_on (enables s) x) ->
    rule_answers h r s q as_ -> rule_answers h r s ((t, ReadEnable f) :: q) ((t, f, b) :: as_).
Lemma turn_rule h r : layout_ok h r -> forall s q s' as_, in_turn h r s q s' as_ -> (forall t o, In (t, Op o) q -> reaches_all r o) ->
  synced h r s -> (forall x, in_tree r x -> agrees h s x) -> rule_answers h r s q as_ /\ forall x, in_tree r x -> agrees h s' x.
Proof.
  intros L. induction 1 as [s|s t o q s1 s2 as_ P T IH|s t f q s2 as_ T IH]; intros Ho S A; [split; [constructor|auto]| |].
  - destruct (perform_all_agrees h r L [o] s) with (s' := s1) as [S1 A1]; auto; [intros o' [<-|[]]; apply (Ho t); left; auto|cbn [perform_all]; rewrite P; auto|].
    destruct IH as [R1 R2]; auto; [intros t' o' Hin; apply (Ho t'); right; auto|]. split; auto. econstructor; eauto.
  - destruct IH as [R1 R2]; auto; [intros t' o' Hin; apply (Ho t'); right; auto|]. split; auto. constructor; auto. intros x Hx Hf. destruct (A x Hx f Hf) as [On Off]. unfold reads_on.
    destruct (L x x f f Hx Hx Hf Hf) as [Hm _]. rewrite negb_true_iff, N.eqb_neq. split.
    + intros H. destruct (is_on (enables s) x) eqn:E; [apply is_on_spec, E|]. apply is_on_false in E. destruct (H (Off E)).
    + intros H. rewrite (On H). exact Hm.
Qed.
Lemma agrees_same h a b x : same_state a b -> agrees h a x -> agrees h b x.
Proof.
  intros (E & _ & G & _) H f Hf. destruct (H f Hf) as [H1 H2]. unfold field_on, field_off in *. rewrite G in *.
  assert (X : should_be_on (enables a) x <-> should_be_on (enables b) x) by (rewrite <- !is_on_spec, (is_on_same _ _ x E); tauto). tauto.
Qed.
Theorem C107_rule h r s0 prog s : layout_ok h r -> no_reset prog -> compiles r prog -> (forall t o, In (Op o) (prog t) -> reaches_all r o) ->
  synced h r s0 -> (forall x, in_tree r x -> agrees h s0 x) -> reachable h r s0 prog s -> mutex s = None ->
  exists q, (forall t, (of_thread t q ++ t_todo (threads s t))%list = prog t) /\ rule_answers h r s0 q (rev (answers s)) /\ forall x, in_tree r x -> agrees h (shared s) x.
Proof.
  intros L N C Ho S A R M. destruct (C107_partial h r s0 prog s N C R) as (q & _ & H). destruct (H M) as (Q & s' & T & E). exists q. split; auto.
  destruct (turn_rule h r L _ _ _ _ T) as [R1 R2]; auto.
  { intros t o Hin. apply (Ho t). rewrite <- (Q t). apply in_or_app. left. unfold of_thread. apply in_map_iff. exists (t, Op o). split; auto. apply filter_In. split; auto. apply Nat.eqb_refl. }
  split; auto. intros x Hx. apply (agrees_same h s'); [apply same_sym, E|auto].
Qed.
Print Assumptions C107_rule.
(** The steps of an operation that no other thread comes between do what the
    operation of C36 does. *)
Theorem C107_alone h r o s : accepted r o = true -> exists s1, perform h r o s = Some s1 /\
  same_state (fst (fold_left (fun sl m => micro_step h m sl) (steps_of h r o) (s, no_locals))) s1.
Proof. intros A. apply (run_steps h r o s s no_locals A (same_refl s)). Qed.
Print Assumptions C107_alone.
Theorem C107_accepts h r o s : perform h r o s <> None <-> accepted r o = true.
Proof.
  split; [|intros A; destruct (run_steps h r o s s no_locals A (same_refl s)) as (s1 & -> & _); discriminate].
  assert (G : forall i v ts s, fold_left (set_one r i v) ts (Some s) <> None -> i || forallb (known r) ts = true).
  { assert (Z : forall i v ts, fold_left (set_one r i v) ts None = None) by (intros i v ts; induction ts; auto).
    intros i v ts. induction ts as [|t ts IH]; intros s' H; [apply orb_true_r|]. cbn [fold_left set_one] in H. destruct (known r t) eqn:K; [apply IH in H; cbn [forallb]; rewrite K; auto|]. destruct i; [reflexivity|]. destruct (H (Z _ _ _)). }
  destruct o as [v p i ts|v i ns|a| |a al]; cbn [perform accepted]; auto; unfold switch, switch_names; intros H; apply (G i v _ s); intros E; rewrite E in H; auto.
Qed.
Print Assumptions C107_accepts.

(** reset has no critical section: with a thread that enables at the same time, an
    interrupt can stay on in the hardware when everything is disabled, which no
    order of the two operations leads to. *)
Definition busy : state := match perform_all one_reg sys [Init all_on none_already; Switch false true false [Flow 1]] blank with Some s => s | None => blank end.
Definition racing (t : nat) : list action := match t with 0 => [Op (Switch true true false [Flow 1])] | 1 => [Op Reset] | _ => [] end.
Ltac acts H := cbn in H; repeat match type of H with _ \/ _ => destruct H as [H|H] | False => destruct H end; try discriminate H; try (injection H as <-).
Theorem C107_refuted : exists h r s0 prog s, layout_ok h r /\ synced h r s0 /\ (forall x, in_tree r x -> agrees h s0 x) /\ compiles r prog /\ (forall t o, In (Op o) (prog t) -> reaches_all r o) /\
  reachable h r s0 prog s /\ done s /\ (forall t, enables (shared s) t = false) /\ exists x f, in_tree r x /\ i_enable (info_of x) = Some f /\ field_on h (registers (shared s)) f.
Proof.
  exists one_reg, sys, busy, racing.
  destruct (C36_partial one_reg sys sys_layout all_on blank [Switch false true false [Flow 1]] busy) as [B1 B2]; [apply blank_before|intros o [<-|[]]; apply (C36_flows_reach sys false false [1])|vm_compute; reflexivity|].
  destruct (exec_all_reach one_reg sys busy racing (repeat 0 8 ++ repeat 1 13 ++ repeat 0 3)%list
    (fun s => threads s 0 = {| t_phase := Out; t_todo := [] |} /\ threads s 1 = {| t_phase := Out; t_todo := [] |} /\ registers (shared s) 0 = 15%N /\ forall t, enables (shared s) t = false)) as (s & R & (E0 & E1 & E2 & E3) & Ht).
  { vm_compute. split; [reflexivity|]. split; [reflexivity|]. split; [reflexivity|]. intros [n|n|n]; reflexivity. }
  exists s. split; [apply sys_layout|]. split; [exact B1|]. split; [exact B2|]. split; [intros [|[|t]] o H; acts H; reflexivity|].
  split; [intros [|[|t]] o H; acts H; [apply (C36_flows_reach sys true false [1])|exact I]|].
  split; [exact R|]. split; [|split; [exact E3|]].
  - intros [|[|t]]; auto. apply Ht. intros H. apply in_app_or in H as [H|H]; [apply repeat_spec in H; discriminate|]. apply in_app_or in H as [H|H]; apply repeat_spec in H; discriminate.
  - exists grand, 0. split; [apply sys_tree; auto|]. split; [reflexivity|]. unfold field_on. cbn [reg_of one_reg]. rewrite E2. reflexivity.
Qed.
Print Assumptions C107_refuted.
(** An enable, a disable and a service routine's read that comes between them. *)
Definition sharing (t : nat) : list action := match t with 0 => [Op (Switch true true false [Flow 1])] | 1 => [Op (Switch false true false [Flow 2])] | 2 => [ReadEnable 2; ReadEnable 3] | _ => [] end.
Example C107_case : layout_ok one_reg sys /\ no_reset sharing /\ compiles sys sharing /\ (forall t o, In (Op o) (sharing t) -> reaches_all sys o) /\
  exists s, reachable one_reg sys busy sharing s /\ done s /\ answers s = [(2, 3, false); (2, 2, true)] /\ registers (shared s) 0 = 7%N.
Proof.
  split; [apply sys_layout|]. split; [intros [|[|[|t]]] H; acts H|]. split; [intros [|[|[|t]]] o H; acts H; reflexivity|].
  split; [intros [|[|[|t]]] o H; acts H; [apply (C36_flows_reach sys true false [1])|apply (C36_flows_reach sys false false [2])]|].
  destruct (exec_all_reach one_reg sys busy sharing (repeat 0 11 ++ repeat 2 3 ++ repeat 1 11 ++ repeat 2 3)%list
    (fun s => threads s 0 = {| t_phase := Out; t_todo := [] |} /\ threads s 1 = {| t_phase := Out; t_todo := [] |} /\ threads s 2 = {| t_phase := Out; t_todo := [] |} /\ answers s = [(2, 3, false); (2, 2, true)] /\ registers (shared s) 0 = 7%N)) as (s & R & (E0 & E1 & E2 & E3 & E4) & Ht).
  { vm_compute. repeat split. }
  exists s. split; auto. split; auto. intros [|[|[|t]]]; auto. apply Ht. intros H. repeat (apply in_app_or in H as [H|H]; [apply repeat_spec in H; discriminate|]). apply repeat_spec in H. discriminate.
Qed.

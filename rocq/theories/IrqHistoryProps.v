(** C36: what the enable fields show after any history whatsoever. *)
From Coq Require Import String Bool Arith List NArith Lia.
From Verif Require Import IrqModel IrqSpec IrqProofs IrqProofs2 IrqProps.
Import ListNotations.
Open Scope string_scope.
Open Scope list_scope.

(** The enable field of x is the same in both register contents. *)
Definition same_field (h : hal) (x : irq) (regs regs' : nat -> N) : Prop :=
  forall f, i_enable (info_of x) = Some f -> N.land (regs' (reg_of h f)) (mask_of h f) = N.land (regs (reg_of h f)) (mask_of h f).

Section History.
Variable h : hal.
Variable r : root.
Hypothesis Hl : layout_ok h r.

Lemma untouched_same o s s' x : ~ is_init o -> synced h r s -> perform h r o s = Some s' -> in_tree r x -> ~ touched r o x ->
  same_field h x (registers s) (registers s').
Proof.
  intros Hi Hs H Hx Ht f Hf. apply N.bits_inj. intros k. rewrite !N.land_spec. destruct (N.testbit (mask_of h f) k) eqn:Hk; [|rewrite !andb_false_r; reflexivity].
  rewrite !andb_true_r. apply (perform_frame h r o s s' (reg_of h f) k); auto.
  intros y g Hy Hg Hr. destruct (N.testbit (mask_of h g) k) eqn:Hk'; auto. exfalso.
  assert (Hyt : in_tree r y) by apply Hy. destruct (Hl x y f g Hx Hyt Hf Hg) as [_ [E|[E|E]]].
  - subst y. auto.
  - congruence.
  - apply (f_equal (fun z => N.testbit z k)) in E. rewrite N.land_spec, Hk, Hk', N.bits_0 in E. discriminate.
Qed.

Lemma history os : forall s s' x f, (forall o, In o os -> ~ is_init o) -> synced h r s -> perform_all h r os s = Some s' -> in_tree r x ->
  i_enable (info_of x) = Some f ->
  (same_field h x (registers s) (registers s') /\ forall o, In o os -> ~ touched r o x) \/
  exists os1 o os2 s1, os = os1 ++ o :: os2 /\ perform_all h r (os1 ++ [o]) s = Some s1 /\ touched r o x /\ (forall o', In o' os2 -> ~ touched r o' x) /\
    agrees h s1 x /\ same_field h x (registers s1) (registers s').
Proof.
  induction os as [|o os IH]; intros s s' x f Hi Hs H Hx Hf; cbn [perform_all] in H.
  - injection H as <-. left. split; [intros ? _; reflexivity|intros o []].
  - destruct (perform h r o s) as [s1|] eqn:E; [|discriminate].
    assert (Hio : ~ is_init o) by (apply Hi; left; reflexivity).
    assert (Hs1 : synced h r s1) by (eapply perform_synced; eauto).
    destruct (IH s1 s' x f) as [[A B]|(os1 & o' & os2 & s2 & A & B & C & D & F & G)]; auto.
    + intros o' Ho'. apply Hi. right. exact Ho'.
    + destruct (irq_in_dec x (op_targets r o)) as [T|T].
      * apply targets_touched in T. right. exists [], o, os, s1. cbn [List.app perform_all]. rewrite E.
        split; [reflexivity|]. split; [reflexivity|]. split; [exact T|]. split; [exact B|]. split; [|exact A].
        apply (perform_touched h r Hl o s s1 x); auto.
      * assert (Hn : ~ touched r o x).
        { intros Ht. apply T. apply (touched_targets h r o x (reg_of h f)); auto. unfold register_of. rewrite Hf. reflexivity. }
        left. split.
        -- intros g Hg. rewrite (A g Hg). apply (untouched_same o s s1 x); auto.
        -- intros o' [<-|Ho']; auto.
    + right. exists (o :: os1), o', os2, s2. subst os. cbn [List.app perform_all]. rewrite E. auto 10.
Qed.
End History.

(** After init and any operations at all, of any kind and in any order, the
    enable field of every interrupt is what the documented rule gave when the
    last operation that touched the interrupt had been performed; or what it
    gave right after init, if nothing has touched it since. *)
Theorem C36_history : forall h r, layout_ok h r -> forall active s0 os s' x, before_init h r (fun _ => false) s0 ->
  (forall o, In o os -> forall a b, o <> Init a b) -> perform_all h r (Init active (fun _ => false) :: os) s0 = Some s' ->
  in_tree r x ->
  forall f, i_enable (info_of x) = Some f ->
  exists os1 os2 s1, os = os1 ++ os2 /\ perform_all h r (Init active (fun _ => false) :: os1) s0 = Some s1 /\
    (os1 = [] \/ exists before o, os1 = before ++ [o] /\ touched r o x) /\ (forall o, In o os2 -> ~ touched r o x) /\
    (should_be_on (enables s1) x -> field_on h (registers s') f) /\ (~ should_be_on (enables s1) x -> field_off h (registers s') f).
Proof.
  intros h r Hl active s0 os s' x Hb Hi H Hx f Hf. cbn [perform_all perform] in H. destruct (init_spec h r Hl active (fun _ => false) s0 Hb) as (I1 & I2 & _).
  assert (Hi' : forall o, In o os -> ~ is_init o). { intros o Ho. specialize (Hi o Ho). destruct o; auto. intros _. eapply Hi; reflexivity. }
  destruct (history h r Hl os (init h r active (fun _ => false) s0) s' x f) as [[A B]|(os1 & o & os2 & s1 & A & B & C & D & F & G)]; auto.
  - exists [], os, (init h r active (fun _ => false) s0). split; [reflexivity|]. split; [reflexivity|]. split; [auto|]. split; [auto|].
    specialize (A f Hf). unfold field_on, field_off. rewrite A. apply I2; auto.
  - exists (os1 ++ [o]), os2, s1. split; [rewrite <- app_assoc; exact A|]. split; [exact B|]. split; [right; eauto|]. split; [exact D|].
    specialize (G f Hf). unfold field_on, field_off. rewrite G. apply F. exact Hf.
Qed.
Print Assumptions C36_history.
(** So the hardware is right about an interrupt exactly if the rule gives the same now as when the interrupt
    was last touched. *)
Theorem C36_exact : forall h r, layout_ok h r -> forall active s0 os s' x, before_init h r (fun _ => false) s0 ->
  (forall o, In o os -> forall a b, o <> Init a b) -> perform_all h r (Init active (fun _ => false) :: os) s0 = Some s' ->
  in_tree r x ->
  forall f, i_enable (info_of x) = Some f ->
  exists os1 os2 s1, os = os1 ++ os2 /\ perform_all h r (Init active (fun _ => false) :: os1) s0 = Some s1 /\
    (os1 = [] \/ exists before o, os1 = before ++ [o] /\ touched r o x) /\ (forall o, In o os2 -> ~ touched r o x) /\
    (agrees h s' x <-> (should_be_on (enables s1) x <-> should_be_on (enables s') x)).
Proof.
  intros h r Hl active s0 os s' x Hb Hi H Hx f Hf. destruct (C36_history h r Hl active s0 os s' x Hb Hi H Hx f Hf) as (os1 & os2 & s1 & E & P & T & N & On & Off).
  exists os1, os2, s1. split; [exact E|]. split; [exact P|]. split; [exact T|]. split; [exact N|].
  assert (M : mask_of h f <> 0%N) by (apply (Hl x x f f Hx Hx Hf Hf)).
  assert (X : ~ (field_on h (registers s') f /\ field_off h (registers s') f)) by (unfold field_on, field_off; intros [A B]; congruence).
  assert (D : forall e, should_be_on e x \/ ~ should_be_on e x). { intros e. destruct (is_on e x) eqn:I; [left; now apply is_on_spec|right; intros C; apply is_on_spec in C; congruence]. }
  split.
  - intros A. destruct (A f Hf) as [A1 A2]. destruct (D (enables s1)) as [D1|D1], (D (enables s')) as [D2|D2]; try tauto; exfalso; apply X; auto.
  - intros I g Hg. assert (g = f) as -> by congruence. split; intros C; [apply On, I, C|apply Off; intros K; apply C, I, K].
Qed.
Print Assumptions C36_exact.

(** The grandparent of [C36_refuted]: the resource is switched off, nothing
    touches the grandparent, so it still shows what the rule gave after init. *)
Example C36_history_case : exists s, perform_all one_reg sys3 [Init all_on none_already; Switch false true false [Resource 7]] blank = Some s /\
  should_be_on (enables (init one_reg sys3 all_on none_already blank)) (nth 0 sys3 mid) /\ field_on one_reg (registers s) 0 /\
  ~ should_be_on (enables s) (nth 0 sys3 mid).
Proof.
  eexists. split; [reflexivity|]. split; [apply is_on_spec; reflexivity|]. split; [reflexivity|].
  intros H. apply is_on_spec in H. vm_compute in H. discriminate.
Qed.

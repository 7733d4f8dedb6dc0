(** Enable then disable, resources that are off, and running. *)
From Coq Require Import String Bool Arith List NArith Lia Permutation.
From Verif Require Import IrqModel IrqSpec IrqProofs IrqProofs2.
Import ListNotations.
Local Open Scope nat_scope.

Section Switching.
Variable h : hal.
Variable r : root.
Hypothesis Hlayout : layout_ok h r.

Lemma is_on_same e e' x : (forall t, e t = e' t) -> is_on e x = is_on e' x.
Proof. intros H. apply is_on_ext. auto. Qed.
(** Two operations touching the same interrupts, whose enables cancel out. *)
Lemma there_and_back o1 o2 s s1 s2 : ~ is_init o1 -> ~ is_init o2 -> synced h r s ->
  perform h r o1 s = Some s1 -> perform h r o2 s1 = Some s2 ->
  (forall x, touched r o1 x <-> touched r o2 x) -> (forall t, enables s2 t = enables s t) ->
  (forall x, touched r o1 x -> agrees h s x) ->
  (forall g, registers s2 g = registers s g) /\ forall g, enable_register h r g -> shadow s2 g = shadow s g.
Proof.
  intros I1 I2 Hs P1 P2 Ht He Ha.
  assert (Hs1 := perform_synced h r o1 s s1 I1 Hs P1). assert (Hs2 := perform_synced h r o2 s1 s2 I2 Hs1 P2).
  assert (Hr : forall g, registers s2 g = registers s g).
  { intros g. apply N.bits_inj. intros k.
    destruct (existsb (fun x => in_register h g x && N.testbit (mask_for h x) k) (op_targets r o1)) eqn:E.
    - apply existsb_exists in E. destruct E as (x & Hx & Hxx). apply andb_true_iff in Hxx. destruct Hxx as [Hg Hk].
      apply in_register_spec in Hg. apply targets_touched in Hx.
      assert (A1 : agrees h s2 x) by (apply (perform_touched h r Hlayout o2 s1 s2 x); auto; apply Ht; auto).
      assert (A0 := Ha x Hx). apply agrees_shows in A1, A0. rewrite (A1 g k Hg Hk), (A0 g k Hg Hk). apply is_on_same. auto.
    - assert (Hno : forall x f, touched r o1 x -> i_enable (info_of x) = Some f -> reg_of h f = g -> N.testbit (mask_of h f) k = false).
      { intros x f Hx Hf Hg. destruct (N.testbit (mask_of h f) k) eqn:Hb; auto. rewrite <- E. symmetry. apply existsb_exists. exists x.
        assert (Hxg : register_of h x = Some g) by (unfold register_of; rewrite Hf; cbn; congruence).
        split; [apply (touched_targets h r o1 x g); auto|]. apply andb_true_iff. split; [apply in_register_spec; auto|].
        unfold mask_for. rewrite Hf. auto. }
      rewrite (perform_frame h r o2 s1 s2 g k I2 Hs1 P2); [apply (perform_frame h r o1 s s1 g k I1 Hs P1); auto|].
      intros x f Hx. apply Hno. apply Ht. auto. }
  split; auto. intros g Hg. rewrite <- (Hs2 g Hg), <- (Hs g Hg). auto.
Qed.
Lemma switch_back p i ts s s1 s2 : perform h r (Switch true p i ts) s = Some s1 -> perform h r (Switch false p i ts) s1 = Some s2 ->
  (forall t, In t ts -> enables s t = false) -> forall t, enables s2 t = enables s t.
Proof.
  intros P1 P2 Hoff t. rewrite (fun H => perform_enables h r _ _ _ H P2), (fun H => perform_enables h r _ _ _ H P1) by (intros []).
  destruct (in_dec item_eq_dec t ts) as [Hi|]; auto. destruct (known r t); auto. symmetry. auto.
Qed.
Lemma switch_names_back i ns s s1 s2 : perform h r (SwitchNames true i ns) s = Some s1 -> perform h r (SwitchNames false i ns) s1 = Some s2 ->
  (forall n, In n ns -> enables s (Name n) = false) -> forall t, enables s2 t = enables s t.
Proof.
  intros P1 P2 Hoff t. rewrite (fun H => perform_enables h r _ _ _ H P2), (fun H => perform_enables h r _ _ _ H P1) by (intros []).
  destruct (in_dec item_eq_dec t (map Name ns)) as [Hi|]; auto. destruct (known r t); auto. apply in_map_iff in Hi. destruct Hi as (n & <- & Hn).
  symmetry. auto.
Qed.

(** ** A resource that is off *)
Lemma resource_off_not_on e x n : In n (i_resources (info_of x)) -> e (Resource n) = false -> is_on e x = false.
Proof.
  intros Hn He. apply is_on_false. intros H. destruct x as [i cs]. cbn in Hn. inversion H; subst; rewrite (H3 n Hn) in He; discriminate.
Qed.
(** Once off and not enabled again, its bit stays off. *)
Lemma stays_off x n : in_tree r x -> In n (i_resources (info_of x)) ->
  forall os s s', (forall o, In o os -> ~ turns_on o (Resource n)) -> synced h r s -> enables s (Resource n) = false ->
  shows h (registers s) x false -> perform_all h r os s = Some s' -> enables s' (Resource n) = false /\ shows h (registers s') x false.
Proof.
  intros Hx Hn. induction os as [|o os IH]; intros s s' Ho Hs He Hsh H; cbn [perform_all] in H.
  - injection H as <-. auto.
  - destruct (perform h r o s) as [s1|] eqn:P; [|discriminate]. assert (Hno : ~ turns_on o (Resource n)) by (apply Ho; cbn; auto).
    assert (Hi : ~ is_init o) by (destruct o; cbn in *; tauto).
    assert (He1 : enables s1 (Resource n) = false).
    { rewrite (perform_enables h r o s s1 Hi P). destruct o as [v p i ts|v i ns|a| |a al]; auto.
      - destruct (in_dec _ _ ts) as [Hin|]; auto. destruct (known r _); auto. destruct v; auto. destruct (Hno Hin).
      - destruct (in_dec _ _ _) as [Hin|]; auto. apply in_map_iff in Hin. destruct Hin as (? & ? & _). discriminate. }
    destruct (perform_update h r o s s1 Hi P) as (s0 & E & E1 & E2 & E3 & E4).
    apply (IH s1 s'); auto.
    + intros o' Ho'. apply Ho. cbn. auto.
    + apply (perform_synced h r o s s1); auto.
    + rewrite E. apply (update_keeps h r Hlayout (op_force o) (op_targets r o) s0).
      * apply op_targets_sub.
      * intros g Hg. rewrite E1, E2. auto.
      * auto.
      * intros _. apply (resource_off_not_on _ x n); auto. rewrite <- (update_enables h (op_force o) (op_targets r o) s0), <- E. auto.
      * rewrite E2. auto.
Qed.
End Switching.

(** ** Running *)
Section Running.
Context {Env : Type}.
Variable read : nat -> Env -> bool * Env.
Variable clear : nat -> Env -> Env.
Variable serve : nat -> nat -> Env -> Env.
Variable service_active : nat -> nat -> bool.
Variable nexi : list nat.
Let run' := run read clear serve service_active nexi.
Let act := active service_active nexi.
Let flowact := flow_active service_active nexi.

Lemma flow_active_spec f : flowact f = true <-> exists n, In n nexi /\ service_active n f = true.
Proof. unfold flowact, flow_active. apply existsb_exists. Qed.
Lemma wf_children i cs : well_formed (Irq i cs) = true -> forall c, In c cs -> well_formed c = true.
Proof. cbn. intros H. apply andb_true_iff in H. destruct H as [_ H]. apply forallb_forall. auto. Qed.
Lemma wf_flows i cs : well_formed (Irq i cs) = true -> cs <> [] -> i_flows i = [].
Proof. cbn. intros H Hc. apply andb_true_iff in H. destruct H as [H _]. destruct (i_flows i), cs; congruence. Qed.
Lemma active_spec x : well_formed x = true -> act x = true <-> has_active service_active nexi x.
Proof.
  unfold act, has_active. induction x as [i cs IH] using irq_induction. intros Hw. destruct cs as [|c cs].
  - cbn [active]. rewrite existsb_exists. split.
    + intros (f & Hf & Ha). apply flow_active_spec in Ha. destruct Ha as (n & Hn & Ha). exists (Irq i []), f, n. repeat split; auto. constructor.
    + intros (y & f & n & Hb & Hf & Hn & Ha). inversion Hb; subst; [|contradiction]. exists f. split; auto. apply flow_active_spec. eauto.
  - cbn [active]. rewrite existsb_exists. split.
    + intros (d & Hd & Ha). apply IH in Ha; auto; [|eapply wf_children; eauto]. destruct Ha as (y & f & n & Hb & Ha).
      exists y, f, n. split; auto. econstructor; eauto.
    + intros (y & f & n & Hb & Hf & Hn & Ha). inversion Hb; subst.
      * cbn in Hf. rewrite (wf_flows _ _ Hw) in Hf by discriminate. destruct Hf.
      * exists c0. split; auto. apply IH; auto; [eapply wf_children; eauto|]. exists y, f, n. auto.
Qed.

Lemma served_app a b : served (a ++ b) = served a ++ served b.
Proof. apply flat_map_app. Qed.
Lemma cleared_app a b : cleared (a ++ b) = cleared a ++ cleared b.
Proof. apply flat_map_app. Qed.

(** ** The shape of a run *)
Definition body (x : irq) : Env -> Env * list event :=
  match x with
  | Irq i cs => run_policy (i_policy i) (clear_field clear (i_status i))
      (match cs with [] => isr serve nexi (i_flows i) | _ => fold_right (fun c k => chain (run' c) k) nothing cs end)
  end.
Lemma run_shape x e : 
  (snd (run' x e) = [] /\ act x = false /\ fst (run' x e) = e) \/
  (exists f e1, i_enable (info_of x) = Some f /\ read f e = (false, e1) /\ run' x e = (e1, [Read f false]) /\ act x = true) \/
  (act x = true /\ exists e1 t1, (i_enable (info_of x) = None /\ e1 = e /\ t1 = [] \/ exists f, i_enable (info_of x) = Some f /\ read f e = (true, e1) /\ t1 = [Read f true]) /\
    ((exists g e2, i_status (info_of x) = Some g /\ read g e1 = (false, e2) /\ run' x e = (e2, t1 ++ [Read g false])) \/
     (exists e2 t2, (i_status (info_of x) = None /\ e2 = e1 /\ t2 = [] \/ exists g, i_status (info_of x) = Some g /\ read g e1 = (true, e2) /\ t2 = [Read g true]) /\
       run' x e = (fst (body x e2), t1 ++ t2 ++ snd (body x e2))))).
Proof.
  destruct x as [i cs]. cbn [info_of]. unfold run'. cbn [run]. fold run'. unfold act.
  destruct (active service_active nexi (Irq i cs)) eqn:Ha; [|left; auto]. right.
  destruct (i_enable i) as [f|] eqn:He; cbn [read_field].
  - destruct (read f e) as [[|] e1] eqn:R1; [|left; exists f, e1; auto]. right. split; auto. exists e1, [Read f true].
    split; [right; eauto|]. destruct (i_status i) as [g|] eqn:Hs; cbn [read_field].
    + destruct (read g e1) as [[|] e2] eqn:R2; [|left; exists g, e2; auto]. right. exists e2, [Read g true]. split; [right; eauto|].
      cbn [body]. rewrite Hs. fold run'. destruct (run_policy _ _ _ e2); auto.
    + right. exists e1, []. split; [left; auto|]. cbn [body]. rewrite Hs. fold run'. destruct (run_policy _ _ _ e1); auto.
  - right. split; auto. exists e, []. split; [left; auto|]. destruct (i_status i) as [g|] eqn:Hs; cbn [read_field].
    + destruct (read g e) as [[|] e2] eqn:R2; [|left; exists g, e2; auto]. right. exists e2, [Read g true]. split; [right; eauto|].
      cbn [body]. rewrite Hs. fold run'. destruct (run_policy _ _ _ e2); auto.
    + right. exists e, []. split; [left; auto|]. cbn [body]. rewrite Hs. fold run'. destruct (run_policy _ _ _ e); auto.
Qed.
Lemma isr_trace flows e : snd (isr serve nexi flows e) = map (fun p => Serve (fst p) (snd p)) (flat_map (fun f => map (fun n => (n, f)) nexi) flows).
Proof.
  revert e. unfold isr. induction flows as [|f flows IH]; intros e; cbn [fold_right flat_map]; auto.
  unfold chain at 1.
  assert (Hn : forall l e, snd (fold_right (fun n k => chain (fun e => (serve n f e, [Serve n f])) k) nothing l e) = map (fun p => Serve (fst p) (snd p)) (map (fun n => (n, f)) l)).
  { induction l as [|n l IHl]; intros e0; cbn [fold_right map]; auto. unfold chain at 1. specialize (IHl (serve n f e0)).
    destruct (fold_right _ nothing l (serve n f e0)) as [e2 t2]. cbn in *. rewrite IHl. auto. }
  specialize (Hn nexi e). destruct (fold_right _ nothing nexi e) as [e1 t1]. cbn in Hn. specialize (IH e1).
  destruct (fold_right _ nothing flows e1) as [e2 t2]. cbn in *. rewrite map_app, Hn, IH. auto.
Qed.

(** ** Any environment: everything run was read as enabled and pending *)
Definition guarded (x : irq) (before : list event) (n f : nat) : Prop :=
  exists y p, path x y p /\ In f (i_flows (info_of y)) /\ In n nexi /\
    forall z, In z p -> act z = true /\ (forall g, i_enable (info_of z) = Some g -> In (Read g true) before) /\ (forall g, i_status (info_of z) = Some g -> In (Read g true) before).
Lemma guarded_more x b b' n f : (forall e, In e b -> In e b') -> guarded x b n f -> guarded x b' n f.
Proof. intros H (y & p & P1 & P2 & P3 & P4). exists y, p. repeat split; auto; specialize (P4 z H0) as (Q1 & Q2 & Q3); auto. Qed.
Lemma children_guarded (cs : list irq) :
  (forall c, In c cs -> forall e t1 n f t2, snd (run' c e) = t1 ++ Serve n f :: t2 -> guarded c t1 n f) ->
  forall e t1 n f t2, snd (fold_right (fun c k => chain (run' c) k) nothing cs e) = t1 ++ Serve n f :: t2 -> exists c, In c cs /\ guarded c t1 n f.
Proof.
  induction cs as [|c cs IH]; intros Hc e t1 n f t2; cbn [fold_right].
  - cbn. destruct t1; discriminate.
  - unfold chain at 1. destruct (run' c e) as [e1 u1] eqn:R1. destruct (fold_right _ nothing cs e1) as [e2 u2] eqn:R2. cbn [snd]. intros H.
    assert (Hsplit : (exists v, u1 = t1 ++ Serve n f :: v) \/ exists w, t1 = u1 ++ w /\ u2 = w ++ Serve n f :: t2).
    { clear -H. revert t1 H. induction u1 as [|a u1 IH]; intros [|b t1] H; cbn in H.
      - right. exists []. auto.
      - right. exists (b :: t1). auto.
      - injection H as -> H. left. exists u1. auto.
      - injection H as -> H. destruct (IH t1 H) as [(v & ->)|(w & -> & ->)]; [left; eexists; reflexivity|right; eexists; split; [reflexivity|auto]]. }
    destruct Hsplit as [(v & ->)|(w & -> & ->)].
    + exists c. split; [cbn; auto|]. apply (Hc c (or_introl eq_refl) e t1 n f v). rewrite R1. auto.
    + destruct (IH (fun d Hd => Hc d (or_intror Hd)) e1 w n f t2) as (d & Hd & Hg); [rewrite R2; auto|]. exists d. split; [cbn; auto|].
      apply (guarded_more d w (u1 ++ w)); auto. intros. apply in_or_app. auto.
Qed.
Lemma policy_serve p clr (bd : Env -> Env * list event) e t1 n f t2 : (forall e, served (snd (clr e)) = []) ->
  snd (run_policy p clr bd e) = t1 ++ Serve n f :: t2 ->
  exists e0 u1 u2, snd (bd e0) = u1 ++ Serve n f :: u2 /\ (forall ev, In ev u1 -> In ev t1).
Proof.
  intros Hclr. destruct p; cbn [run_policy]; unfold chain.
  - destruct (clr e) as [e1 c1] eqn:C. specialize (Hclr e). rewrite C in Hclr. cbn [snd] in Hclr. destruct (bd e1) as [e2 c2] eqn:B. cbn [snd].
    intros H. exists e1. rewrite B. cbn [snd]. clear -H Hclr. revert t1 H Hclr. induction c1 as [|a c1 IH]; intros t1 H Hclr.
    + exists t1, t2. auto.
    + destruct t1 as [|b t1]; cbn in H; injection H as -> H; [cbn in Hclr; discriminate|].
      destruct (IH t1 H) as (u1 & u2 & H1 & H2). { destruct b; cbn in Hclr; auto; discriminate. }
      exists u1, u2. split; auto. intros. right. auto.
  - destruct (bd e) as [e1 c1] eqn:B. destruct (clr e1) as [e2 c2] eqn:C. specialize (Hclr e1). rewrite C in Hclr. cbn [snd] in Hclr |- *.
    intros H. exists e. rewrite B. cbn [snd]. clear -H Hclr. revert t1 H. induction c1 as [|a c1 IH]; intros t1 H.
    + exfalso. cbn in H. subst c2. rewrite served_app in Hclr. apply app_eq_nil in Hclr. destruct Hclr as [_ Hclr]. discriminate.
    + destruct t1 as [|b t1]; cbn in H; injection H as -> H; [exists [], c1; split; [auto|intros ? []]|].
      destruct (IH t1 H) as (u1 & u2 & -> & H2). exists (b :: u1), u2. split; auto. cbn. intuition.
  - intros H. exists e, t1, t2. auto.
Qed.
Lemma run_guarded x : forall e t1 n f t2, snd (run' x e) = t1 ++ Serve n f :: t2 -> guarded x t1 n f.
Proof.
  induction x as [i cs IH] using irq_induction. intros e t1 n f t2 H.
  destruct (run_shape (Irq i cs) e) as [(R & _)|[(g & e1 & _ & _ & R & _)|(Ha & e1 & u1 & Hen & [(g & e2 & Hst & _ & R)|(e2 & u2 & Hst & R)])]].
  - rewrite R in H. destruct t1; discriminate.
  - rewrite R in H. cbn in H. destruct t1 as [|a [|]]; cbn in H; discriminate.
  - rewrite R in H. cbn in H. exfalso. assert (Hs := f_equal served H). rewrite !served_app in Hs. cbn in Hs.
    destruct Hen as [(_ & _ & ->)|(f' & _ & _ & ->)]; cbn in Hs; symmetry in Hs; apply app_eq_nil in Hs; destruct Hs; discriminate.
  - rewrite R in H. cbn [snd] in H.
    assert (Hu : exists w, t1 = u1 ++ u2 ++ w /\ snd (body (Irq i cs) e2) = w ++ Serve n f :: t2).
    { destruct Hen as [(_ & _ & ->)|(f' & _ & _ & ->)], Hst as [(_ & _ & ->)|(g' & _ & _ & ->)]; cbn in H.
      - exists t1. auto.
      - destruct t1 as [|a t1]; cbn in H; [discriminate|]. injection H as <- H. exists t1. auto.
      - destruct t1 as [|a t1]; cbn in H; [discriminate|]. injection H as <- H. exists t1. auto.
      - destruct t1 as [|a [|b t1]]; cbn in H; [discriminate|discriminate|]. injection H as <- <- H. exists t1. auto. }
    destruct Hu as (w & -> & Hb).
    assert (Hself : forall more, let z := Irq i cs in act z = true /\ (forall g, i_enable (info_of z) = Some g -> In (Read g true) (u1 ++ u2 ++ more)) /\ (forall g, i_status (info_of z) = Some g -> In (Read g true) (u1 ++ u2 ++ more))).
    { intros more z. split; [auto|]. split; intros g Hg; rewrite !in_app_iff.
      - destruct Hen as [(Hen & _)|(f' & Hen & _ & ->)]; fold z in Hen; rewrite Hen in Hg; [discriminate|]. injection Hg as ->. cbn. auto.
      - destruct Hst as [(Hst & _)|(f' & Hst & _ & ->)]; fold z in Hst; rewrite Hst in Hg; [discriminate|]. injection Hg as ->. cbn. auto. }
    cbn [body] in Hb. apply policy_serve in Hb; [|intros e0; destruct (i_status i); reflexivity].
    destruct Hb as (e0 & v1 & v2 & Hb & Hsub). destruct cs as [|c cs].
    + rewrite isr_trace in Hb. exists (Irq i []), [Irq i []]. split; [constructor|].
      assert (Hin : In (n, f) (flat_map (fun f => map (fun n => (n, f)) nexi) (i_flows i))).
      { assert (Hin : In (Serve n f) (v1 ++ Serve n f :: v2)) by (apply in_or_app; cbn; auto). rewrite <- Hb in Hin. apply in_map_iff in Hin.
        destruct Hin as ([n' f'] & [= -> ->] & Hin). auto. }
      apply in_flat_map in Hin. destruct Hin as (f' & Hf & Hin). apply in_map_iff in Hin. destruct Hin as (n' & [= -> ->] & Hn).
      split; [auto|]. split; [auto|]. intros z [<-|[]]. apply Hself.
    + apply children_guarded in Hb; [|intros d Hd; apply IH; auto]. destruct Hb as (d & Hd & (y & p & P1 & P2 & P3 & P4)).
      exists y, (Irq i (c :: cs) :: p). split; [econstructor; eauto|]. split; [auto|]. split; [auto|]. intros z [<-|Hz]; [apply Hself|].
      specialize (P4 z Hz) as (Q1 & Q2 & Q3). split; [auto|]. split; intros g Hg; rewrite !in_app_iff; right; right; apply Hsub; auto.
Qed.

(** ** Where the status is cleared *)
Lemma clear_place x e : served (snd (run' x e)) <> [] -> exists rd rest,
  (forall ev, In ev rd -> exists f, ev = Read f true) /\
  match i_policy (info_of x), i_status (info_of x) with
  | ClearFirst, Some f => snd (run' x e) = rd ++ Clear f :: rest
  | ClearLast, Some f => snd (run' x e) = rd ++ rest ++ [Clear f]
  | _, _ => snd (run' x e) = rd ++ rest
  end /\
  match x with
  | Irq i [] => rest = map (fun p => Serve (fst p) (snd p)) (own_services nexi x)
  | Irq i cs => exists e0, rest = snd (fold_right (fun c k => chain (run' c) k) nothing cs e0)
  end.
Proof.
  intros H. destruct x as [i cs]. cbn [info_of].
  destruct (run_shape (Irq i cs) e) as [(R & _)|[(g & e1 & _ & _ & R & _)|(Ha & e1 & u1 & Hen & [(g & e2 & Hst & _ & R)|(e2 & u2 & Hst & R)])]].
  - rewrite R in H. destruct H; auto.
  - rewrite R in H. destruct H; auto.
  - rewrite R in H. cbn [snd] in H. rewrite served_app in H. destruct Hen as [(_ & _ & ->)|(f' & _ & _ & ->)]; destruct H; auto.
  - rewrite R. cbn [snd fst].
    assert (Hrd : forall ev, In ev (u1 ++ u2) -> exists f, ev = Read f true).
    { intros ev Hev. apply in_app_or in Hev. destruct Hen as [(_ & _ & ->)|(f' & _ & _ & ->)], Hst as [(_ & _ & ->)|(g' & _ & _ & ->)]; cbn in Hev; intuition; subst; eauto. }
    assert (Hrest : forall e0, match cs with [] => snd (match cs with [] => isr serve nexi (i_flows i) | _ => fold_right (fun c k => chain (run' c) k) nothing cs end e0) = map (fun p => Serve (fst p) (snd p)) (own_services nexi (Irq i cs))
       | _ => exists e1, snd (match cs with [] => isr serve nexi (i_flows i) | _ => fold_right (fun c k => chain (run' c) k) nothing cs end e0) = snd (fold_right (fun c k => chain (run' c) k) nothing cs e1) end).
    { intros e0. destruct cs; [apply isr_trace|exists e0; auto]. }
    assert (Hst' : i_status i = None /\ e2 = e1 /\ u2 = [] \/ exists g, i_status i = Some g) by (destruct Hst as [|(g & Hg & _)]; [left; auto|right; eauto]).
    cbn [body]. set (bd := match cs with [] => _ | _ => _ end) in *.
    destruct (i_policy i); cbn [run_policy]; unfold chain.
    + destruct (i_status i) as [f|] eqn:Ef; cbn [clear_field].
      * destruct (bd (clear f e2)) as [e3 t3] eqn:B. exists (u1 ++ u2), t3. split; auto. cbn. rewrite app_assoc. split; auto. specialize (Hrest (clear f e2)). rewrite B in Hrest. auto.
      * destruct (bd e2) as [e3 t3] eqn:B. exists (u1 ++ u2), t3. split; auto. cbn. rewrite app_assoc. split; auto. specialize (Hrest e2). rewrite B in Hrest. auto.
    + destruct (bd e2) as [e3 t3] eqn:B. specialize (Hrest e2). rewrite B in Hrest. destruct (i_status i) as [f|] eqn:Ef; cbn [clear_field].
      * exists (u1 ++ u2), t3. split; auto. cbn. rewrite app_assoc. split; auto.
      * exists (u1 ++ u2), t3. split; auto. cbn. rewrite app_nil_r, app_assoc. split; auto.
    + specialize (Hrest e2). exists (u1 ++ u2), (snd (bd e2)). split; auto. destruct (i_status i); rewrite app_assoc; split; auto.
Qed.
End Running.

(** Proofs about the operations of the dynamic controller. *)
From Coq Require Import String Bool Arith List NArith Lia.
From Verif Require Import IrqModel IrqSpec IrqProofs.
Import ListNotations.
Local Open Scope nat_scope.

Lemma land_uniform v m b : (forall k, N.testbit m k = true -> N.testbit v k = b) <-> N.land v m = (if b then m else 0%N).
Proof.
  split.
  - intros H. apply N.bits_inj. intros k. rewrite N.land_spec. specialize (H k). destruct (N.testbit m k) eqn:Hm.
    + rewrite H by auto. destruct b; [rewrite Hm; auto|rewrite N.bits_0; auto].
    + rewrite andb_false_r. destruct b; [rewrite Hm; auto|rewrite N.bits_0; auto].
  - intros H k Hm. apply (f_equal (fun z => N.testbit z k)) in H. rewrite N.land_spec, Hm, andb_true_r in H. rewrite H.
    destruct b; [auto|apply N.bits_0].
Qed.

Section Operations.
Variable h : hal.
Variable r : root.
Hypothesis Hlayout : layout_ok h r.

(** The bits of x all show [b]. *)
Definition shows (regs : nat -> N) (x : irq) (b : bool) : Prop :=
  forall g k, register_of h x = Some g -> N.testbit (mask_for h x) k = true -> N.testbit (regs g) k = b.
Lemma shows_field regs x b : shows regs x b <-> forall f, i_enable (info_of x) = Some f -> N.land (regs (reg_of h f)) (mask_of h f) = if b then mask_of h f else 0%N.
Proof.
  unfold shows, register_of, mask_for. destruct (i_enable (info_of x)) as [f|]; cbn.
  - split.
    + intros H f' [= <-]. apply land_uniform. intros k. apply H. reflexivity.
    + intros H g k [= <-]. apply land_uniform. auto.
  - split; [discriminate|]. intros _ g k H. discriminate.
Qed.
Lemma mask_nonzero x f : in_tree r x -> i_enable (info_of x) = Some f -> mask_of h f <> 0%N.
Proof. intros Hx Hf. apply (Hlayout x x f f); auto. Qed.
Lemma agrees_shows s x : agrees h s x <-> shows (registers s) x (is_on (enables s) x).
Proof.
  rewrite shows_field. unfold agrees, field_on, field_off. split.
  - intros H f Hf. destruct (H f Hf) as [H1 H2]. destruct (is_on (enables s) x) eqn:E; [apply H1, is_on_spec; auto|apply H2, is_on_false; auto].
  - intros H f Hf. specialize (H f Hf). split; intros Hs; [apply is_on_spec in Hs|apply is_on_false in Hs]; rewrite Hs in H; auto.
Qed.

Lemma enable_register_spec g : enable_register h r g <-> exists x, in_tree r x /\ register_of h x = Some g.
Proof.
  unfold enable_register, register_of. split.
  - intros (x & f & H1 & H2 & H3). exists x. rewrite H2. cbn. split; congruence.
  - intros (x & H1 & H2). destruct (i_enable (info_of x)) as [f|] eqn:E; [|discriminate]. injection H2 as H2. eauto.
Qed.

(** ** One update *)
Section One.
Variable force : bool.
Variable xs : list irq.
Variable s : state.
Hypothesis Hsub : forall y, In y xs -> in_tree r y.
Hypothesis Hsync : synced h r s.
Let s' := update h force xs s.
Lemma update_enables : enables s' = enables s.
Proof. apply (u_enables _ _ _ _ _ _ (update_spec h force xs s)). Qed.
Lemma update_value g : enable_register h r g ->
  registers s' g = (if in_dec Nat.eq_dec g (registers_of h xs) then computed h xs (enables s) (shadow s g) g else shadow s g) /\ shadow s' g = registers s' g.
Proof.
  intros Hg. destruct (update_spec h force xs s) as [_ US UR _]. specialize (US g). specialize (UR g). fold s' in US, UR.
  rewrite US, UR. destruct (in_dec _ g _); [|rewrite (Hsync g Hg); auto]. destruct (force || _) eqn:Hc; auto.
  apply orb_false_iff in Hc. destruct Hc as [_ Hc]. apply negb_false_iff, N.eqb_eq in Hc. rewrite (Hsync g Hg). auto.
Qed.
Lemma update_synced : synced h r s'.
Proof. intros g Hg. destruct (update_value g Hg) as [_ H]. auto. Qed.
Lemma update_shows x : In x xs -> shows (registers s') x (is_on (enables s) x).
Proof.
  intros Hx g k Hg Hk. destruct (update_value g) as [H1 _]; [apply enable_register_spec; exists x; auto|]. rewrite H1.
  destruct (in_dec _ g _) as [Hi|Hi].
  - apply (computed_own h r Hlayout); auto.
  - destruct Hi. apply registers_of_spec. eauto.
Qed.
(** A bit that belongs to no updated interrupt stays. *)
Lemma update_frame g k : (forall x, In x xs -> register_of h x = Some g -> N.testbit (mask_for h x) k = false) ->
  N.testbit (registers s' g) k = N.testbit (registers s g) k.
Proof.
  intros H. destruct (update_spec h force xs s) as [_ US UR _]. specialize (UR g). fold s' in UR. rewrite UR.
  destruct (in_dec _ g _) as [Hi|]; auto. destruct (force || _); auto. rewrite computed_other; auto. rewrite Hsync; auto.
  apply registers_of_spec in Hi. destruct Hi as (x & Hx & Hg). apply enable_register_spec. eauto.
Qed.
Lemma update_other x : in_tree r x -> ~ In x xs -> forall g k, register_of h x = Some g -> N.testbit (mask_for h x) k = true ->
  N.testbit (registers s' g) k = N.testbit (registers s g) k.
Proof.
  intros Hx Hn g k Hg Hk. apply update_frame. intros y Hy Hyg. destruct (N.testbit (mask_for h y) k) eqn:E; auto.
  exfalso. assert (x = y) by (apply (bit_owner h r Hlayout x y g k); auto). congruence.
Qed.
Lemma irq_in_dec (x : irq) (l : list irq) : In x l \/ ~ In x l.
Proof.
  assert (Hd : forall a b : irq, a = b \/ a <> b).
  { induction a as [i cs IH] using irq_induction. intros [j ds]. 
    assert (Hi : {i = j} + {i <> j}) by (repeat decide equality).
    destruct Hi as [->|Hi]; [|right; congruence].
    assert (Hl : cs = ds \/ cs <> ds).
    { revert ds IH. induction cs as [|c cs IHl]; intros [|d ds] IH; auto; [right; discriminate..|].
      destruct (IH c (or_introl eq_refl) d) as [->|]; [|right; congruence].
      destruct (IHl ds) as [->|]; [intros; apply IH; cbn; auto|auto|right; congruence]. }
    destruct Hl as [->|]; [auto|right; congruence]. }
  induction l as [|y l IH]; [auto|]. destruct (Hd x y) as [->|]; [cbn; auto|]. destruct IH; cbn; [auto|]. right. intros [|]; congruence.
Qed.
Lemma update_keeps x b : in_tree r x -> (In x xs -> is_on (enables s) x = b) -> shows (registers s) x b -> shows (registers s') x b.
Proof.
  intros Hx Hon Hs. destruct (irq_in_dec x xs) as [Hi|Hi].
  - rewrite <- (Hon Hi). apply update_shows; auto.
  - intros g k Hg Hk. rewrite (update_other x Hx Hi g k Hg Hk). apply Hs; auto.
Qed.
End One.

(** ** Switching *)
Lemma set_all v i ts : forall s s1, fold_left (set_one r i v) ts (Some s) = Some s1 ->
  (forall t, enables s1 t = if in_dec item_eq_dec t ts then (if known r t then v else enables s t) else enables s t) /\
  shadow s1 = shadow s /\ registers s1 = registers s /\ writes s1 = writes s /\ (i = false -> forall t, In t ts -> known r t = true).
Proof.
  assert (Hnone : forall ts, fold_left (set_one r i v) ts None = None) by (induction ts0; cbn; auto).
  induction ts as [|t ts IH]; intros s s1; cbn [fold_left].
  - intros [= <-]. repeat split; auto; intros _ t [].

  - cbn [set_one]. destruct (known r t) eqn:Hk.
    + intros H. apply IH in H. destruct H as (H1 & H2 & H3 & H4 & H5). repeat split; auto.
      * intros u. rewrite H1. cbn [with_enables enables]. unfold set_item.
        destruct (in_dec item_eq_dec u ts) as [Hi|Hi], (in_dec item_eq_dec u (t :: ts)) as [Hj|Hj], (item_eq_dec u t) as [->|Hne]; auto;
          try (rewrite Hk; auto; fail); try (destruct Hj; cbn; auto; fail); destruct Hj as [|]; congruence.
      * intros Hi u [<-|Hu]; auto.
    + destruct i; [|rewrite Hnone; discriminate]. intros H. apply IH in H. destruct H as (H1 & H2 & H3 & H4 & H5). repeat split; auto; [|discriminate].
      intros u. rewrite H1. destruct (in_dec item_eq_dec u ts) as [Hi|Hi], (in_dec item_eq_dec u (t :: ts)) as [Hj|Hj]; auto;
        try (destruct Hj; cbn; auto; fail). destruct Hj as [<-|]; [rewrite Hk; auto|congruence].
Qed.
Lemma set_all_some v i ts : (forall t, In t ts -> known r t = true) -> forall s, exists s1, fold_left (set_one r i v) ts (Some s) = Some s1.
Proof.
  induction ts as [|t ts IH]; intros H s; cbn [fold_left]; [eauto|]. cbn [set_one]. rewrite (H t) by (cbn; auto). apply IH. intros; apply H; cbn; auto.
Qed.

Lemma influences_spec p t y : influences p t y = true <->
  match t with
  | Flow f => In f (i_flows (info_of y)) \/ (p = true /\ depends_on y t)
  | Resource n => In n (i_resources (info_of y)) \/ (p = true /\ exists c, In c (children_of y) /\ In n (i_resources (info_of c)))
  | Name _ => False
  end.
Proof.
  destruct t as [n|f|z]; cbn [influences].
  - rewrite memb_spec. destruct p.
    + unfold all_resources_of. rewrite in_app_iff, in_flat_map. unfold resources_of. tauto.
    + unfold resources_of. intuition discriminate.
  - rewrite memb_spec. destruct p.
    + rewrite all_flows_spec. unfold depends_on, mentions. split; [auto|]. intros [H|[_ H]]; auto. exists y. split; [constructor|auto].
    + unfold flows_of. intuition discriminate.
  - split; [discriminate|tauto].
Qed.
Lemma influences_known p t y : in_tree r y -> influences p t y = true -> known r t = true.
Proof.
  intros Hy H. apply influences_spec in H. apply (depends_known r y); auto. destruct t as [n|f|z]; [| |destruct H].
  - destruct H as [H|[_ (c & Hc & H)]]; [exists y; split; [constructor|auto]|]. exists c. split; auto.
    destruct y as [i cs]. eapply below_child; eauto. constructor.
  - destruct H as [H|[_ H]]; auto. exists y. split; [constructor|auto].
Qed.
Lemma with_name_spec z x : In x (with_name r z) <-> in_tree r x /\ name_of x = z.
Proof. unfold with_name. rewrite filter_In, in_tree_descendants, String.eqb_eq. tauto. Qed.
Lemma influenced_spec p ts z : In z (influenced_names r p ts) <-> exists t y, In t ts /\ in_tree r y /\ name_of y = z /\ influences p t y = true.
Proof.
  unfold influenced_names. rewrite in_flat_map. split.
  - intros (t & Ht & Hz). destruct (known r t); [|destruct Hz]. apply in_map_iff in Hz. destruct Hz as (y & <- & Hy). apply filter_In in Hy.
    exists t, y. rewrite in_tree_descendants. tauto.
  - intros (t & y & Ht & Hy & <- & Hi). exists t. split; auto. rewrite (influences_known p t y Hy Hi). apply in_map. apply filter_In.
    rewrite <- in_tree_descendants. auto.
Qed.
Lemma affected_touched v p i ts x : In x (affected r p ts) <-> touched r (Switch v p i ts) x.
Proof.
  unfold affected, touched. rewrite in_flat_map. split.
  - intros (z & Hz & Hx). apply with_name_spec in Hx. destruct Hx as [Hx <-]. split; auto. apply nodup_In, in_app_iff in Hz.
    destruct Hz as [Hz|Hz]; apply influenced_spec in Hz; destruct Hz as (t & y & Ht & Hy & Hn & Hi); apply filter_In in Ht;
      exists t, y; (split; [tauto|]); (split; [auto|]); (split; [auto|]); apply influences_spec in Hi; auto.
  - intros (Hx & t & y & Ht & Hy & Hn & Hi). exists (name_of x). rewrite with_name_spec. split; auto. apply nodup_In, in_app_iff.
    apply influences_spec in Hi. destruct t as [n|f|w]; [left|right|discriminate]; apply influenced_spec; eexists; exists y; (split; [apply filter_In; split; eauto|]); auto.
Qed.
Lemma affected_name_touched v i ns x : In x (affected_by_name r ns) <-> touched r (SwitchNames v i ns) x.
Proof.
  unfold affected_by_name, touched. rewrite in_flat_map. split.
  - intros (z & Hz & Hx). apply with_name_spec in Hx. destruct Hx as [Hx <-]. auto.
  - intros [Hx Hn]. exists (name_of x). rewrite with_name_spec. auto.
Qed.
Lemma affected_sub p ts y : In y (affected r p ts) -> in_tree r y.
Proof. intros H. apply (affected_touched true p true) in H. apply H. Qed.
Lemma affected_name_sub ns y : In y (affected_by_name r ns) -> in_tree r y.
Proof. intros H. apply (affected_name_touched true true) in H. apply H. Qed.

(** ** The operations, uniformly *)
(** What an operation other than init does: it changes the enables, then
    updates. *)
Definition op_targets (o : operation) : list irq :=
  match o with
  | Switch v p i ts => affected r p ts
  | SwitchNames v i ns => affected_by_name r ns
  | Refresh a => filter has_enable_field (if a then descendants r else r)
  | Reset => filter has_enable_field (descendants r)
  | Init _ al => filter (fun x => negb (al x)) (filter has_enable_field (descendants r))
  end.
Lemma op_targets_sub o x : In x (op_targets o) -> in_tree r x.
Proof.
  destruct o as [v p i ts|v i ns|a| |a al]; cbn [op_targets].
  - apply affected_sub.
  - apply affected_name_sub.
  - intros H. apply filter_In in H. destruct a; [apply in_tree_descendants; tauto|]. exists x. split; [tauto|constructor].
  - intros H. apply filter_In in H. apply in_tree_descendants; tauto.
  - intros H. apply filter_In in H. destruct H as [H _]. apply filter_In in H. apply in_tree_descendants; tauto.
Qed.
Lemma register_field x g : register_of h x = Some g -> has_enable_field x = true.
Proof. unfold register_of, has_enable_field. destruct (i_enable (info_of x)); [auto|discriminate]. Qed.
(** Touched interrupts with a field are targets, and targets are touched. *)
Lemma targets_touched o x : In x (op_targets o) -> touched r o x.
Proof.
  intros H. pose proof (op_targets_sub o x H) as Hx. destruct o as [v p i ts|v i ns|a| |a al]; cbn [op_targets] in H.
  - apply affected_touched; auto.
  - apply affected_name_touched; auto.
  - apply filter_In in H. split; auto. destruct a; tauto.
  - split; auto.
  - apply filter_In in H. split; auto. destruct (al x); [destruct H; discriminate|auto].
Qed.
Lemma touched_targets o x g : touched r o x -> register_of h x = Some g -> In x (op_targets o).
Proof.
  intros H Hg. apply register_field in Hg. destruct o as [v p i ts|v i ns|a| |a al]; cbn [op_targets].
  - eapply affected_touched; eauto.
  - eapply affected_name_touched; eauto.
  - apply filter_In. split; auto. destruct H as [H1 H2]. destruct a; [apply in_tree_descendants; auto|auto].
  - apply filter_In. split; auto. apply in_tree_descendants. apply H.
  - destruct H as [H1 H2]. rewrite !filter_In. rewrite H2. repeat split; auto. apply in_tree_descendants. auto.
Qed.
Definition op_force (o : operation) : bool := match o with Refresh _ | Reset => true | _ => false end.
Definition is_init (o : operation) : Prop := match o with Init _ _ => True | _ => False end.
Lemma perform_update o s s' : ~ is_init o -> perform h r o s = Some s' ->
  exists s1, s' = update h (op_force o) (op_targets o) s1 /\ shadow s1 = shadow s /\ registers s1 = registers s /\ writes s1 = writes s /\
    (forall t, enables s1 t = match o with
       | Switch v p i ts => if in_dec item_eq_dec t ts then (if known r t then v else enables s t) else enables s t
       | SwitchNames v i ns => if in_dec item_eq_dec t (map Name ns) then (if known r t then v else enables s t) else enables s t
       | Reset => false
       | _ => enables s t
       end).
Proof.
  intros Hi H. destruct o as [v p i ts|v i ns|a| |a al]; cbn [perform op_targets op_force] in *.
  - unfold switch in H. destruct (fold_left _ ts (Some s)) as [s1|] eqn:E; [|discriminate]. injection H as <-. exists s1.
    apply set_all in E. destruct E as (E1 & E2 & E3 & E4 & _). auto.
  - unfold switch_names in H. destruct (fold_left _ _ (Some s)) as [s1|] eqn:E; [|discriminate]. injection H as <-. exists s1.
    apply set_all in E. destruct E as (E1 & E2 & E3 & E4 & _). auto.
  - injection H as <-. exists s. auto.
  - injection H as <-. exists (with_enables s (fun _ => false)). auto.
  - destruct (Hi I).
Qed.
Lemma perform_enables o s s' : ~ is_init o -> perform h r o s = Some s' -> forall t,
  enables s' t = match o with
       | Switch v p i ts => if in_dec item_eq_dec t ts then (if known r t then v else enables s t) else enables s t
       | SwitchNames v i ns => if in_dec item_eq_dec t (map Name ns) then (if known r t then v else enables s t) else enables s t
       | Reset => false
       | _ => enables s t
       end.
Proof. intros Hi H t. destruct (perform_update o s s' Hi H) as (s1 & -> & _ & _ & _ & H4). rewrite update_enables. apply H4. Qed.

Lemma perform_synced o s s' : ~ is_init o -> synced h r s -> perform h r o s = Some s' -> synced h r s'.
Proof.
  intros Hi Hs H. destruct (perform_update o s s' Hi H) as (s1 & -> & H1 & H2 & _). apply update_synced.
  intros g Hg. rewrite H1, H2. auto.
Qed.
(** Every touched interrupt agrees with the rule afterwards. *)
Lemma perform_touched o s s' x : ~ is_init o -> synced h r s -> perform h r o s = Some s' -> touched r o x -> agrees h s' x.
Proof.
  intros Hi Hs H Ht. destruct (perform_update o s s' Hi H) as (s1 & -> & H1 & H2 & _). apply agrees_shows. rewrite update_enables.
  intros g k Hg Hk. apply (update_shows (op_force o) (op_targets o) s1) with (x := x); auto.
  - apply op_targets_sub.
  - intros g' Hg'. rewrite H1, H2. auto.
  - eapply touched_targets; eauto.
Qed.
(** Bits that belong to no touched interrupt stay. *)
Lemma perform_frame o s s' g k : ~ is_init o -> synced h r s -> perform h r o s = Some s' ->
  (forall x f, touched r o x -> i_enable (info_of x) = Some f -> reg_of h f = g -> N.testbit (mask_of h f) k = false) ->
  N.testbit (registers s' g) k = N.testbit (registers s g) k.
Proof.
  intros Hi Hs H Ht. destruct (perform_update o s s' Hi H) as (s1 & -> & H1 & H2 & _). rewrite <- H2. apply update_frame.
  - apply op_targets_sub.
  - intros g' Hg'. rewrite H1, H2. auto.
  - intros x Hx Hg. apply targets_touched in Hx. unfold register_of in Hg. unfold mask_for. destruct (i_enable (info_of x)) as [f|] eqn:E; [|discriminate].
    injection Hg as Hg. eapply Ht; eauto.
Qed.
(** Writes: at most one per register, and for switches only if the value is new. *)
Lemma perform_writes o s s' : ~ is_init o -> synced h r s -> perform h r o s = Some s' ->
  exists w, writes s' = (w ++ writes s)%list /\ NoDup (map fst w) /\
    forall g v, In (g, v) w -> registers s' g = v /\ enable_register h r g /\ (is_switch o -> v <> registers s g).
Proof.
  intros Hi Hs H. destruct (perform_update o s s' Hi H) as (s1 & -> & H1 & H2 & H3 & _).
  destruct (update_spec h (op_force o) (op_targets o) s1) as [_ US UR (w & W1 & W2 & W3)]. exists w. rewrite <- H3. repeat split; auto.
  - apply W3 in H0. destruct H0 as (V1 & V2 & V3). rewrite UR. destruct (in_dec _ g _); [|congruence]. rewrite <- V2.
    destruct V3 as [->|V3]; auto. destruct (v =? shadow s1 g)%N eqn:E; [apply N.eqb_eq in E; congruence|]. rewrite orb_true_r. auto.
  - apply W3 in H0. destruct H0 as (V1 & _). apply registers_of_spec in V1. destruct V1 as (x & Hx & Hg). apply enable_register_spec.
    exists x. split; auto. eapply op_targets_sub; eauto.
  - intros Hsw. apply W3 in H0. destruct H0 as (V1 & V2 & V3). apply registers_of_spec in V1. destruct V1 as (x & Hx & Hg).
    assert (He : enable_register h r g) by (apply enable_register_spec; exists x; split; auto; eapply op_targets_sub; eauto).
    rewrite (Hs g He), <- H1. destruct o; cbn in Hsw, V3; try tauto; destruct V3; auto; discriminate.
Qed.
Lemma perform_written o s s' g : ~ is_init o -> synced h r s -> perform h r o s = Some s' -> registers s' g <> registers s g ->
  exists v w, writes s' = (w ++ writes s)%list /\ In (g, v) w.
Proof.
  intros Hi Hs H Hne. destruct (perform_update o s s' Hi H) as (s1 & -> & H1 & H2 & H3 & _).
  destruct (update_spec h (op_force o) (op_targets o) s1) as [_ US UR (w & W1 & W2 & W3)].
  eexists. exists w. rewrite <- H3. split; auto. apply W3. split; [|split; [reflexivity|]].
  - rewrite UR in Hne. destruct (in_dec _ g _); auto. rewrite H2 in Hne. congruence.
  - rewrite UR in Hne. destruct (in_dec _ g _); [|rewrite H2 in Hne; congruence]. destruct (op_force o); auto. right. cbn in Hne.
    destruct (computed _ _ _ _ g =? shadow s1 g)%N eqn:E; cbn in Hne; [rewrite H2 in Hne; congruence|]. apply N.eqb_neq in E. auto.
Qed.

(** ** Histories *)
Lemma perform_agrees o s s' : reaches_all r o -> synced h r s -> perform h r o s = Some s' ->
  (forall x, in_tree r x -> agrees h s x) -> forall x, in_tree r x -> agrees h s' x.
Proof.
  intros Hr Hs H Ha x Hx. assert (Hi : ~ is_init o) by (destruct o; auto).
  pose proof (perform_enables o s s' Hi H) as He.
  destruct (perform_update o s s' Hi H) as (s1 & E & H1 & H2 & _ & H4).
  assert (Hs1 : synced h r s1) by (intros g Hg; rewrite H1, H2; auto).
  destruct (irq_in_dec x (op_targets o)) as [Ht|Ht].
  - apply targets_touched in Ht. apply (perform_touched o s s' x); auto.
  - apply agrees_shows.
    assert (Hon : forall g, register_of h x = Some g -> is_on (enables s') x = is_on (enables s) x).
    { intros g Hg. apply is_on_ext. intros t Hd. rewrite He.
      assert (Hk := depends_known r x t Hx Hd).
      destruct o as [v p i ts|v i ns|a| |a al]; auto.
      - destruct (in_dec item_eq_dec t ts) as [Hin|]; auto. exfalso. apply Ht. apply (touched_targets (Switch v p i ts) x g); auto.
        split; auto. exists t, x. repeat split; auto. specialize (Hr t x Hin Hx Hd). destruct t; [tauto| |tauto]. destruct Hr; auto.
      - destruct (in_dec item_eq_dec t (map Name ns)) as [Hin|]; auto. exfalso. apply Ht. apply (touched_targets (SwitchNames v i ns) x g); auto.
        split; auto. apply in_map_iff in Hin. destruct Hin as (n & <- & Hn). eapply Hr; eauto.
      - exfalso. apply Ht. apply (touched_targets Reset x g); auto. split; auto. }
    intros g k Hg Hk. rewrite (Hon g Hg), E. rewrite (update_other (op_force o) (op_targets o) s1) with (x := x); auto; [|apply op_targets_sub].
    rewrite H2. exact (proj1 (agrees_shows s x) (Ha x Hx) g k Hg Hk).
Qed.
Lemma perform_all_agrees os : forall s s', (forall o, In o os -> reaches_all r o) -> synced h r s -> perform_all h r os s = Some s' ->
  (forall x, in_tree r x -> agrees h s x) -> synced h r s' /\ forall x, in_tree r x -> agrees h s' x.
Proof.
  induction os as [|o os IH]; intros s s' Hr Hs H Ha; cbn [perform_all] in H.
  - injection H as <-. auto.
  - destruct (perform h r o s) as [s1|] eqn:E; [|discriminate]. assert (Ho : reaches_all r o) by (apply Hr; cbn; auto).
    apply (IH s1 s'); auto.
    + intros o' Ho'. apply Hr. cbn. auto.
    + apply (perform_synced o s s1); auto. destruct o; auto.
    + apply (perform_agrees o s s1); auto.
Qed.

(** ** Init *)
Lemma init_spec active already s : before_init h r already s ->
  let s' := init h r active already s in
  synced h r s' /\ (forall x, in_tree r x -> already x = false -> agrees h s' x) /\
  (forall x, in_tree r x -> already x = true -> shows (registers s') x true) /\
  forall t, enables s' t = known r t && match t with Name _ => true | _ => active t end.
Proof.
  intros Hb. cbn zeta. unfold init. set (pot := filter has_enable_field (descendants r)).
  set (s1 := {| enables := _; shadow := _; registers := _; writes := _ |}).
  assert (Hsub : forall y, In y (filter (fun x => negb (already x)) pot) -> in_tree r y).
  { intros y Hy. apply filter_In in Hy. destruct Hy as [Hy _]. apply filter_In in Hy. apply in_tree_descendants. tauto. }
  assert (Hs : synced h r s1).
  { intros g Hg. cbn [registers shadow s1]. assert (Hm : memb g (registers_of h pot) = true).
    { apply memb_spec, registers_of_spec. apply enable_register_spec in Hg. destruct Hg as (x & Hx & Hxg). exists x. split; auto.
      apply filter_In. rewrite <- in_tree_descendants. split; auto. eapply register_field; eauto. }
    rewrite Hm, N.lor_0_l. apply N.bits_inj. intros k. specialize (Hb g Hg k). rewrite mask_all_bit.
    destruct (existsb _ _) eqn:He.
    - apply Hb. apply existsb_exists in He. destruct He as (x & Hx & Hk). rewrite !filter_In in Hx. destruct Hx as [[Hx Hal] Hxg].
      apply in_register_spec in Hxg. unfold register_of in Hxg. unfold mask_for in Hk. destruct (i_enable (info_of x)) as [f|] eqn:Ef; [|discriminate].
      injection Hxg as Hxg. exists x, f. rewrite in_tree_descendants. auto.
    - destruct (N.testbit (registers s g) k) eqn:Hr; auto. destruct (proj1 Hb eq_refl) as (x & f & X1 & X2 & X3 & X4 & X5).
      rewrite <- He. symmetry. apply existsb_exists. exists x. rewrite !filter_In, <- in_tree_descendants, in_register_spec.
      unfold register_of, mask_for. rewrite X3. cbn. rewrite X4. auto. }
  split; [apply update_synced; auto|]. split; [|split].
  - intros x Hx Hal. apply agrees_shows. rewrite update_enables. intros g k Hg Hk.
    apply (update_shows false _ s1 Hsub Hs) with (x := x); auto. unfold pot; rewrite !filter_In, Hal. repeat split; [apply in_tree_descendants; auto|eapply register_field; eauto].
  - intros x Hx Hal g k Hg Hk. rewrite (update_other false _ s1 Hsub Hs x Hx) with (k := k); auto.
    + cbn [registers s1]. unfold register_of in Hg. unfold mask_for in Hk. destruct (i_enable (info_of x)) as [f|] eqn:Ef; [|discriminate].
      injection Hg as Hg. apply Hb; [exists x, f; auto|]. exists x, f. auto.
    + rewrite !filter_In, Hal. intros [_ H]. discriminate.
  - intros t. rewrite update_enables. reflexivity.
Qed.
End Operations.

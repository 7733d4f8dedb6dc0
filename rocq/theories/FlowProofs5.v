(** Proofs about the debug builder and the visualisation. *)
From Coq Require Import Ascii String Bool Arith List Permutation Relations Lia.
From Verif Require Import FlowModel FlowSpec FlowProofs FlowProofs2 FlowProofs3 FlowProofs4.
Import ListNotations.

(** ** Reachability *)
Section Reach.
Variable next : string -> list string.
Definition steps_to (x y : string) : Prop := In y (next x).
Lemma reaches_spec start f : forall x b, reaches f next start x = Some b -> (b = true <-> clos_refl_trans string steps_to x start).
Proof.
  induction f as [|f IH]; intros x b; cbn [reaches]; destruct (String.eqb_spec x start) as [->|Hne].
  - intros [= <-]. split; auto. intros _. apply rt_refl.
  - discriminate.
  - intros [= <-]. split; auto. intros _. apply rt_refl.
  - destruct (all_some (map (reaches f next start) (next x))) as [bs|] eqn:Hbs; [|discriminate]. cbn. intros [= <-].
    pose proof (all_some_map _ _ _ Hbs) as Hin. rewrite existsb_exists. split.
    + intros (b & Hb & ->). apply Hin in Hb. destruct Hb as (y & H1 & H2). eapply rt_trans; [apply rt_step; exact H1|].
      apply (IH y true H2). auto.
    + intros H. apply clos_rt_rt1n in H. destruct H as [|y z H1 H2]; [congruence|]. apply clos_rt1n_rt in H2.
      destruct (reaches f next z y) as [b|] eqn:Hy.
      * exists true. split; auto. apply Hin. exists y. split; auto. rewrite Hy. f_equal. apply (IH y b Hy). auto.
      * exfalso. assert (all_some (map (reaches f next z) (next x)) = None) by (apply all_some_none_iff; eauto). congruence.
Qed.
Lemma reaches_terminates start (names : list string) f : ~ cyclic steps_to -> (forall x y, steps_to x y -> In y names) ->
  forall x v, NoDup (x :: v) -> incl (x :: v) names -> (forall z, In z v -> clos_trans string steps_to z x) ->
  (length names < length (x :: v) + f)%nat -> reaches f next start x <> None.
Proof.
  intros Hac Hn. induction f as [|f IH]; intros x v H1 H2 H3 H4.
  - pose proof (NoDup_incl_length H1 H2). lia.
  - cbn [reaches]. destruct (String.eqb x start); [discriminate|]. intros Hnone.
    destruct (all_some (map (reaches f next start) (next x))) eqn:Hs; [discriminate|]. apply all_some_none in Hs.
    destruct Hs as (y & Hy & Hr). revert Hr.
    assert (Hyz : forall z, In z (x :: v) -> clos_trans string steps_to z y).
    { intros z [<-|Hz]; [apply t_step; auto|]. eapply t_trans; [apply H3; auto|apply t_step; auto]. }
    apply (IH y (x :: v)); auto.
    + constructor; auto. intros Hc. apply Hac. exists y. auto.
    + intros z [<-|Hz]; [eapply Hn; exact Hy|auto].
    + cbn in *. lia.
Qed.
End Reach.
Lemma copy_if_spec f ns r : copy_if f ns = Some r -> r = filter (fun n => match f (n_name n) with Some true => true | _ => false end) ns /\
  forall n, In n ns -> f (n_name n) <> None.
Proof.
  unfold copy_if. revert r. induction ns as [|n ns IH]; intros r; cbn; [intros [= <-]; split; [auto|intros n []]|].
  destruct (f (n_name n)) as [b|] eqn:Hf; [|discriminate]. destruct (all_some (map (fun n => f (n_name n)) ns)) as [bs|]; [|discriminate].
  cbn. intros [= <-]. destruct (IH _ eq_refl) as [I1 I2]. split.
  - destruct b; cbn; rewrite <- I1; auto.
  - intros m [<-|Hm]; [congruence|auto].
Qed.
Lemma copy_if_some f ns : (forall n, In n ns -> f (n_name n) <> None) -> exists r, copy_if f ns = Some r.
Proof.
  unfold copy_if. intros H. destruct (all_some (map (fun n => f (n_name n)) ns)) as [bs|] eqn:Hs; [cbn; eauto|].
  apply (all_some_none (fun n => f (n_name n))) in Hs. destruct Hs as (n & H1 & H2). destruct (H n H1 H2).
Qed.

(** ** Debug builder *)
Lemma parents_spec b x y : In y (parents_of x (unique edge_eq_dec (b_edges b))) <-> declared b y x.
Proof.
  unfold parents_of. rewrite in_map_iff, declared_edges. split.
  - intros (e & <- & H). apply filter_In in H. destruct H as [H1 H2]. apply unique_in in H1. apply String.eqb_eq in H2. eauto.
  - intros (e & H1 & H2 & H3). exists e. split; auto. apply filter_In. split; [apply unique_in; auto|]. apply String.eqb_eq. auto.
Qed.
Lemma children_spec b x y : In y (children_of x (unique edge_eq_dec (b_edges b))) <-> declared b x y.
Proof.
  unfold children_of. rewrite in_map_iff, declared_edges. split.
  - intros (e & <- & H). apply filter_In in H. destruct H as [H1 H2]. apply unique_in in H1. apply String.eqb_eq in H2. eauto.
  - intros (e & H1 & H2 & H3). exists e. split; auto. apply filter_In. split; [apply unique_in; auto|]. apply String.eqb_eq. auto.
Qed.
Lemma clos_rt_flip {A} (R : A -> A -> Prop) x y : clos_refl_trans A (fun a b => R b a) x y <-> clos_refl_trans A R y x.
Proof.
  split; induction 1; try apply rt_refl; try (apply rt_step; assumption); eapply rt_trans; eauto.
Qed.
Lemma clos_t_flip {A} (R : A -> A -> Prop) x y : clos_trans A (fun a b => R b a) x y -> clos_trans A R y x.
Proof. induction 1; [apply t_step; assumption|eapply t_trans; eauto]. Qed.
Lemma declared_names b x y : declared b x y -> step_mentioned b x /\ step_mentioned b y.
Proof. intros (c & p & q & H & <- & <-). apply (sequence_mentioned b c); auto. Qed.

Section Debug.
Variables (b : builder) (start finish : string) (depth : nat).
Let es := unique edge_eq_dec (b_edges b).
Lemma parents_flip x y : clos_refl_trans string (steps_to (fun z => parents_of z es)) x y <-> clos_refl_trans string (declared b) y x.
Proof. rewrite <- clos_rt_flip. apply clos_rt_iff. intros u v. apply parents_spec. Qed.
Lemma children_same x y : clos_refl_trans string (steps_to (fun z => children_of z es)) x y <-> clos_refl_trans string (declared b) x y.
Proof. apply clos_rt_iff. intros u v. apply children_spec. Qed.
Lemma debug_correct ns0 sub es' : b_nodes b = Some ns0 -> debug_build depth start finish b = Some (sub, es') ->
  NoDup sub /\ NoDup es' /\
  (forall n, In n sub <-> In n ns0 /\ clos_refl_trans string (declared b) start (n_name n) /\ clos_refl_trans string (declared b) (n_name n) finish) /\
  (forall e, In e es' <-> in_sequence b (e_cond e) (e_src e) (e_dst e) /\ In (leaf_name (e_src e)) (map n_name sub) /\ In (leaf_name (e_dst e)) (map n_name sub)).
Proof.
  intros Hns H. unfold debug_build in H. rewrite Hns in H. fold es in H.
  destruct (named (unique node_eq_dec ns0) start) as [n1|]; [|discriminate]. destruct (named (unique node_eq_dec ns0) finish) as [n2|]; [|discriminate].
  destruct (copy_if (reaches depth (fun x => parents_of x es) start) (unique node_eq_dec ns0)) as [down|] eqn:Hd; [|discriminate].
  destruct (copy_if (reaches depth (fun x => children_of x es) finish) (unique node_eq_dec ns0)) as [up|] eqn:Hu; [|discriminate].
  apply copy_if_spec in Hd, Hu. destruct Hd as [-> Hd], Hu as [-> Hu]. injection H as <- <-.
  set (sub := filter _ (filter _ _)).
  split; [repeat apply NoDup_filter; apply unique_nodup|]. split; [apply NoDup_filter; apply unique_nodup|]. split.
  - intros n. unfold sub. rewrite filter_In.
    assert (Hin : forall f, In n (filter f (unique node_eq_dec ns0)) <-> In n ns0 /\ f n = true) by (intros f; rewrite filter_In, unique_in; tauto).
    rewrite Hin.
    assert (H1 : In n ns0 -> (match reaches depth (fun x => parents_of x es) start (n_name n) with Some true => true | _ => false end = true
      <-> clos_refl_trans string (declared b) start (n_name n))).
    { intros Hn. specialize (Hd n). rewrite unique_in in Hd. specialize (Hd Hn). rewrite <- parents_flip.
      destruct (reaches depth (fun x => parents_of x es) start (n_name n)) as [bb|] eqn:Hr; [|congruence].
      rewrite <- (reaches_spec _ start depth (n_name n) bb Hr). destruct bb; split; auto. }
    assert (H2 : In n ns0 -> (match reaches depth (fun x => children_of x es) finish (n_name n) with Some true => true | _ => false end = true
      <-> clos_refl_trans string (declared b) (n_name n) finish)).
    { intros Hn. specialize (Hu n). rewrite unique_in in Hu. specialize (Hu Hn). rewrite <- children_same.
      destruct (reaches depth (fun x => children_of x es) finish (n_name n)) as [bb|] eqn:Hr; [|congruence].
      rewrite <- (reaches_spec _ finish depth (n_name n) bb Hr). destruct bb; split; auto. }
    split.
    + intros [[Hn Hf] Hg]. destruct (in_dec node_eq_dec n _) as [Hi|]; [|discriminate]. apply Hin in Hi. split; auto. split; [apply H1; auto|apply H2; tauto].
    + intros (Hn & Hr1 & Hr2). split; [split; auto; apply H1; auto|]. destruct (in_dec node_eq_dec n _) as [Hi|Hi]; auto.
      exfalso. apply Hi. apply Hin. split; auto. apply H2; auto.
  - intros e. rewrite filter_In. unfold es. rewrite unique_in, b_edges_spec, andb_true_iff.
    assert (Hex : forall x, existsb (fun n => String.eqb (n_name n) x) sub = true <-> In x (map n_name sub)).
    { intros x. rewrite existsb_exists, in_map_iff. split; intros (n & N1 & N2); exists n.
      - apply String.eqb_eq in N2. auto.
      - apply String.eqb_eq in N1. auto. }
    rewrite !Hex. tauto.
Qed.
Lemma debug_terminates ns0 : b_nodes b = Some ns0 -> ~ cyclic (declared b) -> (length (b_mentioned b) <= depth)%nat ->
  In start (map n_name ns0) -> In finish (map n_name ns0) -> exists sub es', debug_build depth start finish b = Some (sub, es').
Proof.
  intros Hns Hac Hdep Hs Hf. unfold debug_build. rewrite Hns. fold es.
  assert (Hnames : forall x, In x (map n_name ns0) -> In x (map n_name (unique node_eq_dec ns0))).
  { intros x Hx. apply in_map_iff in Hx. destruct Hx as (n & <- & Hn). apply in_map. apply unique_in. auto. }
  destruct (named_some _ _ (Hnames _ Hs)) as (s & ->). destruct (named_some _ _ (Hnames _ Hf)) as (t & ->).
  assert (Hterm : forall next target, (forall x y, steps_to next x y -> declared b x y) \/ (forall x y, steps_to next x y -> declared b y x) ->
    forall n, In n (unique node_eq_dec ns0) -> reaches depth next target (n_name n) <> None).
  { intros next target Hnext n Hn. apply unique_in in Hn.
    assert (Hm : In (n_name n) (map leaf_name (b_mentioned b))) by (apply (names_in_mentioned b ns0 Hns); apply in_map; auto).
    apply (reaches_terminates next target (map leaf_name (b_mentioned b)) depth) with (v := []).
    - intros (x & Hx). apply Hac. exists x. destruct Hnext as [Hnext|Hnext].
      + apply (clos_trans_map (steps_to next) (declared b) (fun z => z) Hnext x x Hx).
      + apply clos_t_flip. apply (clos_trans_map (steps_to next) (fun u v => declared b v u) (fun z => z) Hnext x x Hx).
    - intros x y Hxy. apply mentioned_names. destruct Hnext as [Hnext|Hnext]; apply Hnext, declared_names in Hxy; tauto.
    - repeat constructor; auto.
    - intros z [<-|[]]. auto.
    - intros z [].
    - rewrite map_length. cbn. lia. }
  destruct (copy_if_some (reaches depth (fun x => parents_of x es) start) (unique node_eq_dec ns0)) as (down & ->).
  { apply Hterm. right. intros x y. apply parents_spec. }
  destruct (copy_if_some (reaches depth (fun x => children_of x es) finish) (unique node_eq_dec ns0)) as (up & ->).
  { apply Hterm. left. intros x y. apply children_spec. }
  eauto.
Qed.
End Debug.

(** ** Visualisation *)
Definition shown (e : edge) : string * string * cond := (leaf_name (e_src e), leaf_name (e_dst e), e_cond e).
(** Every step is written the same way wherever it is mentioned. *)
Definition written_once (b : builder) : Prop :=
  forall g g' l l', In g b -> In g' b -> mentions g l -> mentions g' l' -> leaf_name l = leaf_name l' -> l = l'.
Section Viz.
Variable sort_nodes : list node -> list node.
Variable sort_edges : list edge -> list edge.
Hypothesis Hsn : forall l, Permutation (sort_nodes l) l.
Hypothesis Hse : forall l, Permutation (sort_edges l) l.
Variable b : builder.
Variable ns0 : list node.
Hypothesis Hns : b_nodes b = Some ns0.
Let ns := sort_nodes (unique node_eq_dec ns0).
Let es := sort_edges (unique edge_eq_dec (b_edges b)).
Lemma viz_nodes_in n : In n ns <-> exists g o, In g b /\ adds g n o.
Proof.
  rewrite <- (b_nodes_spec b ns0 Hns). unfold ns. rewrite <- (unique_in node_eq_dec ns0). 
  split; apply Permutation_in; [|symmetry]; apply Hsn.
Qed.
Lemma viz_edges_in e : In e es <-> in_sequence b (e_cond e) (e_src e) (e_dst e).
Proof.
  rewrite <- b_edges_spec. unfold es. rewrite <- (unique_in edge_eq_dec (b_edges b)). split; apply Permutation_in; [|symmetry]; apply Hse.
Qed.
Lemma viz_nodes_nodup : NoDup ns.
Proof. eapply Permutation_NoDup; [symmetry; apply Hsn|apply unique_nodup]. Qed.
Lemma viz_edges_nodup : NoDup es.
Proof. eapply Permutation_NoDup; [symmetry; apply Hse|apply unique_nodup]. Qed.
Lemma no_pred x : negb (existsb (fun e => String.eqb x (leaf_name (e_dst e))) es) = true <-> forall z, ~ declared b z x.
Proof.
  rewrite negb_true_iff, <- not_true_iff_false, existsb_exists. split.
  - intros H z Hz. apply declared_edges in Hz. destruct Hz as (e & E1 & E2 & E3). apply H. exists e.
    split; [apply viz_edges_in, b_edges_spec; auto|]. apply String.eqb_eq. auto.
  - intros H (e & E1 & E2). apply String.eqb_eq in E2. apply (H (leaf_name (e_src e))). apply declared_edges. exists e.
    split; [apply b_edges_spec, viz_edges_in; auto|]. auto.
Qed.
Lemma no_succ x : negb (existsb (fun e => String.eqb x (leaf_name (e_src e))) es) = true <-> forall z, ~ declared b x z.
Proof.
  rewrite negb_true_iff, <- not_true_iff_false, existsb_exists. split.
  - intros H z Hz. apply declared_edges in Hz. destruct Hz as (e & E1 & E2 & E3). apply H. exists e.
    split; [apply viz_edges_in, b_edges_spec; auto|]. apply String.eqb_eq. auto.
  - intros H (e & E1 & E2). apply String.eqb_eq in E2. apply (H (leaf_name (e_dst e))). apply declared_edges. exists e.
    split; [apply b_edges_spec, viz_edges_in; auto|]. auto.
Qed.
Definition from_start : list edge := map (fun n => {| e_src := LNode (milestone "start"); e_dst := LNode n; e_cond := n_cond n |})
  (filter (fun n => negb (existsb (fun e => String.eqb (n_name n) (leaf_name (e_dst e))) es)) ns).
Definition to_end : list edge := map (fun n => {| e_src := LNode n; e_dst := LNode (milestone "end"); e_cond := n_cond n |})
  (filter (fun n => negb (existsb (fun e => String.eqb (n_name n) (leaf_name (e_src e))) es)) ns).
Lemma viz_build_eq : viz_build sort_nodes sort_edges b = Some (milestone "start" :: milestone "end" :: ns, es ++ from_start ++ to_end).
Proof. unfold viz_build. rewrite Hns. reflexivity. Qed.
Lemma shown_es x y c : In (x, y, c) (map shown es) <-> exists p q, in_sequence b c p q /\ leaf_name p = x /\ leaf_name q = y.
Proof.
  rewrite in_map_iff. split.
  - intros (e & [= <- <- <-] & He). apply viz_edges_in in He. eauto.
  - intros (p & q & H & <- & <-). exists {| e_src := p; e_dst := q; e_cond := c |}. split; auto. apply viz_edges_in. auto.
Qed.
Lemma shown_start x y c : In (x, y, c) (map shown from_start) <->
  x = "start"%string /\ exists n, (exists g o, In g b /\ adds g n o) /\ n_name n = y /\ n_cond n = c /\ forall z, ~ declared b z y.
Proof.
  unfold from_start. rewrite map_map, in_map_iff. split.
  - intros (n & E & Hn). cbn in E. injection E as <- <- <-. apply filter_In in Hn. destruct Hn as [H1 H2]. pose proof (proj1 (no_pred (n_name n)) H2) as H3. apply viz_nodes_in in H1. split; auto.
    exists n. repeat split; auto.
  - intros (-> & n & H1 & <- & <- & H2). exists n. split; auto. apply filter_In. split; [apply viz_nodes_in; auto|apply (proj2 (no_pred (n_name n))); auto].
Qed.
Lemma shown_end x y c : In (x, y, c) (map shown to_end) <->
  y = "end"%string /\ exists n, (exists g o, In g b /\ adds g n o) /\ n_name n = x /\ n_cond n = c /\ forall z, ~ declared b x z.
Proof.
  unfold to_end. rewrite map_map, in_map_iff. split.
  - intros (n & E & Hn). cbn in E. injection E as <- <- <-. apply filter_In in Hn. destruct Hn as [H1 H2]. pose proof (proj1 (no_succ (n_name n)) H2) as H3. apply viz_nodes_in in H1. split; auto.
    exists n. repeat split; auto.
  - intros (-> & n & H1 & <- & <- & H2). exists n. split; auto. apply filter_In. split; [apply viz_nodes_in; auto|apply (proj2 (no_succ (n_name n))); auto].
Qed.
Lemma adds_named_once : written_once b -> forall n m, In n ns -> In m ns -> n_name n = n_name m -> n = m.
Proof.
  intros Hw n m Hn Hm E. apply viz_nodes_in in Hn, Hm. destruct Hn as (g & o & G1 & G2), Hm as (g' & o' & G3 & G4).
  apply adds_mentions in G2, G4. destruct G2 as (p & P1 & -> & _), G4 as (q & Q1 & -> & _). cbn in E.
  assert (LNode p = LNode q) by (apply (Hw g g'); auto). congruence.
Qed.
Lemma nodup_map_of {A B} (f : A -> B) l : NoDup l -> (forall x y, In x l -> In y l -> f x = f y -> x = y) -> NoDup (map f l).
Proof.
  induction l as [|x l IH]; cbn; [constructor|]. intros Hn Hi. inversion_clear Hn. constructor; auto.
  intros Hc. apply in_map_iff in Hc. destruct Hc as (y & E & Hy). apply H. rewrite (Hi x y); auto.
Qed.
Lemma shown_nodup : written_once b -> ~ step_mentioned b "start"%string -> ~ step_mentioned b "end"%string ->
  NoDup (map shown (es ++ from_start ++ to_end)).
Proof.
  intros Hw Hs He. rewrite !map_app.
  assert (Hment : forall p q c, in_sequence b c p q -> leaf_name p <> "start"%string /\ leaf_name q <> "end"%string).
  { intros p q c H. apply sequence_mentioned in H. split; intros E; rewrite E in H; tauto. }
  assert (Hn : forall n, In n ns -> step_mentioned b (n_name n)).
  { intros n Hn. apply viz_nodes_in in Hn. destruct Hn as (g & o & G1 & G2). apply adds_mentions in G2. destruct G2 as (m & M1 & -> & _).
    exists g, (LNode m). auto. }
  assert (D1 : NoDup (map shown es)).
  { apply nodup_map_of; [apply viz_edges_nodup|]. intros [p q c] [p' q' c'] H1 H2 E. cbn in E. injection E as E1 E2 E3.
    apply viz_edges_in in H1, H2. cbn in *. destruct H1 as (g & l & r & v & G1 & G2 & G3 & G4), H2 as (g' & l' & r' & v' & G1' & G2' & G3' & G4').
    assert (p = p').
    { apply (Hw g g'); auto; (eapply part_trans; [eassumption|]); apply part_seq_l; apply ends_mentions; auto. }
    assert (q = q').
    { apply (Hw g g'); auto; (eapply part_trans; [eassumption|]); apply part_seq_r; apply starts_mentions; auto. }
    subst. reflexivity. }
  assert (D2 : NoDup (map shown from_start)).
  { unfold from_start. rewrite map_map. apply nodup_map_of; [apply NoDup_filter, viz_nodes_nodup|].
    intros n m H1 H2 E. cbn in E. injection E as E _. apply filter_In in H1, H2. apply adds_named_once; tauto. }
  assert (D3 : NoDup (map shown to_end)).
  { unfold to_end. rewrite map_map. apply nodup_map_of; [apply NoDup_filter, viz_nodes_nodup|].
    intros n m H1 H2 E. cbn in E. injection E as E _. apply filter_In in H1, H2. apply adds_named_once; tauto. }
  assert (Happ : forall (a c : list (string * string * cond)), NoDup a -> NoDup c -> (forall t, In t a -> ~ In t c) -> NoDup (a ++ c)).
  { clear. induction a as [|x a IH]; cbn; intros c Ha Hc Hd; auto. inversion_clear Ha. constructor; [|apply IH; auto].
    rewrite in_app_iff. intros [|]; [auto|apply (Hd x); auto]. }
  assert (Hadd : forall n, (exists g o, In g b /\ adds g n o) -> n_name n <> "start"%string /\ n_name n <> "end"%string).
  { intros n Hn'. apply viz_nodes_in in Hn'. apply Hn in Hn'. split; intros E; rewrite E in Hn'; auto. }
  apply Happ; auto.
  - apply Happ; auto. intros [[x y] c] H1 H2. apply shown_start in H1. apply shown_end in H2.
    destruct H1 as (-> & n & N1 & N2 & _), H2 as (-> & m & M1 & M2 & _). apply Hadd in N1. tauto.
  - intros [[x y] c] H1 H2. apply shown_es in H1. destruct H1 as (p & q & H1 & <- & <-). apply Hment in H1. destruct H1 as [P Q].
    apply in_app_iff in H2. destruct H2 as [H2|H2].
    + apply shown_start in H2. tauto.
    + apply shown_end in H2. tauto.
Qed.
End Viz.

(** Proofs about building a flow and about runtime conditions. *)
From Coq Require Import String Bool Arith List Permutation Relations Lia.
From Verif Require Import FlowModel FlowSpec FlowProofs FlowProofs2.
Import ListNotations.

(** Transitive closure through an injective naming. *)
Lemma clos_trans_map {A B} (R : A -> A -> Prop) (S : B -> B -> Prop) (f : A -> B) :
  (forall a b, R a b -> S (f a) (f b)) -> forall a b, clos_trans A R a b -> clos_trans B S (f a) (f b).
Proof. intros H a b. induction 1; [apply t_step; auto|eapply t_trans; eauto]. Qed.
Lemma clos_trans_unmap {A B} (P : A -> Prop) (R : A -> A -> Prop) (S : B -> B -> Prop) (f : A -> B) :
  (forall a b, P a -> P b -> f a = f b -> a = b) ->
  (forall x y, S x y -> exists a b, P a /\ P b /\ R a b /\ f a = x /\ f b = y) ->
  forall x y, clos_trans B S x y -> exists a b, P a /\ P b /\ clos_trans A R a b /\ f a = x /\ f b = y.
Proof.
  intros Hinj H x y. induction 1 as [x y Hs|x z y _ (a & b & A1 & A2 & A3 & A4 & A5) _ (c & d & C1 & C2 & C3 & C4 & C5)].
  - destruct (H x y Hs) as (a & b & H1 & H2 & H3 & H4 & H5). exists a, b. repeat split; auto. apply t_step; auto.
  - assert (b = c) by (apply Hinj; congruence). subst c. exists a, d. repeat split; auto. eapply t_trans; eauto.
Qed.
Lemma before_map {A B} (f : A -> B) l a b : before l a b -> before (map f l) (f a) (f b).
Proof. intros (l1 & l2 & l3 & ->). exists (map f l1), (map f l2), (map f l3). rewrite !map_app. cbn. rewrite map_app. reflexivity. Qed.
Lemma nodup_map_inj {A B} (f : A -> B) l a b : NoDup (map f l) -> In a l -> In b l -> f a = f b -> a = b.
Proof.
  induction l as [|x l IH]; cbn; [intros _ []|]. intros Hn [<-|Ha] [<-|Hb] E; inversion_clear Hn; auto.
  - exfalso. apply H. rewrite E. apply in_map. auto.
  - exfalso. apply H. rewrite <- E. apply in_map. auto.
Qed.

(** ** What acceptance means *)
Section Build.
Variable pops : nat -> list node -> option (node * list node).
Variable enum : nat -> list node -> list node.
Hypothesis Hpops : pops_some pops.
Hypothesis Henum : enumerates enum.

(** The checks before the sort. *)
Definition checked (b : builder) (ns : list node) : Prop :=
  b_nodes b = Some ns /\ NoDup (map n_name ns) /\ (forall x, In x (map n_name ns) <-> step_mentioned b x) /\
  forallb (edge_ok ns) (unique edge_eq_dec (b_edges b)) = true.
Definition the_graph (b : builder) (ns : list node) : graph node := make_graph ns (unique edge_eq_dec (b_edges b)).

Lemma checked_linked b ns : checked b ns -> forall p q,
  linked ns (unique edge_eq_dec (b_edges b)) p q <-> In p ns /\ In q ns /\ declared b (n_name p) (n_name q).
Proof.
  intros (H1 & H2 & H3 & H4) p q. unfold linked. rewrite declared_edges. split.
  - intros (e & He & Hp & Hq). apply unique_in in He. apply named_spec in Hp; auto. apply named_spec in Hq; auto.
    destruct Hp as [P1 P2], Hq as [Q1 Q2]. split; auto. split; auto. exists e. auto.
  - intros (Hp & Hq & e & He & E1 & E2). exists e. split; [apply unique_in; auto|]. split; apply named_spec; auto.
Qed.
Lemma the_graph_spec b ns : checked b ns -> good (the_graph b ns) /\ (forall x, In x (keys (the_graph b ns)) <-> In x ns) /\
  (forall p q, arc (the_graph b ns) p q <-> In p ns /\ In q ns /\ declared b (n_name p) (n_name q)).
Proof.
  intros H. destruct (make_graph_spec ns (unique edge_eq_dec (b_edges b))) as (M1 & M2 & M3); [apply H|].
  split; auto. split; auto. intros p q. unfold the_graph. rewrite M3. apply checked_linked; auto.
Qed.
Lemma declared_nodes b ns x y : checked b ns -> declared b x y ->
  exists p q, In p ns /\ In q ns /\ arc (the_graph b ns) p q /\ n_name p = x /\ n_name q = y.
Proof.
  intros H Hd. pose proof Hd as (c & p & q & Hs & <- & <-). apply sequence_mentioned in Hs. destruct Hs as [Hp Hq].
  pose proof H as (H1 & H2 & H3 & H4). apply H3 in Hp, Hq. apply in_map_iff in Hp, Hq.
  destruct Hp as (m & M1 & M2), Hq as (n & N1 & N2). exists m, n. repeat split; auto.
  apply the_graph_spec; auto. rewrite M1, N1. auto.
Qed.
Lemma the_graph_cyclic b ns : checked b ns -> cyclic (arc (the_graph b ns)) <-> cyclic (declared b).
Proof.
  intros H. pose proof H as (H1 & H2 & H3 & H4). split.
  - intros (p & Hp). exists (n_name p). revert Hp. apply clos_trans_map. intros a c Ha. apply the_graph_spec in Ha; tauto.
  - intros (x & Hx). destruct (clos_trans_unmap (fun n => In n ns) (arc (the_graph b ns)) (declared b) n_name) with (x := x) (y := x)
      as (p & q & P1 & P2 & P3 & P4 & P5); auto.
    + intros a c. apply nodup_map_inj; auto.
    + intros u v. apply declared_nodes; auto.
    + assert (p = q) by (apply (nodup_map_inj n_name ns); auto; congruence). subst q. exists p. auto.
Qed.
Definition sorted (b : builder) (ns : list node) (o : list node) (g : graph node) : Prop := inv (the_graph b ns) g [] o.

Lemma build_spec b :
  match build pops enum b with
  | Rejected => b_nodes b = None
  | MissingSteps => exists ns, b_nodes b = Some ns /\ exists x, step_mentioned b x /\ ~ In x (map n_name ns)
  | DuplicateSteps => exists ns, b_nodes b = Some ns /\ (forall x, In x (map n_name ns) <-> step_mentioned b x) /\ ~ NoDup (map n_name ns)
  | WeakCondition => exists ns, b_nodes b = Some ns /\ NoDup (map n_name ns) /\ (forall x, In x (map n_name ns) <-> step_mentioned b x) /\
      exists e, In e (b_edges b) /\ edge_ok ns e = false
  | Cycle g => g <> [] /\ exists ns o, checked b ns /\ sorted b ns o g
  | Built o => exists ns, checked b ns /\ sorted b ns o []
  end.
Proof.
  unfold build. destruct (b_nodes b) as [ns|] eqn:Hns; [|reflexivity]. cbn zeta.
  assert (Hsub := names_in_mentioned b ns Hns). rewrite (proj2 (names_subset_spec _ _) Hsub). cbn [andb].
  destruct (names_subset (map leaf_name (b_mentioned b)) (map n_name ns)) eqn:Hm; cbn [negb].
  2:{ exists ns. split; auto. unfold names_subset in Hm.
      assert (Hex : exists x, In x (map leaf_name (b_mentioned b)) /\ existsb (String.eqb x) (map n_name ns) = false).
      { clear -Hm. induction (map leaf_name (b_mentioned b)) as [|x l IH]; [discriminate|]. cbn in Hm.
        apply andb_false_iff in Hm. destruct Hm as [Hm|Hm]; [exists x; cbn; auto|].
        destruct (IH Hm) as (y & Y1 & Y2). exists y. cbn. auto. }
      destruct Hex as (x & X1 & X2). exists x. split; [apply mentioned_names; auto|]. intros Hc.
      rewrite <- not_true_iff_false in X2. apply X2. apply existsb_exists. exists x. split; auto. apply String.eqb_refl. }
  apply names_subset_spec in Hm.
  assert (Hiff : forall x, In x (map n_name ns) <-> step_mentioned b x).
  { intros x. rewrite <- mentioned_names. split; auto. }
  destruct (has_duplicate (map n_name ns)) eqn:Hd.
  { exists ns. split; auto. split; auto. rewrite <- has_duplicate_spec. rewrite Hd. discriminate. }
  apply has_duplicate_spec in Hd.
  rewrite (unique_id node_eq_dec ns) by (eapply NoDup_map_inv; eauto).
  destruct (forallb (edge_ok ns) (unique edge_eq_dec (b_edges b))) eqn:Hok; cbn [negb].
  2:{ exists ns. repeat split; auto; try apply Hiff. 
      assert (Hex : exists e, In e (unique edge_eq_dec (b_edges b)) /\ edge_ok ns e = false).
      { clear -Hok. induction (unique edge_eq_dec (b_edges b)) as [|e l IH]; [discriminate|]. cbn in Hok.
        apply andb_false_iff in Hok. destruct Hok as [Hok|Hok]; [exists e; cbn; auto|].
        destruct (IH Hok) as (y & Y1 & Y2). exists y. cbn. auto. }
      destruct Hex as (e & E1 & E2). apply unique_in in E1. eauto. }
  assert (Hc : checked b ns) by (repeat split; auto; apply Hiff).
  destruct (the_graph_spec b ns Hc) as (G1 & G2 & G3).
  destruct (topo_sort_spec node_eq_dec pops enum Hpops Henum (the_graph b ns) G1) as (o & g & T1 & T2).
  { intros p q Hpq. apply G3 in Hpq. apply G2. tauto. }
  unfold the_graph in T1. rewrite T1. destruct g as [|e g].
  - exists ns. split; auto.
  - split; [discriminate|]. exists ns, o. auto.
Qed.

Lemma checked_build b ns : checked b ns -> (exists o, build pops enum b = Built o) \/ (exists g, build pops enum b = Cycle g).
Proof.
  intros (H1 & H2 & H3 & H4). pose proof (build_spec b) as H. destruct (build pops enum b); eauto; exfalso.
  - congruence.
  - destruct H as (ns' & E & x & X1 & X2). assert (ns' = ns) by congruence. subst. apply X2, H3. auto.
  - destruct H as (ns' & E & _ & X). assert (ns' = ns) by congruence. subst. auto.
  - destruct H as (ns' & E & _ & _ & e & X1 & X2). assert (ns' = ns) by congruence. subst.
    rewrite forallb_forall in H4. rewrite (H4 e) in X2; [discriminate|]. apply unique_in; auto.
Qed.

Lemma built_order b o : build pops enum b = Built o -> exists ns, checked b ns /\ Permutation o ns /\
  forall x y, declared b x y -> before (map n_name o) x y.
Proof.
  intros H. pose proof (build_spec b) as Hb. rewrite H in Hb. destruct Hb as (ns & Hc & Hs). exists ns. split; auto.
  destruct (the_graph_spec b ns Hc) as (G1 & G2 & G3).
  destruct (no_leftover_order (the_graph b ns) G1) with (o := o) as [P1 P2]; auto.
  { intros p q Hpq. apply G3 in Hpq. apply G2. tauto. }
  assert (Hnd : NoDup ns) by (eapply NoDup_map_inv; apply Hc).
  split.
  - rewrite P1. apply NoDup_Permutation; auto. apply G1.
  - intros x y Hd. destruct (declared_nodes b ns x y Hc Hd) as (p & q & I1 & I2 & I3 & <- & <-). apply before_map. auto.
Qed.
Lemma built_iff_acyclic b ns : checked b ns -> ((exists o, build pops enum b = Built o) <-> ~ cyclic (declared b)) /\
  ((exists g, build pops enum b = Cycle g) <-> cyclic (declared b)).
Proof.
  intros Hc. pose proof (build_spec b) as Hb. destruct (checked_build b ns Hc) as [(o & Ho)|(g & Hg)].
  - rewrite Ho in *. destruct Hb as (ns' & Hc' & Hs).
    assert (Hac : ~ cyclic (declared b)).
    { rewrite <- (the_graph_cyclic b ns' Hc'). intros Hcy.
      apply (proj2 (leftover_iff_cycle node_eq_dec (the_graph b ns') o [] Hs)) in Hcy. auto. }
    split; split; try (intros (? & ?); congruence); try contradiction; eauto.
  - rewrite Hg in *. destruct Hb as (Hne & ns' & o & Hc' & Hs).
    assert (Hac : cyclic (declared b)).
    { apply (the_graph_cyclic b ns' Hc'). apply (leftover_iff_cycle node_eq_dec _ _ _ Hs). auto. }
    split; split; try (intros (? & ?); congruence); try contradiction; eauto.
Qed.

(** The edges reported for a cycle. *)
Lemma pred_chain_cycle {K} (dec : forall a b : K, {a = b} + {a <> b}) (R : K -> K -> Prop) l x : In x l ->
  (forall x, In x l -> exists y, In y l /\ R y x) -> exists y, clos_trans K R y y /\ clos_refl_trans K R y x.
Proof.
  intros Hx Hpred.
  assert (Hk : forall k, (exists y, clos_trans K R y y /\ clos_refl_trans K R y x) \/
    exists h c, length c = k /\ NoDup (h :: c) /\ incl (h :: c) l /\ clos_refl_trans K R h x /\ (forall z, In z c -> clos_trans K R h z)).
  { induction k as [|k [Hk|(h & c & H1 & H2 & H3 & H4 & H5)]]; [|auto|].
    - right. exists x, []. repeat split; auto; [repeat constructor; auto|intros y [->|[]]; auto|apply rt_refl|intros y []].
    - destruct (Hpred h) as (y & Hy & HR); [apply H3; left; auto|].
      assert (Hyc : forall z, In z (h :: c) -> clos_trans K R y z).
      { intros z [<-|Hz]; [apply t_step; auto|]. eapply t_trans; [apply t_step; exact HR|auto]. }
      assert (Hyx : clos_refl_trans K R y x) by (eapply rt_trans; [apply rt_step; exact HR|auto]).
      destruct (in_dec dec y (h :: c)) as [Hin|Hin]; [left; exists y; auto|].
      right. exists y, (h :: c). cbn [length]. repeat split; auto; [constructor; auto|intros z [<-|Hz]; auto]. }
  destruct (Hk (length l)) as [|(h & c & H1 & H2 & H3 & _)]; auto.
  pose proof (NoDup_incl_length H2 H3). cbn in H. lia.
Qed.
Lemma leftover_spec {K} (dec : forall a b : K, {a = b} + {a <> b}) (G : graph K) o g : inv G g [] o ->
  (forall a b, arc G a b -> In b (keys G)) ->
  (forall x, In x (keys g) <-> exists y, clos_trans K (arc G) y y /\ clos_refl_trans K (arc G) y x) /\
  (forall a b, arc g a b <-> arc G a b /\ In a (keys g)).
Proof.
  intros I Hclosed. split; [|apply (i_arcs _ _ _ _ I)]. intros x. split.
  - intros Hx. apply (pred_chain_cycle dec (arc G) (keys g) x Hx). intros z Hz.
    destruct (in_dec dec z (flat_map snd g)) as [Hin|Hin].
    + apply in_flat_map in Hin. destruct Hin as ([a vs] & H1 & H2). cbn in H2.
      assert (Harc : arc g a z) by (exists vs; auto). exists a. split; [apply (in_map fst) in H1; auto|].
      apply (i_arcs _ _ _ _ I) in Harc. tauto.
    + exfalso. assert (Hs : In z []). { apply (i_src _ _ _ _ I). split; auto. intros a (vs & H1 & H2). apply Hin.
      apply in_flat_map. exists (a, vs). auto. }
      destruct Hs.
  - intros (y & H1 & H2).
    assert (HyG : In y (keys G)) by (apply clos_trans_t1n in H1; inversion H1; subst; eapply arc_key; eassumption).
    assert (Hyo : ~ In y o).
    { intros Hy. apply (before_irrefl o y (i_nodup _ _ _ _ I)). apply (order_trans G o (i_nodup _ _ _ _ I) (i_order _ _ _ _ I)); auto. }
    apply clos_rt_rtn1 in H2. destruct H2 as [|z x Hzx Hyz].
    + apply (i_part _ _ _ _ I) in HyG. tauto.
    + assert (Hyx : clos_trans K (arc G) y x) by (eapply clos_rt_t; [apply clos_rtn1_rt; exact Hyz|apply t_step; auto]).
      assert (HxG : In x (keys G)) by (eapply Hclosed; eauto). apply (i_part _ _ _ _ I) in HxG.
      destruct HxG as [Hxo|]; auto. exfalso. apply Hyo.
      pose proof (order_trans G o (i_nodup _ _ _ _ I) (i_order _ _ _ _ I) y x Hyx Hxo) as Hb. apply before_in in Hb. tauto.
Qed.
End Build.

(** ** Conditions *)
Lemma holds_and pred l r : holds pred (cond_and l r) = holds pred l && holds pred r.
Proof.
  unfold cond_and, holds. destruct (c_preds l) as [|p ps] eqn:Hl, (c_preds r) as [|q qs] eqn:Hr; cbn;
    rewrite ?Hl, ?Hr; cbn; rewrite ?andb_true_r; auto.
  rewrite forallb_app. cbn. rewrite andb_assoc. reflexivity.
Qed.
Lemma edge_ok_holds ns e p q pred : edge_ok ns e = true -> named ns (leaf_name (e_src e)) = Some p -> named ns (leaf_name (e_dst e)) = Some q ->
  holds pred (e_cond e) = true -> holds pred (n_cond p) = true /\ holds pred (n_cond q) = true.
Proof.
  unfold edge_ok. intros H Hp Hq Hh. rewrite Hp, Hq in H. unfold holds in *. rewrite forallb_forall in *.
  assert (Hall : forall x, In x (c_preds (n_cond p) ++ c_preds (n_cond q)) -> pred x = true).
  { intros x Hx. apply H in Hx. apply existsb_exists in Hx. destruct Hx as (y & H1 & H2). apply Nat.eqb_eq in H2. subst. auto. }
  split; try apply (proj2 (forallb_forall _ _)); intros x Hx; apply Hall, in_app_iff; auto.
Qed.

(** A step seen through a condition. *)
Definition conditioned (c : cond) (n : node) : node :=
  if n_value n then {| n_type := n_type n; n_name := n_name n; n_value := n_value n; n_cond := cond_and (n_cond n) c; n_func := n_func n |} else n.
Lemma conditional_mentions c g g' : conditional c g = Some g' -> forall x, mentions g' x <-> exists n, mentions g (LNode n) /\ x = LNode (conditioned c n).
Proof.
  unfold mentions. revert g'. induction g as [[m|s]|l IHl r IHr v ec|l IHl r IHr v]; cbn [conditional]; intros g' H x.
  - injection H as <-. split.
    + intros Hx. inversion Hx. exists m. split; [constructor|reflexivity].
    + intros (n & Hn & ->). inversion Hn. constructor.
  - discriminate.
  - destruct (conditional c l) as [l'|]; [|discriminate]. destruct (conditional c r) as [r'|]; [|discriminate]. injection H as <-.
    specialize (IHl l' eq_refl). specialize (IHr r' eq_refl). split.
    + intros Hx. inversion Hx; subst; match goal with H : part _ (Leaf x) |- _ => first [apply IHl in H|apply IHr in H]; destruct H as (n & N1 & N2) end;
        exists n; (split; [|auto]); [apply part_seq_l|apply part_seq_r]; auto.
    + intros (n & Hn & ->). inversion Hn; subst; [apply part_seq_l, IHl|apply part_seq_r, IHr]; eauto.
  - destruct (conditional c l) as [l'|]; [|discriminate]. destruct (conditional c r) as [r'|]; [|discriminate]. injection H as <-.
    specialize (IHl l' eq_refl). specialize (IHr r' eq_refl). split.
    + intros Hx. inversion Hx; subst; match goal with H : part _ (Leaf x) |- _ => first [apply IHl in H|apply IHr in H]; destruct H as (n & N1 & N2) end;
        exists n; (split; [|auto]); [apply part_par_l|apply part_par_r]; auto.
    + intros (n & Hn & ->). inversion Hn; subst; [apply part_par_l, IHl|apply part_par_r, IHr]; eauto.
Qed.
Definition with_cond (c : cond) (o : bool) (n : node) : node := if o then conditioned c n else n.
Lemma conditioned_value c n : n_value (conditioned c n) = n_value n.
Proof. unfold conditioned. destruct (n_value n) eqn:H; auto. Qed.
Lemma star_conditioned c m : star_node (conditioned c m) = with_cond c (n_value m) (star_node m).
Proof. unfold conditioned, with_cond. destruct m as [t x [] k f]; reflexivity. Qed.
Lemma conditional_adds c g g' : conditional c g = Some g' -> forall n o, adds g' n o <-> exists m, adds g m o /\ n = with_cond c o m.
Proof.
  revert g'. induction g as [[m|s]|l IHl r IHr v ec|l IHl r IHr v]; intros g' H n o; pose proof (conditional_mentions _ _ _ H) as Hm;
    cbn [conditional] in H.
  - injection H as <-. fold (conditioned c m). split.
    + intros Ha. inversion Ha; subst. exists m. rewrite conditioned_value in *. split; [constructor; auto|reflexivity].
    + intros (k & Hk & ->). inversion Hk; subst. cbn. constructor. rewrite conditioned_value. auto.
  - discriminate.
  - destruct (conditional c l) as [l'|]; [|discriminate]. destruct (conditional c r) as [r'|]; [|discriminate]. injection H as <-.
    specialize (IHl l' eq_refl). specialize (IHr r' eq_refl). destruct v; split.
    + intros Ha. inversion Ha; subst. match goal with H : mentions _ _ |- _ => apply Hm in H; destruct H as (k & K1 & [= ->]) end.
      exists (star_node k). rewrite conditioned_value, star_conditioned. split; [constructor; auto|reflexivity].
    + intros (k & Hk & ->). inversion Hk; subst. rewrite <- star_conditioned, <- (conditioned_value c). constructor. apply Hm. eauto.
    + intros Ha. inversion Ha; subst; match goal with H : adds _ _ _ |- _ => first [apply IHl in H|apply IHr in H]; destruct H as (k & K1 & ->) end;
        exists k; (split; [|reflexivity]); [apply adds_seq_l|apply adds_seq_r]; auto.
    + intros (k & Hk & ->). inversion Hk; subst; [apply adds_seq_l, IHl|apply adds_seq_r, IHr]; eauto.
  - destruct (conditional c l) as [l'|]; [|discriminate]. destruct (conditional c r) as [r'|]; [|discriminate]. injection H as <-.
    specialize (IHl l' eq_refl). specialize (IHr r' eq_refl). destruct v; split.
    + intros Ha. inversion Ha; subst. match goal with H : mentions _ _ |- _ => apply Hm in H; destruct H as (k & K1 & [= ->]) end.
      exists (star_node k). rewrite conditioned_value, star_conditioned. split; [constructor; auto|reflexivity].
    + intros (k & Hk & ->). inversion Hk; subst. rewrite <- star_conditioned, <- (conditioned_value c). constructor. apply Hm. eauto.
    + intros Ha. inversion Ha; subst; match goal with H : adds _ _ _ |- _ => first [apply IHl in H|apply IHr in H]; destruct H as (k & K1 & ->) end;
        exists k; (split; [|reflexivity]); [apply adds_par_l|apply adds_par_r]; auto.
    + intros (k & Hk & ->). inversion Hk; subst; [apply adds_par_l, IHl|apply adds_par_r, IHr]; eauto.
Qed.

(** The step as contributed under a list of conditions, outermost first. *)
Fixpoint conditions (cs : list cond) (o : bool) (n : node) : node :=
  match cs with [] => n | c :: r => with_cond c o (conditions r o n) end.
Lemma with_cond_false c n : with_cond c false n = n.
Proof. reflexivity. Qed.
Lemma conditions_false cs n : conditions cs false n = n.
Proof. induction cs; auto. Qed.
Lemma conditions_facts cs o n : n_value n = true -> n_name (conditions cs o n) = n_name n /\ n_func (conditions cs o n) = n_func n /\
  n_type (conditions cs o n) = n_type n /\ n_value (conditions cs o n) = true /\
  (forall pred, holds pred (n_cond (conditions cs o n)) = holds pred (n_cond n) && (if o then forallb (holds pred) cs else true)).
Proof.
  intros Hn. induction cs as [|c cs (I1 & I2 & I3 & I4 & I5)]; cbn [conditions].
  - repeat split; auto. intros pred. destruct o; cbn; rewrite andb_true_r; auto.
  - destruct o; [|repeat split; auto]. unfold with_cond, conditioned. rewrite I4. cbn [n_name n_func n_type n_value n_cond].
    repeat split; auto. intros pred. rewrite holds_and, I5. cbn. rewrite <- !andb_assoc. f_equal. apply andb_comm.
Qed.

Section ConfigInd.
Variable P : config -> Prop.
Hypothesis Hf : forall g, P (Fragment g).
Hypothesis Hw : forall c body, Forall P body -> P (When c body).
Fixpoint config_ind' (x : config) : P x :=
  match x with
  | Fragment g => Hf g
  | When c body => Hw c body ((fix go l : Forall P l := match l with [] => Forall_nil P | y :: r => Forall_cons y (config_ind' y) (go r) end) body)
  end.
End ConfigInd.

Lemma extends_adds x : forall gs, extends x = Some gs -> forall n o,
  (exists g, In g gs /\ adds g n o) <-> exists cs g m, under x cs g /\ adds g m o /\ n = conditions cs o m.
Proof.
  induction x as [g|c body IH] using config_ind'; cbn [extends]; intros gs H n o.
  - injection H as <-. split.
    + intros (h & [<-|[]] & Ha). exists [], g, n. repeat split; auto. constructor.
    + intros (cs & h & m & Hu & Ha & ->). inversion Hu; subst. cbn. eauto.
  - destruct (all_some (map extends body)) as [ls|] eqn:Hls; [|discriminate].
    pose proof (all_some_map _ _ _ Hls) as Hin. pose proof (all_some_map _ _ _ H) as Hin2. rewrite Forall_forall in IH. split.
    + intros (g & Hg & Ha). apply Hin2 in Hg. destruct Hg as (h & Hh & Hc). apply (conditional_adds _ _ _ Hc) in Ha.
      destruct Ha as (m & Hm & ->). apply in_concat in Hh. destruct Hh as (l & L1 & L2). apply Hin in L1. destruct L1 as (x & X1 & X2).
      destruct (proj1 (IH x X1 l X2 m o)) as (cs & g0 & m0 & U1 & U2 & ->); [eauto|].
      exists (c :: cs), g0, m0. repeat split; auto. econstructor; eauto.
    + intros (cs & g & m & Hu & Ha & ->). inversion Hu as [|? ? x cs' ? X1 U1]; subst.
      destruct (extends x) as [l|] eqn:Hx.
      2:{ exfalso. assert (all_some (map extends body) = None) by (apply all_some_none_iff; eauto). congruence. }
      assert (Hex : exists h, In h l /\ adds h (conditions cs' o m) o) by (apply (IH x X1 l Hx); exists cs', g, m; auto).
      destruct Hex as (h & H1 & H2).
      assert (Hh : In h (concat ls)) by (apply in_concat; exists l; split; auto; apply Hin; eauto).
      destruct (conditional c h) as [h'|] eqn:Hc.
      2:{ exfalso. assert (all_some (map (conditional c) (concat ls)) = None) by (apply all_some_none_iff; eauto). congruence. }
      exists h'. split; [apply Hin2; eauto|]. apply (conditional_adds _ _ _ Hc). eauto.
Qed.

(** ** Running *)
Section Run.
Context {St : Type} (pred : nat -> St -> bool) (step : nat -> St -> St).
Lemma calls_app a b : calls (a ++ b) = calls a ++ calls b.
Proof. apply flat_map_app. Qed.
Lemma calls_log f s : calls (log_text f s) = [].
Proof. destruct f; reflexivity. Qed.
Lemma run_nodes_app logged ns1 ns2 s : run_nodes pred step logged (ns1 ++ ns2) s =
  let (e1, s1) := run_nodes pred step logged ns1 s in let (e2, s2) := run_nodes pred step logged ns2 s1 in (e1 ++ e2, s2).
Proof.
  revert s. induction ns1 as [|n ns1 IH]; intros s; cbn.
  - destruct (run_nodes pred step logged ns2 s); reflexivity.
  - destruct (run_node pred step logged n s) as [e s1]. rewrite IH. destruct (run_nodes pred step logged ns1 s1) as [e1 s2].
    destruct (run_nodes pred step logged ns2 s2) as [e2 s3]. rewrite app_assoc. reflexivity.
Qed.
Lemma run_nodes_fixed logged ns s : (forall p u v, pred p u = pred p v) ->
  calls (fst (run_nodes pred step logged ns s)) = map n_func (filter (fun n => holds (fun p => pred p s) (n_cond n)) ns).
Proof.
  intros Hp. revert s. induction ns as [|n ns IH]; intros s; cbn; auto. unfold run_node.
  assert (Hf : forall u v, filter (fun n => holds (fun p => pred p u) (n_cond n)) ns = filter (fun n => holds (fun p => pred p v) (n_cond n)) ns).
  { intros u v. apply filter_ext. intros a. unfold holds. clear -Hp. induction (c_preds (n_cond a)); cbn; auto. rewrite IHl, (Hp a0 u v). auto. }
  destruct (holds (fun p => pred p s) (n_cond n)).
  - specialize (IH (step (n_func n) s)). destruct (run_nodes pred step logged ns (step (n_func n) s)) as [e s2]. cbn [fst] in *.
    rewrite !calls_app, calls_log, IH. cbn [app map calls flat_map]. rewrite (Hf _ s). reflexivity.
  - specialize (IH s). destruct (run_nodes pred step logged ns s) as [e s2]. cbn [fst app] in *. auto.
Qed.
Lemma run_flow_calls name ns s : calls (fst (run_flow pred step name ns s)) = calls (fst (run_nodes pred step (negb (String.eqb name "")) ns s)).
Proof.
  unfold run_flow. destruct (run_nodes pred step (negb (String.eqb name "")) ns s) as [e s']. cbn [fst].
  rewrite !calls_app, !calls_log, app_nil_r. reflexivity.
Qed.
End Run.

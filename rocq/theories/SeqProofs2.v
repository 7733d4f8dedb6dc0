(** Proofs about building sequencers. *)
From Coq Require Import String Bool Arith List Permutation Relations Lia.
From Verif Require Import FlowModel FlowSpec FlowProofs FlowProofs2 FlowProofs3 SeqModel SeqSpec.
Import ListNotations.

Lemma leaves_spec g s : In s (leaves g) <-> occurs (SLeaf s) g.
Proof.
  induction g as [t|x|l IHl r IHr v|l IHl r IHr v]; cbn [leaves].
  - split; [intros [->|[]]; constructor|]. intros H. inversion H; subst. cbn. auto.
  - split; [intros []|]. intros H. inversion H.
  - rewrite in_app_iff, IHl, IHr. split; [intros [|]; [apply oc_seq_l|apply oc_seq_r]; auto|]. intros H. inversion H; subst; auto.
  - rewrite in_app_iff, IHl, IHr. split; [intros [|]; [apply oc_par_l|apply oc_par_r]; auto|]. intros H. inversion H; subst; auto.
Qed.
Lemma declares_leaves b s : declares b s <-> In s (flat_map leaves b).
Proof. unfold declares. rewrite in_flat_map. split; intros (g & H1 & H2); exists g; rewrite leaves_spec in *; auto. Qed.
Lemma initials_begins g x : In x (seq_initials g) <-> begins g x.
Proof.
  induction g as [t|y|l IHl r IHr v|l IHl r IHr v]; cbn [seq_initials].
  - split; [intros [<-|[]]; constructor|]. intros H. inversion H; subst. cbn. auto.
  - split; [intros [<-|[]]; constructor|]. intros H. inversion H; subst. cbn. auto.
  - rewrite IHl. split; [apply be_seq|]. intros H. inversion H; subst; auto.
  - rewrite in_app_iff, IHl, IHr. split; [intros [|]; [apply be_par_l|apply be_par_r]; auto|]. intros H. inversion H; subst; auto.
Qed.
Lemma finals_finishes g x : In x (seq_finals g) <-> finishes g x.
Proof.
  induction g as [t|y|l IHl r IHr v|l IHl r IHr v]; cbn [seq_finals].
  - split; [intros [<-|[]]; constructor|]. intros H. inversion H; subst. cbn. auto.
  - split; [intros [<-|[]]; constructor|]. intros H. inversion H; subst. cbn. auto.
  - rewrite IHr. split; [apply fi_seq|]. intros H. inversion H; subst; auto.
  - rewrite in_app_iff, IHl, IHr. split; [intros [|]; [apply fi_par_l|apply fi_par_r]; auto|]. intros H. inversion H; subst; auto.
Qed.
Lemma seq_edges_spec g x y : In (x, y) (seq_edges g) <-> exists l r v, occurs (SSeq l r v) g /\ finishes l x /\ begins r y.
Proof.
  induction g as [t|z|l IHl r IHr v|l IHl r IHr v]; cbn [seq_edges].
  - split; [intros []|]. intros (l & r & v & H & _). inversion H.
  - split; [intros []|]. intros (l & r & v & H & _). inversion H.
  - rewrite !in_app_iff, IHl, IHr, in_prod_iff, finals_finishes, initials_begins. split.
    + intros [(l' & r' & v' & H & Ha)|[(l' & r' & v' & H & Ha)|H]].
      * exists l', r', v'. split; auto. apply oc_seq_l; auto.
      * exists l', r', v'. split; auto. apply oc_seq_r; auto.
      * exists l, r, v. split; auto. constructor.
    + intros (l' & r' & v' & H & Ha). inversion H; subst; [auto| |].
      * left. eauto.
      * right. left. eauto.
  - rewrite !in_app_iff, IHl, IHr. split.
    + intros [(l' & r' & v' & H & Ha)|(l' & r' & v' & H & Ha)].
      * exists l', r', v'. split; auto. apply oc_par_l; auto.
      * exists l', r', v'. split; auto. apply oc_par_r; auto.
    + intros (l' & r' & v' & H & Ha). inversion H; subst; eauto 6.
Qed.
Lemma sequenced_edges b x y : sequenced b x y <-> In (x, y) (flat_map seq_edges b).
Proof.
  unfold sequenced. rewrite in_flat_map. split.
  - intros (g & l & r & v & H1 & H2). exists g. split; auto. apply seq_edges_spec. eauto.
  - intros (g & H1 & H2). apply seq_edges_spec in H2. destruct H2 as (l & r & v & H2). eauto 6.
Qed.
Lemma begins_mention g x : begins g x -> In x (mention g).
Proof. induction 1; cbn; try rewrite in_app_iff; auto. Qed.
Lemma finishes_mention g x : finishes g x -> In x (mention g).
Proof. induction 1; cbn; try rewrite in_app_iff; auto. Qed.
Lemma occurs_mention g h x : occurs h g -> In x (mention h) -> In x (mention g).
Proof. induction 1; cbn; try rewrite in_app_iff; auto. Qed.
Lemma sequenced_mentioned b x y : sequenced b x y -> In x (flat_map mention b) /\ In y (flat_map mention b).
Proof.
  intros (g & l & r & v & H1 & H2 & H3 & H4). rewrite !in_flat_map. split; exists g; split; auto; eapply occurs_mention; eauto; cbn;
    apply in_app_iff; [left; apply finishes_mention; auto|right; apply begins_mention; auto].
Qed.

(** ** The nodes *)
Lemma pick_first ls name : (exists s, In s ls /\ s_name s = name) ->
  exists a s c, ls = a ++ s :: c /\ (forall t, In t a -> s_name t <> name) /\ s_name s = name /\ pick_node ls (name, true) = star_step s.
Proof.
  unfold pick_node. induction ls as [|t ls IH]; intros (s & Hs & Hn); [destruct Hs|]. cbn [find].
  destruct (type_eq_dec (s_name t, true) (name, true)) as [E|E].
  - exists [], t, ls. injection E as E. repeat split; auto.
  - destruct Hs as [->|Hs]; [congruence|]. destruct IH as (a & s' & c & -> & H1 & H2 & H3); [eauto|]. exists (t :: a), s', c.
    repeat split; auto. intros u [<-|Hu]; auto. congruence.
Qed.
Lemma pick_unstarred ls name : pick_node ls (name, false) = {| s_name := name; s_starred := false; s_funcs := None |}.
Proof.
  unfold pick_node. destruct (find _ ls) as [s|] eqn:H; auto. apply find_some in H. destruct H as [_ H].
  destruct (type_eq_dec _ _); congruence.
Qed.
Lemma node_types_leaf g : forall ts, node_types g = Some ts -> forall t, In t ts -> exists s, In s (leaves g) /\ s_name s = fst t.
Proof.
  assert (Hstar : forall ls ts (t : string * bool), Some (map (fun t => (fst t, true)) (unique type_eq_dec (map step_type ls))) = Some ts -> In t ts ->
    exists s, In s ls /\ s_name s = fst t).
  { intros ls ts t [= <-] Ht. apply in_map_iff in Ht. destruct Ht as (u & <- & Hu). apply unique_in in Hu. apply in_map_iff in Hu.
    destruct Hu as (s & <- & Hs). exists s. auto. }
  induction g as [s|x|l IHl r IHr v|l IHl r IHr v]; cbn [node_types leaves]; intros ts H t Ht.
  - injection H as <-. destruct Ht as [<-|[]]. exists s. cbn. auto.
  - injection H as <-. destruct Ht.
  - destruct v.
    + destruct (_ || _); [discriminate|]. eapply Hstar; eauto.
    + destruct (node_types l) as [a|]; [|discriminate]. destruct (node_types r) as [b|]; [|discriminate]. injection H as <-.
      apply in_app_iff in Ht. destruct Ht as [Ht|Ht]; [destruct (IHl a eq_refl t Ht) as (s & H1 & H2)|destruct (IHr b eq_refl t Ht) as (s & H1 & H2)];
        exists s; rewrite in_app_iff; auto.
  - destruct v.
    + destruct (_ || _); [discriminate|]. eapply Hstar; eauto.
    + destruct (node_types l) as [a|]; [|discriminate]. destruct (node_types r) as [b|]; [|discriminate]. injection H as <-.
      apply in_app_iff in Ht. destruct Ht as [Ht|Ht]; [destruct (IHl a eq_refl t Ht) as (s & H1 & H2)|destruct (IHr b eq_refl t Ht) as (s & H1 & H2)];
        exists s; rewrite in_app_iff; auto.
Qed.
Lemma nodes_functions b ns k : seq_nodes b = Some ns -> In k ns ->
  (s_starred k = false -> s_funcs k = None) /\
  (s_starred k = true -> exists a s c, flat_map leaves b = a ++ s :: c /\ (forall t, In t a -> s_name t <> s_name k) /\
     s_name s = s_name k /\ s_funcs k = s_funcs s).
Proof.
  unfold seq_nodes. destruct (all_some (map node_types b)) as [ts|] eqn:Ht; [|discriminate]. intros [= <-] Hk.
  apply in_map_iff in Hk. destruct Hk as ([x v] & <- & Hx). apply in_concat in Hx. destruct Hx as (u & Hu & Hx).
  apply all_some_spec in Ht. assert (Hu' : In (Some u) (map node_types b)) by (rewrite Ht; apply in_map; auto).
  apply in_map_iff in Hu'. destruct Hu' as (g & Hg & Hgb). destruct (node_types_leaf g u Hg _ Hx) as (s & Hs & Hn). cbn [fst] in Hn.
  destruct v.
  - destruct (pick_first (flat_map leaves b) x) as (a & s' & c & E1 & E2 & E3 & E4).
    { exists s. split; auto. apply in_flat_map. eauto. }
    rewrite E4. split; [discriminate|]. intros _. exists a, s', c. cbn. rewrite E3. repeat split; auto.
  - rewrite pick_unstarred. split; auto. discriminate.
Qed.

(** ** Steps starred one by one *)
Lemma node_types_each g : (forall l r v, occurs (SSeq l r v) g \/ occurs (SPar l r v) g -> v = false) ->
  node_types g = Some (map step_type (leaves g)).
Proof.
  induction g as [s|x|l IHl r IHr v|l IHl r IHr v]; intros H; cbn [node_types leaves map]; auto.
  - assert (v = false) as -> by (apply (H l r); left; constructor). rewrite IHl, IHr.
    + rewrite map_app. reflexivity.
    + intros l' r' v' [Ho|Ho]; apply (H l' r'); [left|right]; apply oc_seq_r; auto.
    + intros l' r' v' [Ho|Ho]; apply (H l' r'); [left|right]; apply oc_seq_l; auto.
  - assert (v = false) as -> by (apply (H l r); right; constructor). rewrite IHl, IHr.
    + rewrite map_app. reflexivity.
    + intros l' r' v' [Ho|Ho]; apply (H l' r'); [left|right]; apply oc_par_r; auto.
    + intros l' r' v' [Ho|Ho]; apply (H l' r'); [left|right]; apply oc_par_l; auto.
Qed.
Lemma concat_node_types b : concat (map (fun g => map step_type (leaves g)) b) = map step_type (flat_map leaves b).
Proof. induction b as [|g b IH]; cbn; auto. rewrite map_app, IH. reflexivity. Qed.
Lemma nodes_each b : each_starred b -> seq_nodes b = Some (map (pick_node (flat_map leaves b)) (map step_type (flat_map leaves b))).
Proof.
  intros [H1 H2]. unfold seq_nodes.
  assert (E : map node_types b = map Some (map (fun g => map step_type (leaves g)) b)).
  { rewrite map_map. apply map_ext_in. intros g Hg. apply node_types_each. intros l r v. apply H2. auto. }
  rewrite E. assert (all_some (map Some (map (fun g => map step_type (leaves g)) b)) = Some (map (fun g => map step_type (leaves g)) b)) as ->
    by (apply all_some_spec; auto).
  rewrite concat_node_types. reflexivity.
Qed.
Lemma pick_names ls ts : map s_name (map (pick_node ls) ts) = map fst ts.
Proof.
  rewrite map_map. apply map_ext. intros [x v]. unfold pick_node. destruct (find _ ls) as [s|] eqn:H; auto.
  apply find_some in H. destruct H as [_ H]. destruct (type_eq_dec _ _) as [E|]; [|discriminate]. cbn. congruence.
Qed.
Lemma nodes_each_leaves b ns : each_starred b -> seq_nodes b = Some ns ->
  map s_name ns = map s_name (flat_map leaves b) /\ (NoDup (map s_name ns) -> ns = flat_map leaves b).
Proof.
  intros He Hn. rewrite (nodes_each b He) in Hn. injection Hn as <-.
  assert (E : map s_name (map (pick_node (flat_map leaves b)) (map step_type (flat_map leaves b))) = map s_name (flat_map leaves b)).
  { rewrite pick_names, map_map. reflexivity. }
  split; auto. rewrite E. intros Hd. rewrite map_map. etransitivity; [|apply map_id].
  apply map_ext_in. intros s Hs. destruct He as [H1 _]. destruct (H1 s) as [Hst Hf]; [apply declares_leaves; auto|].
  unfold step_type. rewrite Hst. destruct (pick_first (flat_map leaves b) (s_name s)) as (a & t & c & E1 & E2 & E3 & ->); [eauto|].
  assert (t = s). { apply (nodup_map_inj s_name (flat_map leaves b)); auto. rewrite E1. apply in_elt. }
  subst t. unfold star_step. rewrite <- Hst. destruct s; auto.
Qed.

(** ** The graph *)
Definition found (ns : list seq_step) (x : string) : option seq_step := find (fun s => String.eqb (s_name s) x) ns.
Definition joined (ns : list seq_step) (es : list (string * string)) (a b : rt_step) : Prop :=
  exists e s t, In e es /\ found ns (fst e) = Some s /\ found ns (snd e) = Some t /\ a = rt_of s /\ b = rt_of t.
Lemma found_in ns x s : found ns x = Some s -> In s ns /\ s_name s = x.
Proof. intros H. apply find_some in H. destruct H as [H1 H2]. apply String.eqb_eq in H2. auto. Qed.
Lemma found_some ns s : NoDup (map s_name ns) -> In s ns -> found ns (s_name s) = Some s.
Proof.
  intros Hn Hs. destruct (found ns (s_name s)) as [t|] eqn:E.
  - apply found_in in E. destruct E as [E1 E2]. f_equal. apply (nodup_map_inj s_name ns); auto.
  - exfalso. unfold found in E. apply (find_none _ _ E) in Hs. rewrite String.eqb_refl in Hs. discriminate.
Qed.
Lemma seq_graph_spec ns es : let g := seq_graph ns es in
  good g /\ (forall x, In x (keys g) <-> In x (map rt_of ns)) /\ (forall a b, arc g a b <-> joined ns es a b).
Proof.
  cbn zeta. unfold seq_graph.
  assert (H0 : good (@nil (rt_step * list rt_step))) by (split; constructor).
  destruct (put_nodes_spec rt_eq_dec (map rt_of ns) [] H0) as (P1 & P2 & P3).
  generalize dependent (fold_left (put_node rt_eq_dec) (map rt_of ns) []). intros g P1 P2 P3.
  assert (Hgen : forall es g, good g -> (forall x, In x (map rt_of ns) -> In x (keys g)) ->
    good (fold_left (seq_add_edge ns) es g) /\ (forall x, In x (keys (fold_left (seq_add_edge ns) es g)) <-> In x (keys g)) /\
    (forall a b, arc (fold_left (seq_add_edge ns) es g) a b <-> arc g a b \/ joined ns es a b)).
  { clear. intros es. induction es as [|e es IH]; intros g Hg Hk; cbn [fold_left].
    - split; auto. split; [tauto|]. intros a b. split; [auto|]. intros [|(e & s & t & [] & _)]; auto.
    - assert (Hadd : good (seq_add_edge ns g e) /\ (forall x, In x (keys (seq_add_edge ns g e)) <-> In x (keys g)) /\
        (forall a b, arc (seq_add_edge ns g e) a b <-> arc g a b \/ joined ns [e] a b)).
      { unfold seq_add_edge. fold (found ns (fst e)). fold (found ns (snd e)). destruct (found ns (fst e)) as [p|] eqn:Hp.
        - destruct (found ns (snd e)) as [q|] eqn:Hq.
          + destruct (put_edge_spec rt_eq_dec g (rt_of p) (rt_of q) Hg) as (Q1 & Q2 & Q3). split; auto. split.
            * intros x. rewrite Q2. split; [|auto]. intros [| ->]; auto. apply Hk. apply in_map. apply found_in in Hp; tauto.
            * intros a b. rewrite Q3. split.
              -- intros [|[-> ->]]; auto. right. exists e, p, q. cbn. auto.
              -- intros [|(e' & s & t & [<-|[]] & H1 & H2 & -> & ->)]; auto. right. split; congruence.
          + split; auto. split; [tauto|]. intros a b. split; [auto|]. intros [|(e' & s & t & [<-|[]] & H1 & H2 & _)]; [auto|congruence].
        - split; auto. split; [tauto|]. intros a b. split; [auto|]. intros [|(e' & s & t & [<-|[]] & H1 & H2 & _)]; [auto|congruence]. }
      destruct Hadd as (A1 & A2 & A3). destruct (IH (seq_add_edge ns g e)) as (I1 & I2 & I3); auto.
      { intros x Hx. apply A2. auto. }
      split; auto. split.
      + intros x. rewrite I2. apply A2.
      + intros a b. rewrite I3, A3. unfold joined. split.
        * intros [[H|(e' & s & t & [<-|[]] & H)]|(e' & s & t & H1 & H2)]; [auto| |].
          -- right. exists e, s, t. cbn. auto.
          -- right. exists e', s, t. cbn. auto.
        * intros [H|(e' & s & t & [<-|H1] & H2)]; [auto| |].
          -- left. right. exists e, s, t. cbn. auto.
          -- right. exists e', s, t. auto. }
  destruct (Hgen es g P1) as (I1 & I2 & I3); [intros x Hx; apply P2; auto|]. split; auto. split.
  - intros x. rewrite I2, P2. cbn. tauto.
  - intros a b. rewrite I3, P3. split; [|auto]. intros [(vs & [] & _)|]; auto.
Qed.

Section Order.
Variable pops : nat -> list rt_step -> option (rt_step * list rt_step).
Variable enum : nat -> list rt_step -> list rt_step.
Hypothesis Hpops : pops_some pops.
Hypothesis Henum : enumerates enum.

Lemma seq_accepted b r : each_starred b -> seq_build pops enum b = Some r ->
  let ls := flat_map leaves b in
  NoDup (map s_name ls) /\ (forall x, In x (map s_name ls) <-> In x (flat_map mention b)) /\
  topo_sort rt_eq_dec pops enum (seq_graph ls (flat_map seq_edges b)) = Some r.
Proof.
  intros He H. cbn zeta. unfold seq_build in H. destruct (seq_nodes b) as [ns|] eqn:Hns; [|discriminate].
  destruct (nodes_each_leaves b ns He Hns) as [E1 E2].
  destruct (negb _) eqn:Hm; [discriminate|]. destruct (has_duplicate _) eqn:Hd; [discriminate|].
  apply has_duplicate_spec in Hd. apply negb_false_iff, andb_true_iff in Hm. destruct Hm as [M1 M2].
  apply names_subset_spec in M1, M2. rewrite E1 in Hd, M1, M2. rewrite (E2 ltac:(rewrite E1; auto)) in H.
  split; auto. split; auto. intros x. split; auto.
Qed.
Lemma seq_builds b : each_starred b -> (exists r, seq_build pops enum b = Some r) <->
  NoDup (map s_name (flat_map leaves b)) /\ incl (flat_map mention b) (map s_name (flat_map leaves b)).
Proof.
  intros He. split.
  - intros (r & H). apply seq_accepted in H; auto. cbn zeta in H. split; [tauto|]. intros x Hx. apply H. auto.
  - intros [Hd Hi]. unfold seq_build. rewrite (nodes_each b He).
    destruct (nodes_each_leaves b _ He (nodes_each b He)) as [E1 E2]. rewrite (E2 ltac:(rewrite E1; auto)).
    assert (Hl : incl (map s_name (flat_map leaves b)) (flat_map mention b)).
    { intros x Hx. apply in_map_iff in Hx. destruct Hx as (s & <- & Hs). apply in_flat_map in Hs. destruct Hs as (g & Hg & Hs).
      apply in_flat_map. exists g. split; auto. apply leaves_spec in Hs. eapply occurs_mention; eauto. cbn. auto. }
    apply names_subset_spec in Hi, Hl. rewrite Hi, Hl. cbn. apply has_duplicate_spec in Hd. rewrite Hd.
    destruct (seq_graph_spec (flat_map leaves b) (flat_map seq_edges b)) as (G1 & G2 & G3).
    edestruct (topo_sort_spec rt_eq_dec pops enum Hpops Henum) as (o & g & Ho & _); [exact G1| |eauto].
    intros p q Hpq. apply G3 in Hpq. destruct Hpq as (e & s & t & _ & _ & Ht & _ & ->). apply G2, in_map. apply found_in in Ht. tauto.
Qed.

Lemma calls_rt s k : s_funcs s <> None -> calls_of s k <-> k = rt_of s.
Proof.
  intros H. unfold calls_of, rt_of. destruct (s_funcs s) as [f|]; [|congruence]. cbn. split; [intros (f' & [= <-] & ->); auto|]. intros ->. eauto.
Qed.
Lemma rt_inj s t : s_funcs s <> None -> rt_of s = rt_of t -> s_name s = s_name t.
Proof. unfold rt_of. destruct (s_funcs s), (s_funcs t); cbn; congruence. Qed.

Lemma seq_order b o g : each_starred b -> seq_build pops enum b = Some (o, g) ->
  NoDup o /\
  (g <> [] <-> cyclic (sequenced b)) /\
  (g = [] -> Permutation o (map rt_of (flat_map leaves b)) /\
     forall s t, declares b s -> declares b t -> sequenced b (s_name s) (s_name t) -> before o (rt_of s) (rt_of t)).
Proof.
  intros He H. destruct (seq_accepted b _ He H) as (Hd & Hm & Ht). clear H.
  assert (Hf : forall s, In s (flat_map leaves b) -> s_funcs s <> None) by (intros s Hs; apply declares_leaves in Hs; apply He in Hs; tauto).
  destruct (seq_graph_spec (flat_map leaves b) (flat_map seq_edges b)) as (G1 & G2 & G3).
  set (G := seq_graph _ _) in *.
  assert (Hcl : forall p q, arc G p q -> In q (keys G)).
  { intros p q Hpq. apply G3 in Hpq. destruct Hpq as (e & s & t & _ & _ & Hft & _ & ->). apply G2, in_map. apply found_in in Hft. tauto. }
  destruct (topo_sort_spec rt_eq_dec pops enum Hpops Henum G G1 Hcl) as (o' & g' & Ho & Hi).
  rewrite Ht in Ho. injection Ho as <- <-.
  assert (Harc : forall s t, In s (flat_map leaves b) -> In t (flat_map leaves b) -> sequenced b (s_name s) (s_name t) -> arc G (rt_of s) (rt_of t)).
  { intros s t Hs Hti Hst. apply G3. apply sequenced_edges in Hst. exists (s_name s, s_name t), s, t. cbn. repeat split; auto; apply found_some; auto. }
  split; [apply Hi|]. split; [|intros ->; split].
  - rewrite (leftover_iff_cycle rt_eq_dec G o g Hi). 
    set (nm := fun k : rt_step => match k with Some (_, x) => x | None => EmptyString end).
    assert (Hnm : forall s, In s (flat_map leaves b) -> nm (rt_of s) = s_name s).
    { intros s Hs. unfold rt_of. specialize (Hf s Hs). destruct (s_funcs s); cbn; congruence. }
    split.
    + intros (p & Hp). exists (nm p). revert Hp. apply clos_trans_map. intros x y Hxy. apply G3 in Hxy.
      destruct Hxy as (e & s & t & H1 & H2 & H3 & -> & ->). apply found_in in H2, H3. rewrite !Hnm by tauto.
      destruct H2 as [_ ->], H3 as [_ ->]. apply sequenced_edges. destruct e; auto.
    + intros (x & Hx). destruct (clos_trans_unmap (fun k => In k (map rt_of (flat_map leaves b))) (arc G) (sequenced b) nm) with (x := x) (y := x)
        as (p & q & P1 & P2 & P3 & P4 & P5); auto.
      * intros k k' Hk Hk' E. apply in_map_iff in Hk, Hk'. destruct Hk as (s & <- & Hs), Hk' as (t & <- & Hti).
        rewrite !Hnm in E by auto. f_equal. apply (nodup_map_inj s_name (flat_map leaves b)); auto.
      * intros u v Huv. pose proof (sequenced_mentioned b u v Huv) as [Hu Hv]. apply Hm in Hu, Hv. apply in_map_iff in Hu, Hv.
        destruct Hu as (s & <- & Hs), Hv as (t & <- & Hti). exists (rt_of s), (rt_of t).
        rewrite !Hnm by auto. repeat split; auto; apply in_map; auto.
      * assert (p = q); [|subst; exists q; auto].
        apply in_map_iff in P1, P2. destruct P1 as (s & <- & Hs), P2 as (t & <- & Hti). rewrite Hnm in P4, P5 by auto.
        f_equal. apply (nodup_map_inj s_name (flat_map leaves b)); auto. congruence.
  - destruct (no_leftover_order G G1 Hcl o Hi) as [P _]. rewrite P. apply NoDup_Permutation; auto.
    + apply G1.
    + assert (Hinj : forall s t, In s (flat_map leaves b) -> In t (flat_map leaves b) -> rt_of s = rt_of t -> s = t).
      { intros s t Hs Hti E. apply (nodup_map_inj s_name (flat_map leaves b)); auto. apply rt_inj; auto. }
      assert (Hnd : NoDup (flat_map leaves b)) by (eapply NoDup_map_inv; eauto).
      revert Hinj Hnd. clear. generalize (flat_map leaves b). induction l as [|s l IH]; intros Hinj Hnd; cbn; constructor.
      * intros Hin. apply in_map_iff in Hin. destruct Hin as (t & E & Hti). inversion_clear Hnd. apply H.
        rewrite (Hinj s t); auto; cbn; auto.
      * inversion_clear Hnd. apply IH; auto. intros; apply Hinj; cbn; auto.
  - intros s t Hs Hti Hst. apply declares_leaves in Hs, Hti. apply (no_leftover_order G G1 Hcl o Hi). auto.
Qed.
End Order.

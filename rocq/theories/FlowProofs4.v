(** Proofs: splitting a flow, exact step counts, capacities, the debug builder
    and the visualisation. *)
From Coq Require Import Ascii String Bool Arith List Permutation Relations Lia.
From Verif Require Import FlowModel FlowSpec FlowProofs FlowProofs2 FlowProofs3.
Import ListNotations.

(** ** Order of fragments *)
Lemma perm_mentioned b b' x : Permutation b b' -> step_mentioned b x <-> step_mentioned b' x.
Proof.
  intros H. unfold step_mentioned. split; intros (g & l & Hg & Hx); exists g, l; (split; [|auto]); eapply Permutation_in; [exact H|auto|symmetry; exact H|auto].
Qed.
Lemma perm_sequence b b' c x y : Permutation b b' -> in_sequence b c x y <-> in_sequence b' c x y.
Proof.
  intros H. unfold in_sequence. split; intros (g & l & r & v & Hg & Hx); exists g, l, r, v; (split; [|auto]); eapply Permutation_in; [exact H|auto|symmetry; exact H|auto].
Qed.
Lemma perm_declared b b' x y : Permutation b b' -> declared b x y <-> declared b' x y.
Proof.
  intros H. unfold declared. split; intros (c & p & q & Hs & Hx); exists c, p, q; (split; [|auto]); apply (perm_sequence b b' c p q H); auto.
Qed.
Lemma clos_trans_iff {A} (R S : A -> A -> Prop) : (forall x y, R x y <-> S x y) -> forall x y, clos_trans A R x y <-> clos_trans A S x y.
Proof.
  intros H x y. split; induction 1; [apply t_step, H; auto|eapply t_trans; eauto|apply t_step, H; auto|eapply t_trans; eauto].
Qed.
Lemma clos_rt_iff {A} (R S : A -> A -> Prop) : (forall x y, R x y <-> S x y) -> forall x y, clos_refl_trans A R x y <-> clos_refl_trans A S x y.
Proof.
  intros H x y. split; induction 1; try apply rt_refl; try (apply rt_step, H; assumption); eapply rt_trans; eauto.
Qed.
Lemma cyclic_iff {A} (R S : A -> A -> Prop) : (forall x y, R x y <-> S x y) -> cyclic R <-> cyclic S.
Proof. intros H. unfold cyclic. split; intros (x & Hx); exists x; eapply clos_trans_iff; eauto; intros; symmetry; apply H. Qed.
Lemma perm_nodes b b' : Permutation b b' ->
  match b_nodes b, b_nodes b' with Some ns, Some ns' => Permutation ns ns' | None, None => True | _, _ => False end.
Proof.
  unfold b_nodes. induction 1 as [|g b b' H IH|g h b|b b' b'' H1 IH1 H2 IH2]; cbn.
  - constructor.
  - destruct (nodes g) as [a|]; cbn; auto. destruct (all_some (map nodes b)), (all_some (map nodes b')); cbn in *; auto.
    apply Permutation_app_head. auto.
  - destruct (nodes g) as [a|], (nodes h) as [c|]; cbn; auto. destruct (all_some (map nodes b)); cbn; auto.
    rewrite !app_assoc. apply Permutation_app_tail, Permutation_app_comm.
  - destruct (option_map (concat (A:=node)) (all_some (map nodes b))), (option_map (concat (A:=node)) (all_some (map nodes b'))),
      (option_map (concat (A:=node)) (all_some (map nodes b''))); auto; try contradiction. etransitivity; eauto.
Qed.
Lemma perm_named ns ns' x : Permutation ns ns' -> NoDup (map n_name ns) -> named ns x = named ns' x.
Proof.
  intros H Hn. assert (Hn' : NoDup (map n_name ns')) by (eapply Permutation_NoDup; [apply Permutation_map; exact H|auto]).
  destruct (named ns x) as [n|] eqn:E.
  - apply named_spec in E; auto. symmetry. apply named_spec; auto. split; [|tauto]. eapply Permutation_in; [exact H|tauto].
  - destruct (named ns' x) as [n|] eqn:E'; auto. apply named_spec in E'; auto.
    assert (named ns x = Some n); [|congruence]. apply named_spec; auto. split; [|tauto]. eapply Permutation_in; [symmetry; exact H|tauto].
Qed.
Lemma perm_edge_ok ns ns' e : Permutation ns ns' -> NoDup (map n_name ns) -> edge_ok ns e = edge_ok ns' e.
Proof. intros H Hn. unfold edge_ok. rewrite !(perm_named ns ns' _ H Hn). reflexivity. Qed.

(** The reasons for rejection. *)
Definition has_missing (b : builder) : Prop := exists ns x, b_nodes b = Some ns /\ step_mentioned b x /\ ~ In x (map n_name ns).
Definition has_repeat (b : builder) : Prop := exists ns, b_nodes b = Some ns /\ ~ NoDup (map n_name ns).
Definition has_weak (b : builder) : Prop :=
  exists ns e, b_nodes b = Some ns /\ NoDup (map n_name ns) /\ In e (b_edges b) /\ edge_ok ns e = false.
Lemma perm_missing b b' : Permutation b b' -> has_missing b -> has_missing b'.
Proof.
  intros Hp (ns & x & H1 & H2 & H3). pose proof (perm_nodes _ _ Hp) as H. rewrite H1 in H. destruct (b_nodes b') as [ns'|] eqn:E; [|destruct H].
  exists ns', x. split; auto. split; [apply (perm_mentioned b b'); auto|]. intros Hc. apply H3.
  eapply Permutation_in; [apply Permutation_map; symmetry; exact H|exact Hc].
Qed.
Lemma perm_repeat b b' : Permutation b b' -> has_repeat b -> has_repeat b'.
Proof.
  intros Hp (ns & H1 & H2). pose proof (perm_nodes _ _ Hp) as H. rewrite H1 in H. destruct (b_nodes b') as [ns'|] eqn:E; [|destruct H].
  exists ns'. split; auto. intros Hc. apply H2. eapply Permutation_NoDup; [apply Permutation_map; symmetry; exact H|exact Hc].
Qed.
Lemma perm_weak b b' : Permutation b b' -> has_weak b -> has_weak b'.
Proof.
  intros Hp (ns & e & H1 & H2 & H3 & H4). pose proof (perm_nodes _ _ Hp) as H. rewrite H1 in H. destruct (b_nodes b') as [ns'|] eqn:E; [|destruct H].
  exists ns', e. split; auto. split; [eapply Permutation_NoDup; [apply Permutation_map; exact H|auto]|].
  split; [apply b_edges_spec, (perm_sequence b b'), b_edges_spec; auto|]. rewrite <- (perm_edge_ok ns ns'); auto.
Qed.
Lemma perm_rejected b b' : Permutation b b' -> b_nodes b = None -> b_nodes b' = None.
Proof. intros Hp H. pose proof (perm_nodes _ _ Hp) as P. rewrite H in P. destruct (b_nodes b'); [destruct P|auto]. Qed.

Section Kinds.
Variable pops : nat -> list node -> option (node * list node).
Variable enum : nat -> list node -> list node.
Hypothesis Hpops : pops_some pops.
Hypothesis Henum : enumerates enum.
Lemma build_kind b : 
  (build pops enum b = Rejected <-> b_nodes b = None) /\
  (build pops enum b = MissingSteps <-> b_nodes b <> None /\ has_missing b) /\
  (build pops enum b = DuplicateSteps <-> b_nodes b <> None /\ ~ has_missing b /\ has_repeat b) /\
  (build pops enum b = WeakCondition <-> b_nodes b <> None /\ ~ has_missing b /\ ~ has_repeat b /\ has_weak b) /\
  ((exists g, build pops enum b = Cycle g) <-> b_nodes b <> None /\ ~ has_missing b /\ ~ has_repeat b /\ ~ has_weak b /\ cyclic (declared b)) /\
  ((exists o, build pops enum b = Built o) <-> b_nodes b <> None /\ ~ has_missing b /\ ~ has_repeat b /\ ~ has_weak b /\ ~ cyclic (declared b)).
Proof.
  assert (Hchk : forall ns, checked b ns -> b_nodes b <> None /\ ~ has_missing b /\ ~ has_repeat b /\ ~ has_weak b).
  { intros ns (H1 & H2 & H3 & H4). repeat split.
    - congruence.
    - intros (ns' & x & E & X1 & X2). assert (ns' = ns) by congruence. subst. apply X2, H3. auto.
    - intros (ns' & E & X). assert (ns' = ns) by congruence. subst. auto.
    - intros (ns' & e & E & _ & X1 & X2). assert (ns' = ns) by congruence. subst. rewrite forallb_forall in H4.
      rewrite (H4 e) in X2; [discriminate|]. apply unique_in; auto. }
  pose proof (build_spec pops enum Hpops Henum b) as H. destruct (build pops enum b) as [| | | |g|o] eqn:Hb.
  - repeat split; intros; try discriminate; try tauto; try (destruct H0; discriminate).
  - destruct H as (ns & E & x & X1 & X2). assert (has_missing b) by (exists ns, x; auto).
    assert (b_nodes b <> None) by congruence.
    repeat split; intros; try discriminate; try tauto; try (destruct H1; discriminate).
  - destruct H as (ns & E & X1 & X2). assert (has_repeat b) by (exists ns; auto).
    assert (~ has_missing b). { intros (ns' & x & E' & Y1 & Y2). assert (ns' = ns) by congruence. subst. apply Y2, X1. auto. }
    assert (b_nodes b <> None) by congruence.
    repeat split; intros; try discriminate; try tauto; try (destruct H2; discriminate).
  - destruct H as (ns & E & X0 & X1 & e & X2 & X3). assert (has_weak b) by (exists ns, e; auto).
    assert (~ has_missing b). { intros (ns' & x & E' & Y1 & Y2). assert (ns' = ns) by congruence. subst. apply Y2, X1. auto. }
    assert (~ has_repeat b). { intros (ns' & E' & Y). assert (ns' = ns) by congruence. subst. auto. }
    assert (b_nodes b <> None) by congruence.
    repeat split; intros; try discriminate; try tauto; try (destruct H3; discriminate).
  - destruct H as (Hne & ns & o & Hc & Hs). pose proof (Hchk ns Hc). pose proof (built_iff_acyclic pops enum Hpops Henum b ns Hc) as [_ Hcy].
    assert (cyclic (declared b)) by (apply Hcy; eauto).
    repeat split; intros; try discriminate; try tauto; eauto. destruct H1; discriminate.
  - destruct H as (ns & Hc & Hs). pose proof (Hchk ns Hc). pose proof (built_iff_acyclic pops enum Hpops Henum b ns Hc) as [Hcy _].
    assert (~ cyclic (declared b)) by (apply Hcy; eauto).
    repeat split; intros; try discriminate; try tauto; eauto. destruct H1; discriminate.
Qed.
End Kinds.

(** ** How often steps are added, exactly *)
Inductive composite_starred : subgraph -> Prop :=
| cs_seq l r c : composite_starred (Seq l r true c)
| cs_par l r : composite_starred (Par l r true).
(** Within each starred composite every step is always written the same way. *)
Definition uniform (g : subgraph) : Prop :=
  forall h, part g h -> composite_starred h -> forall l l', mentions h l -> mentions h l' -> leaf_name l = leaf_name l' -> l = l'.
Lemma count_nodup_names x (ls : list leaf) ns : NoDup ls -> (forall l l', In l ls -> In l' ls -> leaf_name l = leaf_name l' -> l = l') ->
  all_some (map star_leaf ls) = Some ns -> NoDup (map n_name ns) /\ (In x (map n_name ns) <-> In x (map leaf_name ls)).
Proof.
  intros Hn Hu H. assert (Hnames : map n_name ns = map leaf_name ls).
  { revert ns H. clear. induction ls as [|l ls IH]; cbn; intros ns H; [injection H as <-; auto|].
    destruct l as [m|s]; cbn in *; [|discriminate]. destruct (all_some (map star_leaf ls)) as [r|]; [|discriminate].
    cbn in H. injection H as <-. cbn. f_equal. auto. }
  rewrite Hnames. split; [|tauto]. clear -Hn Hu. induction ls as [|l ls IH]; cbn; [constructor|]. inversion_clear Hn. constructor.
  - intros Hc. apply in_map_iff in Hc. destruct Hc as (l' & E & Hl'). apply H. rewrite (Hu l l'); cbn; auto.
  - apply IH; auto. intros a b Ha Hb. apply Hu; cbn; auto.
Qed.
Lemma occurrences_nodup x l : NoDup l -> occurrences x l = if in_dec string_dec x l then 1 else 0.
Proof.
  intros H. unfold occurrences. destruct (in_dec string_dec x l) as [Hi|Hi].
  - apply NoDup_count_occ'; auto.
  - apply count_occ_not_In; auto.
Qed.
Lemma times_added_exact x g : uniform g -> forall ns, nodes g = Some ns -> occurrences x (map n_name ns) = times_added x g.
Proof.
  assert (Hstar : forall h ns, composite_starred h -> uniform h ->
    all_some (map star_leaf (unique leaf_eq_dec (mentioned h))) = Some ns ->
    occurrences x (map n_name ns) = if mentions_name x h then 1 else 0).
  { intros h ns Hc Hu Hs. destruct (count_nodup_names x _ ns (unique_nodup leaf_eq_dec (mentioned h))) with (2 := Hs) as [N1 N2].
    { intros l l' H1 H2. rewrite unique_in, mentioned_spec in H1, H2. apply (Hu h); auto. constructor. }
    rewrite occurrences_nodup by auto. destruct (in_dec string_dec x (map n_name ns)) as [Hi|Hi].
    - apply N2, in_map_iff in Hi. destruct Hi as (l & L1 & L2). rewrite unique_in, mentioned_spec in L2.
      assert (E : mentions_name x h = true) by (apply mentions_name_spec; eauto). rewrite E. auto.
    - destruct (mentions_name x h) eqn:E; auto. exfalso. apply Hi, N2, in_map_iff. apply mentions_name_spec in E.
      destruct E as (l & L1 & L2). exists l. split; auto. apply unique_in, mentioned_spec. auto. }
  induction g as [[m|s]|l IHl r IHr [] c|l IHl r IHr []]; intros Hu ns H; cbn [nodes] in H.
  - injection H as <-. cbn. destruct (n_value m); cbn; auto. unfold occurrences. cbn.
    destruct (string_dec (n_name m) x) as [<-|Hne]; [rewrite String.eqb_refl; auto|].
    apply String.eqb_neq in Hne. rewrite Hne. auto.
  - injection H as <-. auto.
  - apply (Hstar (Seq l r true c)); auto. constructor.
  - destruct (nodes l) as [a|]; [|discriminate]. destruct (nodes r) as [b|]; [|discriminate]. injection H as <-. cbn.
    rewrite map_app, occurrences_app, IHl, IHr; auto.
    + intros h Hh. apply Hu. apply part_seq_r; auto.
    + intros h Hh. apply Hu. apply part_seq_l; auto.
  - apply (Hstar (Par l r true)); auto. constructor.
  - destruct (nodes l) as [a|]; [|discriminate]. destruct (nodes r) as [b|]; [|discriminate]. injection H as <-. cbn.
    rewrite map_app, occurrences_app, IHl, IHr; auto.
    + intros h Hh. apply Hu. apply part_par_r; auto.
    + intros h Hh. apply Hu. apply part_par_l; auto.
Qed.
Lemma added_exact x b : (forall g, In g b -> uniform g) -> forall ns, b_nodes b = Some ns -> occurrences x (map n_name ns) = added b x.
Proof.
  unfold b_nodes, added, list_sum. induction b as [|g b IH]; cbn; intros Hu ns H; [injection H as <-; auto|].
  destruct (nodes g) as [a|] eqn:Hg; [|discriminate]. destruct (all_some (map nodes b)) as [ls|]; [|discriminate]. cbn in H. injection H as <-.
  rewrite map_app, occurrences_app, (times_added_exact x g), (IH (fun g Hg => Hu g (or_intror Hg)) (concat ls)); auto.
Qed.

(** ** Capacities *)
Lemma fold_max_le l : forall a, (a <= fold_left Nat.max l a)%nat /\ (forall x, In x l -> (x <= fold_left Nat.max l a)%nat).
Proof.
  induction l as [|y l IH]; intros a; cbn; [split; [lia|intros x []]|]. destruct (IH (Nat.max a y)) as [H1 H2].
  split; [lia|]. intros x [<-|Hx]; [lia|auto].
Qed.
Definition linked_to (ns : list node) (es : list edge) (a : node) : list node :=
  flat_map (fun e => match named ns (leaf_name (e_src e)), named ns (leaf_name (e_dst e)) with
                     | Some x, Some y => if node_eq_dec x a then [y] else [] | _, _ => [] end) es.
Lemma linked_to_spec ns es a b : In b (linked_to ns es a) <-> linked ns es a b.
Proof.
  unfold linked_to, linked. rewrite in_flat_map. split; intros (e & He & H); exists e; (split; [auto|]).
  - destruct (named ns (leaf_name (e_src e))) as [x|]; [|destruct H]. destruct (named ns (leaf_name (e_dst e))) as [y|]; [|destruct H].
    destruct (node_eq_dec x a) as [->|]; [|destruct H]. destruct H as [->|[]]. auto.
  - destruct H as [-> ->]. destruct (node_eq_dec a a); [left; auto|congruence].
Qed.
Lemma linked_to_length ns es a : (length (linked_to ns es a) <= length (filter (touches a) es))%nat.
Proof.
  unfold linked_to. induction es as [|e es IH]; cbn [flat_map filter]; auto. rewrite app_length.
  destruct (named ns (leaf_name (e_src e))) as [x|] eqn:Hx; [destruct (named ns (leaf_name (e_dst e))) as [y|] eqn:Hy; [destruct (node_eq_dec x a) as [->|]|]|];
    try (destruct (touches a e); cbn; lia).
  unfold named in Hx. apply find_some in Hx. destruct Hx as [_ Hx].
  assert (Ht : touches a e = true) by (unfold touches; rewrite (String.eqb_sym (leaf_name (e_src e))), Hx; auto). rewrite Ht. cbn. lia.
Qed.
Lemma values_fit ns es g n vs : good g -> (forall a b, arc g a b -> linked ns es a b) -> In (n, vs) g -> In n ns ->
  (length vs <= edge_size ns es)%nat.
Proof.
  intros [_ Hg] Ha Hin Hn. rewrite Forall_forall in Hg. specialize (Hg _ Hin). cbn in Hg.
  assert (H1 : (length vs <= length (linked_to ns es n))%nat).
  { apply NoDup_incl_length; auto. intros b Hb. apply linked_to_spec, Ha. exists vs. auto. }
  pose proof (linked_to_length ns es n). 
  assert (H2 : (length (filter (touches n) es) <= edge_size ns es)%nat).
  { unfold edge_size. apply fold_max_le. apply in_map_iff. exists n. auto. }
  lia.
Qed.
Lemma linked_mono ns es es' a b : incl es es' -> linked ns es a b -> linked ns es' a b.
Proof. intros H (e & He & H2). exists e. auto. Qed.
Lemma fits_some ns es g : good g -> (forall x, In x (keys g) -> In x ns) -> (forall a b, arc g a b -> linked ns es a b) ->
  fits (length ns) (edge_size ns es) g = Some g.
Proof.
  intros Hg Hk Ha. unfold fits.
  assert (H1 : (length g <= length ns)%nat).
  { replace (length g) with (length (keys g)) by (unfold keys; apply map_length). apply NoDup_incl_length; [apply Hg|]. intros x. apply Hk. }
  apply Nat.leb_le in H1. rewrite H1. cbn [andb].
  assert (H2 : forallb (fun e => length (snd e) <=? edge_size ns es) g = true).
  { apply forallb_forall. intros [n vs] Hin. cbn. apply Nat.leb_le. apply (values_fit ns es g n vs); auto.
    apply Hk. apply (in_map fst) in Hin. auto. }
  rewrite H2. reflexivity.
Qed.
Lemma make_graph_fixed_spec ns es : NoDup (map n_name ns) ->
  make_graph_fixed (length ns) (edge_size ns es) ns es = Some (make_graph ns es).
Proof.
  intros Hn. unfold make_graph_fixed, make_graph.
  assert (HA : forall ms (g : graph node), good g -> (forall x, In x (keys g) -> In x ns) -> (forall a b, ~ arc g a b) -> incl ms ns ->
    fold_left (fun g n => bind_graph (length ns) (edge_size ns es) g (fun g => put_node node_eq_dec g n)) ms (Some g) =
    Some (fold_left (put_node node_eq_dec) ms g)).
  { intros ms. induction ms as [|m ms IH]; intros g Hg Hk Ha Hi; cbn; auto.
    destruct (put_node_spec node_eq_dec g m Hg) as (P1 & P2 & P3).
    assert (Hk' : forall x, In x (keys (put_node node_eq_dec g m)) -> In x ns).
    { intros x Hx. apply P2 in Hx. destruct Hx as [|E]; [auto|subst; apply Hi; cbn; auto]. }
    assert (Ha' : forall a b, ~ arc (put_node node_eq_dec g m) a b) by (intros a b Hab; apply P3 in Hab; exact (Ha a b Hab)).
    rewrite (fits_some ns es (put_node node_eq_dec g m)); auto.
    - apply IH; auto. intros x Hx. apply Hi. cbn. auto.
    - intros a b Hab. destruct (Ha' a b Hab). }
  assert (E : fold_left (fun g n => bind_graph (length ns) (edge_size ns es) g (fun g => put_node node_eq_dec g n)) ns (Some []) =
    Some (fold_left (put_node node_eq_dec) ns [])).
  { apply HA; [split; constructor|intros x []|intros a b (vs & [] & _)|intros x Hx; auto]. }
  etransitivity; [apply f_equal; exact E|]. clear E.
  assert (H0 : good (@nil (node * list node))) by (split; constructor).
  destruct (put_nodes_spec node_eq_dec ns [] H0) as (P1 & P2 & P3).
  assert (HB : forall fs (g : graph node), good g -> (forall x, In x (keys g) -> In x ns) -> (forall a b, arc g a b -> linked ns es a b) -> incl fs es ->
    fold_left (fun g e => bind_graph (length ns) (edge_size ns es) g (fun g => add_edge ns g e)) fs (Some g) =
    Some (fold_left (add_edge ns) fs g)).
  { intros fs. induction fs as [|f fs IH]; intros g Hg Hk Ha Hi; cbn; auto.
    assert (Hadd : good (add_edge ns g f) /\ (forall x, In x (keys (add_edge ns g f)) -> In x ns) /\
      (forall a b, arc (add_edge ns g f) a b -> linked ns es a b)).
    { unfold add_edge. destruct (named ns (leaf_name (e_src f))) as [p|] eqn:Hp; [|auto].
      destruct (named ns (leaf_name (e_dst f))) as [q|] eqn:Hq; [|auto].
      destruct (put_edge_spec node_eq_dec g p q Hg) as (Q1 & Q2 & Q3). split; auto. split.
      - intros x Hx. apply Q2 in Hx. destruct Hx as [|E]; [auto|subst; apply named_spec in Hp; tauto].
      - intros a b Hab. apply Q3 in Hab. destruct Hab as [|[E1 E2]]; auto. exists f. subst. split; auto. apply Hi. cbn. auto. }
    destruct Hadd as (A1 & A2 & A3). rewrite (fits_some ns es (add_edge ns g f)); auto. apply IH; auto. intros x Hx. apply Hi. cbn. auto. }
  apply HB; auto.
  - intros x Hx. apply P2 in Hx. destruct Hx as [[]|]; auto.
  - intros a b Hab. apply P3 in Hab. destruct Hab as (vs & [] & _).
  - intros x Hx. auto.
Qed.

Section TopoFixed.
Variable pops : nat -> list node -> option (node * list node).
Variable enum : nat -> list node -> list node.
Hypothesis Hpops : pops_some pops.
Hypothesis Henum : enumerates enum.
Variable G : graph node.
Hypothesis HG : good G.
Hypothesis Hclosed : forall a b, arc G a b -> In b (keys G).
Variable N : nat.
Hypothesis HN : (length (keys G) <= N)%nat.
Lemma fits_subset s : NoDup s -> (forall x, In x s -> In x (keys G)) -> fits_set N s = true.
Proof. intros H1 H2. unfold fits_set. apply Nat.leb_le. assert (length s <= length (keys G))%nat by (apply NoDup_incl_length; auto). lia. Qed.
Lemma visit_fixed_spec n ms : forall g s, NoDup s -> (forall x, In x s -> In x (keys G)) -> (forall x, In x ms -> In x (keys G)) ->
  visit_fixed N g n ms s = Some (visit node_eq_dec g n ms s).
Proof.
  induction ms as [|m ms IH]; intros g s H1 H2 H3; cbn [visit_fixed visit]; auto.
  set (s' := if is_source_of node_eq_dec m (erase_edge node_eq_dec g n m) then insert node_eq_dec m s else s).
  assert (Hs : NoDup s' /\ forall x, In x s' -> In x (keys G)).
  { unfold s'. destruct (is_source_of node_eq_dec m (erase_edge node_eq_dec g n m)); [|auto]. split; [apply insert_nodup; auto|].
    intros x Hx. apply insert_in in Hx. destruct Hx as [->|]; auto. apply H3. cbn. auto. }
  destruct Hs as [S1 S2]. rewrite (fits_subset s') by auto. apply IH; auto. intros x Hx. apply H3. cbn. auto.
Qed.
Lemma topo_fixed_loop fuel : forall g s o, inv G g s o ->
  topo_loop_fixed N pops enum fuel g s o = topo_loop node_eq_dec pops enum fuel g s o.
Proof.
  induction fuel as [|f IH]; intros g s o I; cbn [topo_loop_fixed topo_loop]; [destruct (pops 0 s) as [[]|]; auto|].
  pose proof (Hpops (S f) s) as Hp. destruct (pops (S f) s) as [[n rest]|]; auto.
  assert (Hn : In n s) by (eapply Permutation_in; [symmetry; exact Hp|left; auto]).
  destruct (proj1 (i_src _ _ _ _ I n) Hn) as [Hnk Hna]. rewrite (proj2 (has_true node_eq_dec n (keys g)) Hnk).
  assert (Hrn : NoDup rest).
  { pose proof (Permutation_NoDup Hp (i_snodup _ _ _ _ I)) as H. inversion_clear H. auto. }
  assert (HgG : forall x, In x (keys g) -> In x (keys G)) by (intros x Hx; apply (i_part _ _ _ _ I); auto).
  assert (HrG : forall x, In x rest -> In x (keys G)).
  { intros x Hx. apply HgG. assert (Hxs : In x s) by (eapply Permutation_in; [symmetry; exact Hp|right; auto]). apply (i_src _ _ _ _ I) in Hxs. tauto. }
  assert (Ho : NoDup (o ++ [n])).
  { apply (Permutation_NoDup (l := n :: o)); [apply Permutation_cons_append|]. constructor; [|apply (i_nodup _ _ _ _ I)].
    intros Hc. apply (i_disj _ _ _ _ I n Hc). auto. }
  rewrite (fits_subset (o ++ [n])); auto.
  2:{ intros x Hx. apply in_app_iff in Hx. destruct Hx as [Hx|[<-|[]]]; auto. apply (i_part _ _ _ _ I). auto. }
  cbn [negb].
  assert (Hget : forall b, In b (enum (S f) (get node_eq_dec g n)) <-> arc g n b).
  { intros b. rewrite <- (get_spec node_eq_dec g n) by apply (i_good _ _ _ _ I). split; apply Permutation_in; [|symmetry]; apply Henum. }
  destruct (enum (S f) (get node_eq_dec g n)) as [|m ms] eqn:Hms.
  - apply IH. apply (inv_step node_eq_dec G Hclosed g s o n rest); auto.
    + apply erase_key_good, (i_good _ _ _ _ I).
    + intros a b. apply erase_key_arc.
    + intros x. apply erase_key_keys.
    + intros x. split; [auto|]. intros [|[Hx _]]; auto. apply Hget in Hx. destruct Hx.
  - rewrite visit_fixed_spec; auto.
    2:{ intros x Hx. apply Hget in Hx. apply (i_arcs _ _ _ _ I) in Hx. eapply Hclosed. apply Hx. }
    assert (Hmn : NoDup (m :: ms)).
    { rewrite <- Hms. eapply Permutation_NoDup; [symmetry; apply Henum|]. apply get_nodup, (i_good _ _ _ _ I). }
    destruct (visit_spec node_eq_dec n (m :: ms) g rest (i_good _ _ _ _ I) Hmn) as (V1 & V2 & V3 & V4 & V5 & V6).
    { intros b Hb. apply Hget. auto. }
    pose proof (visit_no_empty node_eq_dec n (m :: ms) g rest) as V7.
    destruct (visit node_eq_dec g n (m :: ms) rest) as [g' s'] eqn:Hv. cbn zeta in *. cbn [fst snd] in *.
    apply IH. apply (inv_step node_eq_dec G Hclosed g s o n rest); auto.
    + intros a b. rewrite V2. split; intros [H1 H2]; split; auto.
      * intros ->. apply H2. split; auto. apply Hget. auto.
      * tauto.
    + intros x. destruct (node_eq_dec x n) as [->|Hx].
      * split; [|tauto]. intros Hc. exfalso.
        assert (Hno : forall b, ~ arc g' n b).
        { intros b Hb. apply V2 in Hb. destruct Hb as [Hb Hne]. apply Hne. split; auto. apply Hget. auto. }
        apply (V7) with (vs := []); auto.
        -- intros vs Hvs ->. assert (Harc : arc g n m) by (apply Hget; left; auto). destruct Harc as (us & U1 & U2).
           rewrite (key_unique g n us []) in U2; auto. apply (i_good _ _ _ _ I).
        -- apply no_arc_no_key; auto.
      * rewrite (V3 x Hx). tauto.
    + intros x. rewrite V5. rewrite Hget. tauto.
Qed.
Lemma topo_fixed : topo_sort_fixed N pops enum G = topo_sort node_eq_dec pops enum G.
Proof.
  unfold topo_sort_fixed, topo_sort. rewrite fits_subset.
  - apply topo_fixed_loop. apply init_inv; auto.
  - apply sources_nodup; auto.
  - intros x Hx. apply sources_spec in Hx. tauto.
Qed.
End TopoFixed.

(** Proofs about descriptions and building. *)
From Coq Require Import String Bool Arith List Permutation Relations Lia.
From Verif Require Import FlowModel FlowSpec FlowProofs.
Import ListNotations.

(** ** Lists of options, unique *)
Lemma all_some_spec {A} (l : list (option A)) r : all_some l = Some r <-> l = map Some r.
Proof.
  revert r. induction l as [|[x|] l IH]; intros r; cbn.
  - split; [intros [= <-]; auto|]. destruct r; [auto|discriminate].
  - destruct (all_some l) as [r'|]; cbn.
    + split; [intros [= <-]; cbn; f_equal; apply IH; auto|]. destruct r as [|y r]; [discriminate|].
      cbn. intros [= <- H]. apply IH in H. congruence.
    + split; [discriminate|]. destruct r as [|y r]; [discriminate|]. cbn. intros [= <- H]. apply IH in H. discriminate.
  - split; [discriminate|]. destruct r; discriminate.
Qed.
Lemma all_some_map {A B} (f : A -> option B) l r : all_some (map f l) = Some r ->
  forall y, In y r <-> exists x, In x l /\ f x = Some y.
Proof.
  intros H y. apply all_some_spec in H. split.
  - intros Hy. assert (Hi : In (Some y) (map f l)) by (rewrite H; apply in_map; auto). apply in_map_iff in Hi.
    destruct Hi as (x & H1 & H2). eauto.
  - intros (x & H1 & H2). assert (Hi : In (Some y) (map Some r)) by (rewrite <- H, <- H2; apply in_map; auto).
    apply in_map_iff in Hi. destruct Hi as (z & [= <-] & Hz). auto.
Qed.
Lemma all_some_none {A B} (f : A -> option B) l : all_some (map f l) = None -> exists x, In x l /\ f x = None.
Proof.
  induction l as [|x l IH]; cbn; [discriminate|]. destruct (f x) eqn:Hx; [|intros _; exists x; auto].
  destruct (all_some (map f l)); [discriminate|]. intros _. destruct (IH eq_refl) as (y & H1 & H2). eauto.
Qed.
Lemma all_some_none_iff {A B} (f : A -> option B) l : all_some (map f l) = None <-> exists x, In x l /\ f x = None.
Proof.
  split; [apply all_some_none|]. intros (x & H1 & H2). destruct (all_some (map f l)) eqn:H; auto.
  apply all_some_spec in H. assert (Hi : In None (map f l)) by (rewrite <- H2; apply in_map; auto). rewrite H in Hi.
  apply in_map_iff in Hi. destruct Hi as (? & ? & ?). discriminate.
Qed.

Section Unique.
Context {A : Type} (dec : forall a b : A, {a = b} + {a <> b}).
Lemma unique_acc_in seen l x : In x (unique_acc dec seen l) <-> In x l /\ ~ In x seen.
Proof.
  revert seen. induction l as [|y l IH]; intros seen; cbn; [tauto|]. destruct (in_dec dec y seen) as [Hs|Hs].
  - rewrite IH. split; [tauto|]. intros [[->|]]; tauto.
  - cbn. rewrite IH. cbn. split; [intros [->|]; tauto|]. intros [[->|H] H2]; [auto|].
    destruct (dec y x) as [->|]; [auto|]. right. split; auto. intros [|]; auto.
Qed.
Lemma unique_acc_nodup seen l : NoDup (unique_acc dec seen l).
Proof.
  revert seen. induction l as [|y l IH]; intros seen; cbn; [constructor|]. destruct (in_dec dec y seen); auto.
  constructor; auto. rewrite unique_acc_in. cbn. tauto.
Qed.
Lemma unique_in l x : In x (unique dec l) <-> In x l.
Proof. unfold unique. rewrite unique_acc_in. cbn. tauto. Qed.
Lemma unique_nodup l : NoDup (unique dec l).
Proof. apply unique_acc_nodup. Qed.
Lemma unique_acc_id seen l : NoDup l -> (forall x, In x l -> ~ In x seen) -> unique_acc dec seen l = l.
Proof.
  revert seen. induction l as [|y l IH]; intros seen Hn Hd; cbn; auto. inversion_clear Hn.
  destruct (in_dec dec y seen) as [Hs|Hs]; [exfalso; apply (Hd y); cbn; auto|]. f_equal. apply IH; auto.
  intros x Hx [->|Hc]; [auto|]. apply (Hd x); cbn; auto.
Qed.
Lemma unique_id l : NoDup l -> unique dec l = l.
Proof. intros H. apply unique_acc_id; auto. Qed.
End Unique.

(** ** Descriptions *)
Lemma initials_spec g x : In x (initials g) <-> starts_with g x.
Proof.
  induction g; cbn; [|rewrite IHg1|rewrite in_app_iff, IHg1, IHg2].
  - split; [intros [->|[]]; constructor|inversion 1; auto].
  - split; [constructor; auto|inversion 1; auto].
  - split; [intros []; [apply sw_par_l|apply sw_par_r]; auto|inversion 1; auto].
Qed.
Lemma finals_spec g x : In x (finals g) <-> ends_with g x.
Proof.
  induction g; cbn; [|rewrite IHg2|rewrite in_app_iff, IHg1, IHg2].
  - split; [intros [->|[]]; constructor|inversion 1; auto].
  - split; [constructor; auto|inversion 1; auto].
  - split; [intros []; [apply ew_par_l|apply ew_par_r]; auto|inversion 1; auto].
Qed.
Lemma mentioned_spec g x : In x (mentioned g) <-> mentions g x.
Proof.
  unfold mentions. induction g; cbn; rewrite ?in_app_iff, ?IHg1, ?IHg2.
  - split; [intros [->|[]]; constructor|inversion 1; auto].
  - split; [intros []; [apply part_seq_l|apply part_seq_r]; auto|inversion 1; auto].
  - split; [intros []; [apply part_par_l|apply part_par_r]; auto|inversion 1; auto].
Qed.
Lemma cross_in c ls rs e : In e (cross c ls rs) <-> e_cond e = c /\ In (e_src e) ls /\ In (e_dst e) rs.
Proof.
  unfold cross. rewrite in_flat_map. split.
  - intros (a & Ha & H). apply in_map_iff in H. destruct H as (b & <- & Hb). cbn. auto.
  - intros (<- & H1 & H2). exists (e_src e). split; auto. apply in_map_iff. exists (e_dst e). split; auto. destruct e; auto.
Qed.
Lemma edges_spec g e : In e (edges g) <->
  exists l r v, part g (Seq l r v (e_cond e)) /\ ends_with l (e_src e) /\ starts_with r (e_dst e).
Proof.
  induction g as [x|l IHl r IHr v c|l IHl r IHr v]; cbn.
  - split; [intros []|]. intros (l & r & v & H & _). inversion H.
  - rewrite !in_app_iff, IHl, IHr, cross_in, finals_spec, initials_spec. split.
    + intros [(a & b & w & H1 & H2)|[(a & b & w & H1 & H2)|(<- & H1 & H2)]].
      * exists a, b, w. split; [apply part_seq_l; auto|auto].
      * exists a, b, w. split; [apply part_seq_r; auto|auto].
      * exists l, r, v. split; [constructor|auto].
    + intros (a & b & w & H1 & H2). inversion H1; subst.
      * right. right. tauto.
      * left. eauto.
      * right. left. eauto.
  - rewrite !in_app_iff, IHl, IHr. split.
    + intros [(a & b & w & H1 & H2)|(a & b & w & H1 & H2)]; exists a, b, w; (split; [|auto]).
      * apply part_par_l; auto.
      * apply part_par_r; auto.
    + intros (a & b & w & H1 & H2). inversion H1; subst; [left|right]; eauto.
Qed.
Lemma b_edges_spec b e : In e (b_edges b) <-> in_sequence b (e_cond e) (e_src e) (e_dst e).
Proof.
  unfold b_edges, in_sequence. rewrite in_flat_map. split.
  - intros (g & Hg & He). apply edges_spec in He. destruct He as (l & r & v & H). exists g, l, r, v. tauto.
  - intros (g & l & r & v & Hg & H). exists g. split; auto. apply edges_spec. eauto.
Qed.
Lemma declared_edges b x y : declared b x y <->
  exists e, In e (b_edges b) /\ leaf_name (e_src e) = x /\ leaf_name (e_dst e) = y.
Proof.
  split.
  - intros (c & p & q & H & H1 & H2). exists {| e_src := p; e_dst := q; e_cond := c |}. split; [|auto].
    apply b_edges_spec. exact H.
  - intros (e & He & H1 & H2). apply b_edges_spec in He. exists (e_cond e), (e_src e), (e_dst e). auto.
Qed.
Lemma starts_mentions g x : starts_with g x -> mentions g x.
Proof.
  unfold mentions. induction 1.
  - constructor.
  - apply part_seq_l; auto.
  - apply part_par_l; auto.
  - apply part_par_r; auto.
Qed.
Lemma ends_mentions g x : ends_with g x -> mentions g x.
Proof.
  unfold mentions. induction 1.
  - constructor.
  - apply part_seq_r; auto.
  - apply part_par_l; auto.
  - apply part_par_r; auto.
Qed.
Lemma part_trans g h k : part g h -> part h k -> part g k.
Proof.
  induction 1; intros; auto.
  - apply part_seq_l; auto.
  - apply part_seq_r; auto.
  - apply part_par_l; auto.
  - apply part_par_r; auto.
Qed.
Lemma mentioned_names b x : In x (map leaf_name (b_mentioned b)) <-> step_mentioned b x.
Proof.
  unfold b_mentioned, step_mentioned. rewrite in_map_iff. split.
  - intros (l & <- & H). apply in_flat_map in H. destruct H as (g & H1 & H2). apply mentioned_spec in H2. eauto.
  - intros (g & l & H1 & H2 & H3). exists l. split; auto. apply in_flat_map. exists g. split; auto. apply mentioned_spec; auto.
Qed.
Lemma sequence_mentioned b c x y : in_sequence b c x y -> step_mentioned b (leaf_name x) /\ step_mentioned b (leaf_name y).
Proof.
  intros (g & l & r & v & Hg & Hp & Hx & Hy). split.
  - exists g, x. split; auto. split; auto. eapply part_trans; [exact Hp|]. apply part_seq_l. apply ends_mentions in Hx. exact Hx.
  - exists g, y. split; auto. split; auto. eapply part_trans; [exact Hp|]. apply part_seq_r. apply starts_mentions in Hy. exact Hy.
Qed.

(** ** Added steps *)
Lemma star_leaf_some l n : star_leaf l = Some n <-> exists m, l = LNode m /\ n = star_node m.
Proof.
  destruct l; cbn; split.
  - intros [= <-]. eauto.
  - intros (m & [= <-] & ->). auto.
  - discriminate.
  - intros (m & H & _). discriminate.
Qed.
Lemma star_value m : n_value m = true -> star_node m = m.
Proof. destruct m; cbn. intros ->. reflexivity. Qed.
Lemma nodes_adds g : forall ns, nodes g = Some ns -> forall n, In n ns <-> exists o, adds g n o.
Proof.
  induction g as [[m|s]|l IHl r IHr [] c|l IHl r IHr []]; cbn [nodes]; intros ns H n.
  - injection H as <-. destruct (n_value m) eqn:Hv; cbn.
    + split; [intros [->|[]]; exists true; constructor; auto|intros (o & Ho); inversion Ho; auto].
    + split; [intros []|intros (o & Ho); inversion Ho; congruence].
  - injection H as <-. cbn. split; [intros []|intros (o & Ho); inversion Ho].
  - rewrite (all_some_map _ _ _ H). split.
    + intros (x & H1 & H2). apply unique_in in H1. apply star_leaf_some in H2. destruct H2 as (m & -> & ->).
      exists (n_value m). constructor. apply mentioned_spec. exact H1.
    + intros (o & Ho). inversion Ho; subst. exists (LNode m). split; [|reflexivity]. apply unique_in.
      apply (mentioned_spec (Seq l r true c)). auto.
  - destruct (nodes l) as [a|]; [|discriminate]. destruct (nodes r) as [b|]; [|discriminate]. injection H as <-.
    rewrite in_app_iff, (IHl a eq_refl), (IHr b eq_refl). split.
    + intros [(o & Ho)|(o & Ho)]; exists o; [apply adds_seq_l|apply adds_seq_r]; auto.
    + intros (o & Ho). inversion Ho; subst; eauto.
  - rewrite (all_some_map _ _ _ H). split.
    + intros (x & H1 & H2). apply unique_in in H1. apply star_leaf_some in H2. destruct H2 as (m & -> & ->).
      exists (n_value m). constructor. apply mentioned_spec. exact H1.
    + intros (o & Ho). inversion Ho; subst. exists (LNode m). split; [|reflexivity]. apply unique_in.
      apply (mentioned_spec (Par l r true)). auto.
  - destruct (nodes l) as [a|]; [|discriminate]. destruct (nodes r) as [b|]; [|discriminate]. injection H as <-.
    rewrite in_app_iff, (IHl a eq_refl), (IHr b eq_refl). split.
    + intros [(o & Ho)|(o & Ho)]; exists o; [apply adds_par_l|apply adds_par_r]; auto.
    + intros (o & Ho). inversion Ho; subst; eauto.
Qed.
Lemma adds_value g n o : adds g n o -> n_value n = true.
Proof. induction 1; auto. Qed.
Lemma adds_mentions g n o : adds g n o -> exists m, mentions g (LNode m) /\ n = star_node m /\ (o = true -> n_value m = true).
Proof.
  unfold mentions. induction 1; try (destruct IHadds as (m & H1 & H2); exists m; split; [|auto]).
  - exists n. split; [constructor|]. split; auto. rewrite star_value; auto.
  - apply part_seq_l; auto.
  - apply part_seq_r; auto.
  - apply part_par_l; auto.
  - apply part_par_r; auto.
  - exists m. split; auto.
  - exists m. split; auto.
Qed.
Lemma b_nodes_spec b ns : b_nodes b = Some ns -> forall n, In n ns <-> exists g o, In g b /\ adds g n o.
Proof.
  unfold b_nodes. destruct (all_some (map nodes b)) as [ls|] eqn:H; [|discriminate]. intros [= <-] n. rewrite in_concat. split.
  - intros (l & H1 & H2). apply (all_some_map _ _ _ H) in H1. destruct H1 as (g & H3 & H4).
    apply (nodes_adds g l H4) in H2. destruct H2 as (o & Ho). eauto.
  - intros (g & o & H1 & H2). destruct (nodes g) as [l|] eqn:Hg.
    + exists l. split; [apply (all_some_map _ _ _ H); eauto|]. apply (nodes_adds g l Hg). eauto.
    + exfalso. assert (all_some (map nodes b) = None); [|congruence]. apply all_some_none_iff. eauto.
Qed.

(** Names of added steps against [times_added]. *)
Lemma mentions_name_spec x g : mentions_name x g = true <-> exists l, mentions g l /\ leaf_name l = x.
Proof.
  unfold mentions. induction g; cbn; rewrite ?orb_true_iff, ?IHg1, ?IHg2.
  - rewrite String.eqb_eq. split; [intros <-; exists l; split; auto; constructor|]. intros (m & H & <-). inversion H; auto.
  - split.
    + intros [(m & H1 & H2)|(m & H1 & H2)]; exists m; (split; [|auto]); [apply part_seq_l|apply part_seq_r]; auto.
    + intros (m & H1 & H2). inversion H1; subst; [left|right]; eauto.
  - split.
    + intros [(m & H1 & H2)|(m & H1 & H2)]; exists m; (split; [|auto]); [apply part_par_l|apply part_par_r]; auto.
    + intros (m & H1 & H2). inversion H1; subst; [left|right]; eauto.
Qed.
Lemma occurrences_pos x l : (0 < occurrences x l)%nat <-> In x l.
Proof. unfold occurrences. rewrite (count_occ_In string_dec l x). reflexivity. Qed.
Lemma occurrences_app x a b : occurrences x (a ++ b) = (occurrences x a + occurrences x b)%nat.
Proof. apply count_occ_app. Qed.
Lemma times_added_occurrences x g : forall ns, nodes g = Some ns ->
  (times_added x g <= occurrences x (map n_name ns))%nat /\
  ((0 < occurrences x (map n_name ns))%nat -> (0 < times_added x g)%nat).
Proof.
  assert (Hstar : forall h ls ns, (forall l, In l ls <-> mentions h l) -> all_some (map star_leaf ls) = Some ns ->
    ((if mentions_name x h then 1 else 0) <= occurrences x (map n_name ns))%nat /\
    ((0 < occurrences x (map n_name ns))%nat -> (0 < if mentions_name x h then 1 else 0)%nat)).
  { intros h ls ns Hls Hs. rewrite (occurrences_pos x). destruct (mentions_name x h) eqn:Hm.
    - split; [|intros; lia]. apply occurrences_pos. apply mentions_name_spec in Hm. destruct Hm as (l & H1 & <-).
      apply Hls in H1. destruct (star_leaf l) as [n|] eqn:Hl.
      + assert (Hn : In n ns) by (apply (all_some_map _ _ _ Hs); eauto). apply star_leaf_some in Hl.
        destruct Hl as (m & -> & ->). apply in_map_iff. exists (star_node m). auto.
      + exfalso. assert (all_some (map star_leaf ls) = None); [apply all_some_none_iff; eauto|congruence].
    - split; [lia|]. intros Hin. exfalso. apply in_map_iff in Hin. destruct Hin as (n & <- & Hn).
      apply (all_some_map _ _ _ Hs) in Hn. destruct Hn as (l & H1 & H2). apply star_leaf_some in H2. destruct H2 as (m & -> & ->).
      apply Hls in H1. assert (mentions_name (n_name (star_node m)) h = true); [|congruence].
      apply mentions_name_spec. exists (LNode m). auto. }
  induction g as [[m|s]|l IHl r IHr [] c|l IHl r IHr []]; cbn [nodes]; intros ns H; cbn [times_added].
  - injection H as <-. destruct (n_value m); cbn; [|lia]. unfold occurrences. cbn.
    destruct (string_dec (n_name m) x) as [<-|Hne]; [rewrite String.eqb_refl; lia|].
    apply String.eqb_neq in Hne. rewrite Hne. lia.
  - injection H as <-. cbn. lia.
  - apply (Hstar (Seq l r true c)) with (2 := H). intros y. rewrite unique_in. apply (mentioned_spec (Seq l r true c)).
  - destruct (nodes l) as [a|]; [|discriminate]. destruct (nodes r) as [b|]; [|discriminate]. injection H as <-.
    destruct (IHl a eq_refl). destruct (IHr b eq_refl). rewrite map_app, occurrences_app. lia.
  - apply (Hstar (Par l r true)) with (2 := H). intros y. rewrite unique_in. apply (mentioned_spec (Par l r true)).
  - destruct (nodes l) as [a|]; [|discriminate]. destruct (nodes r) as [b|]; [|discriminate]. injection H as <-.
    destruct (IHl a eq_refl). destruct (IHr b eq_refl). rewrite map_app, occurrences_app. lia.
Qed.
Lemma added_occurrences x b : forall ns, b_nodes b = Some ns ->
  (added b x <= occurrences x (map n_name ns))%nat /\ ((0 < occurrences x (map n_name ns))%nat -> (0 < added b x)%nat).
Proof.
  unfold b_nodes, added, list_sum. induction b as [|g b IH]; cbn; intros ns H.
  - injection H as <-. cbn. lia.
  - destruct (nodes g) as [a|] eqn:Hg; [|discriminate]. destruct (all_some (map nodes b)) as [ls|]; [|discriminate].
    cbn in H. injection H as <-. destruct (IH (concat ls) eq_refl). destruct (times_added_occurrences x g a Hg).
    rewrite map_app, occurrences_app. lia.
Qed.

(** ** Checks *)
Lemma names_subset_spec a b : names_subset a b = true <-> incl a b.
Proof.
  unfold names_subset. rewrite forallb_forall. split; intros H x Hx.
  - apply H in Hx. apply existsb_exists in Hx. destruct Hx as (y & H1 & H2). apply String.eqb_eq in H2. subst; auto.
  - apply existsb_exists. exists x. split; [apply H; auto|apply String.eqb_refl].
Qed.
Lemma has_duplicate_spec l : has_duplicate l = false <-> NoDup l.
Proof.
  induction l as [|x l IH]; cbn; [split; auto; constructor|]. rewrite orb_false_iff, IH. split.
  - intros [H1 H2]. constructor; auto. intros Hc. rewrite <- not_true_iff_false in H1. apply H1. apply existsb_exists.
    exists x. split; auto. apply String.eqb_refl.
  - intros H. inversion_clear H. split; auto. rewrite <- not_true_iff_false. intros Hc. apply existsb_exists in Hc.
    destruct Hc as (y & H2 & H3). apply String.eqb_eq in H3. subst. auto.
Qed.
Lemma names_in_mentioned b ns : b_nodes b = Some ns -> incl (map n_name ns) (map leaf_name (b_mentioned b)).
Proof.
  intros H x Hx. apply in_map_iff in Hx. destruct Hx as (n & <- & Hn). apply (b_nodes_spec b ns H) in Hn.
  destruct Hn as (g & o & Hg & Ha). apply adds_mentions in Ha. destruct Ha as (m & Hm & -> & _).
  apply mentioned_names. exists g, (LNode m). auto.
Qed.

Lemma named_spec ns x n : NoDup (map n_name ns) -> named ns x = Some n <-> In n ns /\ n_name n = x.
Proof.
  intros Hn. unfold named. split.
  - intros H. apply find_some in H. rewrite String.eqb_eq in H. auto.
  - intros [H <-]. induction ns as [|m ns IH]; [destruct H|]. cbn in *. inversion_clear Hn. destruct H as [->|H].
    + rewrite String.eqb_refl. auto.
    + destruct (String.eqb_spec (n_name m) (n_name n)) as [E|]; [|auto]. exfalso. apply H0. rewrite E. apply in_map. auto.
Qed.
Lemma named_some ns x : In x (map n_name ns) -> exists n, named ns x = Some n.
Proof.
  intros H. unfold named. destruct (find _ ns) eqn:Hf; [eauto|]. apply in_map_iff in H. destruct H as (n & <- & Hn).
  apply (find_none _ _ Hf) in Hn. rewrite String.eqb_refl in Hn. discriminate.
Qed.

(** ** The graph *)
Section Graph.
Context {K : Type} (dec : forall a b : K, {a = b} + {a <> b}).
Lemma put_node_spec g k : good g -> good (put_node dec g k) /\
  (forall x, In x (keys (put_node dec g k)) <-> In x (keys g) \/ x = k) /\
  (forall a b, arc (put_node dec g k) a b <-> arc g a b).
Proof.
  intros [H1 H2]. unfold put_node. destruct (has dec k (keys g)) eqn:Hh.
  - apply has_true in Hh. split; [split; auto|]. split; [|tauto]. intros x. split; [auto|]. intros [| ->]; auto.
  - apply has_false in Hh. split; [split|split].
    + unfold keys. rewrite map_app. cbn. apply (Permutation_NoDup (l := k :: keys g)); [apply Permutation_cons_append|]. constructor; auto.
    + apply Forall_app. split; auto. repeat constructor.
    + intros x. unfold keys. rewrite map_app, in_app_iff. cbn. intuition.
    + intros a b. unfold arc. split.
      * intros (vs & H & Hb). apply in_app_iff in H. destruct H as [H|[ [= <- <-] |[]]]; [eauto|destruct Hb].
      * intros (vs & H & Hb). exists vs. rewrite in_app_iff. auto.
Qed.
Lemma put_edge_spec g k v : good g -> good (put_edge dec g k v) /\
  (forall x, In x (keys (put_edge dec g k v)) <-> In x (keys g) \/ x = k) /\
  (forall a b, arc (put_edge dec g k v) a b <-> arc g a b \/ (a = k /\ b = v)).
Proof.
  induction g as [|[k' vs] r IH]; intros [H1 H2]; cbn [put_edge].
  - split; [split|split].
    + cbn. repeat constructor; auto.
    + repeat constructor; auto.
    + cbn. intuition.
    + intros a b. unfold arc. split.
      * intros (us & [ [= <- <-] |[]] & [->|[]]). auto.
      * intros [(us & [] & _)|[-> ->]]. exists [v]. cbn. auto.
  - cbn in H1. inversion H1 as [|? ? H3 H4]; subst. inversion H2 as [|? ? H5 H6]; subst. destruct (dec k' k) as [->|Hne].
    + split; [split|split].
      * cbn. auto.
      * constructor; auto. cbn in *. destruct (has dec v vs) eqn:Hv; auto. apply has_false in Hv.
        apply (Permutation_NoDup (l := v :: vs)); [apply Permutation_cons_append|]. constructor; auto.
      * cbn. intros x. split; [auto|]. intros [| ->]; auto.
      * intros a b. unfold arc. assert (Hvs : In b (if has dec v vs then vs else vs ++ [v]) <-> In b vs \/ b = v).
        { destruct (has dec v vs) eqn:Hv; [apply has_true in Hv; split; [auto|intros [| ->]; auto]|]. rewrite in_app_iff. cbn. intuition. }
        split.
        -- intros (us & [ [= <- <-] |H] & Hb).
           ++ apply Hvs in Hb. destruct Hb as [Hb|Hb]; [left; exists vs; cbn; auto|auto].
           ++ left. exists us. cbn. auto.
        -- intros [(us & [ [= <- <-] |H] & Hb)|[-> ->]].
           ++ eexists. split; [left; reflexivity|]. apply Hvs. auto.
           ++ exists us. cbn. auto.
           ++ eexists. split; [left; reflexivity|]. apply Hvs. auto.
    + destruct IH as ([I1 I2] & I3 & I4); [split; auto|]. split; [split|split].
      * cbn. constructor; auto. rewrite I3. intros [|]; auto.
      * constructor; auto.
      * cbn. intros x. rewrite I3. tauto.
      * intros a b. unfold arc in *. split.
        -- intros (us & [H|H] & Hb); [left; exists us; cbn; auto|]. destruct (proj1 (I4 a b)) as [(ws & W1 & W2)|]; eauto.
           left. exists ws. cbn. auto.
        -- intros [(us & [H|H] & Hb)|H].
           ++ exists us. cbn. auto.
           ++ destruct (proj2 (I4 a b)) as (ws & W1 & W2); eauto. exists ws. cbn. auto.
           ++ destruct (proj2 (I4 a b)) as (ws & W1 & W2); eauto. exists ws. cbn. auto.
Qed.
Lemma put_nodes_spec ns : forall g, good g -> let g' := fold_left (put_node dec) ns g in
  good g' /\ (forall x, In x (keys g') <-> In x (keys g) \/ In x ns) /\ (forall a b, arc g' a b <-> arc g a b).
Proof.
  induction ns as [|n ns IH]; intros g Hg; cbn; [split; auto; split; [intros; tauto|tauto]|].
  destruct (put_node_spec g n Hg) as (P1 & P2 & P3). destruct (IH _ P1) as (I1 & I2 & I3). split; auto. split.
  - intros x. rewrite I2, P2. intuition.
  - intros a b. rewrite I3, P3. tauto.
Qed.
End Graph.

(** An edge of the graph. *)
Definition linked (ns : list node) (es : list edge) (a b : node) : Prop :=
  exists e, In e es /\ named ns (leaf_name (e_src e)) = Some a /\ named ns (leaf_name (e_dst e)) = Some b.
Lemma make_graph_spec ns es : NoDup (map n_name ns) -> let g := make_graph ns es in
  good g /\ (forall x, In x (keys g) <-> In x ns) /\ (forall a b, arc g a b <-> linked ns es a b).
Proof.
  intros Hn. cbn zeta. unfold make_graph.
  assert (H0 : good (@nil (node * list node))) by (split; constructor).
  destruct (put_nodes_spec node_eq_dec ns [] H0) as (P1 & P2 & P3).
  generalize dependent (fold_left (put_node node_eq_dec) ns []). intros g P1 P2 P3.
  assert (Hgen : forall es g, good g -> (forall x, In x ns -> In x (keys g)) ->
    good (fold_left (add_edge ns) es g) /\ (forall x, In x (keys (fold_left (add_edge ns) es g)) <-> In x (keys g)) /\
    (forall a b, arc (fold_left (add_edge ns) es g) a b <-> arc g a b \/ linked ns es a b)).
  { clear -Hn. intros es. induction es as [|e es IH]; intros g Hg Hk; cbn [fold_left].
    - split; auto. split; [tauto|]. intros a b. split; [auto|]. intros [|(e & [] & _)]; auto.
    - assert (Hadd : good (add_edge ns g e) /\ (forall x, In x (keys (add_edge ns g e)) <-> In x (keys g)) /\
        (forall a b, arc (add_edge ns g e) a b <-> arc g a b \/
           (named ns (leaf_name (e_src e)) = Some a /\ named ns (leaf_name (e_dst e)) = Some b))).
      { unfold add_edge. destruct (named ns (leaf_name (e_src e))) as [p|] eqn:Hp.
        - destruct (named ns (leaf_name (e_dst e))) as [q|] eqn:Hq.
          + destruct (put_edge_spec node_eq_dec g p q Hg) as (Q1 & Q2 & Q3). split; auto. split.
            * intros x. rewrite Q2. split; [|auto]. intros [| ->]; auto. apply Hk. apply named_spec in Hp; tauto.
            * intros a b. rewrite Q3. split; (intros [|[H1 H2]]; [auto|right; split; congruence]).
          + split; auto. split; [tauto|]. intros a b. split; [auto|]. intros [|[_ H]]; [auto|discriminate].
        - split; auto. split; [tauto|]. intros a b. split; [auto|]. intros [|[H _]]; [auto|discriminate]. }
      destruct Hadd as (A1 & A2 & A3). destruct (IH (add_edge ns g e)) as (I1 & I2 & I3); auto.
      { intros x Hx. apply A2. auto. }
      split; auto. split.
      + intros x. rewrite I2. apply A2.
      + intros a b. rewrite I3, A3. unfold linked. split.
        * intros [[H|[H1 H2]]|(e' & H1 & H2)]; [auto| |].
          -- right. exists e. cbn. auto.
          -- right. exists e'. cbn. auto.
        * intros [H|(e' & [<-|H1] & H2)]; [auto|auto|]. right. exists e'. auto. }
  destruct (Hgen es g P1) as (I1 & I2 & I3); [intros x Hx; apply P2; auto|]. split; auto. split.
  - intros x. rewrite I2, P2. cbn. tauto.
  - intros a b. rewrite I3, P3. split; [|auto]. intros [(vs & [] & _)|]; auto.
Qed.

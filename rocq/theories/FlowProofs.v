(** Proofs about the topological sort. *)
From Coq Require Import String Bool Arith List Permutation Relations Lia.
From Verif Require Import FlowModel FlowSpec.
Import ListNotations.

Section Topo.
Context {K : Type} (dec : forall a b : K, {a = b} + {a <> b}).
Notation graph := (graph K).
Notation has := (has dec).

Lemma has_true x l : has x l = true <-> In x l.
Proof. unfold FlowModel.has. destruct (in_dec dec x l); split; auto; discriminate. Qed.
Lemma has_false x l : has x l = false <-> ~ In x l.
Proof. unfold FlowModel.has. destruct (in_dec dec x l); split; auto; try discriminate; contradiction. Qed.

(** Edges of a graph. *)
Definition arc (g : graph) (a b : K) : Prop := exists vs, In (a, vs) g /\ In b vs.
Definition good (g : graph) : Prop := NoDup (keys g) /\ Forall (fun e => NoDup (snd e)) g.

Lemma key_unique (g : graph) a vs vs' : NoDup (keys g) -> In (a, vs) g -> In (a, vs') g -> vs = vs'.
Proof.
  induction g as [|[k us] r IH]; [intros _ []|]. cbn. intros Hn [H1|H1] [H2|H2]; inversion_clear Hn; auto.
  - congruence.
  - exfalso. injection H1 as -> ->. apply H. apply (in_map fst) in H2. auto.
  - exfalso. injection H2 as -> ->. apply H. apply (in_map fst) in H1. auto.
Qed.
Lemma arc_key g a b : arc g a b -> In a (keys g).
Proof. intros (vs & H & _). apply (in_map fst) in H. auto. Qed.
Lemma get_spec (g : graph) k : NoDup (keys g) -> forall b, In b (get dec g k) <-> arc g k b.
Proof.
  intros Hn b. unfold get, arc. destruct (find _ g) as [[k' vs]|] eqn:Hf.
  - apply find_some in Hf. destruct Hf as [Hin Hk]. cbn in *. destruct (dec k' k) as [->|]; [|discriminate].
    split; [intros; exists vs; auto|]. intros (us & H1 & H2). rewrite (key_unique g k vs us); auto.
  - split; [intros []|]. intros (us & H1 & H2). apply (find_none _ _ Hf) in H1. cbn in H1. destruct (dec k k); congruence.
Qed.
Lemma get_nodup (g : graph) k : good g -> NoDup (get dec g k).
Proof.
  intros [_ H]. unfold get. destruct (find _ g) as [[k' vs]|] eqn:Hf; [|constructor].
  apply find_some in Hf. rewrite Forall_forall in H. apply (H (k', vs)). tauto.
Qed.

Lemma nodup_filter_keys (g : graph) f : NoDup (keys g) -> NoDup (keys (filter f g)).
Proof.
  induction g as [|e r IH]; cbn; auto. intros H. inversion_clear H. destruct (f e); cbn; auto.
  constructor; auto. intros Hin. apply H0. unfold keys in *. apply in_map_iff in Hin.
  destruct Hin as (e' & H2 & H3). apply filter_In in H3. rewrite <- H2. apply in_map. tauto.
Qed.
Lemma erase_key_good g k : good g -> good (erase_key dec g k).
Proof.
  intros [H1 H2]. split; [apply nodup_filter_keys; auto|]. unfold erase_key. rewrite Forall_forall in *. intros e He.
  apply filter_In in He. apply H2. tauto.
Qed.
Lemma erase_key_arc g k a b : arc (erase_key dec g k) a b <-> arc g a b /\ a <> k.
Proof.
  unfold arc, erase_key. split.
  - intros (vs & H1 & H2). apply filter_In in H1. destruct H1 as [H1 H3]. cbn in H3. destruct (dec a k); [discriminate|]. eauto.
  - intros ((vs & H1 & H2) & H3). exists vs. split; auto. apply filter_In. split; auto. cbn. destruct (dec a k); congruence.
Qed.
Lemma erase_key_keys g k x : In x (keys (erase_key dec g k)) <-> In x (keys g) /\ x <> k.
Proof.
  unfold keys, erase_key. rewrite !in_map_iff. split.
  - intros ([a vs] & <- & H). apply filter_In in H. destruct H as [H1 H2]. cbn in *. destruct (dec a k); [discriminate|]. split; auto. exists (a, vs). auto.
  - intros [([a vs] & <- & H) Hne]. exists (a, vs). split; auto. apply filter_In. split; auto. cbn in *. destruct (dec a k); congruence.
Qed.

Lemma remove_value_in v x vs : In x (remove_value dec v vs) <-> In x vs /\ x <> v.
Proof. unfold remove_value. rewrite filter_In. destruct (dec x v); intuition (auto; discriminate). Qed.
Lemma erase_edge_entry g k v a us : In (a, us) (erase_edge dec g k v) <->
  (a <> k /\ In (a, us) g) \/ (a = k /\ us <> [] /\ exists vs, In (k, vs) g /\ us = remove_value dec v vs).
Proof.
  unfold erase_edge. rewrite in_flat_map. split.
  - intros ([a' vs] & H1 & H2). cbn [fst snd] in H2. destruct (dec a' k) as [->|Hne].
    + right. destruct (remove_value dec v vs) as [|y r] eqn:Hr; [destruct H2|]. destruct H2 as [H2|[]].
      injection H2 as <- <-. split; auto. split; [discriminate|]. exists vs. auto.
    + left. destruct H2 as [H2|[]]. injection H2 as -> ->. auto.
  - intros [[H1 H2]|(-> & H2 & vs & H3 & H4)].
    + exists (a, us). split; auto. cbn. destruct (dec a k); [congruence|left; auto].
    + exists (k, vs). split; auto. cbn [fst snd]. destruct (dec k k); [|congruence]. rewrite <- H4.
      destruct us; [congruence|left; auto].
Qed.
Lemma erase_edge_keys_sub g k v : forall x, In x (keys (erase_edge dec g k v)) -> In x (keys g).
Proof.
  intros x H. unfold keys in *. apply in_map_iff in H. destruct H as ([a us] & <- & H). apply erase_edge_entry in H.
  cbn. destruct H as [[_ H]|(-> & _ & vs & H & _)]; apply (in_map fst) in H; auto.
Qed.
Lemma erase_edge_good g k v : good g -> good (erase_edge dec g k v).
Proof.
  intros [H1 H2]. split.
  - induction g as [|[a vs] r IH]; [constructor|]. unfold erase_edge. cbn [flat_map fst snd]. fold (erase_edge dec r k v). cbn in H1. inversion_clear H1. inversion_clear H2.
    assert (Hrest : NoDup (keys (erase_edge dec r k v))) by (apply IH; auto).
    assert (Hni : ~ In a (keys (erase_edge dec r k v))) by (intros Hin; apply H; eapply erase_edge_keys_sub; eauto).
    destruct (dec a k) as [->|Hne].
    + destruct (remove_value dec v vs); cbn [app keys map]; auto. constructor; auto.
    + constructor; auto.
  - rewrite Forall_forall in *. intros [a us] H. apply erase_edge_entry in H. destruct H as [[_ H]|(-> & _ & vs & H & ->)].
    + apply (H2 _ H).
    + cbn. apply NoDup_filter. apply (H2 _ H).
Qed.
Lemma erase_edge_arc g k v a b : arc (erase_edge dec g k v) a b <-> arc g a b /\ ~ (a = k /\ b = v).
Proof.
  unfold arc. split.
  - intros (us & H1 & H2). apply erase_edge_entry in H1. destruct H1 as [[H1 H3]|(-> & _ & vs & H3 & ->)].
    + split; [eauto|]. tauto.
    + apply remove_value_in in H2. split; [exists vs; tauto|]. intros []. tauto.
  - intros ((vs & H1 & H2) & H3). destruct (dec a k) as [->|Hne].
    + exists (remove_value dec v vs). assert (In b (remove_value dec v vs)) by (apply remove_value_in; split; auto).
      split; auto. apply erase_edge_entry. right. split; auto. split; [intros E; rewrite E in H; destruct H|]. eauto.
    + exists vs. split; auto. apply erase_edge_entry. left. auto.
Qed.
Lemma erase_edge_keys g k v x : x <> k -> In x (keys (erase_edge dec g k v)) <-> In x (keys g).
Proof.
  intros Hx. split; [apply erase_edge_keys_sub|]. unfold keys. rewrite !in_map_iff.
  intros ([a us] & <- & H). exists (a, us). split; auto. apply erase_edge_entry. left. auto.
Qed.

Lemma source_spec g x : is_source_of dec x g = true <-> forall a, ~ arc g a x.
Proof.
  unfold is_source_of. rewrite forallb_forall. split.
  - intros H a (vs & H1 & H2). specialize (H _ H1). cbn in H. apply negb_true_iff, has_false in H. auto.
  - intros H [a vs] H1. cbn. apply negb_true_iff, has_false. intros H2. apply (H a). exists vs. auto.
Qed.
Lemma sources_spec g x : In x (get_sources dec g) <-> In x (keys g) /\ forall a, ~ arc g a x.
Proof.
  unfold get_sources. rewrite filter_In, negb_true_iff, has_false. split; intros [H1 H2]; split; auto.
  - intros a (vs & H3 & H4). apply H2. apply in_flat_map. exists (a, vs). auto.
  - intros H3. apply in_flat_map in H3. destruct H3 as ([a vs] & H3 & H4). apply (H2 a). exists vs. auto.
Qed.
Lemma sources_nodup g : good g -> NoDup (get_sources dec g).
Proof. intros [H _]. apply NoDup_filter. auto. Qed.
Lemma insert_in x y s : In y (insert dec x s) <-> y = x \/ In y s.
Proof.
  unfold insert. destruct (has x s) eqn:H.
  - apply has_true in H. split; [auto|]. intros [->|]; auto.
  - rewrite in_app_iff. cbn. intuition.
Qed.
Lemma insert_nodup x s : NoDup s -> NoDup (insert dec x s).
Proof.
  intros H. unfold insert. destruct (has x s) eqn:Hh; auto. apply has_false in Hh.
  apply (Permutation_NoDup (l := x :: s)); [apply Permutation_cons_append|]. constructor; auto.
Qed.

(** ** One source *)
Lemma visit_spec n ms : forall g s, good g -> NoDup ms -> (forall b, In b ms -> arc g n b) ->
  let r := visit dec g n ms s in
  good (fst r) /\
  (forall a b, arc (fst r) a b <-> arc g a b /\ ~ (a = n /\ In b ms)) /\
  (forall x, x <> n -> In x (keys (fst r)) <-> In x (keys g)) /\
  (forall x, In x (keys (fst r)) -> In x (keys g)) /\
  (forall x, In x (snd r) <-> In x s \/ (In x ms /\ forall a, arc g a x -> a = n)) /\
  (NoDup s -> NoDup (snd r)).
Proof.
  induction ms as [|m ms IH]; intros g s Hg Hn Harc; cbn [visit].
  - cbn. split; auto. split; [intros; tauto|]. split; [intros; tauto|]. split; auto. split; [intros; tauto|auto].
  - inversion_clear Hn. assert (Hg' := erase_edge_good g n m Hg).
    assert (Harc' : forall b, In b ms -> arc (erase_edge dec g n m) n b).
    { intros b Hb. apply erase_edge_arc. split; [apply Harc; right; auto|]. intros [_ ->]. auto. }
    destruct (IH (erase_edge dec g n m) (if is_source_of dec m (erase_edge dec g n m) then insert dec m s else s) Hg' H0 Harc')
      as (I1 & I2 & I3 & I4 & I5 & I6). cbn zeta.
    split; [auto|]. split; [|split; [|split; [|split]]].
    + intros a b. rewrite I2, erase_edge_arc. cbn. split.
      * intros [[H1 H2] H3]. split; auto. intros [-> [<-|Hb]]; tauto.
      * intros [H1 H2]. split; [split; auto|]; intros [-> Hb]; apply H2; split; auto.
    + intros x Hx. rewrite I3, erase_edge_keys by auto. tauto.
    + intros x Hx. apply I4 in Hx. eapply erase_edge_keys_sub; eauto.
    + intros x. rewrite I5. 
      assert (Hm : is_source_of dec m (erase_edge dec g n m) = true <-> forall a, arc g a m -> a = n).
      { rewrite source_spec. split.
        - intros H2 a Ha. destruct (dec a n); auto. exfalso. apply (H2 a). apply erase_edge_arc. split; auto. tauto.
        - intros H2 a Ha. apply erase_edge_arc in Ha. destruct Ha as [Ha Hne]. apply Hne. split; auto. }
      assert (Hms : In x ms -> ((forall a, arc (erase_edge dec g n m) a x -> a = n) <-> forall a, arc g a x -> a = n)).
      { intros Hx. split; intros H2 a Ha.
        - destruct (dec a n); auto. apply H2. apply erase_edge_arc. split; auto. tauto.
        - apply erase_edge_arc in Ha. apply H2. tauto. }
      split.
      * intros [Hin|[Hin Hall]].
        -- destruct (is_source_of dec m (erase_edge dec g n m)); [|auto]. apply insert_in in Hin.
           destruct Hin as [->|Hin]; [right; split; [left; auto|apply Hm; auto]|auto].
        -- right. split; [right; auto|]. apply Hms; auto.
      * intros [Hin|[[<-|Hin] Hall]].
        -- left. destruct (is_source_of dec m (erase_edge dec g n m)); [apply insert_in; auto|auto].
        -- left. rewrite (proj2 Hm Hall). apply insert_in. auto.
        -- right. split; auto. apply Hms; auto.
    + intros Hs. apply I6. destruct (is_source_of _ _ _); [apply insert_nodup; auto|auto].
Qed.

(** After the last outgoing edge of [n] is erased, [n] is no longer a key. *)
Lemma no_arc_no_key g n : good g -> (forall b, ~ arc g n b) -> In n (keys g) -> In (n, []) g.
Proof.
  intros _ H Hin. unfold keys in Hin. apply in_map_iff in Hin. destruct Hin as ([a vs] & <- & Hin). cbn in *.
  destruct vs as [|v vs]; auto. exfalso. apply (H v). exists (v :: vs). cbn. auto.
Qed.
Lemma visit_no_empty n ms : forall g s, (forall vs, In (n, vs) g -> vs <> []) -> forall vs, In (n, vs) (fst (visit dec g n ms s)) -> vs <> [].
Proof.
  induction ms as [|m ms IH]; intros g s H vs; cbn [visit]; [apply H|].
  apply IH. intros us Hus. apply erase_edge_entry in Hus. destruct Hus as [[Hne _]|(_ & Hus & _)]; auto.
Qed.

(** ** The loop *)
Variable pops : nat -> list K -> option (K * list K).
Variable enum : nat -> list K -> list K.
Hypothesis Hpops : pops_some pops.
Hypothesis Henum : enumerates enum.
Variable G : graph.
Hypothesis HG : good G.
Hypothesis Hclosed : forall a b, arc G a b -> In b (keys G).

Definition respects (o : list K) : Prop := forall a b, arc G a b -> In b o -> before o a b.
Record inv (g : graph) (s o : list K) : Prop := {
  i_good : good g;
  i_nodup : NoDup o;
  i_part : forall x, In x (keys G) <-> In x o \/ In x (keys g);
  i_disj : forall x, In x o -> ~ In x (keys g);
  i_arcs : forall a b, arc g a b <-> arc G a b /\ In a (keys g);
  i_src : forall x, In x s <-> In x (keys g) /\ forall a, ~ arc g a x;
  i_snodup : NoDup s;
  i_order : respects o;
}.

Lemma before_app_l {A} (l l' : list A) a b : before l a b -> before (l ++ l') a b.
Proof. intros (l1 & l2 & l3 & ->). exists l1, l2, (l3 ++ l'). rewrite <- app_assoc. cbn. rewrite <- app_assoc. reflexivity. Qed.
Lemma before_snoc {A} (l : list A) a b : In a l -> before (l ++ [b]) a b.
Proof. intros H. apply in_split in H. destruct H as (l1 & l2 & ->). exists l1, l2, []. rewrite <- app_assoc. reflexivity. Qed.

Lemma inv_step g s o n rest g' s' : inv g s o -> Permutation s (n :: rest) ->
  good g' -> (forall a b, arc g' a b <-> arc g a b /\ a <> n) -> (forall x, In x (keys g') <-> In x (keys g) /\ x <> n) ->
  (forall x, In x s' <-> In x rest \/ (arc g n x /\ forall a, arc g a x -> a = n)) -> NoDup s' ->
  inv g' s' (o ++ [n]).
Proof.
  intros I Hp Hg Ha Hk Hs Hns.
  assert (Hns0 : NoDup (n :: rest)) by (eapply Permutation_NoDup; [exact Hp|apply (i_snodup _ _ _ I)]).
  assert (Hnin : In n s) by (eapply Permutation_in; [symmetry; exact Hp|left; auto]).
  destruct (proj1 (i_src _ _ _ I n) Hnin) as [Hnk Hna].
  constructor; auto.
  - apply (Permutation_NoDup (l := n :: o)); [apply Permutation_cons_append|]. constructor; [|apply (i_nodup _ _ _ I)].
    intros Hc. apply (i_disj _ _ _ I n Hc). auto.
  - intros x. rewrite (i_part _ _ _ I), Hk, in_app_iff. cbn. destruct (dec x n) as [->|]; [tauto|]. intuition congruence.
  - intros x Hx. rewrite Hk. apply in_app_iff in Hx. destruct Hx as [Hx|[->|[]]]; [|tauto].
    intros [Hc _]. apply (i_disj _ _ _ I x Hx). auto.
  - intros a b. rewrite Ha, (i_arcs _ _ _ I), Hk. tauto.
  - intros x. rewrite Hs, Hk. split.
    + intros [Hx|[Hx Hall]].
      * assert (Hxs : In x s) by (eapply Permutation_in; [symmetry; exact Hp|right; auto]).
        destruct (proj1 (i_src _ _ _ I x) Hxs) as [H1 H2].
        split; [split; auto; intros ->; inversion_clear Hns0; contradiction|]. intros a Hax. apply (H2 a), Ha. auto.
      * assert (Hxn : x <> n) by (intros ->; apply (Hna n Hx)).
        assert (Hxk : In x (keys g)).
        { assert (HxG : In x (keys G)) by (eapply Hclosed; apply (i_arcs _ _ _ I) in Hx; apply Hx).
          apply (i_part _ _ _ I) in HxG. destruct HxG as [Hxo|]; auto. exfalso.
          apply (i_arcs _ _ _ I) in Hx. destruct Hx as [Hx Hn]. destruct (i_order _ _ _ I n x Hx Hxo) as (l1 & l2 & l3 & He).
          apply (i_disj _ _ _ I n); auto. rewrite He. apply in_elt. }
        split; auto. intros a Hax. apply Ha in Hax. destruct Hax as [Hax Han]. apply Han, Hall. auto.
    + intros [[H1 H2] H3].
      destruct (in_dec dec x rest) as [|Hnr]; auto. right.
      assert (Hxs : ~ In x s).
      { intros Hc. eapply Permutation_in in Hc; [|exact Hp]. destruct Hc; [congruence|auto]. }
      assert (Hall : forall a, arc g a x -> a = n).
      { intros a Hax. destruct (dec a n); auto. exfalso. apply (H3 a). apply Ha. auto. }
      split; auto. destruct (in_dec dec x (get dec g n)) as [Hg2|Hg2].
      { apply get_spec in Hg2; auto. apply (i_good _ _ _ I). }
      exfalso. apply Hxs, (i_src _ _ _ I). split; auto. intros a Hax. pose proof (Hall a Hax). subst a.
      apply Hg2, get_spec; auto. apply (i_good _ _ _ I).
  - intros a b Hab Hb. apply in_app_iff in Hb. destruct Hb as [Hb|[->|[]]].
    + apply before_app_l. apply (i_order _ _ _ I); auto.
    + apply before_snoc. destruct (proj1 (i_part _ _ _ I a)) as [|Hc]; auto.
      { apply (arc_key _ _ _ Hab). }
      exfalso. apply (Hna a). apply (i_arcs _ _ _ I). auto.
Qed.

Lemma topo_loop_spec fuel : forall g s o, inv g s o -> (length (keys g) <= fuel)%nat ->
  exists o' g', topo_loop dec pops enum fuel g s o = Some (o', g') /\ inv g' [] o'.
Proof.
  induction fuel as [|f IH]; intros g s o I Hf; cbn [topo_loop].
  - pose proof (Hpops 0 s) as Hp. destruct (pops 0 s) as [[n rest]|].
    + exfalso. assert (Hn : In n s) by (eapply Permutation_in; [symmetry; exact Hp|left; auto]).
      apply (i_src _ _ _ I) in Hn. destruct Hn as [Hn _]. destruct (keys g); [destruct Hn|cbn in Hf; lia].
    + subst s. eauto.
  - pose proof (Hpops (S f) s) as Hp. destruct (pops (S f) s) as [[n rest]|]; [|subst s; eauto].
    assert (Hn : In n s) by (eapply Permutation_in; [symmetry; exact Hp|left; auto]).
    destruct (proj1 (i_src _ _ _ I n) Hn) as [Hnk Hna]. rewrite (proj2 (has_true n (keys g)) Hnk).
    assert (Hrn : NoDup rest).
    { pose proof (Permutation_NoDup Hp (i_snodup _ _ _ I)) as H. inversion_clear H. auto. }
    assert (Hlen : forall g', good g' -> (forall x, In x (keys g') <-> In x (keys g) /\ x <> n) -> (length (keys g') <= f)%nat).
    { intros g' [Hg' _] Hk'. assert (length (n :: keys g') <= length (keys g))%nat; [|cbn in *; lia].
      apply NoDup_incl_length; [constructor; auto; rewrite Hk'; tauto|].
      intros x [<-|Hx]; auto. apply Hk' in Hx. tauto. }
    assert (Hget : forall b, In b (enum (S f) (get dec g n)) <-> arc g n b).
    { intros b. rewrite <- (get_spec g n) by apply (i_good _ _ _ I). split; apply Permutation_in; [|symmetry]; apply Henum. }
    destruct (enum (S f) (get dec g n)) as [|m ms] eqn:Hms.
    + apply IH; [|apply Hlen; [apply erase_key_good, (i_good _ _ _ I)|intros; apply erase_key_keys]].
      apply (inv_step g s o n rest); auto.
      * apply erase_key_good, (i_good _ _ _ I).
      * intros a b. apply erase_key_arc.
      * intros x. apply erase_key_keys.
      * intros x. split; [auto|]. intros [|[Hx _]]; auto. apply Hget in Hx. destruct Hx.
    + assert (Hmn : NoDup (m :: ms)).
      { rewrite <- Hms. eapply Permutation_NoDup; [symmetry; apply Henum|]. apply get_nodup, (i_good _ _ _ I). }
      destruct (visit_spec n (m :: ms) g rest (i_good _ _ _ I) Hmn) as (V1 & V2 & V3 & V4 & V5 & V6).
      { intros b Hb. apply Hget. auto. }
      pose proof (visit_no_empty n (m :: ms) g rest) as V7.
      destruct (visit dec g n (m :: ms) rest) as [g' s'] eqn:Hv. cbn zeta in *. cbn [fst snd] in *.
      assert (Hnk' : forall x, In x (keys g') <-> In x (keys g) /\ x <> n).
      { intros x. destruct (dec x n) as [->|Hx].
        - split; [|tauto]. intros Hc. exfalso.
          assert (Hno : forall b, ~ arc g' n b).
          { intros b Hb. apply V2 in Hb. destruct Hb as [Hb Hne]. apply Hne. split; auto. apply Hget. auto. }
          apply (V7) with (vs := []); auto.
          + intros vs Hvs ->. assert (Harc : arc g n m) by (apply Hget; left; auto). destruct Harc as (us & U1 & U2).
            rewrite (key_unique g n us []) in U2; auto. apply (i_good _ _ _ I).
          + apply no_arc_no_key; auto.
        - rewrite (V3 x Hx). tauto. }
      apply IH; [|apply Hlen; auto].
      apply (inv_step g s o n rest); auto.
      * intros a b. rewrite V2. split; intros [H1 H2]; split; auto.
        -- intros ->. apply H2. split; auto. apply Hget. auto.
        -- tauto.
      * intros x. rewrite V5. rewrite Hget. tauto.
Qed.

Lemma init_inv : inv G (get_sources dec G) [].
Proof.
  constructor; auto.
  - constructor.
  - intros x. cbn. tauto.
  - intros a b. split; [|tauto]. intros H. split; auto. eapply arc_key; eauto.
  - intros x. apply sources_spec.
  - apply sources_nodup; auto.
  - intros a b _ [].
Qed.
Lemma topo_sort_spec : exists o g, topo_sort dec pops enum G = Some (o, g) /\ inv g [] o.
Proof. apply topo_loop_spec; [apply init_inv|]. unfold keys. rewrite map_length. lia. Qed.

(** A nonempty remainder contains a cycle. *)
Lemma chain_long (R : K -> K -> Prop) (l : list K) : l <> [] ->
  (forall x, In x l -> exists y, In y l /\ R y x) ->
  forall k, cyclic R \/ exists c, length c = S k /\ NoDup c /\ incl c l /\ (forall x, In x (tl c) -> clos_trans K R (hd x c) x).
Proof.
  intros Hne Hpred. induction k as [|k [Hc|(c & H1 & H2 & H3 & H4)]]; [|auto|].
  - right. destruct l as [|x r]; [congruence|]. exists [x]. cbn. repeat split; auto; [repeat constructor; auto|intros y [->|[]]; left; auto|intros y []].
  - destruct c as [|x c]; [discriminate|]. cbn in H4. destruct (Hpred x) as (y & Hy & HR); [apply H3; left; auto|].
    assert (Hyc : forall z, In z (x :: c) -> clos_trans K R y z).
    { intros z [<-|Hz]; [apply t_step; auto|]. eapply t_trans; [apply t_step; exact HR|auto]. }
    destruct (in_dec dec y (x :: c)) as [Hin|Hin]; [left; exists y; auto|].
    right. exists (y :: x :: c). cbn [length hd tl] in *. split; [lia|]. split; [|split].
    + constructor; auto.
    + intros z [<-|Hz]; auto.
    + exact Hyc.
Qed.
Lemma finite_pred_cyclic (R : K -> K -> Prop) l : l <> [] -> (forall x, In x l -> exists y, In y l /\ R y x) -> cyclic R.
Proof.
  intros Hne Hp. destruct (chain_long R l Hne Hp (length l)) as [|(c & H1 & H2 & H3 & _)]; auto.
  pose proof (NoDup_incl_length H2 H3). lia.
Qed.

Lemma before_in {A} (l : list A) a b : before l a b -> In a l /\ In b l.
Proof. intros (l1 & l2 & l3 & ->). split; [apply in_elt|]. apply in_app_iff. right. right. apply in_elt. Qed.
Lemma before_trans_nodup {A} (l : list A) a b c : NoDup l -> before l a b -> before l b c -> before l a c.
Proof.
  intros Hn (l1 & l2 & l3 & He) (m1 & m2 & m3 & Hm). 
  assert (Hsplit : l1 ++ a :: l2 = m1).
  { rewrite He in Hm, Hn. clear He. replace (l1 ++ a :: l2 ++ b :: l3) with ((l1 ++ a :: l2) ++ b :: l3) in Hm, Hn
      by (rewrite <- app_assoc; reflexivity).
    revert m1 Hm. generalize dependent (l1 ++ a :: l2). intros p Hn. revert Hn. induction p as [|x p IH]; intros Hn m1 Hm.
    - destruct m1 as [|y m1]; auto. cbn in Hm. injection Hm as <- Hm. exfalso. cbn in Hn. inversion_clear Hn.
      apply H. rewrite Hm. apply in_elt.
    - destruct m1 as [|y m1].
      + cbn in Hm. injection Hm as -> Hm. exfalso. cbn in Hn. inversion_clear Hn. apply H. apply in_elt.
      + cbn in Hm. injection Hm as -> Hm. f_equal. apply IH; auto. cbn in Hn. inversion_clear Hn. auto. }
  exists l1, (l2 ++ b :: m2), m3. rewrite Hm, <- Hsplit, <- !app_assoc. reflexivity.
Qed.
Lemma before_irrefl {A} (l : list A) a : NoDup l -> ~ before l a a.
Proof.
  intros Hn (l1 & l2 & l3 & ->). apply NoDup_remove_2 in Hn. apply Hn. apply in_app_iff. right. apply in_elt.
Qed.
Lemma order_trans o : NoDup o -> respects o -> forall a b, clos_trans K (arc G) a b -> In b o -> before o a b.
Proof.
  intros Hn Ho a b H. induction H as [a b H|a c b H1 IH1 H2 IH2]; intros Hb; [apply Ho; auto|].
  pose proof (IH2 Hb) as H3. apply before_trans_nodup with c; auto. apply IH1. apply before_in in H3. tauto.
Qed.

Lemma leftover_iff_cycle o g : inv g [] o -> (g <> [] <-> cyclic (arc G)).
Proof.
  intros I. split.
  - intros Hne. apply (finite_pred_cyclic (arc G) (keys g)).
    + destruct g; [congruence|discriminate].
    + intros x Hx. destruct (in_dec dec x (flat_map snd g)) as [Hin|Hin].
      * apply in_flat_map in Hin. destruct Hin as ([a vs] & H1 & H2). cbn in H2.
        assert (Harc : arc g a x) by (exists vs; auto). exists a. split; [apply (in_map fst) in H1; auto|].
        apply (i_arcs _ _ _ I) in Harc. tauto.
      * exfalso. assert (Hs : In x []). { apply (i_src _ _ _ I). split; auto. intros a (vs & H1 & H2). apply Hin.
        apply in_flat_map. exists (a, vs). auto. }
        destruct Hs.
  - intros (x & Hx) ->.
    assert (Hxk : In x (keys G)).
    { apply clos_trans_t1n in Hx. inversion Hx; subst; eapply arc_key; eassumption. }
    apply (i_part _ _ _ I) in Hxk. destruct Hxk as [Hxo|[]].
    apply (before_irrefl o x (i_nodup _ _ _ I)). apply (order_trans o (i_nodup _ _ _ I) (i_order _ _ _ I)); auto.
Qed.
Lemma no_leftover_order o : inv [] [] o -> Permutation o (keys G) /\ forall a b, arc G a b -> before o a b.
Proof.
  intros I. split.
  - apply NoDup_Permutation; [apply (i_nodup _ _ _ I)|apply HG|]. intros x. rewrite (i_part _ _ _ I). cbn. tauto.
  - intros a b Hab. apply (i_order _ _ _ I); auto. pose proof (Hclosed _ _ Hab) as Hb.
    apply (i_part _ _ _ I) in Hb. destruct Hb as [|[]]; auto.
Qed.
End Topo.

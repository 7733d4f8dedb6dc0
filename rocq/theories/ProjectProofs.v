(** Proofs about projects: what is built. *)
From Coq Require Import String Bool Arith List Permutation Lia.
From Verif Require Import FlowModel FlowSpec FlowProofs FlowProofs2 FlowProofs3 FlowProps NexusModel NexusSpec NexusProofs ProjectModel ProjectSpec.
Import ListNotations.

(** ** Sequences under conditions *)
Lemma conditional_ends c g g' : conditional c g = Some g' ->
  map leaf_name (initials g') = map leaf_name (initials g) /\ map leaf_name (finals g') = map leaf_name (finals g).
Proof.
  revert g'. induction g as [[m|s]|l IHl r IHr v ec|l IHl r IHr v]; cbn [conditional]; intros g' H; [|discriminate| |].
  - injection H as <-. cbn. destruct (n_value m); auto.
  - destruct (conditional c l) as [l'|]; [|discriminate]. destruct (conditional c r) as [r'|]; [|discriminate]. injection H as <-.
    cbn [initials finals]. split; [apply IHl|apply IHr]; auto.
  - destruct (conditional c l) as [l'|]; [|discriminate]. destruct (conditional c r) as [r'|]; [|discriminate]. injection H as <-.
    cbn [initials finals]. rewrite !map_app. destruct (IHl l' eq_refl) as [-> ->], (IHr r' eq_refl) as [-> ->]. auto.
Qed.
Definition edge_names (e : edge) : string * string := (leaf_name (e_src e), leaf_name (e_dst e)).
Lemma cross_names c ls rs : map edge_names (cross c ls rs) = flat_map (fun a => map (fun b => (a, b)) (map leaf_name rs)) (map leaf_name ls).
Proof.
  unfold cross. induction ls as [|a ls IH]; auto. cbn [flat_map map]. rewrite map_app, IH. f_equal. rewrite !map_map. reflexivity.
Qed.
Lemma conditional_edges c g g' : conditional c g = Some g' -> map edge_names (edges g') = map edge_names (edges g).
Proof.
  revert g'. induction g as [[m|s]|l IHl r IHr v ec|l IHl r IHr v]; cbn [conditional]; intros g' H; [|discriminate| |].
  - injection H as <-. reflexivity.
  - destruct (conditional c l) as [l'|] eqn:El; [|discriminate]. destruct (conditional c r) as [r'|] eqn:Er; [|discriminate]. injection H as <-.
    cbn [edges]. rewrite !map_app, !cross_names, (IHl l'), (IHr r'); auto.
    destruct (conditional_ends _ _ _ El) as [_ ->], (conditional_ends _ _ _ Er) as [-> _]. reflexivity.
  - destruct (conditional c l) as [l'|] eqn:El; [|discriminate]. destruct (conditional c r) as [r'|] eqn:Er; [|discriminate]. injection H as <-.
    cbn [edges]. rewrite !map_app, (IHl l'), (IHr r'); auto.
Qed.
(** A fragment under all the conditions around it. *)
Lemma when_all_edges cs : forall g g', when_all conditional cs g = Some g' -> map edge_names (edges g') = map edge_names (edges g).
Proof.
  induction cs as [|c cs IH]; cbn [when_all]; intros g g'; [intros [= <-]; auto|].
  destruct (conditional c g) as [h|] eqn:E; [|discriminate]. intros H. rewrite (IH _ _ H). apply (conditional_edges _ _ _ E).
Qed.
Lemma edges_sequence g p q : In (p, q) (map edge_names (edges g)) <-> exists c a b, in_sequence [g] c a b /\ leaf_name a = p /\ leaf_name b = q.
Proof.
  rewrite in_map_iff. split.
  - intros (e & [= <- <-] & He). exists (e_cond e), (e_src e), (e_dst e). split; auto. apply b_edges_spec. cbn. rewrite app_nil_r. exact He.
  - intros (c & a & b & H & <- & <-). exists {| e_src := a; e_dst := b; e_cond := c |}. split; auto.
    assert (I := proj2 (b_edges_spec [g] {| e_src := a; e_dst := b; e_cond := c |})). cbn [e_src e_dst e_cond] in I. apply I in H.
    cbn in H. rewrite app_nil_r in H. exact H.
Qed.
Definition conditioned_all (cs : list cond) (o : bool) (n : node) : node := fold_left (fun n c => with_cond c o n) cs n.
Lemma when_all_adds cs : forall g g', when_all conditional cs g = Some g' -> forall m o, adds g' m o <-> exists n, adds g n o /\ m = conditioned_all cs o n.
Proof.
  induction cs as [|c cs IH]; cbn [when_all]; intros g g'.
  - intros [= <-] m o. split; [intros H; exists m; auto|]. intros (n & H & ->). exact H.
  - destruct (conditional c g) as [h|] eqn:E; [|discriminate]. intros H m o. rewrite (IH _ _ H m o). split.
    + intros (n & Hn & ->). apply (conditional_adds _ _ _ E) in Hn as (k & Hk & ->). exists k. auto.
    + intros (n & Hn & ->). exists (with_cond c o n). split; auto. apply (conditional_adds _ _ _ E). eauto.
Qed.
Lemma conditioned_all_facts cs o : forall n, n_value n = true -> let m := conditioned_all cs o n in
  n_name m = n_name n /\ n_func m = n_func n /\ n_type m = n_type n /\
  forall pred, holds pred (n_cond m) = holds pred (n_cond n) && (if o then forallb (holds pred) cs else true).
Proof.
  induction cs as [|c cs IH]; intros n Hn; cbn [conditioned_all fold_left].
  - repeat split; auto. intros pred. destruct o; cbn; rewrite andb_true_r; auto.
  - destruct (conditions_facts [c] o n Hn) as (F1 & F2 & F3 & F4 & F5). cbn [conditions] in *.
    destruct (IH (with_cond c o n) F4) as (I1 & I2 & I3 & I4). fold (conditioned_all cs o (with_cond c o n)).
    rewrite I1, I2, I3. repeat split; auto. intros pred. rewrite I4, F5. destruct o; cbn [forallb]; rewrite ?andb_true_r, <- ?andb_assoc; reflexivity.
Qed.

(** ** What a builder has *)
Lemma when_all_frag cs : forall g, when_all element_when cs (Frag g) = option_map Frag (when_all conditional cs g).
Proof. induction cs as [|c cs IH]; intros g; cbn [when_all element_when]; auto. destruct (conditional c g) as [h|]; cbn [option_map]; auto. Qed.
Lemma when_all_function cs f e : when_all element_when cs (Function f) = Some e -> cs = [] /\ e = Function f.
Proof. destruct cs; cbn; [intros [= <-]; auto|discriminate]. Qed.
Lemma when_all_kind cs e e' : when_all element_when cs e = Some e' -> (exists g g', e = Frag g /\ e' = Frag g' /\ when_all conditional cs g = Some g') \/ (exists f, e = Function f /\ e' = Function f /\ cs = []).
Proof.
  destruct e as [g|f]; [rewrite when_all_frag|intros H; right; apply when_all_function in H as [-> ->]; eauto].
  destruct (when_all conditional cs g) as [g'|] eqn:E; cbn; [intros [= <-]; left; eauto|discriminate].
Qed.
Section Contributions.
Context {A : Type} (item_when : cond -> A -> option A).
Lemma contributions_in ex s os l : contributions item_when ex s os l -> forall e',
  In e' (concat l) <-> exists t cs a e, In (t, cs, a) os /\ means ex t s /\ In e a /\ when_all item_when cs e = Some e'.
Proof.
  induction 1 as [|t cs a a' o l Hm Ha Hc IH|t cs a s' o l Hm Hn Hc IH]; intros e'.
  - split; [intros []|]. intros (t & cs & a & e & [] & _).
  - cbn [concat]. rewrite in_app_iff, IH. split.
    + intros [H|(t1 & cs1 & a1 & e & H1 & H2 & H3)]; [|exists t1, cs1, a1, e; split; [right|]; auto].
      apply (in_map Some) in H. rewrite <- Ha in H. apply in_map_iff in H as (e & He & Hi). exists t, cs, a, e. split; [left; auto|auto].
    + intros (t1 & cs1 & a1 & e & [[= <- <- <-]|Hi] & H2 & H3 & H4); [left|right; exists t1, cs1, a1, e; auto].
      apply (in_map (when_all item_when cs)) in H3. rewrite Ha, H4 in H3. apply in_map_iff in H3 as (k & [= <-] & Hk). exact Hk.
  - rewrite IH. split.
    + intros (t1 & cs1 & a1 & e & H1 & H2). exists t1, cs1, a1, e. split; [right; auto|auto].
    + intros (t1 & cs1 & a1 & e & [[= <- <- <-]|Hi] & H2 & H3); [exfalso; apply Hn; eapply means_unique; eauto|exists t1, cs1, a1, e; auto].
Qed.
End Contributions.
(** The items of a service are what is given to it, under the conditions. *)
Lemma items_given x bs s items : builders element_when x = Some bs -> builder_of bs s = Some items -> forall e',
  In e' items <-> exists cs e, given x s cs e /\ when_all element_when cs e = Some e'.
Proof.
  intros E Hb e'. destruct (builders_items element_when x bs s items E Hb) as (l & Hl & ->).
  assert (P : In e' (concat (rev l)) <-> In e' (concat l)). { rewrite !in_concat. split; intros (y & Hy & H); exists y; split; auto; apply in_rev; [|rewrite rev_involutive]; auto. }
  rewrite P, (contributions_in _ _ _ _ _ Hl). unfold given. split.
  - intros (t & cs & a & e & H1 & H2 & H3 & H4). exists cs, e. split; eauto.
  - intros (cs & e & (t & a & H1 & H2 & H3) & H4). exists t, cs, a, e. auto.
Qed.
Lemma given_when x bs s items cs e : builders element_when x = Some bs -> builder_of bs s = Some items -> given x s cs e -> exists e', when_all element_when cs e = Some e' /\ In e' items.
Proof.
  intros E Hb G. assert (S : sensible element_when x) by (apply builders_sensible; congruence). destruct G as (t & a & H1 & H2 & H3).
  destruct (S t cs a H1) as (_ & _ & S3). specialize (S3 e H3). destruct (when_all element_when cs e) as [e'|] eqn:W; [|congruence]. exists e'. split; auto.
  apply (items_given x bs s items E Hb). exists cs, e. split; auto. exists t, a. auto.
Qed.
Lemma fragments_in l b : fragments l = Some b -> l = map Frag b.
Proof.
  unfold fragments. intros H. apply all_some_Forall2 in H. revert b H. induction l as [|[g|f] l IH]; intros [|g' b]; cbn [map]; try discriminate; auto.
  intros [= <- H]. rewrite (IH b H). reflexivity.
Qed.
Lemma functions_in l fs : functions l = Some fs -> l = map Function fs.
Proof.
  unfold functions. intros H. apply all_some_Forall2 in H. revert fs H. induction l as [|[g|f] l IH]; intros [|g' b]; cbn [map]; try discriminate; auto.
  intros [= <- H]. rewrite (IH b H). reflexivity.
Qed.

(** ** The built flow is lawful *)
Definition stands_for (m : node) (d : step) : Prop :=
  n_name m = st_name d /\ n_func m = n_func (st_node d) /\ n_type m = n_type (st_node d) /\ forall pred, holds pred (n_cond m) = wanted pred d.
Lemma choose {A B} (R : A -> B -> Prop) l : (forall a, In a l -> exists b, R a b) -> exists l', Forall2 R l l'.
Proof.
  induction l as [|a l IH]; intros H; [exists []; constructor|]. destruct (H a (or_introl eq_refl)) as (b & Hb).
  destruct IH as (l' & Hl); [intros; apply H; right; auto|]. exists (b :: l'). constructor; auto.
Qed.
Lemma Forall2_map_eq {A B C} (f : A -> C) (g : B -> C) l l' : Forall2 (fun a b => f a = g b) l l' -> map f l = map g l'.
Proof. induction 1; cbn; congruence. Qed.
Lemma Forall2_in_l {A B} (R : A -> B -> Prop) l l' a : Forall2 R l l' -> In a l -> exists b, In b l' /\ R a b.
Proof. induction 1 as [|x y l l' H F IH]; intros []; [subst; exists y; split; [left|]; auto|]. destruct IH as (b & Hb & Rb); auto. exists b. split; [right|]; auto. Qed.
Lemma Forall2_in_r {A B} (R : A -> B -> Prop) l l' b : Forall2 R l l' -> In b l' -> exists a, In a l /\ R a b.
Proof. induction 1 as [|x y l l' H F IH]; intros []; [subst; exists x; split; [left|]; auto|]. destruct IH as (a & Ha & Ra); auto. exists a. split; [right|]; auto. Qed.

Lemma built_lawful pops enum x bs s items b o : pops_some pops -> enumerates enum -> builders element_when x = Some bs -> builder_of bs s = Some items ->
  fragments items = Some b -> build pops enum b = Built o ->
  exists ds, Forall2 stands_for o ds /\ lawful x s ds.
Proof.
  intros Hp He E Hb Hf Ho. destruct (C27_order pops enum b o Hp He Ho) as (O1 & O2 & O3 & O4). apply fragments_in in Hf. subst items.
  assert (I := items_given x bs s _ E Hb).
  assert (Hin : forall g', In g' b <-> exists cs g, given x s cs (Frag g) /\ when_all conditional cs g = Some g').
  { intros g'. transitivity (In (Frag g') (map Frag b)); [split; [apply in_map|]; intros H; apply in_map_iff in H as (k & [= <-] & H); auto|]. rewrite I. split.
    - intros (cs & e & G & W). destruct (when_all_kind _ _ _ W) as [(g & h & -> & [= <-] & Wg)|(f & -> & H & _)]; [eauto|discriminate].
    - intros (cs & g & G & W). exists cs, (Frag g). split; auto. rewrite when_all_frag, W. reflexivity. }
  assert (D : forall m, In m o -> exists d, adds_step x s d /\ stands_for m d).
  { intros m Hm. apply O3 in Hm as (g' & own & Hg & Ha). apply Hin in Hg as (cs & g & G & W). apply (when_all_adds _ _ _ W) in Ha as (n & Hn & ->).
    exists {| st_node := n; st_own := own; st_conds := cs |}. split; [exists g; auto|]. destruct (conditioned_all_facts cs own n (adds_value _ _ _ Hn)) as (F1 & F2 & F3 & F4).
    unfold stands_for, st_name, wanted. cbn [st_node st_own st_conds]. auto. }
  destruct (choose (fun m d => adds_step x s d /\ stands_for m d) o D) as (ds & Hds). exists ds.
  assert (S : Forall2 stands_for o ds) by (revert Hds; clear; induction 1 as [|? ? ? ? [? ?] ? ?]; constructor; auto). split; auto.
  assert (N : map n_name o = map st_name ds). { apply Forall2_map_eq. revert S. clear. induction 1 as [|? ? ? ? (? & _) ? ?]; constructor; auto. }
  split.
  - rewrite <- N. exact O1.
  - intros d Hd. destruct (Forall2_in_r _ _ _ _ Hds Hd) as (m & _ & H & _). exact H.
  - intros d (g & G & Ha). destruct (given_when x bs s _ _ _ E Hb G) as (e' & W & Hi).
    destruct (when_all_kind _ _ _ W) as [(g1 & g' & [= <-] & -> & Wg)|(f & H & _)]; [|discriminate].
    assert (Hm : In (conditioned_all (st_conds d) (st_own d) (st_node d)) o).
    { apply O3. exists g', (st_own d). split; [apply Hin; eauto|]. apply (when_all_adds _ _ _ Wg). eauto. }
    destruct (Forall2_in_l _ _ _ _ S Hm) as (d' & Hd & S1 & S2 & S3 & S4). exists d'. split; auto.
    destruct (conditioned_all_facts (st_conds d) (st_own d) (st_node d) (adds_value _ _ _ Ha)) as (F1 & F2 & F3 & F4). cbv zeta in *.
    unfold alike. fold (st_name d'). rewrite <- S1, <- S2, <- S3. split; [auto|]. split; [auto|]. split; [auto|]. intros pred. rewrite <- S4, F4. reflexivity.
  - intros p q (cs & g & c & a & k & G & Sq & <- & <-). destruct (given_when x bs s _ _ _ E Hb G) as (e' & W & Hi).
    destruct (when_all_kind _ _ _ W) as [(g1 & g' & [= <-] & -> & Wg)|(f & H & _)]; [|discriminate].
    assert (J : In (leaf_name a, leaf_name k) (map edge_names (edges g'))) by (rewrite (when_all_edges _ _ _ Wg); apply edges_sequence; exists c, a, k; auto).
    apply edges_sequence in J as (c' & a' & k' & J & <- & <-). rewrite <- N. apply (O4 c' a' k').
    destruct J as (h & l & r & v & [->|[]] & H). exists h, l, r, v. split; auto. apply Hin. eauto.
Qed.

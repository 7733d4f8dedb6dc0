(** C145: a catalog that is made to forget is made without regard to earlier catalogs. *)
From Coq Require Import String Ascii Bool Arith List NArith ZArith Lia Permutation.
From Verif Require Import CatalogModel CatalogSpec CatalogProofs CatalogProofs2 CatalogProps.
Import ListNotations.
Local Open Scope Z_scope.

(** The messages of the new program and nothing else are written, with the ids they would
    get if nothing were forgotten. *)
Theorem C145_exact key reserved files items :
  fst (run key true reserved files items) = fst (run key false reserved files items) /\ snd (run key true reserved files items) = fst (run key false reserved files items).
Proof. unfold run. destruct (assign_ids key (read_stable key files) reserved (unique key items)) as [d ms]. split; reflexivity. Qed.
Print Assumptions C145_exact.

(** The texts, arguments and tags are those of a catalog made without the earlier one. *)
Theorem C145_contents key reserved files items :
  map (fun m => (sid m, m_extra m)) (snd (run key true reserved files items)) = map (fun m => (sid m, m_extra m)) (snd (run key true reserved [] items)).
Proof.
  assert (P : forall (a b : list entry), map sid a = map sid b -> map m_extra a = map m_extra b -> map (fun m => (sid m, m_extra m)) a = map (fun m => (sid m, m_extra m)) b).
  { induction a as [|x a IH]; intros [|y b] H1 H2; try discriminate; [reflexivity|]. cbn [map] in *. injection H1 as H1 H1'. injection H2 as H2 H2'. f_equal; [unfold sid; congruence|auto]. }
  unfold run, assign_ids. cbn [snd write_json fold_left]. apply P; rewrite ?loop_sids, ?loop_extra; reflexivity.
Qed.
Print Assumptions C145_contents.

(** The ids are not: *)
Theorem C145_refuted : exists json items, one_to_one json /\ pins_ok json items /\
  snd (run (msg_key num) true [] [Some json] items) <> snd (run (msg_key num) true [] [] items).
Proof.
  exists [mk "hello" [] 5], [mk "hello" [] (-1)]. split; [|split; [|vm_compute; discriminate]].
  - split; [intros s i j (m & [<-|[]] & _ & <-) (m' & [<-|[]] & _ & <-); reflexivity|intros s t i (m & [<-|[]] & <- & _) (m' & [<-|[]] & <- & _); reflexivity].
  - intros m [<-|[]] H. exfalso. apply H. reflexivity.
Qed.
Print Assumptions C145_refuted.
(** not even those of messages that no earlier catalog has. *)
Theorem C145_new_refuted : exists json items, one_to_one json /\ pins_ok json items /\
  (forall s i, holds json s i -> ~ In s (map sid items)) /\
  snd (run (msg_key num) true [] [Some json] items) <> snd (run (msg_key num) true [] [] items).
Proof.
  exists [mk "hello" [] 0], [mk "bye" [] (-1)]. split; [|split; [|split; [|vm_compute; discriminate]]].
  - split; [intros s i j (m & [<-|[]] & _ & <-) (m' & [<-|[]] & _ & <-); reflexivity|intros s t i (m & [<-|[]] & <- & _) (m' & [<-|[]] & <- & _); reflexivity].
  - intros m [<-|[]] H. exfalso. apply H. reflexivity.
  - intros s i (m & [<-|[]] & <- & _) [H|[]]. discriminate H.
Qed.
Print Assumptions C145_new_refuted.

Lemma next_ext old old' reserved n : (forall x, taken old reserved x = taken old' reserved x) -> next old reserved n = next old' reserved n.
Proof.
  intros H. destruct (next_spec old reserved n) as (A1 & A2 & A3), (next_spec old' reserved n) as (B1 & B2 & B3). cbv zeta in *.
  destruct (Z.lt_trichotomy (next old reserved n) (next old' reserved n)) as [L|[E|L]]; [|exact E|].
  - specialize (B3 (next old reserved n) ltac:(lia)). rewrite <- H in B3. congruence.
  - specialize (A3 (next old' reserved n) ltac:(lia)). rewrite H in A3. congruence.
Qed.
Lemma loop_ext key d d' old old' reserved l : (forall x, taken old reserved x = taken old' reserved x) -> (forall m, In m l -> dict_get (key m) d = dict_get (key m) d') ->
  forall n, assign_loop key d old reserved n l = assign_loop key d' old' reserved n l.
Proof.
  intros T. induction l as [|m l IH]; intros G n; [reflexivity|]. cbn [assign_loop]. rewrite <- (G m (or_introl eq_refl)), <- (next_ext _ _ _ _ T).
  assert (G' : forall m, In m l -> dict_get (key m) d = dict_get (key m) d') by (intros x Hx; apply G; right; exact Hx).
  destruct (dict_get (key m) d); now rewrite (IH G').
Qed.

(** The property holds when the program shares no message with the earlier catalog and the
    ids there are reserved. Missing: other catalogs, see [C145_refuted] and
    [C145_new_refuted]. *)
Theorem C145_partial key reserved json items :
  (forall a b, In a json -> In b items -> key a <> key b) -> (forall a, In a json -> exists lo hi, In (lo, hi) reserved /\ lo <= m_id a <= hi) ->
  run key true reserved [Some json] items = run key true reserved [] items.
Proof.
  intros K R. unfold run, assign_ids. cbn [read_stable fold_left]. change (read_stable key [Some json]) with (of_items key json). change (read_stable key []) with (of_items key []).
  assert (U : NoDup (map key (unique key items))) by apply unique_spec.
  destruct (pinned_spec key (unique key items) (of_items key json) (proj1 (of_items_spec key json)) U) as [W1 S1].
  destruct (pinned_spec key (unique key items) (of_items key []) (proj1 (of_items_spec key [])) U) as [W2 S2].
  assert (J : forall x, In x (values (of_items key json)) -> In x json) by apply of_items_spec.
  assert (I : forall x, In x (unique key items) -> In x items) by apply unique_spec.
  erewrite loop_ext; [reflexivity| |].
  - intros x. unfold taken. destruct (contains reserved x) eqn:C; [now rewrite !orb_true_r|]. rewrite !orb_false_r.
    apply eq_true_iff_eq. rewrite !existsb_exists. unfold old_ids. split; intros (i & Hi & E); apply in_map_iff in Hi as (m & <- & Hm); exists (m_id m); split; auto; apply in_map_iff; exists m; split; auto.
    + apply S2. apply S1 in Hm as [Hm|[Hm _]]; [left; exact Hm|exfalso]. destruct (R m (J m Hm)) as (lo & hi & Hr & B).
      apply not_true_iff_false in C. apply C. apply existsb_exists. exists (lo, hi). split; [exact Hr|]. cbn. lia.
    + apply S1. apply S2 in Hm as [Hm|[[] _]]. left. exact Hm.
  - intros m Hm. apply (Permutation_in _ (sorted_perm _)) in Hm.
    destruct (dict_get (key m) (pinned key (of_items key json) (unique key items))) as [e|] eqn:E.
    + apply (get_in key) in E as [E1 E2]; auto. symmetry. apply (get_in key); auto. split; [|exact E2]. apply S2. apply S1 in E1 as [E1|[E1 _]]; [left; exact E1|].
      exfalso. apply (K e m (J e E1) (I m Hm) E2).
    + pose proof (proj1 (get_none key _ (key m) W1) E) as N. symmetry. apply (get_none key); auto. intros x Hx. apply N. apply S1. apply S2 in Hx as [Hx|[[] _]]. left. exact Hx.
Qed.
Print Assumptions C145_partial.

Example C145_case : let json := [mk "old" [] 3; mk "older" [] 4] in let items := [mk "new" [] (-1); mk "fixed" [] 9; mk "newer" [] (-1)] in
  (forall a b, In a json -> In b items -> msg_key num a <> msg_key num b) /\ (forall a, In a json -> exists lo hi, In (lo, hi) [(3, 4)] /\ lo <= m_id a <= hi) /\
  snd (run (msg_key num) true [(3, 4)] [Some json] items) = [mk "fixed" [] 9; mk "new" [] 0; mk "newer" [] 1] /\
  snd (run (msg_key num) false [(3, 4)] [Some json] items) = [mk "fixed" [] 9; mk "new" [] 0; mk "newer" [] 1; mk "old" [] 3; mk "older" [] 4].
Proof.
  cbv zeta. split; [|split; [|split; vm_compute; reflexivity]].
  - intros a b Ha Hb. cbn in Ha, Hb. destruct Ha as [<-|[<-|[]]], Hb as [<-|[<-|[<-|[]]]]; vm_compute; discriminate.
  - intros a Ha. exists 3, 4. split; [left; reflexivity|]. cbn in Ha. destruct Ha as [<-|[<-|[]]]; cbn; lia.
Qed.

(** Proofs about id assignment. *)
From Coq Require Import String Ascii Bool Arith List NArith ZArith Lia Permutation Sorted.
From Coq Require Import ZifyNat ZifyBool.
From Verif Require Import CatalogModel CatalogSpec.
Import ListNotations.
Local Open Scope Z_scope.

(** ** Fresh numbers *)
Lemma fold_max l n : n <= fold_right Z.max n l /\ forall x, In x l -> x <= fold_right Z.max n l.
Proof. induction l as [|a l [IH1 IH2]]; cbn [fold_right In]; [split; [lia|intros _ []]|]. split; [lia|]. intros x [->|H]; [lia|]. specialize (IH2 x H). lia. Qed.
Lemma taken_beyond old reserved n x : beyond old reserved n <= x -> taken old reserved x = false.
Proof.
  unfold beyond. destruct (fold_max (old ++ map snd reserved) n) as [_ H]. set (b := fold_right _ _ _) in *. intros Hx. unfold taken.
  apply orb_false_iff. split.
  - destruct (existsb _ old) eqn:E; auto. apply existsb_exists in E as (y & Hy & E). specialize (H y (in_or_app _ _ _ (or_introl Hy))). lia.
  - unfold contains. destruct (existsb _ reserved) eqn:E; auto. apply existsb_exists in E as (y & Hy & E).
    specialize (H (snd y) (in_or_app _ _ _ (or_intror (in_map snd _ _ Hy)))). lia.
Qed.
Lemma next_from_spec old reserved : forall fuel n, (forall x, n + Z.of_nat fuel <= x -> taken old reserved x = false) ->
  let i := next_from fuel old reserved n in n <= i /\ taken old reserved i = false /\ forall x, n <= x < i -> taken old reserved x = true.
Proof.
  induction fuel as [|fuel IH]; intros n H; cbn [next_from].
  - split; [lia|]. split; [apply H; lia|]. intros x Hx. lia.
  - destruct (taken old reserved n) eqn:E; [|split; [lia|split; auto; intros x Hx; lia]].
    destruct (IH (n + 1)) as (I1 & I2 & I3); [intros x Hx; apply H; lia|]. split; [lia|]. split; auto. intros x Hx. destruct (Z.eq_dec x n) as [->|]; auto. apply I3. lia.
Qed.
(** The next number: not taken, and the smallest such from n on. *)
Lemma next_spec old reserved n : let i := next old reserved n in n <= i /\ taken old reserved i = false /\ forall x, n <= x < i -> taken old reserved x = true.
Proof.
  apply next_from_spec. intros x Hx. apply (taken_beyond old reserved n). assert (n <= beyond old reserved n) by (unfold beyond; destruct (fold_max (old ++ map snd reserved) n); lia). lia.
Qed.

(** ** Dictionaries *)
Definition wf (key : entry -> Z) (d : dict) : Prop := NoDup (map fst d) /\ forall k m, In (k, m) d -> k = key m.
Lemma set_keys k m d : map fst (dict_set k m d) = if existsb (Z.eqb k) (map fst d) then map fst d else (map fst d ++ [k])%list.
Proof.
  induction d as [|[k' m'] d IH]; cbn [dict_set map fst existsb]; auto. rewrite (Z.eqb_sym k k'). destruct (k' =? k) eqn:E; cbn [orb map fst].
  - f_equal. lia.
  - rewrite IH. destruct (existsb _ _); reflexivity.
Qed.
Lemma set_in k m d x : NoDup (map fst d) -> In x (dict_set k m d) <-> x = (k, m) \/ In x d /\ fst x <> k.
Proof.
  induction d as [|[k' m'] d IH]; cbn [dict_set map fst In]; intros H.
  - split; [intros [<-|[]]; auto|]. intros [->|[[] _]]. auto.
  - inversion_clear H as [|? ? H1 H2]. destruct (k' =? k) eqn:E; cbn [In].
    + assert (k' = k) by lia. subst k'. split.
      * intros [<-|Hx]; auto. right. split; auto. intros Hk. apply H1. rewrite <- Hk. apply in_map, Hx.
      * intros [->|[[<-|Hx] Hk]]; auto. cbn in Hk. congruence.
    + rewrite (IH H2). split.
      * intros [<-|[->|[Hx Hk]]]; auto. right. split; auto. cbn. lia.
      * intros [->|[[<-|Hx] Hk]]; auto.
Qed.
Lemma set_wf key m d : wf key d -> wf key (dict_set (key m) m d).
Proof.
  intros [H1 H2]. split.
  - rewrite set_keys. destruct (existsb _ _) eqn:E; auto. apply (Permutation_NoDup (Permutation_cons_append _ _)). constructor; auto.
    intros Hin. rewrite <- not_true_iff_false in E. apply E. apply existsb_exists. exists (key m). split; auto. lia.
  - intros k x Hx. apply set_in in Hx; auto. destruct Hx as [Hx|[Hx _]]; auto. congruence.
Qed.
Lemma get_in key d k m : wf key d -> dict_get k d = Some m <-> In m (values d) /\ key m = k.
Proof.
  intros [H1 H2]. induction d as [|[k' m'] d IH]; cbn [dict_get values map snd In].
  - split; [discriminate|]. intros [[] _].
  - inversion_clear H1 as [|? ? N1 N2]. assert (Hk : k' = key m') by (apply H2; left; auto).
    assert (IH' := IH N2 (fun k x Hx => H2 k x (or_intror Hx))). destruct (k' =? k) eqn:E.
    + split; [intros [= <-]; split; auto; lia|]. intros [[->|Hm] E2]; auto. exfalso. apply N1.
      apply in_map_iff in Hm as ([k2 m2] & Em & Hm). cbn in Em. subst m2. assert (k2 = key m) by (apply H2; right; auto). apply in_map_iff. exists (k2, m). cbn. split; auto. lia.
    + rewrite IH'. split; [tauto|]. intros [[->|Hm] E2]; auto. lia.
Qed.
Lemma get_none key d k : wf key d -> dict_get k d = None <-> forall m, In m (values d) -> key m <> k.
Proof.
  intros H. split.
  - intros E m Hm Hk. assert (dict_get k d = Some m) by (apply (get_in key); auto). congruence.
  - intros Hn. destruct (dict_get k d) eqn:E; auto. apply (get_in key) in E; auto. destruct E as [E1 E2]. exfalso. apply (Hn e); auto.
Qed.
Lemma values_set key m d x : wf key d -> In x (values (dict_set (key m) m d)) <-> x = m \/ In x (values d) /\ key x <> key m.
Proof.
  intros [H1 H2]. unfold values. rewrite !in_map_iff. split.
  - intros ([k y] & <- & Hy). apply set_in in Hy; auto. cbn [snd fst] in *. destruct Hy as [[= -> ->]|[Hy Hk]]; auto. right. split; [exists (k, y); auto|]. rewrite <- (H2 _ _ Hy). auto.
  - intros [->|[([k y] & E & Hy) Hk]].
    + exists (key m, m). split; auto. apply set_in; auto.
    + cbn in E. subst y. exists (k, x). split; auto. apply set_in; auto. right. split; auto. cbn. rewrite (H2 _ _ Hy). auto.
Qed.
Section Fold.
Variable key : entry -> Z.
Lemma wf_nil : wf key []. Proof. split; [constructor|intros ? ? []]. Qed.
(** The last entry of each key survives. *)
Lemma fold_set l : forall d, wf key d -> wf key (fold_left (fun d m => dict_set (key m) m d) l d) /\
  (forall x, In x (values (fold_left (fun d m => dict_set (key m) m d) l d)) ->
     In x l \/ In x (values d) /\ forall m, In m l -> key m <> key x) /\
  (forall m, In m l \/ In m (values d) -> exists x, In x (values (fold_left (fun d m => dict_set (key m) m d) l d)) /\ key x = key m).
Proof.
  induction l as [|a l IH]; intros d Hd; cbn [fold_left].
  - split; auto. split; [intros x Hx; right; split; auto; intros m []|]. intros m [[]|Hm]. exists m. auto.
  - destruct (IH (dict_set (key a) a d)) as (I1 & I2 & I3); [apply set_wf, Hd|]. split; auto. split.
    + intros x Hx. destruct (I2 x Hx) as [Hl|[Hv Hn]]; [left; right; auto|]. apply (values_set key) in Hv; auto. destruct Hv as [->|[Hv Hk]]; [left; left; auto|].
      right. split; auto. intros m [<-|Hm]; auto.
    + intros m Hm. destruct Hm as [[<-|Hm]|Hm].
      * apply I3. right. apply (values_set key); auto.
      * apply I3. auto.
      * destruct (Z.eq_dec (key m) (key a)) as [E|E].
        -- rewrite E. apply I3. right. apply (values_set key); auto.
        -- apply I3. right. apply (values_set key); auto.
Qed.
Lemma of_items_spec l : wf key (of_items key l) /\ (forall x, In x (values (of_items key l)) -> In x l) /\
  (forall m, In m l -> exists x, In x (values (of_items key l)) /\ key x = key m).
Proof.
  destruct (fold_set l [] wf_nil) as (H1 & H2 & H3). split; auto. split.
  - intros x Hx. destruct (H2 x Hx) as [|[[] _]]; auto.
  - intros m Hm. apply H3. auto.
Qed.
Lemma values_keys d : wf key d -> map key (values d) = map fst d.
Proof.
  intros [_ H]. unfold values. rewrite map_map. apply map_ext_in. intros [k m] Hin. cbn. symmetry. apply H, Hin.
Qed.
Lemma unique_spec l : NoDup (map key (unique key l)) /\ (forall x, In x (unique key l) -> In x l) /\ (forall m, In m l -> exists x, In x (unique key l) /\ key x = key m).
Proof.
  destruct (of_items_spec l) as (H1 & H2 & H3). split; [|split; auto]. unfold unique. rewrite values_keys by auto. apply H1.
Qed.
Lemma pinned_spec l : forall st, wf key st -> NoDup (map key l) -> wf key (pinned key st l) /\
  (forall x, In x (values (pinned key st l)) <-> In x l /\ m_id x <> -1 \/ In x (values st) /\ forall m, In m l -> m_id m <> -1 -> key m <> key x).
Proof.
  unfold pinned. induction l as [|a l IH]; intros st Hst Hn; cbn [fold_left map] in *.
  - split; auto. intros x. split; [intros H; right; split; auto; intros m []|]. intros [[[] _]|[H _]]; auto.
  - inversion_clear Hn as [|? ? N1 N2]. destruct (m_id a =? -1) eqn:E.
    + destruct (IH st Hst N2) as [I1 I2]. split; auto. intros x. rewrite I2. cbn [In]. split.
      * intros [[H1 H2]|[H1 H2]]; auto. right. split; auto. intros m [<-|Hm] Hid; auto. lia.
      * intros [[[<-|H1] H2]|[H1 H2]]; auto; lia.
    + assert (W := set_wf key a st Hst). destruct (IH _ W N2) as [I1 I2]. split; auto. intros x. rewrite I2, (values_set key) by auto. cbn [In]. split.
      * intros [[H1 H2]|[[->|[H1 Hk]] H2]]; auto.
        -- left. split; auto. lia.
        -- right. split; auto. intros m [<-|Hm] Hid; auto.
      * intros [[[<-|H1] H2]|[H1 H2]]; auto.
        -- right. split; auto. intros m Hm _ Hk. apply N1. rewrite <- Hk. apply in_map, Hm.
        -- right. split; [|intros m Hm; apply H2; auto]. right. split; auto. intros Hk. apply (H2 a); auto. lia.
Qed.
End Fold.
Lemma insert_perm m l : Permutation (insert m l) (m :: l).
Proof. induction l as [|x l IH]; cbn [insert]; auto. destruct (String.leb _ _); auto. rewrite IH. apply perm_swap. Qed.
Lemma sorted_perm l : Permutation (sorted l) l.
Proof. induction l as [|m l IH]; cbn [sorted fold_right]; auto. rewrite insert_perm. constructor. exact IH. Qed.
Definition text_le (a b : entry) : Prop := String.leb (m_text a) (m_text b) = true.
Lemma insert_sorted m l : Sorted text_le l -> Sorted text_le (insert m l).
Proof.
  assert (T : forall a b, String.leb (m_text a) (m_text b) = false -> text_le b a).
  { intros a b E. unfold text_le. destruct (String.leb_total (m_text a) (m_text b)); congruence. }
  induction 1 as [|x l Hs IH Hh]; cbn [insert]; [repeat constructor|]. destruct (String.leb (m_text m) (m_text x)) eqn:E.
  - constructor; [constructor; auto|]. constructor. exact E.
  - constructor; auto. destruct l as [|y l]; cbn [insert] in *; [constructor; apply T, E|]. inversion_clear Hh. destruct (String.leb (m_text m) (m_text y)); constructor; auto.
Qed.
Lemma sorted_sorted l : Sorted text_le (sorted l).
Proof. induction l as [|m l IH]; cbn [sorted fold_right]; [constructor|]. apply insert_sorted, IH. Qed.
Lemma leb_refl s : String.leb s s = true.
Proof. destruct (String.leb_total s s); auto. Qed.
Lemma sorted_stable t l : filter (fun m => String.eqb (m_text m) t) (sorted l) = filter (fun m => String.eqb (m_text m) t) l.
Proof.
  induction l as [|m l IH]; auto. cbn [sorted fold_right filter]. change (fold_right insert [] l) with (sorted l). rewrite <- IH. generalize (sorted l). clear.
  induction l as [|x l IH]; cbn [insert filter]; auto. destruct (String.leb _ _) eqn:E; cbn [filter]; auto. rewrite IH.
  destruct (String.eqb_spec (m_text m) t) as [E1|_]; auto. destruct (String.eqb_spec (m_text x) t) as [E2|_]; auto. rewrite E1, E2, leb_refl in E. discriminate.
Qed.

(** ** The loop *)
Section Loop.
Variables (key : entry -> Z) (d : dict) (old : list Z) (reserved : list (Z * Z)).
Hypothesis Hkey : respects key.
Lemma key_with m i : key (with_id m i) = key m.
Proof. apply Hkey. reflexivity. Qed.
Lemma loop_sids l : forall n, map sid (assign_loop key d old reserved n l) = map sid l.
Proof. induction l as [|m l IH]; intros n; cbn [assign_loop map]; auto. destruct (dict_get _ _); cbn [map]; rewrite IH; reflexivity. Qed.
Lemma loop_extra l : forall n, map m_extra (assign_loop key d old reserved n l) = map m_extra l.
Proof. induction l as [|m l IH]; intros n; cbn [assign_loop map]; auto. destruct (dict_get _ _); cbn [map]; rewrite IH; reflexivity. Qed.
Lemma loop_ids l : forall n x, In x (assign_loop key d old reserved n l) ->
  match dict_get (key x) d with Some s => m_id x = m_id s | None => n <= m_id x /\ taken old reserved (m_id x) = false end.
Proof.
  induction l as [|m l IH]; intros n x; cbn [assign_loop]; [intros []|]. destruct (dict_get (key m) d) eqn:E; cbn [In]; intros [<-|Hx].
  - rewrite key_with, E. reflexivity.
  - apply IH, Hx.
  - rewrite key_with, E. destruct (next_spec old reserved n) as (H1 & H2 & _). split; auto.
  - destruct (next_spec old reserved n) as (H1 & _). specialize (IH _ _ Hx). destruct (dict_get (key x) d); auto. split; [lia|apply IH].
Qed.
Lemma loop_inj l : forall n x y, NoDup (map key l) -> In x (assign_loop key d old reserved n l) -> In y (assign_loop key d old reserved n l) ->
  dict_get (key x) d = None -> dict_get (key y) d = None -> m_id x = m_id y -> key x = key y.
Proof.
  assert (G : forall l n x, In x (assign_loop key d old reserved n l) -> dict_get (key x) d = None -> n <= m_id x).
  { intros l0 n x H E. apply loop_ids in H. rewrite E in H. apply H. }
  induction l as [|m l IH]; intros n x y Hn; cbn [assign_loop map] in *; [intros []|]. inversion_clear Hn as [|? ? N1 N2].
  destruct (dict_get (key m) d) eqn:E; cbn [In].
  - intros [<-|Hx] [<-|Hy] Ex Ey Ei; auto; try (rewrite key_with in *; congruence). eapply IH; eauto.
  - intros [<-|Hx] [<-|Hy] Ex Ey Ei; auto.
    + apply G in Hy; auto. cbn in Ei. lia.
    + apply G in Hx; auto. cbn in Ei. lia.
    + eapply IH; eauto.
Qed.
(** New numbers grow along the list, and no free number is left out. *)
Lemma loop_grows l : forall n a x b y c, assign_loop key d old reserved n l = (a ++ x :: b ++ y :: c)%list ->
  dict_get (key x) d = None -> dict_get (key y) d = None -> m_id x < m_id y.
Proof.
  induction l as [|m l IH]; intros n a x b y c E Ex Ey; cbn [assign_loop] in E; [destruct a; discriminate|].
  destruct a as [|a0 a]; cbn [app] in E.
  - destruct (dict_get (key m) d) eqn:Em; injection E as <- E.
    + rewrite key_with in Ex. congruence.
    + assert (In y (assign_loop key d old reserved (next old reserved n + 1) l)) as Hy by (rewrite E; apply in_app_iff; right; left; auto).
      apply loop_ids in Hy. rewrite Ey in Hy. cbn [with_id m_id]. lia.
  - destruct (dict_get (key m) d) eqn:Em; injection E as _ E; eapply IH; eauto.
Qed.
Lemma loop_dense l : forall n x j, In x (assign_loop key d old reserved n l) -> dict_get (key x) d = None -> n <= j < m_id x ->
  taken old reserved j = true \/ exists z, In z (assign_loop key d old reserved n l) /\ m_id z = j.
Proof.
  induction l as [|m l IH]; intros n x j; cbn [assign_loop]; [intros []|]. destruct (dict_get (key m) d) eqn:E; cbn [In].
  - intros [<-|Hx] Ex Hj; [rewrite key_with in Ex; congruence|]. destruct (IH n x j Hx Ex Hj) as [|(z & Hz & Ez)]; auto. right. exists z. auto.
  - destruct (next_spec old reserved n) as (N1 & N2 & N3). intros [<-|Hx] Ex Hj; [left; apply N3; cbn [with_id m_id] in Hj; lia|].
    destruct (Z.lt_ge_cases j (next old reserved n)) as [Hl|Hl]; [left; apply N3; lia|].
    destruct (Z.eq_dec j (next old reserved n)) as [->|Hn]; [right; eexists; split; [left; reflexivity|reflexivity]|].
    destruct (IH (next old reserved n + 1) x j Hx Ex) as [|(z & Hz & Ez)]; auto; [lia|]. right. exists z. auto.
Qed.
End Loop.

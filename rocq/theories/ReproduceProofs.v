(** Proofs about runs of the generator that differ in hashes or order. *)
From Coq Require Import String Ascii Bool NArith List ZArith Lia Permutation Sorted.
From Verif Require Import CatalogModel CatalogProofs2 ReproduceSpec.
Import ListNotations.

Section Key.
Variable k : entry -> Z.
(** Dictionaries as lists of entries. *)
Fixpoint put (m : entry) (vs : list entry) : list entry :=
  match vs with [] => [m] | x :: r => if (k x =? k m)%Z then m :: r else x :: put m r end.
Definition puts (l vs : list entry) : list entry := fold_left (fun vs m => put m vs) l vs.
Definition keyd (vs : list entry) : dict := map (fun m => (k m, m)) vs.
Lemma keyd_set m vs : dict_set (k m) m (keyd vs) = keyd (put m vs).
Proof. induction vs as [|x r IH]; [reflexivity|]. cbn. destruct (k x =? k m)%Z; [reflexivity|]. cbn. now f_equal. Qed.
Lemma keyd_sets l : forall vs, fold_left (fun d m => dict_set (k m) m d) l (keyd vs) = keyd (puts l vs).
Proof. induction l as [|m l IH]; intros vs; [reflexivity|]. cbn. rewrite keyd_set. apply IH. Qed.
Lemma of_items_puts l : of_items k l = keyd (puts l []).
Proof. apply (keyd_sets l []). Qed.
Lemma keyd_get x vs : dict_get x (keyd vs) = find (fun s => (k s =? x)%Z) vs.
Proof. induction vs as [|s r IH]; [reflexivity|]. cbn. destruct (k s =? x)%Z; auto. Qed.
Lemma keyd_values vs : values (keyd vs) = vs.
Proof. unfold values, keyd. rewrite map_map. apply map_id. Qed.
Definition has_id (m : entry) : bool := negb (m_id m =? -1)%Z.
Lemma pinned_puts l : forall vs, pinned k (keyd vs) l = keyd (puts (filter has_id l) vs).
Proof.
  unfold pinned, has_id. induction l as [|m l IH]; intros vs; [reflexivity|]. cbn. destruct (m_id m =? -1)%Z; cbn; [apply IH|]. rewrite keyd_set. apply IH.
Qed.
Lemma in_put x m vs : In x (put m vs) -> x = m \/ In x vs.
Proof. induction vs as [|y r IH]; cbn; [intros [<-|[]]; auto|]. destruct (k y =? k m)%Z; cbn; [intros [<-|H]; auto|]. intros [<-|H]; auto. destruct (IH H); auto. Qed.
Lemma in_puts x l : forall vs, In x (puts l vs) -> In x l \/ In x vs.
Proof. induction l as [|m l IH]; cbn; intros vs H; auto. destruct (IH _ H) as [H'|H']; auto. apply in_put in H' as [->|H']; auto. Qed.
End Key.

Section Seed.
Variables k1 k2 : entry -> Z.
Variable D : list entry.
Hypothesis Same : same_distinctions k1 k2 D.
Lemma eqb_same a b : In a D -> In b D -> (k1 a =? k1 b)%Z = (k2 a =? k2 b)%Z.
Proof. intros Ha Hb. apply eq_true_iff_eq. rewrite !Z.eqb_eq. auto. Qed.
Lemma put_same m vs : In m D -> incl vs D -> put k1 m vs = put k2 m vs.
Proof.
  intros Hm. induction vs as [|x r IH]; intros Hv; [reflexivity|]. cbn. rewrite (eqb_same x m); [|apply Hv; now left|exact Hm].
  destruct (k2 x =? k2 m)%Z; [reflexivity|]. f_equal. apply IH. intros y Hy. apply Hv. now right.
Qed.
Lemma puts_same l : forall vs, incl l D -> incl vs D -> puts k1 l vs = puts k2 l vs.
Proof.
  induction l as [|m l IH]; intros vs Hl Hv; [reflexivity|]. cbn. rewrite put_same; [|apply Hl; now left|exact Hv].
  apply IH; [intros x Hx; apply Hl; now right|]. intros x Hx. apply in_put in Hx as [->|Hx]; [apply Hl; now left|auto].
Qed.
Lemma assign_same vs old rs l : forall n, incl vs D -> incl l D ->
  assign_loop k1 (keyd k1 vs) old rs n l = assign_loop k2 (keyd k2 vs) old rs n l.
Proof.
  induction l as [|m l IH]; intros n Hv Hl; [reflexivity|]. cbn. rewrite !keyd_get.
  assert (F : find (fun s => (k1 s =? k1 m)%Z) vs = find (fun s => (k2 s =? k2 m)%Z) vs).
  { assert (Hm : In m D) by (apply Hl; now left). clear -Hv Hm Same. induction vs as [|s r IH]; [reflexivity|]. cbn. rewrite (eqb_same s m); [|apply Hv; now left|exact Hm].
    destruct (k2 s =? k2 m)%Z; [reflexivity|]. apply IH. intros y Hy. apply Hv. now right. }
  rewrite F. clear F. assert (Hl' : incl l D) by (intros y Hy; apply Hl; now right). destruct (find _ vs); f_equal; apply IH; auto.
Qed.
End Seed.

Lemma in_insert x m l : In x (insert m l) <-> x = m \/ In x l.
Proof.
  induction l as [|y r IH]; cbn; [intuition|]. destruct (String.leb (m_text m) (m_text y)); cbn; [intuition|]. rewrite IH. intuition.
Qed.
Lemma in_sorted x l : In x (sorted l) <-> In x l.
Proof. induction l as [|m l IH]; [reflexivity|]. cbn. change (sorted (m :: l)) with (insert m (sorted l)). rewrite in_insert, IH. intuition. Qed.
Definition chosen (acc : list entry) (files : list (option (list entry))) : list entry :=
  fold_left (fun acc f => match f with Some l => l | None => acc end) files acc.
Lemma chosen_in files : forall acc, incl (chosen acc files) (acc ++ in_files files).
Proof.
  induction files as [|[l|] files IH]; intros acc x Hx; cbn in *.
  - apply in_app_iff. auto.
  - apply IH in Hx. rewrite !in_app_iff in *. tauto.
  - apply IH in Hx. exact Hx.
Qed.
Lemma run_same k1 k2 forget rs files items : same_distinctions k1 k2 (items ++ in_files files) ->
  run k1 forget rs files items = run k2 forget rs files items.
Proof.
  intros Same. unfold run, assign_ids, read_stable, unique. rewrite !of_items_puts, !keyd_values, !pinned_puts. unfold old_ids. rewrite !keyd_values.
  fold (chosen [] files). set (D := (items ++ in_files files)%list) in *.
  assert (Hc : incl (chosen [] files) D) by (intros x Hx; apply chosen_in in Hx; apply in_app_iff; auto).
  assert (Hi : incl items D) by (intros x Hx; apply in_app_iff; auto).
  assert (N : incl [] D) by (intros x []).
  rewrite <- (puts_same k1 k2 D Same items [] Hi N), <- (puts_same k1 k2 D Same (chosen [] files) [] Hc N).
  set (U := puts k1 items []). set (S := puts k1 (chosen [] files) []).
  assert (HU : incl U D) by (intros x Hx; apply in_puts in Hx as [Hx|[]]; auto).
  assert (HS : incl S D) by (intros x Hx; apply in_puts in Hx as [Hx|[]]; auto).
  assert (HP : incl (filter has_id U) D) by (intros x Hx; apply filter_In in Hx as [Hx _]; auto).
  rewrite <- (puts_same k1 k2 D Same (filter has_id U) S HP HS). set (P := puts k1 (filter has_id U) S).
  assert (HPP : incl P D) by (intros x Hx; apply in_puts in Hx as [Hx|Hx]; auto).
  rewrite (assign_same k1 k2 D Same P (map m_id P) rs (sorted U) 0 HPP); [reflexivity|]. intros x Hx. apply HU, in_sorted, Hx.
Qed.

(** ** Order *)
Lemma chosen_last files : forall acc, chosen acc files = last (flat_map (fun f => match f with Some l => [l] | None => [] end) files) acc.
Proof.
  induction files as [|[l|] files IH]; intros acc; [reflexivity| |apply IH]. change (chosen acc (Some l :: files)) with (chosen l files). rewrite IH. cbn [flat_map app].
  destruct (flat_map _ files) as [|x r]; [reflexivity|]. change (last (l :: x :: r) acc) with (last (x :: r) acc). clear. revert x. induction r as [|y r IH]; intros x; [reflexivity|]. apply (IH y).
Qed.
Lemma leb_trans s : forall t u, String.leb s t = true -> String.leb t u = true -> String.leb s u = true.
Proof.
  unfold String.leb. induction s as [|a s IH]; intros [|b t] [|c u]; cbn; try discriminate; auto.
  unfold Ascii.compare. destruct (N.compare_spec (N_of_ascii a) (N_of_ascii b)) as [E1|E1|E1], (N.compare_spec (N_of_ascii b) (N_of_ascii c)) as [E2|E2|E2]; try discriminate;
    destruct (N.compare_spec (N_of_ascii a) (N_of_ascii c)) as [E3|E3|E3]; auto; try lia. apply IH.
Qed.
Definition before (a b : entry) : Prop := String.leb (m_text a) (m_text b) = true.
Lemma insert_before m l : StronglySorted before l -> StronglySorted before (insert m l).
Proof.
  induction 1 as [|x l H IH F]; cbn; [repeat constructor|]. destruct (String.leb (m_text m) (m_text x)) eqn:E.
  - constructor; [now constructor|]. constructor; [exact E|]. eapply Forall_impl; [|exact F]. intros y. apply leb_trans, E.
  - constructor; [exact IH|]. apply Forall_forall. intros y Hy. apply in_insert in Hy as [->|Hy]; [|rewrite Forall_forall in F; auto].
    unfold before. destruct (String.leb_total (m_text m) (m_text x)); congruence.
Qed.
Lemma sorted_before l : StronglySorted before (sorted l).
Proof. induction l as [|m l IH]; [constructor|]. apply insert_before, IH. Qed.
Lemma filter_before f l : StronglySorted before l -> StronglySorted before (filter f l).
Proof.
  induction 1 as [|x l H IH F]; cbn; [constructor|]. destruct (f x); auto. constructor; auto.
  apply Forall_forall. intros y Hy. apply filter_In in Hy as [Hy _]. rewrite Forall_forall in F. auto.
Qed.
Lemma before_unique l : forall l', StronglySorted before l -> StronglySorted before l' -> NoDup l -> NoDup l' ->
  (forall x, In x l <-> In x l') -> (forall a b, In a l -> In b l -> m_text a = m_text b -> a = b) -> l = l'.
Proof.
  induction l as [|a l IH]; intros [|b l'] S S' N N' E T; auto.
  - exfalso. apply (E b). now left.
  - exfalso. apply (E a). now left.
  - inversion_clear S as [|? ? Sl F]. inversion_clear S' as [|? ? Sl' F']. inversion_clear N as [|? ? Na Nl]. inversion_clear N' as [|? ? Nb Nl'].
    rewrite Forall_forall in F, F'.
    assert (a = b) as <-.
    { assert (Ha : In a (b :: l')) by (apply E; now left). assert (Hb : In b (a :: l)) by (apply E; now left).
      destruct Ha as [->|Ha]; [reflexivity|]. destruct Hb as [->|Hb]; [reflexivity|].
      apply T; [now left|now right|]. apply String.leb_antisym; [apply (F b Hb)|apply (F' a Ha)]. }
    f_equal. apply IH; auto.
    + intros x. specialize (E x). cbn in E. split; intros Hx.
      * destruct E as [[<-|E] _]; [now right|contradiction|exact E].
      * destruct E as [_ [<-|E]]; [now right|contradiction|exact E].
    + intros x y Hx Hy. apply T; now right.
Qed.
Lemma insert_perm m l : Permutation (insert m l) (m :: l).
Proof. induction l as [|x l IH]; cbn; [reflexivity|]. destruct (String.leb _ _); [reflexivity|]. rewrite IH. apply perm_swap. Qed.
Lemma sorted_perm l : Permutation (sorted l) l.
Proof. induction l as [|m l IH]; [constructor|]. change (sorted (m :: l)) with (insert m (sorted l)). rewrite insert_perm. now constructor. Qed.

Section Order.
Variable k : entry -> Z.
Notation find_key x := (find (fun s => (k s =? x)%Z)).
Lemma find_put x m vs : find_key x (put k m vs) = if (k m =? x)%Z then Some m else find_key x vs.
Proof.
  induction vs as [|y r IH]; cbn; [reflexivity|]. destruct (Z.eqb_spec (k y) (k m)) as [E|E]; cbn.
  - rewrite E. destruct (k m =? x)%Z; reflexivity.
  - rewrite IH. destruct (Z.eqb_spec (k y) x), (Z.eqb_spec (k m) x); auto; congruence.
Qed.
Lemma find_puts x l : forall vs, keyed k l -> find_key x (puts k l vs) = match find_key x l with Some p => Some p | None => find_key x vs end.
Proof.
  induction l as [|m l IH]; intros vs K; [reflexivity|]. change (puts k (m :: l) vs) with (puts k l (put k m vs)). cbn [find]. rewrite IH by (intros a b Ha Hb; apply K; now right). rewrite find_put.
  destruct (find_key x l) as [p|] eqn:F; [|destruct (k m =? x)%Z; reflexivity].
  destruct (Z.eqb_spec (k m) x) as [E|]; [|reflexivity]. f_equal. symmetry. apply find_some in F as [Hp F]. apply Z.eqb_eq in F. apply K; [now left|now right|congruence].
Qed.
Lemma find_puts_none x l : forall vs, find_key x (puts k l vs) = None -> find_key x l = None /\ find_key x vs = None.
Proof.
  induction l as [|m l IH]; intros vs H; [auto|]. apply IH in H as [H1 H2]. rewrite find_put in H2. cbn [find]. destruct (k m =? x)%Z; [discriminate|auto].
Qed.
Lemma find_same x l l' : keyed k l -> (forall y, In y l <-> In y l') -> find_key x l = find_key x l'.
Proof.
  intros K E. destruct (find_key x l) as [p|] eqn:F, (find_key x l') as [q|] eqn:F'; auto.
  - apply find_some in F as [Hp F], F' as [Hq F']. apply Z.eqb_eq in F, F'. f_equal. apply K; [auto|apply E; auto|congruence].
  - apply find_some in F as [Hp F]. apply E in Hp. pose proof (find_none _ _ F' _ Hp). cbn in *. congruence.
  - apply find_some in F' as [Hp F']. apply E in Hp. pose proof (find_none _ _ F _ Hp). cbn in *. congruence.
Qed.
Lemma put_keys m vs : NoDup (map k vs) -> NoDup (map k (put k m vs)).
Proof.
  induction vs as [|y r IH]; cbn; intros N; [repeat constructor; auto|]. inversion_clear N as [|? ? N1 N2]. destruct (Z.eqb_spec (k y) (k m)) as [E|E]; cbn.
  - rewrite <- E. now constructor.
  - constructor; auto. rewrite in_map_iff. intros (z & Hz & Hi). apply in_put in Hi as [->|Hi]; [congruence|]. apply N1, in_map_iff. eauto.
Qed.
Lemma puts_keys l : forall vs, NoDup (map k vs) -> NoDup (map k (puts k l vs)).
Proof. induction l as [|m l IH]; intros vs N; [exact N|]. apply IH, put_keys, N. Qed.
Lemma find_in x vs : NoDup (map k vs) -> In x vs <-> find_key (k x) vs = Some x.
Proof.
  intros N. split; [|intros F; now apply find_some in F]. induction vs as [|y r IH]; [intros []|]. cbn in N. inversion_clear N as [|? ? N1 N2].
  cbn. intros [->|H]; [now rewrite Z.eqb_refl|]. destruct (Z.eqb_spec (k y) (k x)) as [E|]; auto. exfalso. apply N1. rewrite E. now apply in_map.
Qed.
Lemma nodup_keys vs : NoDup (map k vs) -> keyed k vs.
Proof. intros N a b Ha Hb E. apply (find_in a vs N) in Ha. apply (find_in b vs N) in Hb. rewrite E in Ha. congruence. Qed.
Lemma puts_in l x : keyed k l -> In x (puts k l []) <-> In x l.
Proof.
  intros K. rewrite (find_in x) by (apply puts_keys; constructor). rewrite find_puts by exact K. cbn. split.
  - destruct (find_key (k x) l) as [p|] eqn:F; [|discriminate]. intros [= ->]. now apply find_some in F.
  - intros H. destruct (find_key (k x) l) as [p|] eqn:F; [|pose proof (find_none _ _ F _ H) as X; cbn in X; now rewrite Z.eqb_refl in X].
    apply find_some in F as [Hp F]. apply Z.eqb_eq in F. f_equal. now apply K.
Qed.

Lemma max_same n l l' : (forall y, In y l <-> In y l') -> fold_right Z.max n l = fold_right Z.max n l'.
Proof.
  assert (M : forall l, (n <= fold_right Z.max n l)%Z /\ (forall y, In y l -> (y <= fold_right Z.max n l)%Z) /\ (fold_right Z.max n l = n \/ In (fold_right Z.max n l) l)).
  { clear. induction l as [|a l (H1 & H2 & H3)]; cbn; [repeat split; auto; [lia|tauto]|]. split; [lia|]. split.
    - intros y [<-|H]; [lia|]. specialize (H2 y H). lia.
    - destruct (Z.max_spec a (fold_right Z.max n l)) as [[_ ->]|[_ ->]]; [destruct H3; auto|auto]. }
  intros E. destruct (M l) as (A1 & A2 & A3), (M l') as (B1 & B2 & B3). apply Z.le_antisymm.
  - destruct A3 as [->|A3]; auto. apply B2, E, A3.
  - destruct B3 as [->|B3]; auto. apply A2, E, B3.
Qed.
Lemma taken_same old old' rs x : (forall y, In y old <-> In y old') -> taken old rs x = taken old' rs x.
Proof.
  intros E. unfold taken. f_equal. apply eq_true_iff_eq. rewrite !existsb_exists. split; intros (y & H & E'); exists y; split; auto; apply E, H.
Qed.
Lemma next_same old old' rs n : (forall y, In y old <-> In y old') -> next old rs n = next old' rs n.
Proof.
  intros E. unfold next, beyond. rewrite (max_same n (old ++ map snd rs) (old' ++ map snd rs)).
  - generalize (Z.to_nat (fold_right Z.max n (old' ++ map snd rs) + 1 - n)). intros f. revert n. induction f as [|f IH]; intros n; [reflexivity|]. cbn.
    rewrite (taken_same old old' rs n E). destruct (taken old' rs n); auto.
  - intros y. rewrite !in_app_iff, E. tauto.
Qed.
Definition known (P : list entry) (m : entry) : bool := match find_key (k m) P with Some _ => true | None => false end.
Definition known_id (P : list entry) (m : entry) : entry := match find_key (k m) P with Some s => with_id m (m_id s) | None => m end.
Lemma assign_split P old rs l : forall n,
  Permutation (assign_loop k (keyd k P) old rs n l) (map (known_id P) (filter (known P) l) ++ assign_loop k (keyd k P) old rs n (filter (fun m => negb (known P m)) l)).
Proof.
  induction l as [|m l IH]; intros n; [constructor|]. cbn [assign_loop filter]. rewrite keyd_get. assert (KM : known P m = match find_key (k m) P with Some _ => true | None => false end) by reflexivity. rewrite KM. clear KM. destruct (find_key (k m) P) as [s|] eqn:F; cbn [negb].
  - cbn [map app]. unfold known_id at 1. rewrite F. apply perm_skip, IH.
  - cbn [assign_loop]. rewrite keyd_get, F, IH. apply Permutation_middle.
Qed.
Lemma assign_same_old P P' old old' rs l : (forall x, find_key x P = find_key x P') -> (forall y, In y old <-> In y old') ->
  forall n, assign_loop k (keyd k P) old rs n l = assign_loop k (keyd k P') old' rs n l.
Proof.
  intros F E. induction l as [|m l IH]; intros n; [reflexivity|]. cbn [assign_loop]. rewrite !keyd_get, F, (next_same old old' rs n E). destruct (find_key (k m) P'); f_equal; apply IH.
Qed.
Lemma run_order forget rs files items items' :
  (forall x, In x items <-> In x items') -> keyed k items -> new_texts_differ k (stable_list files) items ->
  Permutation (fst (run k forget rs files items)) (fst (run k forget rs files items')) /\
  forall x, In x (snd (run k forget rs files items)) <-> In x (snd (run k forget rs files items')).
Proof.
  intros E K T. assert (K' : keyed k items') by (intros a b Ha Hb; apply K; apply E; assumption).
  unfold run, assign_ids, read_stable, unique. rewrite !of_items_puts, !keyd_values, !pinned_puts. unfold old_ids. rewrite !keyd_values.
  fold (chosen [] files). set (S := puts k (chosen [] files) []). set (U := puts k items []). set (U' := puts k items' []).
  assert (NS : NoDup (map k S)) by (apply puts_keys; constructor).
  assert (NU : NoDup (map k U)) by (apply puts_keys; constructor). assert (NU' : NoDup (map k U')) by (apply puts_keys; constructor).
  assert (IU : forall x, In x U <-> In x items) by (intros x; apply puts_in, K). assert (IU' : forall x, In x U' <-> In x items') by (intros x; apply puts_in, K').
  assert (EU : forall x, In x U <-> In x U') by (intros x; rewrite IU, IU'; apply E).
  set (L := filter has_id U). set (L' := filter has_id U').
  assert (EL : forall x, In x L <-> In x L') by (intros x; unfold L, L'; rewrite !filter_In, EU; tauto).
  assert (KL : keyed k L) by (intros a b Ha Hb; apply filter_In in Ha as [Ha _], Hb as [Hb _]; apply (nodup_keys U NU); assumption).
  assert (KL' : keyed k L') by (intros a b Ha Hb; apply filter_In in Ha as [Ha _], Hb as [Hb _]; apply (nodup_keys U' NU'); assumption).
  set (P := puts k L S). set (P' := puts k L' S).
  assert (FP : forall x, find_key x P = find_key x P').
  { intros x. unfold P, P'. rewrite !find_puts by assumption. now rewrite (find_same x L L' KL EL). }
  assert (NP : NoDup (map k P)) by (apply puts_keys, NS). assert (NP' : NoDup (map k P')) by (apply puts_keys, NS).
  assert (EP : forall x, In x P <-> In x P') by (intros x; rewrite (find_in x P NP), (find_in x P' NP'), FP; tauto).
  assert (EO : forall y, In y (map m_id P) <-> In y (map m_id P')) by (intros y; rewrite !in_map_iff; split; intros (z & H1 & H2); exists z; split; auto; apply EP, H2).
  assert (PU : Permutation (sorted U) (sorted U')).
  { rewrite !sorted_perm. apply NoDup_Permutation; auto; eapply NoDup_map_inv; eassumption. }
  assert (FK : forall m, known P m = known P' m) by (intros m; unfold known; now rewrite FP).
  assert (Q : Permutation (assign_loop k (keyd k P) (map m_id P) rs 0 (sorted U)) (assign_loop k (keyd k P') (map m_id P') rs 0 (sorted U'))).
  { transitivity (map (known_id P) (filter (known P) (sorted U)) ++ assign_loop k (keyd k P) (map m_id P) rs 0 (filter (fun m => negb (known P m)) (sorted U)))%list; [apply assign_split|].
    symmetry. transitivity (map (known_id P') (filter (known P') (sorted U')) ++ assign_loop k (keyd k P') (map m_id P') rs 0 (filter (fun m => negb (known P' m)) (sorted U')))%list; [apply assign_split|]. symmetry. apply Permutation_app.
    - rewrite (map_ext (known_id P) (known_id P')) by (intros m; unfold known_id; now rewrite FP). rewrite (filter_ext (known P) (known P') FK).
      apply Permutation_map. clear -PU. induction PU as [|x l l' H IH|x y l|l1 l2 l3 H1 IH1 H2 IH2]; cbn; auto.
      + destruct (known P' x); auto.
      + destruct (known P' x), (known P' y); auto. apply perm_swap.
      + now transitivity (filter (known P') l2).
    - rewrite (assign_same_old P P' (map m_id P) (map m_id P') rs _ FP EO). rewrite (filter_ext (fun m => negb (known P m)) (fun m => negb (known P' m))) by (intros m; now rewrite FK).
      assert (X : filter (fun m => negb (known P' m)) (sorted U) = filter (fun m => negb (known P' m)) (sorted U')); [|rewrite X; reflexivity].
      assert (NN : forall V, NoDup (map k V) -> NoDup (sorted V)).
      { intros V N. apply (Permutation_NoDup (l := V)); [symmetry; apply sorted_perm|eapply NoDup_map_inv; eassumption]. }
      apply before_unique; try (apply filter_before, sorted_before); try (apply NoDup_filter, NN; assumption).
      + intros x. rewrite !filter_In, !in_sorted, EU. tauto.
      + intros a b Ha Hb Ht. apply filter_In in Ha as [Ha Na], Hb as [Hb Nb]. apply (proj1 (in_sorted _ _)) in Ha. apply (proj1 (in_sorted _ _)) in Hb.
        assert (NEW : forall m, In m U -> negb (known P' m) = true -> is_new k (stable_list files) m).
        { intros m Hm Hn. unfold known in Hn. rewrite <- FP in Hn. unfold P in Hn. rewrite find_puts in Hn by exact KL. destruct (find_key (k m) L) as [|] eqn:F1; [discriminate|]. destruct (find_key (k m) S) as [|] eqn:F2; [discriminate|].
          split.
          - destruct (Z.eqb_spec (m_id m) (-1)) as [|H]; [assumption|]. exfalso. assert (HL : In m L) by (apply filter_In; split; [exact Hm|]; unfold has_id; apply Z.eqb_neq in H; now rewrite H).
            pose proof (find_none _ _ F1 _ HL) as X. cbn in X. now rewrite Z.eqb_refl in X.
          - intros s Hs He. apply find_puts_none in F2 as [F2 _]. rewrite chosen_last in F2. change (last _ []) with (stable_list files) in F2.
            pose proof (find_none _ _ F2 _ Hs) as X. cbn in X. rewrite He, Z.eqb_refl in X. discriminate. }
        apply T; [apply IU; assumption|apply IU; assumption|apply NEW; assumption|apply NEW; assumption|exact Ht]. }
  cbn [fst snd]. split; [exact Q|]. intros x. rewrite !write_json_in. assert (In x (assign_loop k (keyd k P) (map m_id P) rs 0 (sorted U)) <-> In x (assign_loop k (keyd k P') (map m_id P') rs 0 (sorted U'))) as ->.
  { split; apply Permutation_in; [exact Q|symmetry; exact Q]. }
  destruct forget; [tauto|]. now rewrite EP.
Qed.
End Order.

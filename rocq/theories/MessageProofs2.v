(** Proofs about canonical field lists, extension, packing and relaxed
    messages. *)
From Coq Require Import List NArith Bool ZArith Lia ZifyBool ZifyN ZifyNat Permutation Sorted.
From Verif Require Import FieldModel FieldSpec FieldProofs FieldProofs2 FieldProofs3 MessageModel MessageSpec MessageProofs.
Import ListNotations.
Local Open Scope N_scope.

(** ** Stable sorting by a key *)
Section SortKey.
Context {A : Type} (key : A -> N).
Definition by_key (a b : A) : bool := key a <? key b.

Lemma insert_perm lt (x : A) l : Permutation (sort_insert lt x l) (x :: l).
Proof.
  induction l as [|y l IH]; cbn; auto. destruct (lt y x); auto.
  rewrite IH. apply perm_swap.
Qed.
Lemma sort_perm lt (l : list A) : Permutation (mp_sort lt l) l.
Proof. induction l as [|x l IH]; cbn; auto. rewrite insert_perm. auto. Qed.

Definition sorted (l : list A) : Prop := StronglySorted (fun a b => key a <= key b) l.
Lemma insert_sorted x l : sorted l -> sorted (sort_insert by_key x l).
Proof.
  unfold sorted. induction 1 as [|y l Hs IH Hf]; cbn.
  - repeat constructor.
  - unfold by_key. destruct (N.ltb_spec (key y) (key x)).
    + constructor; auto. rewrite Forall_forall in *. intros z Hz.
      apply (Permutation_in _ (insert_perm by_key x l)) in Hz. destruct Hz as [<-|Hz]; auto. lia.
    + constructor; [constructor; auto|]. constructor; auto.
      eapply Forall_impl; [|exact Hf]. cbn. intros. lia.
Qed.
Lemma sort_sorted l : sorted (mp_sort by_key l).
Proof. induction l; cbn; [constructor|]. apply insert_sorted; auto. Qed.

(** Stability: the elements of one key keep their order. *)
Definition with_key (k : N) (a : A) : bool := key a =? k.
Lemma insert_stable k x l : filter (with_key k) (sort_insert by_key x l) = filter (with_key k) (x :: l).
Proof.
  induction l as [|y l IH]; auto. cbn [sort_insert]. unfold by_key at 1.
  destruct (N.ltb_spec (key y) (key x)); auto. cbn [filter]. rewrite IH. cbn [filter]. unfold with_key.
  destruct (N.eqb_spec (key y) k), (N.eqb_spec (key x) k); auto. lia.
Qed.
Lemma sort_stable k l : filter (with_key k) (mp_sort by_key l) = filter (with_key k) l.
Proof.
  induction l as [|x l IH]; auto. cbn [mp_sort]. rewrite insert_stable. cbn [filter]. rewrite IH. auto.
Qed.

Lemma sorted_unique l : forall l', sorted l -> sorted l' -> Permutation l l' -> NoDup (map key l) -> l = l'.
Proof.
  induction l as [|x l IH]; intros l' Hs Hs' Hp Hn.
  - apply Permutation_nil in Hp. auto.
  - destruct l' as [|y l']; [symmetry in Hp; apply Permutation_nil in Hp; discriminate|].
    inversion Hs; inversion Hs'; subst. rewrite Forall_forall in *. cbn in Hn. inversion Hn; subst.
    assert (x = y).
    { assert (Hy : In y (x :: l)) by (apply (Permutation_in _ (Permutation_sym Hp)); left; auto).
      assert (Hx : In x (y :: l')) by (apply (Permutation_in _ Hp); left; auto).
      destruct Hy as [|Hy]; auto. destruct Hx as [|Hx]; auto.
      specialize (H2 y Hy). specialize (H6 x Hx). exfalso. apply H3.
      replace (key x) with (key y) by lia. apply in_map. auto. }
    subst y. f_equal. apply IH; auto. eapply Permutation_cons_inv; eauto.
Qed.
Lemma sort_perm_eq l l' : Permutation l l' -> NoDup (map key l) -> mp_sort by_key l = mp_sort by_key l'.
Proof.
  intros Hp Hn. apply sorted_unique; try apply sort_sorted.
  - rewrite !sort_perm. auto.
  - eapply Permutation_NoDup; [|exact Hn]. apply Permutation_map. symmetry. apply sort_perm.
Qed.
Lemma insert_ext lt lt' (x : A) l : (forall y, In y l -> lt y x = lt' y x) -> sort_insert lt x l = sort_insert lt' x l.
Proof.
  induction l as [|y l IH]; intros H; auto. cbn. rewrite (H y) by (left; auto).
  destruct (lt' y x); auto. rewrite IH; auto. intros. apply H. right; auto.
Qed.
Lemma sort_ext lt lt' (l : list A) : (forall a b, In a l -> In b l -> lt a b = lt' a b) -> mp_sort lt l = mp_sort lt' l.
Proof.
  induction l as [|x l IH]; intros H; auto. cbn. rewrite IH by (intros; apply H; right; auto).
  apply insert_ext. intros y Hy. apply H; [right|left; auto].
  eapply Permutation_in; [apply sort_perm|eauto].
Qed.
End SortKey.

Lemma key_lt_by_key l : forallb locatable l = true ->
  forall a b, In a l -> In b l -> key_lt a b = by_key key_of a b.
Proof.
  intros H a b Ha Hb. rewrite forallb_forall in H. pose proof (H a Ha) as H1. pose proof (H b Hb) as H2.
  unfold key_lt, by_key, key_of, sort_key, locatable in *. destruct (f_ats a); [discriminate|].
  destruct (f_ats b); [discriminate|]. auto.
Qed.
Lemma sort_key_lt l : forallb locatable l = true -> mp_sort key_lt l = mp_sort (by_key key_of) l.
Proof. intros H. apply sort_ext. apply key_lt_by_key; auto. Qed.

(** ** Unique names *)
Lemma existsb_nat n l : existsb (Nat.eqb n) l = true <-> In n l.
Proof.
  rewrite existsb_exists. split.
  - intros (x & Hx & E). apply Nat.eqb_eq in E. subst. auto.
  - intros H. exists n. split; auto. apply Nat.eqb_refl.
Qed.
Lemma existsb_nat_false n l : existsb (Nat.eqb n) l = false <-> ~ In n l.
Proof. rewrite <- existsb_nat. destruct (existsb (Nat.eqb n) l); split; congruence. Qed.

Lemma unique_find l : forall seen n, ~ In n seen -> find_field n (unique_names seen l) = find_field n l.
Proof.
  induction l as [|f l IH]; intros seen n Hn; cbn [unique_names]; auto.
  destruct (existsb (Nat.eqb (f_name f)) seen) eqn:E.
  - rewrite IH by auto. unfold find_field. cbn [find]. unfold has_name at 2.
    destruct (Nat.eqb_spec (f_name f) n); auto. subst. apply existsb_nat in E. tauto.
  - unfold find_field. cbn [find]. unfold has_name at 1 3. destruct (Nat.eqb_spec (f_name f) n) as [|Hne]; auto.
    apply IH. intros [|]; auto.
Qed.
Lemma unique_not_seen l : forall seen f, In f (unique_names seen l) -> ~ In (f_name f) seen.
Proof.
  induction l as [|g l IH]; intros seen f H; cbn [unique_names] in H; [destruct H|].
  destruct (existsb (Nat.eqb (f_name g)) seen) eqn:E; eauto.
  destruct H as [->|H].
  - apply existsb_nat_false; auto.
  - apply IH in H. intros Hs. apply H. right; auto.
Qed.
Lemma unique_nodup l : forall seen, NoDup (map f_name (unique_names seen l)).
Proof.
  induction l as [|g l IH]; intros seen; cbn [unique_names]; [constructor|].
  destruct (existsb (Nat.eqb (f_name g)) seen); auto. cbn [map]. constructor; auto.
  intros H. apply in_map_iff in H as (f & E & Hf). apply unique_not_seen in Hf. apply Hf. left; auto.
Qed.
Lemma unique_incl l : forall seen, incl (unique_names seen l) l.
Proof.
  induction l as [|g l IH]; intros seen f H; cbn [unique_names] in H; [destruct H|].
  destruct (existsb (Nat.eqb (f_name g)) seen).
  - right. eapply IH; eauto.
  - destruct H as [->|H]; [left; auto|right; eapply IH; eauto].
Qed.
Lemma unique_id l : forall seen, NoDup (map f_name l) -> (forall f, In f l -> ~ In (f_name f) seen) -> unique_names seen l = l.
Proof.
  induction l as [|g l IH]; intros seen Hn Hs; auto. cbn [unique_names]. inversion Hn; subst.
  rewrite (proj2 (existsb_nat_false _ _)) by (apply Hs; left; auto). f_equal. apply IH; auto.
  intros f Hf [E|Hin]; [|apply (Hs f); auto; right; auto]. apply H1. rewrite E. apply in_map; auto.
Qed.
Lemma names_distinct_spec l : names_distinct l = true <-> NoDup (map f_name l).
Proof.
  unfold names_distinct.
  assert (H : forall l seen,
    (fix go seen l := match l with
     | [] => true
     | f :: r => negb (existsb (Nat.eqb (f_name f)) seen) && go (f_name f :: seen) r
     end) seen l = true <-> NoDup (map f_name l) /\ forall f, In f l -> ~ In (f_name f) seen).
  { clear l. induction l as [|g l IH]; intros seen.
    - split; auto. intros _. split; [constructor|intros f []].
    - rewrite andb_true_iff, negb_true_iff, existsb_nat_false, IH. cbn [map]. split.
      + intros (H1 & H2 & H3). split.
        * constructor; auto. intros H. apply in_map_iff in H as (f & E & Hf). apply (H3 f Hf). left; auto.
        * intros f [<-|Hf]; auto. intros Hs. apply (H3 f Hf). right; auto.
      + intros (H1 & H2). inversion H1; subst. split; [apply H2; left; auto|]. split; auto.
        intros f Hf [E|Hs]; [|apply (H2 f); auto; right; auto]. apply H3. rewrite E. apply in_map; auto. }
  rewrite H. split; [tauto|]. intros Hn. split; auto.
Qed.

Lemma in_find l f : NoDup (map f_name l) -> (In f l <-> find_field (f_name f) l = Some f).
Proof.
  intros H. split; [apply find_field_in; auto|]. intros E. apply find_field_spec in E. tauto.
Qed.

(** ** C15 *)
Lemma message_spec l m : message l = Some m ->
  NoDup (map f_name l) /\ forallb locatable l = true /\ forallb field_valid l = true /\
  m = mp_sort (by_key key_of) l /\ Permutation m l.
Proof.
  unfold message. destruct (names_distinct l && forallb locatable l && forallb field_valid l) eqn:E; [|discriminate].
  rewrite !andb_true_iff in E. destruct E as [[E1 E2] E3]. intros H. injection H as <-.
  apply names_distinct_spec in E1. unfold unique_by_name. rewrite sort_key_lt by auto.
  assert (Hp : Permutation (mp_sort (by_key key_of) l) l) by apply sort_perm.
  rewrite unique_id; auto. eapply Permutation_NoDup; [|exact E1]. apply Permutation_map. symmetry. auto.
Qed.
Lemma forallb_perm {A} (p : A -> bool) l l' : Permutation l l' -> forallb p l = forallb p l'.
Proof.
  induction 1; cbn; auto; try congruence. rewrite !andb_assoc, (andb_comm (p y)). auto.
Qed.
Lemma message_accept l : message l = None <->
  ~ (NoDup (map f_name l) /\ forallb locatable l = true /\ forallb field_valid l = true).
Proof.
  unfold message. rewrite <- names_distinct_spec.
  destruct (names_distinct l), (forallb locatable l), (forallb field_valid l); cbn; split; intuition congruence.
Qed.
Lemma message_perm l l' : Permutation l l' ->
  match message l, message l' with
  | Some m, Some m' => Permutation m m' /\ (NoDup (map key_of l) -> m = m')
  | None, None => True
  | _, _ => False
  end.
Proof.
  intros Hp. destruct (message l) as [m|] eqn:E, (message l') as [m'|] eqn:E'; auto.
  - apply message_spec in E as (_ & _ & _ & -> & P1). apply message_spec in E' as (_ & _ & _ & -> & P2).
    split.
    + rewrite P1, P2. auto.
    + intros Hn. apply sort_perm_eq; auto.
  - apply message_spec in E as (H1 & H2 & H3 & _). apply message_accept in E'. apply E'.
    rewrite <- (forallb_perm _ _ _ Hp), <- (forallb_perm _ _ _ Hp). split; auto.
    eapply Permutation_NoDup; [|exact H1]. apply Permutation_map. auto.
  - apply message_spec in E' as (H1 & H2 & H3 & _). apply message_accept in E. apply E.
    rewrite (forallb_perm _ _ _ Hp), (forallb_perm _ _ _ Hp). split; auto.
    eapply Permutation_NoDup; [|exact H1]. apply Permutation_map. symmetry. auto.
Qed.
Lemma find_perm l l' n : Permutation l l' -> NoDup (map f_name l) -> find_field n l = find_field n l'.
Proof.
  intros Hp Hn. assert (Hn' : NoDup (map f_name l')) by (eapply Permutation_NoDup; [|exact Hn]; apply Permutation_map; auto).
  destruct (find_field n l) as [f|] eqn:E.
  - apply find_field_spec in E as [E1 <-]. symmetry. apply find_field_in; auto. eapply Permutation_in; eauto.
  - symmetry. apply find_field_none. rewrite find_field_none in E. intros H. apply E.
    eapply Permutation_in; [|exact H]. apply Permutation_map. symmetry. auto.
Qed.
Lemma fold_max_perm l l' : Permutation l l' -> fold_left N.max l 0 = fold_left N.max l' 0.
Proof.
  intros Hp. apply N.le_antisymm.
  - revert l' Hp. assert (G : forall l a b, a <= b -> (forall x, In x l -> x <= b) -> fold_left N.max l a <= b).
    { induction l0; intros a0 b Ha H; cbn; auto. apply IHl0; [|intros; apply H; right; auto].
      assert (a <= b) by (apply H; left; auto). lia. }
    intros l' Hp. apply G; [apply N.le_0_l|]. intros x Hx. apply fold_max_ge. eapply Permutation_in; eauto.
  - assert (G : forall l a b, a <= b -> (forall x, In x l -> x <= b) -> fold_left N.max l a <= b).
    { induction l0; intros a0 b Ha H; cbn; auto. apply IHl0; [|intros; apply H; right; auto].
      assert (a <= b) by (apply H; left; auto). lia. }
    apply G; [apply N.le_0_l|]. intros x Hx. apply fold_max_ge. eapply Permutation_in; [symmetry|]; eauto.
Qed.
Lemma storage_size_perm es l l' : Permutation l l' -> storage_size es l = storage_size es l'.
Proof. intros H. unfold storage_size. apply fold_max_perm. apply Permutation_map. auto. Qed.

(** ** C16 *)
(** The first field with a name in the sorted list: the smallest key, the
    earliest of those. *)
Lemma find_sorted l n f : forallb locatable l = true ->
  find_field n (mp_sort key_lt l) = Some f ->
  find (fun g => has_name n g && (key_of g =? key_of f)) l = Some f /\
  forall g, In g l -> f_name g = n -> key_of f <= key_of g.
Proof.
  intros Hl. rewrite sort_key_lt by auto. intros H.
  assert (Hmin : forall g, In g l -> f_name g = n -> key_of f <= key_of g).
  { intros g Hg E. assert (Hg' : In g (mp_sort (by_key key_of) l)) by (eapply Permutation_in; [symmetry; apply sort_perm|auto]).
    pose proof (sort_sorted key_of l) as Hs. unfold sorted in Hs. revert H Hg' E. clear -Hs.
    induction Hs as [|x r Hs IH Hf]; [intros _ []|]. unfold find_field. cbn [find]. unfold has_name at 1.
    destruct (Nat.eqb_spec (f_name x) n) as [Ex|Ex].
    - intros H. injection H as <-. intros [->|Hg] _; [lia|]. rewrite Forall_forall in Hf. auto.
    - intros H [->|Hg] E; [tauto|]. apply IH; auto. }
  split; auto.
  assert (Hk : forall l0 p q, find (fun g : mfield => p g && q g) l0 = find p (filter q l0)).
  { clear. induction l0 as [|x l0 IH]; intros p q; auto. cbn. destruct (q x); cbn.
    - destruct (p x); cbn; auto.
    - rewrite andb_false_r. auto. }
  change (find (fun g => has_name n g && with_key key_of (key_of f) g) l = Some f).
  rewrite Hk.
  rewrite <- (sort_stable key_of (key_of f) l). rewrite <- Hk.
  revert H. unfold find_field.
  assert (Hmin' : forall g, In g (mp_sort (by_key key_of) l) -> f_name g = n -> key_of f <= key_of g).
  { intros g Hg. apply Hmin. eapply Permutation_in; [apply sort_perm|eauto]. }
  clear Hmin. revert Hmin'. pose proof (sort_sorted key_of l) as Hs. unfold sorted in Hs. revert Hs.
  generalize (mp_sort (by_key key_of) l). intros r Hs Hmin.
  induction Hs as [|x r Hs IH Hf]; cbn [find]; [discriminate|].
  unfold has_name at 1 3. destruct (Nat.eqb_spec (f_name x) n) as [Ex|Ex]; cbn [andb].
  - intros H. injection H as ->. unfold with_key. rewrite N.eqb_refl. auto.
  - intros H. apply IH; auto. intros. apply Hmin; auto. right; auto.
Qed.

Lemma extension_spec news base m : extension news base = Some m -> forallb locatable base = true ->
  NoDup (map f_name news) -> NoDup (map f_name base) ->
  NoDup (map f_name m) /\
  (forall n, In n (map f_name m) <-> In n (map f_name news) \/ In n (map f_name base)) /\
  (forall f, In f m <->
     (In f news /\ forall g, In g base -> f_name g = f_name f -> key_of f <= key_of g) \/
     (In f base /\ forall g, In g news -> f_name g = f_name f -> key_of f < key_of g)).
Proof.
  unfold extension. destruct (forallb locatable news && forallb field_valid news) eqn:E; [|discriminate].
  rewrite andb_true_iff in E. destruct E as [E1 E2]. intros H Hb Hn1 Hn2. injection H as <-.
  assert (Hl : forallb locatable (news ++ base) = true) by (rewrite forallb_app, E1, Hb; auto).
  unfold unique_by_name. set (s := mp_sort key_lt (news ++ base)).
  assert (Hnd : NoDup (map f_name (unique_names [] s))) by apply unique_nodup.
  assert (Hfind : forall n, find_field n (unique_names [] s) = find_field n s) by (intros; apply unique_find; auto).
  assert (Hperm : Permutation s (news ++ base)) by apply sort_perm.
  split; auto. split.
  - intros n. assert (Hiff : forall l, In n (map f_name l) <-> find_field n l <> None).
    { intros l. rewrite find_field_none. destruct (in_dec Nat.eq_dec n (map f_name l)); tauto. }
    rewrite Hiff, Hfind, <- Hiff. rewrite <- in_app_iff, <- map_app.
    split; apply Permutation_in; apply Permutation_map; auto. symmetry; auto.
  - assert (Hchar : forall f, find_field (f_name f) s = Some f ->
      (In f news /\ forall g, In g base -> f_name g = f_name f -> key_of f <= key_of g) \/
      (In f base /\ forall g, In g news -> f_name g = f_name f -> key_of f < key_of g)).
    { intros f H. pose proof (find_sorted _ _ _ Hl H) as [H1 H2].
      assert (Hfn : find (fun g => has_name (f_name f) g && (key_of g =? key_of f)) (news ++ base) =
        match find (fun g => has_name (f_name f) g && (key_of g =? key_of f)) news with
        | Some x => Some x | None => find (fun g => has_name (f_name f) g && (key_of g =? key_of f)) base end).
      { clear. induction news as [|x r IH]; cbn; auto. destruct (has_name (f_name f) x && (key_of x =? key_of f)); auto. }
      rewrite Hfn in H1. destruct (find _ news) as [x|] eqn:En.
      - injection H1 as ->. apply find_some in En as [En _]. left. split; auto. intros g Hg E.
        apply H2; auto. apply in_or_app; auto.
      - apply find_some in H1 as [H1 _]. right. split; auto. intros g Hg E.
        assert (Hle : key_of f <= key_of g) by (apply H2; auto; apply in_or_app; auto).
        apply find_none with (x := g) in En; auto. unfold has_name in En. rewrite E, Nat.eqb_refl in En.
        cbn [andb] in En. lia. }
    intros f. rewrite in_find by auto. rewrite Hfind. split; [apply Hchar|].
    intros H.
    assert (Hs : find_field (f_name f) s <> None).
    { rewrite find_field_none. intros Hx. apply Hx.
      eapply Permutation_in; [apply Permutation_map; symmetry; exact Hperm|]. apply in_map. apply in_or_app. tauto. }
    destruct (find_field (f_name f) s) as [g|] eqn:Eg; [|congruence].
    pose proof (find_field_spec _ _ _ Eg) as [_ Hgn]. rewrite <- Hgn in Eg. specialize (Hchar g Eg).
    assert (Huniq : forall l, NoDup (map f_name l) -> In f l -> In g l -> g = f).
    { intros l Hnl Hfl Hgl. apply in_find in Hfl; auto. apply in_find in Hgl; auto. rewrite Hgn, Hfl in Hgl. congruence. }
    f_equal. destruct H as [[Hf Hfk]|[Hf Hfk]], Hchar as [[Hg Hgk]|[Hg Hgk]]; eauto.
    + specialize (Hfk g Hg Hgn). specialize (Hgk f Hf (eq_sym Hgn)). lia.
    + specialize (Hfk g Hg Hgn). specialize (Hgk f Hf (eq_sym Hgn)). lia.
Qed.
Lemma extension_override news base m : extension news base = Some m -> forallb locatable base = true ->
  NoDup (map f_name news) -> NoDup (map f_name base) ->
  (forall f g, In f news -> In g base -> f_name g = f_name f -> key_of f <= key_of g) ->
  forall f, In f m <-> In f news \/ (In f base /\ ~ In (f_name f) (map f_name news)).
Proof.
  intros H Hb Hn1 Hn2 Hk f. destruct (extension_spec _ _ _ H Hb Hn1 Hn2) as (_ & _ & Hin).
  rewrite Hin. split.
  - intros [[Hf _]|[Hf Hlt]]; auto. right. split; auto. intros Hx. apply in_map_iff in Hx as (g & E & Hg).
    specialize (Hlt g Hg E). specialize (Hk g f Hg Hf (eq_sym E)). lia.
  - intros [Hf|[Hf Hno]].
    + left. split; auto.
    + right. split; auto. intros g Hg E. exfalso. apply Hno. rewrite <- E. apply in_map. auto.
Qed.

(** ** C17 *)
Lemma f_locs_shift n f : f_locs (shift_field n f) = map at_loc (map (at_shift n) (f_ats f)).
Proof. reflexivity. Qed.
Lemma at_shift_valid n a : at_valid (at_shift n a) = at_valid a.
Proof. unfold at_valid, at_size, at_shift. cbn. lia. Qed.
Lemma at_size_shift n a : at_size (at_shift n a) = at_size a.
Proof. unfold at_size, at_shift. cbn. lia. Qed.
Lemma valid_ats f : field_valid f = true -> forall a, In a (f_ats f) -> at_valid a = true.
Proof. unfold field_valid. rewrite !andb_true_iff, forallb_forall. tauto. Qed.
Lemma fcovers_ats f k : field_valid f = true -> (fcovers f k <-> exists a, In a (f_ats f) /\ a_lsb a <= k <= a_msb a).
Proof.
  intros H. unfold fcovers, covers, f_locs. split.
  - intros (l & Hl & Hk). apply in_map_iff in Hl as (a & <- & Ha). exists a. split; auto.
    apply at_loc_covers; auto. eapply valid_ats; eauto.
  - intros (a & Ha & Hk). exists (at_loc a). split; [apply in_map; auto|]. apply at_loc_covers; auto.
    eapply valid_ats; eauto.
Qed.
Lemma shift_field_valid n f : field_valid (shift_field n f) = field_valid f.
Proof.
  unfold field_valid. cbn [shift_field f_ats f_bytes]. f_equal. f_equal.
  - induction (f_ats f) as [|a r IH]; cbn; auto. rewrite at_shift_valid, IH. auto.
  - f_equal. induction (f_ats f) as [|a r IH]; cbn; auto. rewrite IH, at_size_shift. auto.
Qed.
Lemma shift_covers n f k : field_valid f = true -> (fcovers (shift_field n f) k <-> n <= k /\ fcovers f (k - n)).
Proof.
  intros H. rewrite fcovers_ats by (rewrite shift_field_valid; auto). rewrite fcovers_ats by auto. split.
  - intros (a & Ha & Hk). cbn in Ha. apply in_map_iff in Ha as (b & <- & Hb). cbn in Hk. split; [lia|].
    exists b. split; auto. lia.
  - intros (Hn & a & Ha & Hk). exists (at_shift n a). split; [cbn; apply in_map; auto|]. cbn. lia.
Qed.
Lemma storage_size_covers A m f k : elem_width A -> In f m -> fcovers f k -> k < A * storage_size A m.
Proof.
  intros HA Hf (l & Hl & Hk).
  assert (H1 : loc_start l + l_size l <= A * field_extent A (f_locs f)) by (apply field_extent_ok; auto).
  assert (H2 : field_extent A (f_locs f) <= storage_size A m).
  { unfold storage_size. apply fold_max_ge. apply in_map_iff. eauto. }
  unfold loc_covers in Hk. nia.
Qed.

Lemma shifted_length A ms : forall off, length (shifted_from A off ms) = length ms.
Proof. induction ms as [|m ms IH]; intros off; cbn; auto. Qed.
(** Offset, in units of [A], of each message. *)
Lemma shifted_nth A ms : elem_width A -> (forall m, In m ms -> forallb field_valid m = true) -> forall off i m,
  nth_error ms i = Some m ->
  exists o, off <= o /\ nth_error (shifted_from A off ms) i = Some (shift_msg (o * A) m) /\
    (forall f k, In f (shift_msg (o * A) m) -> fcovers f k -> o * A <= k < (o + storage_size A m) * A) /\
    (forall j mj, nth_error (shifted_from A off ms) j = Some mj -> (i < j)%nat ->
       forall g k, In g mj -> fcovers g k -> (o + storage_size A m) * A <= k).
Proof.
  intros HA. induction ms as [|m0 ms IH]; intros Hv off i m Hi; [destruct i; discriminate|].
  assert (Hcov : forall m o f k, forallb field_valid m = true -> In f (shift_msg (o * A) m) -> fcovers f k ->
     o * A <= k < (o + storage_size A m) * A).
  { intros m1 o f k Hm1 Hf Hk. unfold shift_msg in Hf. apply in_map_iff in Hf as (f0 & <- & Hf0).
    rewrite forallb_forall in Hm1. apply shift_covers in Hk as [Hk1 Hk2]; auto.
    pose proof (storage_size_covers A m1 f0 _ HA Hf0 Hk2). nia. }
  destruct i as [|i]; cbn in Hi.
  - injection Hi as ->. exists off. split; [lia|]. split; [reflexivity|]. split.
    + intros f k. apply Hcov. apply Hv. left; auto.
    + intros j mj Hj Hlt g k Hg Hk. destruct j as [|j]; [lia|]. cbn [shifted_from nth_error] in Hj.
      assert (Hjm : exists m', nth_error ms j = Some m').
      { destruct (nth_error ms j) eqn:E; eauto. apply nth_error_None in E.
        assert (j < length (shifted_from A (off + storage_size A m) ms))%nat by (apply nth_error_Some; congruence).
        rewrite shifted_length in *. lia. }
      destruct Hjm as (m' & Hm').
      destruct (IH (fun x Hx => Hv x (or_intror Hx)) (off + storage_size A m) j m' Hm') as (o & Ho & Hn & Hc & _).
      rewrite Hn in Hj. injection Hj as <-. specialize (Hc g k Hg Hk). nia.
  - destruct (IH (fun x Hx => Hv x (or_intror Hx)) (off + storage_size A m0) i m Hi) as (o & Ho & Hn & Hc & Hlater).
    exists o. split; [lia|]. split; [exact Hn|]. split; auto.
    intros j mj Hj Hlt. destruct j as [|j]; [lia|]. apply (Hlater j); auto. lia.
Qed.
Lemma nth_shifted A ms : forall off j mj, nth_error (shifted_from A off ms) j = Some mj -> exists m, nth_error ms j = Some m.
Proof.
  intros off j mj H. destruct (nth_error ms j) eqn:E; eauto. apply nth_error_None in E.
  assert (j < length (shifted_from A off ms))%nat by (apply nth_error_Some; congruence).
  rewrite shifted_length in *. lia.
Qed.

(** ** Reading a shifted field *)
Lemma shift_value es st n f : field_valid f = true ->
  concat_value (image es st) (f_locs (shift_field n f)) = concat_value (N.shiftr (image es st) n) (f_locs f).
Proof.
  intros H. rewrite f_locs_shift. unfold f_locs.
  assert (Hv := valid_ats f H). generalize (f_ats f) Hv. clear. intros l Hv.
  unfold concat_value. rewrite !map_map.
  assert (G : forall acc, fold_left (fun acc l => acc * 2 ^ l_size l + slice (image es st) (loc_start l) (l_size l)) (map (fun x => at_loc (at_shift n x)) l) acc
     = fold_left (fun acc l => acc * 2 ^ l_size l + slice (N.shiftr (image es st) n) (loc_start l) (l_size l)) (map at_loc l) acc).
  { induction l as [|a l IH]; intros acc; cbn [map fold_left]; auto.
    rewrite IH by (intros; apply Hv; right; auto). f_equal.
    assert (E1 : l_size (at_loc (at_shift n a)) = l_size (at_loc a)) by (cbn; apply at_size_shift).
    rewrite E1. f_equal. unfold slice. rewrite N.shiftr_shiftr. f_equal. f_equal.
    unfold loc_start, at_loc, at_shift. cbn.
    pose proof (N.div_mod (a_lsb a + n) 32 ltac:(lia)). pose proof (N.div_mod (a_lsb a) 32 ltac:(lia)). lia. }
  apply G.
Qed.

(** Proofs about pack, relaxed_message and rename_field. *)
From Coq Require Import List NArith Bool ZArith Lia ZifyBool ZifyN ZifyNat Permutation.
From Verif Require Import FieldModel FieldSpec FieldProofs FieldProofs2 FieldProofs3 MessageModel MessageSpec MessageProofs MessageProofs2.
Import ListNotations.
Local Open Scope N_scope.

(** Offset of message [i], in units of [A] bits: the sizes of its
    predecessors, each rounded up to whole units. *)
Definition pack_offset (A : N) (ms : list (list mfield)) (i : nat) : N :=
  fold_right (fun m n => storage_size A m + n) 0 (firstn i ms).

Lemma shifted_nth_eq A ms : forall off i,
  nth_error (shifted_from A off ms) i = option_map (shift_msg ((off + pack_offset A ms i) * A)) (nth_error ms i).
Proof.
  induction ms as [|m ms IH]; intros off i.
  - destruct i; reflexivity.
  - destruct i as [|i]; cbn [shifted_from nth_error option_map].
    + unfold pack_offset. cbn. rewrite N.add_0_r. auto.
    + rewrite IH. unfold pack_offset. cbn [firstn fold_right]. rewrite N.add_assoc. auto.
Qed.

Lemma in_shifted A ms f : In f (concat (shifted_msgs A ms)) <->
  exists i mi g, nth_error ms i = Some mi /\ In g mi /\ f = shift_field (pack_offset A ms i * A) g.
Proof.
  rewrite in_concat. split.
  - intros (m & Hm & Hf). apply In_nth_error in Hm as (i & Hi). unfold shifted_msgs in Hi. rewrite shifted_nth_eq in Hi.
    destruct (nth_error ms i) as [mi|] eqn:E; [|discriminate]. injection Hi as <-.
    apply in_map_iff in Hf as (g & <- & Hg). exists i, mi, g. auto.
  - intros (i & mi & g & Hi & Hg & ->). exists (shift_msg (pack_offset A ms i * A) mi). split.
    + apply (nth_error_In _ i). unfold shifted_msgs. rewrite shifted_nth_eq, Hi. reflexivity.
    + apply in_map. auto.
Qed.

Lemma pack_spec A ms m : elem_width A -> pack A ms = Some m ->
  (forall f, In f m <-> exists i mi g, nth_error ms i = Some mi /\ In g mi /\ f = shift_field (pack_offset A ms i * A) g) /\
  (forall i j mi mj g h k k', (i < j)%nat -> nth_error ms i = Some mi -> nth_error ms j = Some mj ->
     In g mi -> In h mj ->
     fcovers (shift_field (pack_offset A ms i * A) g) k ->
     fcovers (shift_field (pack_offset A ms j * A) h) k' -> k < k') /\
  Permutation (map f_name m) (map f_name (concat ms)).
Proof.
  intros HA H. unfold pack, overlay in H. apply message_spec in H as (Hn & Hl & Hv & _ & Hp).
  assert (Hvm : forall m0, In m0 ms -> forallb field_valid m0 = true).
  { intros m0 Hm0. apply forallb_forall. intros f Hf. apply In_nth_error in Hm0 as (i & Hi).
    rewrite <- (shift_field_valid (pack_offset A ms i * A)). rewrite forallb_forall in Hv. apply Hv.
    apply in_shifted. eauto 6. }
  split; [|split].
  - intros f. rewrite <- in_shifted. split; apply Permutation_in; auto. symmetry; auto.
  - intros i j mi mj g h k k' Hij Hi Hj Hg Hh Hk Hk'.
    destruct (shifted_nth A ms HA Hvm 0 i mi Hi) as (o & _ & Hno & Hc & Hlater).
    rewrite shifted_nth_eq, Hi in Hno. cbn [option_map] in Hno. rewrite N.add_0_l in Hno. injection Hno as Hno.
    assert (Hj' : nth_error (shifted_from A 0 ms) j = Some (shift_msg (pack_offset A ms j * A) mj)).
    { rewrite shifted_nth_eq, Hj. reflexivity. }
    specialize (Hlater j _ Hj' Hij (shift_field (pack_offset A ms j * A) h) k' (in_map _ _ _ Hh) Hk').
    assert (Hg' : In (shift_field (pack_offset A ms i * A) g) (shift_msg (o * A) mi)).
    { rewrite <- Hno. apply in_map. auto. }
    specialize (Hc _ k Hg' Hk). lia.
  - rewrite Hp. clear. unfold shifted_msgs. generalize 0. induction ms as [|m0 ms IH]; intros off; cbn; auto.
    rewrite !map_app. apply Permutation_app; auto. unfold shift_msg. rewrite map_map. cbn. auto.
Qed.

Lemma shift0 f : shift_field 0 f = f.
Proof.
  destruct f as [a b c d ats]. unfold shift_field. cbn. f_equal.
  induction ats as [|[x y] r IH]; cbn; auto. rewrite IH. unfold at_shift. cbn. rewrite !N.add_0_r. auto.
Qed.

(** ** relaxed_message *)
Definition auto_at (o : N) (f : mfield) : mfield := shift_field (8 * o) (default_located f).

Lemma perm_partition {A} (p : A -> bool) l : Permutation (filter p l ++ filter (fun x => negb (p x)) l) l.
Proof.
  induction l as [|x l IH]; cbn; auto. destruct (p x); cbn.
  - apply perm_skip. auto.
  - rewrite <- Permutation_middle. apply perm_skip. auto.
Qed.

Lemma relaxed_spec l m : relaxed_message l = Some m ->
  NoDup (map f_name l) /\ Permutation (map f_name m) (map f_name l) /\
  (forall f, In f l -> locatable f = true -> In f m) /\
  (forall f, In f l -> locatable f = false -> exists o, In (auto_at o f) m /\
     (forall g k k', In g l -> locatable g = true -> fcovers g k -> fcovers (auto_at o f) k' -> k < k')) /\
  (forall f g, In f m -> In g m -> f_name f <> f_name g ->
     (In f l -> In g l -> fields_disjoint f g) -> fields_disjoint f g).
Proof.
  unfold relaxed_message. set (located := filter locatable l).
  set (autos := mp_sort size_gt (filter (fun f => negb (locatable f)) l)).
  destruct (message located) as [lm|] eqn:El; [|discriminate]. intros Hp.
  set (ms := lm :: map (fun f => [default_located f]) autos) in *.
  assert (H8 : elem_width 8) by (left; auto).
  destruct (pack_spec 8 ms m H8 Hp) as (Hin & Hord & Hnames).
  pose proof El as El'. apply message_spec in El' as (_ & _ & _ & _ & Hlm).
  assert (Hnl : Permutation (map f_name m) (map f_name l)).
  { rewrite Hnames. unfold ms. cbn [concat]. rewrite map_app, Hlm.
    transitivity (map f_name located ++ map f_name autos).
    - apply Permutation_app; auto. clear. induction autos as [|x r IH]; cbn; auto.
    - rewrite <- map_app. apply Permutation_map. transitivity (located ++ filter (fun f => negb (locatable f)) l).
      + apply Permutation_app_head. apply sort_perm.
      + apply perm_partition. }
  assert (Hoff0 : pack_offset 8 ms 0 = 0) by reflexivity.
  assert (Hauto : forall i mi, nth_error ms (S i) = Some mi -> exists f, nth_error autos i = Some f /\ mi = [default_located f]).
  { intros i mi H. unfold ms in H. cbn [nth_error] in H. rewrite nth_error_map in H.
    destruct (nth_error autos i) as [f|]; [|discriminate]. injection H as <-. eauto. }
  assert (Hlocated : forall f, In f l -> locatable f = true -> In f lm).
  { intros f Hf Hl. apply (Permutation_in _ (Permutation_sym Hlm)). apply filter_In. auto. }
  split.
  { unfold pack, overlay in Hp. apply message_spec in Hp as (Hnd & _ & _ & _ & Hperm).
    eapply Permutation_NoDup; [exact Hnl|]. eapply Permutation_NoDup; [|exact Hnd]. apply Permutation_map. symmetry. auto. }
  split; auto. split; [|split].
  - intros f Hf Hl. apply Hin. exists 0%nat, lm, f. split; auto. split; auto.
    rewrite Hoff0, N.mul_0_l, shift0. auto.
  - intros f Hf Hl. assert (Ha : In f autos).
    { apply (Permutation_in _ (Permutation_sym (sort_perm size_gt _))). apply filter_In. rewrite Hl. auto. }
    apply In_nth_error in Ha as (i & Hi). exists (pack_offset 8 ms (S i)).
    assert (Hni : nth_error ms (S i) = Some [default_located f]).
    { unfold ms. cbn [nth_error]. rewrite nth_error_map, Hi. auto. }
    split.
    + apply Hin. exists (S i), [default_located f], (default_located f). split; auto. split; [left; auto|].
      unfold auto_at. f_equal. lia.
    + intros g k k' Hg Hgl Hk Hk'.
      apply (Hord 0%nat (S i) lm [default_located f] g (default_located f) k k'); auto; try lia.
      * left; auto.
      * rewrite Hoff0, N.mul_0_l, shift0. auto.
      * unfold auto_at in Hk'. rewrite (N.mul_comm _ 8). auto.
  - intros f g Hf Hg Hne Hdis. apply Hin in Hf as (i & mi & f0 & Hi & Hf0 & ->). apply Hin in Hg as (j & mj & g0 & Hj & Hg0 & ->).
    destruct (Nat.lt_trichotomy i j) as [Hlt|[Heq|Hgt]].
    + intros k Hk Hk'. pose proof (Hord i j mi mj f0 g0 k k Hlt Hi Hj Hf0 Hg0 Hk Hk'). lia.
    + subst j. rewrite Hi in Hj. injection Hj as <-. destruct i as [|i].
      * cbn in Hi. injection Hi as <-. rewrite Hoff0, N.mul_0_l, !shift0 in *.
        apply Hdis.
        -- apply (Permutation_in _ Hlm) in Hf0. apply filter_In in Hf0. tauto.
        -- apply (Permutation_in _ Hlm) in Hg0. apply filter_In in Hg0. tauto.
      * destruct (Hauto i mi Hi) as (x & _ & ->). destruct Hf0 as [<-|[]], Hg0 as [<-|[]]. cbn in Hne. tauto.
    + intros k Hk Hk'. pose proof (Hord j i mj mi g0 f0 k k Hgt Hj Hi Hg0 Hf0 Hk' Hk). lia.
Qed.

(** Where the unlocated fields go. *)
Lemma size_sorted l : Sorted.StronglySorted (fun a b => f_bytes b <= f_bytes a) (mp_sort size_gt l).
Proof.
  induction l as [|x l IH]; cbn; [constructor|]. revert IH. generalize (mp_sort size_gt l). clear l.
  induction 1 as [|y l Hs IH Hf]; cbn; [repeat constructor|]. unfold size_gt at 1. destruct (N.ltb_spec (f_bytes x) (f_bytes y)).
  - constructor; auto. rewrite Forall_forall in *. intros z Hz.
    apply (Permutation_in _ (insert_perm size_gt x l)) in Hz. destruct Hz as [<-|Hz]; auto. lia.
  - constructor; [constructor; auto|]. constructor; auto. eapply Forall_impl; [|exact Hf]. cbn. intros. lia.
Qed.
Lemma size_stable b l : filter (fun f => f_bytes f =? b) (mp_sort size_gt l) = filter (fun f => f_bytes f =? b) l.
Proof.
  induction l as [|x l IH]; auto. cbn [mp_sort filter]. rewrite <- IH. generalize (mp_sort size_gt l). clear.
  induction l as [|y l IH]; auto. cbn [sort_insert]. unfold size_gt at 1. destruct (N.ltb_spec (f_bytes x) (f_bytes y)); auto.
  cbn [filter]. rewrite IH. destruct (N.eqb_spec (f_bytes y) b), (N.eqb_spec (f_bytes x) b); auto. lia.
Qed.
Lemma default_located_size f : 0 < f_bytes f -> storage_size 8 [default_located f] = f_bytes f.
Proof.
  intros H. unfold storage_size, field_extent, loc_extent. cbn [map fold_left f_locs default_located f_ats l_lsb l_size l_index at_loc a_lsb].
  unfold at_size. cbn [a_lsb a_msb]. change (0 mod 32) with 0. change (0 / 32) with 0. change (8 / 8) with 1.
  replace (0 + (8 * f_bytes f - 1 - 0 + 1) + 7) with (7 + f_bytes f * 8) by lia. rewrite N.div_add by lia. change (7 / 8) with 0.
  rewrite N.div_1_r. lia.
Qed.
Definition bytes_of (l : list mfield) : N := fold_right (fun f n => f_bytes f + n) 0 l.
Lemma relaxed_layout l m : relaxed_message l = Some m -> (forall f, In f l -> 0 < f_bytes f) ->
  exists autos, Permutation autos (filter (fun f => negb (locatable f)) l) /\
    Sorted.StronglySorted (fun a b => f_bytes b <= f_bytes a) autos /\
    (forall b, filter (fun f => f_bytes f =? b) autos = filter (fun f => f_bytes f =? b) (filter (fun f => negb (locatable f)) l)) /\
    forall pre f post, autos = pre ++ f :: post ->
      let o := 8 * (storage_size 8 (filter locatable l) + bytes_of pre) in
      In {| f_name := f_name f; f_bytes := f_bytes f; f_default := f_default f; f_match := f_match f;
            f_ats := [ {| a_lsb := o; a_msb := o + 8 * f_bytes f - 1 |} ] |} m.
Proof.
  intros H Pos. assert (Hpack := H). unfold relaxed_message in Hpack. destruct (message (filter locatable l)) as [lm|] eqn:El; [|discriminate].
  set (autos := mp_sort size_gt (filter (fun f => negb (locatable f)) l)) in *.
  assert (Hperm : Permutation autos (filter (fun f => negb (locatable f)) l)) by apply sort_perm.
  exists autos. split; [exact Hperm|]. split; [apply size_sorted|]. split; [intros b; apply size_stable|].
  intros pre f post E o. assert (H8 : elem_width 8) by (left; auto).
  destruct (pack_spec 8 _ m H8 Hpack) as (Hin & _ & _). apply Hin.
  exists (S (length pre)), [default_located f], (default_located f). split; [|split; [left; auto|]].
  - cbn [nth_error]. rewrite E, map_app, nth_error_app2 by (rewrite map_length; lia). rewrite map_length, Nat.sub_diag. reflexivity.
  - assert (Ho : pack_offset 8 (lm :: map (fun f => [default_located f]) autos) (S (length pre)) * 8 = o).
    { unfold pack_offset. cbn [firstn fold_right]. rewrite E, map_app, firstn_app, map_length, Nat.sub_diag. cbn [firstn]. rewrite app_nil_r.
      replace (firstn (length pre) (map (fun f => [default_located f]) pre)) with (map (fun f => [default_located f]) pre)
        by (symmetry; apply firstn_all2; rewrite map_length; lia).
      apply message_spec in El as (_ & _ & _ & _ & Hlm). unfold o. rewrite (storage_size_perm 8 _ _ Hlm).
      replace (fold_right (fun m n => storage_size 8 m + n) 0 (map (fun f => [default_located f]) pre)) with (bytes_of pre); [lia|].
      assert (Hp : forall g, In g pre -> 0 < f_bytes g).
      { intros g Hg. apply Pos. assert (X : In g autos) by (rewrite E; apply in_or_app; auto). apply (Permutation_in _ Hperm) in X. apply filter_In in X. tauto. }
      clear - Hp. induction pre as [|x pre IH]; auto. cbn [map fold_right bytes_of]. rewrite default_located_size by (apply Hp; left; auto).
      f_equal. apply IH. intros g Hg. apply Hp. right. auto. }
    rewrite Ho. unfold shift_field, default_located, at_shift. cbn [map f_name f_bytes f_default f_match f_ats a_msb a_lsb].
    assert (0 < f_bytes f).
    { apply Pos. assert (X : In f autos) by (rewrite E; apply in_or_app; right; left; auto). apply (Permutation_in _ Hperm) in X. apply filter_In in X. tauto. }
    clearbody o. replace (o + 8 * f_bytes f - 1) with (8 * f_bytes f - 1 + o) by lia. reflexivity.
Qed.

(** A relaxed message of good located fields is a good message. *)
Lemma auto_at_good o f : field_good (default_located f) -> field_good (auto_at o f).
Proof.
  unfold auto_at. intros (Hv & Hd & Hdef). split; [rewrite shift_field_valid; auto|]. split; auto.
  cbn. split; auto. intros k _ (x & [] & _).
Qed.

(** ** rename_field *)
Lemma rename_spec m old new m' : NoDup (map f_name m) -> rename_field m old new = Some m' ->
  exists f, find_field old m = Some f /\
    find_field new m' = Some {| f_name := new; f_bytes := f_bytes f; f_default := f_default f; f_match := f_match f; f_ats := f_ats f |} /\
    (old <> new -> find_field old m' = None) /\
    (forall n, n <> old -> n <> new -> find_field n m' = find_field n m) /\
    (forall es, storage_size es m' = storage_size es m).
Proof.
  intros Hn. unfold rename_field.
  destruct (filter (has_name old) m) as [|f fr] eqn:Ef; [discriminate|].
  destruct (existsb (has_name new) _) eqn:Ex; [discriminate|]. intros Hm.
  set (f' := {| f_name := new; f_bytes := f_bytes f; f_default := f_default f; f_match := f_match f; f_ats := f_ats f |}) in *.
  set (rest := filter (fun f => negb (has_name old f)) m) in *.
  apply message_spec in Hm as (Hnd & _ & _ & _ & Hp).
  assert (Hf : In f m /\ f_name f = old).
  { assert (H : In f (filter (has_name old) m)) by (rewrite Ef; left; auto). apply filter_In in H as [H1 H2].
    split; auto. apply Nat.eqb_eq. auto. }
  destruct Hf as [Hf Hfn].
  assert (Hone : fr = []).
  { destruct fr as [|g fr]; auto. exfalso.
    assert (Hsub : NoDup (map f_name (filter (has_name old) m))).
    { clear -Hn. induction m as [|x m IH]; cbn; [constructor|]. inversion Hn; subst. destruct (has_name old x); auto.
      cbn. constructor; auto. intros H. apply H1. apply in_map_iff in H as (y & E & Hy). apply filter_In in Hy as [Hy _].
      rewrite <- E. apply in_map. auto. }
    rewrite Ef in Hsub. cbn in Hsub. inversion Hsub; subst. apply H1. left.
    assert (H : In g (filter (has_name (f_name f)) m)) by (rewrite Ef; right; left; auto). apply filter_In in H as [_ H].
    apply Nat.eqb_eq in H. auto. }
  subst fr.
  assert (Hnd' : NoDup (map f_name m')) by (eapply Permutation_NoDup; [|exact Hnd]; apply Permutation_map; symmetry; auto).
  exists f. split; [rewrite <- Hfn; apply find_field_in; auto|].
  assert (Hin' : forall g, In g m' <-> (In g m /\ f_name g <> old) \/ g = f').
  { intros g. split.
    - intros H. apply (Permutation_in _ Hp) in H. apply in_app_or in H as [H|[H|[]]]; auto.
      apply filter_In in H as [H1 H2]. left. split; auto. unfold has_name in H2. intros E. rewrite E, Nat.eqb_refl in H2. discriminate.
    - intros H. apply (Permutation_in _ (Permutation_sym Hp)). apply in_or_app. destruct H as [[H1 H2]| ->].
      + left. apply filter_In. split; auto. unfold has_name. apply negb_true_iff, Nat.eqb_neq. auto.
      + right; left; auto. }
  split; [|split; [|split]].
  - change new with (f_name f') at 1. apply find_field_in; auto. apply Hin'. auto.
  - intros Hne. apply find_field_none. intros H. apply in_map_iff in H as (g & E & Hg). apply Hin' in Hg as [[_ Hg]| ->]; auto.
  - intros n H1 H2. destruct (find_field n m) as [g|] eqn:Eg.
    + apply find_field_spec in Eg as [Eg <-]. apply find_field_in; auto. apply Hin'. auto.
    + apply find_field_none. rewrite find_field_none in Eg. intros H. apply Eg. apply in_map_iff in H as (g & E & Hg).
      apply Hin' in Hg as [[Hg _]| ->]; [|cbn in E; congruence]. rewrite <- E. apply in_map; auto.
  - intros es. rewrite (storage_size_perm es m' (rest ++ [f'])) by auto.
    unfold storage_size. apply fold_max_perm. rewrite map_app. cbn [map].
    change (field_extent es (f_locs f')) with (field_extent es (f_locs f)).
    rewrite <- (perm_partition (has_name old) m), Ef. unfold rest. cbn [app map].
    rewrite <- Permutation_cons_append. auto.
Qed.

(** When renaming is accepted. *)
Lemma names_distinct_spec l : names_distinct l = true <-> NoDup (map f_name l).
Proof.
  unfold names_distinct.
  assert (G : forall l seen, (fix go seen l := match l with [] => true | f :: r => negb (existsb (Nat.eqb (f_name f)) seen) && go (f_name f :: seen) r end) seen l = true <->
    NoDup (map f_name l) /\ forall f, In f l -> ~ In (f_name f) seen).
  { clear. induction l as [|f l IH]; intros seen.
    - split; [intros _; split; [constructor|intros f []]|reflexivity].
    - cbn [map]. rewrite andb_true_iff, IH, negb_true_iff.
      assert (X : existsb (Nat.eqb (f_name f)) seen = false <-> ~ In (f_name f) seen).
      { rewrite <- not_true_iff_false, existsb_exists. split; intros H I; apply H.
        - exists (f_name f). split; auto. apply Nat.eqb_refl.
        - destruct I as (x & I & E). apply Nat.eqb_eq in E. subst. auto. }
      rewrite X. split.
      + intros (A & B & C). split.
        * constructor; auto. intros I. apply in_map_iff in I as (g & E & I). apply (C g I). left. auto.
        * intros g [<-|I]; auto. intros J. apply (C g I). right. auto.
      + intros (A & B). inversion A; subst. split; [apply B; left; auto|]. split; auto. intros g I [E|J].
        * apply H1. apply in_map_iff. eauto.
        * apply (B g (or_intror I)). auto. }
  rewrite G. split; [tauto|]. intros H. split; auto.
Qed.
Lemma rename_accepts m old new : NoDup (map f_name m) -> forallb locatable m = true -> forallb field_valid m = true ->
  ((exists m', rename_field m old new = Some m') <->
   In old (map f_name m) /\ (forall f, In f m -> f_name f = new -> old = new)).
Proof.
  intros Hn Hl Hv. unfold rename_field. set (rest := filter (fun f => negb (has_name old f)) m).
  assert (Hrest : forall g, In g rest <-> In g m /\ f_name g <> old).
  { intros g. unfold rest. rewrite filter_In, negb_true_iff. unfold has_name. rewrite Nat.eqb_neq. tauto. }
  destruct (filter (has_name old) m) as [|f fr] eqn:Ef.
  - split; [intros [? E]; discriminate|]. intros [I _]. apply in_map_iff in I as (g & E & I).
    assert (X : In g (filter (has_name old) m)) by (apply filter_In; split; auto; apply Nat.eqb_eq; auto). rewrite Ef in X. destruct X.
  - assert (Hf : In f m /\ f_name f = old).
    { assert (X : In f (filter (has_name old) m)) by (rewrite Ef; left; auto). apply filter_In in X as [X Y]. apply Nat.eqb_eq in Y. auto. }
    destruct Hf as [Hf Hfn]. destruct (existsb (has_name new) rest) eqn:Ex.
    + split; [intros [? E]; discriminate|]. intros [_ H]. exfalso. apply existsb_exists in Ex as (g & I & E). apply Nat.eqb_eq in E.
      apply Hrest in I as [I N]. apply N. rewrite E. symmetry. apply (H g); auto.
    + split.
      * intros _. split; [apply in_map_iff; eauto|]. intros g I E. destruct (Nat.eq_dec old new) as [|N]; auto. exfalso.
        assert (X : existsb (has_name new) rest = true); [|congruence]. apply existsb_exists. exists g. split; [apply Hrest; split; congruence|apply Nat.eqb_eq; auto].
      * intros _. unfold message. set (f' := {| f_name := new; f_bytes := f_bytes f; f_default := f_default f; f_match := f_match f; f_ats := f_ats f |}).
        assert (D : names_distinct (rest ++ [f']) = true).
        { apply names_distinct_spec. rewrite map_app. cbn.
          assert (NR : NoDup (map f_name rest)).
          { unfold rest. clear - Hn. induction m as [|x m IH]; cbn; [constructor|]. inversion Hn; subst. destruct (negb (has_name old x)); auto.
            cbn. constructor; auto. intros I. apply H1. apply in_map_iff in I as (y & E & I). apply filter_In in I as [I _]. rewrite <- E. apply in_map. auto. }
          eapply Permutation_NoDup; [apply Permutation_cons_append|]. constructor; auto.
          intros I. apply in_map_iff in I as (g & E & I). assert (X : existsb (has_name new) rest = true); [|congruence].
          apply existsb_exists. exists g. split; auto. apply Nat.eqb_eq. auto. }
        assert (L : forallb locatable (rest ++ [f']) = true).
        { rewrite forallb_forall in *. intros g I. apply in_app_or in I as [I|[<-|[]]].
          - apply Hl. apply Hrest in I. tauto.
          - exact (Hl f Hf). }
        assert (V : forallb field_valid (rest ++ [f']) = true).
        { rewrite forallb_forall in *. intros g I. apply in_app_or in I as [I|[<-|[]]].
          - apply Hv. apply Hrest in I. tauto.
          - exact (Hv f Hf). }
        rewrite D, L, V. eexists. reflexivity.
Qed.

(** Proofs about owners and views. *)
From Coq Require Import List NArith ZArith Bool Arith Lia ZifyBool ZifyN ZifyNat.
From Verif Require Import FieldModel FieldSpec FieldProofs FieldProofs2 FieldProofs3 MatchModel FieldMatchersModel MessageModel MessageSpec MessageProofs AccessModel AccessSpec.
Import ListNotations.
Local Open Scope N_scope.

(** ** Lists *)
Lemma put_nth_length {A} i (x : A) : forall l, length (put_nth i x l) = length l.
Proof. induction i; intros [|y l]; cbn; auto. Qed.
Lemma put_nth_same {A} i (x : A) : forall l, (i < length l)%nat -> nth_error (put_nth i x l) i = Some x.
Proof. induction i; intros [|y l]; cbn; intros; auto; try lia. apply IHi. lia. Qed.
Lemma put_nth_other {A} i j (x : A) : i <> j -> forall l, nth_error (put_nth i x l) j = nth_error l j.
Proof. revert j. induction i; intros [|j] H [|y l]; cbn; auto; try lia. Qed.
Lemma put_nth_forall2 {A B} (R : A -> B -> Prop) i x y : forall l m, Forall2 R l m -> R x y -> Forall2 R (put_nth i x l) (put_nth i y m).
Proof.
  induction i; intros l m H Hr; inversion H; subst; cbn [put_nth]; auto.
Qed.
Lemma forall2_nth {A B} (R : A -> B -> Prop) l m : Forall2 R l m -> forall i x, nth_error l i = Some x -> exists y, nth_error m i = Some y /\ R x y.
Proof. induction 1; intros [|i] z E; cbn in *; try discriminate; eauto. injection E as <-. eauto. Qed.
Lemma forall2_nth_none {A B} (R : A -> B -> Prop) l m : Forall2 R l m -> forall i, nth_error l i = None -> nth_error m i = None.
Proof. induction 1; intros [|i] E; cbn in *; auto; discriminate. Qed.

(** ** Bits *)
Lemma written_ext f v b b' : (forall k, b k = b' k) -> forall k, written f v b k = written f v b' k.
Proof. intros H k. unfold written. destruct (place _ _ _); auto. Qed.
Lemma written_all_ext d vs : forall b b', (forall k, b k = b' k) -> forall k, written_all d vs b k = written_all d vs b' k.
Proof.
  induction vs as [|[n v] vs IH]; intros b b' H k; cbn [written_all]; auto.
  apply IH. intros q. destruct (find _ d); auto. apply written_ext; auto.
Qed.
Lemma place_mod f v k : field_valid f = true -> place (f_locs f) (v mod 2 ^ (8 * f_bytes f)) k = place (f_locs f) v k.
Proof.
  intros Hf. destruct (field_valid_wf f Hf) as (_ & Hw & _). unfold width in Hw. revert Hw. generalize (8 * f_bytes f).
  intros w Hw. unfold place. rewrite <- total_size_rev in Hw. revert v w Hw.
  induction (rev (f_locs f)) as [|l r IH]; intros v w Hw; cbn [place_rev]; auto.
  cbn [total_size fold_right] in Hw. fold (total_size r) in Hw.
  destruct (N.leb_spec (loc_start l) k); cbn [andb].
  - destruct (N.ltb_spec k (loc_start l + l_size l)).
    + f_equal. apply N.mod_pow2_bits_low. lia.
    + rewrite <- (IH (N.shiftr v (l_size l)) (w - l_size l)) by lia.
      f_equal. rewrite !N.shiftr_div_pow2. replace w with (l_size l + (w - l_size l)) at 1 by lia.
      rewrite N.pow_add_r. rewrite N.mod_mul_r by (apply N.pow_nonzero; lia).
      rewrite N.mul_comm, N.div_add by (apply N.pow_nonzero; lia).
      rewrite N.div_small by (apply N.mod_lt, N.pow_nonzero; lia). auto.
  - rewrite <- (IH (N.shiftr v (l_size l)) (w - l_size l)) by lia.
      f_equal. rewrite !N.shiftr_div_pow2. replace w with (l_size l + (w - l_size l)) at 1 by lia.
      rewrite N.pow_add_r. rewrite N.mod_mul_r by (apply N.pow_nonzero; lia).
      rewrite N.mul_comm, N.div_add by (apply N.pow_nonzero; lia).
      rewrite N.div_small by (apply N.mod_lt, N.pow_nonzero; lia). auto.
Qed.
Lemma place_outside f v k n : fits n (f_locs f) -> n <= k -> place (f_locs f) v k = None.
Proof.
  intros H Hk. apply place_none. intros (l & Hl & Hc). specialize (H l Hl). unfold loc_covers in Hc. lia.
Qed.
Lemma written_all_outside d n vs : fields_fit n d -> forall b k, n <= k -> written_all d vs b k = b k.
Proof.
  intros Hd. induction vs as [|[m v] vs IH]; intros b k Hk; cbn [written_all]; auto. rewrite IH by auto.
  destruct (find _ d) as [f|] eqn:E; auto. apply find_some in E as [Hf _]. unfold written. rewrite (place_outside f v k n); auto.
Qed.

(** ** Values *)
Lemma place_concat img rls k x : place_rev rls (concat_value img (rev rls)) k = Some x -> N.testbit img k = x.
Proof.
  induction rls as [|l rls IH]; cbn [place_rev rev]; [discriminate|]. rewrite concat_snoc.
  set (C := concat_value img (rev rls)) in *.
  assert (Hs : slice img (loc_start l) (l_size l) < 2 ^ l_size l) by (unfold slice; apply N.mod_lt, N.pow_nonzero; lia).
  assert (E : N.shiftr (C * 2 ^ l_size l + slice img (loc_start l) (l_size l)) (l_size l) = C).
  { rewrite N.shiftr_div_pow2. rewrite N.div_add_l by (apply N.pow_nonzero; lia). rewrite N.div_small by auto. lia. }
  rewrite E. destruct (N.leb_spec (loc_start l) k); cbn [andb]; auto.
  destruct (N.ltb_spec k (loc_start l + l_size l)); auto. intros Q. injection Q as <-.
  symmetry. rewrite <- (N.mod_pow2_bits_low (C * 2 ^ l_size l + slice img (loc_start l) (l_size l)) (l_size l) (k - loc_start l)) by lia.
  rewrite N.add_comm, N.mod_add by (apply N.pow_nonzero; lia). rewrite N.mod_small by auto.
  rewrite tb_slice. replace (k - loc_start l <? l_size l) with true by lia.
  replace (loc_start l + (k - loc_start l)) with k by lia. cbn [andb]. auto.
Qed.
Lemma holds_value_in es st f b : (forall k, N.testbit (image es st) k = b k) -> holds_value b f (value_in es st f).
Proof.
  intros H. split.
  - unfold value_in, width. apply concat_lt.
  - intros k x E. rewrite <- H. unfold place, value_in in E. rewrite <- (rev_involutive (f_locs f)) in E at 2.
    eapply place_concat; eauto.
Qed.
Lemma holds_value_unique es st f b v : disjoint_locs (f_locs f) -> (forall k, N.testbit (image es st) k = b k) ->
  holds_value b f v -> v = value_in es st f.
Proof.
  intros Hd H [Hv Hb]. unfold value_in. rewrite <- (rev_involutive (f_locs f)).
  rewrite (concat_place _ _ v).
  - rewrite total_size_rev. symmetry. apply N.mod_small. auto.
  - apply disjoint_rev; auto.
  - intros k Hk. rewrite H. destruct (place_rev (rev (f_locs f)) v k) as [x|] eqn:E.
    + f_equal. apply Hb. auto.
    + exfalso. apply (proj2 (place_rev_none _ _ v) E). auto.
Qed.

(** ** Writing *)
Section Write.
Variable es : N.
Hypothesis He : narrow es.
Variable d : list mfield.
Hypothesis Hd : msg_good d.

Definition shown (st : list N) (n : nat) (b : bits) : Prop :=
  length st = n /\ storage_ok es st /\ forall k, N.testbit (image es st) k = b k.

Lemma insert_shown f v st n b : In f d -> v < 2 ^ f_ew f -> fields_fit (es * N.of_nat n) d -> shown st n b ->
  exists st', field_insert es (f_ew f) (f_locs f) v st = Done st' /\ shown st' n (written f v b).
Proof.
  intros Hf Hv Hfit (Hl & Hok & Hb). destruct Hd as (_ & Hg & _). rewrite Forall_forall in Hg. destruct (Hg f Hf) as (Hval & Hdis & _).
  destruct (field_insert_spec es (f_ew f) (f_locs f) v st) as (st' & E & Hl' & Hok' & _ & _ & Hb'); auto.
  - apply narrow_ew; auto.
  - apply field_valid_wf; auto.
  - apply narrow_ok, narrow_le; auto.
  - unfold nbits. rewrite Hl. apply Hfit; auto.
  - exists st'. split; auto. split; [congruence|]. split; auto. intros k. rewrite Hb'. unfold written. rewrite Hb. auto.
Qed.

Lemma run_sets_shown n vs : fields_fit (es * N.of_nat n) d -> (forall nv, In nv vs -> In (fst nv) (map f_name d)) ->
  forall st b, shown st n b ->
  exists st', run_sets es d vs st = Done st' /\ shown st' n (written_all d vs b).
Proof.
  intros Hfit. induction vs as [|[m v] vs IH]; intros Hin st b Hs.
  - exists st. split; auto.
  - cbn [run_sets written_all]. destruct (find_field m d) as [f|] eqn:E.
    2:{ exfalso. apply find_field_none in E. apply E. apply (Hin (m, v)). left; auto. }
    pose proof (find_field_spec _ _ _ E) as [Hf Hn].
    assert (E' : find (fun g => Nat.eqb (f_name g) m) d = Some f) by exact E. rewrite E'.
    unfold set_field. pose proof Hd as (_ & Hg & _). rewrite Forall_forall in Hg. destruct (Hg f Hf) as (Hval & _).
    destruct (field_valid_wf f Hval) as (_ & _ & Hew).
    destruct (insert_shown f (v mod 2 ^ (8 * f_bytes f)) st n b) as (st1 & E1 & Hs1); auto.
    { eapply N.lt_le_trans; [apply N.mod_lt, N.pow_nonzero; lia|]. apply N.pow_le_mono_r; lia. }
    rewrite E1. cbn [bind]. destruct (IH (fun nv H => Hin nv (or_intror H)) st1 _ Hs1) as (st2 & E2 & (Hl2 & Hok2 & Hb2)).
    exists st2. split; auto. split; auto. split; auto. intros k. rewrite Hb2. apply written_all_ext.
    intros q. unfold written. rewrite place_mod; auto.
Qed.

Lemma run_defaults_shown n l : fields_fit (es * N.of_nat n) d -> incl l d -> forall st b, shown st n b ->
  exists st', run_defaults es l st = Done st' /\ shown st' n (defaulted l b).
Proof.
  intros Hfit. unfold defaulted. induction l as [|f l IH]; intros Hi st b Hs.
  - exists st. split; auto.
  - cbn [run_defaults fold_left]. assert (Hf : In f d) by (apply Hi; left; auto).
    pose proof Hd as (_ & Hg & _). rewrite Forall_forall in Hg. destruct (Hg f Hf) as (Hval & _ & Hdef).
    destruct (field_valid_wf f Hval) as (_ & _ & Hew).
    assert (Hstep : exists st1, set_default es f st = Done st1 /\
      shown st1 n (match default_of (f_default f) with Some v => written f v b | None => b end)).
    { unfold set_default. assert (Ed : default_value (f_default f) = default_of (f_default f)) by (destruct (f_default f); auto).
      rewrite Ed. destruct (default_of (f_default f)) as [v|] eqn:E; eauto.
      apply insert_shown; auto. eapply N.lt_le_trans; [apply Hdef; auto|]. apply N.pow_le_mono_r; lia. }
    destruct Hstep as (st1 & E1 & Hs1). rewrite E1. cbn [bind]. apply IH; auto. intros g Hg'. apply Hi. right; auto.
Qed.
End Write.

(** Location- and field-level theorems. *)
From Coq Require Import List NArith ZArith Bool Lia ZifyBool ZifyN ZifyNat.
From Verif Require Import FieldModel FieldSpec FieldProofs.
Import ListNotations.
Local Open Scope N_scope.
Ltac Zify.zify_post_hook ::= Z.div_mod_to_equations.

Lemma elem_pos es : elem_width es -> 0 < es.
Proof. intros [->|[->|[->| ->]]]; lia. Qed.

Lemma base_eq es l : elem_width es -> aligned_for es l -> es * base_index es l = l_index l * 32.
Proof.
  unfold base_index. intros [->|[->|[->| ->]]] Ha.
  - change (8 / 8) with 1. lia.
  - change (16 / 8) with 2. lia.
  - change (32 / 8) with 4. lia.
  - change (64 / 8) with 8. destruct Ha as [Ha|Ha]; [lia|].
    apply N.even_spec in Ha as [m Hm]. rewrite Hm. replace (2 * m * 4) with (m * 8) by lia.
    rewrite N.div_mul by lia. lia.
Qed.

Lemma idx_bound es b m n : 0 < es -> es * b + m < es * n -> b + m / es < n.
Proof.
  intros Hes H. destruct (N.lt_ge_cases (b + m / es) n) as [|Hge]; auto. exfalso.
  assert (es * n <= es * (b + m / es)) by (apply N.mul_le_mono_l; auto).
  assert (es * (m / es) <= m) by (apply N.mul_div_le; lia). lia.
Qed.

Lemma loc_extract_spec es ew l st :
  elem_width es -> raw_width ew -> loc_wf l -> l_size l <= ew -> aligned_for es l ->
  storage_ok es st -> loc_start l + l_size l <= nbits es st ->
  loc_extract es ew l st = Done (slice (image es st) (loc_start l) (l_size l)).
Proof.
  intros Hes Hew [Hl Hs] Hsz Ha Hst Hb. pose proof (elem_pos es Hes) as Hpos.
  unfold loc_extract. set (base := base_index es l).
  assert (Hbase : es * base = l_index l * 32) by (apply base_eq; auto).
  assert (Hlsb : l_lsb l = es * (l_lsb l / es) + l_lsb l mod es) by (apply N.div_mod; lia).
  assert (Hmsb : l_msb l = es * (l_msb l / es) + l_msb l mod es) by (apply N.div_mod; lia).
  set (ql := l_lsb l / es) in *. set (sl := l_lsb l mod es) in *.
  set (qm := l_msb l / es) in *. set (sm := l_msb l mod es) in *.
  assert (Hmval : l_msb l = l_lsb l + l_size l - 1) by reflexivity.
  assert (Hsl : sl < es) by (apply N.mod_lt; lia).
  assert (Hsm : sm < es) by (apply N.mod_lt; lia).
  assert (Hbd : base + qm < N.of_nat (length st)).
  { apply idx_bound; auto. unfold nbits, loc_start in Hb. lia. }
  assert (Hes64 : es <= 64) by (destruct Hes as [->|[->|[->| ->]]]; lia).
  assert (Hptw : es <= promoted es ew /\ ew <= promoted es ew) by (unfold promoted; lia).
  destruct (extract_loop_spec es (promoted es ew) base ql sl qm sm st Hpos (proj1 Hptw) Hst Hsl Hsm)
    with (fuel := S (N.to_nat (base + qm - (base + ql)))) as (r & Hr & Hbits); auto; try lia.
  rewrite <- Hlsb, <- Hmsb in Hr. rewrite Hr. cbn [bind]. f_equal.
  apply N.bits_inj. intros i. rewrite tb_mod, Hbits, tb_slice, <- Hlsb, <- Hmsb.
  replace (l_msb l + 1 - l_lsb l) with (l_size l) by lia.
  unfold loc_start. rewrite Hbase.
  destruct (N.ltb_spec i (l_size l)); cbn; [|apply andb_false_r].
  replace (i <? ew) with true by lia. reflexivity.
Qed.

Lemma loc_insert_spec es ew l v st :
  elem_width es -> raw_width ew -> loc_wf l -> l_size l <= ew -> aligned_for es l ->
  shift_fits es ew l ->
  storage_ok es st -> loc_start l + l_size l <= nbits es st -> v < 2 ^ l_size l ->
  exists st', loc_insert es ew l v st = Done st' /\ length st' = length st /\ storage_ok es st' /\
  forall k, N.testbit (image es st') k =
    if (loc_start l <=? k) && (k <? loc_start l + l_size l)
    then N.testbit v (k - loc_start l) else N.testbit (image es st) k.
Proof.
  intros Hes Hew [Hl Hs] Hsz Ha Hfit Hst Hb Hv. pose proof (elem_pos es Hes) as Hpos.
  unfold loc_insert. set (base := base_index es l).
  assert (Hbase : es * base = l_index l * 32) by (apply base_eq; auto).
  assert (Hlsb : l_lsb l = es * (l_lsb l / es) + l_lsb l mod es) by (apply N.div_mod; lia).
  assert (Hmsb : l_msb l = es * (l_msb l / es) + l_msb l mod es) by (apply N.div_mod; lia).
  assert (Hcase : es <= promoted ew 0 \/ l_msb l mod es < promoted ew 0 \/ l_lsb l / es < l_msb l / es).
  { unfold promoted. destruct Hfit as [H|[H|H]]; [left; lia| |].
    - left. destruct Hes as [->|[->|[->| ->]]]; lia.
    - destruct Hes as [He|[He|[He|He]]]; [left; lia..|].
      right. left. rewrite He. unfold l_msb. rewrite N.mod_small; lia. }
  set (ql := l_lsb l / es) in *. set (sl := l_lsb l mod es) in *.
  set (qm := l_msb l / es) in *. set (sm := l_msb l mod es) in *.
  assert (Hmval : l_msb l = l_lsb l + l_size l - 1) by reflexivity.
  assert (Hsl : sl < es) by (apply N.mod_lt; lia).
  assert (Hsm : sm < es) by (apply N.mod_lt; lia).
  assert (Hsll : sl <= l_lsb l) by (apply N.mod_le; lia).
  assert (Hbd : base + qm < N.of_nat (length st)).
  { apply idx_bound; auto. unfold nbits, loc_start in Hb. lia. }
  assert (Hptw : ew <= promoted ew 0 /\ 32 <= promoted ew 0) by (unfold promoted; lia).
  destruct (insert_loop_spec es (promoted ew 0) base ql sl qm sm Hpos Hsl Hsm)
    with (fuel := S (N.to_nat (base + qm - (base + ql)))) (v := v) (st := st)
    as (st' & Hr & Hlen & Hok & Hbits); auto; try lia.
  { replace (es * qm + sm + 1 - (es * ql + sl)) with (l_size l) by lia. auto. }
  rewrite <- Hlsb, <- Hmsb in Hr. rewrite Hr. exists st'. repeat split; auto.
  intros k. rewrite Hbits, <- Hlsb, <- Hmsb, Hbase. unfold loc_start.
  replace (k <=? l_index l * 32 + l_msb l) with (k <? l_index l * 32 + l_lsb l + l_size l).
  2:{ destruct (N.ltb_spec k (l_index l * 32 + l_lsb l + l_size l)); symmetry; [apply N.leb_le|apply N.leb_gt]; lia. }
  reflexivity.
Qed.

(** Out-of-bounds is exactly what happens when the location's last bit is
    outside the storage (elements of at most 32 bits). *)
Lemma rd_oob st i : N.of_nat (length st) <= i -> rd st i = OutOfBounds.
Proof.
  intros H. unfold rd. destruct (nth_error st (N.to_nat i)) eqn:E; auto.
  assert (N.to_nat i < length st)%nat by (apply nth_error_Some; congruence). lia.
Qed.
Lemma loc_extract_oob es ew l st :
  elem_width es -> loc_wf l -> aligned_for es l ->
  nbits es st < loc_start l + l_size l ->
  loc_extract es ew l st = OutOfBounds.
Proof.
  intros Hes [Hl Hs] Ha Hb. pose proof (elem_pos es Hes) as Hpos.
  unfold loc_extract. set (base := base_index es l).
  assert (Hbase : es * base = l_index l * 32) by (apply base_eq; auto).
  assert (Hmsb : l_msb l = es * (l_msb l / es) + l_msb l mod es) by (apply N.div_mod; lia).
  assert (Hsm : l_msb l mod es < es) by (apply N.mod_lt; lia).
  assert (Hoob : N.of_nat (length st) <= base + l_msb l / es).
  { destruct (N.le_gt_cases (N.of_nat (length st)) (base + l_msb l / es)) as [|H]; auto. exfalso.
    assert (Hm : es * (base + l_msb l / es + 1) <= es * N.of_nat (length st)) by (apply N.mul_le_mono_l; lia).
    unfold nbits, loc_start in Hb. assert (Hv : l_msb l = l_lsb l + l_size l - 1) by reflexivity.
    assert (es * (base + l_msb l / es + 1) = es * base + es * (l_msb l / es) + es) by lia. lia. }
  cbn [extract_loop]. rewrite N.eqb_refl. cbn [andb].
  rewrite (rd_oob _ _ Hoob). cbn [bind].
  destruct (N.eqb_spec (base + l_msb l / es) (base + l_lsb l / es)); reflexivity.
Qed.

(** ** Fields *)
Lemma unfold_spec ew l raw : l_size l <= ew -> raw < 2 ^ (ew - l_size l) ->
  unfold_value ew l raw = raw * 2 ^ l_size l.
Proof.
  intros Hs Hr. unfold unfold_value. destruct (N.eqb_spec (l_size l) ew) as [H|H].
  - rewrite H, N.sub_diag in Hr. cbn in Hr. lia.
  - rewrite N.shiftl_mul_pow2. apply N.mod_small.
    replace ew with ((ew - l_size l) + l_size l) at 1 by lia. rewrite N.pow_add_r.
    apply N.mul_lt_mono_pos_r; auto. apply N.neq_0_lt_0, N.pow_nonzero. lia.
Qed.
Lemma slice_lt img p n : slice img p n < 2 ^ n.
Proof. unfold slice. apply N.mod_lt, N.pow_nonzero. lia. Qed.

Lemma lor_shift_add a n b : b < 2 ^ n -> N.lor (a * 2 ^ n) b = a * 2 ^ n + b.
Proof.
  intros H. rewrite N.lor_comm, <- N.shiftl_mul_pow2, <- lor_add_disjoint by auto.
  rewrite N.shiftl_mul_pow2. lia.
Qed.

Definition field_wf (ew : N) (ls : list loc) : Prop :=
  raw_width ew /\ Forall loc_wf ls /\ total_size ls <= ew.
Definition field_ok (es : N) (ls : list loc) : Prop := Forall (aligned_for es) ls.

Lemma concat_from_lt img ls : forall acc n, acc < 2 ^ n ->
  fold_left (fun acc l => acc * 2 ^ l_size l + slice img (loc_start l) (l_size l)) ls acc < 2 ^ (n + total_size ls).
Proof.
  induction ls as [|l ls IH]; intros acc n H; cbn [fold_left total_size fold_right].
  - rewrite N.add_0_r. auto.
  - fold (total_size ls). rewrite N.add_assoc. apply IH. rewrite N.pow_add_r.
    pose proof (slice_lt img (loc_start l) (l_size l)).
    apply N.lt_le_trans with ((acc + 1) * 2 ^ l_size l); [lia|]. apply N.mul_le_mono_r. lia.
Qed.

Lemma field_extract_from_spec es ew ls st :
  elem_width es -> raw_width ew -> Forall loc_wf ls -> field_ok es ls -> storage_ok es st -> fits (nbits es st) ls ->
  forall raw n, raw < 2 ^ n -> n + total_size ls <= ew ->
  field_extract_from es ew ls raw st =
  Done (fold_left (fun acc l => acc * 2 ^ l_size l + slice (image es st) (loc_start l) (l_size l)) ls raw).
Proof.
  intros Hes Hew Hwf Hok Hst. induction ls as [|l ls IH]; intros Hfit raw n Hraw Hn; cbn [field_extract_from fold_left]; auto.
  inversion Hwf; subst. inversion Hok; subst. cbn [total_size fold_right] in Hn. fold (total_size ls) in Hn.
  rewrite loc_extract_spec; auto; try lia.
  2:{ apply Hfit. left; auto. }
  cbn [bind]. rewrite unfold_spec; try lia.
  2:{ eapply N.lt_le_trans; [exact Hraw|]. apply N.pow_le_mono_r; lia. }
  rewrite lor_shift_add by apply slice_lt.
  apply IH with (n := n + l_size l); auto; try lia.
  - intros l' Hl'. apply Hfit. right; auto.
  - rewrite N.pow_add_r. pose proof (slice_lt (image es st) (loc_start l) (l_size l)).
    apply N.lt_le_trans with ((raw + 1) * 2 ^ l_size l); [lia|]. apply N.mul_le_mono_r. lia.
Qed.

Lemma field_extract_spec es ew ls st :
  elem_width es -> field_wf ew ls -> field_ok es ls -> storage_ok es st -> fits (nbits es st) ls ->
  field_extract es ew ls st = Done (concat_value (image es st) ls).
Proof.
  intros Hes (Hew & Hwf & Hsz) Hok Hst Hfit.
  apply field_extract_from_spec with (n := 0); auto; cbn; lia.
Qed.

Lemma fold_spec ew l v : v < 2 ^ ew -> fold_value ew l v = N.shiftr v (l_size l).
Proof.
  intros H. unfold fold_value. destruct (N.eqb_spec (l_size l) ew) as [->|]; auto.
  symmetry. apply N.bits_inj. intros i. rewrite tb_shiftr, N.bits_0. eapply tb_small; eauto. lia.
Qed.

(** Writing scatters the value's bits, later locations first; [place_rev]
    prefers the later location where locations overlap being overwritten by
    earlier ones, hence disjointness. *)
Lemma field_insert_rev_spec es ew rls :
  elem_width es -> raw_width ew -> forall v st, v < 2 ^ ew -> storage_ok es st ->
  Forall (fun l => loc_wf l /\ l_size l <= ew /\ aligned_for es l /\ shift_fits es ew l /\ loc_start l + l_size l <= nbits es st) rls ->
  disjoint_locs rls ->
  exists st', field_insert_rev es ew rls v st = Done st' /\ length st' = length st /\ storage_ok es st' /\
  forall k, N.testbit (image es st') k =
    match place_rev rls v k with Some b => b | None => N.testbit (image es st) k end.
Proof.
  intros Hes Hew. induction rls as [|l rls IH]; intros v st Hv Hst Hall Hdis; cbn [field_insert_rev place_rev].
  - exists st. auto.
  - inversion Hall as [|? ? (Hwf & Hsz & Hal & Hfit & Hb) Hall']; subst. destruct Hdis as [Hd Hdis].
    set (m := N.land v (bit_mask (l_size l - 1) 0)).
    assert (Hm : forall i, N.testbit m i = (i <? l_size l) && N.testbit v i).
    { intros i. unfold m. destruct Hwf as [_ Hwf]. rewrite N.land_spec, tb_mask by lia.
      replace (0 <=? i) with true by lia. cbn. rewrite andb_comm. f_equal.
      destruct (N.leb_spec i (l_size l - 1)); symmetry; [apply N.ltb_lt|apply N.ltb_ge]; lia. }
    destruct (loc_insert_spec es ew l m st) as (st1 & H1 & Hlen1 & Hok1 & Hbits1); auto.
    { apply tb_lt. intros i Hi. rewrite Hm. replace (i <? l_size l) with false by lia. reflexivity. }
    rewrite H1. cbn [bind]. rewrite fold_spec by auto.
    destruct (IH (N.shiftr v (l_size l)) st1) as (st' & H2 & Hlen & Hok & Hbits); auto.
    { apply tb_lt. intros i Hi. rewrite tb_shiftr. eapply tb_small; eauto. lia. }
    { unfold nbits in *. rewrite Hlen1. auto. }
    exists st'. rewrite H2. repeat split; auto; try congruence.
    intros k. rewrite Hbits, Hbits1.
    destruct (N.leb_spec (loc_start l) k) as [Ha|Ha]; cbn [andb]; auto.
    destruct (N.ltb_spec k (loc_start l + l_size l)) as [Hc|Hc]; cbn [andb]; auto.
    assert (Hnone : forall rls w, ~ covers rls k -> place_rev rls w k = None).
    { clear. induction rls as [|l' rls IH]; intros w Hn; cbn [place_rev]; auto.
      destruct (N.leb_spec (loc_start l') k); cbn [andb].
      - destruct (N.ltb_spec k (loc_start l' + l_size l')).
        + exfalso. apply Hn. exists l'. split; [left; auto|]. unfold loc_covers. lia.
        + apply IH. intros (x & Hx & Hc). apply Hn. exists x. split; auto. right; auto.
      - apply IH. intros (x & Hx & Hc). apply Hn. exists x. split; auto. right; auto. }
    rewrite Hnone. 2:{ apply Hd. unfold loc_covers. lia. }
    rewrite Hm. replace (k - loc_start l <? l_size l) with true by lia. reflexivity.
Qed.

Lemma covers_app a b k : covers (a ++ b) k <-> covers a k \/ covers b k.
Proof.
  unfold covers. split.
  - intros (l & H & Hc). apply in_app_or in H as [H|H]; eauto.
  - intros [(l & H & Hc)|(l & H & Hc)]; exists l; split; auto; apply in_or_app; auto.
Qed.
Lemma covers_rev ls k : covers (rev ls) k <-> covers ls k.
Proof.
  unfold covers. split; intros (l & H & Hc); exists l; split; auto.
  - apply in_rev; auto.
  - apply in_rev in H; auto.
Qed.
Lemma disjoint_app a b : disjoint_locs (a ++ b) <->
  disjoint_locs a /\ disjoint_locs b /\ forall k, covers a k -> ~ covers b k.
Proof.
  induction a as [|l a IH]; cbn [app disjoint_locs].
  - split; [intros H; repeat split; auto; intros k (x & [] & _)|tauto].
  - rewrite IH. split.
    + intros (H1 & H2 & H3 & H4). repeat split; auto.
      * intros k Hk Hc. apply (H1 k Hk). apply covers_app. auto.
      * intros k (x & [<-|Hx] & Hc).
        -- intros Hb. apply (H1 k Hc). apply covers_app. auto.
        -- apply H4. exists x. auto.
    + intros ((H1 & H2) & H3 & H4). repeat split; auto.
      * intros k Hk Hc. apply covers_app in Hc as [Hc|Hc]; [apply (H1 k Hk Hc)|].
        apply (H4 k); auto. exists l. split; [left|]; auto.
      * intros k (x & Hx & Hc). apply H4. exists x. split; [right|]; auto.
Qed.
Lemma disjoint_rev ls : disjoint_locs ls -> disjoint_locs (rev ls).
Proof.
  induction ls as [|l ls IH]; cbn [rev disjoint_locs]; auto. intros [H1 H2].
  apply disjoint_app. split; [auto|]. split.
  - cbn. split; auto. intros k _ (x & [] & _).
  - intros k Hc (x & [<-|[]] & Hk). apply (H1 k Hk). apply covers_rev; auto.
Qed.

Lemma place_rev_none rls k : forall v, ~ covers rls k <-> place_rev rls v k = None.
Proof.
  induction rls as [|l rls IH]; intros v; cbn [place_rev].
  - split; auto. intros _ (x & [] & _).
  - destruct (N.leb_spec (loc_start l) k); cbn [andb].
    + destruct (N.ltb_spec k (loc_start l + l_size l)).
      * split; [|discriminate]. intros Hn. exfalso. apply Hn. exists l. split; [left; auto|]. unfold loc_covers. lia.
      * rewrite <- IH. split; intros Hn (x & Hx & Hc); apply Hn; exists x; split; auto; try (right; auto).
        destruct Hx as [<-|]; auto. unfold loc_covers in Hc. lia.
    + rewrite <- IH. split; intros Hn (x & Hx & Hc); apply Hn; exists x; split; auto; try (right; auto).
      destruct Hx as [<-|]; auto. unfold loc_covers in Hc. lia.
Qed.

(** Reading back: concatenating the scattered bits gives the value modulo the
    total size. *)
Lemma total_size_app a b : total_size (a ++ b) = total_size a + total_size b.
Proof. unfold total_size. induction a as [|l a IH]; cbn [app fold_right]; lia. Qed.
Lemma total_size_rev ls : total_size (rev ls) = total_size ls.
Proof.
  induction ls as [|l ls IH]; cbn [rev]; auto. rewrite total_size_app, IH.
  cbn [total_size fold_right]. fold (total_size ls). lia.
Qed.
Lemma concat_snoc img ls l :
  concat_value img (ls ++ [l]) = concat_value img ls * 2 ^ l_size l + slice img (loc_start l) (l_size l).
Proof. unfold concat_value. rewrite fold_left_app. reflexivity. Qed.
Lemma concat_lt img ls : concat_value img ls < 2 ^ total_size ls.
Proof. unfold concat_value. apply (concat_from_lt img ls 0 0). cbn. lia. Qed.

Lemma concat_place img rls : forall v,
  disjoint_locs rls ->
  (forall k, covers rls k -> Some (N.testbit img k) = place_rev rls v k) ->
  concat_value img (rev rls) = v mod 2 ^ total_size rls.
Proof.
  induction rls as [|l rls IH]; intros v Hd Hp.
  - cbn. symmetry. apply N.mod_1_r.
  - destruct Hd as [Hd1 Hd2]. cbn [rev]. rewrite concat_snoc.
    rewrite (IH (N.shiftr v (l_size l))); auto.
    2:{ intros k Hk. rewrite Hp. 2:{ destruct Hk as (x & Hx & Hc). exists x. split; [right|]; auto. }
        cbn [place_rev]. destruct (N.leb_spec (loc_start l) k); cbn [andb]; auto.
        destruct (N.ltb_spec k (loc_start l + l_size l)); cbn [andb]; auto.
        exfalso. apply (Hd1 k); auto. unfold loc_covers. lia. }
    assert (Hs : slice img (loc_start l) (l_size l) = v mod 2 ^ l_size l).
    { apply N.bits_inj. intros i. rewrite tb_slice, tb_mod.
      destruct (N.ltb_spec i (l_size l)) as [Hi|Hi]; cbn; auto.
      assert (Hc : loc_covers l (loc_start l + i)) by (unfold loc_covers; lia).
      specialize (Hp (loc_start l + i)). cbn [place_rev] in Hp.
      replace (loc_start l <=? loc_start l + i) with true in Hp by lia.
      replace (loc_start l + i <? loc_start l + l_size l) with true in Hp by lia. cbn [andb] in Hp.
      replace (loc_start l + i - loc_start l) with i in Hp by lia.
      assert (Some (N.testbit img (loc_start l + i)) = Some (N.testbit v i)) as [=]; auto.
      apply Hp. exists l. split; [left|]; auto. }
    rewrite Hs. cbn [total_size fold_right]. fold (total_size rls).
    rewrite N.pow_add_r, N.mod_mul_r by (apply N.pow_nonzero; lia).
    rewrite <- N.shiftr_div_pow2. lia.
Qed.

Definition field_write_ok (es ew : N) (ls : list loc) : Prop :=
  Forall (fun l => aligned_for es l /\ shift_fits es ew l) ls.

Lemma total_ge ls l : In l ls -> l_size l <= total_size ls.
Proof.
  induction ls as [|x ls IH]; [intros []|]. intros [->|H]; cbn [total_size fold_right]; fold (total_size ls); [lia|].
  specialize (IH H). lia.
Qed.

Lemma field_insert_spec es ew ls v st :
  elem_width es -> field_wf ew ls -> field_write_ok es ew ls -> storage_ok es st ->
  fits (nbits es st) ls -> disjoint_locs ls -> v < 2 ^ ew ->
  exists st', field_insert es ew ls v st = Done st' /\ length st' = length st /\ storage_ok es st' /\
  same_outside ls (image es st) (image es st') /\
  concat_value (image es st') ls = v mod 2 ^ total_size ls /\
  forall k, N.testbit (image es st') k =
    match place ls v k with Some b => b | None => N.testbit (image es st) k end.
Proof.
  intros Hes (Hew & Hwf & Hsz) Hok Hst Hfit Hdis Hv.
  destruct (field_insert_rev_spec es ew (rev ls) Hes Hew v st Hv Hst) as (st' & H & Hlen & Hst' & Hbits).
  { apply Forall_forall. intros l Hl. apply in_rev in Hl.
    unfold field_write_ok in Hok. rewrite Forall_forall in Hwf, Hok. destruct (Hok l Hl). pose proof (total_ge ls l Hl).
    repeat split; auto; try apply Hwf; auto. lia. }
  { apply disjoint_rev; auto. }
  exists st'. repeat split; auto.
  - intros k Hk. rewrite Hbits. rewrite (proj1 (place_rev_none (rev ls) k v)); auto.
    rewrite covers_rev. auto.
  - rewrite <- (rev_involutive ls) at 1. rewrite <- total_size_rev. apply concat_place.
    + apply disjoint_rev; auto.
    + intros k Hk. rewrite Hbits. destruct (place_rev (rev ls) v k) eqn:E; auto.
      exfalso. apply (proj2 (place_rev_none (rev ls) k v) E). auto.
Qed.

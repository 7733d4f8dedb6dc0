(** Further facts about fields: storages are determined by their images,
    independent writes commute, storage sizes. *)
From Coq Require Import List NArith Bool ZArith Lia ZifyBool ZifyN ZifyNat.
From Verif Require Import FieldModel FieldSpec FieldProofs FieldProofs2.
Import ListNotations.
Local Open Scope N_scope.

Lemma image_inj es st : 0 < es -> forall st', storage_ok es st -> storage_ok es st' ->
  length st = length st' -> image es st = image es st' -> st = st'.
Proof.
  intros Hes. induction st as [|e st IH]; intros [|e' st'] H H' Hl Hi; try discriminate; auto.
  inversion H; inversion H'; subst. cbn [image] in Hi. cbn in Hl.
  assert (Hp : 2 ^ es <> 0) by (apply N.pow_nonzero; lia).
  assert (Hm : e = e').
  { rewrite <- (N.mod_small e (2 ^ es)), <- (N.mod_small e' (2 ^ es)) by auto.
    rewrite <- (N.mod_add e (image es st) (2 ^ es)), <- (N.mod_add e' (image es st') (2 ^ es)) by auto.
    f_equal. lia. }
  subst e'. f_equal. apply IH; auto.
  assert (Hq : 2 ^ es * image es st = 2 ^ es * image es st') by lia.
  apply N.mul_cancel_l in Hq; auto.
Qed.

Lemma nbits_len es st st' : length st' = length st -> nbits es st' = nbits es st.
Proof. unfold nbits. intros ->. auto. Qed.

Lemma place_some ls v k : covers ls k -> exists b, place ls v k = Some b.
Proof.
  intros H. unfold place. destruct (place_rev (rev ls) v k) eqn:E; eauto.
  exfalso. apply (proj2 (place_rev_none (rev ls) k v) E). apply covers_rev; auto.
Qed.
Lemma place_none ls v k : ~ covers ls k -> place ls v k = None.
Proof.
  intros H. unfold place. apply place_rev_none. rewrite covers_rev. auto.
Qed.

Lemma covers_dec ls k : covers ls k \/ ~ covers ls k.
Proof.
  destruct (place ls 0 k) eqn:E.
  - left. induction ls as [|x ls IH] using rev_ind; [discriminate|].
    unfold place in E. rewrite rev_unit in E. cbn [place_rev] in E.
    apply covers_app. destruct (N.leb_spec (loc_start x) k); cbn [andb] in E.
    + destruct (N.ltb_spec k (loc_start x + l_size x)).
      * right. exists x. split; [left; auto|]. unfold loc_covers. lia.
      * left. rewrite N.shiftr_0_l in E. apply IH. auto.
    + left. rewrite N.shiftr_0_l in E. apply IH. auto.
  - right. intros H. destruct (place_some ls 0 k H). congruence.
Qed.

Lemma slice_ext a b p n : (forall k, p <= k < p + n -> N.testbit a k = N.testbit b k) -> slice a p n = slice b p n.
Proof.
  intros H. apply N.bits_inj. intros i. unfold slice.
  destruct (N.lt_ge_cases i n).
  - rewrite !N.mod_pow2_bits_low by auto. rewrite !N.shiftr_spec'. apply H. lia.
  - rewrite !N.mod_pow2_bits_high by auto. auto.
Qed.
Lemma concat_ext a b ls : (forall k, covers ls k -> N.testbit a k = N.testbit b k) -> concat_value a ls = concat_value b ls.
Proof.
  induction ls as [|l ls IH] using rev_ind; intros H; auto.
  rewrite !concat_snoc. rewrite IH by (intros; apply H; apply covers_app; auto).
  f_equal. apply slice_ext. intros k Hk. apply H. apply covers_app. right. exists l. split; [left; auto|].
  unfold loc_covers. lia.
Qed.

(** Reading field [b] is unaffected by a write to a disjoint field [a]. *)
Lemma insert_other es ewa ewb a b v st st' :
  elem_width es -> field_wf ewa a -> field_wf ewb b -> field_write_ok es ewa a -> field_ok es b ->
  storage_ok es st -> fits (nbits es st) a -> fits (nbits es st) b -> disjoint_locs a -> v < 2 ^ ewa ->
  (forall k, covers a k -> ~ covers b k) ->
  field_insert es ewa a v st = Done st' ->
  field_extract es ewb b st' = field_extract es ewb b st.
Proof.
  intros Hes Ha Hb Hwa Hob Hst Hfa Hfb Hda Hv Hd Hi.
  destruct (field_insert_spec es ewa a v st) as (s & Hs & Hlen & Hok & Hout & _); auto.
  rewrite Hi in Hs. injection Hs as <-.
  rewrite !field_extract_spec; auto. 2:{ rewrite (nbits_len es st); auto. }
  f_equal. apply concat_ext. intros k Hk. symmetry. apply Hout. intros Hc. apply (Hd k); auto.
Qed.

Lemma insert_commute es ewa ewb a b va vb st :
  elem_width es -> field_wf ewa a -> field_wf ewb b -> field_write_ok es ewa a -> field_write_ok es ewb b ->
  storage_ok es st -> fits (nbits es st) a -> fits (nbits es st) b -> disjoint_locs a -> disjoint_locs b ->
  va < 2 ^ ewa -> vb < 2 ^ ewb ->
  (forall k, covers a k -> ~ covers b k) ->
  exists s, bind (field_insert es ewa a va st) (field_insert es ewb b vb) = Done s /\
            bind (field_insert es ewb b vb st) (field_insert es ewa a va) = Done s.
Proof.
  intros Hes Ha Hb Hwa Hwb Hst Hfa Hfb Hda Hdb Hva Hvb Hd.
  destruct (field_insert_spec es ewa a va st) as (sa & Hsa & La & Oka & _ & _ & Ba); auto.
  destruct (field_insert_spec es ewb b vb st) as (sb & Hsb & Lb & Okb & _ & _ & Bb); auto.
  destruct (field_insert_spec es ewb b vb sa) as (sab & Hsab & Lab & Okab & _ & _ & Bab); auto.
  { rewrite (nbits_len es st); auto. }
  destruct (field_insert_spec es ewa a va sb) as (sba & Hsba & Lba & Okba & _ & _ & Bba); auto.
  { rewrite (nbits_len es st); auto. }
  exists sab. rewrite Hsa, Hsb. cbn [bind]. rewrite Hsab, Hsba. split; auto. f_equal.
  apply (image_inj es); auto using elem_pos; [congruence|].
  apply N.bits_inj. intros k. rewrite Bab, Bba, Ba, Bb.
  destruct (covers_dec a k) as [Hc|Hc].
  - rewrite (place_none b vb k) by (apply Hd; auto). destruct (place_some a va k Hc) as [x ->]. auto.
  - rewrite (place_none a va k Hc). destruct (place b vb k); auto.
Qed.

(** Reading and writing depend only on the image. *)
Lemma extract_width es1 es2 ew ls st1 st2 :
  elem_width es1 -> elem_width es2 -> field_wf ew ls -> field_ok es1 ls -> field_ok es2 ls ->
  storage_ok es1 st1 -> storage_ok es2 st2 -> fits (nbits es1 st1) ls -> fits (nbits es2 st2) ls ->
  image es1 st1 = image es2 st2 ->
  exists v, field_extract es1 ew ls st1 = Done v /\ field_extract es2 ew ls st2 = Done v.
Proof.
  intros. exists (concat_value (image es1 st1) ls). rewrite !field_extract_spec; auto. split; congruence.
Qed.
Lemma insert_width es1 es2 ew ls v st1 st2 :
  elem_width es1 -> elem_width es2 -> field_wf ew ls -> field_write_ok es1 ew ls -> field_write_ok es2 ew ls ->
  storage_ok es1 st1 -> storage_ok es2 st2 -> fits (nbits es1 st1) ls -> fits (nbits es2 st2) ls ->
  disjoint_locs ls -> v < 2 ^ ew ->
  image es1 st1 = image es2 st2 ->
  exists s1 s2, field_insert es1 ew ls v st1 = Done s1 /\ field_insert es2 ew ls v st2 = Done s2 /\
    image es1 s1 = image es2 s2.
Proof.
  intros Hes1 Hes2 Hw Ho1 Ho2 Hs1 Hs2 Hf1 Hf2 Hd Hv Hi.
  destruct (field_insert_spec es1 ew ls v st1) as (a & Ha & _ & _ & _ & _ & Ba); auto.
  destruct (field_insert_spec es2 ew ls v st2) as (b & Hb & _ & _ & _ & _ & Bb); auto.
  exists a, b. split; auto. split; auto. apply N.bits_inj. intros k. rewrite Ba, Bb, Hi. auto.
Qed.

(** Storage no wider than 32 bits meets the alignment conditions. *)
Lemma narrow_ok es ew ls : es <= 32 -> field_write_ok es ew ls.
Proof. intros. apply Forall_forall. intros. split; left; auto. Qed.
Lemma narrow_read_ok es ls : es <= 32 -> field_ok es ls.
Proof. intros. apply Forall_forall. intros. left; auto. Qed.
Lemma write_read_ok es ew ls : field_write_ok es ew ls -> field_ok es ls.
Proof. unfold field_write_ok, field_ok. rewrite !Forall_forall. firstorder. Qed.

(** ** Storage sizes *)
Lemma ceil_ge a b : 0 < b -> a <= b * ((a + b - 1) / b).
Proof.
  intros H. pose proof (N.div_mod (a + b - 1) b ltac:(lia)) as Hd.
  pose proof (N.mod_lt (a + b - 1) b ltac:(lia)). lia.
Qed.
Lemma loc_extent_ok es l : elem_width es -> loc_start l + l_size l <= es * loc_extent es l.
Proof.
  intros Hes. unfold loc_extent, loc_start.
  set (bytes := l_index l * 4 + (l_lsb l + l_size l + 7) / 8).
  assert (H1 : l_index l * 32 + l_lsb l + l_size l <= 8 * bytes).
  { pose proof (ceil_ge (l_lsb l + l_size l) 8 ltac:(lia)) as H.
    replace (l_lsb l + l_size l + 8 - 1) with (l_lsb l + l_size l + 7) in H by lia. unfold bytes. lia. }
  assert (H2 : 0 < es / 8 /\ es = 8 * (es / 8)).
  { destruct Hes as [->|[->|[->| ->]]]; split; reflexivity. }
  pose proof (ceil_ge bytes (es / 8) ltac:(lia)) as H3.
  destruct H2 as [H2 H4]. rewrite H4 at 1. nia.
Qed.
Lemma fold_max_ge xs : forall a, a <= fold_left N.max xs a /\ forall x, In x xs -> x <= fold_left N.max xs a.
Proof.
  induction xs as [|y xs IH]; intros a; cbn; [split; [lia|intros x []]|].
  destruct (IH (N.max a y)) as [H1 H2]. split; [lia|]. intros x [<-|Hx]; [lia|auto].
Qed.
Lemma field_extent_ok es ls : elem_width es -> fits (es * field_extent es ls) ls.
Proof.
  intros Hes l Hl. apply N.le_trans with (es * loc_extent es l); [apply loc_extent_ok; auto|].
  apply N.mul_le_mono_l. unfold field_extent. apply fold_max_ge. apply in_map. auto.
Qed.

(** The static check differs from the exact bound by one bit. *)
Lemma loc_fits_spec n l : 0 < l_size l -> loc_fits n l = true <-> loc_start l + l_size l <= n + 1.
Proof. intros H. unfold loc_fits, l_msb, loc_start. rewrite N.leb_le. lia. Qed.

(** A field whose last bit is inside is readable iff all its locations are inside. *)
Lemma field_extract_from_oob es ew ls st : elem_width es -> Forall loc_wf ls -> field_ok es ls ->
  (exists l, In l ls /\ nbits es st < loc_start l + l_size l) ->
  forall raw, (forall v, field_extract_from es ew ls raw st <> Done v).
Proof.
  intros Hes. induction ls as [|x ls IH]; intros Hw Ho (l & Hl & Hb) raw v; [destruct Hl|].
  inversion Hw; inversion Ho; subst. cbn [field_extract_from].
  destruct Hl as [->|Hl].
  - rewrite loc_extract_oob; auto. discriminate.
  - destruct (loc_extract es ew x st); cbn [bind]; try discriminate.
    apply IH; eauto.
Qed.
Lemma field_extract_oob es ew ls st : elem_width es -> field_wf ew ls -> field_ok es ls -> storage_ok es st ->
  (exists v, field_extract es ew ls st = Done v) <-> fits (nbits es st) ls.
Proof.
  intros Hes (Hr & Hw & Ht) Ho Hst. split.
  - intros (v & Hv) l Hl. destruct (N.le_gt_cases (loc_start l + l_size l) (nbits es st)); auto.
    exfalso. eapply field_extract_from_oob in Hv; eauto.
  - intros Hf. eexists. apply field_extract_spec; auto. split; auto.
Qed.

(** ** Locations given by [at] *)
Lemma at_loc_wf a : at_valid a = true -> loc_wf (at_loc a) /\ l_size (at_loc a) <= 64.
Proof.
  unfold at_valid, loc_wf, at_loc, at_size. cbn. intros H.
  assert (a_lsb a mod 32 < 32) by (apply N.mod_lt; lia). lia.
Qed.
Lemma at_loc_covers a k : at_valid a = true -> loc_covers (at_loc a) k <-> a_lsb a <= k <= a_msb a.
Proof.
  unfold at_valid, loc_covers, loc_start, at_loc, at_size. cbn. intros H.
  pose proof (N.div_mod (a_lsb a) 32 ltac:(lia)). lia.
Qed.
Lemma at_shift_covers n a k : at_valid a = true ->
  loc_covers (at_loc (at_shift n a)) (k + n) <-> loc_covers (at_loc a) k.
Proof.
  intros H. rewrite !at_loc_covers; auto.
  - cbn. lia.
  - unfold at_valid, at_size, at_shift in *. cbn. lia.
Qed.

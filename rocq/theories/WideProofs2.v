(** Exactly which fields are read and written in the right place. *)
From Coq Require Import List NArith ZArith Bool Lia ZifyBool ZifyN ZifyNat.
From Verif Require Import FieldModel FieldSpec FieldProofs FieldProofs2 FieldProofs3 WideSpec WideProofs.
Import ListNotations.
Local Open Scope N_scope.

Fixpoint room (ls : list loc) : N := match ls with [] => 0 | l :: r => loc_start l + l_size l + room r end.
Lemma room_fits ls n : room ls <= n -> fits n ls.
Proof.
  induction ls as [|x ls IH]; cbn [room]; intros H l Hl; [destruct Hl|].
  destruct Hl as [->|Hl]; [lia|]. apply IH; auto. lia.
Qed.
Lemma zeros_ok es n : storage_ok es (repeat 0 n).
Proof.
  apply Forall_forall. intros x Hx. apply repeat_spec in Hx. subst x. apply N.neq_0_lt_0, N.pow_nonzero. lia.
Qed.
Lemma zeros_image es n : image es (repeat 0 n) = 0.
Proof. induction n as [|n IH]; cbn [repeat image]; auto. rewrite IH. lia. Qed.
Lemma zeros_nbits es n : nbits es (repeat 0 n) = es * N.of_nat n.
Proof. unfold nbits. rewrite repeat_length. auto. Qed.

(** A storage with one bit set. *)
Lemma one_bit es n p : 0 < es -> p < es * N.of_nat n ->
  exists st, storage_ok es st /\ length st = n /\ forall k, N.testbit (image es st) k = (k =? p).
Proof.
  intros He Hp.
  assert (Hq : (N.to_nat (p / es) < n)%nat).
  { assert (p / es < N.of_nat n) by (apply N.div_lt_upper_bound; lia). lia. }
  assert (Hn : nth_error (repeat 0 n) (N.to_nat (p / es)) = Some 0).
  { destruct (nth_error_some (repeat 0 n) (N.to_nat (p / es))) as [x Hx]; [rewrite repeat_length; auto|].
    rewrite Hx. f_equal. apply nth_error_In, repeat_spec in Hx. auto. }
  assert (Hv : 2 ^ (p mod es) < 2 ^ es) by (apply N.pow_lt_mono_r; [lia|apply N.mod_lt; lia]).
  exists (set_nth (repeat 0 n) (N.to_nat (p / es)) (2 ^ (p mod es))).
  split; [apply set_nth_ok; auto using zeros_ok|]. split; [rewrite set_nth_length; apply repeat_length|].
  intros k. rewrite (image_set es _ _ _ 0) by (auto using zeros_ok).
  rewrite zeros_image, N.bits_0, Nnat.N2Nat.id.
  pose proof (N.div_mod k es). pose proof (N.div_mod p es).
  destruct (N.eqb_spec (k / es) (p / es)) as [Hd|Hd].
  - rewrite N.pow2_bits_eqb. destruct (N.eqb_spec (p mod es) (k mod es)) as [Hm|Hm]; symmetry.
    + apply N.eqb_eq. lia.
    + apply N.eqb_neq. intros ->. auto.
  - symmetry. apply N.eqb_neq. intros ->. auto.
Qed.

Lemma split_eq a b s x y : x < 2 ^ s -> y < 2 ^ s -> a * 2 ^ s + x = b * 2 ^ s + y -> a = b /\ x = y.
Proof.
  intros Hx Hy H. assert (Hp : 2 ^ s <> 0) by (apply N.pow_nonzero; lia).
  assert (Ha : (a * 2 ^ s + x) / 2 ^ s = a) by (rewrite N.add_comm, N.div_add, N.div_small; auto).
  assert (Hb : (b * 2 ^ s + y) / 2 ^ s = b) by (rewrite N.add_comm, N.div_add, N.div_small; auto).
  assert (a = b) by congruence. subst b. split; auto. lia.
Qed.
Lemma concat_slices img es ls : concat_value img (map (seat es) ls) = concat_value img ls ->
  forall l, In l ls -> slice img (loc_start (seat es l)) (l_size l) = slice img (loc_start l) (l_size l).
Proof.
  induction ls as [|x ls IH] using rev_ind; intros H l Hl; [destruct Hl|].
  rewrite map_app in H. cbn [map] in H. rewrite !concat_snoc, seat_size in H.
  apply split_eq in H as [H1 H2]; try apply slice_lt.
  apply in_app_or in Hl as [Hl|[<-|[]]]; auto.
Qed.

Lemma aligned_dec es l : elem_width es -> aligned_for es l \/ (es = 64 /\ N.even (l_index l) = false).
Proof.
  unfold aligned_for. intros [->|[->|[->| ->]]]; try (left; left; lia).
  destruct (N.even (l_index l)); auto.
Qed.

Lemma read_right_iff es ew ls : elem_width es -> field_wf ew ls ->
  (forall st, storage_ok es st -> fits (nbits es st) ls -> field_extract es ew ls st = Done (concat_value (image es st) ls)) <->
  field_ok es ls.
Proof.
  intros Hes Hw. split; [|intros; apply field_extract_spec; auto].
  intros H. apply Forall_forall. intros l Hl. destruct (aligned_dec es l Hes) as [|[He Ho]]; auto. exfalso. subst es.
  assert (Hwl : loc_wf l). { destruct Hw as (_ & Hw & _). rewrite Forall_forall in Hw. auto. }
  destruct (one_bit 64 (N.to_nat (room ls)) (loc_start l)) as (st & Hs & Hn & Hb); [lia| |].
  { assert (Hf : fits (room ls) ls) by (apply room_fits; lia). specialize (Hf l Hl). destruct Hwl. lia. }
  assert (Hf : fits (nbits 64 st) ls). { apply room_fits. unfold nbits. rewrite Hn. lia. }
  specialize (H st Hs Hf). rewrite read_exact in H; auto using fits_seat.
  assert (Hc : concat_value (image 64 st) (map (seat 64) ls) = concat_value (image 64 st) ls) by congruence.
  pose proof (concat_slices _ _ _ Hc l Hl) as Hsl.
  apply (f_equal (fun x => N.testbit x 0)) in Hsl. rewrite !tb_slice, !Hb in Hsl.
  destruct Hwl as [_ Hwl]. rewrite (seat_below l Ho) in Hsl. lia.
Qed.

(** ** Writing *)
Lemma place_ones rls : forall k, covers rls k -> place_rev rls (N.ones (total_size rls)) k = Some true.
Proof.
  assert (H : forall rls n, total_size rls <= n -> forall k, covers rls k -> place_rev rls (N.ones n) k = Some true).
  { clear rls. induction rls as [|l rls IH]; intros n Hn k (x & Hx & Hk); [destruct Hx|].
    cbn [place_rev]. cbn [total_size fold_right] in Hn. fold (total_size rls) in Hn.
    destruct ((loc_start l <=? k) && (k <? loc_start l + l_size l)) eqn:E.
    - rewrite tb_ones. f_equal. lia.
    - replace (N.shiftr (N.ones n) (l_size l)) with (N.ones (n - l_size l)).
      2:{ apply N.bits_inj. intros i. rewrite tb_shiftr, !tb_ones. lia. }
      apply IH; [lia|]. destruct Hx as [->|Hx]; [unfold loc_covers in Hk; lia|]. exists x. auto. }
  intros k Hk. apply H; auto. lia.
Qed.
Lemma stored_none es ew rls k : (forall l, In l rls -> loc_start (seat es l) <= k -> kept es ew l <= k - loc_start (seat es l)) ->
  forall v old, old k = false -> stored_rev es ew rls v old k = false.
Proof.
  induction rls as [|l rls IH]; intros H v old Ho; cbn [stored_rev]; auto.
  apply IH; [intros; apply H; auto; right; auto|].
  destruct (N.leb_spec (loc_start (seat es l)) k) as [Ha|Ha]; cbn [andb]; auto.
  destruct (N.ltb_spec k (loc_start (seat es l) + l_size l)); auto.
  specialize (H l (or_introl eq_refl) Ha). lia.
Qed.
Lemma disjoint_same ls a b k : disjoint_locs ls -> In a ls -> In b ls -> loc_covers a k -> loc_covers b k -> a = b.
Proof.
  induction ls as [|x ls IH]; intros Hd Ha Hb Hka Hkb; [destruct Ha|]. destruct Hd as [Hd Hd'].
  destruct Ha as [->|Ha], Hb as [->|Hb]; auto.
  - exfalso. apply (Hd k Hka). exists b. auto.
  - exfalso. apply (Hd k Hkb). exists a. auto.
Qed.
Lemma topmost (p : loc -> bool) ls l : In l ls -> p l = true ->
  exists m, In m ls /\ p m = true /\ forall x, In x ls -> p x = true -> loc_start x + l_size x <= loc_start m + l_size m.
Proof.
  revert l. induction ls as [|y ls IH]; intros l Hl Hp; [destruct Hl|].
  destruct (existsb p ls) eqn:E.
  - apply existsb_exists in E as (z & Hz & Hpz). destruct (IH z Hz Hpz) as (m & Hm & Hpm & Hmax).
    destruct (p y) eqn:Ey.
    + destruct (N.le_gt_cases (loc_start y + l_size y) (loc_start m + l_size m)).
      * exists m. split; [right; auto|]. split; auto. intros x [<-|Hx] Hpx; auto.
      * exists y. split; [left; auto|]. split; auto. intros x [<-|Hx] Hpx; [lia|]. specialize (Hmax x Hx Hpx). lia.
    + exists m. split; [right; auto|]. split; auto. intros x [<-|Hx] Hpx; auto. congruence.
  - destruct Hl as [->|Hl].
    + exists l. split; [left; auto|]. split; auto. intros x [<-|Hx] Hpx; [lia|].
      exfalso. assert (existsb p ls = true) by (apply existsb_exists; eauto). congruence.
    + exfalso. assert (existsb p ls = true) by (apply existsb_exists; eauto). congruence.
Qed.
Lemma kept_le es ew l : kept es ew l <= l_size l.
Proof. unfold kept. destruct (_ && _); lia. Qed.

(** If some covered bit gets nothing, the write is wrong. *)
Lemma write_misses es ew ls k : elem_width es -> field_wf ew ls -> covers ls k ->
  (forall l, In l ls -> loc_start (seat es l) <= k -> kept es ew l <= k - loc_start (seat es l)) ->
  exists v st, v < 2 ^ ew /\ storage_ok es st /\ fits (nbits es st) ls /\
    forall st', field_insert es ew ls v st = Done st' ->
      ~ forall i, N.testbit (image es st') i = should_hold ls v (N.testbit (image es st)) i.
Proof.
  intros Hes Hw Hc Hk. pose proof Hw as (Hew & Hwf & Hsz).
  exists (N.ones (total_size ls)), (repeat 0 (N.to_nat (room ls))).
  assert (Hv : N.ones (total_size ls) < 2 ^ ew).
  { rewrite N.ones_equiv. apply N.lt_le_trans with (2 ^ total_size ls); [|apply N.pow_le_mono_r; lia].
    apply N.lt_pred_l, N.pow_nonzero. lia. }
  assert (Hf : fits (nbits es (repeat 0 (N.to_nat (room ls)))) ls).
  { apply room_fits. rewrite zeros_nbits. pose proof (elem_pos es Hes). nia. }
  split; auto. split; [apply zeros_ok|]. split; auto.
  intros st' Hi H.
  destruct (write_exact es ew ls (N.ones (total_size ls)) (repeat 0 (N.to_nat (room ls)))) as (s & Hs & _ & _ & Hb);
    auto using zeros_ok, fits_seat.
  rewrite Hi in Hs. injection Hs as <-. specialize (Hb k). rewrite H in Hb.
  unfold should_hold, place in Hb. rewrite <- total_size_rev, place_ones in Hb by (apply covers_rev; auto).
  unfold stored in Hb. rewrite stored_none in Hb; [discriminate| |].
  - intros l Hl. apply Hk. apply in_rev; auto.
  - rewrite zeros_image. apply N.bits_0.
Qed.

Lemma write_right_iff es ew ls : elem_width es -> field_wf ew ls -> disjoint_locs ls ->
  (forall v st, v < 2 ^ ew -> storage_ok es st -> fits (nbits es st) ls ->
     exists st', field_insert es ew ls v st = Done st' /\
       forall k, N.testbit (image es st') k = should_hold ls v (N.testbit (image es st)) k) <->
  field_write_ok es ew ls.
Proof.
  intros Hes Hw Hd. split.
  2:{ intros Ho v st Hv Hst Hf. destruct (field_insert_spec es ew ls v st) as (s & H1 & _ & _ & _ & _ & H2); auto.
      exists s. auto. }
  intros H. pose proof Hw as (Hew & Hwf & Hsz). rewrite Forall_forall in Hwf.
  assert (Hno : forall k, covers ls k ->
     ~ forall l, In l ls -> loc_start (seat es l) <= k -> kept es ew l <= k - loc_start (seat es l)).
  { intros k Hc Hk. destruct (write_misses es ew ls k Hes Hw Hc Hk) as (v & st & Hv & Hs & Hf & Hn).
    destruct (H v st Hv Hs Hf) as (st' & Hi & Hb). apply (Hn st' Hi Hb). }
  assert (Hal : forall l, In l ls -> aligned_for es l).
  { intros l0 Hl0. destruct (aligned_dec es l0 Hes) as [|[He Ho0]]; auto. exfalso. subst es.
    destruct (topmost (fun l => negb (N.even (l_index l))) ls l0 Hl0) as (l & Hl & Ho & Hmax); [rewrite Ho0; auto|].
    apply negb_true_iff in Ho. destruct (Hwf l Hl) as [Hl32 Hlp].
    apply (Hno (loc_start l + l_size l - 1)).
    - exists l. split; auto. unfold loc_covers. lia.
    - intros x Hx Hle. pose proof (kept_le 64 ew x).
      destruct (N.even (l_index x)) eqn:Ex.
      + assert (Hs : seat 64 x = x) by (apply seat_same; auto; right; auto). rewrite Hs in *.
        destruct (N.le_gt_cases (l_size x) (loc_start l + l_size l - 1 - loc_start x)); [lia|].
        exfalso. assert (x = l).
        { apply (disjoint_same ls x l (loc_start l + l_size l - 1)); auto; unfold loc_covers; lia. }
        subst x. congruence.
      + pose proof (seat_below x Ex). assert (loc_start x + l_size x <= loc_start l + l_size l) by (apply Hmax; auto; rewrite Ex; auto).
        lia. }
  apply Forall_forall. intros l Hl. split; [auto|].
  unfold shift_fits. destruct (N.le_gt_cases es 32) as [|He]; auto.
  assert (es = 64) by (destruct Hes as [->|[->|[->| ->]]]; lia). subst es.
  destruct (N.eq_dec ew 64); auto. right; right.
  assert (Hew32 : ew <= 32) by (destruct Hew as [->|[->|[->| ->]]]; lia).
  destruct (N.le_gt_cases (l_lsb l + l_size l) 32) as [|Hgt]; auto. exfalso.
  destruct (Hwf l Hl) as [Hl32 Hlp].
  apply (Hno (loc_start l + l_size l - 1)).
  - exists l. split; auto. unfold loc_covers. lia.
  - intros x Hx Hle. rewrite (seat_same 64 x) in * by auto. pose proof (kept_le 64 ew x).
    destruct (N.le_gt_cases (l_size x) (loc_start l + l_size l - 1 - loc_start x)); [lia|].
    assert (x = l).
    { apply (disjoint_same ls x l (loc_start l + l_size l - 1)); auto; unfold loc_covers; lia. }
    subst x. unfold kept. cbn [N.eqb Pos.eqb andb]. replace (ew <=? 32) with true by lia. lia.
Qed.

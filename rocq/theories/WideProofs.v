(** Reading and writing fields in storages of any element width. *)
From Coq Require Import List NArith ZArith Bool Lia ZifyBool ZifyN ZifyNat.
From Verif Require Import FieldModel FieldSpec FieldProofs FieldProofs2 FieldProofs3 WideSpec.
Import ListNotations.
Local Open Scope N_scope.

Lemma seat_size es l : l_size (seat es l) = l_size l.
Proof. unfold seat. destruct (es =? 64); auto. Qed.
Lemma seat_lsb es l : l_lsb (seat es l) = l_lsb l.
Proof. unfold seat. destruct (es =? 64); auto. Qed.
Lemma seat_wf es l : loc_wf l -> loc_wf (seat es l).
Proof. unfold loc_wf. rewrite seat_size, seat_lsb. auto. Qed.
Lemma even_down n : N.even (n - n mod 2) = true.
Proof.
  apply N.even_spec. exists (n / 2). pose proof (N.div_mod n 2). lia.
Qed.
Lemma seat_aligned es l : elem_width es -> aligned_for es (seat es l).
Proof.
  unfold aligned_for, seat. intros [->|[->|[->| ->]]]; cbn [N.eqb Pos.eqb]; try (left; lia).
  right. cbn [l_index]. apply even_down.
Qed.
Lemma seat_le es l : loc_start (seat es l) <= loc_start l.
Proof. unfold loc_start. rewrite seat_lsb. unfold seat. destruct (es =? 64); cbn [l_index]; lia. Qed.
Lemma base_seat es l : elem_width es -> base_index es (seat es l) = base_index es l.
Proof.
  unfold seat, base_index. intros [->|[->|[->| ->]]]; cbn [N.eqb Pos.eqb]; auto.
  cbn [l_index]. change (64 / 8) with 8.
  pose proof (N.div_mod (l_index l) 2). pose proof (N.mod_lt (l_index l) 2).
  set (q := l_index l / 2) in *. set (r := l_index l mod 2) in *.
  replace ((l_index l - r) * 4) with (q * 8) by lia.
  replace (l_index l * 4) with (r * 4 + q * 8) by lia.
  rewrite N.div_mul, N.div_add by lia. rewrite (N.div_small (r * 4) 8) by lia. lia.
Qed.
Lemma seat_same es l : elem_width es -> aligned_for es l -> seat es l = l.
Proof.
  unfold aligned_for, seat. intros [->|[->|[->| ->]]] H; cbn [N.eqb Pos.eqb]; auto.
  destruct H as [H|H]; [lia|]. apply N.even_spec in H as [m H].
  destruct l as [i s b]. cbn [l_index l_size l_lsb] in *. f_equal.
  rewrite H, (N.mul_comm 2 m), N.mod_mul by lia. lia.
Qed.
(** A location out of place is one dword above its seat. *)
Lemma seat_below l : N.even (l_index l) = false -> loc_start l = loc_start (seat 64 l) + 32.
Proof.
  intros H. unfold loc_start. rewrite seat_lsb. unfold seat. cbn [N.eqb Pos.eqb l_index].
  assert (Ho : N.odd (l_index l) = true) by (rewrite <- N.negb_even, H; auto).
  apply N.odd_spec in Ho as [m Ho]. rewrite Ho.
  replace ((2 * m + 1) mod 2) with 1.
  2:{ rewrite N.add_comm, N.mul_comm, N.mod_add by lia. reflexivity. }
  lia.
Qed.

(** ** Reading *)
Lemma extract_seat es ew l st : elem_width es -> loc_extract es ew l st = loc_extract es ew (seat es l) st.
Proof.
  intros H. unfold loc_extract, l_msb. rewrite base_seat, seat_lsb, seat_size by auto. reflexivity.
Qed.
Lemma extract_from_seat es ew ls st : elem_width es -> forall raw,
  field_extract_from es ew ls raw st = field_extract_from es ew (map (seat es) ls) raw st.
Proof.
  intros H. induction ls as [|l ls IH]; intros raw; cbn [field_extract_from map]; auto.
  rewrite extract_seat by auto. destruct (loc_extract es ew (seat es l) st); cbn [bind]; auto.
  rewrite IH. unfold unfold_value. rewrite seat_size. reflexivity.
Qed.
Lemma total_seat es ls : total_size (map (seat es) ls) = total_size ls.
Proof. unfold total_size. induction ls as [|l ls IH]; cbn [map fold_right]; auto. rewrite seat_size, IH. auto. Qed.
Lemma wf_seat es ew ls : field_wf ew ls -> field_wf ew (map (seat es) ls).
Proof.
  intros (H1 & H2 & H3). split; auto. split; [|rewrite total_seat; auto].
  apply Forall_forall. intros l Hl. apply in_map_iff in Hl as (x & <- & Hx). apply seat_wf.
  rewrite Forall_forall in H2. auto.
Qed.
Lemma ok_seat es ls : elem_width es -> field_ok es (map (seat es) ls).
Proof.
  intros H. apply Forall_forall. intros l Hl. apply in_map_iff in Hl as (x & <- & Hx). apply seat_aligned; auto.
Qed.
Lemma fits_seat es n ls : fits n ls -> fits n (map (seat es) ls).
Proof.
  intros H l Hl. apply in_map_iff in Hl as (x & <- & Hx). rewrite seat_size. pose proof (seat_le es x).
  specialize (H x Hx). lia.
Qed.
Lemma read_exact es ew ls st :
  elem_width es -> field_wf ew ls -> storage_ok es st -> fits (nbits es st) (map (seat es) ls) ->
  field_extract es ew ls st = Done (concat_value (image es st) (map (seat es) ls)).
Proof.
  intros Hes Hw Hs Hf. unfold field_extract. rewrite extract_from_seat by auto.
  apply field_extract_spec; auto using wf_seat, ok_seat.
Qed.
Lemma read_iff es ew ls st :
  elem_width es -> field_wf ew ls -> storage_ok es st ->
  (exists v, field_extract es ew ls st = Done v) <-> fits (nbits es st) (map (seat es) ls).
Proof.
  intros Hes Hw Hs. unfold field_extract. rewrite extract_from_seat by auto. fold (field_extract es ew (map (seat es) ls) st).
  apply field_extract_oob; auto using wf_seat, ok_seat.
Qed.

(** ** Writing *)
Lemma insert_seat es ew l v st : elem_width es -> loc_insert es ew l v st = loc_insert es ew (seat es l) v st.
Proof.
  intros H. unfold loc_insert, l_msb. rewrite base_seat, seat_lsb, seat_size by auto. reflexivity.
Qed.
Lemma kept_all es ew l : raw_width ew -> loc_wf l -> shift_fits es ew l -> kept es ew l = l_size l.
Proof.
  unfold kept, shift_fits, loc_wf. intros Hew Hl H.
  destruct (N.eqb_spec es 64); cbn [andb]; auto. destruct (N.leb_spec ew 32); auto.
  destruct H as [H|[H|H]]; lia.
Qed.

(** One location in a 64-bit element, of a type of at most 32 bits. *)
Lemma insert_narrow_type ew l v st :
  raw_width ew -> ew <= 32 -> loc_wf l -> l_size l <= ew -> aligned_for 64 l ->
  storage_ok 64 st -> loc_start l + l_size l <= nbits 64 st -> v < 2 ^ l_size l ->
  exists st', loc_insert 64 ew l v st = Done st' /\ length st' = length st /\ storage_ok 64 st' /\
  forall k, N.testbit (image 64 st') k =
    if (loc_start l <=? k) && (k <? loc_start l + l_size l)
    then (k - loc_start l <? kept 64 ew l) && N.testbit v (k - loc_start l) else N.testbit (image 64 st) k.
Proof.
  intros Hew Hn [Hl Hs] Hsz Ha Hst Hb Hv.
  assert (Hbase : 64 * base_index 64 l = l_index l * 32) by (apply base_eq; auto; right; right; right; auto).
  unfold loc_insert. set (base := base_index 64 l) in *.
  assert (Hm : l_msb l < 64) by (unfold l_msb; lia).
  rewrite (N.div_small (l_msb l) 64), (N.div_small (l_lsb l) 64) by lia.
  rewrite N.add_0_r, N.sub_diag. cbn [N.to_nat insert_loop].
  rewrite (N.div_small (l_lsb l) 64), N.add_0_r, N.eqb_refl, (N.mod_small (l_lsb l)), (N.mod_small (l_msb l)) by lia.
  assert (Hbd : base < N.of_nat (length st)). { unfold nbits, loc_start in Hb. lia. }
  destruct (rd_done st base Hbd) as (e & He & Hn').
  rewrite He. cbn [bind]. unfold shl, promoted. replace (l_lsb l <? N.max 32 (N.max ew 0)) with true by lia. cbn [bind].
  unfold wr. rewrite Hn'. replace (N.max 32 (N.max ew 0)) with 32 by lia.
  set (w := N.lor (N.ldiff e (bit_mask (l_msb l) (l_lsb l))) ((N.shiftl v (l_lsb l) mod 2 ^ 32) mod 2 ^ 64)).
  assert (Hwb : forall i, N.testbit w i =
     if (l_lsb l <=? i) && (i <? l_lsb l + l_size l) then (i <? 32) && N.testbit v (i - l_lsb l) else N.testbit e i).
  { intros i. unfold w. rewrite N.lor_spec, N.ldiff_spec, tb_mask, tb_mod, tb_mod, tb_shiftl by (unfold l_msb; lia).
    replace (i <=? l_msb l) with (i <? l_lsb l + l_size l) by (unfold l_msb; lia).
    destruct (N.leb_spec (l_lsb l) i); cbn [andb].
    - destruct (N.ltb_spec i (l_lsb l + l_size l)); cbn [andb negb].
      + rewrite andb_false_r. cbn [orb]. replace (i <? 64) with true by lia. reflexivity.
      + rewrite andb_true_r. rewrite (tb_small v (l_size l) (i - l_lsb l)) by (auto; lia).
        rewrite !andb_false_r, orb_false_r. reflexivity.
    - cbn [negb]. rewrite andb_true_r, !andb_false_r, orb_false_r. reflexivity. }
  assert (Hwl : w < 2 ^ 64).
  { apply tb_lt. intros i Hi. rewrite Hwb. replace (i <? l_lsb l + l_size l) with false by lia.
    rewrite andb_false_r. eapply tb_small; [eapply elem_lt; eauto|auto]. }
  eexists. split; [reflexivity|]. split; [apply set_nth_length|]. split; [apply set_nth_ok; auto|].
  intros k. rewrite (image_set 64 st (N.to_nat base) w e) by (auto; lia).
  unfold kept. cbn [N.eqb Pos.eqb andb]. replace (ew <=? 32) with true by lia.
  unfold loc_start.
  pose proof (N.div_mod k 64) as Hk. pose proof (N.mod_lt k 64) as Hr.
  set (q := k / 64) in *. set (r := k mod 64) in *. clearbody q r.
  assert (k = 64 * q + r) as -> by lia. clear Hk. assert (r < 64) by lia. clear Hr.
  rewrite Nnat.N2Nat.id, <- Hbase.
  destruct (N.eqb_spec q base) as [->|Hq].
  - rewrite Hwb. rewrite (image_rd 64 st base e) by (auto; lia).
    replace (64 * base + l_lsb l <=? 64 * base + r) with (l_lsb l <=? r) by lia.
    replace (64 * base + r <? 64 * base + l_lsb l + l_size l) with (r <? l_lsb l + l_size l) by lia.
    destruct (N.leb_spec (l_lsb l) r); cbn [andb]; auto.
    destruct (N.ltb_spec r (l_lsb l + l_size l)); cbn [andb]; auto.
    replace (64 * base + r - (64 * base + l_lsb l)) with (r - l_lsb l) by lia. f_equal. lia.
  - replace ((64 * base + l_lsb l <=? 64 * q + r) && (64 * q + r <? 64 * base + l_lsb l + l_size l)) with false by lia.
    reflexivity.
Qed.

Lemma insert_exact es ew l v st :
  elem_width es -> raw_width ew -> loc_wf l -> l_size l <= ew ->
  storage_ok es st -> loc_start (seat es l) + l_size l <= nbits es st -> v < 2 ^ l_size l ->
  exists st', loc_insert es ew l v st = Done st' /\ length st' = length st /\ storage_ok es st' /\
  forall k, N.testbit (image es st') k =
    if (loc_start (seat es l) <=? k) && (k <? loc_start (seat es l) + l_size l)
    then (k - loc_start (seat es l) <? kept es ew l) && N.testbit v (k - loc_start (seat es l)) else N.testbit (image es st) k.
Proof.
  intros Hes Hew Hl Hsz Hst Hb Hv. rewrite insert_seat by auto.
  assert (Hk : kept es ew l = kept es ew (seat es l)) by (unfold kept; rewrite seat_size, seat_lsb; auto).
  rewrite Hk, <- (seat_size es l). rewrite <- (seat_size es l) in Hsz, Hb, Hv.
  pose proof (seat_wf es l Hl) as Hw. pose proof (seat_aligned es l Hes) as Ha.
  set (s := seat es l) in *. clearbody s.
  destruct (N.eqb_spec es 64) as [->|H64].
  1: destruct (N.leb_spec ew 32) as [H32|H32].
  - apply insert_narrow_type; auto.
  - assert (Hf : shift_fits 64 ew s).
    { right. left. destruct Hew as [->|[->|[->| ->]]]; auto; lia. }
    destruct (loc_insert_spec 64 ew s v st) as (st' & H1 & H2 & H3 & H4); auto.
    exists st'. repeat split; auto. intros k. rewrite H4, kept_all by auto.
    destruct (N.leb_spec (loc_start s) k); cbn [andb]; auto.
    destruct (N.ltb_spec k (loc_start s + l_size s)); auto.
    replace (k - loc_start s <? l_size s) with true by lia. auto.
  - assert (Hf : shift_fits es ew s).
    { left. destruct Hes as [->|[->|[->| ->]]]; auto; lia. }
    destruct (loc_insert_spec es ew s v st) as (st' & H1 & H2 & H3 & H4); auto.
    exists st'. repeat split; auto. intros k. rewrite H4, kept_all by auto.
    destruct (N.leb_spec (loc_start s) k); cbn [andb]; auto.
    destruct (N.ltb_spec k (loc_start s + l_size s)); auto.
    replace (k - loc_start s <? l_size s) with true by lia. auto.
Qed.

Lemma stored_rev_ext es ew rls : forall v a b k, (forall i, a i = b i) -> stored_rev es ew rls v a k = stored_rev es ew rls v b k.
Proof.
  induction rls as [|l rls IH]; intros v a b k H; cbn [stored_rev]; auto.
  apply IH. intros i. rewrite H. auto.
Qed.
Lemma insert_rev_exact es ew rls :
  elem_width es -> raw_width ew -> forall v st, v < 2 ^ ew -> storage_ok es st ->
  Forall (fun l => loc_wf l /\ l_size l <= ew /\ loc_start (seat es l) + l_size l <= nbits es st) rls ->
  exists st', field_insert_rev es ew rls v st = Done st' /\ length st' = length st /\ storage_ok es st' /\
  forall k, N.testbit (image es st') k = stored_rev es ew rls v (N.testbit (image es st)) k.
Proof.
  intros Hes Hew. induction rls as [|l rls IH]; intros v st Hv Hst Hall; cbn [field_insert_rev stored_rev].
  - exists st. auto.
  - inversion Hall as [|? ? (Hwf & Hsz & Hb) Hall']; subst.
    set (m := N.land v (bit_mask (l_size l - 1) 0)).
    assert (Hm : forall i, N.testbit m i = (i <? l_size l) && N.testbit v i).
    { intros i. unfold m. destruct Hwf as [_ Hwf]. rewrite N.land_spec, tb_mask by lia.
      replace (0 <=? i) with true by lia. cbn. rewrite andb_comm. f_equal.
      destruct (N.leb_spec i (l_size l - 1)); symmetry; [apply N.ltb_lt|apply N.ltb_ge]; lia. }
    destruct (insert_exact es ew l m st) as (st1 & H1 & Hlen1 & Hok1 & Hbits1); auto.
    { apply tb_lt. intros i Hi. rewrite Hm. replace (i <? l_size l) with false by lia. reflexivity. }
    rewrite H1. cbn [bind]. rewrite fold_spec by auto.
    destruct (IH (N.shiftr v (l_size l)) st1) as (st' & H2 & Hlen & Hok & Hbits); auto.
    { apply tb_lt. intros i Hi. rewrite tb_shiftr. eapply tb_small; eauto. lia. }
    { unfold nbits in *. rewrite Hlen1. auto. }
    exists st'. rewrite H2. repeat split; auto; try congruence.
    intros k. rewrite Hbits. apply stored_rev_ext. intros i. rewrite Hbits1.
    destruct (N.leb_spec (loc_start (seat es l)) i) as [Ha|Ha]; cbn [andb]; auto.
    destruct (N.ltb_spec i (loc_start (seat es l) + l_size l)) as [Hc|Hc]; cbn [andb]; auto.
    rewrite Hm. replace (i - loc_start (seat es l) <? l_size l) with true by lia. reflexivity.
Qed.
Lemma write_exact es ew ls v st :
  elem_width es -> field_wf ew ls -> storage_ok es st -> fits (nbits es st) (map (seat es) ls) -> v < 2 ^ ew ->
  exists st', field_insert es ew ls v st = Done st' /\ length st' = length st /\ storage_ok es st' /\
  forall k, N.testbit (image es st') k = stored es ew ls v (N.testbit (image es st)) k.
Proof.
  intros Hes (Hew & Hwf & Hsz) Hst Hf Hv. apply insert_rev_exact; auto.
  apply Forall_forall. intros l Hl. apply in_rev in Hl. rewrite Forall_forall in Hwf.
  split; auto. split; [pose proof (total_ge ls l Hl); lia|].
  rewrite <- (seat_size es l). apply Hf. apply in_map. auto.
Qed.

(** Proofs about packets and their decoding. *)
From Coq Require Import String Ascii Bool Arith List NArith ZArith Lia.
From Coq Require Import ZifyN ZifyNat ZifyBool.
From Verif Require Import FieldModel FieldSpec FieldProofs FieldProofs2 MessageModel MessageSpec MessageProofs MessageProps MipiModel MipiSpec.
Import ListNotations.
Local Open Scope N_scope.

(** ** Bytes *)
Lemma pow256 n : 256 ^ N.of_nat n = 2 ^ (8 * N.of_nat n).
Proof. change 256 with (2 ^ 8). rewrite <- N.pow_mul_r. reflexivity. Qed.
Lemma le_bytes_length n v : length (le_bytes n v) = n.
Proof. revert v. induction n; cbn; auto. Qed.
Lemma from_le_bytes n : forall v, from_le (le_bytes n v) = v mod 2 ^ (8 * N.of_nat n).
Proof.
  induction n as [|n IH]; intros v; cbn [le_bytes from_le fold_right].
  - rewrite N.mod_1_r. reflexivity.
  - unfold from_le in IH. rewrite IH. replace (8 * N.of_nat (S n)) with (8 + 8 * N.of_nat n) by lia. rewrite N.pow_add_r.
    change 256 with (2 ^ 8). rewrite (N.mod_mul_r v (2 ^ 8) (2 ^ (8 * N.of_nat n))) by (apply N.pow_nonzero; discriminate). reflexivity.
Qed.
Lemma le_bytes_firstn n m : forall v, (n <= m)%nat -> firstn n (le_bytes m v) = le_bytes n v.
Proof. revert m. induction n as [|n IH]; intros [|m] v H; cbn; auto; [lia|]. f_equal. apply IH. lia. Qed.
Lemma le_bytes_app n m : forall v, le_bytes (n + m) v = (le_bytes n v ++ le_bytes m (v / 256 ^ N.of_nat n))%list.
Proof.
  induction n as [|n IH]; intros v; cbn [le_bytes Nat.add app].
  - rewrite N.div_1_r. reflexivity.
  - rewrite IH. f_equal. f_equal. rewrite N.div_div by (try apply N.pow_nonzero; discriminate). f_equal. f_equal.
    rewrite Nat2N.inj_succ, N.pow_succ_r'. reflexivity.
Qed.
Lemma le_bytes_mod n : forall v, le_bytes n (v mod 256 ^ N.of_nat n) = le_bytes n v.
Proof.
  induction n as [|n IH]; intros v; cbn [le_bytes]; auto. rewrite Nat2N.inj_succ, N.pow_succ_r'.
  rewrite N.mod_mul_r by (try apply N.pow_nonzero; discriminate). f_equal.
  - rewrite (N.mul_comm 256), N.mod_add by discriminate. apply N.mod_mod. discriminate.
  - rewrite (N.mul_comm 256), N.div_add, N.div_small, N.add_0_l by (try apply N.mod_lt; discriminate). apply IH.
Qed.
Lemma dwords_bytes b v : b = 4 \/ b = 8 -> flat_map (le_bytes 4) (dwords b v) = le_bytes (N.to_nat b) v.
Proof.
  unfold dwords. intros [->| ->]; cbn [N.eqb Pos.eqb flat_map].
  - rewrite app_nil_r. reflexivity.
  - rewrite app_nil_r. change (N.to_nat 8) with (4 + 4)%nat. rewrite le_bytes_app. change (2 ^ 32) with (256 ^ N.of_nat 4). f_equal. apply le_bytes_mod.
Qed.

(** ** Storage *)
Lemma set_nth_app (pre : list N) : forall o w rest, set_nth (pre ++ o :: rest) (length pre) w = (pre ++ w :: rest)%list.
Proof. induction pre as [|a pre IH]; intros o w rest; cbn; auto. f_equal. apply IH. Qed.
Lemma put_spec ws : forall pre old, length old = length ws -> put (N.of_nat (length pre)) ws (pre ++ old) = Done (pre ++ ws)%list.
Proof.
  induction ws as [|w ws IH]; intros pre [|o old] H; try discriminate; cbn [put].
  - rewrite !app_nil_r. reflexivity.
  - unfold wr. assert (E : nth_error (pre ++ o :: old) (N.to_nat (N.of_nat (length pre))) = Some o).
    { rewrite Nat2N.id, nth_error_app2, Nat.sub_diag by lia. reflexivity. }
    rewrite E. cbn [bind]. rewrite Nat2N.id, set_nth_app. injection H as H. specialize (IH (pre ++ [w])%list old H).
    rewrite app_length in IH. cbn [length] in IH. replace (N.of_nat (length pre + 1)) with (N.of_nat (length pre) + 1) in IH by lia.
    rewrite <- !app_assoc in IH. apply IH.
Qed.
Lemma bits_slice v k w : bits v k w = slice v k w.
Proof. unfold bits, slice. rewrite N.shiftr_div_pow2. reflexivity. Qed.
Lemma slice_head w rest k n : k + n <= 32 -> w < 2 ^ 32 -> slice (image 32 (w :: rest)) k n = slice w k n.
Proof.
  intros H Hw. apply FieldProofs3.slice_ext. intros j Hj. rewrite image_cons by auto. destruct (j <? 32) eqn:E; auto. lia.
Qed.

(** ** Constructing the messages *)
Definition apart (l m : loc) : bool := (loc_start l + l_size l <=? loc_start m) || (loc_start m + l_size m <=? loc_start l).
Fixpoint apart_locs (ls : list loc) : bool := match ls with [] => true | l :: r => forallb (apart l) r && apart_locs r end.
Definition good_field (f : mfield) : bool :=
  field_valid f && apart_locs (f_locs f) && match default_of (f_default f) with Some v => v <? 2 ^ (8 * f_bytes f) | None => true end.
Fixpoint good_message (fs : list mfield) : bool :=
  match fs with
  | [] => true
  | f :: r => good_field f && forallb (fun g => negb (Nat.eqb (f_name g) (f_name f)) && forallb (fun l => forallb (apart l) (f_locs g)) (f_locs f)) r && good_message r
  end.
Lemma apart_ok l m k : apart l m = true -> loc_covers l k -> loc_covers m k -> False.
Proof. unfold apart, loc_covers. lia. Qed.
Lemma apart_locs_ok ls : apart_locs ls = true -> disjoint_locs ls.
Proof.
  induction ls as [|l r IH]; cbn [apart_locs disjoint_locs]; auto. intros H. apply andb_prop in H as [H1 H2]. split; auto.
  intros k Hk (m & Hm & Hmk). rewrite forallb_forall in H1. apply (apart_ok l m k); auto.
Qed.
Lemma good_field_ok f : good_field f = true -> field_good f.
Proof.
  unfold good_field, field_good. intros H. apply andb_prop in H as [H H3]. apply andb_prop in H as [H1 H2].
  split; auto. split; [apply apart_locs_ok, H2|]. intros v E. rewrite E in H3. lia.
Qed.
Lemma good_message_ok fs : good_message fs = true -> msg_good fs.
Proof.
  induction fs as [|f r IH]; cbn [good_message]; intros H.
  - split; [constructor|]. split; [constructor|]. intros ? ? [].
  - apply andb_prop in H as [H H3]. apply andb_prop in H as [H1 H2]. destruct (IH H3) as (I1 & I2 & I3).
    rewrite forallb_forall in H2.
    assert (D : forall g, In g r -> fields_disjoint f g).
    { intros g Hg k (l & Hl & Hlk) (m & Hm & Hmk). specialize (H2 g Hg). apply andb_prop in H2 as [_ H2]. rewrite forallb_forall in H2.
      specialize (H2 l Hl). rewrite forallb_forall in H2. apply (apart_ok l m k); auto. }
    split; [|split].
    + cbn [map]. constructor; auto. intros Hin. apply in_map_iff in Hin as (g & E & Hg). specialize (H2 g Hg). apply andb_prop in H2 as [H2 _].
      rewrite E, Nat.eqb_refl in H2. discriminate.
    + constructor; auto. apply good_field_ok, H1.
    + intros g h [<-|Hg] [<-|Hh] Hn; auto.
      * congruence.
      * intros k K1 K2. exact (D g Hg k K2 K1).
Qed.
Ltac good := apply good_message_ok; vm_compute; reflexivity.
Lemma short32_good : message short32_msg = Some short32_msg /\ msg_good short32_msg.
Proof. split; [reflexivity|]. good. Qed.
Lemma catalog_good : message catalog_msg = Some [type_f 3; severity_f; unit_f; module_id_f; subtype_f 1] /\ msg_good [type_f 3; severity_f; unit_f; module_id_f; subtype_f 1].
Proof. split; [reflexivity|]. good. Qed.
Lemma compact32_good : message compact32_build_msg = Some [type_f 0; compact32_build_id_f; subtype_f 0] /\ msg_good [type_f 0; compact32_build_id_f; subtype_f 0].
Proof. split; [reflexivity|]. good. Qed.
Lemma compact64_good : message compact64_build_msg = Some [type_f 0; compact64_build_id_f; subtype_f 1] /\ msg_good [type_f 0; compact64_build_id_f; subtype_f 1].
Proof. split; [reflexivity|]. good. Qed.
Lemma normal_good : message normal_build_msg = Some [type_f 0; opt_len_f; subtype_f 2; payload_len_f] /\ msg_good [type_f 0; opt_len_f; subtype_f 2; payload_len_f].
Proof. split; [reflexivity|]. good. Qed.
(** The fields end at or before bit [b]. *)
Lemma make_spec es n fields fs vs b : narrow es -> message fields = Some fs -> msg_good fs -> b <= es * N.of_nat n ->
  forallb (fun f => forallb (fun l => l_index l * 32 + l_lsb l + l_size l <=? b) (f_locs f)) fs = true ->
  forallb (fun f => forallb (fun l => 0 <? l_size l) (f_locs f)) fs = true ->
  all_initialized fs vs = true -> forallb (fun nv => match find_field (fst nv) fs with Some f => mutable_ (f_default f) | None => false end) vs = true ->
  exists st, make es n fields vs = Some (Done st) /\ length st = n /\ storage_ok es st /\
    (forall f, In f fs -> value_in es st f = expected vs f) /\ (forall k, ~ covered fs k -> N.testbit (image es st) k = false).
Proof.
  intros Hes Hm Hg Hb Hf Hpos Hi Hs. unfold make. rewrite Hm.
  assert (Hfit : fields_fit (es * N.of_nat n) fs).
  { intros f Hin l Hl. rewrite forallb_forall in Hf. specialize (Hf f Hin). rewrite forallb_forall in Hf. specialize (Hf l Hl).
    unfold loc_start. lia. }
  assert (Hff : forall f, In f fs -> field_fits (es * N.of_nat n) (f_locs f) = true).
  { intros f Hin. unfold field_fits. apply forallb_forall. intros l Hl. unfold loc_fits, l_msb. specialize (Hfit f Hin l Hl). unfold loc_start in Hfit. lia. }
  assert (Hc : exists o, construct es n fs vs = Some o).
  { unfold construct, fits_inside. rewrite (proj2 (forallb_forall _ fs)), Hi; auto. cbn [andb].
    rewrite (proj2 (forallb_forall _ vs)); [eauto|]. intros nv Hnv. rewrite forallb_forall in Hs. specialize (Hs nv Hnv). unfold settable.
    destruct (find_field (fst nv) fs) as [f|] eqn:E; auto. rewrite Hs. cbn [andb]. apply Hff. apply find_some in E. apply E. }
  destruct Hc as (o & Hc). rewrite Hc. destruct (C13_construct es n fs vs o Hes Hg Hfit Hc) as (st & -> & Hst). exists st. auto.
Qed.

Lemma value_single es st n b d a : value_in es st (fld n b d [a]) = slice (image es st) (loc_start (at_loc a)) (at_size a).
Proof. reflexivity. Qed.
(** Bits no field covers. *)
Lemma uncovered fs k n : forallb (fun f => forallb (fun l => (k + n <=? l_index l * 32 + l_lsb l) || (l_index l * 32 + l_lsb l + l_size l <=? k)) (f_locs f)) fs = true ->
  forall j, k <= j < k + n -> ~ covered fs j.
Proof.
  intros H j Hj (f & Hf & l & Hl & Hc). rewrite forallb_forall in H. specialize (H f Hf). rewrite forallb_forall in H. specialize (H l Hl).
  unfold loc_covers, loc_start in Hc. lia.
Qed.
Lemma slice_zero a k n : (forall j, k <= j < k + n -> N.testbit a j = false) -> slice a k n = 0.
Proof.
  intros H. rewrite (FieldProofs3.slice_ext a 0 k n); [unfold slice; rewrite N.shiftr_0_l; apply N.mod_0_l, N.pow_nonzero; discriminate|].
  intros j Hj. rewrite N.bits_0. auto.
Qed.
(** ** Short packets *)
Lemma build_short32_spec id : exists w, build_short32 id = Some (Done [w]) /\ w < 2 ^ 32 /\ bits w 0 4 = 1 /\ bits w 4 28 = id mod 2 ^ 28.
Proof.
  destruct short32_good as [Hm Hg]. unfold build_short32.
  destruct (make_spec 32 (size_in 32 short32_msg) short32_msg short32_msg [(n_payload, id)] 32) as (st & -> & Hl & Hok & Hv & _); auto; try reflexivity.
  { right. right. reflexivity. }
  change (size_in 32 short32_msg) with 1%nat in Hl. destruct st as [|w [|]]; try discriminate Hl. exists w. inversion_clear Hok. split; [reflexivity|]. split; [auto|].
  assert (Ht := Hv (type_f 1) (or_introl eq_refl)). assert (Hp := Hv short32_payload_f (or_intror (or_introl eq_refl))).
  unfold type_f in Ht. unfold short32_payload_f in Hp. rewrite value_single in Ht, Hp. rewrite slice_head in Ht, Hp by (auto; vm_compute; discriminate).
  rewrite !bits_slice. split; [exact Ht|exact Hp].
Qed.
(** ** Catalog packets *)
Definition payload (p : platform) (id : N) (args : list (argty * N)) : list N :=
  flat_map (fun a => dwords (pack_bytes p (fst a)) (packed p (fst a) (snd a))) ((Plain UInt, id) :: args).
Lemma pack_bytes_48 p t : pack_bytes p t = 4 \/ pack_bytes p t = 8.
Proof. unfold pack_bytes. destruct (_ <=? _); auto. Qed.
Lemma dwords_length b v : b = 4 \/ b = 8 -> N.of_nat (length (dwords b v)) * 4 = b.
Proof. intros [->| ->]; reflexivity. Qed.
Lemma payload_length p id args : N.of_nat (length (payload p id args)) * 4 = 4 + fold_right (fun a n => pack_bytes p (fst a) + n) 0 args.
Proof.
  unfold payload. cbn [flat_map]. rewrite app_length, Nat2N.inj_add, N.mul_add_distr_r. f_equal.
  induction args as [|a args IH]; cbn [flat_map fold_right]; auto. rewrite app_length, Nat2N.inj_add, N.mul_add_distr_r, IH. f_equal.
  apply dwords_length, pack_bytes_48.
Qed.
Lemma build_catalog_spec p level id m u args : exists w, build_catalog p level id m u args = Some (Done (w :: payload p id args)) /\ w < 2 ^ 32 /\
  bits w 0 4 = 3 /\ bits w 4 3 = level mod 2 ^ 3 /\ bits w 12 4 = u mod 2 ^ 4 /\ bits w 16 7 = m mod 2 ^ 7 /\ bits w 24 6 = 1 /\
  bits w 7 5 = 0 /\ bits w 23 1 = 0 /\ bits w 30 2 = 0.
Proof.
  destruct catalog_good as [Hm Hg]. unfold build_catalog.
  set (ps := 4 + fold_right (fun a n => pack_bytes p (fst a) + n) 0 args).
  assert (Hps : N.of_nat (length (payload p id args)) * 4 = ps) by apply payload_length.
  assert (Hn : N.to_nat ((ps + 3) / 4) = length (payload p id args)).
  { rewrite <- Hps, (N.add_comm _ 3), N.div_add, N.add_0_l by discriminate. apply Nat2N.id. }
  rewrite Hn. change (size_in 32 catalog_msg) with 1%nat.
  destruct (make_spec 32 (1 + length (payload p id args)) catalog_msg [type_f 3; severity_f; unit_f; module_id_f; subtype_f 1]
    [(n_severity, level); (n_module, m); (n_unit, u)] 32) as (st & -> & Hl & Hok & Hv & Hu); auto; try reflexivity.
  { right. right. reflexivity. }
  { lia. }
  destruct st as [|w st]; [discriminate Hl|]. injection Hl as Hl. inversion_clear Hok. cbn [bind].
  change (N.of_nat 1) with (N.of_nat (length [w])). change (w :: st) with ([w] ++ st)%list.
  exists w. split; [f_equal; apply (put_spec (payload p id args) [w] st); auto|]. split; [auto|].
  assert (H1 := Hv (type_f 3) (or_introl eq_refl)). assert (H2 := Hv severity_f (or_intror (or_introl eq_refl))).
  assert (H3 := Hv unit_f (or_intror (or_intror (or_introl eq_refl)))). assert (H4 := Hv module_id_f (or_intror (or_intror (or_intror (or_introl eq_refl))))).
  assert (H5 := Hv (subtype_f 1) (or_intror (or_intror (or_intror (or_intror (or_introl eq_refl)))))).
  unfold type_f in H1. unfold severity_f in H2. unfold unit_f in H3. unfold module_id_f in H4. unfold subtype_f in H5.
  rewrite value_single in H1, H2, H3, H4, H5. rewrite slice_head in H1, H2, H3, H4, H5 by (auto; vm_compute; discriminate).
  rewrite !bits_slice. split; [exact H1|]. split; [exact H2|]. split; [exact H3|]. split; [exact H4|]. split; [exact H5|].
  repeat split; erewrite <- slice_head by (eauto; vm_compute; discriminate); apply slice_zero; intros j Hj; apply Hu; eapply uncovered; try exact Hj; reflexivity.
Qed.

(** Build-version packets. *)
From Coq Require Import String Ascii Bool Arith List NArith ZArith Lia.
From Coq Require Import ZifyN ZifyNat ZifyBool.
From Verif Require Import FieldModel FieldSpec FieldProofs FieldProofs2 FieldProofs3 MessageModel MessageSpec MessageProofs MipiModel MipiSpec MipiProofs MipiProofs2 MipiProofs3.
Import ListNotations.
Local Open Scope N_scope.

Lemma size_le v n : N.size v <= n <-> v < 2 ^ n.
Proof.
  split; intros H.
  - eapply N.lt_le_trans; [apply N.size_gt|]. apply N.pow_le_mono_r; lia.
  - destruct (N.eq_dec v 0) as [->|Hv]; [cbn; lia|]. rewrite N.size_log2 by auto. apply N.log2_lt_pow2 in H; lia.
Qed.
Lemma build_compact32_spec v : exists w, build_compact32 v = Some (Done [w]) /\ w < 2 ^ 32 /\
  bits w 0 4 = 0 /\ bits w 24 6 = 0 /\ bits w 30 2 * 2 ^ 20 + bits w 4 20 = v mod 2 ^ 22.
Proof.
  destruct compact32_good as [Hm Hg]. unfold build_compact32. change (size_in 32 compact32_build_msg) with 1%nat.
  destruct (make_spec 32 1 compact32_build_msg [type_f 0; compact32_build_id_f; subtype_f 0] [(n_build_id, v)] 32) as (st & -> & Hl & Hok & Hv & _); auto; try reflexivity.
  { right. right. reflexivity. }
  destruct st as [|w [|]]; try discriminate Hl. exists w. inversion_clear Hok. split; [reflexivity|]. split; [auto|].
  assert (H1 := Hv _ (or_introl eq_refl)). assert (H2 := Hv _ (or_intror (or_introl eq_refl))). assert (H3 := Hv _ (or_intror (or_intror (or_introl eq_refl)))).
  unfold type_f in H1. unfold subtype_f in H3. rewrite value_single in H1, H3. rewrite slice_head in H1, H3 by (auto; vm_compute; discriminate).
  rewrite !bits_slice. split; [exact H1|]. split; [exact H3|].
  change (value_in 32 [w] compact32_build_id_f) with ((slice (image 32 [w]) 30 2) * 2 ^ 20 + slice (image 32 [w]) 4 20) in H2.
  rewrite !slice_head in H2 by (auto; vm_compute; discriminate). exact H2.
Qed.
Lemma slice_second w x rest n : n <= 32 -> w < 2 ^ 32 -> x < 2 ^ 32 -> slice (image 32 (w :: x :: rest)) 32 n = x mod 2 ^ n.
Proof.
  intros Hn Hw Hx. rewrite <- (N.shiftr_0_r x). change (N.shiftr x 0 mod 2 ^ n) with (slice x 0 n). rewrite <- (slice_head x rest 0 n) by (auto; lia).
  unfold slice. f_equal. apply N.bits_inj. intros k. rewrite !N.shiftr_spec by lia. rewrite image_cons by auto.
  destruct (k + 32 <? 32) eqn:E; [lia|]. f_equal. lia.
Qed.
Lemma build_compact64_spec v : exists w x, build_compact64 v = Some (Done [w; x]) /\ w < 2 ^ 32 /\ x < 2 ^ 32 /\
  bits w 0 4 = 0 /\ bits w 24 6 = 1 /\ (x * 2 ^ 2 + bits w 30 2) * 2 ^ 20 + bits w 4 20 = v mod 2 ^ 54.
Proof.
  destruct compact64_good as [Hm Hg]. unfold build_compact64. change (size_in 32 compact64_build_msg) with 2%nat.
  destruct (make_spec 32 2 compact64_build_msg [type_f 0; compact64_build_id_f; subtype_f 1] [(n_build_id, v)] 64) as (st & -> & Hl & Hok & Hv & _); auto; try reflexivity.
  { right. right. reflexivity. }
  destruct st as [|w [|x [|]]]; try discriminate Hl. exists w, x. inversion Hok as [|? ? Hw Hok2]; subst. inversion Hok2 as [|? ? Hx _]; subst. split; [reflexivity|]. split; [auto|]. split; [auto|].
  assert (H1 := Hv _ (or_introl eq_refl)). assert (H2 := Hv _ (or_intror (or_introl eq_refl))). assert (H3 := Hv _ (or_intror (or_intror (or_introl eq_refl)))).
  unfold type_f in H1. unfold subtype_f in H3. rewrite value_single in H1, H3. rewrite slice_head in H1, H3 by (auto; vm_compute; discriminate).
  rewrite !bits_slice. split; [exact H1|]. split; [exact H3|].
  change (value_in 32 [w; x] compact64_build_id_f) with ((slice (image 32 [w; x]) 32 32 * 2 ^ 2 + slice (image 32 [w; x]) 30 2) * 2 ^ 20 + slice (image 32 [w; x]) 4 20) in H2.
  rewrite (slice_second w x [] 32) in H2 by (auto; lia). rewrite (N.mod_small x) in H2 by auto.
  rewrite !slice_head in H2 by (auto; vm_compute; discriminate). exact H2.
Qed.
Lemma image_from_le bs : image 8 bs = from_le bs.
Proof. induction bs as [|b bs IH]; cbn [image from_le fold_right]; auto. rewrite IH. reflexivity. Qed.
Lemma slice_firstn st n k w : storage_ok 8 st -> k + w <= 8 * N.of_nat n -> slice (image 8 st) k w = slice (from_le (firstn n st)) k w.
Proof.
  intros Hs H. rewrite <- image_from_le. apply slice_ext. intros j Hj. destruct (Nat.le_gt_cases n (length st)) as [Hle|Hgt].
  - rewrite <- (firstn_skipn n st) at 1. rewrite image_app. assert (E : nbits 8 (firstn n st) = 8 * N.of_nat n) by (unfold nbits; rewrite firstn_length_le; auto).
    rewrite E, N.mul_comm, <- (N.mod_pow2_bits_low (_ + _) (8 * N.of_nat n)), N.mod_add, N.mod_pow2_bits_low by (try (apply N.pow_nonzero); lia). reflexivity.
  - rewrite firstn_all2 by lia. reflexivity.
Qed.
Lemma build_normal_spec v s : exists h, build_normal v s = Some (Done (h ++ le_bytes 8 v ++ s)%list) /\ length h = 6%nat /\
  bits (from_le (firstn 4 h)) 0 4 = 0 /\ bits (from_le (firstn 4 h)) 24 6 = 2 /\ from_le (skipn 4 h) = (N.of_nat (length s) + 8) mod 2 ^ 16 /\
  bits (from_le (firstn 4 h)) 9 1 = 1 /\ bits (from_le (firstn 4 h)) 4 5 = 0 /\ bits (from_le (firstn 4 h)) 10 14 = 0 /\ bits (from_le (firstn 4 h)) 30 2 = 0.
Proof.
  destruct normal_good as [Hm Hg]. unfold build_normal. change (size_in 8 normal_build_msg) with 6%nat.
  set (len := N.of_nat (length s) + 8).
  destruct (make_spec 8 (6 + N.to_nat len) normal_build_msg [type_f 0; opt_len_f; subtype_f 2; payload_len_f] [(n_payload_len, len)] 48) as (st & -> & Hl & Hok & Hv & Hu); auto; try reflexivity.
  { left. reflexivity. }
  { lia. }
  rewrite <- (firstn_skipn 6 st) in *. set (h := firstn 6 st) in *. set (t := skipn 6 st) in *.
  assert (Lh : length h = 6%nat) by (unfold h; rewrite firstn_length, <- (firstn_skipn 6 st); fold h t; lia).
  rewrite app_length in Hl. exists h. cbn [bind]. split.
  { f_equal. replace (N.of_nat 6) with (N.of_nat (length h)) by lia. apply put_spec. rewrite app_length, le_bytes_length. lia. }
  split; auto.
  assert (H1 := Hv _ (or_introl eq_refl)). assert (H2 := Hv _ (or_intror (or_intror (or_introl eq_refl)))). assert (H3 := Hv _ (or_intror (or_intror (or_intror (or_introl eq_refl))))).
  assert (H4 := Hv _ (or_intror (or_introl eq_refl))).
  unfold type_f in H1. unfold subtype_f in H2. unfold payload_len_f in H3. unfold opt_len_f in H4. rewrite value_single in H1, H2, H3, H4.
  assert (F : firstn 4 (h ++ t) = firstn 4 h) by (rewrite firstn_app, Lh; cbn [Nat.sub firstn]; apply app_nil_r).
  rewrite (slice_firstn _ 4) in H1, H2, H4 by (auto; vm_compute; discriminate). rewrite F in H1, H2, H4. rewrite !bits_slice.
  split; [exact H1|]. split; [exact H2|]. split; [clear Hu H4|split; [exact H4|]].
  2: { rewrite <- F. repeat split; erewrite <- slice_firstn by (eauto; vm_compute; discriminate); apply slice_zero; intros j Hj; apply Hu; eapply uncovered; try exact Hj; reflexivity. }
  rewrite (slice_firstn _ 6) in H3 by (auto; vm_compute; discriminate).
  assert (F6 : firstn 6 (h ++ t) = h) by (rewrite firstn_app, Lh, (firstn_all2 h) by lia; apply app_nil_r).
  rewrite F6 in H3. change (slice (from_le h) 32 16 = len mod 2 ^ 16) in H3. rewrite <- H3.
  assert (Hh : storage_ok 8 h). { unfold storage_ok in *. apply Forall_app in Hok. apply Hok. }
  clear - Lh Hh. destruct h as [|b0 [|b1 [|b2 [|b3 [|b4 [|b5 [|]]]]]]]; try discriminate Lh. cbn [skipn].
  repeat match goal with H : storage_ok _ _ |- _ => inversion_clear H end.
  repeat match goal with H : Forall _ _ |- _ => inversion_clear H end.
  rewrite <- !image_from_le. unfold slice.
  assert (E : N.shiftr (image 8 [b0; b1; b2; b3; b4; b5]) 32 = image 8 [b4; b5]).
  { apply N.bits_inj. intros k. rewrite N.shiftr_spec by lia.
    rewrite !(image_cons 8 b0), !(image_cons 8 b1), !(image_cons 8 b2), !(image_cons 8 b3) by auto.
    repeat match goal with |- context [?a <? 8] => destruct (a <? 8) eqn:?; [lia|] end. f_equal. lia. }
  rewrite E. symmetry. apply N.mod_small. cbn [image]. change (2 ^ 16) with 65536. change (2 ^ 8) with 256 in *. lia.
Qed.

Lemma firstn_le4 w rest : firstn 4 (le_bytes 4 w ++ rest) = le_bytes 4 w.
Proof. reflexivity. Qed.
Lemma from_le_4 w : w < 2 ^ 32 -> from_le (le_bytes 4 w) = w.
Proof. intros H. rewrite from_le_bytes. apply N.mod_small, H. Qed.
Lemma read_compact32 v rest : v < 2 ^ 22 -> exists k, build_compact32 v = Some (Done k) /\ length (wire (Dwords k)) = 4%nat /\ read_version (wire (Dwords k) ++ rest) = Some (v, [], rest).
Proof.
  intros Hv. destruct (build_compact32_spec v) as (w & E & Hw & H1 & H2 & H3). exists [w]. split; auto. split; [reflexivity|].
  cbn [wire flat_map]. rewrite app_nil_r. unfold read_version. rewrite firstn_le4, from_le_4 by auto.
  rewrite H1, H2, H3, N.mod_small by auto. reflexivity.
Qed.
Lemma read_compact64 v rest : v < 2 ^ 54 -> exists k, build_compact64 v = Some (Done k) /\ length (wire (Dwords k)) = 8%nat /\ read_version (wire (Dwords k) ++ rest) = Some (v, [], rest).
Proof.
  intros Hv. destruct (build_compact64_spec v) as (w & x & E & Hw & Hx & H1 & H2 & H3). exists [w; x]. split; auto. split; [reflexivity|].
  cbn [wire flat_map]. rewrite app_nil_r, <- app_assoc. unfold read_version. rewrite firstn_le4, from_le_4 by auto.
  change (skipn 4 (le_bytes 4 w ++ le_bytes 4 x ++ rest)) with (le_bytes 4 x ++ rest)%list. rewrite firstn_le4, from_le_4 by auto.
  rewrite H1, H2, H3, N.mod_small by auto. reflexivity.
Qed.
(** What a reader gets from the normal message: the length is kept modulo 2^16. *)
Lemma read_normal v s rest : v < 2 ^ 64 -> exists k, build_normal v s = Some (Done k) /\ length k = (14 + length s)%nat /\
  read_version (k ++ rest) =
    let len := (N.of_nat (length s) + 8) mod 2 ^ 16 in
    if len <? 8 then None else Some (v, firstn (N.to_nat len - 8) (s ++ rest), skipn (N.to_nat len - 8) (s ++ rest)).
Proof.
  intros Hv. destruct (build_normal_spec v s) as (h & E & Lh & H1 & H2 & H3 & H4 & _). exists (h ++ le_bytes 8 v ++ s)%list. split; auto. split.
  { rewrite !app_length, le_bytes_length. lia. }
  destruct h as [|b0 [|b1 [|b2 [|b3 [|b4 [|b5 [|]]]]]]]; try discriminate Lh.
  unfold read_version. rewrite <- !app_assoc.
  change (firstn 4 ([b0; b1; b2; b3; b4; b5] ++ le_bytes 8 v ++ s ++ rest)) with [b0; b1; b2; b3].
  change (firstn 4 [b0; b1; b2; b3; b4; b5]) with [b0; b1; b2; b3] in *. change (skipn 4 [b0; b1; b2; b3; b4; b5]) with [b4; b5] in H3.
  change (skipn 4 ([b0; b1; b2; b3; b4; b5] ++ le_bytes 8 v ++ s ++ rest)) with ([b4; b5] ++ le_bytes 8 v ++ s ++ rest)%list.
  change (firstn 2 ([b4; b5] ++ le_bytes 8 v ++ s ++ rest)) with [b4; b5].
  change (skipn 6 ([b0; b1; b2; b3; b4; b5] ++ le_bytes 8 v ++ s ++ rest)) with (le_bytes 8 v ++ s ++ rest)%list.
  change (skipn 14 ([b0; b1; b2; b3; b4; b5] ++ le_bytes 8 v ++ s ++ rest)) with (s ++ rest)%list.
  change (firstn 8 (le_bytes 8 v ++ s ++ rest)) with (le_bytes 8 v).
  rewrite H1, H2, H3, H4, from_le_bytes. change (8 * N.of_nat 8) with 64. rewrite (N.mod_small v) by auto.
  set (L := (N.of_nat (length s) + 8) mod 2 ^ 16).
  assert (HL : L <= N.of_nat (length s) + 8) by (apply N.mod_le; discriminate).
  rewrite !app_length, le_bytes_length. cbn [length].
  destruct (Nat.ltb_spec (6 + (8 + (length s + length rest))) 4) as [|_]; [lia|].
  destruct (Nat.ltb_spec (6 + (8 + (length s + length rest))) 14) as [|_]; [lia|].
  cbn [orb negb N.eqb]. destruct (L <? 8) eqn:E8; auto.
  destruct (N.of_nat (8 + (length s + length rest)) <? L) eqn:E9; [lia|]. cbn [orb].
  do 2 f_equal. replace (6 + N.to_nat L)%nat with (14 + (N.to_nat L - 8))%nat by lia. reflexivity.
Qed.

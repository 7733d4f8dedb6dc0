(** Theorems C08 to C12 for every element width, 64 bits included. *)
From Coq Require Import List NArith Bool ZArith Lia ZifyBool ZifyN ZifyNat.
From Verif Require Import FieldModel FieldSpec FieldProofs FieldProofs2 FieldProofs3 FieldProps WideSpec WideProofs WideProofs2.
Import ListNotations.
Local Open Scope N_scope.

(** ** C10: exactly where fields are
    Reading gives the concatenation of the seats, in every storage. *)
Theorem C10_read_exact :
  forall es ew ls st,
  elem_width es -> field_wf ew ls -> storage_ok es st -> fits (nbits es st) (map (seat es) ls) ->
  field_extract es ew ls st = Done (concat_value (image es st) (map (seat es) ls)).
Proof. exact read_exact. Qed.
Print Assumptions C10_read_exact.

(** Writing stores the kept bits at the seats and clears the rest of them. *)
Theorem C10_write_exact :
  forall es ew ls v st,
  elem_width es -> field_wf ew ls -> storage_ok es st -> fits (nbits es st) (map (seat es) ls) -> v < 2 ^ ew ->
  exists st', field_insert es ew ls v st = Done st' /\ length st' = length st /\ storage_ok es st' /\
  forall k, N.testbit (image es st') k = stored es ew ls v (N.testbit (image es st)) k.
Proof. exact write_exact. Qed.
Print Assumptions C10_write_exact.

(** A field is read right from every storage iff its locations start in even
    dwords or the elements have at most 32 bits. *)
Theorem C10_read_right_iff :
  forall es ew ls, elem_width es -> field_wf ew ls ->
  (forall st, storage_ok es st -> fits (nbits es st) ls -> field_extract es ew ls st = Done (concat_value (image es st) ls)) <->
  (es = 64 -> forall l, In l ls -> N.even (l_index l) = true).
Proof.
  intros es ew ls Hes Hw. rewrite read_right_iff by auto. unfold field_ok. rewrite Forall_forall. unfold aligned_for. split.
  - intros H -> l Hl. destruct (H l Hl); [lia|auto].
  - intros H l Hl. destruct Hes as [->|[->|[->| ->]]]; try (left; lia). right. auto.
Qed.
Print Assumptions C10_read_right_iff.

(** It is written right iff moreover its type has 64 bits or no location crosses
    a dword. *)
Theorem C10_write_right_iff :
  forall es ew ls, elem_width es -> field_wf ew ls -> disjoint_locs ls ->
  (forall v st, v < 2 ^ ew -> storage_ok es st -> fits (nbits es st) ls ->
     exists st', field_insert es ew ls v st = Done st' /\
       forall k, N.testbit (image es st') k = should_hold ls v (N.testbit (image es st)) k) <->
  (es = 64 -> forall l, In l ls -> N.even (l_index l) = true /\ (ew = 64 \/ l_lsb l + l_size l <= 32)).
Proof.
  intros es ew ls Hes Hw Hd. rewrite write_right_iff by auto. unfold field_write_ok, aligned_for, shift_fits.
  rewrite Forall_forall. split.
  - intros H -> l Hl. destruct (H l Hl) as [[|] [|]]; try lia; auto.
  - intros H l Hl. destruct Hes as [->|[->|[->| ->]]]; try (split; left; lia).
    destruct (H eq_refl l Hl). split; auto.
Qed.
Print Assumptions C10_write_right_iff.

(** Two fields, in dwords 0 and 1; both are at bits 0 to 7 of the 64-bit element. *)
Definition low8 : list loc := [at_loc (at_dword 0 7 0)].
Definition high8 : list loc := [at_loc (at_dword 1 7 0)].
Example C10_seats_case :
  map (seat 64) high8 = low8 /\ map (seat 32) high8 = high8 /\
  field_insert 64 8 high8 0x5a [0] = Done [0x5a] /\ field_extract 64 8 low8 [0x5a] = Done 0x5a /\
  field_extract 64 8 high8 [0x2200000011] = Done 0x11.
Proof. repeat split; reflexivity. Qed.
(** A 16-bit value at bits 24 to 39: its upper byte is lost. *)
Example C10_kept_case :
  kept 64 16 (at_loc {| a_lsb := 24; a_msb := 39 |}) = 8 /\
  field_insert 64 16 [at_loc {| a_lsb := 24; a_msb := 39 |}] 0xABCD [0xFFFFFFFFFFFFFFFF] = Done [0xFFFFFF00CDFFFFFF].
Proof. split; reflexivity. Qed.
Example C10_iff_case : ~ (forall st, storage_ok 64 st -> fits (nbits 64 st) high8 ->
  field_extract 64 8 high8 st = Done (concat_value (image 64 st) high8)).
Proof.
  rewrite C10_read_right_iff.
  - intros H. specialize (H eq_refl _ (or_introl eq_refl)). discriminate H.
  - right; right; right; auto.
  - split; [left; auto|]. split; [repeat constructor|]. cbn. lia.
Qed.

(** ** C08: a field reads back what was written, at any width
    Provided the seats do not overlap and all bits are kept: so always in
    elements of at most 32 bits. *)
Lemma insert_rev_seat es ew rls : elem_width es -> forall v st,
  field_insert_rev es ew rls v st = field_insert_rev es ew (map (seat es) rls) v st.
Proof.
  intros Hes. induction rls as [|l rls IH]; intros v st; cbn [field_insert_rev map]; auto.
  rewrite insert_seat, seat_size by auto.
  destruct (loc_insert es ew (seat es l) _ st); cbn [bind]; auto. rewrite IH.
  unfold fold_value. rewrite seat_size. reflexivity.
Qed.
Lemma write_ok_seat es ew ls : elem_width es -> field_wf ew ls ->
  Forall (fun l => kept es ew l = l_size l) ls -> field_write_ok es ew (map (seat es) ls).
Proof.
  intros Hes (Hew & Hwf & Hsz) H. apply Forall_forall. intros x Hx. apply in_map_iff in Hx as (l & <- & Hl).
  split; [apply seat_aligned; auto|]. rewrite Forall_forall in H, Hwf. specialize (H l Hl). destruct (Hwf l Hl).
  unfold shift_fits. rewrite seat_lsb, seat_size. unfold kept in H.
  destruct Hes as [->|[->|[->| ->]]]; try (left; lia). cbn [N.eqb Pos.eqb andb] in H.
  destruct (N.leb_spec ew 32); [right; right; lia|]. right; left.
  destruct Hew as [->|[->|[->| ->]]]; lia.
Qed.
Lemma roundtrip_any es ew ls v st :
  elem_width es -> field_wf ew ls -> storage_ok es st -> fits (nbits es st) (map (seat es) ls) ->
  disjoint_locs (map (seat es) ls) -> Forall (fun l => kept es ew l = l_size l) ls -> v < 2 ^ ew ->
  exists st', field_insert es ew ls v st = Done st' /\
              field_extract es ew ls st' = Done (v mod 2 ^ total_size ls) /\
              same_outside (map (seat es) ls) (image es st) (image es st').
Proof.
  intros Hes Hw Hst Hf Hd Hk Hv.
  destruct (field_insert_spec es ew (map (seat es) ls) v st) as (s & Hs & Hl & Hok & Ho & Hc & _);
    auto using wf_seat, write_ok_seat.
  exists s. unfold field_insert in *. rewrite insert_rev_seat, map_rev by auto. split; auto.
  split; auto. rewrite read_exact; auto.
  - rewrite Hc, total_seat. auto.
  - rewrite (nbits_len es st); auto.
Qed.
Theorem C08_any_width :
  forall es ew ls v st,
  elem_width es -> field_wf ew ls -> storage_ok es st -> fits (nbits es st) (map (seat es) ls) ->
  disjoint_locs (map (seat es) ls) -> Forall (fun l => kept es ew l = l_size l) ls -> v < 2 ^ ew ->
  exists st', field_insert es ew ls v st = Done st' /\
              field_extract es ew ls st' = Done (v mod 2 ^ total_size ls) /\
              same_outside (map (seat es) ls) (image es st) (image es st').
Proof. exact roundtrip_any. Qed.
Print Assumptions C08_any_width.
(** In elements of at most 32 bits the seats are the locations and all is kept. *)
Theorem C08_seats_narrow :
  forall es ew ls, narrow_elem es -> map (seat es) ls = ls /\ Forall (fun l => kept es ew l = l_size l) ls.
Proof.
  intros es ew ls H. split.
  - rewrite <- (map_id ls) at 2. apply map_ext. intros l. apply seat_same; auto using narrow_elem_width.
    left. apply narrow_elem_le; auto.
  - apply Forall_forall. intros l _. unfold kept. destruct H as [->|[->| ->]]; reflexivity.
Qed.
Print Assumptions C08_seats_narrow.
Example C08_any_case : exists s, field_insert 64 8 high8 0x5a [7] = Done s /\ field_extract 64 8 high8 s = Done 0x5a
  /\ same_outside low8 7 (image 64 s).
Proof.
  destruct (C08_any_width 64 8 high8 0x5a [7]) as (s & H1 & H2 & H3).
  - right; right; right; auto.
  - split; [left; auto|]. split; [repeat constructor|]. cbn. lia.
  - repeat constructor.
  - intros l [<-|[]]; vm_compute; discriminate.
  - cbn. split; auto. intros k _ (x & [] & _).
  - repeat constructor.
  - reflexivity.
  - exists s. auto.
Qed.

(** ** C12: reading stays inside iff the seats do *)
Theorem C12_read_iff_inside_any :
  forall es ew ls st,
  elem_width es -> field_wf ew ls -> storage_ok es st ->
  (exists v, field_extract es ew ls st = Done v) <-> fits (nbits es st) (map (seat es) ls).
Proof. exact read_iff. Qed.
Print Assumptions C12_read_iff_inside_any.
Theorem C12_inside_any :
  forall es ew ls st v,
  elem_width es -> field_wf ew ls -> storage_ok es st -> fits (nbits es st) ls -> v < 2 ^ ew ->
  (exists x, field_extract es ew ls st = Done x) /\ (exists st', field_insert es ew ls v st = Done st').
Proof.
  intros es ew ls st v Hes Hw Hs Hf Hv. split.
  - apply read_iff; auto using fits_seat.
  - destruct (write_exact es ew ls v st) as (s & H & _); eauto using fits_seat.
Qed.
Print Assumptions C12_inside_any.
Example C12_inside_case : (exists x, field_extract 64 8 high8 [0x2200000011] = Done x) /\
  (exists st', field_insert 64 8 high8 255 [0x2200000011] = Done st').
Proof.
  apply C12_inside_any.
  - right; right; right; auto.
  - split; [left; auto|]. split; [repeat constructor|]. cbn. lia.
  - repeat constructor.
  - intros l [<-|[]]; vm_compute; discriminate.
  - reflexivity.
Qed.

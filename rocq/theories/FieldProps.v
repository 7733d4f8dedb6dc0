(** Property theorems for field storage access (C08 - C12).

    [field_wf ew ls]: the locations come from [msg::at], are non-empty, and
    their sizes sum to at most the width [ew] of the field's type (the
    static_asserts of field.hpp:412-415).  [fits n ls]: every bit of every
    location is below [n]. *)
From Coq Require Import List NArith Bool ZArith Lia ZifyBool ZifyN ZifyNat.
From Verif Require Import FieldModel FieldSpec FieldProofs FieldProofs2 FieldProofs3.
Import ListNotations.
Local Open Scope N_scope.

Definition narrow_elem (es : N) : Prop := es = 8 \/ es = 16 \/ es = 32.
Lemma narrow_elem_width es : narrow_elem es -> elem_width es.
Proof. unfold narrow_elem, elem_width. tauto. Qed.
Lemma narrow_elem_le es : narrow_elem es -> es <= 32.
Proof. intros [->|[->| ->]]; lia. Qed.

(** ** C08 *)
Lemma roundtrip es ew ls v st :
  elem_width es -> field_wf ew ls -> field_write_ok es ew ls -> storage_ok es st ->
  fits (nbits es st) ls -> disjoint_locs ls -> v < 2 ^ ew ->
  exists st', field_insert es ew ls v st = Done st' /\
              field_extract es ew ls st' = Done (v mod 2 ^ total_size ls).
Proof.
  intros Hes Hw Hok Hst Hf Hd Hv.
  destruct (field_insert_spec es ew ls v st) as (s & Hs & Hl & Hok' & _ & Hc & _); auto.
  exists s. split; auto. rewrite field_extract_spec; auto.
  - congruence.
  - eapply write_read_ok; eauto.
  - rewrite (nbits_len es st); auto.
Qed.
Theorem C08_roundtrip :
  forall es ew ls v st,
  narrow_elem es -> field_wf ew ls -> storage_ok es st -> fits (nbits es st) ls ->
  disjoint_locs ls -> v < 2 ^ ew ->
  exists st', field_insert es ew ls v st = Done st' /\
              field_extract es ew ls st' = Done (v mod 2 ^ total_size ls).
Proof.
  exact (fun es ew ls v st He Hw Hs Hf Hd Hv =>
    roundtrip es ew ls v st (narrow_elem_width es He) Hw
      (narrow_ok es ew ls (narrow_elem_le es He)) Hs Hf Hd Hv).
Qed.
Print Assumptions C08_roundtrip.

Lemma roundtrip_representable :
  forall es ew ls v st,
  narrow_elem es -> field_wf ew ls -> storage_ok es st -> fits (nbits es st) ls ->
  disjoint_locs ls -> v < 2 ^ total_size ls ->
  exists st', field_insert es ew ls v st = Done st' /\ field_extract es ew ls st' = Done v.
Proof.
  intros es ew ls v st He Hw Hs Hf Hd Hv.
  destruct (C08_roundtrip es ew ls v st) as (s & H1 & H2); auto.
  - destruct Hw as (_ & _ & Ht). apply N.lt_le_trans with (2 ^ total_size ls); auto.
    apply N.pow_le_mono_r; lia.
  - exists s. rewrite N.mod_small in H2 by auto. auto.
Qed.
Theorem C08_roundtrip_representable :
  forall es ew ls v st,
  narrow_elem es -> field_wf ew ls -> storage_ok es st -> fits (nbits es st) ls ->
  disjoint_locs ls -> v < 2 ^ total_size ls ->
  exists st', field_insert es ew ls v st = Done st' /\ field_extract es ew ls st' = Done v.
Proof. exact roundtrip_representable. Qed.
Print Assumptions C08_roundtrip_representable.

(** The last write wins: writing twice leaves the storage of one write. *)
Lemma overwrite :
  forall es ew ls v w st,
  narrow_elem es -> field_wf ew ls -> storage_ok es st -> fits (nbits es st) ls ->
  disjoint_locs ls -> v < 2 ^ ew -> w < 2 ^ ew ->
  exists st', bind (field_insert es ew ls v st) (field_insert es ew ls w) = Done st' /\
              field_insert es ew ls w st = Done st'.
Proof.
  intros es ew ls v w st He Hw Hst Hf Hd Hv Hw'.
  pose proof (narrow_elem_width es He) as Hes.
  pose proof (narrow_ok es ew ls (narrow_elem_le es He)) as Hok.
  destruct (field_insert_spec es ew ls v st) as (sv & Hsv & Lv & Okv & _ & _ & Bv); auto.
  destruct (field_insert_spec es ew ls w st) as (sw & Hsw & Lw & Okw & _ & _ & Bw); auto.
  destruct (field_insert_spec es ew ls w sv) as (svw & Hsvw & Lvw & Okvw & _ & _ & Bvw); auto.
  { rewrite (nbits_len es st); auto. }
  exists sw. rewrite Hsv. cbn [bind]. split; auto. rewrite Hsvw. f_equal.
  apply (image_inj es); auto using elem_pos; [congruence|].
  apply N.bits_inj. intros k. rewrite Bvw, Bw, Bv.
  destruct (covers_dec ls k) as [Hc|Hc].
  - destruct (place_some ls w k Hc) as [x ->]. auto.
  - rewrite !place_none by auto. auto.
Qed.
Theorem C08_last_write_wins :
  forall es ew ls v w st,
  narrow_elem es -> field_wf ew ls -> storage_ok es st -> fits (nbits es st) ls ->
  disjoint_locs ls -> v < 2 ^ ew -> w < 2 ^ ew ->
  exists st', bind (field_insert es ew ls v st) (field_insert es ew ls w) = Done st' /\
              field_insert es ew ls w st = Done st'.
Proof. exact overwrite. Qed.
Print Assumptions C08_last_write_wins.

(** A 20-bit field in two pieces, one of them straddling bytes, in byte storage. *)
Definition ex_ls : list loc := [at_loc (at_dword 1 5 2); at_loc {| a_msb := 22; a_lsb := 7 |}].
Definition ex_st : list N := [255; 1; 170; 85; 0; 129].
Lemma ex_wf : field_wf 32 ex_ls.
Proof. split; [right; right; left; reflexivity|]. split; [|cbn; lia]. repeat constructor. Qed.
Lemma ex_disjoint : disjoint_locs ex_ls.
Proof.
  cbn [ex_ls disjoint_locs]. split.
  - intros k H (x & [<-|[]] & Hk). apply at_loc_covers in H; auto. apply at_loc_covers in Hk; auto.
    cbn in H, Hk. lia.
  - split; auto. intros k _ (x & [] & _).
Qed.
Example C08_case : exists s, field_insert 8 32 ex_ls 0xABCDE ex_st = Done s /\ field_extract 8 32 ex_ls s = Done 0xABCDE.
Proof.
  apply C08_roundtrip_representable; try apply ex_wf; try apply ex_disjoint; try (cbn; lia).
  - left; auto.
  - repeat constructor.
  - intros l [<-|[<-|[]]]; vm_compute; discriminate.
Qed.
Example C08_case_value : field_extract 8 32 ex_ls ex_st = Done 0x05403.
Proof. reflexivity. Qed.

(** ** C09 *)
Lemma frame :
  forall es ew ls v st,
  narrow_elem es -> field_wf ew ls -> storage_ok es st -> fits (nbits es st) ls ->
  disjoint_locs ls -> v < 2 ^ ew ->
  exists st', field_insert es ew ls v st = Done st' /\ length st' = length st /\ storage_ok es st' /\
    same_outside ls (image es st) (image es st').
Proof.
  intros es ew ls v st He Hw Hst Hf Hd Hv.
  destruct (field_insert_spec es ew ls v st) as (s & H1 & H2 & H3 & H4 & _); auto using narrow_elem_width, narrow_ok, narrow_elem_le.
  exists s. auto.
Qed.
Theorem C09_frame :
  forall es ew ls v st,
  narrow_elem es -> field_wf ew ls -> storage_ok es st -> fits (nbits es st) ls ->
  disjoint_locs ls -> v < 2 ^ ew ->
  exists st', field_insert es ew ls v st = Done st' /\ length st' = length st /\ storage_ok es st' /\
    same_outside ls (image es st) (image es st').
Proof. exact frame. Qed.
Print Assumptions C09_frame.

Theorem C09_independent :
  forall es ewa ewb a b v st st',
  narrow_elem es -> field_wf ewa a -> field_wf ewb b -> storage_ok es st ->
  fits (nbits es st) a -> fits (nbits es st) b -> disjoint_locs a -> v < 2 ^ ewa ->
  (forall k, covers a k -> ~ covers b k) ->
  field_insert es ewa a v st = Done st' ->
  field_extract es ewb b st' = field_extract es ewb b st.
Proof.
  exact (fun es ewa ewb a b v st st' He Ha Hb =>
    insert_other es ewa ewb a b v st st' (narrow_elem_width es He) Ha Hb
      (narrow_ok es ewa a (narrow_elem_le es He)) (narrow_read_ok es b (narrow_elem_le es He))).
Qed.
Print Assumptions C09_independent.

Theorem C09_commute :
  forall es ewa ewb a b va vb st,
  narrow_elem es -> field_wf ewa a -> field_wf ewb b -> storage_ok es st ->
  fits (nbits es st) a -> fits (nbits es st) b -> disjoint_locs a -> disjoint_locs b ->
  va < 2 ^ ewa -> vb < 2 ^ ewb ->
  (forall k, covers a k -> ~ covers b k) ->
  exists s, bind (field_insert es ewa a va st) (field_insert es ewb b vb) = Done s /\
            bind (field_insert es ewb b vb st) (field_insert es ewa a va) = Done s.
Proof.
  exact (fun es ewa ewb a b va vb st He Ha Hb =>
    insert_commute es ewa ewb a b va vb st (narrow_elem_width es He) Ha Hb
      (narrow_ok es ewa a (narrow_elem_le es He)) (narrow_ok es ewb b (narrow_elem_le es He))).
Qed.
Print Assumptions C09_commute.

(** Two neighbouring fields meeting inside a 16-bit element. *)
Example C09_case : exists s,
  bind (field_insert 16 16 [at_loc {| a_msb := 10; a_lsb := 0 |}] 1234 [0; 65535]) (field_insert 16 8 [at_loc {| a_msb := 18; a_lsb := 11 |}] 77) = Done s /\
  bind (field_insert 16 8 [at_loc {| a_msb := 18; a_lsb := 11 |}] 77 [0; 65535]) (field_insert 16 16 [at_loc {| a_msb := 10; a_lsb := 0 |}] 1234) = Done s.
Proof.
  apply C09_commute.
  - right; left; auto.
  - split; [unfold raw_width; auto|]. split; [repeat constructor|cbn; lia].
  - split; [unfold raw_width; auto|]. split; [repeat constructor|cbn; lia].
  - repeat constructor.
  - intros l [<-|[]]. vm_compute; discriminate.
  - intros l [<-|[]]. vm_compute; discriminate.
  - cbn. split; auto. intros k _ (x & [] & _).
  - cbn. split; auto. intros k _ (x & [] & _).
  - cbn. lia.
  - cbn. lia.
  - intros k (x & [<-|[]] & H) (y & [<-|[]] & H'). apply at_loc_covers in H; auto. apply at_loc_covers in H'; auto.
    cbn in H, H'. lia.
Qed.

(** ** C10
    Full statement: for all element widths es1, es2 in {8,16,32,64},
    [image es1 st1 = image es2 st2] implies equal reads and equal written
    images.  It is false for 64-bit elements: a field in an odd dword is read
    from the even one below ... *)
Theorem C10_read_refuted :
  exists ew ls st32 st64,
    field_wf ew ls /\ storage_ok 32 st32 /\ storage_ok 64 st64 /\
    fits (nbits 32 st32) ls /\ fits (nbits 64 st64) ls /\
    image 32 st32 = image 64 st64 /\
    field_extract 32 ew ls st32 = Done 0x22 /\ field_extract 64 ew ls st64 = Done 0x11.
Proof.
  exists 8, [at_loc (at_dword 1 7 0)], [0x11; 0x22], [0x2200000011].
  split. { split; [left; auto|]. split; [repeat constructor|cbn; lia]. }
  split. { repeat constructor. } split. { repeat constructor. }
  split. { intros l [<-|[]]. vm_compute; discriminate. }
  split. { intros l [<-|[]]. vm_compute; discriminate. }
  vm_compute. auto.
Qed.
Print Assumptions C10_read_refuted.

(** ... and even in an even dword, a write of a field with a type of at most 32
    bits that crosses into the next dword loses its high bits. *)
Theorem C10_write_refuted :
  exists ew ls v st,
    field_wf ew ls /\ storage_ok 64 st /\ fits (nbits 64 st) ls /\ disjoint_locs ls /\ v < 2 ^ ew /\
    exists st', field_insert 64 ew ls v st = Done st' /\
      field_extract 64 ew ls st' <> Done (v mod 2 ^ total_size ls).
Proof.
  exists 8, [at_loc {| a_msb := 35; a_lsb := 28 |}], 0xFF, [0].
  split. { split; [left; auto|]. split; [repeat constructor|cbn; lia]. }
  split. { repeat constructor. }
  split. { intros l [<-|[]]. vm_compute; discriminate. }
  split. { cbn. split; auto. intros k _ (x & [] & _). }
  split. { reflexivity. }
  eexists. split; [vm_compute; reflexivity|]. vm_compute. discriminate.
Qed.
Print Assumptions C10_write_refuted.

(** It holds for 8-, 16- and 32-bit elements, and for 64-bit elements when each
    location starts in an even dword and (for writes) either the field's type
    has 64 bits or the location does not leave its dword.  (Missing: the 64-bit
    cases refuted above.) *)
Theorem C10_read_partial :
  forall es1 es2 ew ls st1 st2,
  elem_width es1 -> elem_width es2 -> field_wf ew ls -> field_ok es1 ls -> field_ok es2 ls ->
  storage_ok es1 st1 -> storage_ok es2 st2 -> fits (nbits es1 st1) ls -> fits (nbits es2 st2) ls ->
  image es1 st1 = image es2 st2 ->
  exists v, field_extract es1 ew ls st1 = Done v /\ field_extract es2 ew ls st2 = Done v.
Proof. exact extract_width. Qed.
Print Assumptions C10_read_partial.
Theorem C10_write_partial :
  forall es1 es2 ew ls v st1 st2,
  elem_width es1 -> elem_width es2 -> field_wf ew ls -> field_write_ok es1 ew ls -> field_write_ok es2 ew ls ->
  storage_ok es1 st1 -> storage_ok es2 st2 -> fits (nbits es1 st1) ls -> fits (nbits es2 st2) ls ->
  disjoint_locs ls -> v < 2 ^ ew ->
  image es1 st1 = image es2 st2 ->
  exists s1 s2, field_insert es1 ew ls v st1 = Done s1 /\ field_insert es2 ew ls v st2 = Done s2 /\
    image es1 s1 = image es2 s2.
Proof. exact insert_width. Qed.
Print Assumptions C10_write_partial.
Lemma narrow_conditions es ew ls : narrow_elem es -> field_ok es ls /\ field_write_ok es ew ls.
Proof. intros H. split; [apply narrow_read_ok|apply narrow_ok]; apply narrow_elem_le; auto. Qed.
Theorem C10_conditions_hold_for_narrow_storage :
  forall es ew ls, narrow_elem es -> field_ok es ls /\ field_write_ok es ew ls.
Proof. exact narrow_conditions. Qed.
Print Assumptions C10_conditions_hold_for_narrow_storage.

Example C10_case : exists v, field_extract 8 32 ex_ls [1;2;3;4;5;6;7;8] = Done v /\
   field_extract 16 32 ex_ls [0x0201; 0x0403; 0x0605; 0x0807] = Done v.
Proof.
  apply C10_read_partial; try apply ex_wf; try (apply narrow_read_ok; lia).
  - left; auto.
  - right; left; auto.
  - repeat constructor.
  - repeat constructor.
  - intros l [<-|[<-|[]]]; vm_compute; discriminate.
  - intros l [<-|[<-|[]]]; vm_compute; discriminate.
  - reflexivity.
Qed.

(** ** C11 *)
Theorem C11_concatenation :
  forall es ew ls st,
  narrow_elem es -> field_wf ew ls -> storage_ok es st -> fits (nbits es st) ls ->
  field_extract es ew ls st = Done (concat_value (image es st) ls).
Proof.
  exact (fun es ew ls st He Hw Hs Hf =>
    field_extract_spec es ew ls st (narrow_elem_width es He) Hw
      (narrow_read_ok es ls (narrow_elem_le es He)) Hs Hf).
Qed.
Print Assumptions C11_concatenation.
Lemma concat_two img a b :
  concat_value img [a; b] = slice img (loc_start a) (l_size a) * 2 ^ l_size b + slice img (loc_start b) (l_size b).
Proof. reflexivity. Qed.
(** Non-vacuous: [ex_ls] overlaps nothing and holds 0x5 above 0x4... *)
Example C11_case : field_extract 8 32 ex_ls [0;0x80;0x7f;0;0x3c;0] = Done 0xFFF00.
Proof. reflexivity. Qed.

(** ** C12
    Full statement: [field_fits (nbits es st) ls = true] implies the field can
    be read and written inside the storage.  False: the check compares the
    index of the last bit with the number of bits using <=. *)
Theorem C12_accepted_refuted :
  exists es ew ls st,
    field_wf ew ls /\ storage_ok es st /\ field_fits (nbits es st) ls = true /\
    field_extract es ew ls st = OutOfBounds /\ field_insert es ew ls 1 st = OutOfBounds.
Proof.
  exists 8, 8, [at_loc {| a_msb := 8; a_lsb := 8 |}], [0].
  split. { split; [left; auto|]. split; [repeat constructor|cbn; lia]. }
  split. { repeat constructor. }
  vm_compute. auto.
Qed.
Print Assumptions C12_accepted_refuted.

Lemma in_bounds :
  forall es ew ls st v,
  narrow_elem es -> field_wf ew ls -> storage_ok es st -> disjoint_locs ls -> v < 2 ^ ew ->
  field_fits (nbits es st - 1) ls = true -> 0 < nbits es st ->
  (exists x, field_extract es ew ls st = Done x) /\ (exists st', field_insert es ew ls v st = Done st').
Proof.
  intros es ew ls st v He Hw Hs Hd Hv Hf Hpos.
  assert (Hfit : fits (nbits es st) ls).
  { intros l Hl. unfold field_fits in Hf. rewrite forallb_forall in Hf. specialize (Hf l Hl).
    destruct Hw as (_ & Hw & _). rewrite Forall_forall in Hw. apply loc_fits_spec in Hf; [lia|apply Hw; auto]. }
  split.
  - eexists. apply field_extract_spec; auto using narrow_elem_width, narrow_read_ok, narrow_elem_le.
  - destruct (field_insert_spec es ew ls v st) as (s & H & _); eauto using narrow_elem_width, narrow_ok, narrow_elem_le.
Qed.
(** It holds with the strict bound the check should use (missing: the storages
    that are exactly one bit too small). *)
Theorem C12_accepted_partial :
  forall es ew ls st v,
  narrow_elem es -> field_wf ew ls -> storage_ok es st -> disjoint_locs ls -> v < 2 ^ ew ->
  field_fits (nbits es st - 1) ls = true -> 0 < nbits es st ->
  (exists x, field_extract es ew ls st = Done x) /\ (exists st', field_insert es ew ls v st = Done st').
Proof. exact in_bounds. Qed.
Print Assumptions C12_accepted_partial.

(** Reading succeeds exactly when every location lies inside the storage. *)
Theorem C12_read_iff_inside :
  forall es ew ls st,
  narrow_elem es -> field_wf ew ls -> storage_ok es st ->
  (exists v, field_extract es ew ls st = Done v) <-> fits (nbits es st) ls.
Proof.
  exact (fun es ew ls st He Hw =>
    field_extract_oob es ew ls st (narrow_elem_width es He) Hw (narrow_read_ok es ls (narrow_elem_le es He))).
Qed.
Print Assumptions C12_read_iff_inside.

(** Storage of the size the library itself computes is always big enough. *)
Theorem C12_computed_storage_fits :
  forall es ls, elem_width es -> fits (es * field_extent es ls) ls.
Proof. exact field_extent_ok. Qed.
Print Assumptions C12_computed_storage_fits.
Example C12_case : field_extent 8 ex_ls = 5 /\ field_extent 32 ex_ls = 2.
Proof. vm_compute. auto. Qed.

(** The bits a location stands for: given by its ends, by a 32-bit word or by a
    byte; accepted if the ends are in order and at most 64 bits apart. *)
Theorem C12_places :
  forall a k,
  (at_valid a = true <-> a_lsb a <= a_msb a /\ a_msb a < a_lsb a + 64) /\
  (at_valid a = true ->
     (loc_covers (at_loc a) k <-> a_lsb a <= k <= a_msb a) /\
     (forall n, at_valid (at_shift n a) = true /\ (loc_covers (at_loc (at_shift n a)) k <-> a_lsb a + n <= k <= a_msb a + n)) /\
     (forall d, at_valid (at_dword d (a_msb a) (a_lsb a)) = true /\
        (loc_covers (at_loc (at_dword d (a_msb a) (a_lsb a))) k <-> 32 * d + a_lsb a <= k <= 32 * d + a_msb a)) /\
     (forall b, at_valid (at_byte b (a_msb a) (a_lsb a)) = true /\
        (loc_covers (at_loc (at_byte b (a_msb a) (a_lsb a))) k <-> 8 * b + a_lsb a <= k <= 8 * b + a_msb a))).
Proof.
  intros a k. split; [unfold at_valid, at_size; lia|]. intros H. split; [now apply at_loc_covers|].
  split; [|split]; intros n.
  - assert (V : at_valid (at_shift n a) = true) by (unfold at_valid, at_size, at_shift in *; cbn; lia).
    split; [exact V|]. rewrite at_loc_covers by exact V. reflexivity.
  - assert (V : at_valid (at_dword n (a_msb a) (a_lsb a)) = true) by (unfold at_valid, at_size, at_dword in *; cbn [a_lsb a_msb]; lia).
    split; [exact V|]. rewrite at_loc_covers by exact V. reflexivity.
  - assert (V : at_valid (at_byte n (a_msb a) (a_lsb a)) = true) by (unfold at_valid, at_size, at_byte in *; cbn [a_lsb a_msb]; lia).
    split; [exact V|]. rewrite at_loc_covers by exact V. reflexivity.
Qed.
Print Assumptions C12_places.
Example C12_places_case : at_valid (at_byte 3 7 2) = true /\ map (fun a => (a_lsb a, a_msb a)) [at_byte 3 7 2; at_dword 2 9 0; at_shift 5 (at_byte 1 7 0)] = [(26, 31); (64, 73); (13, 20)] /\
  at_valid {| a_msb := 64; a_lsb := 0 |} = false.
Proof. vm_compute. auto. Qed.

(** ... and is the smallest that is. *)
Lemma loc_extent_least es l n : elem_width es -> loc_start l + l_size l <= es * n -> loc_extent es l <= n.
Proof.
  intros He H. unfold loc_extent. unfold loc_start in H.
  assert (B : (l_lsb l + l_size l + 7) / 8 * 8 <= l_lsb l + l_size l + 7) by (rewrite N.mul_comm; apply N.mul_div_le; lia).
  assert (C : exists w, es = 8 * w /\ es / 8 = w /\ 0 < w).
  { destruct He as [->|[->|[->| ->]]]; [exists 1|exists 2|exists 4|exists 8]; repeat split; reflexivity. }
  destruct C as (w & -> & -> & W).
  apply N.lt_succ_r. apply N.div_lt_upper_bound; [lia|].
  generalize dependent ((l_lsb l + l_size l + 7) / 8). intros q B. nia.
Qed.
Theorem C12_computed_storage_least :
  forall es ls n, elem_width es -> fits (es * n) ls -> field_extent es ls <= n.
Proof.
  intros es ls n He H. unfold field_extent.
  assert (G : forall l acc, acc <= n -> (forall x, In x l -> x <= n) -> fold_left N.max l acc <= n).
  { induction l as [|x l IH]; intros acc A B; [exact A|]. cbn. apply IH; [|intros; apply B; now right]. apply N.max_lub; [exact A|apply B; now left]. }
  apply G; [lia|]. intros x X. apply in_map_iff in X as (l & <- & L). apply loc_extent_least; auto.
Qed.
Print Assumptions C12_computed_storage_least.

(** Proofs about places. *)
From Coq Require Import List NArith ZArith Znumtheory Bool Lia.
From Verif Require Import FieldModel MessageModel PlaceModel PlaceSpec.
Import ListNotations.
Local Open Scope Z_scope.

Lemma of_N_mod a b : Z.of_N (a mod 2 ^ b)%N = Z.of_N a mod 2 ^ Z.of_N b.
Proof. rewrite N2Z.inj_mod, N2Z.inj_pow. reflexivity. Qed.
Lemma mod_mod_64 a : (a mod 2 ^ 64) mod 2 ^ 32 = a mod 2 ^ 32.
Proof. symmetry. apply Znumtheory.Zmod_div_mod; [lia|lia|]. exists (2 ^ 32). reflexivity. Qed.
Lemma unit_mod u t : Z.of_N (unit_bit_size u t) = (t * per u) mod 2 ^ 32.
Proof.
  destruct u as [|n]; unfold unit_bit_size, per.
  - unfold to_u32. rewrite Z2N.id by (apply Z.mod_pos_bound; lia). f_equal. lia.
  - rewrite !of_N_mod. change (Z.of_N 64) with 64. change (Z.of_N 32) with 32. rewrite mod_mod_64, N2Z.inj_mul, of_N_mod. change (Z.of_N 64) with 64.
    rewrite <- Z.mul_mod_idemp_l by lia. rewrite mod_mod_64, Z.mul_mod_idemp_l by lia. rewrite N2Z.inj_mul. unfold to_u32. rewrite Z2N.id by (apply Z.mod_pos_bound; lia).
    replace (t mod 2 ^ 32 * Z.of_N n * Z.of_N 8) with (t mod 2 ^ 32 * (8 * Z.of_N n)) by lia. rewrite Z.mul_mod_idemp_l by lia. reflexivity.
Qed.
Lemma add32_mod a b : Z.of_N (add32 a b) = (Z.of_N a + Z.of_N b) mod 2 ^ 32.
Proof. unfold add32. rewrite of_N_mod, N2Z.inj_add. reflexivity. Qed.
Lemma index_mod v : 0 <= v -> Z.of_N (index_literal (Z.to_N v)) = v mod 2 ^ 32.
Proof. intros H. unfold index_literal. rewrite of_N_mod, Z2N.id by auto. reflexivity. Qed.
Lemma idx_add n k m : 0 <= m -> (Z.of_N (unit_bit_size (Bytes k) (n mod 2 ^ 32)) + Z.of_N (Z.to_N m)) mod 2 ^ 32 = (8 * Z.of_N k * n + m) mod 2 ^ 32.
Proof.
  intros H. rewrite unit_mod. unfold per. rewrite Z2N.id by auto. rewrite Z.add_mod_idemp_l by lia. rewrite <- (Z.add_mod_idemp_l (n mod 2 ^ 32 * _)) by lia.
  rewrite Z.mul_mod_idemp_l by lia. rewrite Z.add_mod_idemp_l by lia. f_equal. lia.
Qed.
Lemma made_mod p : written p -> Z.of_N (a_msb (made p)) = fst (meant p) mod 2 ^ 32 /\ Z.of_N (a_lsb (made p)) = snd (meant p) mod 2 ^ 32.
Proof.
  induction p as [m l|d m l|b m l|n u p IH]; simpl written; unfold u32; intros H; cbn [made meant fst snd at32_dword at32_byte at32_shift a_msb a_lsb].
  - rewrite !Z2N.id, !Z.mod_small by lia. auto.
  - rewrite !add32_mod, !index_mod, !(idx_add d 4) by lia. auto.
  - rewrite !add32_mod, !index_mod, !(idx_add b 1) by lia. split; f_equal; lia.
  - destruct (IH H) as [A B]. rewrite !add32_mod, unit_mod, A, B. rewrite !Z.add_mod_idemp_l, !Z.add_mod_idemp_r by lia. auto.
Qed.
Lemma at_eq a b : Z.of_N (a_msb a) = Z.of_N (a_msb b) -> Z.of_N (a_lsb a) = Z.of_N (a_lsb b) -> a = b.
Proof. destruct a, b. cbn. intros. f_equal; lia. Qed.

(** Sizes *)
Local Open Scope N_scope.
Lemma size32 a : sound_at a -> at32_size a = at_size a.
Proof. intros [H1 [H2 H3]]. unfold at32_size, at_size. replace (a_msb a + 2 ^ 32 - a_lsb a + 1) with ((a_msb a - a_lsb a + 1) + 1 * 2 ^ 32) by lia. rewrite N.mod_add by lia. apply N.mod_small. lia. Qed.
Lemma loc32 a : sound_at a -> at32_loc a = at_loc a.
Proof. intros H. unfold at32_loc, at_loc. rewrite size32; auto. Qed.
Lemma locs32 l : Forall sound_at l -> map at32_loc l = map at_loc l.
Proof. induction 1; simpl; auto. rewrite loc32, IHForall; auto. Qed.
Lemma storage32 A m : sound m -> storage_size32 A m = storage_size A m.
Proof. intros H. unfold storage_size32, storage_size. f_equal. apply map_ext_in. intros f Hf. rewrite locs32; auto. apply (H f Hf). Qed.
Lemma valid32 a : sound_at a -> at32_valid a = at_valid a.
Proof. intros H. unfold at32_valid, at_valid. rewrite size32; auto. Qed.
Lemma sum32 l : Forall sound_at l -> fold_right (fun a n => add32 (at32_size a) n) 0 l = (fold_right (fun a n => at_size a + n) 0 l) mod 2 ^ 32.
Proof. induction 1 as [|a l H _ IH]. reflexivity. cbn [fold_right]. rewrite IH, (size32 a H). unfold add32. apply N.add_mod_idemp_r. lia. Qed.
Lemma sum_bound l : Forall sound_at l -> fold_right (fun a n => at_size a + n) 0 l <= 64 * N.of_nat (length l).
Proof. induction 1 as [|a l [H1 [H2 H3]] _ IH]; simpl length; cbn [fold_right]. lia. unfold at_size at 1. lia. Qed.
Lemma forallb_ext_in {A} (f g : A -> bool) l : (forall x, In x l -> f x = g x) -> forallb f l = forallb g l.
Proof. induction l as [|x l IH]; simpl; intros H; auto. rewrite (H x), IH; auto. Qed.
Lemma field32 f : Forall sound_at (f_ats f) -> N.of_nat (length (f_ats f)) < 2 ^ 26 -> field_valid32 f = field_valid f.
Proof.
  intros H L. unfold field_valid32, field_valid. rewrite sum32 by auto. pose proof (sum_bound _ H) as B. rewrite N.mod_small by (change (2 ^ 32) with (64 * 2 ^ 26); lia).
  rewrite (forallb_ext_in at32_valid at_valid). reflexivity. intros a Ha. apply valid32. rewrite Forall_forall in H. auto.
Qed.
Lemma message32_eq l : sound l -> message32 l = message l.
Proof. intros H. unfold message32, message. rewrite (forallb_ext_in field_valid32 field_valid). reflexivity. intros f Hf. destruct (H f Hf). apply field32; auto. Qed.

(** Where the fields of a message end. *)
Lemma fold_max l : forall z x, (x <= z \/ In x l) -> x <= fold_left N.max l z.
Proof. induction l as [|y l IH]; simpl; intros z x [H|H]; try lia; try contradiction; apply IH. lia. destruct H as [->|H]; [left; lia|auto]. Qed.
Lemma extent_bound A a : A <> 0 -> A mod 8 = 0 -> sound_at a -> a_msb a < loc_extent A (at_loc a) * A.
Proof.
  intros HA HA' (H1 & H2 & H3). unfold loc_extent, at_loc, at_size. cbn [l_index l_lsb l_size]. set (l := a_lsb a) in *. set (m := a_msb a) in *. set (s := m - l + 1).
  assert (E : A = 8 * (A / 8)) by (rewrite (N.div_mod A 8) at 1 by lia; lia). set (k := A / 8) in *. assert (K : 0 < k) by lia.
  pose proof (N.div_mod l 32 ltac:(lia)) as D. pose proof (N.mod_lt l 32 ltac:(lia)) as D'. set (q := l / 32) in *. set (r := l mod 32) in *.
  set (x := q * 4 + (r + s + 7) / 8). pose proof (N.div_mod (r + s + 7) 8 ltac:(lia)) as F. pose proof (N.mod_lt (r + s + 7) 8 ltac:(lia)) as F'.
  pose proof (N.div_mod (x + k - 1) k ltac:(lia)) as G. pose proof (N.mod_lt (x + k - 1) k ltac:(lia)) as G'.
  assert (x <= k * ((x + k - 1) / k)) by lia. rewrite E. assert (m < 8 * x) by (unfold x, s in *; lia). lia.
Qed.
Lemma in_storage A m f a : A <> 0 -> A mod 8 = 0 -> sound m -> In f m -> In a (f_ats f) -> a_msb a < storage_size A m * A.
Proof.
  intros HA HA' S Hf Ha. destruct (S f Hf) as [F _]. rewrite Forall_forall in F. pose proof (extent_bound A a HA HA' (F a Ha)) as B.
  assert (loc_extent A (at_loc a) <= field_extent A (f_locs f)). { unfold field_extent. apply fold_max. right. unfold f_locs. rewrite map_map. apply in_map_iff. eauto. }
  assert (field_extent A (f_locs f) <= storage_size A m). { unfold storage_size. apply fold_max. right. apply in_map_iff. eauto. }
  apply (N.lt_le_trans _ _ _ B). apply N.mul_le_mono_r. lia.
Qed.
Lemma shift32 u z n m : Z.of_N n = (z * per u)%Z -> sound m -> (forall f a, In f m -> In a (f_ats f) -> a_msb a + n < 2 ^ 32) -> shift_msg32 u z m = shift_msg n m.
Proof.
  intros E S B. unfold shift_msg32, shift_msg. apply map_ext_in. intros f Hf. unfold shift_field32, shift_field. f_equal. apply map_ext_in. intros a Ha.
  specialize (B f a Hf Ha). destruct (S f Hf) as [F _]. rewrite Forall_forall in F. destruct (F a Ha) as (H1 & H2 & H3). apply at_eq; unfold at32_shift, at_shift; cbn [a_msb a_lsb].
  - rewrite add32_mod, unit_mod, <- E, Z.add_mod_idemp_r, Z.mod_small by lia. lia.
  - rewrite add32_mod, unit_mod, <- E, Z.add_mod_idemp_r, Z.mod_small by lia. lia.
Qed.
Lemma shift_sound n m : sound m -> (forall f a, In f m -> In a (f_ats f) -> a_msb a + n < 2 ^ 32) -> sound (shift_msg n m).
Proof.
  intros S B f Hf. unfold shift_msg in Hf. apply in_map_iff in Hf. destruct Hf as (g & <- & Hg). destruct (S g Hg) as [F L]. unfold shift_field. cbn [f_ats]. rewrite map_length. split; auto.
  rewrite Forall_forall in *. intros a Ha. apply in_map_iff in Ha. destruct Ha as (b & <- & Hb). specialize (B g b Hg Hb). destruct (F b Hb) as (H1 & H2 & H3). unfold sound_at, at_shift. cbn [a_msb a_lsb]. lia.
Qed.
Lemma shifted32 A ms : A <> 0 -> A mod 8 = 0 -> Forall sound ms -> forall off, off * A + total A ms <= 2 ^ 32 ->
  shifted_from32 A off ms = shifted_from A off ms /\ sound (concat (shifted_from A off ms)).
Proof.
  intros HA HA' S. induction S as [|m ms Sm _ IH]; intros off B. split; auto. intros f []. cbn [shifted_from32 shifted_from concat]. unfold total in B. cbn [fold_right] in B. fold (total A ms) in B.
  assert (L : forall f a, In f m -> In a (f_ats f) -> a_msb a + off * A < 2 ^ 32).
  { intros f a Hf Ha. pose proof (in_storage A m f a HA HA' Sm Hf Ha). lia. }
  destruct (IH (off + storage_size A m)) as [E F]. { rewrite N.mul_add_distr_r. lia. }
  rewrite storage32, E, (shift32 _ _ (off * A)); auto.
  - split; auto. intros f Hf. apply in_app_or in Hf. destruct Hf as [Hf|Hf]; [|apply F; auto]. exact (shift_sound _ _ Sm L f Hf).
  - unfold per. rewrite N2Z.inj_mul. f_equal. rewrite (N.div_mod A 8) at 1 by lia. lia.
Qed.
Lemma pack32_eq A ms : A <> 0 -> A mod 8 = 0 -> Forall sound ms -> total A ms <= 2 ^ 32 -> pack32 A ms = pack A ms.
Proof. intros HA HA' S B. destruct (shifted32 A ms HA HA' S 0 B) as [E F]. unfold pack32, pack, overlay, shifted_msgs. rewrite E. apply message32_eq. auto. Qed.

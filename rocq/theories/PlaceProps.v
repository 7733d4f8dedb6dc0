(** C152: the places of fields in 32-bit arithmetic. *)
From Coq Require Import List NArith ZArith Bool Lia.
From Verif Require MatchModel.
From Verif Require Import FieldModel MessageModel PlaceModel PlaceSpec PlaceProofs.
Import ListNotations.
Local Open Scope Z_scope.

(** ** C152: a field is where its definition says *)
(** Every place is the one meant, modulo 2^32. *)
Theorem C152_modulo p : written p -> Z.of_N (a_msb (made p)) = fst (meant p) mod 2 ^ 32 /\ Z.of_N (a_lsb (made p)) = snd (meant p) mod 2 ^ 32.
Proof. apply made_mod. Qed.
Print Assumptions C152_modulo.
(** A place inside 2^32 bits is the one meant, also when it was outside on the way, as
    with negative amounts. *)
Theorem C152_partial p : written p -> inside p -> Z.of_N (a_msb (made p)) = fst (meant p) /\ Z.of_N (a_lsb (made p)) = snd (meant p).
Proof. intros W [A B]. destruct (made_mod p W) as [-> ->]. unfold u32 in *. rewrite !Z.mod_small by lia. auto. Qed.
Print Assumptions C152_partial.
(** Which places are one to the library. *)
Theorem C152_exact p q : written p -> written q ->
  (made p = made q <-> (exists k, fst (meant p) = fst (meant q) + k * 2 ^ 32) /\ exists k, snd (meant p) = snd (meant q) + k * 2 ^ 32).
Proof.
  intros Wp Wq. destruct (made_mod p Wp) as [A B], (made_mod q Wq) as [C D].
  assert (M : forall x y, x mod 2 ^ 32 = y mod 2 ^ 32 <-> exists k, x = y + k * 2 ^ 32).
  { intros x y. split. intros E. exists (x / 2 ^ 32 - y / 2 ^ 32). rewrite (Z.div_mod x (2 ^ 32)) at 1 by lia. rewrite (Z.div_mod y (2 ^ 32)) at 1 by lia. rewrite E. lia.
    intros [k ->]. apply Z.mod_add. lia. }
  rewrite <- !M, <- A, <- B, <- C, <- D. split. intros ->. auto. intros [E F]. apply at_eq; auto.
Qed.
Print Assumptions C152_exact.
(** A place moved and moved back is itself, however far. *)
Theorem C152_back p n u : written p -> made (Moved (- n) u (Moved n u p)) = made p.
Proof. intros W. apply C152_exact; auto. split; exists 0; simpl; lia. Qed.
Print Assumptions C152_back.
(** Amounts add up, in bits or in units. *)
Theorem C152_sum p n m u : written p -> made (Moved n u (Moved m u p)) = made (Moved (n + m) u p) /\ made (Moved n u p) = made (Moved (n * per u) Bits p).
Proof. intros W. split; apply C152_exact; auto; split; exists 0; simpl; lia. Qed.
Print Assumptions C152_sum.
(** A place outside is accepted, and is another one. *)
Theorem C152_refuted : exists p, written p /\ at32_valid (made p) = true /\ made p = made (AtByte 0 7 0) /\ meant p <> meant (AtByte 0 7 0) /\ ~ inside p.
Proof.
  exists (AtByte 536870912 7 0). split; [simpl; unfold u32; lia|]. split; [vm_compute; reflexivity|]. split; [vm_compute; reflexivity|]. split; [discriminate|].
  unfold inside, u32. simpl. lia.
Qed.
Print Assumptions C152_refuted.
(** So is any: one byte index for every place. *)
Theorem C152_everywhere_refuted b m l : 0 <= b < 2 ^ 29 -> u32 m -> u32 l -> made (AtByte (b + 2 ^ 29) m l) = made (AtByte b m l).
Proof.
  intros H M L. unfold u32 in *. apply C152_exact; cbn [written meant fst snd]; unfold u32; [lia|lia|]. split; exists 1; lia.
Qed.
Print Assumptions C152_everywhere_refuted.
(** Which places are accepted: those of 1 to 64 bits, and the one of 2^32 bits. *)
Theorem C152_valid a : (a_msb a < 2 ^ 32)%N -> (a_lsb a < 2 ^ 32)%N ->
  at32_valid a = true <-> (a_lsb a <= a_msb a)%N /\ ((a_msb a < a_lsb a + 64)%N \/ (a_lsb a = 0 /\ a_msb a = 2 ^ 32 - 1)%N).
Proof.
  intros Hm Hl. unfold at32_valid. rewrite andb_true_iff, !N.leb_le. unfold at32_size. split.
  - intros [A B]. split; auto. destruct (N.eq_dec (a_msb a - a_lsb a + 1) (2 ^ 32)) as [E|E]. right. lia. left.
    replace (a_msb a + 2 ^ 32 - a_lsb a + 1)%N with ((a_msb a - a_lsb a + 1) + 1 * 2 ^ 32)%N in A by lia. rewrite N.mod_add, N.mod_small in A by lia. lia.
  - intros [B [C|[C D]]]; split; auto.
    + replace (a_msb a + 2 ^ 32 - a_lsb a + 1)%N with ((a_msb a - a_lsb a + 1) + 1 * 2 ^ 32)%N by lia. rewrite N.mod_add, N.mod_small by lia. lia.
    + rewrite C, D. vm_compute. discriminate.
Qed.
Print Assumptions C152_valid.
Theorem C152_valid_refuted : exists p, written p /\ inside p /\ at32_valid (made p) = true /\ fst (meant p) - snd (meant p) + 1 > 64 /\ at32_size (made p) = 0%N.
Proof. exists (At (2 ^ 32 - 1) 0). unfold inside, u32. repeat split; simpl; try lia; vm_compute; reflexivity. Qed.
Print Assumptions C152_valid_refuted.
(** The bits a locator reads and writes are those of the place (cf. C08 to C11). *)
Theorem C152_locator p : written p -> inside p -> at32_valid (made p) = true -> fst (meant p) - snd (meant p) < 2 ^ 32 - 1 ->
  at32_loc (made p) = at_loc (made p) /\ Z.of_N (l_index (at32_loc (made p)) * 32 + l_lsb (at32_loc (made p)))%N = snd (meant p) /\
  Z.of_N (l_size (at32_loc (made p))) = fst (meant p) - snd (meant p) + 1.
Proof.
  intros W I V L. destruct (C152_partial p W I) as [A B]. destruct I as [Im Il]. unfold u32 in *. apply C152_valid in V; try lia. destruct V as [V1 V2].
  assert (S : sound_at (made p)) by (unfold sound_at; lia). split; [apply loc32; auto|]. rewrite loc32 by auto. unfold at_loc, at_size. cbn [l_index l_size l_lsb]. split; [|lia].
  rewrite <- B. f_equal. rewrite (N.div_mod (a_lsb (made p)) 32) at 3 by lia. lia.
Qed.
Print Assumptions C152_locator.

(** Shifting a message by any amount that keeps its fields inside 2^32 bits. *)
Local Open Scope N_scope.
Theorem C152_shift u z n m : Z.of_N n = (z * per u)%Z -> sound m -> (forall f a, In f m -> In a (f_ats f) -> a_msb a + n < 2 ^ 32) -> shift_msg32 u z m = shift_msg n m.
Proof. apply shift32. Qed.
Print Assumptions C152_shift.
(** Packing messages that take no more than 2^32 bits is packing without bound, to which
    C17 and C18 apply. *)
Theorem C152_pack A ms : In A [8; 16; 32; 64] -> Forall sound ms -> total A ms <= 2 ^ 32 -> pack32 A ms = pack A ms.
Proof. intros HA S B. apply pack32_eq; auto; repeat (destruct HA as [<-|HA]; [discriminate || reflexivity|]); contradiction. Qed.
Print Assumptions C152_pack.
(** Messages that take more are packed one over the other. *)
Definition byte_field (n : nat) (l : N) : mfield := {| f_name := n; f_bytes := 1; f_default := DWithout; f_match := MatchModel.Always; f_ats := [ {| a_msb := l + 7; a_lsb := l |} ] |}.
Theorem C152_pack_refuted : exists a b fs f g, sound a /\ sound b /\ total 8 [a; b] = 2 ^ 32 + 8 /\ pack32 8 [a; b] = Some fs /\ In f fs /\ In g fs /\ f_name f <> f_name g /\ f_ats f = f_ats g.
Proof.
  exists [byte_field 1 0; byte_field 2 (2 ^ 32 - 8)], [byte_field 3 0].
  exists [byte_field 1 0; byte_field 3 0; byte_field 2 (2 ^ 32 - 8)], (byte_field 1 0), (byte_field 3 0).
  split; [|split; [|split; [|split; [|split; [|split; [|split]]]]]].
  - intros f [<-|[<-|[]]]; (split; [repeat constructor; vm_compute; congruence|vm_compute; reflexivity]).
  - intros f [<-|[]]; (split; [repeat constructor; vm_compute; congruence|vm_compute; reflexivity]).
  - vm_compute. reflexivity.
  - vm_compute. reflexivity.
  - simpl. auto.
  - simpl. auto.
  - discriminate.
  - reflexivity.
Qed.
Print Assumptions C152_pack_refuted.

(** Byte 3 of double word 2, moved down two bytes and up a double word; and a place that
    was below zero on the way. *)
Example C152_case : made (Moved 1 (Bytes 4) (Moved (-2) (Bytes 1) (AtDword 2 31 24))) = {| a_msb := 111; a_lsb := 104 |} /\
  made (Moved 16 Bits (Moved (-3) (Bytes 1) (AtByte 1 7 4))) = {| a_msb := 7; a_lsb := 4 |} /\
  at32_valid (made (Moved (-3) (Bytes 1) (AtByte 1 7 4))) = true /\ a_lsb (made (Moved (-3) (Bytes 1) (AtByte 1 7 4))) = 4294967284.
Proof. vm_compute. auto. Qed.
Example C152_case_pack : option_map (map (fun f => (f_name f, f_ats f))) (pack32 32 [[byte_field 1 0; byte_field 2 40]; [byte_field 3 8]; [byte_field 4 0]]) =
  Some [(1%nat, [ {| a_msb := 7; a_lsb := 0 |} ]); (2%nat, [ {| a_msb := 47; a_lsb := 40 |} ]); (3%nat, [ {| a_msb := 79; a_lsb := 72 |} ]); (4%nat, [ {| a_msb := 103; a_lsb := 96 |} ])].
Proof. vm_compute. reflexivity. Qed.

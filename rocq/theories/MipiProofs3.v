(** Decoding of whole packets and of streams; build-version packets. *)
From Coq Require Import String Ascii Bool Arith List NArith ZArith Lia.
From Coq Require Import ZifyN ZifyNat ZifyBool.
From Verif Require Import FieldModel FieldSpec FieldProofs FieldProofs2 MessageModel MessageSpec MessageProofs MipiModel MipiSpec MipiProofs MipiProofs2.
Import ListNotations.
Local Open Scope N_scope.

Lemma bits_mod v n k w : k + w <= n -> bits (v mod 2 ^ n) k w = bits v k w.
Proof.
  intros H. rewrite !bits_slice. apply FieldProofs3.slice_ext. intros j Hj. rewrite N.mod_pow2_bits_low by lia. reflexivity.
Qed.
Lemma bits_0 v w : bits v 0 w = v mod 2 ^ w.
Proof. unfold bits. rewrite N.pow_0_r, N.div_1_r. reflexivity. Qed.
Lemma read_struct_le n v rest : read_struct n (le_bytes n v ++ rest) = Ok (v mod 2 ^ (8 * N.of_nat n), rest).
Proof.
  unfold read_struct. assert (E : islice n (le_bytes n v ++ rest) = (le_bytes n v, rest)).
  { unfold islice. pose proof (le_bytes_length n v) as L. rewrite firstn_app, skipn_app, L, Nat.sub_diag, (firstn_all2 (le_bytes n v)), (skipn_all2 (le_bytes n v)) by lia.
    cbn [firstn skipn]. rewrite app_nil_r. reflexivity. }
  rewrite E. unfold unpack. rewrite le_bytes_length, Nat.eqb_refl, from_le_bytes. reflexivity.
Qed.
Lemma type_nibble w rest : exists b r, (le_bytes 4 w ++ rest = b :: r)%list /\ b mod 16 = bits w 0 4.
Proof.
  eexists _, _. cbn [le_bytes app]. split; [reflexivity|]. change 256 with (2 ^ 8). change 16 with (2 ^ 4).
  rewrite <- (bits_0 (w mod 2 ^ 8) 4). apply bits_mod. lia.
Qed.

(** ** One packet *)
Lemma decode_short_exact db id rest : exists ws, build_short32 id = Some (Done ws) /\
  construct_msg db (wire (Dwords ws) ++ rest) =
    match db_messages db (id mod 2 ^ 28) with Some _ => Ok (DShort (id mod 2 ^ 28), rest) | None => Raised end.
Proof.
  destruct (build_short32_spec id) as (w & E & Hw & H1 & H2). exists [w]. split; auto. cbn [wire flat_map]. rewrite app_nil_r.
  destruct (type_nibble w rest) as (b & r & Eb & Hb). unfold construct_msg. rewrite Eb at 1. rewrite Hb, H1. cbn [N.eqb Pos.eqb].
  unfold decode_short. rewrite read_struct_le. cbn [py_bind]. change (8 * N.of_nat 4) with 32. rewrite N.mod_small by auto.
  change (32 - 4) with 28. rewrite H2. reflexivity.
Qed.
Lemma extract_args_exact p db args rest : Forall (fun a => type_ok (fst a) /\ name_ok (fst a) /\ arg_ok p a) args ->
  extract_args db (flat_map (fun a => le_bytes (N.to_nat (pack_bytes p (fst a))) (packed p (fst a) (snd a))) args ++ rest) (map (fun a => encode_text p (fst a)) args) =
  Ok (map (fun a => displayed p db (fst a) (snd a)) args, rest).
Proof.
  induction 1 as [|[t raw] args (H1 & H2 & H3) _ IH]; cbn [flat_map map extract_args fst snd] in *; auto.
  rewrite <- app_assoc, extract_arg_exact by auto. cbn [py_bind]. rewrite IH. reflexivity.
Qed.
Lemma wire_payload p id args : flat_map (le_bytes 4) (payload p id args) =
  (le_bytes 4 id ++ flat_map (fun a => le_bytes (N.to_nat (pack_bytes p (fst a))) (packed p (fst a) (snd a))) args)%list.
Proof.
  unfold payload. cbn [flat_map]. rewrite flat_map_app. f_equal.
  induction args as [|a args IH]; cbn [flat_map]; auto. rewrite flat_map_app, IH, dwords_bytes by apply pack_bytes_48. reflexivity.
Qed.
Lemma decode_catalog_exact p db level id m u args rest :
  Forall (fun a => type_ok (fst a) /\ name_ok (fst a) /\ arg_ok p a) args ->
  db_messages db (id mod 2 ^ 32) = Some (map (fun a => encode_text p (fst a)) args) ->
  exists ws, build_catalog p level id m u args = Some (Done ws) /\
    construct_msg db (wire (Dwords ws) ++ rest) =
      match db_modules db (m mod 2 ^ 7) with
      | Some _ => Ok (DCatalog (level mod 2 ^ 3) (u mod 2 ^ 4) (m mod 2 ^ 7) (id mod 2 ^ 32) (map (fun a => displayed p db (fst a) (snd a)) args), rest)
      | None => Raised
      end.
Proof.
  intros Ha Hdb. destruct (build_catalog_spec p level id m u args) as (w & E & Hw & H1 & H2 & H3 & H4 & H5 & _).
  exists (w :: payload p id args). split; auto. cbn [wire flat_map]. rewrite wire_payload, <- !app_assoc.
  set (tl := (flat_map (fun a => le_bytes (N.to_nat (pack_bytes p (fst a))) (packed p (fst a) (snd a))) args ++ rest)%list).
  destruct (type_nibble w (le_bytes 4 id ++ tl)) as (b & r & Eb & Hb). unfold construct_msg. rewrite Eb at 1. rewrite Hb, H1. cbn [N.eqb Pos.eqb].
  unfold decode_catalog. rewrite read_struct_le. cbn [py_bind]. change (8 * N.of_nat 4) with 32. rewrite N.mod_small by auto.
  rewrite H2, H3, H4, H5. cbn [N.eqb Pos.eqb]. destruct (db_modules db (m mod 2 ^ 7)); auto.
  pose proof (read_struct_le 4 id tl) as R. unfold read_struct, islice in R. unfold islice.
  destruct (unpack 4 (firstn 4 (le_bytes 4 id ++ tl))) as [v|]; [|discriminate R]. cbn [py_bind] in R |- *. injection R as ->. change (skipn 4 (le_bytes 4 id ++ tl)) with tl.
  change (N.pos (2 ^ 32)) with (2 ^ 32). rewrite Hdb. unfold tl. rewrite extract_args_exact by auto. reflexivity.
Qed.

(** ** Streams *)
(** Packets that decode, whatever follows them. *)
Definition decodes (db : database) (bs : list N) (d : decoded) : Prop :=
  bs <> [] /\ forall rest, construct_msg db (bs ++ rest) = Ok (d, rest).
Lemma stream db : forall pkts ds fuel, Forall2 (decodes db) pkts ds -> (length (concat pkts) <= fuel)%nat ->
  read_logs_from fuel db (concat pkts) = (ds, false).
Proof.
  intros pkts ds fuel H. revert fuel. induction H as [|b d pkts ds [Hne H] _ IH]; intros fuel Hf.
  - destruct fuel; reflexivity.
  - cbn [concat] in *. destruct b as [|x b]; [congruence|]. rewrite app_length in Hf. cbn [length] in Hf. destruct fuel as [|fuel]; [lia|].
    cbn [read_logs_from app]. change (x :: (b ++ concat pkts))%list with ((x :: b) ++ concat pkts)%list. rewrite H, IH by lia. reflexivity.
Qed.
(** A packet that raises ends the stream. *)
Lemma stream_raises db : forall pkts ds fuel bad, Forall2 (decodes db) pkts ds -> bad <> [] -> construct_msg db bad = Raised ->
  (length (concat pkts) < fuel)%nat -> read_logs_from fuel db (concat pkts ++ bad) = (ds, true).
Proof.
  intros pkts ds fuel bad H Hb Hr. revert fuel. induction H as [|b d pkts ds [Hne H] _ IH]; intros fuel Hf.
  - cbn [concat app]. destruct bad; [congruence|]. destruct fuel; [lia|]. cbn [read_logs_from]. rewrite Hr. reflexivity.
  - cbn [concat] in *. destruct b as [|x b]; [congruence|]. rewrite app_length in Hf. cbn [length] in Hf. destruct fuel as [|fuel]; [lia|].
    rewrite <- app_assoc. cbn [read_logs_from app]. change (x :: (b ++ concat pkts ++ bad))%list with ((x :: b) ++ (concat pkts ++ bad))%list. rewrite H, IH by lia. reflexivity.
Qed.

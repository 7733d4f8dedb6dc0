(** C40-C42: binary log packets. *)
From Coq Require Import String Ascii Bool Arith List NArith ZArith Lia.
From Coq Require Import ZifyN ZifyNat ZifyBool.
From Verif Require Import FieldModel FieldSpec MessageModel MipiModel MipiSpec MipiProofs MipiProofs2 MipiProofs3 MipiProofs4.
Import ListNotations.
Local Open Scope N_scope.

Definition good_arg (p : platform) (a : argty * N) : Prop := type_ok (fst a) /\ name_ok (fst a) /\ arg_ok p a.
(** The packet of a call, as the builder makes it. *)
Definition packet_of (p : platform) (c : call) (bs : list N) : Prop :=
  exists ws, build p (c_level c) (c_id c) (c_module c) (c_unit c) (c_args c) = Some (Done ws) /\ bs = wire (Dwords ws).

(** The arguments are shown as wanted in the stated cases. *)
Lemma displayed_wanted p db t raw : type_ok t -> arg_ok p (t, raw) -> shows_right p (t, raw) -> displayed p db t raw = wanted p db t raw.
Proof.
  intros Ht [Hr Hb] Hs. unfold shows_right, arg_ok in *. cbn [fst snd] in *. destruct t as [b|n b|n b]; cbn [displayed wanted underlying] in *.
  - destruct b; cbn [displayed_base wanted] in *; auto. subst raw. reflexivity.
  - destruct Hs as [Hs1 Hs2]. unfold numeric. cbn [underlying]. destruct Ht as [Ht1 Ht2].
    destruct b; cbn [displayed_base enum_lookup]; try congruence; try reflexivity.
    rewrite (Hs2 eq_refl). reflexivity.
  - cbn [enum_lookup]. assert (E : Z.of_N (packed p (Unscoped n b) raw) = numeric p (Unscoped n b) raw).
    { unfold packed, numeric in *. cbn [underlying] in *. unfold signed_value in *. destruct (base_signed p b) eqn:Es.
      - destruct (raw <? _) eqn:Er; [|lia]. destruct (_ =? _) eqn:Ee; auto. rewrite Z2N.id, Z.mod_small.
        + reflexivity.
        + split; [lia|]. pose proof (arg_le_pack p (Unscoped n b)). assert (2 ^ (8 * arg_bytes p (Unscoped n b)) <= 2 ^ (8 * pack_bytes p (Unscoped n b))) by (apply N.pow_le_mono_r; lia). lia.
        + apply Z.mod_pos_bound. pose proof (N.pow_nonzero 2 (8 * pack_bytes p (Unscoped n b))). lia.
      - destruct (_ =? _); reflexivity. }
    rewrite E. reflexivity.
Qed.

(** What is decoded from a call with arguments, exactly: only high bits of the
    header fields are lost. *)
Theorem C40_exact : forall p db c, c_args c <> [] -> Forall (good_arg p) (c_args c) -> c_id c < 2 ^ 32 -> in_catalog p db c -> c_module c < 2 ^ 7 ->
  exists bs, packet_of p c bs /\ forall rest, construct_msg db (bs ++ rest) =
    Ok (DCatalog (c_level c mod 2 ^ 3) (c_unit c mod 2 ^ 4) (c_module c) (c_id c) (map (fun a => displayed p db (fst a) (snd a)) (c_args c)), rest).
Proof.
  intros p db c Hne Ha Hid [Hc (s & Hm)] Hmod.
  assert (Hdb : db_messages db (c_id c mod 2 ^ 32) = Some (map (fun a => encode_text p (fst a)) (c_args c))) by (rewrite N.mod_small; auto).
  destruct (decode_catalog_exact p db (c_level c) (c_id c) (c_module c) (c_unit c) (c_args c) [] Ha Hdb) as (ws & E & _).
  exists (wire (Dwords ws)). split.
  - exists ws. split; auto. unfold build. destruct (c_args c); congruence.
  - intros rest. destruct (decode_catalog_exact p db (c_level c) (c_id c) (c_module c) (c_unit c) (c_args c) rest Ha Hdb) as (ws' & E' & R).
    rewrite E in E'. injection E' as <-. rewrite R, (N.mod_small (c_module c)), Hm, (N.mod_small (c_id c)) by auto. reflexivity.
Qed.
Print Assumptions C40_exact.
(** The whole property, for calls with arguments that fit the wire and whose
    argument values the decoder shows as they are. *)
Theorem C40_partial : forall p db c, c_args c <> [] -> fits_wire c -> in_catalog p db c ->
  Forall (good_arg p) (c_args c) -> Forall (shows_right p) (c_args c) ->
  exists bs, packet_of p c bs /\ forall rest, construct_msg db (bs ++ rest) = Ok (wanted_message p db c, rest).
Proof.
  intros p db c Hne (F1 & F2 & F3 & F4) Hc Ha Hs. assert (Hid : c_id c < 2 ^ 32) by (destruct (c_args c); [congruence|auto]).
  destruct (C40_exact p db c Hne Ha Hid Hc F2) as (bs & Hp & H). exists bs. split; auto. intros rest. rewrite H.
  unfold wanted_message. rewrite !N.mod_small by auto. do 3 f_equal. apply map_ext_in. intros [t raw] Hin. rewrite Forall_forall in Ha, Hs.
  destruct (Ha _ Hin) as (A1 & A2 & A3). apply displayed_wanted; auto.
Qed.
Print Assumptions C40_partial.
(** A call without arguments: the low 28 bits of the id, and nothing else. *)
Theorem C40_short : forall p db c, c_args c = [] ->
  exists bs, packet_of p c bs /\ forall rest, construct_msg db (bs ++ rest) =
    match db_messages db (c_id c mod 2 ^ 28) with Some _ => Ok (DShort (c_id c mod 2 ^ 28), rest) | None => Raised end.
Proof.
  intros p db c Ha. destruct (decode_short_exact db (c_id c) []) as (ws & E & _). exists (wire (Dwords ws)). split.
  - exists ws. split; auto. unfold build. rewrite Ha. exact E.
  - intros rest. destruct (decode_short_exact db (c_id c) rest) as (ws' & E' & R). rewrite E in E'. injection E' as <-. exact R.
Qed.
Print Assumptions C40_short.
(** The first word of a packet with arguments announces none of the optional
    fields of the format, and its reserved bits are zero. *)
Theorem C40_options : forall p c bs, c_args c <> [] -> packet_of p c bs ->
  let w := from_le (firstn 4 bs) in
  bits w 0 4 = 3 /\ bits w 24 6 = 1 /\ bits w 7 1 = 0 /\ bits w 8 1 = 0 /\ bits w 9 1 = 0 /\ bits w 10 1 = 0 /\ bits w 11 1 = 0 /\ bits w 23 1 = 0 /\ bits w 30 2 = 0.
Proof.
  intros p c bs Hne (ws & E & ->) w. unfold build in E. destruct (c_args c) as [|a args]; [congruence|].
  destruct (build_catalog_spec p (c_level c) (c_id c) (c_module c) (c_unit c) (a :: args)) as (x & E' & Hx & H1 & _ & _ & _ & H5 & H6 & H7 & H8).
  rewrite E in E'. injection E' as ->. assert (Ew : w = x) by (unfold w; cbn [wire flat_map]; rewrite firstn_le4; apply from_le_4; auto). clearbody w. subst w.
  assert (Z : forall k, 7 <= k < 12 -> bits x k 1 = 0).
  { intros k Hk. rewrite bits_slice in *. apply slice_zero. intros j Hj. replace j with ((j - 7) + 7) by lia. rewrite <- N.shiftr_spec, <- (N.mod_pow2_bits_low _ 5) by lia.
    unfold slice in H6. rewrite H6. apply N.bits_0. }
  repeat split; auto; apply Z; lia.
Qed.
Print Assumptions C40_options.
(** The bytes of a packet: four of the first word, four of the id, and those of the
    arguments in order, each with its sign in the bytes it takes. *)
Lemma le_number n v : le_bytes n v = number_bytes n (Z.of_N v).
Proof.
  unfold number_bytes.
  assert (G : forall k, le_bytes n (v / 256 ^ N.of_nat k) = map (fun i => Z.to_N ((Z.of_N v / 256 ^ Z.of_nat i) mod 256)) (seq k n)).
  { induction n as [|n IH]; intros k; cbn [le_bytes seq map]; auto. f_equal.
    - rewrite <- (N2Z.id (_ mod _)), N2Z.inj_mod, N2Z.inj_div, N2Z.inj_pow, nat_N_Z. reflexivity.
    - rewrite <- IH. f_equal. rewrite N.div_div by (try apply N.pow_nonzero; discriminate). f_equal. rewrite Nat2N.inj_succ, N.pow_succ_r'. apply N.mul_comm. }
  specialize (G 0%nat). cbn [N.of_nat] in G. rewrite N.pow_0_r, N.div_1_r in G. exact G.
Qed.
Lemma number_mod n z : number_bytes n (z mod 256 ^ Z.of_nat n) = number_bytes n z.
Proof.
  unfold number_bytes. apply map_ext_in. intros i Hi. apply in_seq in Hi. f_equal.
  replace (Z.of_nat n) with (Z.of_nat i + Z.of_nat (n - i))%Z by lia. rewrite Z.pow_add_r by lia.
  rewrite Z.rem_mul_r by (try apply Z.pow_nonzero; try apply Z.pow_pos_nonneg; lia).
  rewrite (Z.mul_comm (256 ^ Z.of_nat i)), Z.div_add by (apply Z.pow_nonzero; lia).
  rewrite (Z.div_small (z mod _)) by (apply Z.mod_pos_bound, Z.pow_pos_nonneg; lia). cbn [Z.add].
  replace (n - i)%nat with (S (n - i - 1)) by lia. rewrite Nat2Z.inj_succ, Z.pow_succ_r by lia.
  rewrite <- Znumtheory.Zmod_div_mod; auto; try lia; try (apply Z.mul_pos_pos; [lia|apply Z.pow_pos_nonneg; lia]). exists (256 ^ Z.of_nat (n - i - 1))%Z. lia.
Qed.
Lemma packed_bytes p t r : arg_ok p (t, r) -> le_bytes (N.to_nat (pack_bytes p t)) (packed p t r) = number_bytes (wire_size p t) (numeric p t r).
Proof.
  intros [H _]. cbn [fst snd] in H. assert (E : N.to_nat (pack_bytes p t) = wire_size p t).
  { unfold pack_bytes, arg_bytes, wire_size. destruct (underlying t); try reflexivity; cbn [base_bytes]; destruct (long8 p); reflexivity. }
  rewrite le_number, E, <- (number_mod _ (numeric p t r)), <- (number_mod _ (Z.of_N _)). f_equal.
  assert (E2 : (256 ^ Z.of_nat (wire_size p t))%Z = Z.of_N (2 ^ (8 * pack_bytes p t))).
  { rewrite <- E, N_nat_Z, N2Z.inj_pow, N2Z.inj_mul. change 256%Z with (2 ^ 8)%Z. rewrite <- Z.pow_mul_r by lia. reflexivity. }
  rewrite E2. unfold packed, numeric, signed_value. pose proof (N.pow_nonzero 2 (8 * pack_bytes p t)) as Hz.
  destruct (arg_bytes p t =? pack_bytes p t) eqn:Ee.
  - destruct (base_signed _ _); auto. destruct (r <? _); auto. apply N.eqb_eq in Ee. rewrite Ee. rewrite <- Z_mod_plus_full with (b := (-1)%Z). f_equal; lia.
  - destruct (base_signed _ _); auto. rewrite Z2N.id by (apply Z.mod_pos_bound; lia). rewrite Z.mod_mod by lia. reflexivity.
Qed.
Theorem C40_bytes : forall p c bs, c_args c <> [] -> Forall (arg_ok p) (c_args c) -> packet_of p c bs ->
  skipn 4 bs = (number_bytes 4 (Z.of_N (c_id c)) ++ flat_map (fun a => number_bytes (wire_size p (fst a)) (numeric p (fst a) (snd a))) (c_args c))%list.
Proof.
  intros p c bs Hne Ha (ws & E & ->). unfold build in E. destruct (c_args c) as [|a args] eqn:Ec; [congruence|].
  destruct (build_catalog_spec p (c_level c) (c_id c) (c_module c) (c_unit c) (a :: args)) as (x & E' & _).
  rewrite E in E'. injection E' as ->. transitivity (flat_map (le_bytes 4) (payload p (c_id c) (a :: args))); [reflexivity|].
  rewrite wire_payload, le_number. f_equal. clear - Ha. remember (a :: args) as l eqn:El. clear El.
  induction l as [|[t r] l IH]; cbn [flat_map fst snd]; auto. inversion_clear Ha. rewrite IH, packed_bytes by auto. reflexivity.
Qed.
Print Assumptions C40_bytes.
(** The numbers above are the values of the types of C++, and the only ones. *)
Theorem C40_numbers : forall p t raw,
  (arg_ok p (t, raw) <-> (Z.of_N raw < 2 ^ width p (underlying t))%Z /\ (underlying t = Bool -> raw = 0 \/ raw = 1)) /\
  (arg_ok p (t, raw) -> forall z, value_of p (underlying t) raw z <-> z = numeric p t raw).
Proof.
  intros p t raw.
  assert (Hw : (2 ^ width p (underlying t))%Z = Z.of_N (2 ^ (8 * arg_bytes p t))).
  { unfold arg_bytes. destruct (underlying t); cbn [width base_bytes]; try reflexivity; destruct (long8 p); reflexivity. }
  split.
  - unfold arg_ok. cbn [fst snd]. rewrite Hw. split; intros [A B]; (split; [lia|intro E; specialize (B E); lia]).
  - intros [A _] z. cbn [fst snd] in A. unfold value_of, numeric.
    assert (Hs : has_sign p (underlying t) = base_signed p (underlying t)) by (destruct (underlying t); reflexivity).
    rewrite Hs. assert (Hh : exists h, (2 ^ width p (underlying t) = 2 * h /\ 2 ^ (width p (underlying t) - 1) = h /\ 0 < h)%Z /\
      h = Z.of_N (2 ^ (8 * arg_bytes p t - 1))).
    { unfold arg_bytes. destruct (underlying t); cbn [width base_bytes]; try destruct (long8 p); eexists; (split; [split; [|split]; reflexivity|reflexivity]). }
    destruct Hh as (h & (H1 & H2 & H3) & H4). rewrite H1, H2. rewrite H1 in Hw.
    assert (Hr : (0 <= Z.of_N raw < 2 * h)%Z) by lia.
    destruct (base_signed p (underlying t)).
    + assert (Hneg : forall y, (y < 0 -> - h <= y -> y mod (2 * h) = y + 2 * h)%Z).
      { intros y Hy Hl. rewrite <- (Z.mod_add y 1) by lia. rewrite Z.mod_small; lia. }
      unfold signed_value. rewrite <- Hw. destruct (N.ltb_spec raw (2 ^ (8 * arg_bytes p t - 1))) as [L|L].
      * assert (L' : (Z.of_N raw < h)%Z) by lia. split; [intros [M R]|intros ->].
        -- destruct (Z_lt_le_dec z 0); [rewrite Hneg in M by lia; lia|rewrite Z.mod_small in M by lia; lia].
        -- split; [apply Z.mod_small; lia|lia].
      * assert (L' : (h <= Z.of_N raw)%Z) by lia. split; [intros [M R]|intros ->].
        -- destruct (Z_lt_le_dec z 0); [rewrite Hneg in M by lia; lia|rewrite Z.mod_small in M by lia; lia].
        -- split; [rewrite Hneg by lia; lia|lia].
    + split; [intros [M R]; rewrite Z.mod_small in M by lia; lia|intros ->]. split; [apply Z.mod_small; lia|lia].
Qed.
Print Assumptions C40_numbers.
(** Every argument type and value is carried by the wire: two argument values of
    the same type that are packed alike are equal. *)
Theorem C40_lossless : forall p t r s, arg_ok p (t, r) -> arg_ok p (t, s) ->
  le_bytes (N.to_nat (pack_bytes p t)) (packed p t r) = le_bytes (N.to_nat (pack_bytes p t)) (packed p t s) -> r = s.
Proof.
  intros p t r s [H1 _] [H2 _] E. cbn [fst snd] in *. apply (f_equal from_le) in E. rewrite !from_le_bytes in E.
  rewrite N2Nat.id, !N.mod_small in E by (apply packed_lt; auto). rewrite <- (packed_mod p t r H1), <- (packed_mod p t s H2), E. reflexivity.
Qed.
Print Assumptions C40_lossless.

Definition x64 := {| long8 := true; char_signed := true |}.
Definition db_of (id : N) (types : list string) (enums : string -> Z -> option string) : database :=
  {| db_messages := fun i => if i =? id then Some types else None; db_modules := fun _ => Some "default"%string; db_enums := enums |}.
Definition color (e : string) (z : Z) : option string := if (e =? "color")%string && (z =? -1)%Z then Some "red"%string else None.
Definition sent (p : platform) (c : call) : list N :=
  match build p (c_level c) (c_id c) (c_module c) (c_unit c) (c_args c) with Some (Done ws) => wire (Dwords ws) | _ => [] end.
Example C40_bytes_case : let c := {| c_level := 1; c_module := 2; c_unit := 3; c_id := 5; c_args := [(Plain Long, 2 ^ 64 - 2); (Plain Short, 2 ^ 16 - 3)] |} in
  Forall (arg_ok x64) (c_args c) /\ skipn 4 (sent x64 c) = [5; 0; 0; 0; 254; 255; 255; 255; 255; 255; 255; 255; 253; 255; 255; 255].
Proof. split; [repeat constructor; cbn; intros; congruence|]. vm_compute. reflexivity. Qed.
Example C40_case :
  let c := {| c_level := 3; c_module := 100; c_unit := 9; c_id := 77777;
              c_args := [(Plain Int, 4294967295); (Plain ULongLong, 12345678901234567890); (Scoped "color" SChar, 255); (Plain Float, 1065353216)] |} in
  let db := db_of 77777 (map (fun a => encode_text x64 (fst a)) (c_args c)) color in
  construct_msg db (sent x64 c ++ [1; 2; 3]) =
    Ok (DCatalog 3 9 100 77777 [VInt (-1); VInt 12345678901234567890; VName "red"; VFloat 1065353216], [1; 2; 3]) /\
  wanted_message x64 db c = DCatalog 3 9 100 77777 [VInt (-1); VInt 12345678901234567890; VName "red"; VFloat 1065353216].
Proof. vm_compute. auto. Qed.

Ltac wit :=
  split; [discriminate|]; split; [repeat split|]; split; [split; [reflexivity|eexists; reflexivity]|]; split;
  [constructor; [|constructor]; repeat split; try (vm_compute; reflexivity); try (vm_compute; discriminate); cbn; intuition discriminate|];
  repeat split; try (vm_compute; congruence).
(** A catalogued call that fits the wire, is decoded, but not to what was logged:
    true is shown as -1. *)
Theorem C40_refuted : exists p db c, c_args c <> [] /\ fits_wire c /\ in_catalog p db c /\ Forall (good_arg p) (c_args c) /\
  construct_msg db (sent p c) = Ok (DCatalog (c_level c) (c_unit c) (c_module c) (c_id c) [VInt (-1)], []) /\
  wanted_message p db c = DCatalog (c_level c) (c_unit c) (c_module c) (c_id c) [VInt 1].
Proof.
  exists x64, (db_of 5 ["encode_u32<bool>"%string] (fun _ _ => None)), {| c_level := 1; c_module := 2; c_unit := 3; c_id := 5; c_args := [(Plain Bool, 1)] |}.
  wit.
Qed.
(** A negative enumerator of an unscoped enumeration is shown as static_cast of a
    large number, though the catalog has its name. *)
Theorem C40_unscoped_refuted : exists p db c, c_args c <> [] /\ fits_wire c /\ in_catalog p db c /\ Forall (good_arg p) (c_args c) /\
  construct_msg db (sent p c) = Ok (DCatalog (c_level c) (c_unit c) (c_module c) (c_id c) [VCast "color" (VInt 4294967295)], []) /\
  wanted_message p db c = DCatalog (c_level c) (c_unit c) (c_module c) (c_id c) [VName "red"].
Proof.
  exists x64, (db_of 5 ["encode_32<color>"%string] color), {| c_level := 1; c_module := 2; c_unit := 3; c_id := 5; c_args := [(Unscoped "color" Int, 4294967295)] |}.
  wit.
Qed.
(** An enumerator of a scoped enumeration over char is never named. *)
Theorem C40_char_enum_refuted : exists p db c, c_args c <> [] /\ fits_wire c /\ in_catalog p db c /\ Forall (good_arg p) (c_args c) /\
  construct_msg db (sent p c) = Ok (DCatalog (c_level c) (c_unit c) (c_module c) (c_id c) [VCast "color" (VChar 255)], []) /\
  wanted_message p db c = DCatalog (c_level c) (c_unit c) (c_module c) (c_id c) [VName "red"].
Proof.
  exists x64, (db_of 5 ["encode_enum<color, char, 4>"%string] color), {| c_level := 1; c_module := 2; c_unit := 3; c_id := 5; c_args := [(Scoped "color" Char, 255)] |}.
  wit.
Qed.
(** An enumeration whose name mentions a template makes the decoder raise. *)
Theorem C40_template_refuted : exists p db c, c_args c <> [] /\ fits_wire c /\ in_catalog p db c /\
  Forall (fun a => type_ok (fst a) /\ arg_ok p a) (c_args c) /\ sent p c <> [] /\ construct_msg db (sent p c) = Raised.
Proof.
  exists x64, (db_of 5 ["encode_enum<wrapper<int>::mode, int, 4>"%string] color), {| c_level := 1; c_module := 2; c_unit := 3; c_id := 5; c_args := [(Scoped "wrapper<int>::mode" Int, 1)] |}.
  wit.
Qed.
(** Calls without arguments that differ in level, module and unit send the same
    packet; and ids that agree modulo 2^28 too. *)
Theorem C40_short_refuted : exists p c d e, c_args c = [] /\ c_args d = [] /\ c_args e = [] /\ fits_wire c /\ fits_wire d /\
  c_level c <> c_level d /\ c_module c <> c_module d /\ c_unit c <> c_unit d /\ c_id c <> c_id e /\
  sent p c <> [] /\ sent p c = sent p d /\ sent p c = sent p e.
Proof.
  exists x64, {| c_level := 1; c_module := 2; c_unit := 3; c_id := 5; c_args := [] |}, {| c_level := 4; c_module := 9; c_unit := 8; c_id := 5; c_args := [] |},
    {| c_level := 1; c_module := 2; c_unit := 3; c_id := 5 + 2 ^ 28; c_args := [] |}.
  repeat split; vm_compute; congruence.
Qed.
Print Assumptions C40_short_refuted.

(** ** C41 *)
(** What a call of the catalog decodes to. *)
Definition decoded_call (p : platform) (db : database) (c : call) : decoded :=
  match c_args c with
  | [] => DShort (c_id c)
  | _ => DCatalog (c_level c mod 2 ^ 3) (c_unit c mod 2 ^ 4) (c_module c) (c_id c) (map (fun a => displayed p db (fst a) (snd a)) (c_args c))
  end.
Definition loggable (p : platform) (db : database) (c : call) : Prop :=
  in_catalog p db c /\ Forall (good_arg p) (c_args c) /\ c_module c < 2 ^ 7 /\ c_id c < (if c_args c then 2 ^ 28 else 2 ^ 32).
Theorem C41_partial : forall p db cs bss, Forall (loggable p db) cs -> Forall2 (packet_of p) cs bss ->
  read_logs db (concat bss) = (map (decoded_call p db) cs, false).
Proof.
  intros p db cs bss Hcs Hp. apply stream; auto. induction Hp as [|c bs cs bss Hc _ IH]; cbn [map]; constructor; [|apply IH; inversion Hcs; auto].
  inversion_clear Hcs as [|? ? (Hcat & Ha & Hm & Hi) _]. destruct Hc as (ws & E & ->). unfold decoded_call, decodes.
  destruct (c_args c) as [|a args] eqn:Ec.
  - destruct (C40_short p db c Ec) as (bs & (ws' & E' & ->) & R). rewrite Ec in E'. rewrite E in E'. injection E' as <-. split.
    + intros N0. specialize (R []). rewrite N0 in R. cbn [app construct_msg] in R. destruct Hcat as [Hcat _]. rewrite N.mod_small, Hcat in R by auto. discriminate.
    + intros rest. rewrite R. destruct Hcat as [Hcat _]. rewrite N.mod_small, Hcat by auto. reflexivity.
  - assert (Hne : c_args c <> []) by congruence. rewrite <- Ec in Ha. destruct (C40_exact p db c Hne Ha Hi Hcat Hm) as (bs & (ws' & E' & ->) & R).
    rewrite Ec in E'. rewrite E in E'. injection E' as <-. rewrite <- Ec. split; auto.
    intros N0. specialize (R []). rewrite N0 in R. discriminate.
Qed.
Print Assumptions C41_partial.
(** Packets exist for all calls, so the theorem is about every sequence. *)
Theorem C41_packets : forall p cs, exists bss, Forall2 (packet_of p) cs bss.
Proof.
  intros p cs. induction cs as [|c cs (bss & IH)]; [exists []; constructor|].
  assert (E : exists ws, build p (c_level c) (c_id c) (c_module c) (c_unit c) (c_args c) = Some (Done ws)).
  { unfold build. destruct (c_args c).
    - destruct (build_short32_spec (c_id c)) as (w & E & _). eauto.
    - destruct (build_catalog_spec p (c_level c) (c_id c) (c_module c) (c_unit c) (p0 :: l)) as (w & E & _). eauto. }
  destruct E as (ws & E). exists (wire (Dwords ws) :: bss). constructor; auto. exists ws. auto.
Qed.
Print Assumptions C41_packets.
Example C41_case :
  let c := {| c_level := 3; c_module := 100; c_unit := 9; c_id := 77777; c_args := [(Plain Int, 4294967295)] |} in
  let d := {| c_level := 3; c_module := 100; c_unit := 9; c_id := 12; c_args := [] |} in
  let db := {| db_messages := fun i => if i =? 12 then Some [] else if i =? 77777 then Some ["encode_32<int>"%string] else None;
               db_modules := fun _ => Some "m"%string; db_enums := fun _ _ => None |} in
  loggable x64 db c /\ loggable x64 db d /\ read_logs db (sent x64 c ++ sent x64 d ++ sent x64 c) =
    ([DCatalog 3 9 100 77777 [VInt (-1)]; DShort 12; DCatalog 3 9 100 77777 [VInt (-1)]], false).
Proof.
  cbv zeta. split; [|split]; [| |vm_compute; reflexivity].
  - repeat split; try (vm_compute; congruence); try (eexists; reflexivity). constructor; [|constructor]. repeat split; try (vm_compute; auto; fail); vm_compute; discriminate.
  - repeat split; try (vm_compute; congruence); try (eexists; reflexivity). constructor.
Qed.
(** A build-version packet in the stream ends the decoding with an exception,
    and what follows is lost. *)
Theorem C41_refuted : exists p db cs bss ver, Forall (loggable p db) cs /\ Forall2 (packet_of p) cs bss /\ length cs = 1%nat /\
  build_version 7 [] = Some (Done ver) /\ read_logs db (wire ver ++ concat bss) = ([], true).
Proof.
  exists x64, (db_of 5 [] color), [{| c_level := 1; c_module := 2; c_unit := 3; c_id := 5; c_args := [] |}], [[81; 0; 0; 0]], (Dwords [112]).
  split; [|split; [|split; [reflexivity|split; vm_compute; reflexivity]]].
  - constructor; [|constructor]. split; [split; [reflexivity|eexists; reflexivity]|]. split; [constructor|]. split; vm_compute; reflexivity.
  - constructor; [|constructor]. exists [81]. vm_compute. auto.
Qed.
(** Every build-version packet does so, whatever was read before. *)
Theorem C41_version_stops : forall p db cs bss v s ver rest, Forall (loggable p db) cs -> Forall2 (packet_of p) cs bss ->
  build_version v s = Some (Done ver) -> v < 2 ^ 64 ->
  read_logs db (concat bss ++ wire ver ++ rest) = (map (decoded_call p db) cs, true).
Proof.
  intros p db cs bss v s ver rest Hcs Hp Hv H64.
  assert (Hw : exists b r, wire ver = b :: r /\ b mod 16 = 0).
  { assert (Hn : forall k, build_normal v s = Some (Done k) -> exists b r, k = b :: r /\ b mod 16 = 0).
    { intros k Hk. destruct (build_normal_spec v s) as (h & E & Lh & H1 & _). rewrite Hk in E. injection E as ->.
      destruct h as [|b h]; [discriminate Lh|]. cbn [app]. exists b, (h ++ le_bytes 8 v ++ s)%list. split; [reflexivity|].
      cbn [firstn from_le fold_right] in H1. rewrite bits_0 in H1. change 256 with (16 * 16) in H1.
      rewrite <- N.mul_assoc, (N.mul_comm 16), N.mod_add in H1 by discriminate. exact H1. }
    assert (Hc : forall w ws, bits w 0 4 = 0 -> exists b r, wire (Dwords (w :: ws)) = b :: r /\ b mod 16 = 0).
    { intros w ws H. cbn [wire flat_map]. destruct (type_nibble w (flat_map (le_bytes 4) ws)) as (b & r & E & Hb). exists b, r. split; congruence. }
    unfold build_version, as_dwords, as_bytes in Hv.
    assert (Hb : as_bytes (build_normal v s) = Some (Done ver) -> exists b r, wire ver = b :: r /\ b mod 16 = 0).
    { unfold as_bytes. intros Hx. destruct (build_normal v s) as [o|] eqn:E; [|discriminate Hx]. destruct o as [k| | |]; try discriminate Hx. cbn in Hx. injection Hx as <-.
      apply Hn; auto. }
    destruct s; [|apply Hb, Hv]. destruct (_ <=? 22).
    - destruct (build_compact32_spec v) as (w & E & _ & H1 & _). rewrite E in Hv. cbn in Hv. injection Hv as <-. apply Hc, H1.
    - destruct (_ <=? 54); [|apply Hb, Hv]. destruct (build_compact64_spec v) as (w & x & E & _ & _ & H1 & _). rewrite E in Hv. cbn in Hv. injection Hv as <-. apply Hc, H1. }
  destruct Hw as (b & r & Ew & Hb). unfold read_logs. apply stream_raises.
  - clear Hv Ew Hb. induction Hp as [|c bs cs bss Hc _ IH]; cbn [map]; constructor; [|apply IH; inversion Hcs; auto].
    inversion_clear Hcs as [|? ? (Hcat & Ha & Hm & Hi) _]. destruct Hc as (ws & E & ->). unfold decoded_call, decodes.
    destruct (c_args c) as [|a args] eqn:Ec.
    + destruct (C40_short p db c Ec) as (bs & (ws' & E' & ->) & R). rewrite Ec in E'. rewrite E in E'. injection E' as <-. destruct Hcat as [Hcat _]. split.
      * intros N0. specialize (R []). rewrite N0 in R. cbn [app construct_msg] in R. rewrite N.mod_small, Hcat in R by auto. discriminate.
      * intros rest'. rewrite R, N.mod_small, Hcat by auto. reflexivity.
    + assert (Hne : c_args c <> []) by congruence. rewrite <- Ec in Ha. destruct (C40_exact p db c Hne Ha Hi Hcat Hm) as (bs & (ws' & E' & ->) & R).
      rewrite Ec in E'. rewrite E in E'. injection E' as <-. rewrite <- Ec. split; auto. intros N0. specialize (R []). rewrite N0 in R. discriminate.
  - rewrite Ew. discriminate.
  - rewrite Ew. cbn [app construct_msg]. rewrite Hb. reflexivity.
  - rewrite app_length, Ew. cbn [app length]. lia.
Qed.
Print Assumptions C41_version_stops.

(** What the decoder makes of any sequence of log calls and build versions: the
    calls before the first build version, and an exception if there is one. *)
Inductive thing := Logs (c : call) | Version (v : N) (text : list N).
Definition bytes_of (p : platform) (t : thing) (bs : list N) : Prop :=
  match t with Logs c => packet_of p c bs | Version v s => v < 2 ^ 64 /\ exists k, build_version v s = Some (Done k) /\ bs = wire k end.
Fixpoint until_version (ts : list thing) : list call := match ts with Logs c :: r => c :: until_version r | _ => [] end.
Definition a_version (t : thing) : Prop := match t with Version _ _ => True | _ => False end.
Theorem C41_exact : forall p db ts bss, Forall2 (bytes_of p) ts bss -> Forall (loggable p db) (until_version ts) ->
  exists b, read_logs db (concat bss) = (map (decoded_call p db) (until_version ts), b) /\ (b = true <-> Exists a_version ts).
Proof.
  intros p db ts bss Hb Hl.
  assert (S : (exists cs, ts = map Logs cs /\ until_version ts = cs) \/ exists cs v s r, ts = (map Logs cs ++ Version v s :: r)%list /\ until_version ts = cs).
  { clear. induction ts as [|t ts IH]; [left; exists []; auto|]. destruct t as [c|v s]; [|right; exists [], v, s, ts; auto].
    destruct IH as [(cs & -> & E)|(cs & v & s & r & -> & E)]; [left; exists (c :: cs)|right; exists (c :: cs), v, s, r]; (split; [reflexivity|cbn [until_version map app]; rewrite E; reflexivity]). }
  assert (M : forall cs l, Forall2 (bytes_of p) (map Logs cs) l -> Forall2 (packet_of p) cs l).
  { induction cs as [|c cs IH]; intros l H; inversion_clear H; constructor; auto. }
  destruct S as [(cs & E & U)|(cs & v & s & r & E & U)]; rewrite U in *; subst ts.
  - exists false. split; [apply C41_partial; auto|]. split; [discriminate|]. intros X. exfalso. clear - X. induction cs; inversion X; auto.
  - exists true. split; [|split; auto; intros _; apply Exists_app; right; left; exact I].
    apply Forall2_app_inv_l in Hb as (l1 & l2 & H1 & H2 & ->). inversion_clear H2 as [|? bs ? l H4 H3]. cbn [bytes_of] in H4. destruct H4 as (Hv & k & K & ->). rewrite concat_app. cbn [concat].
    eapply C41_version_stops; eauto.
Qed.
Print Assumptions C41_exact.
Example C41_exact_case :
  let c := {| c_level := 1; c_module := 2; c_unit := 3; c_id := 5; c_args := [] |} in let ts := [Logs c; Logs c; Version 7 []; Logs c] in
  Forall2 (bytes_of x64) ts [[81; 0; 0; 0]; [81; 0; 0; 0]; [112; 0; 0; 0]; [81; 0; 0; 0]] /\ Forall (loggable x64 (db_of 5 [] color)) (until_version ts) /\
  read_logs (db_of 5 [] color) (concat [[81; 0; 0; 0]; [81; 0; 0; 0]; [112; 0; 0; 0]; [81; 0; 0; 0]]) = ([DShort 5; DShort 5], true).
Proof.
  cbv zeta. assert (P : packet_of x64 {| c_level := 1; c_module := 2; c_unit := 3; c_id := 5; c_args := [] |} [81; 0; 0; 0]) by (exists [81]; vm_compute; auto).
  assert (L : loggable x64 (db_of 5 [] color) {| c_level := 1; c_module := 2; c_unit := 3; c_id := 5; c_args := [] |}).
  { split; [split; [reflexivity|eexists; reflexivity]|]. split; [constructor|]. split; vm_compute; reflexivity. }
  split; [|split; [|vm_compute; reflexivity]].
  - constructor; [exact P|]. constructor; [exact P|]. constructor; [|constructor; [exact P|constructor]]. split; [vm_compute; reflexivity|]. exists (Dwords [112]). split; vm_compute; reflexivity.
  - constructor; [exact L|]. constructor; [exact L|constructor].
Qed.

(** The decoder also takes packets of 64 bits without arguments, which the
    library does not send. *)
Theorem C41_short64 : forall db id types rest, id < 2 ^ 60 -> db_messages db id = Some types ->
  construct_msg db (le_bytes 8 (7 + 2 ^ 4 * id) ++ rest) = Ok (DShort id, rest).
Proof.
  intros db id types rest Hid Hdb. unfold construct_msg. cbn [le_bytes app].
  assert (E : ((7 + 2 ^ 4 * id) mod 256) mod 16 = 7).
  { change 256 with (16 * 16). rewrite N.mod_mul_r, (N.mul_comm 16 (_ mod _)), N.mod_add, N.mod_mod by discriminate.
    change (2 ^ 4) with 16. rewrite (N.mul_comm 16), N.mod_add by discriminate. reflexivity. }
  rewrite E. cbn [N.eqb Pos.eqb]. match goal with |- decode_short _ _ ?l = _ => change l with (le_bytes 8 (7 + 2 ^ 4 * id) ++ rest)%list end.
  unfold decode_short. rewrite read_struct_le. cbn [py_bind]. change (8 * N.of_nat 8) with 64. rewrite (N.mod_small (7 + _)) by (change (2 ^ 64) with (2 ^ 4 * 2 ^ 60); lia).
  change (64 - 4) with 60. assert (B : bits (7 + 2 ^ 4 * id) 4 60 = id).
  { unfold bits. rewrite (N.mul_comm (2 ^ 4)), N.div_add by discriminate. change (7 / 2 ^ 4) with 0. apply N.mod_small, Hid. }
  rewrite B, Hdb. reflexivity.
Qed.
Print Assumptions C41_short64.

(** ** C42 *)
Theorem C42_exact : forall v s rest, v < 2 ^ 64 -> exists k, build_version v s = Some (Done k) /\ N.of_nat (length (wire k)) = smallest v s /\
  read_version (wire k ++ rest) =
    match s with
    | [] => Some (v, [], rest)
    | _ => let len := (N.of_nat (length s) + 8) mod 2 ^ 16 in
           if len <? 8 then None else Some (v, firstn (N.to_nat len - 8) (s ++ rest), skipn (N.to_nat len - 8) (s ++ rest))
    end.
Proof.
  intros v s rest Hv. unfold build_version, smallest. destruct s as [|x s].
  - destruct (N.leb_spec (N.size v) 22) as [H|H].
    + apply size_le in H. destruct (read_compact32 v rest H) as (k & E & L & R). exists (Dwords k). rewrite E, L. split; [reflexivity|]. split; auto.
      rewrite (proj2 (N.ltb_lt v _)) by auto. reflexivity.
    + destruct (N.ltb_spec v (2 ^ 22)) as [H'|_]; [apply size_le in H'; lia|]. destruct (N.leb_spec (N.size v) 54) as [H2|H2].
      * apply size_le in H2. destruct (read_compact64 v rest H2) as (k & E & L & R). exists (Dwords k). rewrite E, L. split; [reflexivity|]. split; auto.
        rewrite (proj2 (N.ltb_lt v _)) by auto. reflexivity.
      * destruct (N.ltb_spec v (2 ^ 54)) as [H'|_]; [apply size_le in H'; lia|].
        destruct (read_normal v [] rest Hv) as (k & E & L & R). exists (Bytes k). rewrite E. split; [reflexivity|]. cbn [wire]. rewrite L. split; [reflexivity|].
        rewrite R. reflexivity.
  - destruct (read_normal v (x :: s) rest Hv) as (k & E & L & R). exists (Bytes k). rewrite E. split; [reflexivity|]. cbn [wire]. rewrite L. split; [|exact R]. lia.
Qed.
Print Assumptions C42_exact.
Theorem C42_partial : forall v s rest, v < 2 ^ 64 -> N.of_nat (length s) + 8 < 2 ^ 16 ->
  exists k, build_version v s = Some (Done k) /\ read_version (wire k ++ rest) = Some (v, s, rest) /\ N.of_nat (length (wire k)) = smallest v s.
Proof.
  intros v s rest Hv Hs. destruct (C42_exact v s rest Hv) as (k & E & L & R). exists k. split; auto. split; auto. rewrite R.
  destruct s as [|x s]; auto. cbv zeta. rewrite N.mod_small by auto. destruct (_ <? 8) eqn:E8; [lia|].
  set (t := x :: s) in *. replace (N.to_nat (N.of_nat (length t) + 8) - 8)%nat with (length t) by lia.
  rewrite firstn_app, skipn_app, Nat.sub_diag, firstn_all, skipn_all. cbn [firstn skipn app]. rewrite app_nil_r. reflexivity.
Qed.
Print Assumptions C42_partial.
(** A smaller format could not hold a larger version. *)
Theorem C42_capacity : forall v k rest,
  (build_compact32 v = Some (Done k) -> read_version (wire (Dwords k) ++ rest) = Some (v mod 2 ^ 22, [], rest)) /\
  (build_compact64 v = Some (Done k) -> read_version (wire (Dwords k) ++ rest) = Some (v mod 2 ^ 54, [], rest)).
Proof.
  intros v k rest. split; intros H.
  - destruct (build_compact32_spec v) as (w & E & Hw & H1 & H2 & H3). rewrite H in E. injection E as ->.
    cbn [wire flat_map]. rewrite app_nil_r. unfold read_version. rewrite firstn_le4, from_le_4, H1, H2, H3 by auto. reflexivity.
  - destruct (build_compact64_spec v) as (w & x & E & Hw & Hx & H1 & H2 & H3). rewrite H in E. injection E as ->.
    cbn [wire flat_map]. rewrite app_nil_r, <- app_assoc. unfold read_version. rewrite firstn_le4, from_le_4 by auto.
    change (skipn 4 (le_bytes 4 w ++ le_bytes 4 x ++ rest)) with (le_bytes 4 x ++ rest)%list. rewrite firstn_le4, from_le_4, H1, H2, H3 by auto. reflexivity.
Qed.
Print Assumptions C42_capacity.
(** The length of the string is cut to 16 bits. *)
Theorem C42_refuted : exists v s, v < 2 ^ 64 /\ exists k, build_version v s = Some (Done k) /\ read_version (wire k) = None.
Proof.
  exists 7, (repeat 65 (N.to_nat 65528)). split; [vm_compute; reflexivity|].
  destruct (C42_exact 7 (repeat 65 (N.to_nat 65528)) []) as (k & E & _ & R); [vm_compute; reflexivity|]. exists k. split; auto. rewrite app_nil_r in R. rewrite R.
  rewrite repeat_length, N2Nat.id. replace (N.to_nat 65528) with (S (N.to_nat 65527)) by lia. cbn [repeat]. reflexivity.
Qed.
Print Assumptions C42_refuted.
Example C42_case : exists k, build_version (2 ^ 60 + 5) [104; 105] = Some (Done k) /\ read_version (wire k ++ [9]) = Some (2 ^ 60 + 5, [104; 105], [9]).
Proof. eexists. split; vm_compute; reflexivity. Qed.

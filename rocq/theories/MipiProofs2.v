(** Decoding of arguments and of whole packets. *)
From Coq Require Import String Ascii Bool Arith List NArith ZArith Lia.
From Coq Require Import ZifyN ZifyNat ZifyBool.
From Verif Require Import FieldModel FieldSpec MessageModel MessageSpec MipiModel MipiSpec MipiProofs.
Import ListNotations.
Local Open Scope N_scope.

(** ** Text *)
Lemma but_last_app s c : but_last (s ++ String c EmptyString) = s.
Proof. induction s as [|a s IH]; cbn; auto. rewrite IH. destruct s; reflexivity. Qed.
Lemma app_assoc_s a b c : ((a ++ b) ++ c = a ++ (b ++ c))%string.
Proof. induction a as [|x a IH]; cbn; auto. rewrite IH. reflexivity. Qed.
Lemma split_none c s : ~ mentions c s -> split c s = [s].
Proof.
  induction s as [|a s IH]; cbn [split mentions]; auto. intros H. destruct (Ascii.eqb_spec a c) as [->|]; [tauto|].
  rewrite IH by tauto. reflexivity.
Qed.
Lemma split_app c s r : ~ mentions c s -> split c (s ++ String c r) = s :: split c r.
Proof.
  induction s as [|a s IH]; cbn [split mentions append]; intros H.
  - rewrite Ascii.eqb_refl. reflexivity.
  - destruct (Ascii.eqb_spec a c) as [->|]; [tauto|]. rewrite IH by tauto. reflexivity.
Qed.
Lemma mentions_app c a b : mentions c (a ++ b) <-> mentions c a \/ mentions c b.
Proof. induction a as [|x a IH]; cbn [mentions append]; tauto. Qed.

(** ** Numbers *)
Lemma pow_lt a b : a < b -> 2 ^ a < 2 ^ b. Proof. intros. apply N.pow_lt_mono_r; lia. Qed.
Lemma arg_le_pack p t : arg_bytes p t <= pack_bytes p t.
Proof. unfold pack_bytes, arg_bytes. destruct p as [[] ?], (underlying t); vm_compute; discriminate. Qed.
Lemma packed_mod p t raw : raw < 2 ^ (8 * arg_bytes p t) -> packed p t raw mod 2 ^ (8 * arg_bytes p t) = raw.
Proof.
  intros H. unfold packed. destruct (_ =? _) eqn:E; [apply N.mod_small, H|]. destruct (base_signed _ _); [|apply N.mod_small, H].
  set (w := 8 * arg_bytes p t) in *.
  assert (Hw : w <= 8 * pack_bytes p t). { pose proof (arg_le_pack p t). unfold w. lia. }
  set (u := 8 * pack_bytes p t) in *. apply N2Z.inj. rewrite N2Z.inj_mod, Z2N.id by (apply Z.mod_pos_bound; pose proof (N.pow_nonzero 2 u); lia).
  assert (Hd : (Z.of_N (2 ^ u) = Z.of_N (2 ^ w) * Z.of_N (2 ^ (u - w)))%Z). { rewrite <- N2Z.inj_mul, <- N.pow_add_r. do 2 f_equal. lia. }
  assert (P : (0 < Z.of_N (2 ^ w))%Z) by (pose proof (N.pow_nonzero 2 w); lia).
  assert (P2 : (0 < Z.of_N (2 ^ (u - w)))%Z) by (pose proof (N.pow_nonzero 2 (u - w)); lia).
  rewrite Hd, Z.rem_mul_r by lia. rewrite (Z.mul_comm (Z.of_N (2 ^ w))), Z.mod_add, Z.mod_mod by lia.
  unfold signed_value. destruct (_ <? _); [apply Z.mod_small; lia|].
  replace (Z.of_N raw - Z.of_N (2 ^ w))%Z with (Z.of_N raw + (-1) * Z.of_N (2 ^ w))%Z by lia. rewrite Z.mod_add by lia. apply Z.mod_small. lia.
Qed.
Lemma packed_lt p t raw : raw < 2 ^ (8 * arg_bytes p t) -> packed p t raw < 2 ^ (8 * pack_bytes p t).
Proof.
  intros H. unfold packed. pose proof (arg_le_pack p t) as Hw.
  assert (raw < 2 ^ (8 * pack_bytes p t)) by (eapply N.lt_le_trans; [exact H|apply N.pow_le_mono_r; lia]).
  destruct (_ =? _); auto. destruct (base_signed _ _); auto.
  assert (P : (0 < Z.of_N (2 ^ (8 * pack_bytes p t)))%Z) by (pose proof (N.pow_nonzero 2 (8 * pack_bytes p t)); lia).
  pose proof (Z.mod_pos_bound (signed_value (8 * arg_bytes p t) raw) _ P). lia.
Qed.

(** ** Arguments *)
(** What the decoder shows, exactly. *)
Definition displayed_base (p : platform) (b : base) (raw : N) : shown :=
  match b with
  | Float | Double => VFloat raw
  | Char => VChar raw
  | Bool => VInt (if raw =? 1 then -1 else Z.of_N raw)
  | _ => VInt (numeric p (Plain b) raw)
  end.
Definition displayed (p : platform) (db : database) (t : argty) (raw : N) : shown :=
  match t with
  | Plain b => displayed_base p b raw
  | Scoped n b => enum_lookup db n (displayed_base p b raw)
  | Unscoped n b => enum_lookup db n (VInt (Z.of_N (packed p t raw)))
  end.
Lemma unpack_le n v m : (n <= m)%nat -> unpack n (firstn n (le_bytes m v)) = Ok (v mod 2 ^ (8 * N.of_nat n)).
Proof. intros H. unfold unpack. rewrite le_bytes_firstn, le_bytes_length, Nat.eqb_refl, from_le_bytes by auto. reflexivity. Qed.
Lemma convert_base p b raw : raw < 2 ^ (8 * base_bytes p b) -> (b = Bool -> raw < 2) -> forall t, underlying t = b ->
  convert (base_name b) (le_bytes (N.to_nat (pack_bytes p t)) (packed p t raw)) = Ok (displayed_base p b raw).
Proof.
  intros H Hb t Ht. subst b. assert (Hm := packed_mod p t raw H). revert H Hb Hm. unfold displayed_base, numeric, arg_bytes, pack_bytes, arg_bytes. cbn [underlying].
  generalize (packed p t raw) as v. destruct (underlying t), p as [[] []]; cbn [base_bytes base_signed long8 char_signed]; intros v H Hb Hm;
  match goal with |- context [N.to_nat ?x] => let y := eval vm_compute in (N.to_nat x) in change (N.to_nat x) with y end;
  unfold convert; match goal with |- context [format_table ?x] => let y := eval vm_compute in (format_table x) in change (format_table x) with y end;
  cbv iota beta;
  rewrite ?le_bytes_length;
  match goal with |- context [(?a =? "bool")%string] => let y := eval vm_compute in (a =? "bool")%string in change (a =? "bool")%string with y end;
  match goal with |- context [((?a =? "long") || ?b)%string] => let y := eval vm_compute in ((a =? "long")%string || b) in change ((a =? "long")%string || b) with y end;
  cbn [andb orb Nat.eqb alt_format String.eqb Ascii.eqb Bool.eqb base_name]; unfold unpack_as;
  rewrite unpack_le by lia; cbn [py_bind];
  match goal with |- context [N.of_nat ?x] => let y := eval vm_compute in (8 * N.of_nat x) in change (8 * N.of_nat x) with y in * end;
  change (8 * 1) with 8 in *; change (8 * 2) with 16 in *; change (8 * 4) with 32 in *; change (8 * 8) with 64 in *; rewrite Hm; try reflexivity.
  all: assert (raw < 2) by auto; assert (raw = 0 \/ raw = 1) as [-> | ->] by lia; reflexivity.
Qed.
Lemma extract_arg_exact p db t raw rest : type_ok t -> name_ok t -> arg_ok p (t, raw) ->
  extract_arg db (le_bytes (N.to_nat (pack_bytes p t)) (packed p t raw) ++ rest) (encode_text p t) = Ok (displayed p db t raw, rest).
Proof.
  intros Hty Hn [Hr Hb]. cbn [fst snd] in *.
  assert (Hi : islice (N.to_nat (pack_bytes p t)) (le_bytes (N.to_nat (pack_bytes p t)) (packed p t raw) ++ rest) =
               (le_bytes (N.to_nat (pack_bytes p t)) (packed p t raw), rest)).
  { unfold islice. rewrite <- (le_bytes_length (N.to_nat (pack_bytes p t)) (packed p t raw)) at 1 3. rewrite firstn_app, skipn_app, Nat.sub_diag, firstn_all, skipn_all. cbn. rewrite app_nil_r. reflexivity. }
  assert (Hc := convert_base p (underlying t) raw Hr Hb t eq_refl).
  unfold extract_arg. destruct t as [b|n b|n b]; cbn [underlying] in *.
  - assert (E : split "<" (but_last (encode_text p (Plain b))) = [encode_tag p b; base_name b]) by (destruct p as [[] []], b; reflexivity).
    rewrite E. assert (E2 : (encode_tag p b =? "encode_enum")%string = false) by (destruct p as [[] []], b; reflexivity). rewrite E2.
    assert (E3 : encoding_reader (encode_tag p b) = Some (N.to_nat (pack_bytes p (Plain b)))) by (destruct p as [[] []], b; reflexivity). rewrite E3, Hi.
    assert (E4 : exists x, format_table (base_name b) = Some x) by (destruct b; eexists; reflexivity). destruct E4 as [x ->]. rewrite Hc. reflexivity.
  - destruct Hn as (N1 & N2 & _).
    set (sz := if pack_bytes p (Scoped n b) =? 4 then "4"%string else "8"%string).
    assert (E : split "<" (but_last (encode_text p (Scoped n b))) = ["encode_enum"%string; (n ++ String "," (String " " (base_name b) ++ String "," (String " " sz)))%string]).
    { unfold encode_text. fold sz.
      replace ("encode_enum<" ++ n ++ ", " ++ base_name b ++ ", " ++ sz ++ ">")%string with
        (("encode_enum" ++ String "<" (n ++ String "," (String " " (base_name b) ++ String "," (String " " sz)))) ++ String ">" EmptyString)%string.
      2:{ cbn [append]. rewrite !app_assoc_s. cbn [append]. rewrite !app_assoc_s. reflexivity. }
      rewrite but_last_app, split_app by (cbn; intuition discriminate). f_equal. apply split_none. rewrite mentions_app. intros [M|M]; [tauto|].
      revert M. unfold sz. destruct (_ =? _), b; cbn; intuition discriminate. }
    rewrite E. cbn [String.eqb Ascii.eqb Bool.eqb].
    rewrite split_app by auto. rewrite split_app by (destruct b; cbn; intuition discriminate).
    rewrite split_none by (unfold sz; destruct (_ =? _); cbn; intuition discriminate).
    assert (E2 : parse_size (String " " sz) = Ok (N.to_nat (pack_bytes p (Scoped n b)))) by (unfold sz, pack_bytes; destruct (_ <=? _); reflexivity).
    rewrite E2. cbn [py_bind]. rewrite Hi.
    assert (E3 : strip (String " " (base_name b)) = base_name b) by (destruct b; reflexivity). rewrite E3.
    unfold enum_convert. rewrite Hc. reflexivity.
  - destruct Hn as (N1 & N2 & N3).
    assert (E : split "<" (but_last (encode_text p (Unscoped n b))) = [encode_tag p b; n]).
    { unfold encode_text. replace (encode_tag p b ++ "<" ++ n ++ ">")%string with ((encode_tag p b ++ String "<" n) ++ String ">" EmptyString)%string.
      2:{ rewrite app_assoc_s. reflexivity. }
      rewrite but_last_app, split_app by (destruct p as [[] []], b; cbn; intuition discriminate). f_equal. apply split_none; auto. }
    rewrite E. assert (E2 : (encode_tag p b =? "encode_enum")%string = false) by (destruct p as [[] []], b; reflexivity). rewrite E2.
    assert (E3 : encoding_reader (encode_tag p b) = Some (N.to_nat (pack_bytes p (Unscoped n b)))) by (destruct p as [[] []], b; reflexivity). rewrite E3, Hi, N3.
    assert (Hl := packed_lt p (Unscoped n b) raw Hr). unfold displayed. set (v := packed p (Unscoped n b) raw) in *.
    unfold enum_convert. destruct (pack_bytes_48 p (Unscoped n b)) as [E4|E4]; rewrite E4 in *.
    + change (N.to_nat 4) with 4%nat. change (convert (if Nat.eqb 4 4 then "unsigned int" else "unsigned long long") (le_bytes 4 v)) with
        (do result <- (do x <- unpack 4 (firstn 4 (le_bytes 4 v)); Ok (VInt (Z.of_N x))); Ok (match result with VInt z => VInt z | w => w end)).
      rewrite unpack_le by lia. cbn [py_bind]. change (8 * N.of_nat 4) with (8 * 4). rewrite N.mod_small by auto. reflexivity.
    + change (N.to_nat 8) with 8%nat. change (convert (if Nat.eqb 8 4 then "unsigned int" else "unsigned long long") (le_bytes 8 v)) with
        (do result <- (do x <- unpack 8 (firstn 8 (le_bytes 8 v)); Ok (VInt (Z.of_N x))); Ok (match result with VInt z => VInt z | w => w end)).
      rewrite unpack_le by lia. cbn [py_bind]. change (8 * N.of_nat 8) with (8 * 8). rewrite N.mod_small by auto. reflexivity.
Qed.

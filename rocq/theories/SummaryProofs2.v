From Coq Require Import String Ascii Bool List ZArith NArith Lia ZifyBool ZifyN ZifyNat.
From Verif Require Import FieldModel FieldSpec FieldProofs FieldProofs2 MessageModel MessageSpec MessageProofs SummaryModel SummarySpec SummaryProofs.
From Verif Require MipiModel MipiSpec DescribeModel DescribeSpec DescribeProofs2.
Import ListNotations.
Local Open Scope string_scope.

(** ** The arguments *)
Lemma field_values_spec ctype es st : narrow es -> storage_ok es st -> forall fs,
  (forall f, In f fs -> field_valid f = true) -> fields_fit (nbits es st) fs ->
  field_values ctype es fs st = Done (map (fun f => (ctype (f_name f), value_in es st f)) fs).
Proof.
  intros He Hs. induction fs as [|f fs IH]; intros Hv Hf; [reflexivity|]. cbn [field_values map].
  rewrite extract_value; auto; [|apply Hv; now left|apply Hf; now left]. cbn [bind]. rewrite IH.
  - reflexivity.
  - intros g Hg. apply Hv. now right.
  - intros g Hg. apply Hf. now right.
Qed.
Lemma describe_spec label ctype es name st fs : narrow es -> storage_ok es st ->
  (forall f, In f fs -> field_valid f = true) -> fields_fit (nbits es st) fs ->
  describe label ctype es name fs st =
  Done (name ++ "(" ++ joined (map (field_format label) fs) ++ ")", map (fun f => (ctype (f_name f), value_in es st f)) fs).
Proof. intros He Hs Hv Hf. unfold describe. rewrite field_values_spec by auto. reflexivity. Qed.

(** ** The line *)
Lemma line_format {V} (show : V -> option string) label before name after fs args :
  braceless before -> braceless name -> braceless after -> (forall f, In f fs -> braceless (label (f_name f))) ->
  List.length args = List.length fs ->
  let t := before ++ (name ++ "(" ++ joined (map (field_format label) fs) ++ ")") ++ after in
  format show (S (String.length t)) t args =
  option_map (fun hs => before ++ name ++ "(" ++ joined (map (piece label) (combine fs hs)) ++ ")" ++ after) (all_shown show args).
Proof.
  intros Hb Hn Ha Hl Hlen t. set (J := joined (map (field_format label) fs)).
  assert (E : t = (before ++ name ++ "(") ++ (J ++ (")" ++ after))) by (unfold t, J; rewrite !app_assoc_s; reflexivity).
  assert (B : braceless (before ++ name ++ "(")).
  { apply braceless_app; auto. apply braceless_app; auto. repeat split; discriminate. }
  assert (B' : braceless (")" ++ after)) by (apply braceless_app; auto; repeat split; discriminate).
  rewrite E. rewrite (length_app_s (before ++ name ++ "(")).
  replace (S (String.length (before ++ name ++ "(") + String.length (J ++ (")" ++ after))))
    with (String.length (before ++ name ++ "(") + S (String.length (J ++ (")" ++ after))))%nat by lia.
  rewrite format_text by exact B. unfold J. rewrite format_joined; auto.
  destruct (all_shown show args); [|reflexivity]. cbn [option_map]. rewrite !app_assoc_s. reflexivity.
Qed.

(** ** What the text logger shows *)
Lemma text_shows_spec p t raw : MipiSpec.integral (MipiModel.underlying t) ->
  text_shows p (t, raw) = Some (DescribeModel.hex (number_of p t raw)).
Proof.
  intros [H1 H2]. unfold text_shows, number_of, MipiModel.signed_value. cbn [fst snd].
  assert (E : forall bits, (2 ^ Z.of_N bits)%Z = Z.of_N (2 ^ bits)) by (intros; now rewrite N2Z.inj_pow).
  destruct (MipiModel.underlying t); try congruence; rewrite ?E; f_equal; f_equal;
    destruct (MipiModel.base_signed p _); cbn [andb]; auto;
    match goal with |- context [ (?a <? ?b)%N ] => destruct (N.ltb_spec a b), (N.leb_spec b a); lia end.
Qed.
Lemma text_refuses p t raw : ~ MipiSpec.integral (MipiModel.underlying t) -> text_shows p (t, raw) = None.
Proof. unfold MipiSpec.integral, text_shows. cbn [fst]. destruct (MipiModel.underlying t); intros H; try reflexivity; exfalso; apply H; split; discriminate. Qed.
Lemma all_shown_map {A V} (show : V -> option string) (g : A -> V) (h : A -> string) l :
  (forall x, In x l -> show (g x) = Some (h x)) -> all_shown show (map g l) = Some (map h l).
Proof.
  induction l as [|x l IH]; intros H; [reflexivity|]. cbn [map all_shown]. rewrite (H x) by now left. rewrite IH; [reflexivity|].
  intros y Hy. apply H. now right.
Qed.
Lemma all_shown_none {V} (show : V -> option string) l v : In v l -> show v = None -> all_shown show l = None.
Proof.
  induction l as [|x l IH]; intros H E; [destruct H|]. cbn [all_shown]. destruct H as [->|H]; [now rewrite E|].
  rewrite IH by auto. now destruct (show x).
Qed.
Lemma pieces_list label (z : mfield -> Z) fs :
  lists (map (fun f => (label (f_name f), z f)) fs)
    (joined (map (piece label) (combine fs (map (fun f => DescribeModel.hex (z f)) fs)))).
Proof.
  induction fs as [|f fs IH]; [constructor|]. destruct fs as [|g fs].
  - cbn. unfold piece. cbn. constructor. apply hex_value.
  - cbn [map combine]. cbn [map combine] in IH. set (J := joined _) in IH.
    change (lists ((label (f_name f), z f) :: (label (f_name g), z g) :: map (fun f => (label (f_name f), z f)) fs)
              (piece label (f, DescribeModel.hex (z f)) ++ ", " ++ J)).
    unfold piece. cbn [fst snd]. rewrite !app_assoc_s. constructor; [apply hex_value|exact IH].
Qed.

(** ** Reading a list back *)
Lemma app_inj_s a b c : a ++ b = a ++ c -> b = c.
Proof. induction a as [|x a IH]; cbn; intros H; auto. injection H. auto. Qed.
Lemma app_inj_r_s c : forall a b, a ++ c = b ++ c -> a = b.
Proof.
  intros a. induction a as [|x a IH]; intros [|y b] H; auto.
  - apply (f_equal String.length) in H. rewrite !length_app_s in H. cbn in H. lia.
  - apply (f_equal String.length) in H. rewrite !length_app_s in H. cbn in H. lia.
  - cbn in H. injection H as -> H. f_equal. auto.
Qed.
Fixpoint commaless (s : string) : Prop := match s with EmptyString => True | String a r => a <> ","%char /\ commaless r end.
Lemma digits_commaless s : forall acc z, DescribeSpec.digits_value acc s = Some z -> commaless s.
Proof.
  induction s as [|a s IH]; intros acc z H; [exact I|]. cbn [DescribeSpec.digits_value] in H.
  destruct (DescribeSpec.digit_value a) as [d|] eqn:E; [|discriminate]. split; [|eauto].
  intros ->. vm_compute in E. discriminate.
Qed.
Lemma number_commaless s z : DescribeSpec.number s = Some z -> commaless s.
Proof.
  intros H. destruct s as [|a s]; [exact I|].
  assert (C : a = "-"%char \/ DescribeSpec.digits_value 0 (String a s) = Some z).
  { destruct (ascii_dec a "-") as [->|N]; [now left|]. right. destruct a as [[] [] [] [] [] [] [] []]; try exact H; congruence. }
  destruct C as [->|C]; [|eapply digits_commaless; exact C]. split; [discriminate|].
  destruct s as [|b s]; [exact I|]. cbn [DescribeSpec.number] in H.
  destruct (DescribeSpec.digits_value 0 (String b s)) eqn:E; [|discriminate]. eapply digits_commaless; exact E.
Qed.
Lemma comma_split : forall a b x y, commaless a -> commaless b -> a ++ ", " ++ x = b ++ ", " ++ y -> a = b /\ x = y.
Proof.
  induction a as [|c a IH]; intros [|d b] x y Ha Hb H.
  - cbn in H. injection H as ->. auto.
  - cbn in H. injection H as <- _. destruct Hb. congruence.
  - cbn in H. injection H as -> _. destruct Ha. congruence.
  - cbn in H. injection H as -> H. destruct Ha as [_ Ha], Hb as [_ Hb]. destruct (IH b x y Ha Hb H) as [-> ->]. auto.
Qed.
Lemma lists_read {A} (n : A -> string) (z y : A -> Z) l : forall s,
  lists (map (fun a => (n a, z a)) l) s -> lists (map (fun a => (n a, y a)) l) s -> forall a, In a l -> z a = y a.
Proof.
  assert (V : forall h a b, value h a -> value h b -> a = b) by (intros h a b [H _] [K _]; congruence).
  induction l as [|a l IH]; intros s Hz Hy x Hx; [destruct Hx|]. destruct l as [|b l].
  - destruct Hx as [->|[]]. cbn [map] in *. inversion Hz as [|? ? h1 V1 E1|]; subst. inversion Hy as [|? ? h2 V2 E2|]; subst.
    match goal with E : _ ++ _ = _ ++ _ |- _ => apply app_inj_s in E; injection E as -> end. eauto.
  - cbn [map] in Hz, Hy. inversion Hz as [| |? ? h1 ? ? s1 V1 L1]; subst. inversion Hy as [| |? ? h2 ? ? s2 V2 L2]; subst.
    match goal with E : _ ++ _ = _ ++ _ |- _ => apply app_inj_s in E; apply (app_inj_s ": 0x") in E; apply comma_split in E;
      [destruct E as [-> ->]|eapply number_commaless; apply V2|eapply number_commaless; apply V1] end.
    destruct Hx as [<-|Hx]; [eauto|]. eapply IH; [exact L1|exact L2|exact Hx].
Qed.
Lemma number_of_inj p t a b : let bits := (8 * MipiModel.arg_bytes p t)%N in
  (a < 2 ^ bits)%N -> (b < 2 ^ bits)%N -> number_of p t a = number_of p t b -> a = b.
Proof.
  unfold number_of, MipiModel.arg_bytes. set (u := MipiModel.underlying t). cbn zeta. intros Ha Hb.
  assert (E : forall bits, (2 ^ Z.of_N bits)%Z = Z.of_N (2 ^ bits)) by (intros; now rewrite N2Z.inj_pow). rewrite E.
  set (M := (2 ^ (8 * MipiModel.base_bytes p u))%N) in *. set (K := (2 ^ (8 * MipiModel.base_bytes p u - 1))%N).
  generalize (MipiModel.base_signed p u). intros sg.
  destruct u, sg; cbn [andb]; try lia; destruct (N.leb_spec K a), (N.leb_spec K b); lia.
Qed.

(** ** A number has one text *)
Lemma digit_range a d : DescribeSpec.digit_value a = Some d -> (0 <= d < 16)%Z.
Proof.
  unfold DescribeSpec.digit_value. destruct (_ && _)%bool eqn:E.
  - intros H. injection H as <-. lia.
  - destruct ((97 <=? _)%Z && _)%bool eqn:E'; [|discriminate]. intros H. injection H as <-. lia.
Qed.
Lemma digit_inj a b d : DescribeSpec.digit_value a = Some d -> DescribeSpec.digit_value b = Some d -> a = b.
Proof.
  intros Ha Hb. rewrite <- (ascii_nat_embedding a), <- (ascii_nat_embedding b). f_equal. revert Ha Hb. unfold DescribeSpec.digit_value.
  generalize (nat_of_ascii a) as m, (nat_of_ascii b) as n. intros m n Ha Hb.
  destruct ((48 <=? Z.of_nat m)%Z && (Z.of_nat m <=? 57)%Z)%bool eqn:E1; [|destruct ((97 <=? Z.of_nat m)%Z && (Z.of_nat m <=? 102)%Z)%bool eqn:E2; [|discriminate]];
  (destruct ((48 <=? Z.of_nat n)%Z && (Z.of_nat n <=? 57)%Z)%bool eqn:E3; [|destruct ((97 <=? Z.of_nat n)%Z && (Z.of_nat n <=? 102)%Z)%bool eqn:E4; [|discriminate]]);
  injection Ha as Ha; injection Hb as Hb; lia.
Qed.
Lemma digits_range s : forall acc z, (0 <= acc)%Z -> DescribeSpec.digits_value acc s = Some z ->
  (acc * 16 ^ Z.of_nat (String.length s) <= z < (acc + 1) * 16 ^ Z.of_nat (String.length s))%Z.
Proof.
  induction s as [|a s IH]; intros acc z Ha H; cbn [DescribeSpec.digits_value String.length] in *.
  - injection H as <-. change (16 ^ Z.of_nat 0)%Z with 1%Z. lia.
  - destruct (DescribeSpec.digit_value a) as [d|] eqn:E; [|discriminate]. apply digit_range in E. apply IH in H; [|lia].
    rewrite Nat2Z.inj_succ, Z.pow_succ_r by lia. assert (0 < 16 ^ Z.of_nat (String.length s))%Z by (apply Z.pow_pos_nonneg; lia). nia.
Qed.
Lemma digits_inj s : forall t acc acc' z, String.length s = String.length t ->
  DescribeSpec.digits_value acc s = Some z -> DescribeSpec.digits_value acc' t = Some z -> acc = acc' /\ s = t.
Proof.
  induction s as [|a s IH]; intros [|b t] acc acc' z L H H'; try discriminate L; cbn [DescribeSpec.digits_value] in *.
  - split; [congruence|reflexivity].
  - destruct (DescribeSpec.digit_value a) as [d|] eqn:E; [|discriminate]. destruct (DescribeSpec.digit_value b) as [d'|] eqn:E'; [|discriminate].
    injection L as L. destruct (IH _ _ _ _ L H H') as [X ->]. assert (R := digit_range _ _ E). assert (R' := digit_range _ _ E').
    assert (d = d') by lia. subst d'. split; [lia|]. f_equal. eapply digit_inj; eauto.
Qed.
Definition no_zero_first (s : string) : Prop := match s with String "0" (String _ _) => False | EmptyString => False | _ => True end.
Lemma digits_unique s t z : no_zero_first s -> no_zero_first t ->
  DescribeSpec.digits_value 0 s = Some z -> DescribeSpec.digits_value 0 t = Some z -> s = t.
Proof.
  assert (L : forall a s z d, DescribeSpec.digit_value a = Some d -> DescribeSpec.digits_value 0 (String a s) = Some z ->
    (d * 16 ^ Z.of_nat (String.length s) <= z < (d + 1) * 16 ^ Z.of_nat (String.length s))%Z).
  { intros a u y d E H. cbn [DescribeSpec.digits_value] in H. rewrite E in H. assert (R := digit_range _ _ E).
    apply digits_range in H; [|lia]. lia. }
  assert (Z0 : forall a d, DescribeSpec.digit_value a = Some d -> d = 0%Z -> a = "0"%char).
  { intros a d E ->. eapply digit_inj; [exact E|reflexivity]. }
  intros Ns Nt Hs Ht. destruct s as [|a s]; [destruct Ns|]. destruct t as [|b t]; [destruct Nt|].
  destruct (DescribeSpec.digit_value a) as [d|] eqn:E; [|cbn in Hs; rewrite E in Hs; discriminate].
  destruct (DescribeSpec.digit_value b) as [d'|] eqn:E'; [|cbn in Ht; rewrite E' in Ht; discriminate].
  assert (La := L _ _ _ _ E Hs). assert (Lb := L _ _ _ _ E' Ht). assert (R := digit_range _ _ E). assert (R' := digit_range _ _ E').
  assert (P : forall n, (0 < 16 ^ Z.of_nat n)%Z) by (intros; apply Z.pow_pos_nonneg; lia).
  assert (M : forall m n, (m < n)%nat -> (16 * 16 ^ Z.of_nat m <= 16 ^ Z.of_nat n)%Z).
  { intros m n H. rewrite <- Z.pow_succ_r by lia. apply Z.pow_le_mono_r; lia. }
  assert (Hd : d = 0%Z -> s = "").
  { intros X. rewrite (Z0 _ _ E X) in Ns. destruct s; [reflexivity|destruct Ns]. }
  assert (Hd' : d' = 0%Z -> t = "").
  { intros X. rewrite (Z0 _ _ E' X) in Nt. destruct t; [reflexivity|destruct Nt]. }
  assert (Len : String.length s = String.length t).
  { assert (P1 := P (String.length s)). assert (P2 := P (String.length t)).
    destruct (Nat.lt_trichotomy (String.length s) (String.length t)) as [H|[H|H]]; auto; exfalso; specialize (M _ _ H).
    - destruct (Z.eq_dec d' 0) as [X|X]; [rewrite (Hd' X) in H; cbn in H; lia|nia].
    - destruct (Z.eq_dec d 0) as [X|X]; [rewrite (Hd X) in H; cbn in H; lia|nia]. }
  eapply digits_inj with (acc := 0%Z) (acc' := 0%Z); [cbn; now rewrite Len|exact Hs|exact Ht].
Qed.
Lemma digits_nonneg s z : DescribeSpec.digits_value 0 s = Some z -> (0 <= z)%Z.
Proof. intros H. apply digits_range in H; lia. Qed.
(** The two shapes of a number. *)
Lemma value_shape h z : value h z ->
  (exists r, h = String "-" r /\ r <> "" /\ no_zero_first r /\ (match r with String "0" _ => False | _ => True end) /\ DescribeSpec.digits_value 0 r = Some (- z)%Z) \/
  (no_zero_first h /\ DescribeSpec.digits_value 0 h = Some z).
Proof.
  intros [H T]. destruct h as [|a h]; [discriminate|]. destruct (ascii_dec a "-") as [->|N].
  - left. exists h. destruct h as [|b h]; [discriminate|]. cbn [DescribeSpec.number] in H.
    destruct (DescribeSpec.digits_value 0 (String b h)) as [y|] eqn:E; [|discriminate]. injection H as <-. rewrite Z.opp_involutive.
    split; [reflexivity|]. split; [discriminate|]. cbn [tidy] in T.
    split; [|split; auto; destruct b as [[] [] [] [] [] [] [] []]; auto].
    destruct b as [[] [] [] [] [] [] [] []]; exact I || destruct T.
  - right. assert (E : DescribeSpec.digits_value 0 (String a h) = Some z) by (destruct a as [[] [] [] [] [] [] [] []]; try exact H; congruence).
    split; [|exact E]. cbn [tidy] in T. destruct a as [[] [] [] [] [] [] [] []]; try exact I. rewrite T. exact I.
Qed.
Lemma negative_digits r z : r <> "" -> (match r with String "0" _ => False | _ => True end) -> DescribeSpec.digits_value 0 r = Some z -> (0 < z)%Z.
Proof.
  intros Hr T H. destruct r as [|a r]; [congruence|]. cbn [DescribeSpec.digits_value] in H.
  destruct (DescribeSpec.digit_value a) as [d|] eqn:E; [|discriminate]. assert (R := digit_range _ _ E).
  assert (d <> 0%Z). { intros ->. assert (a = "0"%char) by (eapply digit_inj; [exact E|reflexivity]). subst a. destruct T. }
  apply digits_range in H; [|lia]. assert (0 < 16 ^ Z.of_nat (String.length r))%Z by (apply Z.pow_pos_nonneg; lia). nia.
Qed.
Lemma value_unique h h' z : value h z -> value h' z -> h = h'.
Proof.
  intros H H'. apply value_shape in H. apply value_shape in H'.
  destruct H as [(r & -> & N & S & T & D)|(S & D)], H' as [(r' & -> & N' & S' & T' & D')|(S' & D')].
  - f_equal. eapply digits_unique; eauto.
  - exfalso. apply negative_digits in D; auto. apply digits_nonneg in D'. lia.
  - exfalso. apply negative_digits in D'; auto. apply digits_nonneg in D. lia.
  - eapply digits_unique; eauto.
Qed.
Lemma lists_unique l s : lists l s -> forall s', lists l s' -> s = s'.
Proof.
  induction 1 as [|n z h V|n z h x l s V L IH]; intros s' H'; inversion H'; subst; auto.
  - match goal with W : value _ z |- _ => now rewrite (value_unique _ _ _ V W) end.
  - match goal with W : value ?k z, M : lists _ ?t |- _ = n ++ ": 0x" ++ ?k ++ ", " ++ ?t => rewrite (value_unique _ _ _ V W), (IH _ M) end. reflexivity.
Qed.

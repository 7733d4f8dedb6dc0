From Coq Require Import String Ascii Bool Arith List ZArith Lia.
From Verif Require Import CatalogModel GenModel GenSpec.
Import ListNotations.
Local Open Scope Z_scope.

Lemma sapp_nil_r (s : string) : (s ++ "" = s)%string.
Proof. induction s as [|a s IH]; [reflexivity|]. cbn. now rewrite IH. Qed.
Lemma sapp_assoc (a b c : string) : ((a ++ b) ++ c = a ++ b ++ c)%string.
Proof. induction a as [|x a IH]; [reflexivity|]. cbn. now rewrite IH. Qed.

(** ** Digits *)
Lemma digit_cases base d : base <= 16 -> 0 <= d < base -> In d [0;1;2;3;4;5;6;7;8;9;10;11;12;13;14;15].
Proof. cbn. lia. Qed.
Lemma digit_in_smaller base a d : digit_in 16 a = Some d -> d < base -> digit_in base a = Some d.
Proof.
  unfold digit_in. cbv zeta.
  match goal with |- (if ?x <? 16 then _ else _) = _ -> _ => generalize x end. intros v. destruct (v <? 16); [|discriminate].
  intros [= ->] H. destruct (Z.ltb_spec d base); [reflexivity|lia].
Qed.
Lemma digit_spec base d : base <= 16 -> 0 <= d < base -> exists a, digit d = String a EmptyString /\ digit_in base a = Some d.
Proof.
  intros B H. assert (C := digit_cases _ _ B H).
  assert (X : exists a, digit d = String a EmptyString /\ digit_in 16 a = Some d).
  { cbn in C. repeat (destruct C as [<-|C]; [eexists; split; reflexivity|]). contradiction. }
  destruct X as (a & E & D). exists a. split; [exact E|]. apply digit_in_smaller; [exact D|lia].
Qed.
Lemma digit_char_spec d : 0 <= d < 10 -> digit d = String (digit_char d) EmptyString.
Proof.
  intros H. assert (C : In d [0;1;2;3;4;5;6;7;8;9]) by (cbn; lia). cbn in C.
  repeat (destruct C as [<-|C]; [reflexivity|]). contradiction.
Qed.
Lemma digits_in_app base s : forall acc t, digits_in base acc (s ++ t) = match digits_in base acc s with Some x => digits_in base x t | None => None end.
Proof.
  induction s as [|a s IH]; intros acc t; cbn; [reflexivity|]. destruct (digit_in base a); [apply IH|reflexivity].
Qed.
Lemma writes_value base s n : base <= 16 -> writes base s n -> digits_in base 0 s = Some n.
Proof.
  intros B. induction 1 as [d H|s n d W IH H].
  - destruct (digit_spec _ _ B H) as (a & -> & D). cbn. rewrite D. f_equal. lia.
  - destruct (digit_spec _ _ B H) as (a & -> & D). rewrite digits_in_app, IH. cbn. now rewrite D.
Qed.
Lemma writes_nonempty base s n : base <= 16 -> writes base s n -> s <> EmptyString.
Proof.
  intros B. destruct 1 as [d H|s n d W H]; destruct (digit_spec _ _ B H) as (a & -> & _); [discriminate|]. now destruct s.
Qed.
Lemma writes_some base s n : base <= 16 -> writes base s n -> some_digits base s = Some n.
Proof. intros B W. unfold some_digits. assert (N := writes_nonempty _ _ _ B W). destruct s; [contradiction|]. now apply writes_value. Qed.
Lemma writes_nonneg base s n : 0 < base -> writes base s n -> 0 <= n.
Proof. intros B. induction 1; nia. Qed.
(** All characters satisfy f. *)
Fixpoint all (f : ascii -> bool) (s : string) : bool := match s with EmptyString => true | String a r => f a && all f r end.
Lemma all_app f a b : all f (a ++ b) = all f a && all f b.
Proof. induction a as [|x a IH]; [reflexivity|]. cbn. now rewrite IH, andb_assoc. Qed.
Definition alnum (a : ascii) : bool := is_word a.
Lemma digit_all base d f : base <= 16 -> 0 <= d < base -> (forall a, digit_in 16 a <> None -> f a = true) -> all f (digit d) = true.
Proof.
  intros B H F. destruct (digit_spec 16 d) as (a & -> & D); [lia|lia|]. cbn. rewrite F; [reflexivity|]. congruence.
Qed.
Lemma writes_all base s n f : base <= 16 -> writes base s n -> (forall a, digit_in 16 a <> None -> f a = true) -> all f s = true.
Proof.
  intros B W F. induction W as [d H|s n d W IH H]; [eapply digit_all; eauto|]. rewrite all_app, IH. eapply digit_all; eauto.
Qed.
Lemma writes10_digits s n : writes 10 s n -> all is_digit s = true.
Proof.
  induction 1 as [d H|s n d W IH H]; [|rewrite all_app, IH]; rewrite (digit_char_spec d H); cbn;
    assert (C : In d [0;1;2;3;4;5;6;7;8;9]) by (cbn; lia); cbn in C;
    repeat (destruct C as [<-|C]; [reflexivity|]); contradiction.
Qed.

(** ** str *)
Lemma decimal_step k n acc : decimal_aux (S k) n acc = if n <? 10 then String (digit_char (n mod 10)) acc else decimal_aux k (n / 10) (String (digit_char (n mod 10)) acc).
Proof. reflexivity. Qed.
Lemma starts_digit d : 0 < d < 10 -> ~ starts "0" (digit d).
Proof.
  intros H [r R]. rewrite digit_char_spec in R by lia. injection R as R _.
  assert (C : In d [1;2;3;4;5;6;7;8;9]) by (cbn; lia). cbn in C. repeat (destruct C as [<-|C]; [discriminate R|]). contradiction.
Qed.
Lemma decimal_writes k : forall n acc, 0 <= n < 2 ^ Z.of_nat (S k) ->
  exists s, decimal_aux (S k) n acc = (s ++ acc)%string /\ writes 10 s n /\ (0 < n -> ~ starts "0" s).
Proof.
  induction k as [|k IH]; intros n acc H; rewrite decimal_step; assert (D := Z.mod_pos_bound n 10 ltac:(lia));
    (destruct (Z.ltb_spec n 10) as [Hn|Hn];
     [exists (digit n); rewrite Z.mod_small by lia; rewrite digit_char_spec by lia; split; [reflexivity|];
      rewrite <- digit_char_spec by lia; split; [constructor; lia|]; intros; apply starts_digit; lia|]).
  - cbn in H. lia.
  - assert (P : 0 < 2 ^ Z.of_nat (S k)) by (apply Z.pow_pos_nonneg; lia).
    destruct (IH (n / 10) (String (digit_char (n mod 10)) acc)) as (s & -> & W & S0).
    { rewrite (Nat2Z.inj_succ (S k)), Z.pow_succ_r in H by lia.
      split; [apply Z.div_pos; lia|]. apply Z.div_lt_upper_bound; lia. }
    exists (s ++ digit (n mod 10))%string. split; [|split].
    + rewrite sapp_assoc, (digit_char_spec _ D). reflexivity.
    + rewrite (Z.div_mod n 10) at 2 by lia. now constructor.
    + intros _ [r R]. assert (0 < n / 10) by (apply Z.div_str_pos; lia). apply S0; [assumption|].
      assert (N := writes_nonempty 10 _ _ ltac:(lia) W). destruct s as [|a s]; [contradiction|]. injection R as -> _. now exists s.
Qed.
Lemma log2_bound n : 0 <= n -> 0 <= n < 2 ^ Z.of_nat (S (Z.to_nat (Z.log2 n))).
Proof.
  intros H. split; [exact H|]. rewrite Nat2Z.inj_succ, Z2Nat.id by apply Z.log2_nonneg.
  destruct (Z.eq_dec n 0) as [->|]; [reflexivity|]. apply Z.log2_spec. lia.
Qed.
Lemma str_writes n : 0 <= n -> writes 10 (str n) n /\ (0 < n -> ~ starts "0" (str n)).
Proof.
  intros H. unfold str. destruct (Z.ltb_spec n 0); [lia|].
  destruct (decimal_writes _ n "" (log2_bound n H)) as (s & -> & W & S0). rewrite sapp_nil_r. auto.
Qed.
Lemma str_neg n : n < 0 -> exists t, str n = String "-" t /\ writes 10 t (- n) /\ ~ starts "0" t.
Proof.
  intros H. unfold str. destruct (Z.ltb_spec n 0); [|lia].
  destruct (decimal_writes _ (- n) "" (log2_bound (- n) ltac:(lia))) as (s & -> & W & S0). rewrite sapp_nil_r.
  exists s. repeat split; auto. apply S0. lia.
Qed.
Lemma str_zero : str 0 = "0"%string. Proof. reflexivity. Qed.
Lemma str_numeral n : 0 <= n -> numeral (str n) n.
Proof.
  intros H. destruct (str_writes n H) as [W S0]. destruct (Z.eq_dec n 0) as [->|].
  - exact num_zero.
  - apply num_dec; [exact W|]. apply S0. lia.
Qed.
Lemma str_int10 n : int10 (str n) = Some n.
Proof.
  destruct (Z_lt_le_dec n 0) as [H|H].
  - destruct (str_neg n H) as (t & -> & W & _). cbn [int10]. rewrite (writes_some 10 t (- n)) by (auto; lia). cbn. f_equal. lia.
  - destruct (str_writes n H) as [W _]. unfold int10. assert (A := writes10_digits _ _ W).
    assert (R := writes_some 10 _ _ ltac:(lia) W). revert A R. generalize (str n) as s. intros [|a s]; [intros _ E; exact E|]. cbn [all].
    intros A R. destruct a as [[] [] [] [] [] [] [] []]; try exact R. discriminate A.
Qed.
Lemma str_inj a b : str a = str b -> a = b.
Proof. intros H. assert (A := str_int10 a). rewrite H, str_int10 in A. congruence. Qed.

(** ** int(s, 0) *)
Lemma strip_id s : s <> EmptyString -> all (fun a => negb (is_space a)) s = true -> strip s = s.
Proof.
  intros N A. unfold strip. assert (L : lstrip s = s).
  { destruct s as [|a s]; [reflexivity|]. cbn in *. apply andb_prop in A as [A _]. now destruct (is_space a). }
  rewrite L. clear L N. induction s as [|a s IH]; [reflexivity|]. cbn in A. apply andb_prop in A as [A B]. cbn. rewrite (IH B).
  destruct s; [|reflexivity]. now destruct (is_space a).
Qed.
Lemma hex_not_space a : digit_in 16 a <> None -> negb (is_space a) = true.
Proof. destruct a as [[] [] [] [] [] [] [] []]; intros H; try reflexivity; exfalso; apply H; reflexivity. Qed.
Lemma numeral_int0 s n : numeral s n -> int0 s = Some n.
Proof.
  intros [|s' n' W S0|s' n' W]; [reflexivity| |].
  - unfold int0. rewrite strip_id.
    2: now apply (writes_nonempty 10 s' n').
    2: apply (writes_all 10 s' n'); [lia|exact W|apply hex_not_space].
    assert (R := writes_some 10 _ _ ltac:(lia) W). destruct s' as [|a r]; [exact R|].
    destruct a as [[] [] [] [] [] [] [] []]; try exact R. destruct S0. now exists r.
  - unfold int0. rewrite strip_id; [|discriminate|].
    2: { cbn. apply (writes_all 16 s' n'); [lia|exact W|apply hex_not_space]. }
    cbn. now apply (writes_some 16).
Qed.
Lemma numeral_no s n c : numeral s n -> digit_in 16 c = None -> c <> "x"%char -> all (fun a => negb (Ascii.eqb a c)) s = true.
Proof.
  intros H D X.
  assert (F : forall a, digit_in 16 a <> None -> negb (Ascii.eqb a c) = true).
  { intros a A. destruct (Ascii.eqb_spec a c) as [->|]; [contradiction|reflexivity]. }
  assert (Z0 : negb (Ascii.eqb "0" c) = true) by (apply F; discriminate).
  destruct H as [|s n W S0|s n W].
  - cbn [all]. now rewrite Z0.
  - now apply (writes_all 10 s n).
  - cbn [append all]. rewrite Z0. destruct (Ascii.eqb_spec "x" c); [congruence|]. cbn [negb andb]. now apply (writes_all 16 s n).
Qed.
(** ** split *)
Lemma split_one c s : all (fun a => negb (Ascii.eqb a c)) s = true -> split c s = [s].
Proof.
  induction s as [|a s IH]; [reflexivity|]. cbn. intros H. apply andb_prop in H as [H1 H2].
  destruct (Ascii.eqb a c); [discriminate|]. now rewrite IH.
Qed.
Lemma split_more c s t : all (fun a => negb (Ascii.eqb a c)) s = true -> split c (s ++ String c t) = s :: split c t.
Proof.
  induction s as [|a s IH]; cbn.
  - now rewrite Ascii.eqb_refl.
  - intros H. apply andb_prop in H as [H1 H2]. destruct (Ascii.eqb a c); [discriminate|]. now rewrite IH.
Qed.
Lemma reserves_interval s m n : reserves s m n -> interval_of s = Some [(m, n)].
Proof.
  intros [s' n' N|s' m' t n' N1 N2]; unfold interval_of.
  - rewrite split_one by (apply (numeral_no s' n'); [exact N|reflexivity|discriminate]).
    apply numeral_int0 in N as N'. destruct s'; [discriminate|]. now rewrite N'.
  - change (s' ++ "-" ++ t)%string with (s' ++ String "-" t)%string.
    rewrite split_more by (apply (numeral_no s' m'); [exact N1|reflexivity|discriminate]).
    rewrite split_one by (apply (numeral_no t n'); [exact N2|reflexivity|discriminate]).
    apply numeral_int0 in N1, N2. destruct s'; [discriminate|]. now rewrite N1, N2.
Qed.
Lemma reserves_no_comma s m n : reserves s m n -> all (fun a => negb (Ascii.eqb a ",")) s = true.
Proof.
  intros [s' n' N|s' m' t n' N1 N2].
  - apply (numeral_no s' n'); [exact N|reflexivity|discriminate].
  - rewrite all_app. rewrite (numeral_no s' m' "," N1) by (reflexivity || discriminate). cbn.
    apply (numeral_no t n'); [exact N2|reflexivity|discriminate].
Qed.
Lemma intervals_read ss ivs : Forall2 (fun s iv => reserves s (fst iv) (snd iv)) ss ivs -> intervals (with_commas ss) = Some ivs.
Proof.
  unfold intervals. intros H. induction H as [|s [m n] ss ivs R H IH]; [reflexivity|]. cbn [fst snd] in R.
  destruct ss as [|s2 ss].
  - inversion H; subst. cbn [with_commas]. rewrite split_one by (eapply reserves_no_comma; eauto). cbn [intervals_of]. now rewrite (reserves_interval _ _ _ R).
  - change (with_commas (s :: s2 :: ss)) with (s ++ String "," (with_commas (s2 :: ss)))%string.
    rewrite split_more by (eapply reserves_no_comma; eauto). cbn [intervals_of]. rewrite (reserves_interval _ _ _ R).
    destruct (intervals_of (split "," (with_commas (s2 :: ss)))); [|discriminate]. injection IH as ->. reflexivity.
Qed.
Lemma join_commas l : join_with "," l = with_commas l.
Proof. induction l as [|x [|y r] IH]; [reflexivity|reflexivity|]. cbn [join_with with_commas] in *. now rewrite IH. Qed.
Lemma interval_text_reserves x : 0 <= fst x -> 0 <= snd x -> reserves (interval_text x) (fst x) (snd x).
Proof.
  intros A B. unfold interval_text. destruct (Z.eqb_spec (fst x) (snd x)) as [E|].
  - rewrite <- E. constructor. now apply str_numeral.
  - constructor; now apply str_numeral.
Qed.
Lemma intervals_roundtrip l : Forall (fun x => 0 <= fst x /\ 0 <= snd x) l -> intervals (intervals_text l) = Some l.
Proof.
  intros H. unfold intervals_text. rewrite join_commas. apply intervals_read.
  induction H as [|x l [A B] _ IH]; cbn; constructor; [now apply interval_text_reserves|exact IH].
Qed.

(** ** Named arguments *)
Lemma span_digits s c r : all is_digit s = true -> is_digit c = false -> span is_digit (s ++ String c r) = (s, String c r).
Proof.
  intros A C. induction s as [|a s IH]; cbn.
  - now rewrite C.
  - cbn in A. apply andb_prop in A as [A1 A2]. now rewrite A1, (IH A2).
Qed.
Lemma loc_reads a b : 0 <= a -> 0 <= b -> loc_match ("[" ++ str a ++ ":" ++ str b ++ "]") = Some (str a, str b).
Proof.
  intros A B. apply str_writes in A as [A _], B as [B _]. cbn [loc_match append].
  rewrite span_digits by (reflexivity || now apply (writes10_digits _ a)).
  assert (NA := writes_nonempty 10 _ _ ltac:(lia) A). destruct (str a) as [|x s]; [contradiction|].
  change (match span is_digit (str b ++ "]") with | (EmptyString, _) => None | (b0, String "]" _) => Some (String x s, b0) | _ => None end = Some (String x s, str b)).
  rewrite span_digits by (reflexivity || now apply (writes10_digits _ b)).
  assert (NB := writes_nonempty 10 _ _ ltac:(lia) B). now destruct (str b).
Qed.
Lemma json_read a : 0 <= na_begin a -> exists b, from_json (to_json a) = Some b /\ na_name b = na_name a /\ na_begin b = na_begin a /\
  na_end b = if na_end a <? na_begin a then na_begin a - 1 else na_end a.
Proof.
  intros H. unfold to_json. destruct (Z.ltb_spec (na_end a) (na_begin a)) as [L|L].
  - eexists. split; [reflexivity|]. auto.
  - cbn [from_json]. rewrite loc_reads by lia. rewrite !str_int10. eexists. split; [reflexivity|]. auto.
Qed.
Lemma leading_zero s n : writes 10 s n -> intervals ("0" ++ s) = if n =? 0 then Some [(0, 0)] else None.
Proof.
  intros W. assert (D := writes10_digits s n W). assert (N := writes_nonempty 10 s n ltac:(lia) W). assert (R := writes_some 10 s n ltac:(lia) W).
  assert (F : forall c, is_digit c = false -> all (fun a => negb (Ascii.eqb a c)) s = true).
  { intros c Hc. clear - D Hc. induction s as [|a s IH]; [reflexivity|]. cbn in *. apply andb_prop in D as [D1 D2]. rewrite (IH D2), andb_true_r.
    destruct (Ascii.eqb_spec a c) as [->|]; [congruence|reflexivity]. }
  unfold intervals. rewrite split_one by (cbn [append all]; rewrite F; reflexivity). cbn [intervals_of]. unfold interval_of.
  rewrite split_one by (cbn [append all]; rewrite F; reflexivity). cbn [append]. unfold int0. rewrite strip_id; [|discriminate|].
  2: { cbn [all]. rewrite (writes_all 10 s n); [reflexivity|lia|exact W|apply hex_not_space]. }
  destruct s as [|a s]; [congruence|]. cbn [all] in D. apply andb_prop in D as [D _].
  assert (X : (Ascii.eqb a "x" || Ascii.eqb a "X" = false)%char /\ (Ascii.eqb a "o" || Ascii.eqb a "O" = false)%char /\ (Ascii.eqb a "b" || Ascii.eqb a "B" = false)%char).
  { clear - D. destruct a as [[] [] [] [] [] [] [] []]; try discriminate D; auto. }
  destruct X as (-> & -> & ->). rewrite R. destruct n; reflexivity.
Qed.

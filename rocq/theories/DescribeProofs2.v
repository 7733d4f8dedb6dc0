From Coq Require Import String Ascii Bool List ZArith Lia.
From Verif Require Import MatchModel MatchSpec FieldMatchersModel DescribeModel DescribeSpec DescribeProofs.
Import ListNotations.
Local Open Scope string_scope.

(** ** Numbers *)
Lemma hex_digit_value d : (0 <= d < 16)%Z -> digit_value (hex_digit d) = Some d.
Proof.
  intros H. assert (C : In d [0;1;2;3;4;5;6;7;8;9;10;11;12;13;14;15]%Z) by (cbn; lia).
  cbn in C. repeat (destruct C as [<-|C]; [reflexivity|]). contradiction.
Qed.
Lemma hex_step k n acc : hex_aux (S k) n acc = if (n <? 16)%Z then String (hex_digit (n mod 16)) acc else hex_aux k (n / 16) (String (hex_digit (n mod 16)) acc).
Proof. reflexivity. Qed.
Lemma hex_aux_value k : forall n acc, (0 <= n < 2 ^ Z.of_nat (S k))%Z -> digits_value 0 (hex_aux (S k) n acc) = digits_value n acc.
Proof.
  induction k as [|k IH]; intros n acc H; rewrite hex_step;
    assert (D := Z.mod_pos_bound n 16 ltac:(lia));
    (destruct (Z.ltb_spec n 16) as [Hlt|Hge];
     [rewrite Z.mod_small by lia; cbn [digits_value]; rewrite hex_digit_value by lia; reflexivity|]).
  - cbn in H. lia.
  - rewrite IH.
    + cbn [digits_value]. rewrite hex_digit_value by exact D. f_equal.
      symmetry. apply Z.div_mod. lia.
    + split; [apply Z.div_pos; lia|]. apply Z.div_lt_upper_bound; [lia|].
      rewrite (Nat2Z.inj_succ (S k)), Z.pow_succ_r in H by lia.
      assert (0 < 2 ^ Z.of_nat (S k))%Z by (apply Z.pow_pos_nonneg; lia). lia.
Qed.
Lemma hex_aux_first k : forall n acc, (0 <= n)%Z -> exists a r, hex_aux (S k) n acc = String a r /\ (a <> "-"%char).
Proof.
  assert (ND : forall n, hex_digit (n mod 16) <> "-"%char).
  { intros n E. assert (D := Z.mod_pos_bound n 16 ltac:(lia)). apply hex_digit_value in D. rewrite E in D. discriminate. }
  induction k as [|k IH]; intros n acc H; rewrite hex_step; destruct (n <? 16)%Z eqn:Hn;
    try (eexists; eexists; split; [reflexivity|apply ND]).
  - apply IH. apply Z.div_pos; lia.
Qed.
Lemma hex_number z : number (hex z) = Some z.
Proof.
  assert (P : forall z, (0 <= z)%Z -> exists a r, hex_aux (S (Z.to_nat (Z.log2 z))) z "" = String a r /\ a <> "-"%char /\ digits_value 0 (String a r) = Some z).
  { intros y Hy. destruct (hex_aux_first (Z.to_nat (Z.log2 y)) y "" Hy) as (a & r & E & N). exists a, r. repeat split; try assumption.
    rewrite <- E, hex_aux_value; [reflexivity|]. split; [exact Hy|].
    rewrite Nat2Z.inj_succ, Z2Nat.id by apply Z.log2_nonneg.
    destruct (Z.eq_dec y 0) as [->|]; [reflexivity|]. apply Z.log2_spec. lia. }
  unfold hex. destruct (Z.ltb_spec z 0) as [Hz|Hz].
  - destruct (P (- z)%Z ltac:(lia)) as (a & r & -> & N & V). cbn [number].
    change (option_map Z.opp (digits_value 0 (String a r)) = Some z). rewrite V. cbn. f_equal. lia.
  - destruct (P z Hz) as (a & r & -> & N & V). rewrite <- V. unfold number.
    destruct a as [[] [] [] [] [] [] [] []]; try reflexivity. now destruct N.
Qed.

(** ** Splitting at the last space *)
Fixpoint no_space (s : string) : bool := match s with EmptyString => true | String a r => negb (Ascii.eqb a " ") && no_space r end.
Lemma no_space_app a b : no_space (a ++ b) = no_space a && no_space b.
Proof. induction a as [|x a IH]; [reflexivity|]. cbn. rewrite IH. now rewrite andb_assoc. Qed.
Lemma space_false a x : no_space (a ++ String " " x) = false.
Proof. rewrite no_space_app. cbn. now rewrite andb_false_r. Qed.
Lemma last_space a b x y : no_space x = true -> no_space y = true -> a ++ String " " x = b ++ String " " y -> a = b /\ x = y.
Proof.
  intros Hx Hy. revert b. induction a as [|c a IH]; intros [|d b]; cbn.
  - intros [= ->]. auto.
  - intros [= <- ->]. rewrite space_false in Hx. discriminate.
  - intros [= -> E]. rewrite <- E, space_false in Hy. discriminate.
  - intros [= -> E]. apply IH in E as [-> ->]. auto.
Qed.
Lemma digits_no_space s : forall acc z, digits_value acc s = Some z -> no_space s = true.
Proof.
  induction s as [|a s IH]; intros acc z; cbn; [reflexivity|].
  destruct (digit_value a) eqn:D; [|discriminate]. intros H. apply IH in H. rewrite H.
  destruct (Ascii.eqb_spec a " ") as [->|]; [discriminate|reflexivity].
Qed.
Lemma number_no_space s z : number s = Some z -> no_space s = true.
Proof.
  destruct s as [|a s]; [discriminate|].
  destruct (Ascii.eqb_spec a "-") as [->|N].
  - cbn [number]. destruct s as [|c s]; [discriminate|].
    change (option_map Z.opp (digits_value 0 (String c s)) = Some z -> no_space (String "-" (String c s)) = true).
    destruct (digits_value 0 (String c s)) eqn:D; [|discriminate]. intros _. apply digits_no_space in D. exact D.
  - intros H. assert (H' : digits_value 0 (String a s) = Some z).
    { rewrite <- H. unfold number. destruct a as [[] [] [] [] [] [] [] []]; try reflexivity. now destruct N. }
    now apply digits_no_space in H'.
Qed.
Lemma compares_no_space o f : compares o f -> no_space o = true.
Proof. now destruct 1. Qed.
Lemma compares_fun o f g : compares o f -> compares o g -> f = g.
Proof. destruct 1; inversion 1; reflexivity. Qed.
Lemma app_paren_inj x y : x ++ ")" = y ++ ")" -> x = y.
Proof.
  revert y. induction x as [|a x IH]; intros [|b y]; cbn.
  - reflexivity.
  - intros [= <- E]. destruct y; discriminate.
  - intros [= -> E]. destruct x; discriminate.
  - intros [= -> E]. f_equal. auto.
Qed.
Lemma shows_unique s b c : shows s b -> shows s c -> b = c.
Proof.
  intros (n1 & o1 & f1 & x1 & y1 & a1 & c1 & E1 & P1 & X1 & Y1 & ->) (n2 & o2 & f2 & x2 & y2 & a2 & c2 & E2 & P2 & X2 & Y2 & ->).
  subst s.
  assert (R : forall n x o y, n ++ " (0x" ++ x ++ ") " ++ o ++ " 0x" ++ y = ((n ++ String " " ("(0x" ++ x ++ ")")) ++ String " " o) ++ String " " ("0x" ++ y)).
  { intros. rewrite !app_assoc. cbn. rewrite !app_assoc. reflexivity. }
  rewrite (R n1), (R n2) in E2. apply last_space in E2 as [E2 E3].
  2, 3: rewrite no_space_app; cbn; eapply number_no_space; eassumption.
  apply last_space in E2 as [E2 ->]; try (eapply compares_no_space; eassumption).
  apply last_space in E2 as [_ E2].
  2, 3: rewrite !no_space_app; cbn; rewrite andb_true_r; eapply number_no_space; eassumption.
  cbn in E2, E3. injection E2 as E2. injection E3 as ->. apply app_paren_inj in E2 as ->.
  rewrite (compares_fun _ _ _ P1 P2). congruence.
Qed.
Lemma op_compares o : exists f, compares (op_text o) f /\ forall a b, f a b = relb o a b.
Proof.
  destruct o; cbn; eexists; (split; [constructor|]); intros a b; cbn; try reflexivity.
  - apply Z.gtb_ltb.
  - apply Z.geb_leb.
Qed.
Lemma rel_shows {E} (e : E) name value o v : shows (leaf_match_text e (DRel name value o v)) (dsem (DRel name value o v) e).
Proof.
  destruct (op_compares o) as (f & C & F).
  exists name, (op_text o), f, (hex (value e)), (hex v), (value e), v.
  split; [reflexivity|]. split; [exact C|]. split; [apply hex_number|]. split; [apply hex_number|]. cbn. now rewrite F.
Qed.

(** ** Plain texts *)
Lemma balanced_hex_aux k : forall n acc, balanced acc -> balanced (hex_aux k n acc).
Proof.
  induction k as [|k IH]; intros n acc H; cbn [hex_aux]; [exact H|].
  assert (B : balanced (String (hex_digit (n mod 16)) acc)).
  { assert (D := hex_digit_value _ (Z.mod_pos_bound n 16 ltac:(lia))).
    apply bal_char; [intros E; rewrite E in D; discriminate..|exact H]. }
  destruct (n <? 16)%Z; auto.
Qed.
Lemma balanced_hex v : balanced (hex v).
Proof.
  unfold hex. destruct (v <? 0)%Z; [apply bal_char; [discriminate|discriminate|]|]; apply balanced_hex_aux; constructor.
Qed.
Lemma balanced_op o : balanced (op_text o).
Proof. destruct o; cbn; repeat first [apply bal_nil | apply bal_char; [discriminate|discriminate|]]. Qed.
Lemma not_starts_open name a r : a <> "("%char -> ~ starts "(" name -> ~ starts "(" (name ++ String a r).
Proof.
  intros N H [x E]. destruct name as [|c name]; cbn in E; injection E as -> E; [now apply N|].
  apply H. eexists. reflexivity.
Qed.
Lemma not_starts_not name r : ~ starts "not (" (name ++ " (") -> (forall x, r <> String "(" x) -> ~ starts "not (" (name ++ String " " r).
Proof.
  intros H N [x E]. apply H. clear H.
  destruct name as [|c1 [|c2 [|c3 [|c4 [|c5 name]]]]]; cbn in *; try discriminate.
  - injection E as -> -> -> E. now destruct (N x).
  - injection E as -> -> -> -> E. subst. eexists. reflexivity.
Qed.
Ltac plain_char := apply bal_char; [discriminate|discriminate|].
Lemma op_first o r : forall x, op_text o ++ r <> String "(" x.
Proof. destruct o; discriminate. Qed.
Lemma good_leaf_text {E} (l : dleaf E) : good_leaf l -> plain (leaf_text l).
Proof.
  destruct l as [name value o v|name value p|name p]; cbn [good_leaf leaf_text]; intros H.
  - destruct H as (B & S1 & S2).
    split; [|split; [|split; [|split]]].
    + apply balanced_app; [exact B|]. plain_char. apply balanced_app; [apply balanced_op|]. do 3 plain_char. apply balanced_hex.
    + apply not_starts_open; [discriminate|exact S1].
    + apply not_starts_not; [exact S2|apply op_first].
    + intros E0. destruct name as [|? [|? [|? [|? [|]]]]]; discriminate.
    + intros E0. destruct name as [|? [|? [|? [|? [|? [|]]]]]]; discriminate.
  - split; [|repeat split; try discriminate; intros [r R]; discriminate].
    do 11 plain_char. now apply balanced_paren.
  - exact H.
Qed.
Lemma good_match_text {E} (e : E) (l : dleaf E) : good_leaf l -> plain (leaf_match_text e l).
Proof.
  destruct l as [name value o v|name value p|name p]; cbn [good_leaf leaf_match_text]; intros H.
  - destruct H as (B & S1 & S2).
    split; [|split; [|split; [|split]]].
    + apply balanced_app; [exact B|]. plain_char.
      apply (bal_paren ("0x" ++ hex (value e)) (" " ++ op_text o ++ " 0x" ++ hex v)).
      * do 2 plain_char. apply balanced_hex.
      * plain_char. apply balanced_app; [apply balanced_op|]. do 3 plain_char. apply balanced_hex.
    + apply not_starts_open; [discriminate|exact S1].
    + intros [x E0]. apply S2. destruct name as [|c1 [|c2 [|c3 [|c4 [|c5 name]]]]]; cbn in *; try discriminate.
      * injection E0 as -> -> -> E0. now exists "".
      * injection E0 as -> -> -> -> -> E0. eexists. reflexivity.
    + intros E0. destruct name as [|? [|? [|? [|? [|]]]]]; discriminate.
    + intros E0. destruct name as [|? [|? [|? [|? [|? [|]]]]]]; discriminate.
  - split; [|repeat split; try discriminate; intros [r R]; discriminate].
    do 11 plain_char. rewrite <- (app_nil_r (String "(" _)).
    change (balanced ("(" ++ (name ++ "(0x" ++ hex (value e) ++ "))") ++ "")).
    replace ("(" ++ (name ++ "(0x" ++ hex (value e) ++ "))") ++ "") with ("(" ++ (name ++ ("(" ++ ("0x" ++ hex (value e)) ++ ")")) ++ ")" ++ "").
    2: { rewrite !app_nil_r. cbn. rewrite !app_assoc. cbn. rewrite !app_assoc. reflexivity. }
    apply bal_paren; [|constructor]. apply balanced_app; [exact H|]. apply balanced_paren. do 2 plain_char. apply balanced_hex.
  - exact H.
Qed.

(** ** The matcher a callback describes *)
Section Callback.
Context {L E : Type}.
Variables (sem : L -> E -> bool) (leqb limpl : L -> L -> bool) (lneg : L -> option L) (U : L -> Prop).
Hypothesis T : truthful sem leqb limpl lneg U.
Lemma negate_leaves m : all_leaves U m -> all_leaves U (negate L lneg m).
Proof. destruct m as [l| | | | |]; cbn; auto. intros H. destruct (lneg l) eqn:N; cbn; [eapply t_closed; eauto|auto]. Qed.
Lemma distr_leaves (l r : mexpr L) : all_leaves U l -> all_leaves U r -> all_leaves U (distr l r).
Proof. induction r; cbn; intros; tauto. Qed.
Lemma dist_leaves (l r : mexpr L) : all_leaves U l -> all_leaves U r -> all_leaves U (dist l r).
Proof. induction l; cbn [dist all_leaves]; intros Hl Hr; try (apply distr_leaves; [exact Hl|exact Hr]). tauto. Qed.
Lemma dnf_leaves m : forall pos, all_leaves U m -> all_leaves U (dnf L lneg pos m).
Proof.
  induction m as [l| | |a IHa b IHb|a IHa b IHb|a IHa]; intros pos H.
  - destruct pos; [exact H|]. now apply negate_leaves.
  - destruct pos; cbn; exact I.
  - destruct pos; cbn; exact I.
  - destruct H as [Ha Hb]. destruct pos; cbn; [apply dist_leaves; auto|split; auto].
  - destruct H as [Ha Hb]. destruct pos; cbn; [split; auto|apply dist_leaves; auto].
  - destruct pos; [|cbn; apply IHa; exact H].
    destruct a; try exact H; exact (IHa false H).
Qed.
End Callback.

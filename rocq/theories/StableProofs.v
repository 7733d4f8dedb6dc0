(** Proofs for C131. *)
From Coq Require Import List Bool Arith Lia.
From Verif Require Import MatchModel MatchSpec MatchProofs StableSpec.

Section Stable.
Context {L : Type}.
Variable leqb : L -> L -> bool.
Variable limpl : L -> L -> bool.
Variable lneg : L -> option L.
Notation mexpr := (mexpr L).
Notation implies := (implies L leqb limpl).
Notation negate := (negate L lneg).
Notation simplify := (simplify L leqb limpl lneg).
Notation simplify_and := (simplify_and L leqb limpl lneg).
Notation simplify_or := (simplify_or L leqb limpl lneg).
Notation op_and := (op_and L leqb limpl lneg).
Notation op_or := (op_or L leqb limpl lneg).
Notation op_not := (op_not L leqb limpl lneg).

Lemma size_cost (m : mexpr) : size m = cost m.
Proof. induction m; cbn; congruence. Qed.

Lemma simplify_not_other a : a <> Always -> a <> Never -> simplify (Not a) = negate (simplify a).
Proof. destruct a; intros H1 H2; try congruence; reflexivity. Qed.

(** ** Simplifying changes nothing or makes the matcher smaller *)
Lemma and_cheaper l r : simplify_and l r = And l r \/ cost (simplify_and l r) < cost (And l r).
Proof.
  unfold MatchModel.simplify_and, de_morgan_and. pose proof (cost_pos l). pose proof (cost_pos r).
  destruct (implies l r); [right; cbn; lia|]. destruct (implies r l); [right; cbn; lia|].
  destruct (_ || _); [right; cbn; lia|].
  destruct (Nat.ltb_spec (cost (negate (Or (negate l) (negate r)))) (cost (And l r))); [right; auto|left; reflexivity].
Qed.
Lemma or_cheaper l r : simplify_or l r = Or l r \/ cost (simplify_or l r) < cost (Or l r).
Proof.
  unfold MatchModel.simplify_or, de_morgan_or. pose proof (cost_pos l). pose proof (cost_pos r).
  destruct (implies l r); [right; cbn; lia|]. destruct (implies r l); [right; cbn; lia|].
  destruct (_ || _); [right; cbn; lia|].
  destruct (Nat.ltb_spec (cost (negate (And (negate l) (negate r)))) (cost (Or l r))); [right; auto|left; reflexivity].
Qed.
Lemma negate_cheaper m : negate m = Not m \/ cost (negate m) < cost (Not m).
Proof. destruct m as [l| | |a b|a b|a]; cbn; try (right; lia); auto. destruct (lneg l); cbn; [right; lia|auto]. Qed.

Lemma simplify_cheaper m : simplify m = m \/ cost (simplify m) < cost m.
Proof.
  induction m as [l| | |a IHa b IHb|a IHa b IHb|a IHa]; try (left; reflexivity).
  - cbn [MatchModel.simplify cost]. pose proof (cost_simplify leqb limpl lneg a). pose proof (cost_simplify leqb limpl lneg b).
    pose proof (cost_simplify_and leqb limpl lneg (simplify a) (simplify b)).
    destruct IHa as [Ea|Ea]; [|right; lia]. destruct IHb as [Eb|Eb]; [|right; lia].
    rewrite Ea, Eb. destruct (and_cheaper a b); cbn [cost] in *; auto.
  - cbn [MatchModel.simplify cost]. pose proof (cost_simplify leqb limpl lneg a). pose proof (cost_simplify leqb limpl lneg b).
    pose proof (cost_simplify_or leqb limpl lneg (simplify a) (simplify b)).
    destruct IHa as [Ea|Ea]; [|right; lia]. destruct IHb as [Eb|Eb]; [|right; lia].
    rewrite Ea, Eb. destruct (or_cheaper a b); cbn [cost] in *; auto.
  - assert (H : simplify (Not a) = negate (simplify a)) by (destruct a; reflexivity).
    rewrite H. pose proof (cost_negate lneg (simplify a)). cbn [cost].
    destruct IHa as [Ea|Ea]; [|right; lia]. rewrite Ea in *. destruct (negate_cheaper a); cbn [cost] in *; auto.
Qed.
Lemma times_fixed n : forall m, simplify m = m -> times n simplify m = m.
Proof. induction n as [|n IH]; intros m H; cbn; auto. rewrite H. auto. Qed.
Lemma settles n : forall m, cost m <= S n -> simplify (times n simplify m) = times n simplify m.
Proof.
  induction n as [|n IH]; intros m Hc.
  - cbn. destruct (simplify_cheaper m) as [E|E]; auto. pose proof (cost_pos (simplify m)). lia.
  - cbn [times]. destruct (simplify_cheaper m) as [E|E].
    + rewrite !E. rewrite (times_fixed n m E). auto.
    + apply IH. lia.
Qed.

(** ** Without negations *)
Lemma cost_negate_no_not m : no_not m -> cost m <= cost (negate m).
Proof. destruct m as [l| | |a b|a b|a]; cbn; try lia; try contradiction. destruct (lneg l); cbn; lia. Qed.
Lemma no_not_fixed m : no_not m -> no_not (simplify m) /\ simplify (simplify m) = simplify m.
Proof.
  induction m as [l| | |a IHa b IHb|a IHa b IHb|a IHa]; try (cbn; auto; fail); intros H; cbn [no_not] in H; try contradiction.
  - destruct (IHa (proj1 H)) as [Na Ea], (IHb (proj2 H)) as [Nb Eb]. cbn [MatchModel.simplify].
    set (l := simplify a) in *. set (r := simplify b) in *.
    assert (D : de_morgan_and L lneg l r = And l r).
    { unfold de_morgan_and. pose proof (cost_negate_no_not l Na). pose proof (cost_negate_no_not r Nb).
      destruct (Nat.ltb_spec (cost (negate (Or (negate l) (negate r)))) (cost (And l r))) as [C|]; auto. cbn in C. lia. }
    destruct (implies l r) eqn:I1.
    { replace (simplify_and l r) with l by (unfold MatchModel.simplify_and; rewrite I1; reflexivity). auto. }
    destruct (implies r l) eqn:I2.
    { replace (simplify_and l r) with r by (unfold MatchModel.simplify_and; rewrite I1, I2; reflexivity). auto. }
    destruct (implies l (negate r) || implies r (negate l)) eqn:I3.
    { replace (simplify_and l r) with (@Never L) by (unfold MatchModel.simplify_and; rewrite I1, I2, I3; reflexivity). cbn. auto. }
    assert (E : simplify_and l r = And l r) by (unfold MatchModel.simplify_and; rewrite I1, I2, I3; exact D).
    rewrite E. split; [cbn; auto|]. cbn [MatchModel.simplify]. rewrite Ea, Eb. exact E.
  - destruct (IHa (proj1 H)) as [Na Ea], (IHb (proj2 H)) as [Nb Eb]. cbn [MatchModel.simplify].
    set (l := simplify a) in *. set (r := simplify b) in *.
    assert (D : de_morgan_or L lneg l r = Or l r).
    { unfold de_morgan_or. pose proof (cost_negate_no_not l Na). pose proof (cost_negate_no_not r Nb).
      destruct (Nat.ltb_spec (cost (negate (And (negate l) (negate r)))) (cost (Or l r))) as [C|]; auto. cbn in C. lia. }
    destruct (implies l r) eqn:I1.
    { replace (simplify_or l r) with r by (unfold MatchModel.simplify_or; rewrite I1; reflexivity). auto. }
    destruct (implies r l) eqn:I2.
    { replace (simplify_or l r) with l by (unfold MatchModel.simplify_or; rewrite I1, I2; reflexivity). auto. }
    destruct (implies (negate l) r || implies (negate r) l) eqn:I3.
    { replace (simplify_or l r) with (@Always L) by (unfold MatchModel.simplify_or; rewrite I1, I2, I3; reflexivity). cbn. auto. }
    assert (E : simplify_or l r = Or l r) by (unfold MatchModel.simplify_or; rewrite I1, I2, I3; exact D).
    rewrite E. split; [cbn; auto|]. cbn [MatchModel.simplify]. rewrite Ea, Eb. exact E.
Qed.

(** ** Negations *)
(** The negations left on top. *)
Definition proper_top (m : mexpr) : Prop :=
  match m with
  | Not (And _ _) | Not (Or _ _) => True
  | Not (Leaf l) => lneg l = None
  | Not _ => False
  | _ => True
  end.
Lemma negate_proper m : proper_top m -> proper_top (negate m).
Proof.
  destruct m as [l| | |a b|a b|a]; cbn; auto.
  - destruct (lneg l) eqn:E; cbn; auto.
  - destruct a; cbn; auto; contradiction.
Qed.
Lemma simplify_proper m : proper_top (simplify m).
Proof.
  induction m as [l| | |a IHa b IHb|a IHa b IHb|a IHa]; try (cbn; auto; fail).
  - cbn [MatchModel.simplify]. unfold MatchModel.simplify_and, de_morgan_and.
    destruct (implies _ _); auto. destruct (implies _ _); auto. destruct (_ || _); [exact I|]. destruct (_ <? _); exact I.
  - cbn [MatchModel.simplify]. unfold MatchModel.simplify_or, de_morgan_or.
    destruct (implies _ _); auto. destruct (implies _ _); auto. destruct (_ || _); [exact I|]. destruct (_ <? _); exact I.
  - assert (H : simplify (Not a) = negate (simplify a)) by (destruct a; reflexivity). rewrite H. apply negate_proper. auto.
Qed.
Hypothesis Ho : opposite_leaves limpl lneg.
Lemma negate_twice m : proper_top m -> negate (negate m) = m.
Proof.
  destruct m as [l| | |a b|a b|a]; cbn; auto.
  - destruct (lneg l) as [l'|] eqn:E; cbn; auto. destruct (Ho l l' E) as [-> _]. reflexivity.
  - destruct a as [l| | | | |]; cbn; auto; try contradiction. intros ->. reflexivity.
Qed.
Lemma op_not_negate m : (forall a, m <> Not a) -> op_not m = negate (simplify m).
Proof.
  intros H. unfold MatchModel.op_not. destruct m as [l| | |a b|a b|a]; cbn [MatchModel.negate]; try reflexivity.
  - cbn. destruct (lneg l) eqn:E; [reflexivity|]. cbn. rewrite E. reflexivity.
  - destruct (H a eq_refl).
Qed.
Lemma double_negation m : op_not (op_not m) = simplify (simplify m).
Proof.
  assert (Hn : forall a, simplify (Not a) = negate (simplify a)) by (intros []; reflexivity).
  assert (H : op_not m = negate (simplify m)).
  { destruct m as [l| | |a b|a b|a]; try (apply op_not_negate; discriminate). unfold MatchModel.op_not at 1. cbn [MatchModel.negate].
    rewrite Hn. symmetry. apply negate_twice. apply simplify_proper. }
  rewrite H. unfold MatchModel.op_not. rewrite negate_twice; auto. apply simplify_proper.
Qed.
Lemma op_not_simplified m : op_not m = negate (simplify m).
Proof.
  assert (Hn : forall a, simplify (Not a) = negate (simplify a)) by (intros []; reflexivity).
  destruct m as [l| | |a b|a b|a]; try (apply op_not_negate; discriminate). unfold MatchModel.op_not at 1. cbn [MatchModel.negate].
  rewrite Hn. symmetry. apply negate_twice. apply simplify_proper.
Qed.
Lemma negate_fixed s : proper_top s -> simplify s = s -> simplify (negate s) = negate s.
Proof.
  intros Hp Hs. assert (Hn : forall a, simplify (Not a) = negate (simplify a)) by (intros []; reflexivity).
  destruct s as [l| | |a b|a b|a]; try reflexivity.
  - cbn. destruct (lneg l) as [l'|] eqn:E; [reflexivity|]. rewrite Hn. cbn. rewrite E. reflexivity.
  - cbn [MatchModel.negate]. rewrite Hn, Hs. reflexivity.
  - cbn [MatchModel.negate]. rewrite Hn, Hs. reflexivity.
  - cbn [MatchModel.negate]. rewrite Hn in Hs. pose proof (simplify_proper a) as Hpa. apply (f_equal negate) in Hs.
    rewrite negate_twice in Hs by auto. rewrite Hs. reflexivity.
Qed.

Hypothesis Hr : forall a, leqb a a = true.
Hypothesis Hi : forall a, limpl a a = true.

(** A matcher and its negation do not imply one another. *)
Lemma implies_not_bigger x c : const_free x -> cost x <= cost c -> implies x (Not c) = false.
Proof.
  induction x as [l| | |a IHa b IHb|a IHa b IHb|a IHa]; cbn [const_free]; intros Hc Hs; try contradiction; rewrite implies_unfold; try reflexivity.
  - cbn [cost] in Hs. rewrite IHa, IHb; try tauto; lia.
  - destruct (meqb L leqb (Not a) (Not c)) eqn:E; auto. apply meqb_cost in E; auto. cbn [cost] in *. lia.
Qed.
Lemma not_implies_smaller y c : const_free y -> cost y <= cost c -> implies (Not c) y = false.
Proof.
  induction y as [l| | |a IHa b IHb|a IHa b IHb|a IHa]; cbn [const_free]; intros Hc Hs; try contradiction; rewrite implies_unfold; try reflexivity.
  - cbn [cost] in Hs. rewrite IHa, IHb; try tauto; lia.
  - destruct (meqb L leqb (Not c) (Not a)) eqn:E; auto. apply meqb_cost in E; auto. cbn [cost] in *. lia.
Qed.
Lemma not_implies_not c : implies (Not c) (Not c) = true.
Proof. rewrite implies_unfold. apply (meqb_refl leqb Hr (Not c)). Qed.

Lemma complement_core s : no_redundant_constants s -> proper_top s ->
  simplify_and s (negate s) = Never /\ simplify_or s (negate s) = Always.
Proof.
  intros [->|[->|Hc]] Hp; try (split; reflexivity).
  assert (K : forall c, const_free c -> negate c = Not c ->
    simplify_and c (Not c) = Never /\ simplify_or c (Not c) = Always /\ simplify_and (Not c) c = Never /\ simplify_or (Not c) c = Always).
  { intros c Hcc Hnc.
    assert (I1 : implies c (Not c) = false) by (apply implies_not_bigger; auto).
    assert (I2 : implies (Not c) c = false) by (apply not_implies_smaller; auto).
    unfold MatchModel.simplify_and, MatchModel.simplify_or. rewrite I1, I2, Hnc, !not_implies_not. cbn [MatchModel.negate].
    rewrite !orb_true_r. cbn. auto. }
  destruct s as [l| | |a b|a b|a]; cbn [const_free] in Hc; try contradiction.
  - cbn [MatchModel.negate]. destruct (lneg l) as [l'|] eqn:E.
    + destruct (Ho l l' E) as (H1 & H2 & H3). unfold MatchModel.simplify_and, MatchModel.simplify_or. cbn. rewrite E, H1, H2, H3. cbn. rewrite !Hi. auto.
    + destruct (K (Leaf l)) as (K1 & K2 & _); [exact I|cbn; rewrite E; reflexivity|]. auto.
  - destruct (K (And a b)) as (K1 & K2 & _); auto.
  - destruct (K (Or a b)) as (K1 & K2 & _); auto.
  - cbn [MatchModel.negate]. destruct (K a) as (_ & _ & K1 & K2); auto. destruct a; cbn in Hp |- *; auto; try contradiction. rewrite Hp. reflexivity.
Qed.
Lemma complement_fixed m : simplify (simplify m) = simplify m -> op_and m (op_not m) = Never /\ op_or m (op_not m) = Always.
Proof.
  intros Hf. rewrite op_not_simplified. unfold MatchModel.op_and, MatchModel.op_or. cbn [MatchModel.simplify].
  rewrite (negate_fixed (simplify m)); auto; [|apply simplify_proper].
  apply complement_core; [apply simplify_nrc|apply simplify_proper].
Qed.
End Stable.

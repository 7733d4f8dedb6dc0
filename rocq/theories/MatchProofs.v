(** Proofs about the match library model. *)
From Coq Require Import List Bool Arith Lia.
From Verif Require Import MatchModel MatchSpec.
Import ListNotations.

(** Soundness of [implies], with separate universes for the two sides. *)
Section Implies.
Context {L E : Type}.
Variable sem : L -> E -> bool.
Variable leqb : L -> L -> bool.
Variable limpl : L -> L -> bool.
Variables U1 U2 : L -> Prop.
Hypothesis Heq : forall a b, leqb a b = true -> a = b.
Hypothesis Himpl : forall a b, U1 a -> U2 b -> limpl a b = true ->
  forall e, sem a e = true -> sem b e = true.
Notation meqb := (meqb L leqb).
Notation implies := (implies L leqb limpl).

Lemma meqb_eq x : forall y, meqb x y = true -> x = y.
Proof.
  induction x as [l| | |a IHa b IHb|a IHa b IHb|a IHa]; intros [l'| | |c d|c d|c]; cbn; try discriminate; auto.
  - intros H. f_equal. auto.
  - rewrite andb_true_iff. intros [H1 H2]. f_equal; auto.
  - rewrite andb_true_iff. intros [H1 H2]. f_equal; auto.
  - intros H. f_equal; auto.
Qed.

Lemma implies_unfold x y :
  implies x y =
    match y with
    | Always => true
    | _ =>
      match x with
      | Never => true
      | _ =>
        match y with
        | Or a b => implies x a || implies x b
        | _ =>
          match x with
          | And a b => implies a y || implies b y
          | Leaf p => match y with Leaf q => limpl p q | _ => false end
          | _ => meqb x y
          end
        end
      end
    end.
Proof. destruct x; destruct y; reflexivity. Qed.

Lemma implies_sound2 x : forall y, all_leaves U1 x -> all_leaves U2 y -> implies x y = true -> entails sem x y.
Proof.
  unfold entails.
  induction x as [l| | |a IHa b IHb|a IHa b IHb|a IHa];
    intros y; induction y as [l'| | |c IHc d IHd|c IHc d IHd|c IHc];
    rewrite implies_unfold; intros HU HV H e He;
    try reflexivity; try (cbn in He; discriminate He);
    match goal with
    | H : (implies _ _ || implies _ _) = true |- MatchSpec.eval _ (Or _ _) _ = true =>
        destruct HV as [HV1 HV2]; cbn; apply orb_true_iff in H as [H|H]; apply orb_true_iff;
        [left; apply IHc|right; apply IHd]; auto
    | H : (implies _ ?y || implies _ ?y) = true |- MatchSpec.eval _ ?y _ = true =>
        destruct HU as [HU1 HU2]; cbn [MatchSpec.eval] in He; apply andb_true_iff in He as [H1 H2];
        apply orb_true_iff in H as [H|H];
        [exact (IHa y HU1 HV H e H1) | exact (IHb y HU2 HV H e H2)]
    | H : limpl _ _ = true |- _ => exact (Himpl _ _ HU HV H e He)
    | H : meqb _ _ = true |- _ => apply meqb_eq in H; rewrite <- H; exact He
    | H : false = true |- _ => discriminate H
    end.
Qed.

End Implies.

Section Proofs.
Context {L E : Type}.
Variable sem : L -> E -> bool.
Variable leqb : L -> L -> bool.
Variable limpl : L -> L -> bool.
Variable lneg : L -> option L.
Variable U : L -> Prop.
Hypothesis T : truthful sem leqb limpl lneg U.

Notation mexpr := (mexpr L).
Notation eval := (eval sem).
Notation meqb := (meqb L leqb).
Notation implies := (implies L leqb limpl).
Notation negate := (negate L lneg).
Notation simplify := (simplify L leqb limpl lneg).
Notation allU := (all_leaves U).

Lemma implies_sound x : forall y, allU x -> allU y -> implies x y = true -> entails sem x y.
Proof. apply implies_sound2; apply T. Qed.

Lemma negate_eval m e : eval (negate m) e = negb (eval m e).
Proof.
  destruct m as [l| | |a b|a b|a]; cbn; auto.
  - destruct (lneg l) eqn:Hl; cbn; auto. eapply (t_neg _ _ _ _ _ T); eauto.
  - rewrite negb_involutive. reflexivity.
Qed.

Lemma negate_allU m : allU m -> allU (negate m).
Proof.
  destruct m as [l| | |a b|a b|a]; cbn; auto.
  destruct (lneg l) eqn:Hl; cbn; auto. intros. eapply (t_closed _ _ _ _ _ T); eauto.
Qed.

Lemma simplify_and_sound l r : allU l -> allU r ->
  allU (simplify_and L leqb limpl lneg l r) /\
  forall e, eval (simplify_and L leqb limpl lneg l r) e = eval l e && eval r e.
Proof.
  intros Hl Hr. unfold simplify_and, de_morgan_and.
  destruct (implies l r) eqn:H1.
  { split; auto. intros e. pose proof (implies_sound l r Hl Hr H1 e) as H.
    destruct (eval l e); cbn; auto. rewrite H; auto. }
  destruct (implies r l) eqn:H2.
  { split; auto. intros e. pose proof (implies_sound r l Hr Hl H2 e) as H.
    destruct (eval r e); cbn; rewrite ?andb_false_r; auto. rewrite H; auto. }
  destruct (implies l (negate r) || implies r (negate l)) eqn:H3.
  { split; [exact I|]. intros e. cbn. apply orb_true_iff in H3 as [H|H].
    - pose proof (implies_sound l (negate r) Hl (negate_allU r Hr) H e) as H'.
      rewrite negate_eval in H'.
      destruct (eval l e), (eval r e); cbn in *; auto.
      all: discriminate (H' eq_refl).
    - pose proof (implies_sound r (negate l) Hr (negate_allU l Hl) H e) as H'.
      rewrite negate_eval in H'. destruct (eval l e), (eval r e); cbn in *; auto.
      all: discriminate (H' eq_refl). }
  destruct (_ <? _).
  - split; [cbn; split; apply negate_allU; auto|].
    intros e. rewrite negate_eval. cbn. rewrite !negate_eval.
    destruct (eval l e), (eval r e); reflexivity.
  - split; cbn; auto.
Qed.

Lemma simplify_or_sound l r : allU l -> allU r ->
  allU (simplify_or L leqb limpl lneg l r) /\
  forall e, eval (simplify_or L leqb limpl lneg l r) e = eval l e || eval r e.
Proof.
  intros Hl Hr. unfold simplify_or, de_morgan_or.
  destruct (implies l r) eqn:H1.
  { split; auto. intros e. pose proof (implies_sound l r Hl Hr H1 e) as H.
    destruct (eval l e); cbn; auto. }
  destruct (implies r l) eqn:H2.
  { split; auto. intros e. pose proof (implies_sound r l Hr Hl H2 e) as H.
    destruct (eval r e); cbn; rewrite ?orb_false_r, ?orb_true_r; auto. }
  destruct (implies (negate l) r || implies (negate r) l) eqn:H3.
  { split; [exact I|]. intros e. cbn. apply orb_true_iff in H3 as [H|H].
    - pose proof (implies_sound (negate l) r (negate_allU l Hl) Hr H e) as H'.
      rewrite negate_eval in H'.
      destruct (eval l e), (eval r e); cbn in *; auto. symmetry; auto.
    - pose proof (implies_sound (negate r) l (negate_allU r Hr) Hl H e) as H'.
      rewrite negate_eval in H'. destruct (eval l e), (eval r e); cbn in *; auto.
      symmetry; auto. }
  destruct (_ <? _).
  - split; [cbn; split; apply negate_allU; auto|].
    intros e. rewrite negate_eval. cbn. rewrite !negate_eval.
    destruct (eval l e), (eval r e); reflexivity.
  - split; cbn; auto.
Qed.

Lemma simplify_not a :
  simplify (Not a) =
  match a with Always => Never | Never => Always | _ => negate (simplify a) end.
Proof. destruct a; reflexivity. Qed.

Lemma simplify_sound m : allU m -> allU (simplify m) /\ forall e, eval (simplify m) e = eval m e.
Proof.
  induction m as [l| | |a IHa b IHb|a IHa b IHb|a IHa]; intros HU; try (split; cbn; auto; fail).
  - destruct HU as [Ha Hb]. destruct (IHa Ha) as [Ua Ea]. destruct (IHb Hb) as [Ub Eb].
    change (simplify (And a b)) with (simplify_and L leqb limpl lneg (simplify a) (simplify b)).
    destruct (simplify_and_sound _ _ Ua Ub) as [HU1 HE1]. split; auto.
    intros e. rewrite HE1, Ea, Eb. reflexivity.
  - destruct HU as [Ha Hb]. destruct (IHa Ha) as [Ua Ea]. destruct (IHb Hb) as [Ub Eb].
    change (simplify (Or a b)) with (simplify_or L leqb limpl lneg (simplify a) (simplify b)).
    destruct (simplify_or_sound _ _ Ua Ub) as [HU1 HE1]. split; auto.
    intros e. rewrite HE1, Ea, Eb. reflexivity.
  - destruct (IHa HU) as [Ua Ea].
    assert (H : allU (negate (simplify a)) /\ (forall e, eval (negate (simplify a)) e = negb (eval a e))).
    { split; [apply negate_allU; auto|]. intros e. rewrite negate_eval, Ea. reflexivity. }
    rewrite simplify_not. destruct a; cbn in *; auto.
Qed.

Lemma op_and_sound a b : allU a -> allU b ->
  forall e, eval (op_and L leqb limpl lneg a b) e = eval a e && eval b e.
Proof. intros Ha Hb e. unfold op_and. exact (proj2 (simplify_sound (And a b) (conj Ha Hb)) e). Qed.
Lemma op_or_sound a b : allU a -> allU b ->
  forall e, eval (op_or L leqb limpl lneg a b) e = eval a e || eval b e.
Proof. intros Ha Hb e. unfold op_or. exact (proj2 (simplify_sound (Or a b) (conj Ha Hb)) e). Qed.
Lemma op_not_sound a : allU a ->
  forall e, eval (op_not L leqb limpl lneg a) e = negb (eval a e).
Proof.
  intros Ha e. unfold op_not.
  rewrite (proj2 (simplify_sound (negate a) (negate_allU _ Ha)) e). apply negate_eval.
Qed.

Lemma fold_and_eval ms : forall acc e,
  eval (fold_left And ms acc) e = eval acc e && forallb (fun m => eval m e) ms.
Proof.
  induction ms as [|m ms IH]; intros acc e; cbn; [rewrite andb_true_r; auto|].
  rewrite IH. cbn. rewrite andb_assoc. reflexivity.
Qed.
Lemma fold_or_eval ms : forall acc e,
  eval (fold_left Or ms acc) e = eval acc e || existsb (fun m => eval m e) ms.
Proof.
  induction ms as [|m ms IH]; intros acc e; cbn; [rewrite orb_false_r; auto|].
  rewrite IH. cbn. rewrite orb_assoc. reflexivity.
Qed.
Lemma fold_and_allU ms : forall acc, allU acc -> Forall allU ms -> allU (fold_left And ms acc).
Proof.
  induction ms as [|m ms IH]; intros acc Ha Hms; cbn; auto. inversion Hms; subst. apply IH; cbn; auto.
Qed.
Lemma fold_or_allU ms : forall acc, allU acc -> Forall allU ms -> allU (fold_left Or ms acc).
Proof.
  induction ms as [|m ms IH]; intros acc Ha Hms; cbn; auto. inversion Hms; subst. apply IH; cbn; auto.
Qed.

Lemma match_all_sound ms : Forall allU ms ->
  forall e, eval (match_all L leqb limpl lneg ms) e = forallb (fun m => eval m e) ms.
Proof.
  intros H e. unfold match_all.
  rewrite (proj2 (simplify_sound _ (fold_and_allU ms Always I H)) e), fold_and_eval. reflexivity.
Qed.
Lemma match_any_sound ms : Forall allU ms ->
  forall e, eval (match_any L leqb limpl lneg ms) e = existsb (fun m => eval m e) ms.
Proof.
  intros H e. unfold match_any.
  rewrite (proj2 (simplify_sound _ (fold_or_allU ms Never I H)) e), fold_or_eval. reflexivity.
Qed.

(** Ordering. *)
Lemma spaceship_sound a b : allU a -> allU b ->
  match spaceship L leqb limpl lneg a b with
  | Some Lt => entails sem a b
  | Some Gt => entails sem b a
  | Some Eq => same_meaning sem a b
  | None => True
  end.
Proof.
  intros Ha Hb. unfold spaceship.
  destruct (simplify_sound a Ha) as [Ua Ea]. destruct (simplify_sound b Hb) as [Ub Eb].
  destruct (implies (simplify a) (simplify b)) eqn:H1;
  destruct (implies (simplify b) (simplify a)) eqn:H2; auto.
  - pose proof (implies_sound _ _ Ua Ub H1) as P. pose proof (implies_sound _ _ Ub Ua H2) as Q.
    intros e. specialize (P e). specialize (Q e). rewrite Ea, Eb in *.
    destruct (eval a e), (eval b e); auto; symmetry; auto.
  - intros e He. pose proof (implies_sound _ _ Ua Ub H1 e) as P. rewrite Ea, Eb in P. auto.
  - intros e He. pose proof (implies_sound _ _ Ub Ua H2 e) as P. rewrite Ea, Eb in P. auto.
Qed.

End Proofs.

(** Facts needing no truthfulness. *)
Section Syntax.
Context {L : Type}.
Variable leqb : L -> L -> bool.
Variable limpl : L -> L -> bool.
Variable lneg : L -> option L.
Notation mexpr := (mexpr L).
Notation meqb := (meqb L leqb).
Notation implies := (implies L leqb limpl).
Notation negate := (negate L lneg).
Notation simplify := (simplify L leqb limpl lneg).

Lemma spaceship_antisym a b :
  spaceship L leqb limpl lneg b a = option_map CompOpp (spaceship L leqb limpl lneg a b).
Proof.
  unfold spaceship. destruct (implies (simplify a) _), (implies (simplify b) _); reflexivity.
Qed.

Lemma cost_negate m : cost (negate m) <= cost m + 1.
Proof. destruct m as [l| | |a b|a b|a]; cbn; try lia. destruct (lneg l); cbn; lia. Qed.

Lemma cost_pos (m : mexpr) : 1 <= cost m.
Proof. destruct m; cbn; lia. Qed.

Lemma cost_simplify_and l r : cost (simplify_and L leqb limpl lneg l r) <= cost l + cost r + 1.
Proof.
  unfold simplify_and, de_morgan_and. pose proof (cost_pos l). pose proof (cost_pos r).
  destruct (implies l r); [lia|]. destruct (implies r l); [lia|].
  destruct (_ || _); [cbn; lia|]. destruct (Nat.ltb_spec (cost (negate (Or (negate l) (negate r)))) (cost (And l r))); cbn in *; lia.
Qed.
Lemma cost_simplify_or l r : cost (simplify_or L leqb limpl lneg l r) <= cost l + cost r + 1.
Proof.
  unfold simplify_or, de_morgan_or. pose proof (cost_pos l). pose proof (cost_pos r).
  destruct (implies l r); [lia|]. destruct (implies r l); [lia|].
  destruct (_ || _); [cbn; lia|]. destruct (Nat.ltb_spec (cost (negate (And (negate l) (negate r)))) (cost (Or l r))); cbn in *; lia.
Qed.

Lemma cost_simplify m : cost (simplify m) <= cost m.
Proof.
  induction m as [l| | |a IHa b IHb|a IHa b IHb|a IHa]; try (cbn; lia).
  - cbn [cost simplify]. pose proof (cost_simplify_and (simplify a) (simplify b)).
    cbn. lia.
  - cbn [cost simplify]. pose proof (cost_simplify_or (simplify a) (simplify b)).
    cbn. lia.
  - rewrite simplify_not. pose proof (cost_negate (simplify a)).
    destruct a; cbn in *; lia.
Qed.

(** Constants. *)
Lemma negate_cf m : const_free m -> const_free (negate m).
Proof. destruct m as [l| | |a b|a b|a]; cbn; auto. destruct (lneg l); cbn; auto. Qed.
Lemma negate_nrc m : no_redundant_constants m -> no_redundant_constants (negate m).
Proof.
  unfold no_redundant_constants. intros [->|[->|H]]; cbn; auto.
  right; right. apply negate_cf; auto.
Qed.

(** A constant-free expression is never syntactically below [never], and
    [always] is below a constant-free expression never. *)
Lemma implies_never x : const_free x -> implies x Never = false.
Proof.
  induction x as [l| | |a IHa b IHb|a IHa b IHb|a IHa]; cbn; try tauto.
  intros [Ha Hb]. rewrite IHa, IHb; auto.
Qed.
Lemma always_implies y : const_free y -> implies Always y = false.
Proof.
  induction y as [l| | |a IHa b IHb|a IHa b IHb|a IHa]; cbn; try tauto.
  intros [Ha Hb]. cbn in *. rewrite IHa, IHb; auto.
Qed.
Lemma implies_always x : implies x Always = true.
Proof. destruct x; reflexivity. Qed.
Lemma never_implies y : implies Never y = true.
Proof. destruct y; reflexivity. Qed.

Lemma simplify_and_nrc l r : no_redundant_constants l -> no_redundant_constants r ->
  no_redundant_constants (simplify_and L leqb limpl lneg l r).
Proof.
  unfold no_redundant_constants at 1 2. intros Hl Hr.
  unfold simplify_and.
  destruct Hl as [->|[->|Hl]].
  - rewrite implies_always. destruct (implies Always r); [left; reflexivity|exact Hr].
  - rewrite never_implies. right; left; reflexivity.
  - destruct Hr as [->|[->|Hr]].
    + rewrite implies_always. right; right; auto.
    + rewrite (implies_never l Hl), never_implies. right; left; reflexivity.
    + destruct (implies l r); [right; right; auto|]. destruct (implies r l); [right; right; auto|].
      destruct (_ || _); [right; left; reflexivity|].
      unfold de_morgan_and. destruct (_ <? _); right; right; cbn; split; try apply negate_cf; auto.
Qed.
Lemma simplify_or_nrc l r : no_redundant_constants l -> no_redundant_constants r ->
  no_redundant_constants (simplify_or L leqb limpl lneg l r).
Proof.
  unfold no_redundant_constants at 1 2. intros Hl Hr.
  unfold simplify_or.
  destruct Hl as [->|[->|Hl]].
  - rewrite implies_always. destruct (implies Always r); [exact Hr|left; reflexivity].
  - rewrite never_implies. exact Hr.
  - destruct Hr as [->|[->|Hr]].
    + rewrite implies_always. left; auto.
    + rewrite (implies_never l Hl), never_implies. right; right; auto.
    + destruct (implies l r); [right; right; auto|]. destruct (implies r l); [right; right; auto|].
      destruct (_ || _); [left; reflexivity|].
      unfold de_morgan_or. destruct (_ <? _); right; right; cbn; split; try apply negate_cf; auto.
Qed.

Lemma simplify_nrc m : no_redundant_constants (simplify m).
Proof.
  induction m as [l| | |a IHa b IHb|a IHa b IHb|a IHa].
  - right; right; exact I.
  - left; reflexivity.
  - right; left; reflexivity.
  - apply simplify_and_nrc; auto.
  - apply simplify_or_nrc; auto.
  - rewrite simplify_not. pose proof (negate_nrc _ IHa) as H.
    destruct a; exact H.
Qed.
(** [X => X] as decided by the library: exactly when X is not compound. *)
Definition compound (m : mexpr) : bool := match m with And _ _ | Or _ _ => true | _ => false end.

Lemma meqb_cost x : forall y, meqb x y = true -> cost x = cost y.
Proof.
  induction x as [l| | |a IHa b IHb|a IHa b IHb|a IHa]; intros [l'| | |c d|c d|c]; cbn; try discriminate; auto.
  - rewrite andb_true_iff. intros [H1 H2]. rewrite (IHa _ H1), (IHb _ H2). reflexivity.
  - rewrite andb_true_iff. intros [H1 H2]. rewrite (IHa _ H1), (IHb _ H2). reflexivity.
Qed.
Lemma meqb_refl (Hr : forall a, leqb a a = true) x : meqb x x = true.
Proof. induction x; cbn; auto; rewrite ?IHx1, ?IHx2; auto. Qed.

Lemma implies_and_bigger x c d : const_free x -> cost x < cost (And c d) ->
  implies x (And c d) = false.
Proof.
  induction x as [l| | |a IHa b IHb|a IHa b IHb|a IHa]; cbn [const_free]; intros Hc Hs;
    try contradiction; rewrite implies_unfold; try reflexivity.
  cbn [cost] in *. rewrite IHa, IHb; cbn [cost]; try tauto; lia.
Qed.
Lemma implies_or_smaller y a b : const_free y -> cost y < cost (Or a b) ->
  implies (Or a b) y = false.
Proof.
  induction y as [l| | |c IHc d IHd|c IHc d IHd|c IHc]; cbn [const_free]; intros Hc Hs;
    try contradiction; rewrite implies_unfold; try reflexivity.
  cbn [cost] in *. rewrite IHc, IHd; cbn [cost]; try tauto; lia.
Qed.

Lemma implies_self (Hr : forall a, leqb a a = true) (Hi : forall a, limpl a a = true) m :
  no_redundant_constants m -> implies m m = negb (compound m).
Proof.
  intros [->|[->|Hc]]; try reflexivity.
  destruct m as [l| | |a b|a b|a]; cbn [const_free] in Hc; try tauto; rewrite implies_unfold; cbn [compound negb].
  - apply Hi.
  - rewrite !implies_and_bigger; cbn [cost]; try tauto; lia.
  - rewrite !implies_or_smaller; cbn [cost]; try tauto; lia.
  - apply (meqb_refl Hr (Not a)).
Qed.

Lemma spaceship_self (Hr : forall a, leqb a a = true) (Hi : forall a, limpl a a = true) m :
  spaceship L leqb limpl lneg m m = if compound (simplify m) then None else Some Eq.
Proof.
  unfold spaceship. rewrite (implies_self Hr Hi _ (simplify_nrc m)).
  destruct (compound (simplify m)); reflexivity.
Qed.

Lemma op_and_self (Hr : forall a, leqb a a = true) (Hi : forall a, limpl a a = true) m :
  compound (simplify m) = false ->
  op_and L leqb limpl lneg m m = simplify m /\ op_or L leqb limpl lneg m m = simplify m.
Proof.
  intros H. unfold op_and, op_or. cbn [MatchModel.simplify]. unfold simplify_and, simplify_or.
  rewrite (implies_self Hr Hi _ (simplify_nrc m)), H. cbn. auto.
Qed.


(** Sum of products. *)
Notation dnf := (dnf L lneg).

(** Fixed points of [sum_of_products]: expressions it leaves alone. *)
Fixpoint sopped (m : mexpr) : Prop :=
  match m with
  | Leaf _ | Always | Never => True
  | And a b => sopped a /\ sopped b /\
      match a with Or _ _ => False | _ => True end /\ match b with Or _ _ => False | _ => True end
  | Or a b => sopped a /\ sopped b
  | Not (And _ _) | Not (Or _ _) => False
  | Not _ => True
  end.

Lemma sopped_distr l r : sopped l -> match l with Or _ _ => False | _ => True end -> sopped r -> sopped (distr l r).
Proof.
  intros Hl Hno. induction r as [p| | |a IHa b IHb|a IHa b IHb|a IHa]; cbn; intros Hr; auto.
  destruct Hr; auto.
Qed.
Lemma sopped_dist l r : sopped l -> sopped r -> sopped (dist l r).
Proof.
  intros Hl Hr. induction l as [p| | |a IHa b IHb|a IHa b IHb|a IHa]; cbn [dist];
    try (apply sopped_distr; cbn; auto; fail).
  destruct Hl; cbn; auto.
Qed.
Lemma sopped_negate_leafy m :
  match m with And _ _ | Or _ _ | Not _ => False | _ => True end -> sopped (negate m).
Proof. destruct m as [l| | |a b|a b|a]; cbn; try tauto. destruct (lneg l); cbn; auto. Qed.

Lemma sopped_dnf m : forall pos, sopped (dnf pos m).
Proof.
  induction m as [l| | |a IHa b IHb|a IHa b IHb|a IHa]; intros [|]; cbn [MatchModel.dnf].
  1,3,4,5,6: exact I.
  - apply (sopped_negate_leafy (Leaf l) I).
  - apply sopped_dist; auto.
  - cbn; auto.
  - cbn; auto.
  - apply sopped_dist; auto.
  - destruct a; try exact I; apply (IHa false).
  - apply (IHa true).
Qed.

(** Monotonicity of fuel and agreement with the structural form. *)
Lemma sopF_mono n : forall n' m x, n <= n' -> sopF L lneg n m = Some x -> sopF L lneg n' m = Some x.
Proof.
  induction n as [|n IH]; intros n' m x Hle H; [discriminate|].
  destruct n' as [|n']; [lia|]. assert (Hn : n <= n') by lia.
  assert (IH' : forall m x, sopF L lneg n m = Some x -> sopF L lneg n' m = Some x) by (intros; eapply IH; eauto).
  cbn [sopF] in *.
  Ltac step IH' H :=
    match type of H with
    | match sopF _ _ ?k ?t with Some _ => _ | None => _ end = Some _ =>
        let E := fresh "E" in destruct (sopF _ _ k t) eqn:E; [rewrite (IH' _ _ E)|discriminate H]
    end.
  destruct m as [l| | |a b|a b|[l| | |a b|a b|a]]; try exact H.
  - step IH' H. step IH' H.
    destruct m as [l| | |c d|c d|c].
    all: try (destruct m0 as [l'| | |c' d'|c' d'|c']; try exact H; step IH' H; step IH' H; exact H).
  - step IH' H. step IH' H. exact H.
  - step IH' H. step IH' H. exact H.
  - step IH' H. step IH' H. apply IH'. exact H.
Qed.

Definition sop_to (m x : mexpr) : Prop := exists n, forall n', n <= n' -> sopF L lneg n' m = Some x.

Lemma sop_to_intro m x n : sopF L lneg n m = Some x -> sop_to m x.
Proof. intros H. exists n. intros. eapply sopF_mono; eauto. Qed.

Lemma sop_and_distr l r : sop_to l l -> match l with Or _ _ => False | _ => True end ->
  sopped r -> (forall s, sopped s -> cost s <= cost r -> sop_to s s) -> sop_to (And l r) (distr l r).
Proof.
  intros Hl Hno. induction r as [p| | |a IHa b IHb|a IHa b IHb|a IHa]; intros Hr Hs.
  all: try (destruct Hl as [n Hn]; destruct (Hs _ Hr (le_n _)) as [k Hk];
    apply (sop_to_intro _ _ (S (n + k))); cbn [sopF];
    rewrite (Hn (n+k)), (Hk (n+k)) by lia; destruct l; try reflexivity; contradiction).
  destruct Hr as [Hra Hrb].
  destruct IHa as [na Hna]; auto. { intros; apply Hs; auto. cbn. lia. }
  destruct IHb as [nb Hnb]; auto. { intros; apply Hs; auto. cbn. lia. }
  destruct Hl as [n Hn]. destruct (Hs (Or a b) (conj Hra Hrb) (le_n _)) as [k Hk].
  apply (sop_to_intro _ _ (S (n + k + na + nb))). cbn [sopF distr].
  rewrite (Hn (n+k+na+nb)), (Hk (n+k+na+nb)) by lia.
  rewrite (Hna (n+k+na+nb)), (Hnb (n+k+na+nb)) by lia.
  destruct l; try reflexivity; contradiction.
Qed.

Lemma sop_and_dist l : forall r, sopped l -> sopped r ->
  (forall s, sopped s -> cost s <= cost l + cost r -> sop_to s s) -> sop_to (And l r) (dist l r).
Proof.
  induction l as [p| | |a IHa b IHb|a IHa b IHb|a IHa]; intros r Hl Hr Hs; cbn [dist].
  all: try (apply sop_and_distr; [apply Hs; auto; lia|exact I|auto|intros; apply Hs; auto; lia]).
  destruct Hl as [Hla Hlb].
  destruct (IHa r) as [na Hna]; auto. { intros; apply Hs; auto. cbn. lia. }
  destruct (IHb r) as [nb Hnb]; auto. { intros; apply Hs; auto. cbn. lia. }
  destruct (Hs (Or a b) (conj Hla Hlb)) as [n Hn]. { cbn; lia. }
  destruct (Hs r Hr) as [k Hk]; [lia|].
  apply (sop_to_intro _ _ (S (n + k + na + nb))). cbn [sopF].
  rewrite (Hn (n+k+na+nb)), (Hk (n+k+na+nb)) by lia.
  rewrite (Hna (n+k+na+nb)), (Hnb (n+k+na+nb)) by lia. reflexivity.
Qed.

Lemma sop_fix m : sopped m -> sop_to m m.
Proof.
  remember (cost m) as k eqn:Hk. revert m Hk.
  induction k as [k IH] using lt_wf_ind. intros m Hk Hm.
  destruct m as [l| | |a b|a b|a].
  1-3: exists 1; intros [|n'] Hn; [lia|reflexivity].
  - destruct Hm as (Ha & Hb & Hna & Hnb).
    destruct (IH (cost a)) with (m := a) as [n Hn]; auto. { subst; cbn; lia. }
    destruct (IH (cost b)) with (m := b) as [n2 Hn2]; auto. { subst; cbn; lia. }
    apply (sop_to_intro _ _ (S (n + n2))). cbn [sopF].
    rewrite (Hn (n+n2)), (Hn2 (n+n2)) by lia. destruct a, b; try reflexivity; contradiction.
  - destruct Hm as (Ha & Hb).
    destruct (IH (cost a)) with (m := a) as [n Hn]; auto. { subst; cbn; lia. }
    destruct (IH (cost b)) with (m := b) as [n2 Hn2]; auto. { subst; cbn; lia. }
    apply (sop_to_intro _ _ (S (n + n2))). cbn [sopF].
    rewrite (Hn (n+n2)), (Hn2 (n+n2)) by lia. reflexivity.
  - exists 1; intros [|n'] Hn; [lia|]. destruct a; try reflexivity; contradiction.
Qed.

Lemma sop_dnf_pol m : sop_to m (dnf true m) /\ sop_to (negate m) (dnf false m).
Proof.
  induction m as [l| | |a [IHa IHa'] b [IHb IHb']|a [IHa IHa'] b [IHb IHb']|a [IHa IHa']].
  - split; [apply sop_fix; exact I|]. cbn [MatchModel.dnf]. apply sop_fix. apply sopped_negate_leafy. exact I.
  - split; apply sop_fix; exact I.
  - split; apply sop_fix; exact I.
  - split.
    + destruct IHa as [n Hn], IHb as [k Hk].
      pose proof (sopped_dnf a true) as Sa. pose proof (sopped_dnf b true) as Sb.
      destruct (sop_and_dist (dnf true a) (dnf true b) Sa Sb) as [j Hj]; [intros; apply sop_fix; auto|].
      (* unfold one step: same shape as And (dnf a) (dnf b) *)
      destruct (sop_fix _ Sa) as [u Hu]. destruct (sop_fix _ Sb) as [v Hv].
      apply (sop_to_intro _ _ (S (n+k+j+u+v))).
      specialize (Hj (S (n+k+j+u+v))).
      cbn [MatchModel.dnf]. rewrite <- Hj by lia. cbn [sopF].
      rewrite (Hn (n+k+j+u+v)), (Hk (n+k+j+u+v)), (Hu (n+k+j+u+v)), (Hv (n+k+j+u+v)) by lia.
      reflexivity.
    + destruct IHa' as [n Hn], IHb' as [k Hk]. cbn [MatchModel.dnf MatchModel.negate].
      apply (sop_to_intro _ _ (S (n+k))). cbn [sopF].
      rewrite (Hn (n+k)), (Hk (n+k)) by lia. reflexivity.
  - split.
    + destruct IHa as [n Hn], IHb as [k Hk]. cbn [MatchModel.dnf].
      apply (sop_to_intro _ _ (S (n+k))). cbn [sopF].
      rewrite (Hn (n+k)), (Hk (n+k)) by lia. reflexivity.
    + destruct IHa' as [n Hn], IHb' as [k Hk]. cbn [MatchModel.dnf MatchModel.negate].
      pose proof (sopped_dnf a false) as Sa. pose proof (sopped_dnf b false) as Sb.
      destruct (sop_and_dist (dnf false a) (dnf false b) Sa Sb) as [j Hj]; [intros; apply sop_fix; auto|].
      apply (sop_to_intro _ _ (S (n+k+j))). cbn [sopF].
      rewrite (Hn (n+k+j)), (Hk (n+k+j)) by lia. apply Hj. lia.
  - split.
    + cbn [MatchModel.dnf]. destruct a as [l| | |c d|c d|c]; try (apply sop_fix; exact I).
      * exact IHa'.
      * exact IHa'.
    + cbn [MatchModel.dnf MatchModel.negate]. exact IHa.
Qed.

Lemma sopF_dnf m : exists n, forall n', n <= n' -> sopF L lneg n' m = Some (sum_of_products L lneg m).
Proof. exact (proj1 (sop_dnf_pol m)). Qed.

(** Shape. *)
Lemma distr_shape (l r : mexpr) : is_product l -> is_sum_of_products r -> is_sum_of_products (distr l r).
Proof.
  intros Hl. induction r as [p| | |a IHa b IHb|a IHa b IHb|a IHa]; cbn [distr]; intros Hr; cbn; auto.
  destruct Hr; split; auto.
Qed.
Lemma dist_shape (l r : mexpr) : is_sum_of_products l -> is_sum_of_products r -> is_sum_of_products (dist l r).
Proof.
  induction l as [p| | |a IHa b IHb|a IHa b IHb|a IHa]; cbn [dist]; intros Hl Hr;
    try (apply distr_shape; auto; fail).
  destruct Hl; cbn; auto.
Qed.

Lemma no_double_neg_not (a : mexpr) : no_double_neg (Not a) -> no_double_neg a.
Proof. destruct a; cbn; tauto. Qed.

Lemma dnf_shape m : no_double_neg m -> forall pos, is_sum_of_products (dnf pos m).
Proof.
  induction m as [l| | |a IHa b IHb|a IHa b IHb|a IHa]; intros Hm [|]; cbn [MatchModel.dnf];
    try exact I; try (destruct Hm; try (apply dist_shape; auto); cbn; auto; fail).
  - cbn. destruct (lneg l); exact I.
  - pose proof (IHa (no_double_neg_not _ Hm)) as H.
    destruct a as [l| | |c d|c d|c]; try exact I; try exact (H false). contradiction.
  - exact (IHa (no_double_neg_not _ Hm) true).
Qed.
End Syntax.

Section SopSem.
Context {L E : Type}.
Variable sem : L -> E -> bool.
Variable lneg : L -> option L.
Hypothesis Hneg : forall a b, lneg a = Some b -> forall e, sem b e = negb (sem a e).
Notation eval := (eval sem).

Lemma distr_eval l r e : eval (distr l r) e = eval l e && eval r e.
Proof.
  induction r as [p| | |a IHa b IHb|a IHa b IHb|a IHa]; cbn; auto.
  rewrite IHa, IHb. destruct (eval l e); reflexivity.
Qed.
Lemma dist_eval l r e : eval (dist l r) e = eval l e && eval r e.
Proof.
  induction l as [p| | |a IHa b IHb|a IHa b IHb|a IHa]; cbn [dist]; try apply distr_eval.
  cbn. rewrite IHa, IHb. destruct (eval a e), (eval b e), (eval r e); reflexivity.
Qed.
Lemma negate_eval' m e : eval (negate L lneg m) e = negb (eval m e).
Proof.
  destruct m as [l| | |a b|a b|a]; cbn; auto.
  - destruct (lneg l) eqn:Hl; cbn; auto.
  - rewrite negb_involutive. reflexivity.
Qed.
Lemma dnf_eval m : forall pos e, eval (dnf L lneg pos m) e = if pos then eval m e else negb (eval m e).
Proof.
  induction m as [l| | |a IHa b IHb|a IHa b IHb|a IHa]; intros [|] e; cbn [dnf];
    try reflexivity; try (rewrite dist_eval, IHa, IHb); try (cbn [MatchSpec.eval]; rewrite IHa, IHb).
  - apply negate_eval'.
  - reflexivity.
  - cbn. destruct (eval a e), (eval b e); reflexivity.
  - reflexivity.
  - cbn. destruct (eval a e), (eval b e); reflexivity.
  - destruct a; try reflexivity; rewrite IHa; reflexivity.
  - rewrite IHa. cbn. rewrite negb_involutive. reflexivity.
Qed.
Lemma sop_eval m e : eval (sum_of_products L lneg m) e = eval m e.
Proof. exact (dnf_eval m true e). Qed.
End SopSem.

(** Negation-free expressions: soundness needs truthful implications only
    between positive leaves and (negated) positive leaves. *)
Section Positive.
Context {L E : Type}.
Variable sem : L -> E -> bool.
Variable leqb : L -> L -> bool.
Variable limpl : L -> L -> bool.
Variable lneg : L -> option L.
Variable P : L -> Prop.
Definition PN (l : L) : Prop := P l \/ exists p, P p /\ lneg p = Some l.
Hypothesis Heq : forall a b, leqb a b = true -> a = b.
Hypothesis Hpn : forall a b, P a -> PN b -> limpl a b = true -> forall e, sem a e = true -> sem b e = true.
Hypothesis Hnp : forall a b, PN a -> P b -> limpl a b = true -> forall e, sem a e = true -> sem b e = true.
Hypothesis Hneg : forall a b, lneg a = Some b -> forall e, sem b e = negb (sem a e).
Notation eval := (eval sem).
Notation implies := (implies L leqb limpl).
Notation negate := (negate L lneg).
Notation simplify := (simplify L leqb limpl lneg).

Fixpoint positive (m : mexpr L) : Prop :=
  match m with
  | Leaf l => P l
  | Always | Never => True
  | And a b | Or a b => positive a /\ positive b
  | Not _ => False
  end.

Lemma positive_P m : positive m -> all_leaves P m.
Proof. induction m; cbn; tauto. Qed.
Lemma all_leaves_mono (A B : L -> Prop) m : (forall l, A l -> B l) -> all_leaves A m -> all_leaves B m.
Proof. intros H. induction m; cbn; auto; tauto. Qed.
Lemma negate_PN m : positive m -> all_leaves PN (negate m).
Proof.
  intros H. pose proof (positive_P m H) as HP.
  destruct m as [l| | |a b|a b|a]; cbn in *; auto; try contradiction.
  - destruct (lneg l) eqn:E1; cbn; [right|left]; eauto.
  - split; (eapply all_leaves_mono; [|apply HP]); left; auto.
  - split; (eapply all_leaves_mono; [|apply HP]); left; auto.
Qed.
Lemma cost_negate_pos m : positive m -> cost m <= cost (negate m).
Proof.
  destruct m as [l| | |a b|a b|a]; cbn; try lia; try contradiction. destruct (lneg l); cbn; lia.
Qed.

Lemma simplify_positive_sound m : positive m ->
  positive (simplify m) /\ forall e, eval (simplify m) e = eval m e.
Proof.
  assert (Hne : forall m e, eval (negate m) e = negb (eval m e)) by (intros; apply negate_eval'; auto).
  assert (HS1 : forall x y, positive x -> all_leaves PN y -> implies x y = true -> entails sem x y).
  { intros x y Hx Hy H. eapply (implies_sound2 sem leqb limpl P PN); eauto. apply positive_P; auto. }
  assert (HS2 : forall x y, all_leaves PN x -> positive y -> implies x y = true -> entails sem x y).
  { intros x y Hx Hy H. eapply (implies_sound2 sem leqb limpl PN P); eauto. apply positive_P; auto. }
  assert (HPN : forall x, positive x -> all_leaves PN x).
  { intros x Hx. eapply all_leaves_mono; [|apply positive_P; auto]. left; auto. }
  induction m as [l| | |a IHa b IHb|a IHa b IHb|a IHa]; intros HU; try (split; cbn; auto; fail); try contradiction.
  - destruct HU as [Ha Hb]. destruct (IHa Ha) as [Ua Ea]. destruct (IHb Hb) as [Ub Eb].
    change (simplify (And a b)) with (simplify_and L leqb limpl lneg (simplify a) (simplify b)).
    cbn [MatchSpec.eval]. set (l := simplify a) in *. set (r := simplify b) in *.
    assert (HE : forall e, eval a e && eval b e = eval l e && eval r e) by (intros; rewrite Ea, Eb; auto).
    unfold simplify_and.
    destruct (implies l r) eqn:H1.
    { split; auto. intros e. rewrite HE. pose proof (HS1 l r Ua (HPN _ Ub) H1 e) as H.
      destruct (eval l e); cbn; auto. rewrite H; auto. }
    destruct (implies r l) eqn:H2.
    { split; auto. intros e. rewrite HE. pose proof (HS1 r l Ub (HPN _ Ua) H2 e) as H.
      destruct (eval r e); cbn; rewrite ?andb_false_r; auto. rewrite H; auto. }
    destruct (implies l (negate r) || implies r (negate l)) eqn:H3.
    { split; [exact I|]. intros e. rewrite HE. cbn. apply orb_true_iff in H3 as [H|H].
      - pose proof (HS1 l (negate r) Ua (negate_PN _ Ub) H e) as H'. rewrite Hne in H'.
        destruct (eval l e), (eval r e); cbn in *; auto.
      - pose proof (HS1 r (negate l) Ub (negate_PN _ Ua) H e) as H'. rewrite Hne in H'.
        destruct (eval l e), (eval r e); cbn in *; auto. }
    unfold de_morgan_and. pose proof (cost_negate_pos l Ua). pose proof (cost_negate_pos r Ub).
    destruct (Nat.ltb_spec (cost (negate (Or (negate l) (negate r)))) (cost (And l r))) as [Hc|Hc];
      [cbn in Hc; lia|]. split; [split; auto|]. intros e. rewrite HE. reflexivity.
  - destruct HU as [Ha Hb]. destruct (IHa Ha) as [Ua Ea]. destruct (IHb Hb) as [Ub Eb].
    change (simplify (Or a b)) with (simplify_or L leqb limpl lneg (simplify a) (simplify b)).
    cbn [MatchSpec.eval]. set (l := simplify a) in *. set (r := simplify b) in *.
    assert (HE : forall e, eval a e || eval b e = eval l e || eval r e) by (intros; rewrite Ea, Eb; auto).
    unfold simplify_or.
    destruct (implies l r) eqn:H1.
    { split; auto. intros e. rewrite HE. pose proof (HS1 l r Ua (HPN _ Ub) H1 e) as H.
      destruct (eval l e); cbn; auto. }
    destruct (implies r l) eqn:H2.
    { split; auto. intros e. rewrite HE. pose proof (HS1 r l Ub (HPN _ Ua) H2 e) as H.
      destruct (eval r e); cbn; rewrite ?orb_false_r, ?orb_true_r; auto. }
    destruct (implies (negate l) r || implies (negate r) l) eqn:H3.
    { split; [exact I|]. intros e. rewrite HE. cbn. apply orb_true_iff in H3 as [H|H].
      - pose proof (HS2 (negate l) r (negate_PN _ Ua) Ub H e) as H'. rewrite Hne in H'.
        destruct (eval l e), (eval r e); cbn in *; auto. symmetry; auto.
      - pose proof (HS2 (negate r) l (negate_PN _ Ub) Ua H e) as H'. rewrite Hne in H'.
        destruct (eval l e), (eval r e); cbn in *; auto. symmetry; auto. }
    unfold de_morgan_or. pose proof (cost_negate_pos l Ua). pose proof (cost_negate_pos r Ub).
    destruct (Nat.ltb_spec (cost (negate (And (negate l) (negate r)))) (cost (Or l r))) as [Hc|Hc];
      [cbn in Hc; lia|]. split; [split; auto|]. intros e. rewrite HE. reflexivity.
Qed.
End Positive.

Section OpsCost.
Context {L : Type}.
Variable leqb : L -> L -> bool.
Variable limpl : L -> L -> bool.
Variable lneg : L -> option L.
Lemma cost_op_not (a : mexpr L) : cost (op_not L leqb limpl lneg a) <= cost (Not a).
Proof.
  unfold op_not. pose proof (cost_simplify leqb limpl lneg (negate L lneg a)).
  pose proof (cost_negate lneg a). cbn. lia.
Qed.
Lemma ops_cost : 
  (forall m : mexpr L, cost (simplify L leqb limpl lneg m) <= cost m) /\
  (forall a b, cost (op_and L leqb limpl lneg a b) <= cost (And a b)) /\
  (forall a b, cost (op_or L leqb limpl lneg a b) <= cost (Or a b)) /\
  (forall a, cost (op_not L leqb limpl lneg a) <= cost (Not a)) /\
  (forall ms, cost (match_all L leqb limpl lneg ms) <= cost (fold_left And ms Always)) /\
  (forall ms, cost (match_any L leqb limpl lneg ms) <= cost (fold_left Or ms Never)).
Proof.
  repeat split; intros; try apply cost_op_not; apply (cost_simplify leqb limpl lneg).
Qed.
End OpsCost.

Section OpsSound.
Context {L E : Type}.
Variable sem : L -> E -> bool.
Variable leqb : L -> L -> bool.
Variable limpl : L -> L -> bool.
Variable lneg : L -> option L.
Variable U : L -> Prop.
Hypothesis T : truthful sem leqb limpl lneg U.
Notation ok := (all_leaves U).
Lemma ops_sound :
  (forall m, ok m -> same_meaning sem (simplify L leqb limpl lneg m) m) /\
  (forall a b, ok a -> ok b -> same_meaning sem (op_and L leqb limpl lneg a b) (And a b)) /\
  (forall a b, ok a -> ok b -> same_meaning sem (op_or L leqb limpl lneg a b) (Or a b)) /\
  (forall a, ok a -> same_meaning sem (op_not L leqb limpl lneg a) (Not a)) /\
  (forall ms, Forall ok ms -> forall e,
     eval sem (match_all L leqb limpl lneg ms) e = forallb (fun m => eval sem m e) ms) /\
  (forall ms, Forall ok ms -> forall e,
     eval sem (match_any L leqb limpl lneg ms) e = existsb (fun m => eval sem m e) ms).
Proof.
  repeat split; intros.
  - intros e. eapply (simplify_sound sem leqb limpl lneg U T); auto.
  - intros e. eapply (op_and_sound sem leqb limpl lneg U T); auto.
  - intros e. eapply (op_or_sound sem leqb limpl lneg U T); auto.
  - intros e. eapply (op_not_sound sem leqb limpl lneg U T); auto.
  - eapply (match_all_sound sem leqb limpl lneg U T); auto.
  - eapply (match_any_sound sem leqb limpl lneg U T); auto.
Qed.
End OpsSound.

(** The documented simplification laws. *)
Section Laws.
Context {L : Type}.
Variable leqb : L -> L -> bool.
Variable limpl : L -> L -> bool.
Variable lneg : L -> option L.
Hypothesis Hr : forall a, leqb a a = true.
Hypothesis Hi : forall a, limpl a a = true.
Notation op_and := (op_and L leqb limpl lneg).
Notation op_or := (op_or L leqb limpl lneg).
Notation op_not := (op_not L leqb limpl lneg).
Notation simplify := (simplify L leqb limpl lneg).
Notation implies := (implies L leqb limpl).

Lemma implies_always_nrc r : no_redundant_constants r -> implies Always r = true -> r = Always.
Proof.
  intros [->|[->|H]]; auto; [discriminate|]. rewrite (always_implies leqb limpl lneg r H). discriminate.
Qed.
Lemma implies_never_nrc l : no_redundant_constants l -> implies l Never = true -> l = Never.
Proof.
  intros [->|[->|H]]; auto; [discriminate|]. rewrite (implies_never leqb limpl lneg l H). discriminate.
Qed.

Lemma identity_laws m :
  op_and m Always = simplify m /\ op_and Always m = simplify m /\
  op_or m Never = simplify m /\ op_or Never m = simplify m /\
  op_and m Never = Never /\ op_and Never m = Never /\
  op_or m Always = Always /\ op_or Always m = Always.
Proof.
  pose proof (simplify_nrc leqb limpl lneg m) as N.
  unfold MatchModel.op_and, MatchModel.op_or; cbn [MatchModel.simplify].
  unfold simplify_and, simplify_or. set (s := simplify m) in *.
  rewrite !(implies_always leqb limpl), !(never_implies leqb limpl).
  repeat split; auto.
  - destruct (implies Always s) eqn:H; auto. apply implies_always_nrc in H; auto.
  - destruct (implies s Never) eqn:H; auto. apply implies_never_nrc in H; auto.
  - destruct (implies s Never) eqn:H; auto. apply implies_never_nrc in H; auto.
  - destruct (implies Always s) eqn:H; auto. apply implies_always_nrc in H; auto.
Qed.

Lemma complement_laws l :
  (forall l', lneg l = Some l' -> lneg l' = Some l /\ limpl l l' = false /\ limpl l' l = false) ->
  op_and (Leaf l) (op_not (Leaf l)) = Never /\ op_or (Leaf l) (op_not (Leaf l)) = Always /\
  op_not (op_not (Leaf l)) = Leaf l.
Proof.
  intros H. unfold MatchModel.op_and, MatchModel.op_or, MatchModel.op_not.
  destruct (lneg l) as [l'|] eqn:E.
  - destruct (H l' eq_refl) as (H1 & H2 & H3). cbn. rewrite E. cbn. unfold simplify_and, simplify_or.
    cbn. rewrite ?E, ?H1, ?H2, ?H3. cbn. rewrite ?Hi. auto.
  - repeat (cbn; unfold simplify_and, simplify_or; rewrite ?E). rewrite ?Hr, ?Hi. auto.
Qed.

Lemma demorgan_law a b : lneg a = None -> lneg b = None -> leqb a b = false -> leqb b a = false ->
  limpl a b = false -> limpl b a = false ->
  op_and (op_not (Leaf a)) (op_not (Leaf b)) = Not (Or (Leaf a) (Leaf b)).
Proof.
  intros Ea Eb H1 H2 H3 H4. unfold MatchModel.op_and, MatchModel.op_not.
  repeat (cbn; unfold simplify_and, de_morgan_and; rewrite ?Ea, ?Eb, ?H1, ?H2). reflexivity.
Qed.

Lemma absorption_law a b : simplify (Or (Leaf a) (And (Leaf a) b)) = Leaf a.
Proof.
  cbn [MatchModel.simplify]. set (s := simplify b). unfold simplify_and.
  destruct (implies (Leaf a) s) eqn:H1.
  { unfold simplify_or. cbn. rewrite Hi. reflexivity. }
  destruct (implies s (Leaf a)) eqn:H2.
  { unfold simplify_or. rewrite H1, H2. reflexivity. }
  destruct (_ || _).
  { unfold simplify_or. reflexivity. }
  assert (Hc : de_morgan_and L lneg (Leaf a) s = And (Leaf a) s).
  { unfold de_morgan_and. destruct (Nat.ltb_spec (cost (negate L lneg (Or (negate L lneg (Leaf a)) (negate L lneg s))))
      (cost (And (Leaf a) s))) as [H|H]; auto. exfalso. cbn [MatchModel.negate cost] in H.
    assert (cost s <= cost (MatchModel.negate L lneg s) + 1).
    { destruct s as [x| | |x y|x y|x]; cbn; try lia. }
    destruct (lneg a); cbn in H; lia. }
  rewrite Hc. unfold simplify_or. cbn. rewrite Hi. reflexivity.
Qed.
End Laws.

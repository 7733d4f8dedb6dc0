From Coq Require Import String Ascii Bool List ZArith Lia.
From Verif Require Import MatchModel MatchSpec FieldMatchersModel DescribeModel DescribeSpec.
Import ListNotations.
Local Open Scope string_scope.

Scheme says_mind := Minimality for says Sort Prop
with chain_mind := Minimality for chain Sort Prop.
Combined Scheme says_chain_ind from says_mind, chain_mind.

Lemma app_nil_r (s : string) : s ++ "" = s.
Proof. induction s as [|a s IH]; [reflexivity|]. cbn. now rewrite IH. Qed.
Lemma app_assoc (a b c : string) : (a ++ b) ++ c = a ++ b ++ c.
Proof. induction a as [|x a IH]; [reflexivity|]. cbn. now rewrite IH. Qed.
Lemma app_inv_head (a b c : string) : a ++ b = a ++ c -> b = c.
Proof. induction a as [|x a IH]; cbn; [tauto|]. intros [= H]. auto. Qed.

(** ** Reading *)
Lemma truth_assoc c x y z : truth c (truth c x y) z = truth c x (truth c y z).
Proof. destruct c, x, y, z; reflexivity. Qed.
Lemma chain_app v c s b t d : chain v c s b -> chain v c t d -> chain v c (s ++ word c ++ t) (truth c b d).
Proof.
  intros H. revert t d. induction H as [c s b Hs|c s b t' d' Hs Ht IH]; intros t d H2.
  - replace (("(" ++ s ++ ")") ++ word c ++ t) with ("(" ++ s ++ ")" ++ word c ++ t) by (cbn; now rewrite app_assoc).
    now apply chain_more.
  - replace (("(" ++ s ++ ")" ++ word c ++ t') ++ word c ++ t) with ("(" ++ s ++ ")" ++ word c ++ (t' ++ word c ++ t))
      by (rewrite !app_assoc; reflexivity).
    rewrite truth_assoc. apply chain_more; auto.
Qed.
Lemma chain_says v c s b t d : chain v c s b -> chain v c t d -> says v (s ++ word c ++ t) (truth c b d).
Proof.
  intros H H2. assert (H3 := chain_app _ _ _ _ _ _ H H2). inversion H; subst.
  - replace (("(" ++ s0 ++ ")") ++ word c ++ t) with ("(" ++ s0 ++ ")" ++ word c ++ t) by (cbn; now rewrite app_assoc).
    now apply says_chain.
  - replace (("(" ++ s0 ++ ")" ++ word c ++ t0) ++ word c ++ t) with ("(" ++ s0 ++ ")" ++ word c ++ (t0 ++ word c ++ t))
      by (rewrite !app_assoc; reflexivity).
    rewrite truth_assoc. apply says_chain; [assumption|]. now apply chain_app.
Qed.

Section Reads.
Context {L E : Type}.
Variables (sem : L -> E -> bool) (text : L -> string) (v : string -> bool -> Prop) (e : E).
Lemma describe_reads (m : mexpr L) :
  all_leaves (fun l => v (text l) (sem l e)) m ->
  says v (describe text m) (eval sem m e) /\
  (is_and m = true -> chain v Conj (describe text m) (eval sem m e)) /\
  (is_or m = true -> chain v Disj (describe text m) (eval sem m e)).
Proof.
  induction m as [l| | |a IHa b IHb|a IHa b IHb|a IHa]; cbn [all_leaves describe eval is_and is_or]; intros H.
  - split; [now apply says_leaf|]. split; discriminate.
  - split; [apply says_true|]. split; discriminate.
  - split; [apply says_false|]. split; discriminate.
  - destruct H as [Ha Hb]. destruct (IHa Ha) as (A1 & A2 & _), (IHb Hb) as (B1 & B2 & _).
    assert (CA : chain v Conj (operand (is_and a) (describe text a)) (eval sem a e)).
    { unfold operand. destruct (is_and a); [auto|now apply chain_one]. }
    assert (CB : chain v Conj (operand (is_and b) (describe text b)) (eval sem b e)).
    { unfold operand. destruct (is_and b); [auto|now apply chain_one]. }
    split; [exact (chain_says _ Conj _ _ _ _ CA CB)|]. split; [intros _; exact (chain_app _ Conj _ _ _ _ CA CB)|discriminate].
  - destruct H as [Ha Hb]. destruct (IHa Ha) as (A1 & _ & A2), (IHb Hb) as (B1 & _ & B2).
    assert (CA : chain v Disj (operand (is_or a) (describe text a)) (eval sem a e)).
    { unfold operand. destruct (is_or a); [auto|now apply chain_one]. }
    assert (CB : chain v Disj (operand (is_or b) (describe text b)) (eval sem b e)).
    { unfold operand. destruct (is_or b); [auto|now apply chain_one]. }
    split; [exact (chain_says _ Disj _ _ _ _ CA CB)|]. split; [discriminate|intros _; exact (chain_app _ Disj _ _ _ _ CA CB)].
  - destruct (IHa H) as (A1 & _). split; [now apply says_not|]. split; discriminate.
Qed.
End Reads.

(** ** The reading is unique *)
(** The text up to the first closing parenthesis that was not opened. *)
Fixpoint close (d : nat) (s : string) : option (string * string) :=
  match s with
  | EmptyString => None
  | String a r =>
    if Ascii.eqb a "(" then option_map (fun p => (String a (fst p), snd p)) (close (S d) r)
    else if Ascii.eqb a ")" then
      match d with O => Some ("", r) | S d' => option_map (fun p => (String a (fst p), snd p)) (close d' r) end
    else option_map (fun p => (String a (fst p), snd p)) (close d r)
  end.
Lemma close_balanced s : balanced s -> forall d x, close d (s ++ x) = option_map (fun p => (s ++ fst p, snd p)) (close d x).
Proof.
  induction 1 as [|a s N1 N2 _ IH|s t _ IHs _ IHt]; intros d x.
  - cbn. now destruct (close d x) as [[]|].
  - cbn. destruct (Ascii.eqb_spec a "("); [contradiction|]. destruct (Ascii.eqb_spec a ")"); [contradiction|].
    rewrite IH. now destruct (close d x) as [[]|].
  - change (("(" ++ s ++ ")" ++ t) ++ x) with (String "(" ((s ++ ")" ++ t) ++ x)).
    rewrite app_assoc. cbn [close Ascii.eqb]. change (Ascii.eqb "(" "(") with true. cbv iota.
    rewrite IHs. change ((")" ++ t) ++ x) with (String ")" (t ++ x)). cbn [close].
    change (Ascii.eqb ")" "(") with false. change (Ascii.eqb ")" ")") with true. cbv iota.
    rewrite IHt. destruct (close d x) as [[p q]|]; [|reflexivity]. cbn. rewrite app_assoc. reflexivity.
Qed.
Lemma close_here s x : balanced s -> close 0 (s ++ ")" ++ x) = Some (s, x).
Proof. intros H. rewrite close_balanced by exact H. cbn. now rewrite app_nil_r. Qed.
Lemma paren_inj s t x y : balanced s -> balanced t -> s ++ ")" ++ x = t ++ ")" ++ y -> s = t /\ x = y.
Proof.
  intros Hs Ht E. assert (A := close_here s x Hs). rewrite E, close_here in A by exact Ht.
  injection A as -> ->. auto.
Qed.
Lemma balanced_app s t : balanced s -> balanced t -> balanced (s ++ t).
Proof.
  induction 1 as [|a s N1 N2 _ IH|s u Hs IHs Hu IHu]; intros H; cbn; auto.
  - apply bal_char; auto.
  - rewrite app_assoc. change (String "(" (s ++ (")" ++ u) ++ t)) with ("(" ++ s ++ ")" ++ (u ++ t)). apply bal_paren; auto.
Qed.
Lemma balanced_word c : balanced (word c).
Proof. destruct c; cbn; repeat first [apply bal_nil | apply bal_char; [discriminate|discriminate|]]. Qed.
Lemma balanced_paren s : balanced s -> balanced ("(" ++ s ++ ")").
Proof. intros H. exact (bal_paren s "" H bal_nil). Qed.

Ltac strip E := cbn in E; repeat (injection E as E).
Section Unique.
Variable v : string -> bool -> Prop.
Hypothesis K : knows v.
Lemma says_balanced : (forall s b, says v s b -> balanced s) /\ (forall c s b, chain v c s b -> balanced s).
Proof.
  apply says_chain_ind.
  - intros s b H. now apply (proj1 K) in H as [? _].
  - repeat first [apply bal_nil | apply bal_char; [discriminate|discriminate|]].
  - repeat first [apply bal_nil | apply bal_char; [discriminate|discriminate|]].
  - intros s b _ IH. do 4 (apply bal_char; [discriminate|discriminate|]). now apply balanced_paren.
  - intros c s b t d _ IH _ IH2. apply bal_paren; [exact IH|]. apply balanced_app; [apply balanced_word|exact IH2].
  - intros c s b _ IH. now apply balanced_paren.
  - intros c s b t d _ IH _ IH2. apply bal_paren; [exact IH|]. apply balanced_app; [apply balanced_word|exact IH2].
Qed.
Lemma word_inj c d x y : word c ++ x = word d ++ y -> c = d /\ x = y.
Proof. destruct c, d; cbn; intros [= H]; auto. Qed.
Lemma chain_open c s b : chain v c s b -> exists r, s = "(" ++ r.
Proof. destruct 1; eexists; reflexivity. Qed.
Lemma unique_aux :
  (forall s b, says v s b -> forall c, says v s c -> b = c) /\
  (forall k s b, chain v k s b -> forall c, chain v k s c -> b = c).
Proof.
  apply says_chain_ind.
  - intros s b H c H2. inversion H2 as [s' b' Hv|E|E|s' b' Hs E|k s' b' t d Hs Ht E]; subst.
    + now apply (proj2 K s).
    + apply (proj1 K) in H as (_ & _ & _ & N & _). now destruct N.
    + apply (proj1 K) in H as (_ & _ & _ & _ & N). now destruct N.
    + apply (proj1 K) in H as (_ & _ & N & _). destruct N. eexists; reflexivity.
    + apply (proj1 K) in H as (_ & N & _). destruct N. eexists; reflexivity.
  - intros c H2. inversion H2 as [s' b' Hv|E|E|s' b' Hs E|k s' b' t d Hs Ht E]; subst; try reflexivity.
    apply (proj1 K) in Hv as (_ & _ & _ & N & _). now destruct N.
  - intros c H2. inversion H2 as [s' b' Hv|E|E|s' b' Hs E|k s' b' t d Hs Ht E]; subst; try reflexivity.
    apply (proj1 K) in Hv as (_ & _ & _ & _ & N). now destruct N.
  - intros s b Hs IH c H2. inversion H2 as [s' b' Hv|E|E|s' b' Hs' E|k s' b' t d Hs' Ht E]; subst.
    + apply (proj1 K) in Hv as (_ & _ & N & _). destruct N. eexists; reflexivity.
    + f_equal. apply IH.
      assert (E' : s' ++ ")" ++ "" = s ++ ")" ++ "") by (strip E; exact E).
      apply paren_inj in E' as [-> _]; [exact Hs'| |]; now apply (proj1 says_balanced) in Hs, Hs'.
  - intros k s b t d Hs IHs Ht IHt c H2. inversion H2 as [s' b' Hv|E|E|s' b' Hs' E|k' s' b' t' d' Hs' Ht' E]; subst.
    + apply (proj1 K) in Hv as (_ & N & _). destruct N. eexists; reflexivity.
    + strip E. apply paren_inj in E as [-> E];
        [|now apply (proj1 says_balanced) in Hs, Hs'|now apply (proj1 says_balanced) in Hs, Hs'].
      apply word_inj in E as [-> ->]. f_equal; auto.
  - intros k s b Hs IHs c H2. inversion H2 as [k' s' b' Hs' E1 E|k' s' b' t' d' Hs' Ht' E1 E]; subst.
    + apply IHs. assert (E' : s' ++ ")" ++ "" = s ++ ")" ++ "") by (strip E; exact E).
      apply paren_inj in E' as [-> _]; [exact Hs'| |]; now apply (proj1 says_balanced) in Hs, Hs'.
    + exfalso. assert (E' : s' ++ ")" ++ (word k ++ t') = s ++ ")" ++ "") by (strip E; exact E).
      apply paren_inj in E' as [_ E']; [destruct k; discriminate| |]; now apply (proj1 says_balanced) in Hs, Hs'.
  - intros k s b t d Hs IHs Ht IHt c H2. inversion H2 as [k' s' b' Hs' E1 E|k' s' b' t' d' Hs' Ht' E1 E]; subst.
    + exfalso. assert (E' : s ++ ")" ++ (word k ++ t) = s' ++ ")" ++ "") by (strip E; now symmetry).
      apply paren_inj in E' as [_ E']; [destruct k; discriminate| |]; now apply (proj1 says_balanced) in Hs, Hs'.
    + strip E. apply paren_inj in E as [-> E];
        [|now apply (proj1 says_balanced) in Hs, Hs'|now apply (proj1 says_balanced) in Hs, Hs'].
      apply app_inv_head in E as ->. f_equal; auto.
Qed.
Lemma unique s b c : says v s b -> says v s c -> b = c.
Proof. intros H. apply (proj1 unique_aux s b H). Qed.
End Unique.

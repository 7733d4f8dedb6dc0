(** Proofs about field matchers. *)
From Coq Require Import List Bool ZArith Lia ZifyBool.
From Verif Require Import MatchModel MatchSpec MatchProofs FieldMatchersModel FieldMatchersSpec.
Import ListNotations.
Local Open Scope Z_scope.

Lemma relb_spec o v x : relb o v x = true <-> rel_holds o v x.
Proof. destruct o; cbn; lia. Qed.

Lemma relb_inverse o v x : relb (inverse_op o) v x = negb (relb o v x).
Proof. destruct o; cbn; lia. Qed.

Lemma add_one_spec t y z : cty_ok t -> in_range t y -> add_one t y = Some z ->
  z = y + 1 \/ (y = cmax t /\ z = 0 /\ cmin t = 0).
Proof.
  unfold in_range. destruct t as [w [|]| |w s]; cbn; intros Hw Hr; try discriminate.
  - destruct (_ <=? _); intros [= <-]; lia.
  - destruct (Z.ltb_spec w 32); intros [= <-]; [lia|].
    destruct (Z.eq_dec y (2 ^ w - 1)) as [->|Hn].
    + right. replace (2 ^ w - 1 + 1) with (2 ^ w) by lia. rewrite Z_mod_same_full. lia.
    + left. apply Z.mod_small. lia.
Qed.

(** Soundness of the overload set outside [!=] against [!=]. *)
Lemma rel_implies_sound t o1 x o2 y v :
  cty_ok t -> in_range t x -> in_range t y -> in_range t v ->
  (o1 = RNe -> o2 = RNe -> x = y) ->
  rel_implies t o1 x o2 y = Some true ->
  rel_holds o1 v x -> rel_holds o2 v y.
Proof.
  intros Ht Hx Hy Hv Hne.
  destruct o1, o2; cbn; try (intros [= H]; lia); try discriminate.
  - destruct (add_one t y) as [z|] eqn:Ha; cbn; [|discriminate].
    apply add_one_spec in Ha; auto. unfold in_range in *. intros [= H]; lia.
  - destruct (add_one t x) as [z|] eqn:Ha; cbn; [|discriminate].
    apply add_one_spec in Ha; auto. unfold in_range in *. intros [= H]; lia.
  - rewrite Hne by auto. auto.
Qed.

Lemma leaf_eqb_eq a b : leaf_eqb a b = true -> a = b.
Proof.
  destruct a as [f o v|p], b as [g q w|q]; cbn; try discriminate.
  - rewrite !andb_true_iff, Nat.eqb_eq, Z.eqb_eq. intros [[-> H] ->].
    destruct o, q; cbn in H; congruence.
  - rewrite Nat.eqb_eq. congruence.
Qed.
Lemma leaf_eqb_refl a : leaf_eqb a a = true.
Proof. destruct a as [f o v|p]; cbn; rewrite ?Nat.eqb_refl, ?Z.eqb_refl; auto. destruct o; auto. Qed.

Section Sem.
Context {E : Type}.
Variable ftype : nat -> cty.
Variable fld : nat -> E -> Z.
Variable psem : nat -> E -> bool.
Hypothesis Hty : forall f, cty_ok (ftype f).
Hypothesis Hfld : forall f e, in_range (ftype f) (fld f e).
Notation sem := (leaf_sem fld psem).

Lemma leaf_neg_sound a b : leaf_neg a = Some b -> forall e, sem b e = negb (sem a e).
Proof. destruct a; cbn; [|discriminate]. intros [= <-] e. cbn. apply relb_inverse. Qed.

Lemma leaf_implies_sound a b :
  leaf_in_range ftype a -> leaf_in_range ftype b ->
  (forall f x y, a = Rel f RNe x -> b = Rel f RNe y -> x = y) ->
  leaf_implies ftype a b = true ->
  forall e, sem a e = true -> sem b e = true.
Proof.
  destruct a as [f o x|p], b as [g q y|q]; cbn; try discriminate.
  - intros Hx Hy Hn. destruct (Nat.eqb_spec f g) as [<-|]; [|discriminate].
    destruct (rel_implies _ _ _ _ _) eqn:Hr; [|discriminate]. intros -> e.
    rewrite !relb_spec. eapply rel_implies_sound; eauto.
    intros -> ->. eapply Hn; eauto.
  - intros _ _ _ H e. apply Nat.eqb_eq in H. congruence.
Qed.

Definition Uone (c : nat -> Z) (l : leaf) := leaf_in_range ftype l /\ one_eq_constant c l.
Lemma truthful_one c : truthful sem leaf_eqb (leaf_implies ftype) leaf_neg (Uone c).
Proof.
  split.
  - apply leaf_eqb_eq.
  - intros a b [Ha Ca] [Hb Cb]. apply leaf_implies_sound; auto.
    intros f x y -> ->. cbn in *. congruence.
  - apply leaf_neg_sound.
  - intros [f o v|p] b [Ha Ca]; cbn; [|discriminate]. intros [= <-]. split; auto.
    destruct o; cbn in *; auto.
Qed.

Definition Upos (l : leaf) := leaf_in_range ftype l /\ not_ne l.
Lemma PN_range l : PN leaf_neg Upos l -> leaf_in_range ftype l.
Proof.
  intros [[H _]|(p & [H _] & Hn)]; auto. destruct p; cbn in *; [|discriminate].
  injection Hn as <-. auto.
Qed.

Lemma positive_sound m : positive Upos m ->
  positive Upos (fsimplify ftype m) /\
  forall e, eval sem (fsimplify ftype m) e = eval sem m e.
Proof.
  apply (simplify_positive_sound sem).
  - apply leaf_eqb_eq.
  - intros a b [Ha Na] Hb. apply leaf_implies_sound; auto; [apply PN_range; auto|].
    intros f x y -> ->. destruct Na.
  - intros a b Ha [Hb Nb]. apply leaf_implies_sound; auto; [apply PN_range; auto|].
    intros f x y -> ->. destruct Nb.
  - apply leaf_neg_sound.
Qed.

Lemma positive_or a b : positive Upos a -> positive Upos b -> positive Upos (for_ ftype a b) /\
  forall e, eval sem (for_ ftype a b) e = eval sem a e || eval sem b e.
Proof. intros Ha Hb. apply (positive_sound (Or a b)). split; auto. Qed.
Lemma positive_and a b : positive Upos a -> positive Upos b -> positive Upos (fand ftype a b) /\
  forall e, eval sem (fand ftype a b) e = eval sem a e && eval sem b e.
Proof. intros Ha Hb. apply (positive_sound (And a b)). split; auto. Qed.
Lemma positive_fold_and ms : forall acc, positive Upos acc -> Forall (positive Upos) ms ->
  positive Upos (fold_left And ms acc).
Proof. induction ms as [|m ms IH]; cbn; auto. intros acc Ha H. inversion H; subst. apply IH; cbn; auto. Qed.
Lemma positive_all ms : Forall (positive Upos) ms ->
  positive Upos (fall ftype ms) /\
  forall e, eval sem (fall ftype ms) e = forallb (fun m => eval sem m e) ms.
Proof.
  intros H. unfold fall, match_all.
  destruct (positive_sound _ (positive_fold_and ms Always I H)) as [H1 H2].
  split; [exact H1|]. intros e. unfold fsimplify in H2. rewrite H2, fold_and_eval. reflexivity.
Qed.

Lemma in_matcher_sound f vs : Forall (in_range (ftype f)) vs ->
  positive Upos (in_matcher ftype f vs) /\
  forall e, eval sem (in_matcher ftype f vs) e = existsb (Z.eqb (fld f e)) vs.
Proof.
  induction 1 as [|v vs Hv Hvs [IH1 IH2]]; cbn [in_matcher fold_right existsb].
  - split; [exact I|reflexivity].
  - fold (in_matcher ftype f vs).
    destruct (positive_or (Leaf (Rel f REq v)) (in_matcher ftype f vs)) as [H1 H2]; auto.
    { split; cbn; auto. }
    split; auto. intros e. rewrite H2, IH2. reflexivity.
Qed.

Definition constraint_in_range (f : nat) (c : constraint) : Prop :=
  match c with WithIn vs => Forall (in_range (ftype f)) vs | _ => True end.

Lemma constraint_sound f c e : constraint_in_range f c ->
  (forall v, c <> WithLessThan v) ->
  (eval sem (constraint_matcher ftype f c) e = true <-> constraint_holds fld psem f c e).
Proof.
  destruct c; cbn; intros Hr Hn; try lia; try tauto.
  - rewrite (proj2 (in_matcher_sound f vs Hr)). rewrite existsb_exists.
    split; [intros (x & Hx & Hxe)|intros H; exists (fld f e)]; [|split; auto; lia].
    apply Z.eqb_eq in Hxe. congruence.
  - destruct (Hn v); auto.
Qed.
Lemma with_less_than_actual f v e :
  eval sem (constraint_matcher ftype f (WithLessThan v)) e = true <-> fld f e <= v.
Proof. cbn. lia. Qed.
End Sem.

(** The documented relational simplifications, for every pair of constants. *)
Section RelLaws.
Variable ftype : nat -> cty.
Variables (f : nat) (w : Z) (s : bool).
Hypothesis Hf : ftype f = CInt w s.
Hypothesis Hw : 1 <= w.
Notation lt v := (Leaf (Rel f RLt v)).
Notation gt v := (Leaf (Rel f RGt v)).

Lemma add_one_small y : in_range (CInt w s) y -> y < cmax (CInt w s) -> add_one (CInt w s) y = Some (y + 1).
Proof.
  unfold in_range. destruct s; cbn; intros Hr Hl.
  - destruct (Z.leb_spec (y + 1) (2 ^ (Z.max w 32 - 1) - 1)); auto.
    assert (2 ^ (w - 1) <= 2 ^ (Z.max w 32 - 1)) by (apply Z.pow_le_mono_r; lia). lia.
  - destruct (w <? 32); auto. f_equal. apply Z.mod_small. lia.
Qed.

Lemma lt_and_gt a b : in_range (CInt w s) a -> in_range (CInt w s) b -> b < cmax (CInt w s) ->
  fand ftype (lt a) (gt b) = if a <=? b + 1 then Never else And (lt a) (gt b).
Proof.
  intros Ha Hb Hm. unfold fand, op_and. cbn. unfold simplify_and. cbn.
  rewrite Nat.eqb_refl, Hf, (add_one_small b) by auto. cbn.
  destruct (Z.leb_spec a (b + 1)); cbn; auto.
Qed.
Lemma lt_or_gt a b : for_ ftype (lt a) (gt b) = if b <? a then Always else Or (lt a) (gt b).
Proof.
  unfold for_, op_or. cbn. unfold simplify_or. cbn. rewrite Nat.eqb_refl. cbn.
  destruct (Z.ltb_spec b a); cbn; auto.
Qed.
Lemma lt_and_lt a b : fand ftype (lt a) (lt b) = lt (Z.min a b).
Proof.
  unfold fand, op_and. cbn. unfold simplify_and. cbn. rewrite Nat.eqb_refl. cbn.
  destruct ((a =? b) || (a <? b)) eqn:H1; [repeat f_equal; lia|].
  destruct ((b =? a) || (b <? a)) eqn:H2; [repeat f_equal; lia|]. lia.
Qed.
Lemma lt_or_lt a b : for_ ftype (lt a) (lt b) = lt (Z.max a b).
Proof.
  unfold for_, op_or. cbn. unfold simplify_or. cbn. rewrite Nat.eqb_refl. cbn.
  destruct ((a =? b) || (a <? b)) eqn:H1; [repeat f_equal; lia|].
  destruct ((b =? a) || (b <? a)) eqn:H2; [repeat f_equal; lia|]. lia.
Qed.
Lemma eq_and_eq a b : fand ftype (Leaf (Rel f REq a)) (Leaf (Rel f REq b)) =
  if a =? b then Leaf (Rel f REq a) else Never.
Proof.
  unfold fand, op_and. cbn. unfold simplify_and. cbn. rewrite Nat.eqb_refl. cbn.
  rewrite (Z.eqb_sym b a). destruct (a =? b) eqn:H1; cbn; auto.
Qed.
End RelLaws.

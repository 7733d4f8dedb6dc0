(** Proofs about chains of implications. *)
From Coq Require Import List Bool Arith ZArith Lia ZifyBool.
From Verif Require Import MatchModel MatchSpec MatchProofs FieldMatchersModel FieldMatchersSpec FieldMatchersProofs OrderSpec.
Import ListNotations.

Section Chains.
Variable L : Type.
Variables (leqb limpl : L -> L -> bool) (lneg : L -> option L) (U : L -> Prop).
Notation mexpr := (mexpr L).
Notation meqb := (meqb L leqb).
Notation implies := (implies L leqb limpl).
Notation simplify := (simplify L leqb limpl lneg).
(** The terms of an and, and of an or. *)
Fixpoint terms (m : mexpr) : list mexpr := match m with And a b => terms a ++ terms b | _ => [m] end.
Fixpoint choices (m : mexpr) : list mexpr := match m with Or a b => choices a ++ choices b | _ => [m] end.
Definition base (x y : mexpr) : bool :=
  match x, y with
  | _, Always => true
  | Never, _ => true
  | Leaf p, Leaf q => limpl p q
  | Not a, Not b => meqb a b
  | _, _ => false
  end.
Lemma choices_some m : exists c, In c (choices m).
Proof. induction m as [l| | |a _ b _|a [c H] b _|a _]; try (eexists; left; reflexivity). exists c. apply in_app_iff. auto. Qed.
Lemma terms_some m : exists c, In c (terms m).
Proof. induction m as [l| | |a [c H] b _|a _ b _|a _]; try (eexists; left; reflexivity). exists c. apply in_app_iff. auto. Qed.
Lemma base_always x : base x Always = true.
Proof. destruct x; reflexivity. Qed.
Lemma base_never y : base Never y = true.
Proof. destruct y; reflexivity. Qed.
Lemma implies_iff x : forall y, implies x y = true <-> exists t c, In t (terms x) /\ In c (choices y) /\ base t c = true.
Proof.
  assert (ONE : forall x y, terms x = [x] -> choices y = [y] -> implies x y = base x y -> implies x y = true <-> exists t c, In t (terms x) /\ In c (choices y) /\ base t c = true).
  { intros x0 y Hx Hy ->. rewrite Hx, Hy. split; [intros H; exists x0, y; repeat split; auto; left; reflexivity|]. intros (t & c & [<-|[]] & [<-|[]] & H). exact H. }
  assert (AND : forall a b y, choices y = [y] -> (match y with Always | Or _ _ => False | _ => True end) ->
    (forall y, implies a y = true <-> exists t c, In t (terms a) /\ In c (choices y) /\ base t c = true) ->
    (forall y, implies b y = true <-> exists t c, In t (terms b) /\ In c (choices y) /\ base t c = true) ->
    implies (And a b) y = true <-> exists t c, In t (terms (And a b)) /\ In c (choices y) /\ base t c = true).
  { intros a b y Hy Sy Ia Ib. rewrite implies_unfold. replace (match y with Always => true | _ => _ end) with (implies a y || implies b y) by (destruct y; try contradiction; reflexivity).
    rewrite orb_true_iff, Ia, Ib. cbn [terms]. split.
    - intros [(t & c & H1 & H2 & H3)|(t & c & H1 & H2 & H3)]; exists t, c; rewrite in_app_iff; auto.
    - intros (t & c & H1 & H2 & H3). apply in_app_iff in H1 as [H1|H1]; [left|right]; exists t, c; auto. }
  assert (OR : forall x a b, (implies x a = true <-> exists t c, In t (terms x) /\ In c (choices a) /\ base t c = true) ->
    (implies x b = true <-> exists t c, In t (terms x) /\ In c (choices b) /\ base t c = true) ->
    implies x (Or a b) = true <-> exists t c, In t (terms x) /\ In c (choices (Or a b)) /\ base t c = true).
  { intros x0 a b Ia Ib. assert (E : implies x0 (Or a b) = true <-> implies x0 a = true \/ implies x0 b = true).
    { rewrite implies_unfold, <- orb_true_iff. destruct x0; try reflexivity. now rewrite !never_implies. }
    rewrite E, Ia, Ib. cbn [choices]. split.
    - intros [(t & c & H1 & H2 & H3)|(t & c & H1 & H2 & H3)]; exists t, c; rewrite in_app_iff; auto.
    - intros (t & c & H1 & H2 & H3). apply in_app_iff in H2 as [H2|H2]; [left|right]; exists t, c; auto. }
  assert (ALW : forall x, implies x Always = true <-> exists t c, In t (terms x) /\ In c (choices Always) /\ base t c = true).
  { intros x0. rewrite implies_always. split; [|reflexivity]. intros _. destruct (terms_some x0) as [t Ht]. exists t, Always. repeat split; auto; [left; reflexivity|apply base_always]. }
  induction x as [l| | |a IHa b IHb|a IHa b IHb|a IHa]; intros y; induction y as [l'| | |c IHc d IHd|c IHc d IHd|c IHc];
    lazymatch goal with
    | |- MatchModel.implies _ _ _ ?x Always = true <-> _ => exact (ALW x)
    | |- MatchModel.implies _ _ _ ?x (Or ?c ?d) = true <-> _ => exact (OR x c d IHc IHd)
    | |- MatchModel.implies _ _ _ (And ?a ?b) ?y = true <-> _ => exact (AND a b y eq_refl I IHa IHb)
    | |- MatchModel.implies _ _ _ ?x ?y = true <-> _ => exact (ONE x y eq_refl eq_refl eq_refl)
    end.
Qed.
Lemma term_shape m t : In t (terms m) -> terms t = [t].
Proof. induction m as [l| | |a IHa b IHb|a _ b _|a _]; cbn [terms]; try (intros [<-|[]]; reflexivity). rewrite in_app_iff. intros [H|H]; auto. Qed.
Lemma choice_shape m t : In t (choices m) -> choices t = [t].
Proof. induction m as [l| | |a _ b _|a IHa b IHb|a _]; cbn [choices]; try (intros [<-|[]]; reflexivity). rewrite in_app_iff. intros [H|H]; auto. Qed.
Lemma term_leaves m t : all_leaves U m -> In t (terms m) -> all_leaves U t.
Proof. induction m as [l| | |a IHa b IHb|a _ b _|a _]; cbn [terms all_leaves]; try (intros H [<-|[]]; exact H). rewrite in_app_iff. intros [H1 H2] [H|H]; auto. Qed.
Lemma choice_leaves m t : all_leaves U m -> In t (choices m) -> all_leaves U t.
Proof. induction m as [l| | |a _ b _|a IHa b IHb|a _]; cbn [choices all_leaves]; try (intros H [<-|[]]; exact H). rewrite in_app_iff. intros [H1 H2] [H|H]; auto. Qed.

Hypothesis Eq : forall a b, leqb a b = true -> a = b.
Hypothesis Tr : forall a b c, U a -> U b -> U c -> limpl a b = true -> limpl b c = true -> limpl a c = true.
Lemma implies_trans x y z : all_leaves U x -> all_leaves U y -> all_leaves U z -> implies x y = true -> implies y z = true -> implies x z = true.
Proof.
  intros Ux Uy Uz H1 H2. apply implies_iff in H1 as (t & c & H1 & H3 & H4). apply implies_iff in H2 as (t' & c' & H2 & H5 & H6). apply implies_iff.
  destruct (choices_some z) as [w Hw]. destruct (terms_some x) as [s Hs].
  assert (T : forall t c, In t (terms x) -> In c (choices z) -> base t c = true -> exists t c, In t (terms x) /\ In c (choices z) /\ base t c = true) by (intros u v; exists u, v; auto).
  pose proof (term_leaves x t Ux H1) as Ut. pose proof (choice_leaves z c' Uz H5) as Uc'.
  destruct (match t with Never => true | _ => false end) eqn:N; [destruct t; try discriminate; apply (T _ w H1 Hw), base_never|].
  destruct (match c' with Always => true | _ => false end) eqn:A; [destruct c'; try discriminate; apply (T s _ Hs H5), base_always|].
  destruct y as [l| | |a b|a b|a]; cbn [terms choices] in *.
  - destruct H3 as [<-|[]], H2 as [<-|[]]. destruct t; try discriminate. destruct c'; try discriminate. apply (T _ _ H1 H5). exact (Tr _ _ _ Ut Uy Uc' H4 H6).
  - destruct H2 as [<-|[]]. destruct c'; discriminate.
  - destruct H3 as [<-|[]]. destruct t; discriminate.
  - destruct H3 as [<-|[]]. destruct t; discriminate.
  - destruct H2 as [<-|[]]. destruct c'; discriminate.
  - destruct H3 as [<-|[]], H2 as [<-|[]]. destruct t; try discriminate. destruct c'; try discriminate. apply (T _ _ H1 H5). cbn in *. apply (meqb_eq leqb Eq) in H4. congruence.
Qed.
Lemma simplify_leaves m : (forall a b, U a -> lneg a = Some b -> U b) -> all_leaves U m -> all_leaves U (simplify m).
Proof.
  intros C H. apply (simplify_sound (E := Empty_set) (fun _ _ => true) leqb limpl lneg U); [|exact H].
  split; auto; intros; contradiction.
Qed.
End Chains.

Section Fields.
Local Open Scope Z_scope.
Variable ftype : nat -> cty.
Lemma add_one_defined w s v : cty_ok (CInt w s) -> in_range (CInt w s) v -> has_successor (CInt w s) v -> add_one (CInt w s) v = Some (v + 1).
Proof.
  unfold in_range, has_successor. cbn. intros W. destruct s; cbn.
  - intros [_ R] S. assert (P : v + 1 <= 2 ^ (Z.max w 32 - 1) - 1).
    { destruct S as [S|S].
      - rewrite Z.max_r by lia. pose proof (Z.pow_lt_mono_r 2 (w - 1) 31). change (32 - 1) with 31. lia.
      - assert (2 ^ (w - 1) <= 2 ^ (Z.max w 32 - 1)) by (apply Z.pow_le_mono_r; lia). lia. }
    apply Z.leb_le in P. now rewrite P.
  - intros R S. destruct (Z.ltb_spec w 32) as [|H]; [reflexivity|]. destruct S as [S|S]; [lia|]. f_equal. apply Z.mod_small. lia.
Qed.
Notation order_leaf := (order_leaf ftype).
Lemma order_leaf_neg c a b : order_leaf c a -> leaf_neg a = Some b -> order_leaf c b.
Proof. destruct a as [f o v|p]; cbn; [|discriminate]. intros H [= <-]. destruct o; exact H. Qed.
Lemma leaf_implies_trans (Ht : forall f, cty_ok (ftype f)) c x y z : order_leaf c x -> order_leaf c y -> order_leaf c z ->
  leaf_implies ftype x y = true -> leaf_implies ftype y z = true -> leaf_implies ftype x z = true.
Proof.
  destruct x as [f o u|p], y as [g o' v|q], z as [h o'' w|r]; cbn [leaf_implies]; try discriminate.
  2: { intros _ _ _ H1 H2. apply Nat.eqb_eq in H1, H2. subst. apply Nat.eqb_refl. }
  intros (R1 & C1 & S1) (R2 & C2 & S2) (R3 & C3 & S3). destruct (Nat.eqb_spec f g) as [<-|]; [|discriminate]. destruct (Nat.eqb_spec f h) as [<-|]; [|discriminate].
  specialize (Ht f). cbn [leaf_in_range] in *. destruct (ftype f) as [n s| |n s] eqn:T;
  destruct o, o', o''; cbn [one_eq_constant successors] in *; rewrite ?T in *; cbn [rel_implies relop_eqb];
    rewrite ?(add_one_defined n s u Ht R1 S1), ?(add_one_defined n s v Ht R2 S2), ?(add_one_defined n s w Ht R3 S3);
    cbn [option_map relb add_one]; intros A B; try discriminate; lia.
Qed.
End Fields.

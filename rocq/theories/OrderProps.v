(** Property theorems about operator<=> on matchers as an ordering (C146). *)
From Coq Require Import List Bool Arith ZArith Lia.
From Verif Require Import MatchModel MatchSpec MatchProofs FieldMatchersModel FieldMatchersSpec FieldMatchersProofs OrderSpec OrderProofs.
Import ListNotations.

(** C146, for leaves whose implication is transitive: answers compose along a
    chain, in either direction, and a strict step makes the whole strict. *)
Theorem C146_transitive :
  forall (L : Type) (leqb limpl : L -> L -> bool) (lneg : L -> option L) (U : L -> Prop),
  (forall a b, leqb a b = true -> a = b) ->
  (forall a b c, U a -> U b -> U c -> limpl a b = true -> limpl b c = true -> limpl a c = true) ->
  (forall a b, U a -> lneg a = Some b -> U b) ->
  forall a b c p q, all_leaves U a -> all_leaves U b -> all_leaves U c ->
  spaceship L leqb limpl lneg a b = Some p -> spaceship L leqb limpl lneg b c = Some q ->
  (p = Eq \/ q = Eq \/ p = q) ->
  spaceship L leqb limpl lneg a c = Some (composed p q).
Proof.
  intros L leqb limpl lneg U He Ht Hc a b c p q Ha Hb Hcc.
  pose proof (simplify_leaves L leqb limpl lneg U He a Hc Ha) as Ua.
  pose proof (simplify_leaves L leqb limpl lneg U He b Hc Hb) as Ub.
  pose proof (simplify_leaves L leqb limpl lneg U He c Hc Hcc) as Uc.
  unfold spaceship. set (x := simplify L leqb limpl lneg a) in *. set (y := simplify L leqb limpl lneg b) in *. set (z := simplify L leqb limpl lneg c) in *.
  pose proof (implies_trans L leqb limpl U He Ht x y z Ua Ub Uc) as T1.
  pose proof (implies_trans L leqb limpl U He Ht z y x Uc Ub Ua) as T2.
  pose proof (implies_trans L leqb limpl U He Ht y z x Ub Uc Ua) as T3.
  pose proof (implies_trans L leqb limpl U He Ht z x y Uc Ua Ub) as T4.
  pose proof (implies_trans L leqb limpl U He Ht x z y Ua Uc Ub) as T5.
  pose proof (implies_trans L leqb limpl U He Ht y x z Ub Ua Uc) as T6.
  destruct (implies L leqb limpl x y), (implies L leqb limpl y x), (implies L leqb limpl y z), (implies L leqb limpl z y);
    intros [= <-] [= <-] D; cbn [composed]; destruct (implies L leqb limpl x z), (implies L leqb limpl z x); auto;
    try (specialize (T1 eq_refl eq_refl); discriminate); try (specialize (T2 eq_refl eq_refl); discriminate);
    try (specialize (T3 eq_refl eq_refl); discriminate); try (specialize (T4 eq_refl eq_refl); discriminate);
    try (specialize (T5 eq_refl eq_refl); discriminate); try (specialize (T6 eq_refl eq_refl); discriminate);
    destruct D as [D|[D|D]]; discriminate.
Qed.
Print Assumptions C146_transitive.

(** never is below and always above every matcher, whatever the leaves say. *)
Theorem C146_bounds :
  forall (L : Type) (leqb limpl : L -> L -> bool) (lneg : L -> option L) (m : mexpr L),
  (spaceship L leqb limpl lneg Never m = Some Lt \/ spaceship L leqb limpl lneg Never m = Some Eq) /\
  (spaceship L leqb limpl lneg m Always = Some Lt \/ spaceship L leqb limpl lneg m Always = Some Eq).
Proof.
  intros L leqb limpl lneg m. unfold spaceship. cbn [simplify]. rewrite never_implies, implies_always.
  destruct (implies L leqb limpl (simplify L leqb limpl lneg m) Never), (implies L leqb limpl Always (simplify L leqb limpl lneg m)); auto.
Qed.
Print Assumptions C146_bounds.

(** And they are reached only by matchers that simplify to them. *)
Theorem C146_extremes :
  forall (L : Type) (leqb limpl : L -> L -> bool) (lneg : L -> option L) (m : mexpr L),
  (spaceship L leqb limpl lneg Never m = Some Eq <-> simplify L leqb limpl lneg m = Never) /\
  (spaceship L leqb limpl lneg m Always = Some Eq <-> simplify L leqb limpl lneg m = Always).
Proof.
  intros L leqb limpl lneg m. unfold spaceship. cbn [simplify]. rewrite never_implies, implies_always.
  pose proof (simplify_nrc leqb limpl lneg m) as N. split; split.
  - destruct (implies L leqb limpl _ Never) eqn:E; [|discriminate]. intros _.
    destruct N as [N|[N|N]]; auto; [rewrite N in E; discriminate|].
    exfalso. apply (implies_iff L leqb limpl) in E as (t & c & H1 & [<-|[]] & H). revert N H1 H. generalize (simplify L leqb limpl lneg m). clear.
    induction m as [l| | |a IHa b IHb|a _ b _|a _]; cbn [const_free terms]; try contradiction; try (intros _ [<-|[]]; discriminate).
    rewrite in_app_iff. intros [N1 N2] [H|H]; auto.
  - intros ->. reflexivity.
  - destruct (implies L leqb limpl Always _) eqn:E; [|discriminate]. intros _. now apply (implies_always_nrc leqb limpl lneg).
  - intros ->. reflexivity.
Qed.
Print Assumptions C146_extremes.

Section Fields.
Local Open Scope Z_scope.
(** For field matchers the chain breaks at !=, since every != is said to imply
    every other: f == 5 <= f != 6 <= f != 5, but the ends are unordered. *)
Theorem C146_ne_refuted :
  exists ftype a b c, spaceship leaf leaf_eqb (leaf_implies ftype) leaf_neg a b = Some Lt /\
    spaceship leaf leaf_eqb (leaf_implies ftype) leaf_neg b c = Some Eq /\
    spaceship leaf leaf_eqb (leaf_implies ftype) leaf_neg a c = None.
Proof. exists (fun _ => CInt 8 false), (Leaf (Rel 0 REq 5)), (Leaf (Rel 0 RNe 6)), (Leaf (Rel 0 RNe 5)). vm_compute. auto. Qed.
Print Assumptions C146_ne_refuted.

(** It also breaks at the greatest value of a wide unsigned field, where Y + 1
    is 0: f < 5 is below f <= 5, which is below f <= 0xffffffff, but the ends
    are unordered. *)
Theorem C146_wrap_refuted :
  exists ftype a b c, spaceship leaf leaf_eqb (leaf_implies ftype) leaf_neg a b = Some Lt /\
    spaceship leaf leaf_eqb (leaf_implies ftype) leaf_neg b c = Some Lt /\
    spaceship leaf leaf_eqb (leaf_implies ftype) leaf_neg a c = None.
Proof. exists (fun _ => CInt 32 false), (Leaf (Rel 0 RLt 5)), (Leaf (Rel 0 RLe 5)), (Leaf (Rel 0 RLe 4294967295)). vm_compute. auto. Qed.
Print Assumptions C146_wrap_refuted.

(** Field matchers of any depth compose when == and != use one constant per
    field, and no <= or > is against the greatest value of a type of at least
    32 bits (missing: the two cases above). *)
Theorem C146_partial :
  forall (ftype : nat -> cty), (forall f, cty_ok (ftype f)) ->
  forall (k : nat -> Z) a b c p q,
  all_leaves (order_leaf ftype k) a -> all_leaves (order_leaf ftype k) b -> all_leaves (order_leaf ftype k) c ->
  spaceship leaf leaf_eqb (leaf_implies ftype) leaf_neg a b = Some p ->
  spaceship leaf leaf_eqb (leaf_implies ftype) leaf_neg b c = Some q ->
  (p = Eq \/ q = Eq \/ p = q) ->
  spaceship leaf leaf_eqb (leaf_implies ftype) leaf_neg a c = Some (composed p q).
Proof.
  intros ftype Ht k. apply (C146_transitive leaf leaf_eqb (leaf_implies ftype) leaf_neg (order_leaf ftype k)).
  - exact leaf_eqb_eq.
  - exact (leaf_implies_trans ftype Ht k).
  - exact (order_leaf_neg ftype k).
Qed.
Print Assumptions C146_partial.

(** A chain with compound matchers on two fields. *)
Definition chain_type (f : nat) : cty := match f with O => CInt 8 false | _ => CInt 32 true end.
Definition chain_a : fexpr := And (Leaf (Rel 0 REq 3)) (Leaf (Rel 1 RLt (-5))).
Definition chain_b : fexpr := Leaf (Rel 1 RLe (-6)).
Definition chain_c : fexpr := Or (Leaf (Rel 0 RGt 7)) (Leaf (Rel 1 RLt 0)).
Example C146_case :
  all_leaves (order_leaf chain_type (fun _ => 3)) chain_a /\ all_leaves (order_leaf chain_type (fun _ => 3)) chain_b /\
  all_leaves (order_leaf chain_type (fun _ => 3)) chain_c /\
  spaceship leaf leaf_eqb (leaf_implies chain_type) leaf_neg chain_a chain_b = Some Lt /\
  spaceship leaf leaf_eqb (leaf_implies chain_type) leaf_neg chain_b chain_c = Some Lt /\
  spaceship leaf leaf_eqb (leaf_implies chain_type) leaf_neg chain_a chain_c = Some Lt.
Proof. unfold chain_a, chain_b, chain_c, order_leaf, in_range. cbn. unfold in_range. cbn. repeat split; try lia; right; lia. Qed.
(** Composition needs the directions to agree: these say less and greater. *)
Example C146_needed :
  spaceship leaf leaf_eqb (leaf_implies chain_type) leaf_neg (Leaf (Rel 0 RLt 3)) (Leaf (Rel 0 RLt 9)) = Some Lt /\
  spaceship leaf leaf_eqb (leaf_implies chain_type) leaf_neg (Leaf (Rel 0 RLt 9)) (Leaf (Rel 0 REq 5)) = Some Gt /\
  spaceship leaf leaf_eqb (leaf_implies chain_type) leaf_neg (Leaf (Rel 0 RLt 3)) (Leaf (Rel 0 REq 5)) = None.
Proof. vm_compute. auto. Qed.
End Fields.

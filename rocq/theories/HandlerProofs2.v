(** The plain handler on field matchers without [not] and !=. *)
From Coq Require Import List Bool Arith ZArith Lia ZifyBool ZifyNat.
From Verif Require Import MatchModel MatchSpec MatchProofs FieldMatchersModel FieldMatchersSpec FieldMatchersProofs
  HandlerModel HandlerSpec HandlerProofs IndexedProofs.
Import ListNotations.
Local Open Scope Z_scope.

Section Positive.
Context {E : Type}.
Variable ftype : nat -> cty.
Variable fld : nat -> E -> Z.
Variable psem : nat -> E -> bool.
Hypothesis Hty : forall f, cty_ok (ftype f).
Hypothesis Hfld : forall f e, in_range (ftype f) (fld f e).
Notation sem := (leaf_sem fld psem).
Notation Upos := (Upos ftype).
Notation build := (build leaf_eqb (leaf_implies ftype) leaf_neg).

Definition decl_positive (d : declaration leaf) : Prop :=
  match d_user d with Some m => positive Upos m | None => True end /\
  Forall (positive Upos) (d_fields d) /\ Forall Upos (d_conds d).

Lemma cond_positive id ps : Forall Upos ps -> forall (acc : E -> bool) base,
  (positive Upos (cb_matcher base) /\ cb_id base = id /\ forall e, eval sem (cb_matcher base) e = acc e) ->
  let c := fold_left (fun c p => make_conditional leaf_eqb (leaf_implies ftype) leaf_neg p c) ps base in
  positive Upos (cb_matcher c) /\ cb_id c = id /\
  forall e, eval sem (cb_matcher c) e = acc e && forallb (fun c => sem c e) ps.
Proof.
  cbn zeta. induction 1 as [|p ps Hp Hps IH]; intros acc base (H1 & H2 & H3); cbn [fold_left forallb].
  - split; [auto|]. split; [auto|]. intros e. rewrite andb_true_r. auto.
  - destruct (positive_and ftype fld psem Hty Hfld (cb_matcher base) (Leaf p)) as [A1 A2]; auto.
    destruct (IH (fun e => acc e && sem p e) (make_conditional leaf_eqb (leaf_implies ftype) leaf_neg p base)) as (K1 & K2 & K3).
    { unfold make_conditional. cbn [cb_matcher cb_id]. split; [apply (positive_sop ftype); auto|]. split; [auto|].
      intros e. rewrite (sop_eval sem leaf_neg (leaf_neg_sound fld psem)). unfold fand in A2. rewrite A2, H3. reflexivity. }
    split; [auto|]. split; [auto|]. intros e. rewrite K3, andb_assoc. reflexivity.
Qed.

Lemma build_positive d : decl_positive d ->
  positive Upos (cb_matcher (build d)) /\ cb_id (build d) = d_id d /\
  forall e, eval sem (cb_matcher (build d)) e = accepts sem d e.
Proof.
  intros (Hu & Hf & Hc). unfold HandlerProofs.build, accepts.
  set (base := make_callback leaf_eqb (leaf_implies ftype) leaf_neg (d_id d) (d_user d) (d_fields d)).
  assert (Hbase : positive Upos (cb_matcher base) /\ cb_id base = d_id d /\
    forall e, eval sem (cb_matcher base) e =
      match d_user d with Some m => eval sem m e | None => true end && forallb (fun m => eval sem m e) (d_fields d)).
  { unfold base, make_callback, msg_matcher. cbn [cb_matcher cb_id].
    destruct (positive_all ftype fld psem Hty Hfld _ Hf) as [HL HS].
    destruct (d_user d) as [m|].
    - destruct (positive_and ftype fld psem Hty Hfld m _ Hu HL) as [A1 A2].
      split; [apply (positive_sop ftype); auto|]. split; [reflexivity|].
      intros e. rewrite (sop_eval sem leaf_neg (leaf_neg_sound fld psem)).
      unfold fand in A2. unfold fall in A2, HS. rewrite A2, HS. reflexivity.
    - split; [exact HL|]. split; [reflexivity|]. intros e. unfold fall in HS. rewrite HS. reflexivity. }
  exact (cond_positive (d_id d) (d_conds d) Hc _ base Hbase).
Qed.

Lemma handle_positive ds : Forall decl_positive ds -> forall e,
  let r := handle sem (map build ds) e in
  ran (fst r) = map d_id (filter (fun d => accepts sem d e) ds) /\
  snd r = existsb (fun d => accepts sem d e) ds /\
  errors (fst r) = (if existsb (fun d => accepts sem d e) ds then 0 else 1)%nat /\
  is_match sem (map build ds) e = snd r.
Proof.
  intros H e. cbn zeta. destruct (handle_spec sem (map build ds) e) as (H1 & H2 & H3 & H4).
  assert (K : existsb (fun c => eval sem (cb_matcher c) e) (map build ds) = existsb (fun d => accepts sem d e) ds /\
              map cb_id (filter (fun c => eval sem (cb_matcher c) e) (map build ds)) = map d_id (filter (fun d => accepts sem d e) ds)).
  { clear H1 H2 H3 H4. induction H as [|d ds Hd _ [IH1 IH2]]; cbn; auto.
    destruct (build_positive d Hd) as (_ & Bid & Bev). rewrite Bev, IH1. split; auto.
    destruct (accepts sem d e); cbn; rewrite ?Bid, IH2; auto. }
  destruct K as [K1 K2]. rewrite H1, H2, H3, H4, K1, K2, H2, K1. auto.
Qed.
End Positive.

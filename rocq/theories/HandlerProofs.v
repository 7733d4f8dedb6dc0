(** Proofs about the handlers. *)
From Coq Require Import List Bool Arith ZArith Lia ZifyBool ZifyNat.
From Verif Require Import MatchModel MatchSpec MatchProofs FieldMatchersModel FieldMatchersSpec FieldMatchersProofs
  HandlerModel HandlerSpec.
Import ListNotations.

Lemma ran_app a b : ran (a ++ b) = ran a ++ ran b.
Proof. unfold ran. apply flat_map_app. Qed.
Lemma ran_mismatch {A} (f : A -> nat) l : ran (map (fun c => LogMismatch (f c)) l) = [].
Proof. induction l; cbn; auto. Qed.
Lemma errors_app a b : errors (a ++ b) = errors a + errors b.
Proof. unfold errors. rewrite filter_app, app_length. reflexivity. Qed.
Lemma errors_mismatch {A} (f : A -> nat) l : errors (map (fun c => LogMismatch (f c)) l) = 0.
Proof. induction l; cbn; auto. Qed.

Lemma ran_unclaimed l : ran (LogUnclaimed :: l) = ran l.
Proof. reflexivity. Qed.
Lemma errors_unclaimed l : errors (LogUnclaimed :: l) = S (errors l).
Proof. reflexivity. Qed.

Section Plain.
Context {L E : Type}.
Variable sem : L -> E -> bool.
Notation cb := (callback L).
Notation eval := (eval sem).

Lemma handle_all_spec (cbs : list cb) e : forall acc,
  ran (fst (handle_all sem cbs e acc)) = map cb_id (filter (fun c => eval (cb_matcher c) e) cbs) /\
  errors (fst (handle_all sem cbs e acc)) = 0 /\
  snd (handle_all sem cbs e acc) = acc || existsb (fun c => eval (cb_matcher c) e) cbs.
Proof.
  induction cbs as [|c r IH]; intros acc; cbn [handle_all filter existsb].
  - rewrite orb_false_r. auto.
  - unfold cb_handle, cb_is_match.
    destruct (eval (cb_matcher c) e) eqn:Hc; specialize (IH (acc || true)) as IH1; specialize (IH (acc || false)) as IH2;
    [destruct (handle_all sem r e (acc || true)) as [evs res]|destruct (handle_all sem r e (acc || false)) as [evs res]];
    cbn [fst snd app] in *.
    + destruct IH1 as (H1 & H2 & H3). cbn. rewrite <- H1. split; [reflexivity|]. split; [exact H2|].
      rewrite H3, orb_true_r. reflexivity.
    + destruct IH2 as (H1 & H2 & H3). rewrite <- H1. split; [reflexivity|]. split; [exact H2|].
      rewrite H3, orb_false_r. reflexivity.
Qed.

Lemma is_match_spec (cbs : list cb) e : is_match sem cbs e = existsb (fun c => eval (cb_matcher c) e) cbs.
Proof. induction cbs as [|c r IH]; cbn; auto. unfold cb_is_match. destruct (eval _ _); auto. Qed.

Lemma handle_spec (cbs : list cb) e :
  ran (fst (handle sem cbs e)) = map cb_id (filter (fun c => eval (cb_matcher c) e) cbs) /\
  snd (handle sem cbs e) = existsb (fun c => eval (cb_matcher c) e) cbs /\
  errors (fst (handle sem cbs e)) = (if existsb (fun c => eval (cb_matcher c) e) cbs then 0 else 1) /\
  is_match sem cbs e = snd (handle sem cbs e).
Proof.
  destruct (handle_all_spec cbs e false) as (H1 & H2 & H3). cbn in H3. rewrite is_match_spec.
  unfold handle. destruct (handle_all sem cbs e false) as [evs found]. cbn [fst snd] in *. subst found.
  destruct (existsb _ cbs); cbn [fst snd]; [auto|].
  rewrite ran_app, errors_app, H1, H2, ran_unclaimed, errors_unclaimed, ran_mismatch, errors_mismatch, app_nil_r.
  auto.
Qed.

Lemma builder_add_handle (a b : list cb) e :
  ran (fst (handle sem (builder_add a b) e)) = ran (fst (handle sem a e)) ++ ran (fst (handle sem b e)) /\
  snd (handle sem (builder_add a b) e) = snd (handle sem a e) || snd (handle sem b e).
Proof.
  destruct (handle_spec a e) as (A1 & A2 & _), (handle_spec b e) as (B1 & B2 & _), (handle_spec (builder_add a b) e) as (C1 & C2 & _).
  rewrite A1, A2, B1, B2, C1, C2. unfold builder_add. rewrite filter_app, map_app, existsb_app. auto.
Qed.

Variable leqb : L -> L -> bool.
Variable limpl : L -> L -> bool.
Variable lneg : L -> option L.
Variable U : L -> Prop.
Hypothesis T : truthful sem leqb limpl lneg U.

Lemma op_and_leaves a b : all_leaves U a -> all_leaves U b -> all_leaves U (op_and L leqb limpl lneg a b).
Proof. intros Ha Hb. exact (proj1 (simplify_sound sem leqb limpl lneg U T (And a b) (conj Ha Hb))). Qed.
Lemma match_all_leaves ms : Forall (all_leaves U) ms -> all_leaves U (match_all L leqb limpl lneg ms).
Proof.
  intros H. unfold match_all. apply (simplify_sound sem leqb limpl lneg U T).
  apply fold_and_allU; [exact I|exact H].
Qed.
Lemma negate_leaves m : all_leaves U m -> all_leaves U (negate L lneg m).
Proof. apply (negate_allU sem leqb limpl lneg U T). Qed.
Lemma distr_leaves l r : all_leaves U l -> all_leaves U r -> all_leaves U (distr l r).
Proof. intros Hl. induction r; cbn; intros; tauto. Qed.
Lemma dist_leaves l r : all_leaves U l -> all_leaves U r -> all_leaves U (dist l r).
Proof. intros Hl Hr. induction l; cbn in *; try (apply distr_leaves; cbn; tauto). tauto. Qed.
Lemma dnf_leaves m : all_leaves U m -> forall pos, all_leaves U (dnf L lneg pos m).
Proof.
  induction m as [l| | |a IHa b IHb|a IHa b IHb|a IHa]; intros H [|]; cbn in H |- *; auto;
    try (destruct H as [Ha Hb]; first [apply dist_leaves; auto|cbn; auto]; fail).
  - destruct (lneg l) eqn:Hl; cbn; auto. eapply (t_closed _ _ _ _ _ T); eauto.
  - specialize (IHa H). destruct a; auto; exact (IHa false).
Qed.
Lemma sop_leaves m : all_leaves U m -> all_leaves U (sum_of_products L lneg m).
Proof. intros H. exact (dnf_leaves m H true). Qed.
Lemma sop_same m e : eval (sum_of_products L lneg m) e = eval m e.
Proof. apply sop_eval. exact (t_neg _ _ _ _ _ T). Qed.

(** Building a declared callback: construction, then each runtime condition. *)
Definition build (d : declaration L) : cb :=
  fold_left (fun c p => make_conditional leqb limpl lneg p c) (d_conds d)
            (make_callback leqb limpl lneg (d_id d) (d_user d) (d_fields d)).

Lemma conditions_spec id ps : Forall U ps -> forall (acc : E -> bool) (base : cb),
  (all_leaves U (cb_matcher base) /\ cb_id base = id /\ forall e, eval (cb_matcher base) e = acc e) ->
  let c := fold_left (fun c p => make_conditional leqb limpl lneg p c) ps base in
  all_leaves U (cb_matcher c) /\ cb_id c = id /\
  forall e, eval (cb_matcher c) e = acc e && forallb (fun c => sem c e) ps.
Proof.
  cbn zeta. induction 1 as [|p ps Hp Hps IH]; intros acc base (H1 & H2 & H3); cbn [fold_left forallb].
  - split; [auto|]. split; [auto|]. intros e. rewrite andb_true_r. auto.
  - destruct (IH (fun e => acc e && sem p e) (make_conditional leqb limpl lneg p base)) as (K1 & K2 & K3).
    { unfold make_conditional. cbn [cb_matcher cb_id]. split; [apply sop_leaves, op_and_leaves; auto|]. split; [auto|].
      intros e. rewrite sop_same, (op_and_sound sem leqb limpl lneg U T); auto. rewrite H3. reflexivity. }
    split; [auto|]. split; [auto|]. intros e. rewrite K3, andb_assoc. reflexivity.
Qed.

Lemma build_spec d : decl_leaves U d ->
  all_leaves U (cb_matcher (build d)) /\ cb_id (build d) = d_id d /\
  forall e, eval (cb_matcher (build d)) e = accepts sem d e.
Proof.
  intros (Hu & Hf & Hc). unfold build, accepts.
  set (base := make_callback leqb limpl lneg (d_id d) (d_user d) (d_fields d)).
  assert (Hbase : all_leaves U (cb_matcher base) /\ cb_id base = d_id d /\
    forall e, eval (cb_matcher base) e =
      match d_user d with Some m => eval m e | None => true end && forallb (fun m => eval m e) (d_fields d)).
  { unfold base, make_callback, msg_matcher. cbn [cb_matcher cb_id].
    pose proof (match_all_leaves _ Hf) as HL.
    pose proof (match_all_sound sem leqb limpl lneg U T _ Hf) as HS.
    destruct (d_user d) as [m|].
    - split; [apply sop_leaves, op_and_leaves; auto|]. split; [reflexivity|].
      intros e. rewrite sop_same, (op_and_sound sem leqb limpl lneg U T); auto. rewrite HS. reflexivity.
    - split; [exact HL|]. split; [reflexivity|]. intros e. rewrite HS. reflexivity. }
  exact (conditions_spec (d_id d) (d_conds d) Hc _ base Hbase).
Qed.

Lemma handle_declared ds : Forall (decl_leaves U) ds -> forall e,
  let r := handle sem (map build ds) e in
  ran (fst r) = map d_id (filter (fun d => accepts sem d e) ds) /\
  snd r = existsb (fun d => accepts sem d e) ds /\
  errors (fst r) = (if existsb (fun d => accepts sem d e) ds then 0 else 1) /\
  is_match sem (map build ds) e = snd r.
Proof.
  intros H e. cbn zeta. destruct (handle_spec (map build ds) e) as (H1 & H2 & H3 & H4).
  assert (K : existsb (fun c => eval (cb_matcher c) e) (map build ds) = existsb (fun d => accepts sem d e) ds /\
              map cb_id (filter (fun c => eval (cb_matcher c) e) (map build ds)) = map d_id (filter (fun d => accepts sem d e) ds)).
  { clear -H T. induction H as [|d ds Hd _ [IH1 IH2]]; cbn; auto.
    destruct (build_spec d Hd) as (_ & Bid & Bev). rewrite Bev, IH1. split; auto.
    destruct (accepts sem d e); cbn; rewrite ?Bid, IH2; auto. }
  destruct K as [K1 K2]. rewrite H1, H2, H3, H4, K1, K2, H2, K1. auto.
Qed.

(** Splitting at the top-level ors. *)
Lemma split_terms_eval (m : mexpr L) id e :
  existsb (fun c => eval (cb_matcher c) e) (split_terms m id) = eval m e.
Proof. induction m; cbn; rewrite ?orb_false_r; auto. rewrite existsb_app, IHm1, IHm2. reflexivity. Qed.
Lemma split_terms_id (m : mexpr L) id (c : cb) : In c (split_terms m id) -> cb_id c = id.
Proof. induction m; cbn; try (intros [<-|[]]; reflexivity). rewrite in_app_iff. tauto. Qed.

Lemma separate_eval c e : all_leaves U (cb_matcher c) ->
  existsb (fun t => eval (cb_matcher t) e) (separate_sum_terms leqb limpl lneg c) = eval (cb_matcher c) e.
Proof.
  intros H. unfold separate_sum_terms. rewrite split_terms_eval, sop_same.
  rewrite (match_all_sound sem leqb limpl lneg U T); [|auto]. cbn. apply andb_true_r.
Qed.
End Plain.

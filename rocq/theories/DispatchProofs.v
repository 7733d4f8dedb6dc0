(** Proofs about projects with message services: matchers of listeners. *)
From Coq Require Import String Bool Arith ZArith List Lia.
From Verif Require Import MatchModel MatchSpec MatchProofs FieldMatchersModel FieldMatchersSpec FieldMatchersProofs
  HandlerModel HandlerSpec HandlerProofs IndexedProofs HandlerProofs2 FlowModel NexusModel NexusSpec NexusProofs DispatchModel DispatchSpec.
Import ListNotations.
Local Notation leaf := FieldMatchersModel.leaf.
Local Notation Leaf := MatchModel.Leaf.
Local Notation callback := HandlerModel.callback.
Local Notation cb_id := HandlerModel.cb_id.

(** ** Conjunctions stay conjunctions *)
Section Conj.
Context {L : Type} (leqb limpl : L -> L -> bool) (lneg : L -> option L).
Lemma conj_cost_negate (m : mexpr L) : conj_of_leaves m -> cost m <= cost (negate L lneg m).
Proof. destruct m as [l| | |a b|a b|a]; cbn; try lia; try tauto. destruct (lneg l); cbn; lia. Qed.
Definition keeps (m m' : mexpr L) : Prop := conj_of_leaves m' /\ incl (leaves m') (leaves m).
Lemma simplify_and_conj a b : conj_of_leaves a -> conj_of_leaves b -> keeps (And a b) (simplify_and L leqb limpl lneg a b).
Proof.
  intros Ha Hb. unfold simplify_and, keeps. cbn [leaves]. destruct (implies _ _ _ a b); [split; auto; apply incl_appl, incl_refl|].
  destruct (implies _ _ _ b a); [split; auto; apply incl_appr, incl_refl|].
  destruct (implies _ _ _ a _ || implies _ _ _ b _)%bool; [split; cbn; [auto|apply incl_nil_l]|].
  unfold de_morgan_and. cbn [negate]. pose proof (conj_cost_negate a Ha). pose proof (conj_cost_negate b Hb).
  destruct (Nat.ltb_spec (cost (Not (Or (negate L lneg a) (negate L lneg b)))) (cost (And a b))) as [C|_]; [cbn in C; lia|].
  cbn. split; [auto|apply incl_refl].
Qed.
Lemma simplify_conj m : conj_of_leaves m -> keeps m (simplify L leqb limpl lneg m).
Proof.
  induction m as [l| | |a IHa b IHb|a IHa b IHb|a IHa]; cbn [conj_of_leaves]; try tauto; try (intros _; split; cbn; auto; apply incl_refl).
  intros [Ha Hb]. destruct (IHa Ha) as [A1 A2], (IHb Hb) as [B1 B2]. cbn [simplify]. destruct (simplify_and_conj _ _ A1 B1) as [C1 C2].
  split; auto. cbn [leaves] in *. eapply incl_tran; [exact C2|]. apply incl_app; [apply incl_appl, A2|apply incl_appr, B2].
Qed.
Lemma dist_conj (a b : mexpr L) : conj_of_leaves a -> conj_of_leaves b -> dist a b = And a b.
Proof. intros Ha Hb. destruct a; cbn in Ha; try contradiction; cbn [dist]; destruct b; cbn in Hb; try contradiction; reflexivity. Qed.
Lemma sop_conj m : conj_of_leaves m -> sum_of_products L lneg m = m.
Proof.
  unfold sum_of_products. induction m as [l| | |a IHa b IHb|a IHa b IHb|a IHa]; cbn [conj_of_leaves]; try tauto; try (intros _; reflexivity).
  intros [Ha Hb]. cbn [dnf]. rewrite IHa, IHb by auto. apply dist_conj; auto.
Qed.
Lemma fold_and_conj (ms : list (mexpr L)) : forall acc, conj_of_leaves acc -> Forall conj_of_leaves ms ->
  conj_of_leaves (fold_left And ms acc) /\ leaves (fold_left And ms acc) = (leaves acc ++ flat_map leaves ms)%list.
Proof.
  induction ms as [|m ms IH]; intros acc Ha H; cbn [fold_left flat_map]; [rewrite app_nil_r; auto|]. inversion H; subst.
  destruct (IH (And acc m)) as [K1 K2]; cbn; auto. split; auto. rewrite K2. cbn. rewrite <- app_assoc. reflexivity.
Qed.
Lemma match_all_conj ms : Forall conj_of_leaves ms -> conj_of_leaves (match_all L leqb limpl lneg ms) /\ incl (leaves (match_all L leqb limpl lneg ms)) (flat_map leaves ms).
Proof.
  intros H. unfold match_all. destruct (fold_and_conj ms Always I H) as [H1 H2]. destruct (simplify_conj _ H1) as [K1 K2]. rewrite H2 in K2. auto.
Qed.
Lemma op_and_conj a b : conj_of_leaves a -> conj_of_leaves b -> keeps (And a b) (op_and L leqb limpl lneg a b).
Proof. intros Ha Hb. unfold op_and. apply simplify_conj. split; auto. Qed.
Lemma separate_conj c : conj_of_leaves (cb_matcher c) -> exists m, separate_sum_terms leqb limpl lneg c = [{| HandlerModel.cb_id := cb_id c; cb_matcher := m |}] /\
  conj_of_leaves m /\ incl (leaves m) (leaves (cb_matcher c)).
Proof.
  intros H. unfold separate_sum_terms. destruct (match_all_conj [cb_matcher c]) as [H1 H2]; [auto|]. rewrite sop_conj by auto.
  cbn [flat_map] in H2. rewrite app_nil_r in H2. exists (match_all L leqb limpl lneg [cb_matcher c]). split; [|auto].
  destruct (match_all L leqb limpl lneg [cb_matcher c]); cbn in H1; try contradiction; reflexivity.
Qed.
End Conj.

Section Items.
Context (ftype : nat -> cty) (cond_no : cond -> nat).
Notation callback_of := (callback_of ftype cond_no).
Notation build := (HandlerProofs.build leaf_eqb (leaf_implies ftype) leaf_neg).
(** What is declared. *)
Definition decl_of (i : item) (cs : list cond) : declaration leaf :=
  {| d_id := i_name i; d_user := i_user i; d_fields := i_fields i; d_conds := map (fun c => Pred (cond_no c)) cs |}.
Lemma fold_left_map {X Y Z} (f : X -> Y -> X) (g : Z -> Y) l : forall a, fold_left f (map g l) a = fold_left (fun x z => f x (g z)) l a.
Proof. induction l; cbn; auto. Qed.
Lemma callback_of_build i : callback_of i = build (decl_of i (i_conds i)).
Proof. unfold DispatchModel.callback_of, HandlerProofs.build. cbn [decl_of d_conds d_id d_user d_fields]. rewrite fold_left_map. reflexivity. Qed.

(** ** The classes of matchers *)
Lemma positive_of m : negation_free m -> (forall l, In l (leaves m) -> leaf_in_range ftype l /\ not_ne l) -> positive (Upos ftype) m.
Proof.
  induction m as [l| | |a IHa b IHb|a IHa b IHb|a IHa]; cbn; try tauto.
  - intros _ H. apply H. auto.
  - intros [Ha Hb] H. split; [apply IHa|apply IHb]; auto; intros; apply H; apply in_app_iff; auto.
  - intros [Ha Hb] H. split; [apply IHa|apply IHb]; auto; intros; apply H; apply in_app_iff; auto.
Qed.
Lemma all_leaves_of (U : leaf -> Prop) (m : fexpr) : (forall l, In l (leaves m) -> U l) -> all_leaves U m.
Proof.
  induction m as [l| | |a IHa b IHb|a IHa b IHb|a IHa]; cbn; auto.
  - intros H. split; [apply IHa|apply IHb]; intros; apply H; apply in_app_iff; auto.
  - intros H. split; [apply IHa|apply IHb]; intros; apply H; apply in_app_iff; auto.
Qed.
Lemma leaves_of_all (U : leaf -> Prop) (m : fexpr) l : all_leaves U m -> In l (leaves m) -> U l.
Proof.
  induction m as [x| | |a IHa b IHb|a IHa b IHb|a IHa]; cbn; try tauto.
  - intros H [<-|[]]; auto.
  - rewrite in_app_iff. tauto.
  - rewrite in_app_iff. tauto.
Qed.
Lemma asks_user i m l : i_user i = Some m -> In l (leaves m) -> In l (asks_leaves i).
Proof. intros H Hl. unfold asks_leaves. rewrite H. apply in_app_iff. auto. Qed.
Lemma asks_field i m l : In m (i_fields i) -> In l (leaves m) -> In l (asks_leaves i).
Proof. intros H Hl. unfold asks_leaves. apply in_app_iff. right. apply in_flat_map. eauto. Qed.
Lemma sound_decl i cs : sound_item ftype i -> decl_positive ftype (decl_of i cs) \/ exists c, decl_leaves (Uone ftype c) (decl_of i cs).
Proof.
  intros [HR [[[N1 N2] HN]|[c Hc]]]; [left|right; exists c].
  - split; [|split]; cbn [decl_of d_user d_fields d_conds].
    + destruct (i_user i) as [m|] eqn:E; auto. apply positive_of; auto. intros l Hl. pose proof (asks_user i m l E Hl). auto.
    + apply Forall_forall. intros m Hm. apply positive_of; [rewrite Forall_forall in N2; auto|]. intros l Hl. pose proof (asks_field i m l Hm Hl). auto.
    + apply Forall_forall. intros l Hl. apply in_map_iff in Hl as (d & <- & _). split; exact I.
  - split; [|split]; cbn [decl_of d_user d_fields d_conds].
    + destruct (i_user i) as [m|] eqn:E; auto. apply all_leaves_of. intros l Hl. pose proof (asks_user i m l E Hl). split; auto.
    + apply Forall_forall. intros m Hm. apply all_leaves_of. intros l Hl. pose proof (asks_field i m l Hm Hl). split; auto.
    + apply Forall_forall. intros l Hl. apply in_map_iff in Hl as (d & <- & _). split; exact I.
Qed.

Context {M W : Type} (fld : nat -> M -> Z) (psem : nat -> M * W -> bool).
Notation fld2 := (fun f (e : M * W) => fld f (fst e)).
Notation sem := (leaf_sem fld2 psem).
Hypothesis Hty : forall f, cty_ok (ftype f).
Hypothesis Hfld : forall f m, in_range (ftype f) (fld f m).
Lemma Hfld2 f (e : M * W) : in_range (ftype f) (fld2 f e). Proof. apply Hfld. Qed.

(** The meaning of what is built is what is declared, and the library's [and] is
    sound on it. *)
Lemma built i cs : sound_item ftype i ->
  (forall e, eval sem (cb_matcher (build (decl_of i cs))) e = accepts sem (decl_of i cs) e) /\
  cb_id (build (decl_of i cs)) = i_name i /\
  exists G : fexpr -> Prop, G Always /\ G Never /\ (forall a b, G a -> G b -> G (fand ftype a b) /\ forall e, eval sem (fand ftype a b) e = eval sem a e && eval sem b e) /\
    G (cb_matcher (build (decl_of i cs))) /\ (forall m l, G m -> In l (leaves m) -> G (Leaf l)) /\
    (forall e m, G m -> eval sem (match_all leaf leaf_eqb (leaf_implies ftype) leaf_neg [m]) e = eval sem m e) /\
    (forall m, G m -> G (match_all leaf leaf_eqb (leaf_implies ftype) leaf_neg [m])).
Proof.
  intros S. destruct (sound_decl i cs S) as [D|[c D]].
  - destruct (build_positive ftype fld2 psem Hty Hfld2 _ D) as (P & I & V). split; auto. split; auto. exists (positive (Upos ftype)).
    split; [exact Logic.I|]. split; [exact Logic.I|]. split; [apply (positive_and ftype fld2 psem Hty Hfld2)|]. split; auto.
    split; [intros m l; apply (positive_leaf ftype)|]. split.
    + intros e m Hm. destruct (positive_all ftype fld2 psem Hty Hfld2 [m]) as [_ A]; auto. unfold fall in A. rewrite A. cbn. apply andb_true_r.
    + intros m Hm. destruct (positive_all ftype fld2 psem Hty Hfld2 [m]) as [A _]; auto.
  - pose proof (truthful_one ftype fld2 psem Hty Hfld2 c) as T. destruct (build_spec sem _ _ _ _ T _ D) as (P & I & V). split; auto. split; auto.
    exists (all_leaves (Uone ftype c)). split; [exact Logic.I|]. split; [exact Logic.I|].
    split; [intros a b Ha Hb; split; [eapply op_and_leaves; eauto|eapply op_and_sound; eauto]|]. split; auto.
    split; [intros m l; apply leaves_of_all|]. split.
    + intros e m Hm. rewrite (match_all_sound sem _ _ _ _ T); auto. cbn. apply andb_true_r.
    + intros m Hm. eapply match_all_leaves; eauto.
Qed.
(** Conjunctions. *)
Lemma built_conj i cs : each_matcher conj_of_leaves i -> conj_of_leaves (cb_matcher (build (decl_of i cs))) /\
  incl (leaves (cb_matcher (build (decl_of i cs)))) (asks_leaves i ++ map (fun c => Pred (cond_no c)) cs).
Proof.
  intros [U F]. unfold HandlerProofs.build. cbn [decl_of d_conds d_id d_user d_fields].
  assert (B : conj_of_leaves (cb_matcher (make_callback leaf_eqb (leaf_implies ftype) leaf_neg (i_name i) (i_user i) (i_fields i))) /\
    incl (leaves (cb_matcher (make_callback leaf_eqb (leaf_implies ftype) leaf_neg (i_name i) (i_user i) (i_fields i)))) (asks_leaves i)).
  { unfold make_callback, msg_matcher, asks_leaves. cbn [cb_matcher]. destruct (match_all_conj leaf_eqb (leaf_implies ftype) leaf_neg _ F) as [H1 H2].
    destruct (i_user i) as [m|]; [|split; auto]. specialize (U m eq_refl). destruct (op_and_conj leaf_eqb (leaf_implies ftype) leaf_neg _ _ U H1) as [K1 K2].
    rewrite (sop_conj leaf_eqb (leaf_implies ftype)) by auto. split; auto. eapply incl_tran; [exact K2|]. cbn [leaves]. apply incl_app; [apply incl_appl, incl_refl|apply incl_appr, H2]. }
  revert B. generalize (make_callback leaf_eqb (leaf_implies ftype) leaf_neg (i_name i) (i_user i) (i_fields i)) as base. generalize (asks_leaves i) as ls.
  clear U F. induction cs as [|c cs IH]; intros ls base [B1 B2]; cbn [map fold_left]; [rewrite app_nil_r; auto|].
  destruct (op_and_conj leaf_eqb (leaf_implies ftype) leaf_neg _ (Leaf (Pred (cond_no c))) B1 Logic.I) as [K1 K2].
  destruct (IH (ls ++ [Pred (cond_no c)]) (make_conditional leaf_eqb (leaf_implies ftype) leaf_neg (Pred (cond_no c)) base)) as [J1 J2].
  - unfold make_conditional. cbn [cb_matcher]. rewrite (sop_conj leaf_eqb (leaf_implies ftype)) by auto. split; auto. eapply incl_tran; [exact K2|]. cbn [leaves].
    apply incl_app; [apply incl_appl, B2|apply incl_appr, incl_refl].
  - split; auto. rewrite <- app_assoc in J2. exact J2.
Qed.

(** What a listener wants. *)
Context (pred : nat -> W -> bool).
Lemma accepts_wants i cs m w : (forall c, In c cs -> psem (cond_no c) (m, w) = holds (fun p => pred p w) c) ->
  accepts sem (decl_of i cs) (m, w) = wants fld psem pred {| l_item := i; l_conds := cs |} m w.
Proof.
  intros H. unfold accepts, wants, holds_of. cbn [decl_of d_user d_fields d_conds l_item l_conds]. f_equal.
  induction cs as [|c cs IH]; cbn [map forallb]; auto. rewrite IH by (intros; apply H; right; auto). cbn [leaf_sem]. rewrite H by (left; auto). reflexivity.
Qed.

(** ** The tests of an indexed handler *)
Lemma candidate_wants fs (cbs : list (callback leaf)) i c (G : fexpr -> Prop) m w :
  fs <> [] -> Forall (fun c => conj_of_leaves (cb_matcher c)) cbs ->
  G Always -> G Never -> (forall a b, G a -> G b -> G (fand ftype a b) /\ forall e, eval sem (fand ftype a b) e = eval sem a e && eval sem b e) ->
  (forall l, In l (leaves (cb_matcher c)) -> G (Leaf l)) ->
  (forall f, In f fs -> index_clean f (map cb_matcher cbs)) -> nth_error cbs i = Some c ->
  (if candidates fld fs cbs m i then eval sem (remove_terms ftype fs (cb_matcher c)) (m, w) else false) = eval sem (cb_matcher c) (m, w).
Proof.
  intros Hfs Hc G1 G2 G3 HG HX Hi.
  assert (Hcm : conj_of_leaves (cb_matcher c)) by (rewrite Forall_forall in Hc; apply Hc, (nth_error_In _ _ Hi)).
  assert (Hlit : Forall (fun c => conj_of_literals (cb_matcher c)) cbs) by (eapply Forall_impl; [|exact Hc]; intros; apply conj_leaves_literals; auto).
  destruct (remove_spec ftype fld2 psem G G1 G2 G3 fs (cb_matcher c) Hcm (fun l Hl _ => HG l Hl)) as [_ HR]. specialize (HR (m, w)).
  change (candidates fld fs cbs m i) with (candidates fld2 fs cbs (m, w) i).
  apply eq_true_iff_eq. split.
  - intros H. destruct (candidates fld2 fs cbs (m, w) i) eqn:Hcand; [|discriminate]. apply HR. unfold candidates in Hcand. destruct fs as [|f0 fs']; [congruence|]. rewrite forallb_forall in Hcand.
    assert (HB : forall f, In f (f0 :: fs') -> (forall k, In (Rel f REq k) (leaves (cb_matcher c)) -> k = fld f m) /\ (forall k, In (Rel f RNe k) (leaves (cb_matcher c)) -> k <> fld f m)).
    { intros f Hf. apply (build_index_exact f (map cb_matcher cbs) (fld f m) i); auto.
      - apply Forall_map. exact Hlit.
      - rewrite nth_error_map, Hi. reflexivity. }
    split; [|split; auto]; intros f v Hf Hl; destruct (HB f Hf); eauto.
  - intros He. rewrite (candidates_complete ftype fld2 psem fs cbs (m, w) i c); auto. apply HR in He. apply He.
Qed.
End Items.

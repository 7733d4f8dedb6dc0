(** Proofs about projects with message services: what runs is what is specified. *)
From Coq Require Import String Bool Arith ZArith List Lia.
From Verif Require Import MatchModel MatchSpec MatchProofs FieldMatchersModel FieldMatchersSpec FieldMatchersProofs
  HandlerModel HandlerSpec HandlerProofs IndexedProofs HandlerProofs2 FlowModel NexusModel NexusSpec NexusProofs NexusProofs2 DispatchModel DispatchSpec DispatchProofs.
Import ListNotations.
Local Notation leaf := FieldMatchersModel.leaf.
Local Notation callback := HandlerModel.callback.
Local Notation cb_id := HandlerModel.cb_id.
Local Notation run_send := DispatchModel.run_send.

(** ** Items and listeners *)
Definition same_as (i : item) (a : listener) : Prop := when_all item_when (l_conds a) (l_item a) = Some i.
Lemma when_written cs : forall i i', when_all item_when cs i = Some i' ->
  match i_call i with Pointer _ => cs = [] | _ => True end ->
  i_name i' = i_name i /\ i_user i' = i_user i /\ i_fields i' = i_fields i /\ i_conds i' = i_conds i ++ cs /\ called (i_call i') = called (i_call i).
Proof.
  induction cs as [|c cs IH]; intros i i'; cbn [when_all].
  - intros [= <-] _. rewrite app_nil_r. repeat split.
  - unfold item_when at 1. destruct (i_call i) as [f|f|f] eqn:E; cbn [value_init option_map]; [|discriminate|intros _ [=]].
    intros H _. destruct (IH _ _ H I) as (H1 & H2 & H3 & H4 & H5). cbn [i_name i_user i_fields i_conds i_call] in *.
    rewrite <- app_assoc in H4. repeat split; auto.
Qed.
Lemma same_written i a : same_as i a -> written a ->
  i_name i = i_name (l_item a) /\ i_user i = i_user (l_item a) /\ i_fields i = i_fields (l_item a) /\ i_conds i = l_conds a /\
  called (i_call i) = called (i_call (l_item a)) /\ called (i_call i) <> None.
Proof.
  intros S [W1 W2]. destruct (when_written _ _ _ S) as (H1 & H2 & H3 & H4 & H5).
  - destruct (i_call (l_item a)) as [f|f|[f|]]; auto. contradiction.
  - rewrite W1 in H4. repeat split; auto. rewrite H5. destruct (i_call (l_item a)) as [f|f|[f|]]; cbn; try discriminate. contradiction.
Qed.
Lemma Forall2_rev {X Y} (R : X -> Y -> Prop) l l' : Forall2 R l l' -> Forall2 R (rev l) (rev l').
Proof. induction 1; cbn [rev]; [constructor|]. apply Forall2_app; auto. Qed.
Lemma Forall2_concat {X Y} (R : X -> Y -> Prop) l l' : Forall2 (Forall2 R) l l' -> Forall2 R (concat l) (concat l').
Proof. induction 1; cbn [concat]; [constructor|]. apply Forall2_app; auto. Qed.
Lemma Forall2_len {X Y} (R : X -> Y -> Prop) l l' : Forall2 R l l' -> length l = length l'.
Proof. induction 1; cbn; congruence. Qed.
Lemma gathered_contributions ex s os l : contributions item_when ex s os l -> exists g, gathered ex s os g /\ Forall2 (Forall2 same_as) l g.
Proof.
  induction 1 as [|t cs a a' o l Hm Ha C (g & G & F)|t cs a s' o l Hm Hs C (g & G & F)].
  - exists []. split; constructor.
  - exists (map (fun i => {| l_item := i; l_conds := cs |}) a :: g). split; [constructor; auto|]. constructor; auto.
    clear -Ha. revert a' Ha. induction a as [|i a IH]; intros [|i' a']; cbn [map]; try discriminate; [constructor|]. intros [= H1 H2]. constructor; auto.
  - exists g. split; auto. econstructor; eauto.
Qed.
Lemma gathered_in ex s os g : gathered ex s os g -> forall b a, In b g -> In a b -> exists t l, In (t, l_conds a, l) os /\ means ex t s /\ In (l_item a) l.
Proof.
  induction 1 as [|t cs l o g Hm G IH|t cs l s' o g Hm Hs G IH]; intros b a Hb Ha.
  - destruct Hb.
  - destruct Hb as [<-|Hb].
    + apply in_map_iff in Ha as (i & <- & Hi). exists t, l. cbn [l_conds l_item]. split; [left; reflexivity|auto].
    + destruct (IH b a Hb Ha) as (t' & l' & H1 & H2). exists t', l'. split; [right; auto|auto].
  - destruct (IH b a Hb Ha) as (t' & l' & H1 & H2). exists t', l'. split; [right; auto|auto].
Qed.
Lemma gathered_fun ex s os g g' : gathered ex s os g -> gathered ex s os g' -> g = g'.
Proof.
  intros G. revert g'. induction G as [|t cs l o g Hm G IH|t cs l s' o g Hm Hs G IH]; intros g' G'; inversion G'; subst; auto.
  - f_equal. auto.
  - exfalso. match goal with H : ?s' <> s |- _ => apply H end. eapply means_unique; eauto.
  - exfalso. apply Hs. eapply means_unique; eauto.
Qed.
Lemma listeners_fun x s l l' : listeners x s l -> listeners x s l' -> l = l'.
Proof. intros (g & G & ->) (g' & G' & ->). rewrite (gathered_fun _ _ _ _ _ G G'). reflexivity. Qed.
Lemma listeners_listen x s l a : listeners x s l -> In a l -> listens x s a.
Proof.
  intros (g & G & ->) H. apply in_concat in H as (b & Hb & Ha). apply in_rev in Hb. apply (gathered_in _ _ _ _ G b a Hb Ha).
Qed.

Section Run.
Context (ftype : nat -> cty) (cond_no : cond -> nat) (kind_of : svc -> kind).
Context {M W : Type} (fld : nat -> M -> Z) (psem : nat -> M * W -> bool) (pred : nat -> W -> bool) (act : nat -> W -> W)
  (body : nat -> nat -> M -> @prog M W) (nexus : nat -> config item).
Hypothesis CP : clear_project ftype fld psem pred cond_no kind_of nexus.
Notation handler_of := (handler_of ftype cond_no kind_of).
Notation wants := (wants fld psem pred).
Notation does := (does fld psem pred act body nexus kind_of).
Notation handles := (handles fld psem pred act body nexus kind_of).
Notation hears := (hears fld psem pred act body nexus kind_of).
Notation run_entries := (run_entries fld psem act body nexus).
Notation tests := (tests ftype fld psem).
Notation eval_at := (eval_at fld psem).
Notation sem := (leaf_sem (fun f (e : M * W) => fld f (fst e)) psem).

Lemma handler_listeners x s h : handler_of x s = Some h -> exported s x /\ exists items l, listeners x s l /\ Forall2 same_as items l /\
  h = {| h_kind := kind_of s; h_callbacks := flat_map (entries_of ftype cond_no (kind_of s)) items |}.
Proof.
  unfold DispatchModel.handler_of. destruct (builders item_when x) as [bs|] eqn:E; [|discriminate]. destruct (builder_of bs s) as [items|] eqn:B; [|discriminate]. intros [= <-].
  destruct (builders_services item_when x bs E) as [_ HS]. split.
  - apply exported_exports, HS. unfold builder_of in B. destruct (find _ bs) as [p|] eqn:F; [|discriminate]. apply find_some in F as [F1 F2].
    apply svc_eqb_eq in F2. subst. apply in_map. auto.
  - destruct (builders_items item_when x bs s items E B) as (l & C & ->). destruct (gathered_contributions _ _ _ _ C) as (g & G & F).
    exists (concat (rev l)), (concat (rev g)). split; [exists g; auto|]. split; auto. apply Forall2_concat, Forall2_rev, F.
Qed.
Lemma handler_exported x s : builders item_when x <> None -> exported s x -> handler_of x s <> None.
Proof.
  intros B S. unfold DispatchModel.handler_of. destruct (builders item_when x) as [bs|] eqn:E; [|congruence].
  destruct (builders_services item_when x bs E) as [_ HS]. destruct (builder_of_some bs s) as (it & ->); [|discriminate].
  apply HS, exported_exports, S.
Qed.

(** ** What an item is built to *)
Lemma item_meaning n s i a : exported s (nexus n) -> listens (nexus n) s a -> same_as i a ->
  cb_id (callback_of ftype cond_no i) = i_name (l_item a) /\
  (forall m w, eval_at m w (cb_matcher (callback_of ftype cond_no i)) = wants a m w).
Proof.
  intros E L S. destruct (cp_written _ _ _ _ _ _ _ CP n s a E L) as [Wr So]. destruct (same_written _ _ S Wr) as (H1 & H2 & H3 & H4 & _).
  assert (So' : sound_item ftype i).
  { unfold sound_item, asks_leaves, each_matcher in *. rewrite H2, H3. exact So. }
  destruct (built ftype cond_no fld psem (cp_types _ _ _ _ _ _ _ CP) (cp_values _ _ _ _ _ _ _ CP) i (i_conds i) So') as (B1 & B2 & _).
  rewrite callback_of_build. split; [rewrite B2; exact H1|]. intros m w. unfold DispatchModel.eval_at. rewrite B1.
  rewrite (accepts_wants cond_no fld psem pred).
  - unfold DispatchSpec.wants. cbn [l_item l_conds]. rewrite H2, H3, H4. reflexivity.
  - intros c Hc. rewrite H4 in Hc. apply (cp_conds _ _ _ _ _ _ _ CP n s a c E L Hc).
Qed.

(** ** Entries that do the same *)
Inductive alike (m : M) : list ((W -> bool) * (nat * callable)) -> list listener -> Prop :=
| alike_nil : alike m [] []
| alike_cons f name c l a ls : (forall w, f w = wants a m w) -> name = i_name (l_item a) -> called c = called (i_call (l_item a)) -> called c <> None -> alike m l ls -> alike m ((f, (name, c)) :: l) (a :: ls)
| alike_skip l a ls : (forall w, wants a m w = false) -> alike m l ls -> alike m l (a :: ls).

Lemma plain_alike n s m items ls : exported s (nexus n) -> (forall a, In a ls -> listens (nexus n) s a) -> Forall2 same_as items ls ->
  alike m (map (fun e => ((fun w => eval_at m w (cb_matcher (fst e))), (cb_id (fst e), snd e))) (flat_map (entries_of ftype cond_no Plain) items)) ls.
Proof.
  intros E HL F. induction F as [|i a items ls S F IH]; cbn [flat_map map entries_of app]; [constructor|].
  assert (La : listens (nexus n) s a) by (apply HL; left; auto). destruct (item_meaning n s i a E La S) as [H1 H2].
  destruct (same_written i a S) as (_ & _ & _ & _ & H3 & H4); [apply (cp_written _ _ _ _ _ _ _ CP n s a E La)|].
  apply alike_cons; auto. apply IH. intros b Hb. apply HL. right; auto.
Qed.

(** The single term of an item of an indexed service. *)
Definition term_of (i : item) : callback leaf :=
  {| HandlerModel.cb_id := cb_id (callback_of ftype cond_no i);
     cb_matcher := match_all leaf leaf_eqb (leaf_implies ftype) leaf_neg [cb_matcher (callback_of ftype cond_no i)] |}.
Lemma term_facts n s i a : exported s (nexus n) -> listens (nexus n) s a -> same_as i a -> each_matcher conj_of_leaves (l_item a) ->
  separate_sum_terms leaf_eqb (leaf_implies ftype) leaf_neg (callback_of ftype cond_no i) = [term_of i] /\
  conj_of_leaves (cb_matcher (term_of i)) /\ incl (leaves (cb_matcher (term_of i))) (asks_leaves (l_item a) ++ map (fun c => Pred (cond_no c)) (l_conds a)) /\
  cb_id (term_of i) = i_name (l_item a) /\
  (forall m w, eval sem (cb_matcher (term_of i)) (m, w) = wants a m w) /\
  exists G : fexpr -> Prop, G Always /\ G Never /\ (forall a b, G a -> G b -> G (fand ftype a b) /\ forall e, eval sem (fand ftype a b) e = eval sem a e && eval sem b e) /\
    (forall l, In l (leaves (cb_matcher (term_of i))) -> G (MatchModel.Leaf l)).
Proof.
  intros E L S C. destruct (item_meaning n s i a E L S) as [I1 I2]. destruct (cp_written _ _ _ _ _ _ _ CP n s a E L) as [Wr So]. destruct (same_written _ _ S Wr) as (H1 & H2 & H3 & H4 & _).
  assert (So' : sound_item ftype i) by (unfold sound_item, asks_leaves, each_matcher in *; rewrite H2, H3; exact So).
  assert (C' : each_matcher conj_of_leaves i) by (unfold each_matcher in *; rewrite H2, H3; exact C).
  assert (A' : asks_leaves i = asks_leaves (l_item a)) by (unfold asks_leaves; rewrite H2, H3; reflexivity).
  destruct (built ftype cond_no fld psem (cp_types _ _ _ _ _ _ _ CP) (cp_values _ _ _ _ _ _ _ CP) i (i_conds i) So') as (_ & _ & G & G1 & G2 & G3 & G4 & G5 & G6 & G7).
  destruct (built_conj ftype cond_no i (i_conds i) C') as [B1 B2]. rewrite <- callback_of_build in *. rewrite A', H4 in B2.
  destruct (match_all_conj leaf_eqb (leaf_implies ftype) leaf_neg [cb_matcher (callback_of ftype cond_no i)]) as [K1 K2]; [auto|].
  cbn [flat_map] in K2. rewrite app_nil_r in K2. unfold term_of. cbn [cb_matcher HandlerModel.cb_id]. split.
  { unfold separate_sum_terms. rewrite (sop_conj leaf_eqb (leaf_implies ftype)) by auto.
    destruct (match_all leaf leaf_eqb (leaf_implies ftype) leaf_neg [cb_matcher (callback_of ftype cond_no i)]); cbn in K1; try contradiction; reflexivity. }
  split; auto. split; [eapply incl_tran; eauto|]. split; auto. split; [intros m w; rewrite G6 by auto; apply I2|].
  exists G. repeat (split; auto). intros l. apply G5, G7, G4.
Qed.
Lemma In_cond f o v a : In (Rel f o v) (asks_leaves (l_item a) ++ map (fun c => Pred (cond_no c)) (l_conds a)) -> In (Rel f o v) (asks_leaves (l_item a)).
Proof. intros H. apply in_app_iff in H as [H|H]; auto. apply in_map_iff in H as (c & [=] & _). Qed.
Lemma Forall2_nth {X Y} (R : X -> Y -> Prop) l l' : Forall2 R l l' -> forall i x, nth_error l i = Some x -> exists y, nth_error l' i = Some y /\ R x y.
Proof. induction 1 as [|x y l l' H F IH]; intros [|i] z; cbn; try discriminate; [intros [= <-]; eauto|apply IH]. Qed.
Lemma Forall2_in {X Y} (R : X -> Y -> Prop) l l' : Forall2 R l l' -> forall x, In x l -> exists y, In y l' /\ R x y.
Proof. induction 1 as [|x y l l' H F IH]; intros z []; [subst; eauto with datatypes|]. destruct (IH z H0) as (y' & ? & ?). eauto with datatypes. Qed.
Lemma terms_entries n s fs items ls : exported s (nexus n) -> (forall a, In a ls -> listens (nexus n) s a) -> Forall2 same_as items ls ->
  Forall (fun a => each_matcher conj_of_leaves (l_item a)) ls ->
  flat_map (entries_of ftype cond_no (Indexed fs)) items = map (fun i => (term_of i, i_call i)) items.
Proof.
  intros E HL F C. induction F as [|i a items ls S F IH]; cbn [flat_map map entries_of]; auto. inversion C; subst.
  destruct (term_facts n s i a E (HL a (or_introl eq_refl)) S H1) as (T & _). rewrite T. cbn [map app]. f_equal. apply IH; auto. intros b Hb. apply HL. right; auto.
Qed.
Lemma terms_clean n s fs items ls : exported s (nexus n) -> (forall a, In a ls -> listens (nexus n) s a) -> Forall2 same_as items ls ->
  indexable fs ls -> forall f, In f fs -> index_clean f (map cb_matcher (map term_of items)).
Proof.
  intros E HL F (_ & C & X1 & X2 & X3 & X4) f Hf. rewrite Forall_forall in C. rewrite map_map.
  assert (A : forall i a, In a ls -> same_as i a -> forall o v, In (Rel f o v) (leaves (cb_matcher (term_of i))) -> In (Rel f o v) (asks_leaves (l_item a))).
  { intros i a Ha S o v Hv. destruct (term_facts n s i a E (HL a Ha) S (C a Ha)) as (_ & _ & K & _). apply In_cond, K, Hv. }
  assert (B : forall m, In m (map (fun i => cb_matcher (term_of i)) items) -> exists i a, m = cb_matcher (term_of i) /\ In a ls /\ same_as i a).
  { intros m Hm. apply in_map_iff in Hm as (i & <- & Hi). destruct (Forall2_in _ _ _ F i Hi) as (a & Ha & S). eauto. }
  split.
  - intros m v w Hm Hv Hw. destruct (B m Hm) as (i & a & -> & Ha & S). eapply (X1 f a); eauto.
  - intros m v w Hm Hv Hw. destruct (B m Hm) as (i & a & -> & Ha & S). eapply (X2 f a); eauto.
  - intros m v w Hm Hv Hw. destruct (B m Hm) as (i & a & -> & Ha & S). eapply (X3 f a); eauto.
  - intros i j m m' v Hi Hj Hv Hw. rewrite nth_error_map in Hi, Hj. destruct (nth_error items i) as [x|] eqn:Ei; [|discriminate]. destruct (nth_error items j) as [y|] eqn:Ej; [|discriminate].
    injection Hi as <-. injection Hj as <-. destruct (Forall2_nth _ _ _ F i x Ei) as (a & Ha & Sa). destruct (Forall2_nth _ _ _ F j y Ej) as (b & Hb & Sb).
    apply (X4 f i j a b v Hf Ha Hb); [apply (A x a)|apply (A y b)]; auto; eapply nth_error_In; eauto.
Qed.
Lemma indexed_alike_from fs (cand : bits) m items ls : forall k,
  Forall2 same_as items ls ->
  (forall j i a, nth_error items j = Some i -> nth_error ls j = Some a -> cb_id (term_of i) = i_name (l_item a) /\ called (i_call i) = called (i_call (l_item a)) /\ called (i_call i) <> None /\
     forall w, (if cand (k + j)%nat then eval_at m w (remove_terms ftype fs (cb_matcher (term_of i))) else false) = wants a m w) ->
  alike m (indexed_tests ftype fld psem fs cand m k (map (fun i => (term_of i, i_call i)) items)) ls.
Proof.
  intros k F. revert k. induction F as [|i a items ls Si F IH]; intros k H; cbn [map indexed_tests]; [constructor|].
  destruct (H 0 i a eq_refl eq_refl) as (H1 & H2 & H3 & H4). rewrite Nat.add_0_r in H4.
  assert (R : alike m (indexed_tests ftype fld psem fs cand m (S k) (map (fun i => (term_of i, i_call i)) items)) ls).
  { apply IH. intros j i' a' Hi Ha. specialize (H (S j) i' a' Hi Ha). replace (k + S j) with (S k + j) in H by lia. exact H. }
  destruct (cand k); [apply alike_cons; auto|apply alike_skip; auto].
Qed.
Lemma handler_alike n s h m : handler_of (nexus n) s = Some h -> exists ls, exported s (nexus n) /\ listeners (nexus n) s ls /\ alike m (tests h m) ls /\
  complaint h = nobody kind_of s ls.
Proof.
  intros H. destruct (handler_listeners _ _ _ H) as (E & items & ls & L & F & ->). exists ls. split; auto. split; auto.
  assert (HL : forall a, In a ls -> listens (nexus n) s a) by (intros a; apply listeners_listen; auto).
  unfold DispatchModel.tests, complaint, nobody. cbn [h_kind h_callbacks]. destruct (kind_of s) as [|fs] eqn:K.
  - split; [eapply plain_alike; eauto|]. f_equal. clear -CP F HL E. induction F as [|i a items ls S F IH]; cbn [flat_map map entries_of app]; auto.
    destruct (item_meaning n s i a E (HL a (or_introl eq_refl)) S) as [H1 _]. cbn [fst]. rewrite H1. f_equal. apply IH. intros b Hb. apply HL. right; auto.
  - split; auto. pose proof (cp_indexed _ _ _ _ _ _ _ CP n s fs ls E K L) as X. pose proof X as (Hfs & C & _).
    rewrite (terms_entries n s fs items ls E HL F C). rewrite map_map. cbn [fst]. apply indexed_alike_from; auto.
    intros j i a Hi Ha. rewrite Forall_forall in C. assert (Ia : In a ls) by (eapply nth_error_In; eauto).
    destruct (Forall2_nth _ _ _ F j i Hi) as (a' & Ha' & Si). rewrite Ha in Ha'. injection Ha' as <-.
    destruct (term_facts n s i a E (HL a Ia) Si (C a Ia)) as (_ & T2 & T3 & T4 & T5 & G & G1 & G2 & G3 & G4).
    destruct (same_written i a Si) as (_ & _ & _ & _ & W1 & W2); [apply (cp_written _ _ _ _ _ _ _ CP n s a E (HL a Ia))|].
    split; auto. split; auto. split; auto. intros w. cbn [Nat.add].
    rewrite <- (T5 m w). unfold DispatchModel.eval_at. apply (candidate_wants ftype fld psem fs (map term_of items) j (term_of i) G m w); auto.
    + apply Forall_forall. intros c Hc. apply in_map_iff in Hc as (i' & <- & Hi'). destruct (Forall2_in _ _ _ F i' Hi') as (b & Hb & Sb).
      apply (term_facts n s i' b E (HL b Hb) Sb (C b Hb)).
    + eapply terms_clean; eauto.
    + rewrite nth_error_map, Hi. reflexivity.
Qed.
Lemma is_match_listeners n s h m w : handler_of (nexus n) s = Some h -> exists ls, exported s (nexus n) /\ listeners (nexus n) s ls /\
  let b := match h_kind h with
      | Plain => existsb (fun e => eval_at m w (cb_matcher (fst e))) (h_callbacks h)
      | Indexed fs => indexed_is_match fld fs (map fst (h_callbacks h)) m
      end in
  match kind_of s with Plain => b = existsb (fun a => wants a m w) ls | Indexed _ => existsb (fun a => wants a m w) ls = true -> b = true end.
Proof.
  intros H. destruct (handler_listeners _ _ _ H) as (E & items & ls & L & F & ->). exists ls. split; auto. split; auto.
  assert (HL : forall a, In a ls -> listens (nexus n) s a) by (intros a; apply listeners_listen; auto).
  cbn zeta. cbn [h_kind h_callbacks]. destruct (kind_of s) as [|fs] eqn:K.
  - clear L H. induction F as [|i a items ls S F IH]; cbn [flat_map map entries_of app existsb]; auto.
    destruct (item_meaning n s i a E (HL a (or_introl eq_refl)) S) as [_ H1]. cbn [fst]. rewrite H1. f_equal. apply IH. intros b Hb. apply HL. right; auto.
  - pose proof (cp_indexed _ _ _ _ _ _ _ CP n s fs ls E K L) as X. pose proof X as (Hfs & C & _).
    rewrite (terms_entries n s fs items ls E HL F C). rewrite map_map. cbn [fst]. intros Hx. apply existsb_exists in Hx as (a & Ha & Hw).
    rewrite Forall_forall in C. apply In_nth_error in Ha as (j & Ha).
    assert (exists i, nth_error items j = Some i /\ same_as i a) as (i & Hi & Si).
    { destruct (nth_error items j) as [i|] eqn:Ei; [|exfalso; apply nth_error_None in Ei; rewrite (Forall2_len _ _ _ F) in Ei; apply nth_error_None in Ei; congruence].
      destruct (Forall2_nth _ _ _ F j i Ei) as (a' & Ha' & Si). rewrite Ha in Ha'. injection Ha' as <-. eauto. }
    assert (Ia : In a ls) by (eapply nth_error_In; eauto).
    destruct (term_facts n s i a E (HL a Ia) Si (C a Ia)) as (_ & T2 & T3 & T4 & T5 & _).
    change (indexed_is_match (fun f (e : M * W) => fld f (fst e)) fs (map term_of items) (m, w) = true).
    apply (is_match_complete ftype (fun f (e : M * W) => fld f (fst e)) psem) with (c := term_of i); auto.
    + apply Forall_forall. intros c Hc. apply in_map_iff in Hc as (i' & <- & Hi'). destruct (Forall2_in _ _ _ F i' Hi') as (b & Hb & Sb).
      apply conj_leaves_literals. apply (term_facts n s i' b E (HL b Hb) Sb (C b Hb)).
    + apply in_map. eapply nth_error_In; eauto.
    + rewrite T5. exact Hw.
Qed.
End Run.

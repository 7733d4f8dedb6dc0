(** Whole services: plain and indexed, on const data and on mutable views. *)
From Coq Require Import List NArith ZArith Bool Arith Lia ZifyBool ZifyN ZifyNat.
From Verif Require Import FieldModel FieldSpec FieldProofs2 MatchModel MatchSpec MatchProofs FieldMatchersModel FieldMatchersSpec FieldMatchersProofs MessageModel MessageSpec MessageProofs AccessModel AccessSpec AccessProofs AccessProofs2 AccessProofs3 AccessProofs4 HandlerModel HandlerSpec IndexedProofs HandlerProps CallModel CallSpec CallProofs CallProofs2.
Import ListNotations.
Local Open Scope N_scope.

Section Call.
Variable es : N.
Variable ftab : nat -> mfield.
Variable ftype : nat -> cty.
Variable dtab : nat -> list nat.
Variable pkind : nat -> param.
Variable psem : nat -> (nat -> Z) -> bool.
Notation holds_on := (holds_on es ftab ftype psem).
Notation about := (about es ftab dtab pkind psem).
Notation suits := (suits es ftab dtab).
Notation value_at := (value_at es ftab ftype).
Notation run_entries := (run_entries es ftab ftype dtab pkind psem).
Notation serve := (serve es ftab ftype dtab pkind psem).
Notation serve_terms := (serve_terms es ftab ftype dtab pkind psem).
Notation does := (does es ftab dtab).
Hypothesis He : narrow es.
Hypothesis Hft : forall i, field_valid (ftab i) = true /\ type_fits (ftype i) (ftab i).
Hypothesis Hdef : forall d, NoDup (map f_name (fields_of ftab dtab d)).

Lemma finish_inv compl r evs st' b : finish compl r = Some (Done (evs, st', b)) ->
  exists evs0, r = Some (Done (evs0, st', b)) /\ evs = evs0 ++ (if b then [] else compl).
Proof.
  destruct r as [[[[evs0 st0] b0]| | |]|]; cbn; try discriminate. intros E. exists evs0.
  destruct b0; injection E as <- <- <-; rewrite ?app_nil_r; auto.
Qed.
Lemma called_app a b : called (a ++ b) = called a ++ called b.
Proof. apply flat_map_app. Qed.
Lemma complaints_app a b : (complaints (a ++ b) = complaints a + complaints b)%nat.
Proof. unfold complaints. rewrite filter_app, app_length. auto. Qed.
Lemma mismatches ks : called (map (fun k => Mismatch (k_id k)) ks) = [] /\ complaints (map (fun k => Mismatch (k_id k)) ks) = O.
Proof. induction ks as [|k ks [IH1 IH2]]; cbn; auto. Qed.
Lemma map_pair (ks : list entry) : map snd (map (fun k => (k_matcher k, k)) ks) = ks.
Proof. rewrite map_map. apply map_id. Qed.

(** ** Plain services *)
Theorem serve_const t ks st evs st' b : writable t = false ->
  (forall k, In k ks -> suits (k_msg k) t st /\ about (k_msg k) (k_matcher k)) ->
  serve t ks st = Some (Done (evs, st', b)) ->
  st' = st /\ called evs = map k_id (filter (fun k => holds_on (k_matcher k) st) ks) /\
  b = existsb (fun k => holds_on (k_matcher k) st) ks /\ complaints evs = (if b then 0 else 1)%nat /\
  forall i saw, In (Called i saw) evs -> exists k, In k ks /\ k_id k = i /\ holds_on (k_matcher k) st = true /\ does t k st saw st.
Proof.
  intros Hw Hks E. unfold CallModel.serve in E. apply finish_inv in E as (evs0 & E & ->).
  destruct (entries_const es ftab ftype dtab pkind psem He Hft Hdef t st Hw (map (fun k => (k_matcher k, k)) ks) false evs0 st' b) with (2 := E) as (-> & H2 & H3 & H4 & H5).
  { intros m k Hin. apply in_map_iff in Hin as (k' & Q & Hin). injection Q as <- <-. auto. }
  split; auto. destruct (mismatches ks) as [M1 M2].
  assert (Hf : forall l : list entry, map (fun mk => k_id (snd mk)) (filter (fun mk => holds_on (fst mk) st) (map (fun k => (k_matcher k, k)) l)) =
    map k_id (filter (fun k => holds_on (k_matcher k) st) l) /\
    existsb (fun mk => holds_on (fst mk) st) (map (fun k => (k_matcher k, k)) l) = existsb (fun k => holds_on (k_matcher k) st) l).
  { induction l as [|k l [IH1 IH2]]; cbn [map filter existsb fst snd]; auto. rewrite IH2. destruct (holds_on (k_matcher k) st); cbn [map snd]; rewrite IH1; auto. }
  destruct (Hf ks) as [F1 F2]. rewrite F1 in H2. rewrite F2 in H3. cbn [orb] in H3.
  split; [rewrite called_app, H2; destruct b; cbn [called flat_map app]; fold (called (map (fun k => Mismatch (k_id k)) ks)); rewrite ?M1, app_nil_r; auto|].
  split; auto. split.
  - rewrite complaints_app, H4. destruct b; auto. change (Unclaimed :: map (fun k => Mismatch (k_id k)) ks) with ([Unclaimed] ++ map (fun k => Mismatch (k_id k)) ks).
    rewrite complaints_app, M2. auto.
  - intros i saw Hin. apply in_app_or in Hin as [Hin|Hin].
    + destruct (H5 i saw Hin) as (m & k & Hmk & Hi & Hh & Hd). apply in_map_iff in Hmk as (k' & Q & Hk). injection Q as <- <-. eauto.
    + exfalso. destruct b; [contradiction|]. destruct Hin as [Hin|Hin]; [discriminate|]. apply in_map_iff in Hin as (k & Q & _). discriminate.
Qed.

Theorem serve_turns t ks st evs st' b : (forall d, msg_good (fields_of ftab dtab d)) ->
  (forall k, In k ks -> entry_for es ftab dtab pkind psem t st k) ->
  storage_ok es st ->
  serve t ks st = Some (Done (evs, st', b)) ->
  exists evs0, turns es ftab ftype psem (does t) ks st evs0 st' /\
    b = (match called evs0 with [] => false | _ => true end) /\
    evs = evs0 ++ (if b then [] else Unclaimed :: map (fun k => Mismatch (k_id k)) ks).
Proof.
  intros Hgood Hks Ho E. unfold CallModel.serve in E. apply finish_inv in E as (evs0 & E & ->). exists evs0.
  destruct (entries_kept es ftab ftype dtab pkind psem He Hft Hdef Hgood t st (map (fun k => (k_matcher k, k)) ks) false evs0 st st' b) as (H1 & H2 & _); auto.
  { intros m k Hin. apply in_map_iff in Hin as (k' & Q & Hin). injection Q as <- <-. auto. }
  rewrite map_pair in H1. cbn [orb] in H2. auto.
Qed.

(** ** Indexed services *)
Definition stored (f : nat) (st : list N) : Z := value_at st f.
Definition asked (p : nat) (st : list N) : bool := psem p (value_at st).
Lemma eval_stored m st : eval (leaf_sem stored asked) m st = holds_on m st.
Proof. unfold CallSpec.holds_on. induction m as [[f o v|p]| | |a IHa b IHb|a IHa b IHb|a IHa]; cbn [eval leaf_sem]; auto; try (rewrite IHa, IHb; auto). rewrite IHa; auto. Qed.
Lemma stored_range f st : in_range (ftype f) (stored f st).
Proof. unfold stored, CallSpec.value_at. apply (typed_in_range ftab ftype Hft). apply concat_lt. Qed.

Lemma indexed_value_right t d f st : suits d t st -> within es ftab t f -> indexed_value es ftab ftype t f st = value_at st f.
Proof.
  intros [Ho Hs] Hw. unfold indexed_value, extract_field.
  assert (Hl : storage_ok es (data_of t st) /\ fits (es * N.of_nat (length (data_of t st))) (f_locs (ftab f)) /\ value_in es (data_of t st) (ftab f) = value_in es st (ftab f)).
  { destruct t as [n|d' n m|d' n]; cbn [data_of within] in *; destruct Hs as [Hs1 Hs2].
    - rewrite Hs1. auto.
    - destruct Hs2 as [Hs2 _]. rewrite firstn_length, Nat.min_l by auto. split; [apply firstn_ok; auto|]. split; auto. apply (value_prefix es He ftab ftype Hft); auto.
    - destruct Hs2 as [Hs2 _]. rewrite firstn_length, Nat.min_l by lia. split; [apply firstn_ok; auto|]. split; auto. apply (value_prefix es He ftab ftype Hft); auto; lia. }
  destruct Hl as (H1 & H2 & H3). destruct (Hft f) as [Hv _]. rewrite (read_value es He ftab ftype Hft (ftab f)) by (auto; eauto).
  rewrite of_raw_typed, signed_same; [|eapply type_pos; eauto|apply (value_small es ftab ftype Hft dtab pkind psem Hdef)].
  unfold CallSpec.value_at. rewrite H3. auto.
Qed.
Lemma selected_right t fs ks st d i : suits d t st -> (forall f, In f fs -> within es ftab t f) ->
  selected es ftab ftype t fs ks st i = candidates stored fs (map cb_of ks) st i.
Proof.
  intros Hs Hw. unfold selected, candidates. destruct fs as [|f fs]; auto. fold cb_of.
  assert (H : forall l, (forall g, In g l -> within es ftab t g) -> forallb (fun g => index_lookup (build_index g (map cb_matcher (map cb_of ks))) (indexed_value es ftab ftype t g st) i) l =
    forallb (fun g => index_lookup (build_index g (map cb_matcher (map cb_of ks))) (stored g st) i) l).
  { induction l as [|g l IH]; intros Hl; cbn [forallb]; auto. rewrite (indexed_value_right t d g st Hs) by (apply Hl; left; auto). f_equal. apply IH. intros; apply Hl; right; auto. }
  apply H. auto.
Qed.

(** remove_terms has no other leaves. *)
Definition leaf_about (d : nat) (l : leaf) : Prop :=
  match l with Rel f _ _ => In f (dtab d) | Pred p => param_for es ftab dtab d (pkind p) /\ looks_at dtab d (psem p) end.
Lemma about_leaves d m : about d m <-> all_leaves (leaf_about d) m.
Proof.
  unfold CallSpec.about. induction m as [[f o v|p]| | |a IHa b IHb|a IHa b IHb|a IHa]; cbn [rels preds all_leaves leaf_about]; try tauto.
  - split; [intros [H _]; apply H; left; auto|intros H; split; [intros ? [<-|[]]; auto|intros ? []]].
  - split; [intros [_ H]; apply H; left; auto|intros H; split; [intros ? []|intros ? [<-|[]]; auto]].
  - split; auto. intros _. split; intros ? [].
  - split; auto. intros _. split; intros ? [].
  - rewrite <- IHa, <- IHb. split; [intros [H1 H2]; repeat split; intros; first [apply H1|apply H2]; apply in_or_app; auto|].
    intros [[H1 H2] [H3 H4]]. split; intros x Hx; apply in_app_or in Hx as [Hx|Hx]; auto.
  - rewrite <- IHa, <- IHb. split; [intros [H1 H2]; repeat split; intros; first [apply H1|apply H2]; apply in_or_app; auto|].
    intros [[H1 H2] [H3 H4]]. split; intros x Hx; apply in_app_or in Hx as [Hx|Hx]; auto.
Qed.
Lemma trivially_truthful d : truthful (fun (_ : leaf) (e : Empty_set) => true) leaf_eqb (leaf_implies ftype) leaf_neg (leaf_about d).
Proof.
  split; try (intros; contradiction).
  - apply leaf_eqb_eq.
  - intros [f o v|p] b Ha Hb; cbn in *; [injection Hb as <-; auto|discriminate].
Qed.
Lemma remove_terms_about fs d m : about d m -> about d (remove_terms ftype fs m).
Proof.
  rewrite !about_leaves. induction m as [[f o v|p]| | |a IHa b IHb|a IHa b IHb|a IHa]; cbn [remove_terms all_leaves]; auto.
  - destruct o; cbn; auto; destruct (existsb (Nat.eqb f) fs); cbn; auto.
  - intros [Ha Hb]. apply (ops_leaves ftype _ _ (trivially_truthful d)); auto.
  - intros [Ha Hb]. apply (ops_leaves ftype _ _ (trivially_truthful d)); auto.
Qed.
Lemma pick_in fs cand : forall ks i m k, In (m, k) (pick ftype fs cand i ks) -> In k ks /\ m = remove_terms ftype fs (k_matcher k).
Proof.
  induction ks as [|k' ks IH]; intros i m k; cbn [pick]; [contradiction|].
  destruct (cand i).
  - intros [Q|Hin]; [injection Q as <- <-; split; [left|]; auto|]. apply IH in Hin as [H1 H2]. split; [right|]; auto.
  - intros Hin. apply IH in Hin as [H1 H2]. split; [right|]; auto.
Qed.
Lemma invoke_pick fs cand st : forall ks i acc,
  ran (fst (invoke_from ftype stored asked fs cand i (map cb_of ks) st acc)) =
    map (fun mk => k_id (snd mk)) (filter (fun mk => holds_on (fst mk) st) (pick ftype fs cand i ks)) /\
  snd (invoke_from ftype stored asked fs cand i (map cb_of ks) st acc) = acc || existsb (fun mk => holds_on (fst mk) st) (pick ftype fs cand i ks) /\
  errors (fst (invoke_from ftype stored asked fs cand i (map cb_of ks) st acc)) = O.
Proof.
  induction ks as [|k ks IH]; intros i acc; cbn [map invoke_from pick]; [cbn; rewrite orb_false_r; auto|].
  destruct (cand i); [|apply IH]. unfold invoke_callback, cb_handle, cb_is_match. cbn [cb_of cb_id cb_matcher]. rewrite eval_stored.
  cbn [filter existsb fst]. destruct (holds_on (remove_terms ftype fs (k_matcher k)) st) eqn:Eh.
  - destruct (invoke_from ftype stored asked fs cand (S i) (map cb_of ks) st (acc || true)) as [evs r] eqn:Er.
    destruct (IH (S i) (acc || true)) as (H1 & H2 & H3). rewrite Er in *. cbn [fst snd app ran errors flat_map filter length map] in *.
    split; [f_equal; auto|]. split; [rewrite H2; destruct acc; auto|auto].
  - destruct (invoke_from ftype stored asked fs cand (S i) (map cb_of ks) st (acc || false)) as [evs r] eqn:Er.
    destruct (IH (S i) (acc || false)) as (H1 & H2 & H3). rewrite Er in *. rewrite orb_false_r in *. cbn [fst snd app]. auto.
Qed.
Lemma invoke_ext fs cand cand' : (forall i, cand i = cand' i) -> forall ks i, pick ftype fs cand i ks = pick ftype fs cand' i ks.
Proof. intros H. induction ks as [|k ks IH]; intros i; cbn [pick]; auto. rewrite H, !IH. auto. Qed.

(** Over const data an indexed service is the service of HandlerModel.v. *)
Theorem indexed_const fs t ks st evs st' b : writable t = false ->
  (forall f, In f fs -> within es ftab t f) ->
  (forall k, In k ks -> suits (k_msg k) t st /\ about (k_msg k) (k_matcher k)) ->
  serve_terms fs t ks st = Some (Done (evs, st', b)) ->
  let r := indexed_handle ftype stored asked fs (map cb_of ks) st in
  st' = st /\ called evs = ran (fst r) /\ b = snd r /\ complaints evs = errors (fst r).
Proof.
  intros Hw Hf Hks E. unfold CallModel.serve_terms in E. apply finish_inv in E as (evs0 & E & ->).
  assert (Hp : pick ftype fs (selected es ftab ftype t fs ks st) 0 ks = pick ftype fs (candidates stored fs (map cb_of ks) st) 0 ks).
  { destruct ks as [|k0 ks']; auto. apply invoke_ext; auto. intros i. eapply selected_right; auto. apply (Hks k0). left; auto. }
  rewrite Hp in E.
  destruct (entries_const es ftab ftype dtab pkind psem He Hft Hdef t st Hw (pick ftype fs (candidates stored fs (map cb_of ks) st) 0 ks) false evs0 st' b) with (2 := E) as (-> & H2 & H3 & H4 & _).
  { intros m k Hin. apply pick_in in Hin as [Hin ->]. destruct (Hks k Hin). split; auto. apply remove_terms_about; auto. }
  cbn zeta. unfold indexed_handle.
  destruct (invoke_pick fs (candidates stored fs (map cb_of ks) st) st ks 0 false) as (I1 & I2 & I3).
  destruct (invoke_from ftype stored asked fs (candidates stored fs (map cb_of ks) st) 0 (map cb_of ks) st false) as [ev h]. cbn [fst snd] in *.
  rewrite <- I2 in H3. subst h. split; auto. rewrite called_app, complaints_app, H2, H4, <- I1.
  destruct b; cbn [fst snd]; unfold ran, errors; rewrite ?flat_map_app, ?filter_app, ?app_length.
  - cbn. rewrite app_nil_r. auto.
  - fold (errors ev). rewrite I3. cbn. auto.
Qed.
Lemma split_cbs orig : map cb_of (flat_map (split_entry ftype) orig) = indexed_add ftype [] (map cb_of orig).
Proof.
  unfold indexed_add. cbn [app]. induction orig as [|k l IH]; cbn [flat_map map]; auto. rewrite map_app, IH. f_equal.
  unfold split_entry. rewrite map_map. unfold cb_of at 1. cbn [k_id k_matcher].
  rewrite <- (map_id (separate_sum_terms _ _ _ (cb_of k))) at 2. apply map_ext. intros [i m]. auto.
Qed.

Lemma split_terms_leaves U m id c : all_leaves U m -> In c (split_terms m id) -> all_leaves U (cb_matcher (L := leaf) c).
Proof.
  induction m as [l| | |a IHa b IHb|a IHa b IHb|a IHa]; cbn [split_terms all_leaves]; intros H Hin;
    try (destruct Hin as [<-|[]]; exact H).
  destruct H. apply in_app_or in Hin as [Hin|Hin]; auto.
Qed.
Lemma split_about k k' : about (k_msg k) (k_matcher k) -> In k' (split_entry ftype k) -> k_msg k' = k_msg k /\ about (k_msg k') (k_matcher k').
Proof.
  intros Ha Hin. unfold split_entry in Hin. apply in_map_iff in Hin as (c & <- & Hin). cbn [k_msg k_matcher]. split; auto.
  apply about_leaves. unfold separate_sum_terms in Hin. eapply split_terms_leaves; [|exact Hin].
  pose proof (trivially_truthful (k_msg k)) as T. eapply HandlerProofs.sop_leaves; [exact T|]. eapply HandlerProofs.match_all_leaves; [exact T|].
  constructor; auto. apply about_leaves in Ha. exact Ha.
Qed.

(** What is seen by a callable that reads fields. *)
Lemma exec_reading t d u s st : good es ftab dtab d u s st -> (forall n, u <> TArray n) -> forall is_ k s' o,
  (forall i, In i is_ -> In i (dtab d)) ->
  exec es t (reading (map (fun i => f_name (ftab i)) is_) k) s = Some (Done (s', o)) ->
  exists rest, o = map (fun i => Value (value_in es st (ftab i))) is_ ++ rest.
Proof.
  intros Hg Hu. induction is_ as [|i l IH]; intros k s' o Hin E; cbn [map reading exec] in E; [exists o; reflexivity|].
  cbn [permitted] in E.
  rewrite (get_value_of es He ftab ftype Hft dtab pkind psem Hdef d u s st i Hg Hu (Hin i (or_introl eq_refl))) in E.
  destruct (exec es t _ s) as [[[s2 o2]| | |]|] eqn:E2 in E; cbn in E; try discriminate. injection E as <- <-.
  destruct (IH _ _ _ (fun j H => Hin j (or_intror H)) E2) as [rest ->]. exists rest. auto.
Qed.
Theorem call_sees d c t st saw st' templ p w u is_ k : suits d t st ->
  choose es ftab dtab d c t = Some (templ, p, w) -> type_as es ftab dtab d w t = Some u -> param_for es ftab dtab d p ->
  (forall n, param_type p u <> TArray n) -> (forall i, In i is_ -> In i (dtab d)) ->
  c_body c templ = reading (map (fun i => f_name (ftab i)) is_) k ->
  call es ftab dtab d c t st = Some (Done (saw, st')) ->
  exists rest, saw = map (fun i => Value (value_in es st (ftab i))) is_ ++ rest.
Proof.
  intros Hs Hc Hu Hp Hn Hin Hb E. unfold CallModel.call in E. rewrite Hc in E. apply choose_way in Hc as [_ Hw].
  destruct (entered es ftab dtab d p w t st) as [o|] eqn:Ee; [|discriminate].
  destruct (entered_good es He ftab ftype Hft dtab pkind psem d p w t st o Hs Hp Hw Ee) as (s & u' & -> & Hu' & Hg & _).
  rewrite Hu in Hu'. injection Hu' as <-. rewrite Hb in E.
  destruct (exec es t _ s) as [[[s2 o2]| | |]|] eqn:E2 in E; cbn in E; try discriminate. injection E as <- _.
  eapply exec_reading; eauto.
Qed.
Lemma call_array d c t st saw st' templ p w n is_ k : suits d t st ->
  choose es ftab dtab d c t = Some (templ, p, w) -> type_as es ftab dtab d w t = Some (TArray n) -> p = PAny ->
  (forall i, In i is_ -> In i (dtab d)) ->
  c_body c templ = Then (View (fields_of ftab dtab d) n false (FromArray 1) []) (fun _ => reading (map (fun i => f_name (ftab i)) is_) k) ->
  call es ftab dtab d c t st = Some (Done (saw, st')) ->
  exists rest, saw = map (fun i => Value (value_in es st (ftab i))) is_ ++ rest.
Proof.
  intros Hs Hc Hu Hp Hin Hb E. unfold CallModel.call in E. rewrite Hc in E. apply choose_way in Hc as [_ Hw]. subst p.
  destruct (entered es ftab dtab d PAny w t st) as [o|] eqn:Ee; [|discriminate].
  destruct (entered_good es He ftab ftype Hft dtab pkind psem d PAny w t st o Hs Logic.I Hw Ee) as (s & u' & -> & Hu' & Hg & Hx).
  rewrite Hu in Hu'. injection Hu' as <-. specialize (Hx n eq_refl eq_refl). rewrite Hb in E. cbn [exec permitted] in E.
  destruct Hg as (H0 & Ho & Hlen & Hv & Hf). cbn [step source_of] in E. rewrite Hx in E.
  destruct (Nat.leb n (length st) && (negb false || true) && fits_inside es (N.of_nat n) (fields_of ftab dtab d) && (false || true)) eqn:Hcond in E; [|discriminate].
  cbn [bind] in E. rewrite Hv in E. cbn [app] in E.
  destruct (exec es t _ _) as [[[s2 o2]| | |]|] eqn:E2 in E; cbn in E; try discriminate. injection E as <- _. cbn [app].
  eapply exec_reading with (d := d) (u := TView d n false) (st := st); [| |exact Hin|exact E2]; [|discriminate].
  split; auto. split; auto. cbn [heap vars]. split; auto. split; auto. eexists _, st. split; [reflexivity|]. cbn [h_def h_extent h_store].
  repeat split; auto; [lia|]. intros f Hfin. rewrite firstn_all2 by lia. auto.
Qed.
End Call.

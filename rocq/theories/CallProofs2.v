(** Callables of a service that is given const data leave it alone; services call the
    callables whose conditions hold. *)
From Coq Require Import List NArith ZArith Bool Arith Lia ZifyBool ZifyN ZifyNat.
From Verif Require Import FieldModel FieldSpec FieldProofs2 MatchModel MatchSpec FieldMatchersModel FieldMatchersSpec MessageModel MessageSpec MessageProofs AccessModel AccessSpec AccessProofs AccessProofs2 AccessProofs3 HandlerModel HandlerSpec CallModel CallSpec CallProofs.
Import ListNotations.
Local Open Scope N_scope.

(** ** Const data *)
Definition sealed (s : state) : Prop :=
  (0 < length (heap s))%nat /\ Forall (fun h => h_store h = O -> h_mut h = false) (vars s).
Lemma step_sealed es t c s s' o : writable t = false -> permitted t c = true -> sealed s -> step es c s = Some (Done (s', o)) ->
  sealed s' /\ nth_error (heap s') 0 = nth_error (heap s) 0.
Proof.
  intros Hw Hp [Hl Hv] E. pose proof (step_grows es c s s' o E) as [Hl' _].
  assert (Hnw : ~ writes_to s c 0).
  { intros W. destruct c as [st|j k v|d n vs|d n src vs|d n mut src vs|v vs|v f|x y]; cbn [writes_to] in W; try contradiction.
    - subst j. cbn [permitted] in Hp. congruence.
    - destruct mut; [|contradiction]. destruct vs as [|nv vs]; [contradiction|]. destruct src as [q|q].
      + subst q. cbn [permitted] in Hp. congruence.
      + destruct W as (h & Eh & H0). rewrite (const_source es d n q (nv :: vs) s h) in E; [discriminate|auto|].
        rewrite Forall_forall in Hv. apply Hv; auto. eapply nth_error_In; eauto.
    - destruct W as (h & Eh & H0). rewrite (const_set es v vs s h) in E; [discriminate|auto|].
      rewrite Forall_forall in Hv. apply Hv; auto. eapply nth_error_In; eauto. }
  split; [|eapply step_other; eauto]. split; [lia|].
  destruct c as [st|j k v|d n vs|d n src vs|d n mut src vs|v vs|v f|x y]; cbn [step] in E.
  - destruct (forallb _ st); [|discriminate]. injection E as <- _. auto.
  - destruct (nth_error (heap s) j); [|discriminate]. destruct (Nat.ltb _ _); [|discriminate]. injection E as <- _. auto.
  - destruct (construct es n d vs) as [[w| | |]|]; cbn in E; try discriminate. injection E as <- _. cbn [vars].
    apply Forall_app. split; auto. constructor; auto. cbn [h_store]. lia.
  - destruct (source_of s src) as [[[j k] m]|]; [|discriminate]. destruct (nth_error (heap s) j) as [st|]; [|discriminate].
    destruct (construct_from _ _ _ _ _) as [[w| | |]|]; cbn in E; try discriminate. injection E as <- _. cbn [vars].
    apply Forall_app. split; auto. constructor; auto. cbn [h_store]. lia.
  - destruct (source_of s src) as [[[j k] m]|] eqn:Es; [|discriminate].
    destruct (_ && _) eqn:Hc in E; [|discriminate].
    assert (Hnew : j = O -> mut = false).
    { intros ->. destruct mut; auto. destruct src as [q|q]; cbn [source_of] in Es.
      - destruct (nth_error (heap s) q); [|discriminate]. injection Es as -> _ _. cbn [permitted] in Hp. congruence.
      - destruct (nth_error (vars s) q) as [h|] eqn:Eh; [|discriminate]. injection Es as E0 _ E1.
        rewrite Forall_forall in Hv. assert (h_mut h = false) by (apply Hv; auto; eapply nth_error_In; eauto).
        subst m. rewrite !andb_true_iff in Hc. destruct Hc as [[[_ Hc] _] _]. cbn in Hc. congruence. }
    destruct mut.
    + destruct (set_through _ _ _ _) as [[hp| | |]|]; cbn in E; try discriminate. injection E as <- _. cbn [vars].
      apply Forall_app. split; auto.
    + cbn in E. injection E as <- _. cbn [vars]. apply Forall_app. split; auto.
  - destruct (nth_error (vars s) v) as [h|]; [|discriminate].
    destruct (set_through es h vs (heap s)) as [[hp| | |]|]; cbn in E; try discriminate. injection E as <- _. auto.
  - destruct (nth_error (vars s) v) as [h|]; [|discriminate]. destruct (span_of (heap s) h); [|discriminate].
    destruct (m_get _ _ _ _) as [[w| | |]|]; cbn in E; try discriminate. injection E as <- _. auto.
  - destruct (nth_error (vars s) x) as [h|]; [|discriminate]. destruct (nth_error (vars s) y) as [g|]; [|discriminate].
    destruct (span_of (heap s) h); [|discriminate]. destruct (span_of (heap s) g); [|discriminate].
    destruct (equiv _ _ _ _) as [w| | |]; cbn in E; try discriminate. injection E as <- _. auto.
Qed.
Lemma exec_sealed es t : writable t = false -> forall b s s' o, sealed s -> exec es t b s = Some (Done (s', o)) ->
  nth_error (heap s') 0 = nth_error (heap s) 0.
Proof.
  intros Hw. induction b as [|c k IH]; intros s s' o Hs E; cbn [exec] in E.
  - injection E as <- _. auto.
  - destruct (permitted t c) eqn:Hp; [|discriminate]. destruct (step es c s) as [[[s1 o1]| | |]|] eqn:E1; try discriminate.
    destruct (exec es t (k o1) s1) as [[[s2 o2]| | |]|] eqn:E2; cbn in E; try discriminate. injection E as <- _.
    destruct (step_sealed es t c s s1 o1 Hw Hp Hs E1) as [Hs1 H1]. rewrite (IH o1 s1 s2 o2 Hs1 E2). auto.
Qed.

Section Call.
Variable es : N.
Variable ftab : nat -> mfield.
Variable ftype : nat -> cty.
Variable dtab : nat -> list nat.
Notation def := (def ftab dtab).

Lemma last_sealed r s : only_last r = Some (Done s) -> exists s' o, r = Some (Done (s', o)) /\ heap s = heap s' /\ incl (vars s) (vars s').
Proof.
  destruct r as [[[s' o]| | |]|]; cbn; try discriminate. intros E. injection E as <-. exists s', o. cbn [heap vars]. repeat split; auto.
  intros h Hh. rewrite <- (firstn_skipn (length (vars s') - 1) (vars s')). apply in_or_app. auto.
Qed.
Lemma sealed_incl s s' : heap s = heap s' -> incl (vars s) (vars s') -> sealed s' -> sealed s.
Proof. intros Hh Hi [H1 H2]. split; [congruence|]. rewrite Forall_forall in *. auto. Qed.
Lemma make_sealed u t t0 s s' : writable t0 = false -> (from t = FromArray 0 -> exists n, t = TArray n) -> sealed s -> make es ftab dtab u t s = Some (Done s') ->
  sealed s' /\ nth_error (heap s') 0 = nth_error (heap s) 0.
Proof.
  intros Hw Ht Hs E. destruct u as [n|d n m|d n]; cbn [make] in E.
  - injection E as <-. auto.
  - assert (E' : only_last (step es (View (def d) n m (from t) []) s) = Some (Done s') /\ permitted t0 (View (def d) n m (from t) []) = true).
    { destruct t as [k|d' k m'|d' k]; destruct m; cbn [from permitted]; auto. discriminate. }
    destruct E' as [E' Hp]. apply last_sealed in E' as (s1 & o & E1 & Hh & Hi).
    destruct (step_sealed es t0 _ s s1 o Hw Hp Hs E1) as [H1 H2]. split; [eapply sealed_incl; eauto|congruence].
  - apply last_sealed in E as (s1 & o & E1 & Hh & Hi).
    destruct (step_sealed es t0 (OwnerFrom (def d) n (from t) []) s s1 o Hw (eq_refl true) Hs E1) as [H1 H2]. split; [eapply sealed_incl; eauto|congruence].
Qed.
Lemma from_array t : from t = FromArray 0 -> exists n, t = TArray n.
Proof. destruct t; cbn; try discriminate. eauto. Qed.
Lemma given_sealed t st : writable t = false -> sealed (given ftab dtab t st).
Proof. intros Hw. unfold sealed, given. cbn. split; [lia|]. destruct t as [n|d n [|]|d n]; try discriminate; constructor; auto. Qed.
Lemma entered_sealed d p w t st s : writable t = false -> entered es ftab dtab d p w t st = Some (Done s) ->
  sealed s /\ nth_error (heap s) 0 = Some st.
Proof.
  intros Hw E. unfold entered in E. pose proof (given_sealed t st Hw) as Hg.
  destruct (pass es ftab dtab d w t st) as [[s1| | |]|] eqn:Ep; try (cbn [bind] in E; discriminate E).
  assert (H1 : sealed s1 /\ nth_error (heap s1) 0 = Some st).
  { unfold pass in Ep. destruct w.
    - injection Ep as <-. auto.
    - destruct (type_as es ftab dtab d AsView t) as [u|]; [|discriminate]. apply make_sealed with (t0 := t) in Ep; auto using from_array.
    - destruct (type_as es ftab dtab d AsOwner t) as [u|]; [|discriminate]. apply make_sealed with (t0 := t) in Ep; auto using from_array. }
  destruct H1 as [Hs1 H1]. destruct (type_as es ftab dtab d w t) as [u|].
  2:{ cbn [bind] in E. injection E as <-. auto. }
  assert (Hm : forall u', make es ftab dtab u' u s1 = Some (Done s) -> sealed s /\ nth_error (heap s) 0 = Some st).
  { intros u' Em. apply make_sealed with (t0 := t) in Em; auto using from_array. rewrite H1 in Em. auto. }
  unfold bind_param in E. destruct p; destruct u; try exact (Hm _ E).
    injection E as <-. cbn [heap vars]. destruct Hs1 as [Hl Hv]. split.
  - split; auto. cbn [heap]. rewrite app_length. lia.
  - cbn [heap]. rewrite nth_error_app1; auto.
Qed.
(** Whatever a callable does with its parameter, const data stays as it is. *)
Theorem call_const d c t st saw st' : writable t = false -> call es ftab dtab d c t st = Some (Done (saw, st')) -> st' = st.
Proof.
  intros Hw E. unfold call in E. destruct (choose es ftab dtab d c t) as [[[templ p] w]|]; [|discriminate].
  destruct (entered es ftab dtab d p w t st) as [[s| | |]|] eqn:Ee; try discriminate.
  destruct (entered_sealed d p w t st s Hw Ee) as [Hs H0].
  destruct (exec es t (c_body c templ) s) as [[[s1 o]| | |]|] eqn:Ex; cbn in E; try discriminate. injection E as _ <-.
  pose proof (exec_sealed es t Hw _ s s1 o Hs Ex) as H1. rewrite H0 in H1. destruct (heap s1); cbn in H1; congruence.
Qed.

Variable pkind : nat -> param.
Variable psem : nat -> (nat -> Z) -> bool.
Notation holds_on := (holds_on es ftab ftype psem).
Notation about := (about es ftab dtab pkind psem).
Notation suits := (suits es ftab dtab).
Notation run_entries := (run_entries es ftab ftype dtab pkind psem).
Notation call := (call es ftab dtab).
Hypothesis He : narrow es.
Hypothesis Hft : forall i, field_valid (ftab i) = true /\ type_fits (ftype i) (ftab i).
Hypothesis Hdef : forall d, NoDup (map f_name (fields_of ftab dtab d)).

Definition does (t : ty) (k : entry) (st : list N) (saw : list observation) (st' : list N) : Prop := call (k_msg k) (k_call k) t st = Some (Done (saw, st')).

(** Entries in turn, on const data. *)
Lemma entries_const t st : writable t = false -> forall l found evs st' r,
  (forall m k, In (m, k) l -> suits (k_msg k) t st /\ about (k_msg k) m) ->
  run_entries t l st found = Some (Done (evs, st', r)) ->
  st' = st /\ called evs = map (fun mk => k_id (snd mk)) (filter (fun mk => holds_on (fst mk) st) l) /\
  r = found || existsb (fun mk => holds_on (fst mk) st) l /\ complaints evs = O /\
  (forall i saw, In (Called i saw) evs -> exists m k, In (m, k) l /\ k_id k = i /\ holds_on m st = true /\ does t k st saw st).
Proof.
  intros Hw. induction l as [|[m k] l IH]; intros found evs st' r Hl E; cbn [CallModel.run_entries] in E.
  - injection E as <- <- <-. cbn. repeat split; auto; [rewrite orb_false_r; auto|]. intros i saw [].
  - destruct (Hl m k (or_introl eq_refl)) as [Hs Ha].
    destruct (CallModel.test es ftab ftype dtab pkind psem (k_msg k) m t st) as [o|] eqn:Et; [|discriminate].
    pose proof (test_holds es He ftab ftype Hft dtab pkind psem Hdef _ _ _ _ _ Hs Ha Et) as ->. cbn [map filter existsb fst snd].
    destruct (holds_on m st) eqn:Hh.
    + destruct (call (k_msg k) (k_call k) t st) as [[[saw st1]| | |]|] eqn:Ec; try discriminate.
      pose proof (call_const _ _ _ _ _ _ Hw Ec) as ->.
      destruct (run_entries t l st true) as [[[[evs1 st2] r1]| | |]|] eqn:Er; cbn in E; try discriminate. injection E as <- <- <-.
      destruct (IH true evs1 st2 r1 (fun m' k' H => Hl m' k' (or_intror H)) Er) as (-> & H2 & H3 & H4 & H5).
      split; auto. cbn [called flat_map app map snd complaints filter length] in *. split; [f_equal; exact H2|]. split; [rewrite H3; destruct found; reflexivity|]. split; auto.
      intros i saw' [H|H].
      * injection H as <- <-. exists m, k. repeat split; auto. left; auto.
      * destruct (H5 i saw' H) as (m' & k' & H6 & H7). exists m', k'. split; auto. right; auto.
    + destruct (IH found evs st' r (fun m' k' H => Hl m' k' (or_intror H)) E) as (-> & H2 & H3 & H4 & H5).
      split; auto. split; auto. split; auto. split; auto.
      intros i saw' H. destruct (H5 i saw' H) as (m' & k' & H6 & H7). exists m', k'. split; auto. right; auto.
Qed.

(** ** Calls keep the storage fit *)
Hypothesis Hgood : forall d, msg_good (fields_of ftab dtab d).
Definition healthy (len : nat) (s : state) : Prop :=
  (exists a, inv es s a) /\ exists st, nth_error (heap s) 0 = Some st /\ length st = len.
Lemma change_first i g (l : list storage) n b : nth_error l 0 = Some (n, b) -> exists b', nth_error (change i g l) 0 = Some (n, b').
Proof.
  intros H. destruct l as [|p l]; [discriminate|]. injection H as ->. destruct i as [|i]; unfold change; cbn [nth_error]; [cbn; eauto|].
  destruct (nth_error l i) as [[k c]|]; cbn; eauto.
Qed.
Lemma effect_first c a n b : nth_error (stores a) 0 = Some (n, b) -> exists b', nth_error (stores (effect es c a)) 0 = Some (n, b').
Proof.
  intros H. assert (Happ : forall x, nth_error (stores a ++ [x]) 0 = Some (n, b)) by (intros; rewrite nth_error_app1; auto; apply nth_error_Some; congruence).
  destruct c as [st|i j v|d k vs|d k src vs|d k mut src vs|v vs|v f|x y]; cbn [effect]; try destruct (seen_by a src); cbn [stores]; eauto using change_first.
  destruct (nth_error (names a) v); cbn [stores]; eauto using change_first.
Qed.
Lemma step_healthy c s s' o len : command_good es c -> healthy len s -> step es c s = Some (Done (s', o)) -> healthy len s'.
Proof.
  intros Hc [[a Ha] Hf] E.
  assert (Hsame : (exists x y, c = Equivalent x y) \/ forall l, compares_alike l c) by (destruct c; cbn; auto; left; eauto).
  destruct Hsame as [(x & y & ->)|Hcmp].
  - cbn [step] in E. destruct (nth_error (vars s) x) as [h|]; [|discriminate]. destruct (nth_error (vars s) y) as [g|]; [|discriminate].
    destruct (span_of (heap s) h); [|discriminate]. destruct (span_of (heap s) g); [|discriminate].
    destruct (equiv _ _ _ _) as [w| | |]; cbn in E; try discriminate. injection E as <- _. split; eauto.
  - destruct (step_inv es He c s a _ Ha Hc (Hcmp _) E) as (s1 & o1 & Eq & Hi & _). injection Eq as <- <-. split; [eauto|].
    destruct Hf as (st & H0 & Hl). destruct Ha as (_ & HR & _). destruct Hi as (_ & HR' & _).
    destruct (forall2_nth _ _ _ HR _ _ H0) as ([n b] & Eb & Hr). destruct (effect_first c a n b Eb) as [b' Eb'].
    destruct (nth_error (heap s') 0) as [st'|] eqn:E0.
    + exists st'. split; auto. destruct (forall2_nth _ _ _ HR' _ _ E0) as ([n' b''] & Eb'' & Hr'). rewrite Eb' in Eb''. injection Eb'' as <- <-.
      destruct Hr as (Hr & _). destruct Hr' as (Hr' & _). cbn [fst] in *. congruence.
    + apply (forall2_nth_none _ _ _ HR') in E0. congruence.
Qed.
Lemma healthy_fewer len s s' : heap s = heap s' -> incl (vars s) (vars s') -> healthy len s' -> healthy len s.
Proof.
  intros Hh Hi [[a (Hn & HR & Hv)] Hf]. split; [|rewrite Hh; auto]. exists {| stores := stores a; names := vars s |}.
  repeat split; cbn [names stores]; try (rewrite Hh; auto). rewrite Forall_forall in *. auto.
Qed.
Lemma healthy_start s st : heap s = [st] -> storage_ok es st -> Forall (handle_ok es [st]) (vars s) -> healthy (length st) s.
Proof.
  intros Hh Ho Hv. split; [|rewrite Hh; cbn; eauto]. exists {| stores := [(length st, N.testbit (image es st))]; names := vars s |}.
  unfold inv. cbn [names stores]. rewrite Hh. split; auto. split; auto. constructor; auto. split; auto.
Qed.
Lemma exec_healthy t len b : body_good es b -> forall s s' o, healthy len s -> exec es t b s = Some (Done (s', o)) -> healthy len s'.
Proof.
  induction 1 as [|c k Hc _ IH]; intros s s' o Hs E; cbn [exec] in E.
  - injection E as <- _. auto.
  - destruct (permitted t c); [|discriminate]. destruct (step es c s) as [[[s1 o1]| | |]|] eqn:E1; try discriminate.
    destruct (exec es t (k o1) s1) as [[[s2 o2]| | |]|] eqn:E2; cbn in E; try discriminate. injection E as <- _.
    eapply IH; [|exact E2]. eapply step_healthy; eauto.
Qed.
Lemma make_healthy d u t s s' len : room es ftab dtab d u -> healthy len s -> make es ftab dtab u t s = Some (Done s') -> healthy len s'.
Proof.
  intros Hr Hs E. destruct u as [n|d' n m|d' n]; [destruct Hr| |]; destruct Hr as [-> Hf]; cbn [make] in E.
  - assert (E' : only_last (step es (View (def d) n m (from t) []) s) = Some (Done s')) by (destruct t; destruct m; auto; discriminate).
    apply last_sealed in E' as (s1 & o & E1 & Hh & Hi). eapply healthy_fewer; eauto. eapply step_healthy; [|exact Hs|exact E1]. split; [apply Hgood|auto].
  - apply last_sealed in E as (s1 & o & E1 & Hh & Hi). eapply healthy_fewer; eauto. eapply step_healthy; [|exact Hs|exact E1]. split; [apply Hgood|auto].
Qed.
Lemma given_healthy d t st : suits d t st -> healthy (length st) (given ftab dtab t st).
Proof.
  intros [Ho H]. apply healthy_start; auto. destruct t as [n|d' n m|d' n]; cbn [given vars]; constructor; auto; destruct H as (-> & Hl & Hf).
  - split; [apply Hgood|]. cbn [h_def h_extent h_store]. split; auto. exists st. cbn. auto.
  - split; [apply Hgood|]. cbn [h_def h_extent h_store]. split; auto. exists st. cbn. split; auto. lia.
Qed.
Lemma good_room d u s st : (forall n, u <> TArray n) -> good es ftab dtab d u s st -> room es ftab dtab d u.
Proof. intros Hn (_ & _ & H). destruct u as [n|d' n m|d' n]; [exfalso; eapply Hn; eauto| |]; destruct H as (-> & Hf & _); split; auto. Qed.
Lemma bind_healthy d p u s s' st len : param_for es ftab dtab d p -> good es ftab dtab d u s st -> healthy len s ->
  bind_param es ftab dtab p u s = Some (Done s') -> healthy len s'.
Proof.
  intros Hp Hg Hs E. assert (Hu : (exists n, u = TArray n) \/ forall n, u <> TArray n) by (destruct u; eauto; right; discriminate).
  destruct p as [n|d' n m|d' n| | |].
  - cbn in E. destruct u; injection E as <-; auto.
  - apply make_healthy with (d := d) (u := TView d' n m) (t := u) (s := s); auto; destruct u; auto.
  - apply make_healthy with (d := d) (u := TOwner d' n) (t := u) (s := s); auto; destruct u; auto.
  - destruct Hu as [[n ->]|Hu].
    + injection E as <-. destruct Hs as [[a (Hn & HR & Hv)] (x & H0 & Hl)]. destruct (heap s) as [|y hp] eqn:Eh; [discriminate|].
      injection H0 as ->. split; cbn [heap]; [|exists x; auto].
      inversion HR as [|? st' ? l Hr HR' E1 E2]; subst. exists {| stores := stores a ++ [st']; names := names a |}. unfold inv. cbn [names stores heap vars].
      split; auto. split; [rewrite <- E2; cbn; constructor; auto; apply Forall2_app; auto|]. 
      eapply handles_lengths; [apply lengths_app|auto].
    + apply make_healthy with (d := d) (u := u) (t := u) (s := s); auto; [eapply good_room; eauto|]. destruct u; auto. exfalso; eapply Hu; eauto.
  - destruct Hu as [[n ->]|Hu]; [injection E as <-; auto|].
    apply make_healthy with (d := d) (u := u) (t := u) (s := s); auto; eapply good_room; eauto.
  - destruct Hu as [[n ->]|Hu]; [injection E as <-; auto|].
    apply make_healthy with (d := d) (u := u) (t := u) (s := s); auto; eapply good_room; eauto.
Qed.
Lemma entered_healthy d p w t st s : suits d t st -> param_for es ftab dtab d p -> way es ftab dtab d (accepts p) t = Some w ->
  entered es ftab dtab d p w t st = Some (Done s) -> healthy (length st) s.
Proof.
  intros Hs Hp Hw E. pose proof (given_healthy d t st Hs) as Hh. unfold entered in E.
  destruct (pass es ftab dtab d w t st) as [o'|] eqn:Ep; [|discriminate].
  destruct (pass_good es He ftab ftype Hft dtab pkind psem d w t st o' Hs Ep) as (s1 & u & -> & Eu & Hg). rewrite Eu in E.
  assert (Hh1 : healthy (length st) s1).
  { unfold pass in Ep. destruct w; [injection Ep as <-; auto| |]; rewrite Eu in Ep.
    - eapply make_healthy; [|exact Hh|exact Ep]. eapply (type_as_room es He ftab dtab pkind psem); [|exact Hs|exact Eu]. discriminate.
    - eapply make_healthy; [|exact Hh|exact Ep]. eapply (type_as_room es He ftab dtab pkind psem); [|exact Hs|exact Eu]. discriminate. }
  eapply bind_healthy; eauto.
Qed.
Lemma choose_way d c t templ p w : choose es ftab dtab d c t = Some (templ, p, w) ->
  (if templ then c_templ c else c_plain c) = Some p /\ way es ftab dtab d (accepts p) t = Some w.
Proof.
  unfold choose. destruct (c_plain c) as [q|] eqn:Eq.
  - destruct (way es ftab dtab d (accepts q) t) as [v|] eqn:Ew.
    + intros E. injection E as <- <- <-. auto.
    + destruct (c_templ c) as [q'|] eqn:Et; [|discriminate]. destruct (way es ftab dtab d (accepts q') t) as [v|] eqn:Ew'; [|discriminate].
      intros E. injection E as <- <- <-. auto.
  - destruct (c_templ c) as [q'|] eqn:Et; [|discriminate]. destruct (way es ftab dtab d (accepts q') t) as [v|] eqn:Ew'; [|discriminate].
    intros E. injection E as <- <- <-. auto.
Qed.
Lemma call_keeps d c t st saw st' : suits d t st -> callable_for es ftab dtab d c -> call d c t st = Some (Done (saw, st')) ->
  storage_ok es st' /\ length st' = length st.
Proof.
  intros Hs [Hp Hb] E. unfold CallModel.call in E. destruct (choose es ftab dtab d c t) as [[[templ p] w]|] eqn:Ec; [|discriminate].
  apply choose_way in Ec as [Ec Ew].
  destruct (entered es ftab dtab d p w t st) as [[s| | |]|] eqn:Ee; try discriminate.
  assert (Hpf : param_for es ftab dtab d p) by (apply Hp; destruct templ; auto).
  pose proof (entered_healthy d p w t st s Hs Hpf Ew Ee) as Hh.
  destruct (exec es t (c_body c templ) s) as [[[s1 o]| | |]|] eqn:Ex; cbn in E; try discriminate. injection E as _ <-.
  pose proof (exec_healthy t _ _ (Hb templ) s s1 o Hh Ex) as [[a (_ & HR & _)] (x & H0 & Hl)].
  destruct (forall2_nth _ _ _ HR _ _ H0) as ([n b] & _ & (_ & Hok & _)). destruct (heap s1); [discriminate|]. injection H0 as ->. auto.
Qed.
Lemma suits_kept d t st st' : suits d t st -> storage_ok es st' -> length st' = length st -> suits d t st'.
Proof. intros [_ H] Ho Hl. split; auto. destruct t; rewrite Hl; auto. Qed.
Lemma entries_kept t st : forall l found evs st0 st' r, storage_ok es st0 -> length st0 = length st ->
  (forall m k, In (m, k) l -> m = k_matcher k /\ entry_for es ftab dtab pkind psem t st k) ->
  run_entries t l st0 found = Some (Done (evs, st', r)) ->
  turns es ftab ftype psem (does t) (map snd l) st0 evs st' /\ r = (found || match called evs with [] => false | _ => true end) /\ complaints evs = O.
Proof.
  induction l as [|[m k] l IH]; intros found evs st0 st' r Ho Hlen Hl E; cbn [CallModel.run_entries] in E.
  - injection E as <- <- <-. cbn. split; [constructor|]. split; auto. rewrite orb_false_r; auto.
  - destruct (Hl m k (or_introl eq_refl)) as (-> & Hs & Ha & Hc). pose proof (suits_kept _ _ _ _ Hs Ho Hlen) as Hs0.
    destruct (CallModel.test es ftab ftype dtab pkind psem (k_msg k) (k_matcher k) t st0) as [o|] eqn:Et; [|discriminate].
    pose proof (test_holds es He ftab ftype Hft dtab pkind psem Hdef _ _ _ _ _ Hs0 Ha Et) as ->. cbn [map snd].
    destruct (holds_on (k_matcher k) st0) eqn:Hh.
    + destruct (call (k_msg k) (k_call k) t st0) as [[[saw st1]| | |]|] eqn:Ec; try discriminate.
      destruct (run_entries t l st1 true) as [[[[evs1 st2] r1]| | |]|] eqn:Er; cbn in E; try discriminate. injection E as <- <- <-.
      destruct (call_keeps _ _ _ _ _ _ Hs0 Hc Ec) as [Ho1 Hl1].
      destruct (IH true evs1 st1 st2 r1) as (H1 & H2 & H3); auto; [congruence|intros; apply Hl; right; auto|].
      split; [eapply turns_call; eauto|]. cbn [called flat_map app complaints filter]. split; [rewrite H2; destruct found; reflexivity|auto].
    + destruct (IH found evs st0 st' r) as (H1 & H2 & H3); auto; [intros; apply Hl; right; auto|].
      split; auto. apply turns_skip; auto.
Qed.
End Call.

(** Theorems of C129 about indexed services given data that callables change. *)
From Coq Require Import List NArith ZArith Bool Arith Lia ZifyBool ZifyN ZifyNat.
From Verif Require Import FieldModel FieldSpec FieldProofs2 MatchModel MatchSpec MatchProofs FieldMatchersModel FieldMatchersSpec FieldMatchersProofs MessageModel MessageSpec MessageProofs MessageProps AccessModel AccessSpec AccessProofs AccessProofs2 AccessProofs3 AccessProofs4 HandlerModel HandlerSpec IndexedProofs HandlerProps CallModel CallSpec CallProofs CallProofs2 CallProofs3 CallProps.
Import ListNotations.
Local Open Scope N_scope.

(** ** What is asked, and when *)
Section Spec.
Variable es : N.
Variable ftab : nat -> mfield.
Variable ftype : nat -> cty.
Variable psem : nat -> (nat -> Z) -> bool.
Notation value_at := (value_at es ftab ftype).
(** A condition whose equalities with index fields are about the storage [first], all
    the rest being about the storage [now]. *)
Definition held_since (fs : list nat) (first now : list N) (m : fexpr) : bool :=
  eval (fun l (_ : unit) =>
    match l with
    | Rel f REq v => Z.eqb (value_at (if in_dec Nat.eq_dec f fs then first else now) f) v
    | Rel f o v => relb o (value_at now f) v
    | Pred p => psem p (value_at now)
    end) m tt.
(** One callable after the other, each when [asked] says so of what is there by then. *)
Inductive turns_when (asked : entry -> list N -> bool) (what : entry -> list N -> list observation -> list N -> Prop) : list entry -> list N -> list happening -> list N -> Prop :=
| when_nil st : turns_when asked what [] st [] st
| when_skip k r st evs st' : asked k st = false -> turns_when asked what r st evs st' -> turns_when asked what (k :: r) st evs st'
| when_call k r st saw st1 evs st' : asked k st = true -> what k st saw st1 -> turns_when asked what r st1 evs st' ->
    turns_when asked what (k :: r) st (Called (k_id k) saw :: evs) st'.
End Spec.

Section Proofs.
Variable es : N.
Variable ftab : nat -> mfield.
Variable ftype : nat -> cty.
Variable dtab : nat -> list nat.
Variable pkind : nat -> param.
Variable psem : nat -> (nat -> Z) -> bool.
Notation holds_on := (holds_on es ftab ftype psem).
Notation suits := (suits es ftab dtab).
Notation value_at := (value_at es ftab ftype).
Notation run_entries := (run_entries es ftab ftype dtab pkind psem).
Notation does := (does es ftab dtab).
Notation held_since := (held_since es ftab ftype psem).
Notation stored := (stored es ftab ftype).
Notation asked := (asked es ftab ftype psem).
Hypothesis He : narrow es.
Hypothesis Hft : forall i, field_valid (ftab i) = true /\ type_fits (ftype i) (ftab i).
Hypothesis Hdef : forall d, NoDup (map f_name (fields_of ftab dtab d)).
Hypothesis Hgood : forall d, msg_good (fields_of ftab dtab d).

Lemma held_now fs st m : held_since fs st st m = holds_on m st.
Proof.
  unfold CallTurnsProps.held_since, CallSpec.holds_on. induction m as [[f o v|p]| | |a IHa b IHb|a IHa b IHb|a IHa]; cbn [eval leaf_sem]; auto.
  - destruct o; auto. destruct (in_dec Nat.eq_dec f fs); reflexivity.
  - rewrite IHa, IHb; auto.
  - rewrite IHa, IHb; auto.
  - rewrite IHa; auto.
Qed.
Lemma held_same fs st st0 m : (forall f, In f fs -> value_at st0 f = value_at st f) -> held_since fs st0 st m = holds_on m st.
Proof.
  intros H. rewrite <- (held_now fs). unfold CallTurnsProps.held_since. induction m as [[f o v|p]| | |a IHa b IHb|a IHa b IHb|a IHa]; cbn [eval]; auto.
  - destruct o; auto. destruct (in_dec Nat.eq_dec f fs) as [Hf|Hf]; auto. rewrite (H f Hf). auto.
  - rewrite IHa, IHb; auto.
  - rewrite IHa, IHb; auto.
  - rewrite IHa; auto.
Qed.

(** What is left of a term is the term, the index having said the rest. *)
Lemma remove_since fs st0 m : conj_of_leaves m -> positive (Upos ftype) m ->
  forall st, held_since fs st0 st m = true <->
    (forall f v, In f fs -> In (Rel f REq v) (leaves m) -> v = value_at st0 f) /\ holds_on (remove_terms ftype fs m) st = true.
Proof.
  pose proof (positive_and (E := list N) ftype stored asked (type_ok ftab ftype Hft) (stored_range es ftab ftype Hft)) as PA.
  assert (PR : forall m, conj_of_leaves m -> positive (Upos ftype) m -> positive (Upos ftype) (remove_terms ftype fs m)).
  { clear m. induction m as [[f o v|p]| | |a IHa b IHb|a IHa b IHb|a IHa]; cbn [conj_of_leaves remove_terms]; intros Hc Hp; auto; try contradiction.
    - destruct o; auto; destruct (existsb (Nat.eqb f) fs); auto; exact I.
    - destruct Hc, Hp. apply PA; auto. }
  induction m as [l| | |a IHa b IHb|a IHa b IHb|a IHa]; cbn [conj_of_leaves]; intros Hc Hp st; try contradiction.
  - destruct l as [f o v|p].
    + destruct Hp as [_ Hne]. cbn [remove_terms]. unfold CallTurnsProps.held_since, CallSpec.holds_on. cbn [eval leaves].
      destruct o; cbn [eval leaf_sem relb]; try (split; [intros H; split; [intros ? ? _ [Q|[]]; discriminate|exact H]|intros [_ H]; exact H]).
      * destruct (in_dec Nat.eq_dec f fs) as [Hf|Hf].
        -- assert (Hx : existsb (Nat.eqb f) fs = true) by (apply existsb_in; auto). rewrite Hx. cbn [eval].
           split; [intros H; split; auto; intros ? ? _ [Q|[]]; injection Q as <- <-; lia|]. intros [H _]. specialize (H f v Hf (or_introl eq_refl)). lia.
        -- assert (Hx : existsb (Nat.eqb f) fs = false) by (destruct (existsb (Nat.eqb f) fs) eqn:Q; auto; apply existsb_in in Q; contradiction).
           rewrite Hx. cbn [eval leaf_sem relb]. split; [intros H; split; auto; intros ? ? ? [Q|[]]; injection Q as <- <-; contradiction|intros [_ H]; auto].
      * destruct Hne.
    + cbn. split; [intros H; split; auto; intros ? ? _ [Q|[]]; discriminate|intros [_ H]; auto].
  - cbn. split; auto. intros _. split; auto. intros; contradiction.
  - cbn. split; [discriminate|intros [_ H]; discriminate].
  - destruct Hc as [Ha Hb], Hp as [Pa Pb]. cbn [remove_terms leaves].
    destruct (PA _ _ (PR a Ha Pa) (PR b Hb Pb)) as [_ HE]. rewrite <- (eval_stored es ftab ftype psem), HE, !eval_stored.
    change (held_since fs st0 st (And a b)) with (held_since fs st0 st a && held_since fs st0 st b).
    rewrite !andb_true_iff, (IHa Ha Pa), (IHb Hb Pb). split.
    + intros ((A1 & A2) & B1 & B2). split; auto. intros f v Hf Hin. apply in_app_or in Hin as [?|?]; eauto.
    + intros (H1 & H2 & H3). repeat split; auto; intros f v Hf Hin; apply H1; auto; apply in_or_app; auto.
Qed.

(** The index says that the equalities hold. *)
Lemma candidate_since fs ks st0 j k : fs <> [] ->
  (forall k, In k ks -> conj_of_leaves (k_matcher k) /\ positive (Upos ftype) (k_matcher k)) ->
  (forall k f v w, In k ks -> In f fs -> In (Rel f REq v) (leaves (k_matcher k)) -> In (Rel f REq w) (leaves (k_matcher k)) -> v = w) ->
  nth_error ks j = Some k ->
  (candidates stored fs (map cb_of ks) st0 j = true <-> forall f v, In f fs -> In (Rel f REq v) (leaves (k_matcher k)) -> v = value_at st0 f).
Proof.
  intros Hne HT Ho Hj.
  assert (Hno : forall k f v, In k ks -> ~ In (Rel f RNe v) (leaves (k_matcher k))).
  { intros k' f v Hk Hin. destruct (HT k' Hk) as [_ Hp]. destruct (positive_leaf ftype _ _ Hp Hin) as [_ []]. }
  assert (Hlit : Forall conj_of_literals (map cb_matcher (map cb_of ks))).
  { apply Forall_forall. intros m Hm. rewrite map_map in Hm. apply in_map_iff in Hm as (k' & <- & Hk'). apply conj_leaves_literals, HT; auto. }
  assert (Hm : nth_error (map cb_matcher (map cb_of ks)) j = Some (k_matcher k)) by (rewrite map_map, nth_error_map, Hj; reflexivity).
  assert (Hk : In k ks) by eauto using nth_error_In.
  assert (Hof : forall m, In m (map cb_matcher (map cb_of ks)) -> exists k', In k' ks /\ m = k_matcher k').
  { intros m Q. rewrite map_map in Q. apply in_map_iff in Q as (k' & <- & Q). eauto. }
  unfold candidates. destruct fs as [|f0 fs0]; [congruence|]. rewrite forallb_forall. split.
  - intros H f v Hf Hin. specialize (H f Hf). eapply build_index_exact in H; [|exact Hlit| |exact Hm].
    + destruct H as [H _]. exact (H v Hin).
    + split.
      * intros m v' w' Hm' H1 H2. apply Hof in Hm' as (k' & Hk' & ->). eapply Ho; eauto.
      * intros m v' w' Hm' _ H2. apply Hof in Hm' as (k' & Hk' & ->). destruct (Hno k' f w' Hk' H2).
      * intros m v' w' Hm' _ H2. apply Hof in Hm' as (k' & Hk' & ->). destruct (Hno k' f w' Hk' H2).
      * intros i0 j0 m m' v' Hi Hj' H1 H2. apply nth_error_In, Hof in Hi as (k' & Hk' & ->). destruct (Hno k' f v' Hk' H1).
  - intros H f Hf. eapply build_index_superset; [exact Hlit|exact Hm| |].
    + intros v Hin. apply (H f v Hf Hin).
    + intros v Hin. destruct (Hno k f v Hk Hin).
Qed.

(** The entries picked, in turn. *)
Lemma picked_turns t st fs cand asks : forall ks i found evs st0 st' r, storage_ok es st0 -> length st0 = length st ->
  (forall k, In k ks -> entry_for es ftab dtab pkind psem t st k) ->
  (forall j k s, nth_error ks j = Some k -> asks k s = true <-> cand (i + j)%nat = true /\ holds_on (remove_terms ftype fs (k_matcher k)) s = true) ->
  run_entries t (pick ftype fs cand i ks) st0 found = Some (Done (evs, st', r)) ->
  turns_when asks (does t) ks st0 evs st' /\ r = (found || match called evs with [] => false | _ => true end).
Proof.
  induction ks as [|k ks IH]; intros i found evs st0 st' r Ho Hlen Hks Hasks E; cbn [pick CallModel.run_entries] in E.
  - injection E as <- <- <-. cbn. split; [constructor|]. rewrite orb_false_r; auto.
  - destruct (Hks k (or_introl eq_refl)) as (Hs & Ha & Hc). pose proof (suits_kept es ftab dtab _ _ _ _ Hs Ho Hlen) as Hs0.
    pose proof (fun s => Hasks O k s eq_refl) as HA. rewrite Nat.add_0_r in HA.
    assert (Hn : forall j k' s, nth_error ks j = Some k' -> asks k' s = true <-> cand (S i + j)%nat = true /\ holds_on (remove_terms ftype fs (k_matcher k')) s = true).
    { intros j k' s Hj. replace (S i + j)%nat with (i + S j)%nat by lia. apply (Hasks (S j)). exact Hj. }
    destruct (cand i) eqn:Ecand.
    + cbn [CallModel.run_entries] in E.
      pose proof (remove_terms_about es ftab ftype dtab pkind psem fs _ _ Ha) as Ha'.
      destruct (CallModel.test es ftab ftype dtab pkind psem (k_msg k) (remove_terms ftype fs (k_matcher k)) t st0) as [o|] eqn:Et; [|discriminate].
      pose proof (test_holds es He ftab ftype Hft dtab pkind psem Hdef _ _ _ _ _ Hs0 Ha' Et) as ->.
      destruct (holds_on (remove_terms ftype fs (k_matcher k)) st0) eqn:Hh.
      * destruct (call es ftab dtab (k_msg k) (k_call k) t st0) as [[[saw st1]| | |]|] eqn:Ec; try discriminate.
        destruct (run_entries t (pick ftype fs cand (S i) ks) st1 true) as [[[[evs1 st2] r1]| | |]|] eqn:Er; cbn in E; try discriminate. injection E as <- <- <-.
        destruct (call_keeps es ftab ftype dtab pkind psem He Hft Hdef Hgood _ _ _ _ _ _ Hs0 Hc Ec) as [Ho1 Hl1].
        destruct (IH (S i) true evs1 st1 st2 r1) as (H1 & H2); auto; [congruence|intros; apply Hks; right; auto|].
        split; [eapply when_call; eauto; apply HA; auto|]. cbn [called flat_map app]. rewrite H2. destruct found; reflexivity.
      * destruct (IH (S i) found evs st0 st' r) as (H1 & H2); auto; [intros; apply Hks; right; auto|].
        split; auto. apply when_skip; auto. destruct (asks k st0) eqn:Q; auto. apply HA in Q as [_ Q]. congruence.
    + destruct (IH (S i) found evs st0 st' r) as (H1 & H2); auto; [intros; apply Hks; right; auto|].
      split; auto. apply when_skip; auto. destruct (asks k st0) eqn:Q; auto. apply HA in Q as [Q _]. congruence.
Qed.
End Proofs.

(** ** C129 for indexed services *)
(** The terms of the conditions in turn. Each is asked of what those before it left,
    except that its equalities with index fields are asked of what was given at first. *)
Theorem C129_indexed_exact : forall es ftab ftype dtab pkind psem fs t ks st evs st' b,
  tables_good es ftab ftype dtab -> storage_ok es st -> fs <> [] -> (forall f, In f fs -> within es ftab t f) ->
  (forall k, In k ks -> entry_for es ftab dtab pkind psem t st k /\ positive (Upos ftype) (k_matcher k)) ->
  (forall k c f v w, In k ks -> In c (split_entry ftype k) -> In f fs ->
     In (Rel f REq v) (leaves (k_matcher c)) -> In (Rel f REq w) (leaves (k_matcher c)) -> v = w) ->
  serve_indexed es ftab ftype dtab pkind psem fs t ks st = Some (Done (evs, st', b)) ->
  exists evs0, turns_when (fun k now => held_since es ftab ftype psem fs st now (k_matcher k))
      (fun k x saw y => call es ftab dtab (k_msg k) (k_call k) t x = Some (Done (saw, y))) (flat_map (split_entry ftype) ks) st evs0 st' /\
    b = (match called evs0 with [] => false | _ => true end) /\
    evs = evs0 ++ (if b then [] else [Unclaimed]).
Proof.
  intros es ftab ftype dtab pkind psem fs t ks st evs st' b HT Ho Hne Hw Hks Hone E. pose proof HT as (He & Hft & Hg).
  unfold serve_indexed, serve_terms in E. apply finish_inv in E as (evs0 & E & ->). exists evs0.
  assert (HS : forall c, In c (flat_map (split_entry ftype) ks) -> exists k, In k ks /\ In c (split_entry ftype k)) by (intros c Hc; apply in_flat_map in Hc; auto).
  assert (HP : forall c, In c (flat_map (split_entry ftype) ks) -> conj_of_leaves (k_matcher c) /\ positive (Upos ftype) (k_matcher c)).
  { intros c Hc. apply HS in Hc as (k & Hk & Hc). unfold split_entry in Hc. apply in_map_iff in Hc as (x & <- & Hx). cbn [k_matcher].
    eapply (terms_positive (E := list N) ftype (stored es ftab ftype) (asked es ftab ftype psem) (type_ok ftab ftype Hft) (stored_range es ftab ftype Hft)); [|exact Hx].
    apply Hks; auto. }
  destruct (picked_turns es ftab ftype dtab pkind psem He Hft (tables_names _ _ _ _ HT) Hg t st fs
    (selected es ftab ftype t fs (flat_map (split_entry ftype) ks) st)
    (fun k now => held_since es ftab ftype psem fs st now (k_matcher k)) (flat_map (split_entry ftype) ks) 0 false evs0 st st' b) as [H1 H2]; auto.
  - intros c Hc. apply HS in Hc as (k & Hk & Hc). destruct (Hks k Hk) as [(Hs & Ha & Hb) _].
    destruct (split_about es ftab ftype dtab pkind psem k c Ha Hc) as [Em Ha'].
    split; [rewrite Em; auto|]. split; auto. rewrite Em. unfold split_entry in Hc. apply in_map_iff in Hc as (x & <- & _). exact Hb.
  - intros j k s Hj. cbn [Nat.add]. assert (Hk : In k (flat_map (split_entry ftype) ks)) by eauto using nth_error_In.
    destruct (HS k Hk) as (k0 & Hk0 & Hin0). destruct (Hks k0 Hk0) as [(Hs & _ & _) _].
    rewrite (selected_right es ftab ftype dtab pkind psem He Hft (tables_names _ _ _ _ HT) t fs _ st (k_msg k0) j Hs Hw).
    rewrite (candidate_since es ftab ftype fs (flat_map (split_entry ftype) ks) st j k Hne HP); [|intros c f v w Hc; apply HS in Hc as (k1 & Hk1 & Hc); eauto|exact Hj].
    destruct (HP k Hk) as [Hc1 Hc2]. eapply remove_since; eauto using tables_names.
Qed.
Print Assumptions C129_indexed_exact.

(** So where callables leave the index fields alone, a term is called exactly if it
    holds of what those before it left, as in a plain service of the terms. *)
Theorem C129_indexed_partial : forall es ftab ftype dtab pkind psem fs t ks st evs st' b,
  tables_good es ftab ftype dtab -> storage_ok es st -> fs <> [] -> (forall f, In f fs -> within es ftab t f) ->
  (forall k, In k ks -> entry_for es ftab dtab pkind psem t st k /\ positive (Upos ftype) (k_matcher k)) ->
  (forall k c f v w, In k ks -> In c (split_entry ftype k) -> In f fs ->
     In (Rel f REq v) (leaves (k_matcher c)) -> In (Rel f REq w) (leaves (k_matcher c)) -> v = w) ->
  (forall k x saw y f, In k ks -> In f fs -> call es ftab dtab (k_msg k) (k_call k) t x = Some (Done (saw, y)) -> value_at es ftab ftype y f = value_at es ftab ftype x f) ->
  serve_indexed es ftab ftype dtab pkind psem fs t ks st = Some (Done (evs, st', b)) ->
  exists evs0, turns es ftab ftype psem (fun k x saw y => call es ftab dtab (k_msg k) (k_call k) t x = Some (Done (saw, y))) (flat_map (split_entry ftype) ks) st evs0 st' /\
    b = (match called evs0 with [] => false | _ => true end) /\
    evs = evs0 ++ (if b then [] else [Unclaimed]).
Proof.
  intros es ftab ftype dtab pkind psem fs t ks st evs st' b HT Ho Hne Hw Hks Hone Hkeep E.
  destruct (C129_indexed_exact es ftab ftype dtab pkind psem fs t ks st evs st' b HT Ho Hne Hw Hks Hone E) as (evs0 & H & Hb & He).
  exists evs0. split; auto. clear E Hb He.
  assert (HK : forall c, In c (flat_map (split_entry ftype) ks) -> exists k, In k ks /\ k_msg c = k_msg k /\ k_call c = k_call k).
  { intros c Hc. apply in_flat_map in Hc as (k & Hk & Hc). exists k. unfold split_entry in Hc. apply in_map_iff in Hc as (x & <- & _). auto. }
  assert (G : forall l s ev s', turns_when (fun k now => held_since es ftab ftype psem fs st now (k_matcher k))
      (fun k x saw y => call es ftab dtab (k_msg k) (k_call k) t x = Some (Done (saw, y))) l s ev s' ->
    (forall c, In c l -> In c (flat_map (split_entry ftype) ks)) -> (forall f, In f fs -> value_at es ftab ftype st f = value_at es ftab ftype s f) ->
    turns es ftab ftype psem (fun k x saw y => call es ftab dtab (k_msg k) (k_call k) t x = Some (Done (saw, y))) l s ev s').
  { intros l s ev s' Ht. induction Ht as [s|k r s ev s' Ha Ht IH|k r s saw s1 ev s' Ha Hd Ht IH]; intros Hin Hv.
    - constructor.
    - rewrite held_same in Ha by auto. apply turns_skip; auto. apply IH; auto. intros; apply Hin; right; auto.
    - rewrite held_same in Ha by auto. eapply turns_call; eauto. apply IH; [intros; apply Hin; right; auto|].
      destruct (HK k (Hin k (or_introl eq_refl))) as (k0 & Hk0 & Q1 & Q2). rewrite Q1, Q2 in Hd.
      intros f Hf. rewrite (Hv f Hf). symmetry. eapply Hkeep; eauto. }
  apply G; auto.
Qed.
Print Assumptions C129_indexed_partial.

(** The second callable is asked about field 0 as it was at first, and about field 1 as
    the first callable left it. *)
Definition sets_both : callable :=
  {| c_plain := Some (PView 0 1 true); c_templ := None; c_body := fun _ => Then (Set_ 0 [(0%nat, 6); (1%nat, 9)]) (fun _ => Stop) |}.
Definition three_fives : list entry :=
  [entry_of 1 (Leaf (Rel 0 REq 5%Z)) sets_both;
   entry_of 2 (And (Leaf (Rel 0 REq 5%Z)) (Leaf (Rel 1 RGt 8%Z))) (reads_both (Some PAnyView) None);
   entry_of 3 (And (Leaf (Rel 0 REq 5%Z)) (Leaf (Rel 1 RLt 8%Z))) (reads_both (Some PAnyView) None);
   entry_of 4 (Leaf (Rel 0 REq 6%Z)) (reads_both (Some PAnyView) None)].
Example C129_indexed_case :
  ex_indexed [0%nat] (TView 0 1 true) three_fives [0x20005] = Some (Done ([Called 1 []; Called 2 [Value 6; Value 9]], [0x90006], true)) /\
  map (fun k => held_since 32 ex_ftab ex_ftype ex_psem [0%nat] [0x20005] [0x90006] (k_matcher k)) three_fives = [true; true; false; false] /\
  map (fun k => holds_on 32 ex_ftab ex_ftype ex_psem (k_matcher k) [0x90006]) three_fives = [false; false; false; true] /\
  ex_serve (TView 0 1 true) three_fives [0x20005] = Some (Done ([Called 1 []; Called 4 [Value 6; Value 9]], [0x90006], true)).
Proof. vm_compute. auto. Qed.
Example C129_indexed_meets : forall k, In k three_fives ->
  entry_for 32 ex_ftab ex_dtab ex_pkind ex_psem (TView 0 1 true) [0x20005] k /\ positive (Upos ex_ftype) (k_matcher k) /\ length (split_entry ex_ftype k) = 1%nat.
Proof.
  assert (Hs : suits 32 ex_ftab ex_dtab 0 (TView 0 1 true) [0x20005]).
  { split; [constructor; [reflexivity|constructor]|]. split; [reflexivity|]. split; [cbn; lia|apply ex_fit; lia]. }
  assert (Hr : callable_for 32 ex_ftab ex_dtab 0 (reads_both (Some PAnyView) None)).
  { split; [intros p [Q|Q]; [injection Q as <-; exact I|discriminate]|].
    intros []; cbn; repeat (constructor; [exact I|intros]); constructor. }
  assert (Hb : callable_for 32 ex_ftab ex_dtab 0 sets_both).
  { split; [intros p [Q|Q]; [injection Q as <-; split; [reflexivity|apply (ex_fit 0 1); lia]|discriminate]|].
    intros []; (constructor; [exact I|intros; constructor]). }
  intros k [<-|[<-|[<-|[<-|[]]]]]; (split; [split; [exact Hs|]; split; [|assumption]|split; [cbn; unfold Upos; cbn; repeat split; vm_compute; first [discriminate|exact I]|vm_compute; reflexivity]]).
  - split; [intros f [<-|[]]; left; auto|intros p []].
  - split; [intros f [<-|[<-|[]]]; [left|right; left]; auto|intros p []].
  - split; [intros f [<-|[<-|[]]]; [left|right; left]; auto|intros p []].
  - split; [intros f [<-|[]]; left; auto|intros p []].
Qed.

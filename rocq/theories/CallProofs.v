(** What matchers and callables are handed has the values of the fields. *)
From Coq Require Import List NArith ZArith Bool Arith Lia ZifyBool ZifyN ZifyNat.
From Verif Require Import FieldModel FieldSpec FieldProofs FieldProofs2 FieldProofs3 MatchModel MatchSpec FieldMatchersModel FieldMatchersSpec MessageModel MessageSpec MessageProofs MessageProps AccessModel AccessSpec AccessProofs AccessProofs2 AccessProofs3 AccessProofs4 AccessProofs5 HandlerModel CallModel CallSpec.
Import ListNotations.
Local Open Scope N_scope.

Section Call.
Variable es : N.
Hypothesis He : narrow es.
Variable ftab : nat -> mfield.
Variable ftype : nat -> cty.
Hypothesis Hft : forall i, field_valid (ftab i) = true /\ type_fits (ftype i) (ftab i).
Variable dtab : nat -> list nat.
Variable pkind : nat -> param.
Variable psem : nat -> (nat -> Z) -> bool.
Notation def := (def ftab dtab).
Notation fields_of := (fields_of ftab dtab).
Notation suits := (suits es ftab dtab).
Notation param_for := (param_for es ftab dtab).
Notation value_at := (value_at es ftab ftype).

(** ** Values in parts of storages *)
Lemma value_prefix n x f : (n <= length x)%nat -> storage_ok es x -> fits (es * N.of_nat n) (f_locs f) ->
  value_in es (firstn n x) f = value_in es x f.
Proof.
  intros Hn Hs Hf. unfold value_in. apply concat_ext. intros k Hk. rewrite (prefix_bits es He) by auto.
  destruct (N.ltb_spec k (es * N.of_nat n)); auto. exfalso. destruct Hk as (l & Hl & Hc). specialize (Hf l Hl). unfold loc_covers in Hc. lia.
Qed.
Lemma value_copy n y f : storage_ok es y -> fits (es * N.of_nat n) (f_locs f) -> fits (es * N.of_nat (length y)) (f_locs f) ->
  value_in es (copy_storage n y) f = value_in es y f.
Proof.
  intros Hs H1 H2. destruct (Nat.le_gt_cases n (length y)) as [H|H].
  - unfold copy_storage. replace (n - length y)%nat with O by lia. cbn [repeat]. rewrite app_nil_r. apply value_prefix; auto.
  - rewrite <- (value_prefix (length y) (copy_storage n y)); auto using copy_ok.
    + f_equal. unfold copy_storage. rewrite (@firstn_all2 _ n y) by lia. rewrite firstn_app, firstn_all, Nat.sub_diag. cbn. apply app_nil_r.
    + rewrite copy_length. lia.
Qed.

(** ** The object in hand *)
Definition good (d : nat) (u : ty) (s : state) (st : list N) : Prop :=
  nth_error (heap s) 0 = Some st /\ storage_ok es st /\
  match u with
  | TArray n => n = length st /\ vars s = [] /\ fields_fit (es * N.of_nat n) (fields_of d)
  | TView d' n _ | TOwner d' n => d' = d /\ fields_fit (es * N.of_nat n) (fields_of d) /\
    exists h x, vars s = [h] /\ h_def h = fields_of d /\ h_extent h = n /\ nth_error (heap s) (h_store h) = Some x /\
      storage_ok es x /\ (n <= length x)%nat /\ forall f, In f (fields_of d) -> value_in es (firstn n x) f = value_in es st f
  end.
Definition room (d : nat) (u : ty) : Prop :=
  match u with TArray _ => False | TView d' n _ | TOwner d' n => d' = d /\ fields_fit (es * N.of_nat n) (fields_of d) end.

Lemma given_good d t st : suits d t st -> good d t (given ftab dtab t st) st.
Proof.
  intros [Hs H]. unfold good, given. cbn [heap vars nth_error]. split; auto. split; auto.
  destruct t as [n|d' n m|d' n].
  - destruct H. auto.
  - destruct H as (-> & Hn & Hf). split; auto. split; auto. eexists _, st. repeat split; cbn [h_store nth_error]; auto.
    intros f Hin. apply value_prefix; auto.
  - destruct H as (-> & Hn & Hf). split; auto. split; auto. eexists _, st. repeat split; cbn [h_store nth_error]; auto; [lia|].
    intros f Hin. apply value_prefix; auto. lia.
Qed.

(** The source: its storage has the values, in its first [k] elements. *)
Lemma source_good d t s st : good d t s st ->
  exists i k m x, source_of s (from t) = Some (i, k, m) /\ nth_error (heap s) i = Some x /\ storage_ok es x /\ (k <= length x)%nat /\
    fields_fit (es * N.of_nat k) (fields_of d) /\ forall f, In f (fields_of d) -> value_in es (firstn k x) f = value_in es st f.
Proof.
  intros (H0 & Hs & H). destruct t as [n|d' n m|d' n]; cbn [from source_of].
  - destruct H as (-> & _ & Hf). rewrite H0. exists O, (length st), true, st. repeat split; auto.
    intros f Hin. rewrite firstn_all. auto.
  - destruct H as (-> & Hf & h & x & -> & _ & <- & Hx & Hsx & Hl & Hv). cbn [nth_error]. exists (h_store h), (h_extent h), (h_mut h), x. auto 10.
  - destruct H as (-> & Hf & h & x & -> & _ & <- & Hx & Hsx & Hl & Hv). cbn [nth_error]. exists (h_store h), (h_extent h), (h_mut h), x. auto 10.
Qed.
Lemma last_one {A} (l : list A) x : skipn (length (l ++ [x]) - 1) (l ++ [x]) = [x].
Proof.
  rewrite app_length. cbn [length]. replace (length l + 1 - 1)%nat with (length l) by lia.
  rewrite skipn_app, skipn_all, Nat.sub_diag. auto.
Qed.
Lemma make_good d u t s st o : good d t s st -> room d u -> make es ftab dtab u t s = Some o ->
  exists s', o = Done s' /\ good d u s' st.
Proof.
  intros Hg Hr Hm. pose proof (source_good d t s st Hg) as (i & k & m0 & x & Es & Ex & Hsx & Hk & Hf & Hv).
  destruct Hg as (H0 & Hst & _).
  destruct u as [n|d' n m|d' n]; [destruct Hr| |]; destruct Hr as [-> Hfn]; cbn [make] in Hm.
  - assert (Hm' : only_last (step es (View (def d) n m (from t) []) s) = Some o).
    { destruct t; auto. destruct m; auto. discriminate. }
    clear Hm. cbn [step] in Hm'. rewrite Es in Hm'.
    destruct (Nat.leb n k && (negb m || m0) && fits_inside es (N.of_nat n) (def d) && (m || true)) eqn:Hc; [|discriminate].
    assert (Hnk : (n <= k)%nat) by (rewrite !andb_true_iff in Hc; destruct Hc as [[[Hc _] _] _]; apply Nat.leb_le; auto).
    set (h := {| h_def := def d; h_store := i; h_extent := n; h_mut := m |}) in *.
    assert (Ho : exists hp, (if m then set_through es h [] (heap s) else Some (Done (heap s))) = Some (Done hp) /\ hp = heap s).
    { destruct m; [|eauto]. subst h. unfold set_through in *. cbn [h_store h_mut h_def h_extent] in *. rewrite Ex in *. unfold m_set in *. cbn [forallb run_sets bind] in *.
      eexists. split; [reflexivity|]. rewrite firstn_skipn. clear -Ex. revert i Ex. induction (heap s) as [|y l IH]; intros [|i] Ex; cbn in *; try discriminate; f_equal; auto. congruence. }
    destruct Ho as (hp & Eo & ->). rewrite Eo in Hm'. cbn [only_last bind fst heap vars] in Hm'. injection Hm' as <-.
    eexists. split; [reflexivity|]. unfold good. cbn [heap vars]. rewrite last_one. split; auto. split; auto. split; auto. split; auto.
    exists h, x. subst h. cbn [h_def h_extent h_store]. split; auto. split; auto. split; auto. split; auto. split; auto. split; [lia|].
    intros f Hin. rewrite <- Hv by auto. rewrite (value_prefix n), (value_prefix k); auto. lia.
  - cbn [step] in Hm. rewrite Es, Ex in Hm. unfold construct_from in Hm. cbn [forallb run_sets] in Hm.
    destruct (fits_inside es (N.of_nat n) (def d) && true); [|discriminate]. cbn [only_last bind fst heap vars] in Hm. injection Hm as <-.
    eexists. split; [reflexivity|]. unfold good. cbn [heap vars]. rewrite last_one.
    split; [rewrite nth_error_app1; auto; apply nth_error_Some; congruence|]. split; auto. split; auto. split; auto.
    eexists _, (copy_storage n (firstn k x)). cbn [h_def h_extent h_store]. split; [reflexivity|]. split; auto. split; auto.
    cbn [h_store]. split; [rewrite nth_error_app2, Nat.sub_diag by lia; auto|].
    assert (Hfo : storage_ok es (firstn k x)) by (apply (firstn_ok es); auto).
    split; [apply copy_ok; auto|]. rewrite copy_length. split; auto.
    intros f Hin. rewrite value_prefix by (rewrite ?copy_length; auto using copy_ok).
    rewrite value_copy; auto. rewrite firstn_length, Nat.min_l by auto. auto.
Qed.

Lemma owner_room d : fields_fit (es * N.of_nat (N.to_nat (storage_size es (def d)))) (fields_of d).
Proof. rewrite N2Nat.id. apply default_storage_fits; auto. reflexivity. Qed.
Lemma type_as_room d w t u st : w <> AsIs -> suits d t st -> type_as es ftab dtab d w t = Some u -> room d u.
Proof.
  intros Hw [_ Hs] Hu. destruct w; [congruence| |]; cbn [type_as view_type owner_type] in Hu; destruct t as [n|d' n m|d' n]; cbn [view_type owner_type] in Hu;
    try (destruct (Nat.eqb_spec d' d) as [->|]; [|discriminate]); injection Hu as <-; cbn [room]; try tauto.
  split; auto. apply owner_room.
Qed.
Lemma pass_good d w t st o : suits d t st -> pass es ftab dtab d w t st = Some o ->
  exists s u, o = Done s /\ type_as es ftab dtab d w t = Some u /\ good d u s st.
Proof.
  intros Hs Hp. pose proof (given_good d t st Hs) as Hg. unfold pass in Hp. destruct w.
  - injection Hp as <-. exists (given ftab dtab t st), t. cbn [type_as]. auto.
  - destruct (type_as es ftab dtab d AsView t) as [u|] eqn:Eu; [|discriminate].
    destruct (make_good d u t _ st o Hg) as (s' & -> & Hg'); auto. { eapply type_as_room; eauto. discriminate. }
    exists s', u. auto.
  - destruct (type_as es ftab dtab d AsOwner t) as [u|] eqn:Eu; [|discriminate].
    destruct (make_good d u t _ st o Hg) as (s' & -> & Hg'); auto. { eapply type_as_room; eauto. discriminate. }
    exists s', u. auto.
Qed.
Lemma bind_good d p u s st o : param_for d p -> accepts p u = true -> good d u s st -> bind_param es ftab dtab p u s = Some o ->
  exists s', o = Done s' /\ good d (param_type p u) s' st /\
    (p = PAny -> forall n, u = TArray n -> nth_error (heap s') 1 = Some st \/ (length (heap s) <> 1)%nat).
Proof.
  intros Hp Ha Hg Hb. assert (Hself : (forall n, u <> TArray n) -> room d u).
  { destruct Hg as (_ & _ & H). destruct u as [n|d' n m|d' n]; intros Hn0; cbn [room]; [exfalso; apply (Hn0 n); congruence| |]; destruct H as (H1 & H2 & _); auto. }
  assert (Hgen : (forall n, p = PAny -> u = TArray n -> False) -> make es ftab dtab (param_type p u) u s = Some o ->
    exists s', o = Done s' /\ good d (param_type p u) s' st).
  { intros Hna Hm. destruct p as [n|d' n m|d' n| | |]; cbn [param_type param_for] in *.
    - destruct u as [k| |]; try discriminate. cbn [accepts] in Ha. apply Nat.eqb_eq in Ha. subst k. cbn [make] in Hm. injection Hm as <-. eauto.
    - eapply make_good; eauto.
    - eapply make_good; eauto.
    - eapply make_good; [exact Hg| |exact Hm]. destruct u as [k| |]; [exfalso; eapply Hna; eauto| |]; apply Hself; discriminate.
    - eapply make_good; [exact Hg| |exact Hm]. destruct u; try discriminate. apply Hself; discriminate.
    - eapply make_good; [exact Hg| |exact Hm]. destruct u; try discriminate. apply Hself; discriminate. }
  destruct p as [n|d' n m|d' n| | |]; try (destruct Hgen as (s' & -> & Hg'); [discriminate|exact Hb|]; exists s'; split; auto; split; auto; discriminate).
  destruct u as [k|d' k m|d' k]; try (destruct Hgen as (s' & -> & Hg'); [intros; discriminate|exact Hb|]; exists s'; split; auto; split; auto; intros; discriminate).
  cbn [bind_param] in Hb. injection Hb as <-. eexists. split; [reflexivity|]. destruct Hg as (H0 & Hs & Hn & Hv & Hf).
  destruct (heap s) as [|a l] eqn:Eh; [discriminate|]. cbn in H0. injection H0 as ->. split.
  - unfold good. cbn [param_type heap vars app nth_error]. auto.
  - intros _ n _. cbn [heap app nth_error]. destruct l; cbn; auto.
Qed.

(** ** Reading the object *)
Hypothesis Hdef : forall d, NoDup (map f_name (fields_of d)).
Lemma find_own d i : In i (dtab d) -> find_field (f_name (ftab i)) (fields_of d) = Some (ftab i).
Proof.
  intros Hi. apply find_field_in; auto. unfold CallSpec.fields_of. apply in_map; auto.
Qed.
Lemma read_value f x : (exists i, f = ftab i) -> storage_ok es x -> fits (nbits es x) (f_locs f) ->
  field_extract es (f_ew f) (f_locs f) x = Done (value_in es x f).
Proof. intros [i ->] Hs Hf. apply extract_value; auto. apply Hft. Qed.
Lemma value_small i x : value_in es x (ftab i) < 2 ^ (8 * f_bytes (ftab i)).
Proof.
  destruct (Hft i) as [Hv _]. destruct (field_valid_wf _ Hv) as (_ & Hw & _).
  assert (value_in es x (ftab i) < 2 ^ width (ftab i)) by apply concat_lt.
  assert (2 ^ width (ftab i) <= 2 ^ (8 * f_bytes (ftab i))) by (apply N.pow_le_mono_r; lia). lia.
Qed.
Lemma event_value d u s st i : good d u s st -> In i (dtab d) ->
  extract_field ftab ftype es i (event_of dtab u s) = value_at st i /\ readable es ftab (event_of dtab u s) i = true.
Proof.
  intros (H0 & Hs & H) Hi. assert (Hin : In (ftab i) (fields_of d)) by (apply in_map; auto).
  destruct (Hft i) as [Hval Hty].
  assert (Hmsg : forall x n, storage_ok es x -> (n <= length x)%nat -> fields_fit (es * N.of_nat n) (fields_of d) ->
    (forall f, In f (fields_of d) -> value_in es (firstn n x) f = value_in es st f) ->
    extract_field ftab ftype es i (Message (dtab d) (firstn n x)) = value_at st i /\ readable es ftab (Message (dtab d) (firstn n x)) i = true).
  { intros x n Hx Hn Hf Hv. unfold extract_field, readable, m_get. fold (def d). change (def d) with (fields_of d). rewrite find_own by auto.
    assert (Hl : length (firstn n x) = n) by (rewrite firstn_length; lia). rewrite Hl.
    rewrite (fits_checks _ _ (Hf _ Hin)). split; auto.
    rewrite read_value; [| |apply (firstn_ok es); auto|unfold nbits; rewrite Hl; auto]; [|eauto].
    rewrite of_raw_typed, signed_same; [|eapply type_pos; eauto|apply value_small]. unfold CallSpec.value_at. rewrite Hv; auto. }
  destruct u as [n|d' n m|d' n]; cbn [event_of].
  - destruct H as (-> & _ & Hf). destruct (heap s) as [|a l]; [discriminate|]. cbn in H0. injection H0 as ->.
    unfold extract_field, readable. rewrite (fits_checks _ _ (Hf _ Hin)). split; auto.
    rewrite read_value; auto; [|eauto]. rewrite of_raw_typed, signed_same; auto; [eapply type_pos; eauto|apply value_small].
  - destruct H as (-> & Hf & h & x & -> & _ & <- & Hx & Hsx & Hl & Hv). unfold span_of. rewrite Hx. cbn [option_map]. auto.
  - destruct H as (-> & Hf & h & x & -> & _ & <- & Hx & Hsx & Hl & Hv). unfold span_of. rewrite Hx. cbn [option_map]. auto.
Qed.

Lemma way_takes d ok t w : way es ftab dtab d ok t = Some w -> exists u, type_as es ftab dtab d w t = Some u /\ ok u = true.
Proof.
  intros H. apply find_some in H as [_ H]. destruct (type_as es ftab dtab d w t) as [u|]; [|discriminate]. eauto.
Qed.

Lemma eval_leaves (m : fexpr) : forall s1 s2 : leaf -> unit -> bool,
  (forall f, In f (rels m) -> forall o v, s1 (Rel f o v) tt = s2 (Rel f o v) tt) -> (forall p, In p (preds m) -> s1 (Pred p) tt = s2 (Pred p) tt) ->
  eval s1 m tt = eval s2 m tt.
Proof.
  induction m as [[f o v|p]| | |a IHa b IHb|a IHa b IHb|a IHa]; intros s1 s2 H1 H2; cbn [eval rels preds] in *; auto.
  - apply H1. left; auto.
  - apply H2. left; auto.
  - rewrite (IHa s1 s2), (IHb s1 s2); auto; intros; (apply H1 || apply H2); rewrite in_app_iff; auto.
  - rewrite (IHa s1 s2), (IHb s1 s2); auto; intros; (apply H1 || apply H2); rewrite in_app_iff; auto.
  - rewrite (IHa s1 s2); auto.
Qed.

Notation test := (test es ftab ftype dtab pkind psem).
Notation holds_on := (holds_on es ftab ftype psem).
Notation about := (about es ftab dtab pkind psem).
Lemma ask_value d p u s st : good d u s st -> accepts (pkind p) u = true -> param_for d (pkind p) -> looks_at dtab d (psem p) ->
  is_some (ask es ftab ftype dtab pkind psem p u s) = true -> answer (ask es ftab ftype dtab pkind psem p u s) = psem p (value_at st).
Proof.
  intros Hg Ha Hp Hl. unfold ask. destruct (bind_param es ftab dtab (pkind p) u s) as [o|] eqn:Eb; [|discriminate]. intros _.
  destruct (bind_good d _ u s st o Hp Ha Hg Eb) as (s' & -> & Hg' & _). cbn [bind answer].
  apply Hl. intros i Hi. eapply event_value; eauto.
Qed.
(** The condition of a callback is that of the storage, whatever is given and however
    it is passed on. *)
Theorem test_holds d m t st r : suits d t st -> about d m -> test d m t st = Some r -> r = Done (holds_on m st).
Proof.
  intros Hs [Hr Hp] Ht. unfold CallModel.test in Ht. destruct (way _ _ _ d _ t) as [w|] eqn:Ew; [|discriminate].
  apply way_takes in Ew as (u & Eu & Hok). destruct (pass es ftab dtab d w t st) as [o|] eqn:Ep; [|discriminate].
  destruct (pass_good d w t st o Hs Ep) as (s & u' & -> & Eu' & Hg). rewrite Eu in Ht, Eu'. injection Eu' as <-. cbn zeta in Ht.
  destruct (forallb _ (rels m) && forallb _ (preds m)) eqn:Hc; [|discriminate]. injection Ht as <-. f_equal.
  rewrite andb_true_iff, !forallb_forall in Hc. destruct Hc as [_ Hc]. unfold matcher_takes in Hok. rewrite forallb_forall in Hok.
  apply eval_leaves; cbn [leaf_sem].
  - intros f Hf o v. f_equal. eapply event_value; eauto.
  - intros p Hpin. destruct (Hp p Hpin) as [H1 H2]. eapply ask_value; eauto.
Qed.

(** ** Parameters *)
Lemma entered_good d p w t st o : suits d t st -> param_for d p -> way es ftab dtab d (accepts p) t = Some w ->
  entered es ftab dtab d p w t st = Some o ->
  exists s u, o = Done s /\ type_as es ftab dtab d w t = Some u /\ good d (param_type p u) s st /\
    (forall n, p = PAny -> u = TArray n -> nth_error (heap s) 1 = Some st).
Proof.
  intros Hs Hp Hw He'. apply way_takes in Hw as (u & Eu & Hok). unfold entered in He'.
  destruct (pass es ftab dtab d w t st) as [o'|] eqn:Ep; [|discriminate].
  destruct (pass_good d w t st o' Hs Ep) as (s & u' & -> & Eu' & Hg). rewrite Eu in He', Eu'. injection Eu' as <-.
  destruct (bind_good d p u s st o Hp Hok Hg He') as (s' & -> & Hg' & Hx). exists s', u. repeat split; auto; try apply Hg'.
  intros n -> ->. destruct (Hx eq_refl n eq_refl) as [H|H]; auto. exfalso. apply H.
  destruct w.
  - cbn [pass] in Ep. injection Ep as <-. reflexivity.
  - cbn [type_as view_type] in Eu. destruct t; cbn in Eu; try (destruct (Nat.eqb _ _)); discriminate.
  - cbn [type_as owner_type] in Eu. destruct t; cbn in Eu; try (destruct (Nat.eqb _ _)); discriminate.
Qed.
Lemma get_value_of d u s st i : good d u s st -> (forall n, u <> TArray n) -> In i (dtab d) ->
  step es (Get 0 (f_name (ftab i))) s = Some (Done (s, [Value (value_in es st (ftab i))])).
Proof.
  intros (H0 & Hs & H) Hu Hi. assert (Hin : In (ftab i) (fields_of d)) by (apply in_map; auto).
  assert (Hex : exists h x n, vars s = [h] /\ h_def h = fields_of d /\ h_extent h = n /\ nth_error (heap s) (h_store h) = Some x /\
      storage_ok es x /\ (n <= length x)%nat /\ fields_fit (es * N.of_nat n) (fields_of d) /\ forall f, In f (fields_of d) -> value_in es (firstn n x) f = value_in es st f).
  { destruct u as [n|d' n m|d' n]; [exfalso; eapply Hu; eauto| |]; destruct H as (-> & Hf & h & x & H); exists h, x, n; tauto. }
  destruct Hex as (h & x & n & Ev & Ed & En & Ex & Hx & Hl & Hf & Hv).
  cbn [step]. rewrite Ev. cbn [nth_error]. unfold span_of. rewrite Ex. cbn [option_map]. rewrite Ed, En. unfold m_get. rewrite find_own by auto.
  assert (Hl' : length (firstn n x) = n) by (rewrite firstn_length; lia). rewrite Hl', (fits_checks _ _ (Hf _ Hin)).
  rewrite read_value; [| |apply (firstn_ok es); auto|unfold nbits; rewrite Hl'; auto]; [|eauto].
  cbn [bind]. rewrite Hv; auto.
Qed.
End Call.

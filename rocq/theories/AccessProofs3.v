(** Consequences for programs: what is written through one handle is read through
    the others of the same storage, and storages are independent. *)
From Coq Require Import List NArith ZArith Bool Arith Lia ZifyBool ZifyN ZifyNat.
From Verif Require Import FieldModel FieldSpec FieldProofs FieldProofs2 FieldProofs3 MatchModel FieldMatchersModel MessageModel MessageSpec MessageProofs AccessModel AccessSpec AccessProofs AccessProofs2.
Import ListNotations.
Local Open Scope N_scope.

(** ** Bits of a field after values are given *)
Lemma written_all_at d vs f k : msg_good d -> In f d -> fcovers f k -> forall b,
  written_all d vs b k = match supplied vs (f_name f) with
                         | Some x => match place (f_locs f) x k with Some q => q | None => b k end
                         | None => b k
                         end.
Proof.
  intros (Hnd & _ & Hdis) Hf Hk. induction vs as [|[n v] vs IH]; intros b; cbn [written_all]; auto.
  rewrite IH. clear IH. unfold supplied at 2. cbn [fold_left fst snd]. rewrite supplied_acc.
  destruct (supplied vs (f_name f)) as [x|].
  - destruct (place_some (f_locs f) x k Hk) as [q ->]. auto.
  - destruct (find (fun g => Nat.eqb (f_name g) n) d) as [g|] eqn:E.
    + apply find_some in E as [Hg En]. apply Nat.eqb_eq in En. destruct (Nat.eqb_spec n (f_name f)) as [Q|Q].
      * assert (g = f) as ->.
        { pose proof (find_field_in d f Hnd Hf) as E1. pose proof (find_field_in d g Hnd Hg) as E2.
          rewrite En, Q in E2. congruence. }
        unfold written. auto.
      * unfold written. rewrite place_none; auto. intros Hc. apply (Hdis g f Hg Hf) in Hc; auto. congruence.
    + destruct (Nat.eqb_spec n (f_name f)) as [Q|Q]; auto. exfalso.
      pose proof (find_none _ _ E f Hf) as H. cbn in H. rewrite Q, Nat.eqb_refl in H. discriminate.
Qed.
Lemma written_all_away d vs k : (forall f n v, In f d -> In (n, v) vs -> f_name f = n -> ~ fcovers f k) -> forall b,
  written_all d vs b k = b k.
Proof.
  induction vs as [|[n v] vs IH]; intros H b; cbn [written_all]; auto. rewrite IH.
  - destruct (find _ d) as [f|] eqn:E; auto. apply find_some in E as [Hf En]. apply Nat.eqb_eq in En.
    unfold written. rewrite place_none; auto. apply (H f n v); auto. left; auto.
  - intros f m w Hf Hin. apply (H f m w Hf). right; auto.
Qed.
Lemma place_low f x k : field_valid f = true -> place (f_locs f) (x mod 2 ^ width f) k = place (f_locs f) x k.
Proof.
  intros Hf. unfold width. assert (Hw : total_size (f_locs f) <= total_size (f_locs f)) by lia. revert Hw. generalize (total_size (f_locs f)) at 2 3.
  intros w Hw. unfold place. rewrite <- total_size_rev in Hw. revert x w Hw.
  induction (rev (f_locs f)) as [|l r IH]; intros v w Hw; cbn [place_rev]; auto.
  cbn [total_size fold_right] in Hw. fold (total_size r) in Hw.
  assert (E : N.shiftr (v mod 2 ^ w) (l_size l) = N.shiftr v (l_size l) mod 2 ^ (w - l_size l)).
  { rewrite !N.shiftr_div_pow2. replace w with (l_size l + (w - l_size l)) at 1 by lia.
    rewrite N.pow_add_r. rewrite N.mod_mul_r by (apply N.pow_nonzero; lia).
    rewrite N.mul_comm, N.div_add by (apply N.pow_nonzero; lia).
    rewrite N.div_small by (apply N.mod_lt, N.pow_nonzero; lia). auto. }
  rewrite E, IH by lia. destruct (N.leb_spec (loc_start l) k); cbn [andb]; auto.
  destruct (N.ltb_spec k (loc_start l + l_size l)); auto. f_equal. apply N.mod_pow2_bits_low. lia.
Qed.

(** ** Programs *)
Lemma run_app es p q : forall s, run es (p ++ q) s =
  match run es p s with
  | Some (Done (s', o)) => match run es q s' with Some z => Some (let! w := z in Done (fst w, o ++ snd w)) | None => None end
  | z => z
  end.
Proof.
  induction p as [|c p IH]; intros s; cbn [run app].
  - destruct (run es q s) as [[[s' o]| | |]|]; cbn; auto.
  - destruct (step es c s) as [[[s1 o1]| | |]|]; auto. rewrite IH.
    destruct (run es p s1) as [[[s2 o2]| | |]|]; cbn [bind fst snd]; auto.
    destruct (run es q s2) as [[[s3 o3]| | |]|]; cbn [bind fst snd]; auto. rewrite app_assoc. auto.
Qed.

Section Shared.
Variable es : N.
Hypothesis He : narrow es.

(** A program all of whose definitions are good. *)
Definition program_good (p : list command) : Prop := Forall (command_good es) p /\ all_alike es p empty.
Lemma reached p s obs : program_good p -> run es p start = Some (Done (s, obs)) -> exists a, inv es s a /\ all_shown es p empty obs.
Proof.
  intros [Hg Ha] Hr. destruct (run_inv es He p start empty _ (conj eq_refl (conj (Forall2_nil _) (Forall_nil _))) Hg Ha Hr) as (s' & obs' & E & Hi & Hs).
  injection E as <- <-. eauto.
Qed.

Lemma get_shows s a w n o : inv es s a -> step es (Get w n) s = Some o ->
  exists g f x, nth_error (vars s) w = Some g /\ In f (h_def g) /\ f_name f = n /\ holds_value (bits_of a (h_store g)) f x /\ o = Done (s, [Value x]).
Proof.
  intros Hi E. destruct (step_inv es He (Get w n) s a o Hi I I E) as (s' & obs & -> & _ & (h & f & x & H1 & H2 & H3 & H4 & ->)).
  assert (Hn : names a = vars s) by apply Hi. rewrite Hn in H1. exists h, f, x.
  assert (s' = s) as ->. 2: auto.
  cbn [step] in E. rewrite H1 in E. destruct (span_of (heap s) h); [|discriminate]. destruct (m_get _ _ _ _) as [[z| | |]|]; cbn in E; congruence.
Qed.
Lemma bits_change i g (sts : list storage) j n b vs : nth_error sts i = Some (n, b) ->
  bits_of {| stores := change i g sts; names := vs |} j = if Nat.eqb j i then g b else bits_of {| stores := sts; names := vs |} j.
Proof.
  intros E. unfold bits_of, change. cbn [stores]. destruct (Nat.eqb_spec j i) as [->|Hne].
  - rewrite E, put_nth_same; auto. apply nth_error_Some. congruence.
  - rewrite E, put_nth_other; auto.
Qed.
Lemma get_value s a w n g f x o : inv es s a -> nth_error (vars s) w = Some g -> In f (h_def g) -> f_name f = n ->
  holds_value (bits_of a (h_store g)) f x -> step es (Get w n) s = Some o -> o = Done (s, [Value x]).
Proof.
  intros Hi Eg Hf Hn Hx E. destruct (get_shows s a w n o Hi E) as (g' & f' & x' & Eg' & Hf' & Hn' & Hx' & ->).
  rewrite Eg in Eg'. injection Eg' as <-. destruct Hi as (_ & HR & Hh).
  rewrite Forall_forall in Hh. destruct (Hh g) as ((Hnd & Hgf & _) & _ & st & Est & _); [eapply nth_error_In; eauto|].
  assert (f' = f) as ->.
  { pose proof (find_field_in _ f Hnd Hf) as E1. pose proof (find_field_in _ f' Hnd Hf') as E2. congruence. }
  rewrite Forall_forall in Hgf. destruct (Hgf f Hf) as (_ & Hdis & _).
  destruct (forall2_nth _ _ _ HR _ _ Est) as ([m b] & Eb & (Hl & Hok & Hb)). cbn [fst snd] in *.
  unfold bits_of in Hx, Hx'. rewrite Eb in Hx, Hx'.
  rewrite (holds_value_unique es st f b x Hdis Hb Hx), (holds_value_unique es st f b x' Hdis Hb Hx'). auto.
Qed.

(** Setting through one handle, reading through another of the same storage. *)
Lemma set_then_get p s obs v w vs n h g f x o :
  program_good p -> run es p start = Some (Done (s, obs)) ->
  nth_error (vars s) v = Some h -> nth_error (vars s) w = Some g -> h_store h = h_store g ->
  In f (h_def h) -> In f (h_def g) -> f_name f = n -> supplied vs n = Some x ->
  run es (p ++ [Set_ v vs; Get w n]) start = Some o ->
  exists s', o = Done (s', obs ++ [Value (x mod 2 ^ width f)]).
Proof.
  intros Hp Hr Eh Eg Est Hf Hf' Hn Hx Ho. destruct (reached p s obs Hp Hr) as (a & Hi & _).
  rewrite run_app, Hr in Ho. cbn [run] in Ho. destruct (step es (Set_ v vs) s) as [o1|] eqn:E1; [|discriminate].
  destruct (step_inv es He (Set_ v vs) s a o1 Hi I I E1) as (s1 & obs1 & -> & Hi1 & Hs1). cbn in Hs1. subst obs1.
  destruct (step es (Get w n) s1) as [o2|] eqn:E2; [|discriminate].
  assert (Hv : vars s1 = vars s).
  { cbn [step] in E1. rewrite Eh in E1. destruct (set_through es h vs (heap s)) as [[hp| | |]|]; cbn in E1; try discriminate. injection E1 as <-. auto. }
  assert (Hnm : names a = vars s) by apply Hi.
  destruct Hi as (_ & HR & Hh). rewrite Forall_forall in Hh. destruct (Hh h) as (Hgood & Hfit & st & Es & _); [eapply nth_error_In; eauto|].
  destruct (forall2_nth _ _ _ HR _ _ Es) as ([m b] & Eb & (Hl & Hok & Hb)). cbn [fst snd] in *.
  assert (Hval : field_valid f = true). { destruct Hgood as (_ & Hg & _). rewrite Forall_forall in Hg. apply (Hg f Hf). }
  rewrite (get_value s1 _ w n g f (x mod 2 ^ width f) o2 Hi1) in Ho; auto; try congruence.
  - injection Ho as <-. cbn [bind fst snd]. eexists. reflexivity.
  - cbn [effect]. rewrite Hnm, Eh. rewrite (bits_change (h_store h) _ _ _ m b) by auto. rewrite Est, Nat.eqb_refl.
    split; [apply N.mod_lt, N.pow_nonzero; lia|]. intros k q Ep. rewrite place_low in Ep by auto.
    assert (Hc : fcovers f k).
    { destruct (covers_dec (f_locs f) k) as [H|H]; auto. rewrite place_none in Ep by auto. discriminate. }
    rewrite (written_all_at (h_def h) vs f k Hgood Hf Hc). rewrite Hn, Hx, Ep. auto.
Qed.

(** What no set field overlaps keeps its value, for every handle, of whatever
    definition, on whatever storage. *)
Lemma set_elsewhere p s obs v w vs n h g f o :
  program_good p -> run es p start = Some (Done (s, obs)) ->
  nth_error (vars s) v = Some h -> nth_error (vars s) w = Some g -> In f (h_def g) -> f_name f = n ->
  (h_store h = h_store g -> forall f' m u, In f' (h_def h) -> In (m, u) vs -> f_name f' = m -> fields_disjoint f f') ->
  run es (p ++ [Get w n; Set_ v vs; Get w n]) start = Some o ->
  exists s' x, o = Done (s', obs ++ [Value x; Value x]).
Proof.
  intros Hp Hr Eh Eg Hf Hn Hdis Ho. destruct (reached p s obs Hp Hr) as (a & Hi & _).
  rewrite run_app, Hr in Ho. cbn [run] in Ho. destruct (step es (Get w n) s) as [o1|] eqn:E1; [|discriminate].
  destruct (get_shows s a w n o1 Hi E1) as (g' & f' & x & Eg' & Hf' & Hn' & Hx & ->). rewrite Eg in Eg'. injection Eg' as <-.
  assert (f' = f) as ->.
  { destruct Hi as (_ & _ & Hh). rewrite Forall_forall in Hh. destruct (Hh g) as ((Hnd & _) & _); [eapply nth_error_In; eauto|].
    pose proof (find_field_in _ f Hnd Hf) as Q1. pose proof (find_field_in _ f' Hnd Hf') as Q2. congruence. }
  destruct (step es (Set_ v vs) s) as [o2|] eqn:E2; [|discriminate].
  destruct (step_inv es He (Set_ v vs) s a o2 Hi I I E2) as (s1 & obs1 & -> & Hi1 & Hs1). cbn in Hs1. subst obs1.
  destruct (step es (Get w n) s1) as [o3|] eqn:E3; [|discriminate].
  assert (Hv : vars s1 = vars s).
  { cbn [step] in E2. rewrite Eh in E2. destruct (set_through es h vs (heap s)) as [[hp| | |]|]; cbn in E2; try discriminate. injection E2 as <-. auto. }
  assert (Hnm : names a = vars s) by apply Hi.
  rewrite (get_value s1 _ w n g f x o3 Hi1) in Ho; auto; try congruence.
  - injection Ho as <-. cbn [bind fst snd]. eexists _, x. reflexivity.
  - destruct Hi as (_ & HR & Hh). rewrite Forall_forall in Hh. destruct (Hh h) as (Hgood & Hfit & st & Es & _); [eapply nth_error_In; eauto|].
    destruct (forall2_nth _ _ _ HR _ _ Es) as ([m b] & Eb & _).
    cbn [effect]. rewrite Hnm, Eh. rewrite (bits_change (h_store h) _ _ _ m b) by auto.
    change (bits_of {| stores := stores a; names := vars s |} (h_store g)) with (bits_of a (h_store g)).
    destruct (Nat.eqb_spec (h_store g) (h_store h)) as [Q|Q]; auto.
    assert (Hbb : bits_of a (h_store g) = b) by (unfold bits_of; rewrite Q, Eb; auto). rewrite Hbb in Hx.
    destruct Hx as [Hx1 Hx2]. split; auto. intros k q Ep. rewrite written_all_away; [eauto|].
    intros f' m' u Hf2 Hin Hn2 Hc. assert (Hd : fields_disjoint f f') by (eapply Hdis; eauto). apply (Hd k); auto.
    destruct (covers_dec (f_locs f) k) as [H|H]; auto. rewrite place_none in Ep by auto. discriminate.
Qed.
End Shared.

(** ** Independence of storages: no conditions on the definitions at all *)
Lemma set_through_other es h vs hp hp' i : set_through es h vs hp = Some (Done hp') -> h_store h <> i -> nth_error hp' i = nth_error hp i.
Proof.
  unfold set_through. destruct (nth_error hp (h_store h)) as [st|]; [|discriminate]. destruct (h_mut h); [|discriminate].
  destruct (m_set _ _ _ _) as [[w| | |]|]; cbn; try discriminate. intros E Hn. injection E as <-. apply put_nth_other; auto.
Qed.
Lemma set_through_length es h vs hp hp' : set_through es h vs hp = Some (Done hp') -> length hp' = length hp.
Proof.
  unfold set_through. destruct (nth_error hp (h_store h)) as [st|]; [|discriminate]. destruct (h_mut h); [|discriminate].
  destruct (m_set _ _ _ _) as [[w| | |]|]; cbn; try discriminate. intros E. injection E as <-. apply put_nth_length.
Qed.
Lemma set_through_nil es h hp hp' : set_through es h [] hp = Some (Done hp') -> hp' = hp.
Proof.
  unfold set_through. destruct (nth_error hp (h_store h)) as [st|] eqn:E; [|discriminate]. destruct (h_mut h); [|discriminate].
  unfold m_set. cbn [forallb run_sets bind]. intros H. injection H as <-. rewrite firstn_skipn.
  revert E. generalize (h_store h). induction hp as [|x hp IH]; intros [|i] E; cbn in *; try discriminate; auto; [congruence|].
  f_equal. auto.
Qed.

Lemma step_other es c s s' o i : step es c s = Some (Done (s', o)) -> (i < length (heap s))%nat -> ~ writes_to s c i ->
  nth_error (heap s') i = nth_error (heap s) i.
Proof.
  intros E Hi Hw. destruct c as [st|j k v|d n vs|d n src vs|d n mut src vs|v vs|v f|x y]; cbn [step writes_to] in *.
  - destruct (forallb _ st); [|discriminate]. injection E as <- _. cbn [heap]. apply nth_error_app1; auto.
  - destruct (nth_error (heap s) j); [|discriminate]. destruct (Nat.ltb _ _); [|discriminate]. injection E as <- _. cbn [heap]. apply put_nth_other; auto.
  - destruct (construct es n d vs) as [[w| | |]|]; cbn in E; try discriminate. injection E as <- _. cbn [heap]. apply nth_error_app1; auto.
  - destruct (source_of s src) as [[[j k] m]|]; [|discriminate]. destruct (nth_error (heap s) j) as [st|]; [|discriminate].
    destruct (construct_from _ _ _ _ _) as [[w| | |]|]; cbn in E; try discriminate. injection E as <- _. cbn [heap]. apply nth_error_app1; auto.
  - destruct (source_of s src) as [[[j k] m]|] eqn:Es; [|discriminate].
    destruct (_ && _) in E; [|discriminate]. destruct mut.
    + destruct (set_through _ _ _ _) as [[hp| | |]|] eqn:Et; cbn in E; try discriminate. injection E as <- _. cbn [heap].
      destruct vs as [|nv vs]; [apply set_through_nil in Et; congruence|].
      eapply set_through_other; eauto. cbn [h_store]. intros <-. apply Hw. unfold source_of in Es. destruct src as [q|q].
      * destruct (nth_error (heap s) q); [|discriminate]. congruence.
      * destruct (nth_error (vars s) q) as [h|]; [|discriminate]. exists h. split; auto. congruence.
    + cbn in E. injection E as <- _. auto.
  - destruct (nth_error (vars s) v) as [h|] eqn:Eh; [|discriminate].
    destruct (set_through es h vs (heap s)) as [[hp| | |]|] eqn:Et; cbn in E; try discriminate. injection E as <- _. cbn [heap].
    eapply set_through_other; [eauto|]. intros Q. apply Hw. exists h. auto.
  - destruct (nth_error (vars s) v) as [h|]; [|discriminate]. destruct (span_of (heap s) h); [|discriminate].
    destruct (m_get _ _ _ _) as [[w| | |]|]; cbn in E; try discriminate. injection E as <- _. auto.
  - destruct (nth_error (vars s) x) as [h|]; [|discriminate]. destruct (nth_error (vars s) y) as [g|]; [|discriminate].
    destruct (span_of (heap s) h); [|discriminate]. destruct (span_of (heap s) g); [|discriminate].
    destruct (equiv _ _ _ _) as [w| | |]; cbn in E; try discriminate. injection E as <- _. auto.
Qed.
Lemma step_grows es c s s' o : step es c s = Some (Done (s', o)) ->
  (length (heap s) <= length (heap s'))%nat /\ exists l, vars s' = vars s ++ l.
Proof.
  intros E. destruct c as [st|j k v|d n vs|d n src vs|d n mut src vs|v vs|v f|x y]; cbn [step] in *.
  - destruct (forallb _ st); [|discriminate]. injection E as <- _. cbn [heap vars]. rewrite app_length. split; [lia|exists []; rewrite app_nil_r; auto].
  - destruct (nth_error (heap s) j); [|discriminate]. destruct (Nat.ltb _ _); [|discriminate]. injection E as <- _. cbn [heap vars].
    rewrite put_nth_length. split; [lia|exists []; rewrite app_nil_r; auto].
  - destruct (construct es n d vs) as [[w| | |]|]; cbn in E; try discriminate. injection E as <- _. cbn [heap vars]. rewrite app_length. split; [lia|eauto].
  - destruct (source_of s src) as [[[j k] m]|]; [|discriminate]. destruct (nth_error (heap s) j) as [st|]; [|discriminate].
    destruct (construct_from _ _ _ _ _) as [[w| | |]|]; cbn in E; try discriminate. injection E as <- _. cbn [heap vars]. rewrite app_length. split; [lia|eauto].
  - destruct (source_of s src) as [[[j k] m]|] eqn:Es; [|discriminate].
    destruct (_ && _) in E; [|discriminate]. destruct mut.
    + destruct (set_through _ _ _ _) as [[hp| | |]|] eqn:Et; cbn in E; try discriminate. injection E as <- _. cbn [heap vars].
      rewrite (set_through_length _ _ _ _ _ Et). split; [lia|eauto].
    + cbn in E. injection E as <- _. cbn [heap vars]. split; [lia|eauto].
  - destruct (nth_error (vars s) v) as [h|] eqn:Eh; [|discriminate].
    destruct (set_through es h vs (heap s)) as [[hp| | |]|] eqn:Et; cbn in E; try discriminate. injection E as <- _. cbn [heap vars].
    rewrite (set_through_length _ _ _ _ _ Et). split; [lia|exists []; rewrite app_nil_r; auto].
  - destruct (nth_error (vars s) v) as [h|]; [|discriminate]. destruct (span_of (heap s) h); [|discriminate].
    destruct (m_get _ _ _ _) as [[w| | |]|]; cbn in E; try discriminate. injection E as <- _. split; [lia|exists []; rewrite app_nil_r; auto].
  - destruct (nth_error (vars s) x) as [h|]; [|discriminate]. destruct (nth_error (vars s) y) as [g|]; [|discriminate].
    destruct (span_of (heap s) h); [|discriminate]. destruct (span_of (heap s) g); [|discriminate].
    destruct (equiv _ _ _ _) as [w| | |]; cbn in E; try discriminate. injection E as <- _. split; [lia|exists []; rewrite app_nil_r; auto].
Qed.

(** Handles refer to storages that exist. *)
Lemma step_refers es c s s' o : step es c s = Some (Done (s', o)) ->
  Forall (fun h => h_store h < length (heap s))%nat (vars s) -> Forall (fun h => h_store h < length (heap s'))%nat (vars s').
Proof.
  intros E H. destruct (step_grows es c s s' o E) as [Hl [l El]].
  assert (H' : Forall (fun h => h_store h < length (heap s'))%nat (vars s)).
  { eapply Forall_impl; [|exact H]. cbn. lia. }
  destruct c as [st|j k v|d n vs|d n src vs|d n mut src vs|v vs|v f|x y]; cbn [step] in *.
  - destruct (forallb _ st); [|discriminate]. injection E as <- _. auto.
  - destruct (nth_error (heap s) j); [|discriminate]. destruct (Nat.ltb _ _); [|discriminate]. injection E as <- _. auto.
  - destruct (construct es n d vs) as [[w| | |]|]; cbn in E; try discriminate. injection E as <- _. cbn [heap vars] in *.
    apply Forall_app. split; auto. constructor; auto. cbn [h_store]. rewrite app_length. cbn [length]. lia.
  - destruct (source_of s src) as [[[j k] m]|]; [|discriminate]. destruct (nth_error (heap s) j) as [st|]; [|discriminate].
    destruct (construct_from _ _ _ _ _) as [[w| | |]|]; cbn in E; try discriminate. injection E as <- _. cbn [heap vars] in *.
    apply Forall_app. split; auto. constructor; auto. cbn [h_store]. rewrite app_length. cbn [length]. lia.
  - destruct (source_of s src) as [[[j k] m]|] eqn:Es; [|discriminate].
    assert (Hj : (j < length (heap s))%nat).
    { unfold source_of in Es. destruct src as [q|q].
      - destruct (nth_error (heap s) q) eqn:Eq; [|discriminate]. injection Es as <- _ _. apply nth_error_Some. congruence.
      - destruct (nth_error (vars s) q) as [h|] eqn:Eq; [|discriminate]. injection Es as <- _ _. rewrite Forall_forall in H. apply H. eapply nth_error_In; eauto. }
    destruct (_ && _) in E; [|discriminate]. destruct mut.
    + destruct (set_through _ _ _ _) as [[hp| | |]|] eqn:Et; cbn in E; try discriminate. injection E as <- _. cbn [heap vars] in *.
      apply Forall_app. split; auto. constructor; auto. cbn [h_store]. lia.
    + cbn in E. injection E as <- _. cbn [heap vars] in *. apply Forall_app. split; auto.
  - destruct (nth_error (vars s) v) as [h|] eqn:Eh; [|discriminate].
    destruct (set_through es h vs (heap s)) as [[hp| | |]|] eqn:Et; cbn in E; try discriminate. injection E as <- _. auto.
  - destruct (nth_error (vars s) v) as [h|]; [|discriminate]. destruct (span_of (heap s) h); [|discriminate].
    destruct (m_get _ _ _ _) as [[w| | |]|]; cbn in E; try discriminate. injection E as <- _. auto.
  - destruct (nth_error (vars s) x) as [h|]; [|discriminate]. destruct (nth_error (vars s) y) as [g|]; [|discriminate].
    destruct (span_of (heap s) h); [|discriminate]. destruct (span_of (heap s) g); [|discriminate].
    destruct (equiv _ _ _ _) as [w| | |]; cbn in E; try discriminate. injection E as <- _. auto.
Qed.
Lemma run_refers es p : forall s s' o, run es p s = Some (Done (s', o)) ->
  Forall (fun h => h_store h < length (heap s))%nat (vars s) -> Forall (fun h => h_store h < length (heap s'))%nat (vars s').
Proof.
  induction p as [|c p IH]; intros s s' o E H; cbn [run] in E; [injection E as <- _; auto|].
  destruct (step es c s) as [[[s1 o1]| | |]|] eqn:E1; try discriminate.
  destruct (run es p s1) as [[[s2 o2]| | |]|] eqn:E2; cbn in E; try discriminate. injection E as <- _.
  eapply IH; eauto. eapply step_refers; eauto.
Qed.
(** No command of a program writes to a storage. *)
Fixpoint never_writes (es : N) (p : list command) (s : state) (i : nat) : Prop :=
  match p with
  | [] => True
  | c :: r => ~ writes_to s c i /\ forall s' o, step es c s = Some (Done (s', o)) -> never_writes es r s' i
  end.
Lemma run_other es p i : forall s s' o, run es p s = Some (Done (s', o)) -> (i < length (heap s))%nat -> never_writes es p s i ->
  nth_error (heap s') i = nth_error (heap s) i.
Proof.
  induction p as [|c p IH]; intros s s' o E Hi Hw; cbn [run] in E; [injection E as <- _; auto|].
  destruct (step es c s) as [[[s1 o1]| | |]|] eqn:E1; try discriminate. destruct Hw as [Hw Hr].
  destruct (run es p s1) as [[[s2 o2]| | |]|] eqn:E2; cbn in E; try discriminate. injection E as <- _.
  destruct (step_grows es c s s1 o1 E1) as [Hl _].
  rewrite (IH s1 s2 o2 E2); [|lia|eauto]. eapply step_other; eauto.
Qed.
(** The storage of a new owner is new. *)
Lemma owner_fresh es c s s' o d n vs src : c = Owner d n vs \/ c = OwnerFrom d n src vs ->
  step es c s = Some (Done (s', o)) -> Forall (fun h => h_store h < length (heap s))%nat (vars s) ->
  exists h, vars s' = vars s ++ [h] /\ h_def h = d /\ h_extent h = n /\ h_mut h = true /\
    Forall (fun g => h_store g <> h_store h) (vars s) /\ nth_error (heap s) (h_store h) = None /\ o = [].
Proof.
  intros [-> | ->] E H; cbn [step] in E.
  - destruct (construct es n d vs) as [[w| | |]|]; cbn in E; try discriminate. injection E as <- <-. cbn [heap vars].
    eexists. split; [reflexivity|]. cbn [h_def h_extent h_mut h_store]. repeat split; auto.
    + eapply Forall_impl; [|exact H]. cbn. lia.
    + apply nth_error_None. lia.
  - destruct (source_of s src) as [[[j k] m]|]; [|discriminate]. destruct (nth_error (heap s) j) as [st|]; [|discriminate].
    destruct (construct_from _ _ _ _ _) as [[w| | |]|]; cbn in E; try discriminate. injection E as <- <-. cbn [heap vars].
    eexists. split; [reflexivity|]. cbn [h_def h_extent h_mut h_store]. repeat split; auto.
    + eapply Forall_impl; [|exact H]. cbn. lia.
    + apply nth_error_None. lia.
Qed.
(** Const handles. *)
Lemma const_set es v vs s h : nth_error (vars s) v = Some h -> h_mut h = false -> step es (Set_ v vs) s = None.
Proof.
  intros E Hm. cbn [step]. rewrite E. unfold set_through. rewrite Hm. destruct (nth_error (heap s) (h_store h)); reflexivity.
Qed.
Lemma const_source es d n v vs s h : nth_error (vars s) v = Some h -> h_mut h = false -> step es (View d n true (FromHandle v) vs) s = None.
Proof.
  intros E Hm. cbn [step source_of]. rewrite E, Hm. cbn [negb orb]. rewrite andb_false_r. auto.
Qed.

(** Programs with owners and views do to the bits what they are meant to. *)
From Coq Require Import List NArith ZArith Bool Arith Lia ZifyBool ZifyN ZifyNat.
From Verif Require Import FieldModel FieldSpec FieldProofs FieldProofs2 FieldProofs3 MatchModel FieldMatchersModel MessageModel MessageSpec MessageProofs AccessModel AccessSpec AccessProofs.
Import ListNotations.
Local Open Scope N_scope.

Section Refine.
Variable es : N.
Hypothesis He : narrow es.
Lemma es_pos : 0 < es.
Proof. destruct He as [->|[->| ->]]; lia. Qed.

Definition rep (st : list N) (a : storage) : Prop := shown es st (fst a) (snd a).
Definition handle_ok (hp : list (list N)) (h : handle) : Prop :=
  msg_good (h_def h) /\ fields_fit (es * N.of_nat (h_extent h)) (h_def h) /\
  exists st, nth_error hp (h_store h) = Some st /\ (h_extent h <= length st)%nat.
Definition inv (s : state) (a : astate) : Prop :=
  names a = vars s /\ Forall2 rep (heap s) (stores a) /\ Forall (handle_ok (heap s)) (vars s).

Lemma firstn_ok n st : storage_ok es st -> storage_ok es (firstn n st).
Proof.
  unfold storage_ok. rewrite !Forall_forall. intros H x Hx. apply H.
  rewrite <- (firstn_skipn n st). apply in_or_app. auto.
Qed.
Lemma skipn_ok n st : storage_ok es st -> storage_ok es (skipn n st).
Proof.
  unfold storage_ok. rewrite !Forall_forall. intros H x Hx. apply H.
  rewrite <- (firstn_skipn n st). apply in_or_app. auto.
Qed.
Lemma prefix_bits n st k : (n <= length st)%nat -> storage_ok es st ->
  N.testbit (image es (firstn n st)) k = (k <? es * N.of_nat n) && N.testbit (image es st) k.
Proof.
  intros Hn Hs. destruct (N.ltb_spec k (es * N.of_nat n)) as [Hk|Hk]; cbn [andb].
  - rewrite <- (image_firstn es st n k) by (auto using es_pos). unfold copy_storage.
    replace (n - length st)%nat with O by lia. cbn [repeat]. rewrite app_nil_r. auto.
  - apply (image_high es); auto using es_pos, firstn_ok.
    unfold nbits. rewrite firstn_length, Nat.min_l by lia. auto.
Qed.
Lemma split_bits w r k : storage_ok es w ->
  N.testbit (image es (w ++ r)) k = if k <? nbits es w then N.testbit (image es w) k else N.testbit (image es r) (k - nbits es w).
Proof.
  intros Hs. pose proof (image_lt es w es_pos Hs) as Hlt. rewrite image_app. rewrite lor_add_disjoint by auto.
  rewrite N.lor_spec, tb_shiftl. destruct (N.ltb_spec k (nbits es w)), (N.leb_spec (nbits es w) k); try lia; cbn [andb].
  - apply orb_false_r.
  - rewrite (tb_small (image es w) (nbits es w) k); auto.
Qed.

(** Writing through a handle. *)
Lemma set_through_shown h vs hp sts o : handle_ok hp h -> Forall2 rep hp sts -> set_through es h vs hp = Some o ->
  exists hp', o = Done hp' /\ Forall2 rep hp' (change (h_store h) (written_all (h_def h) vs) sts) /\
    map (@length N) hp' = map (@length N) hp.
Proof.
  intros (Hg & Hfit & st & E & Hlen) HR. unfold set_through. rewrite E. destruct (h_mut h); [|discriminate].
  destruct (m_set es (h_def h) vs (firstn (h_extent h) st)) as [o'|] eqn:Em; [|discriminate]. intros H. injection H as <-.
  unfold m_set in Em. destruct (forallb _ vs) eqn:Ev in Em; [|discriminate]. injection Em as <-.
  destruct (forall2_nth _ _ _ HR _ _ E) as ([n b] & Eb & (Hl & Hok & Hb)). cbn [fst snd] in *.
  destruct (run_sets_shown es He (h_def h) Hg (h_extent h) vs Hfit (settable_names _ _ _ _ Ev)
              (firstn (h_extent h) st) (fun k => (k <? es * N.of_nat (h_extent h)) && N.testbit (image es st) k)) as (w & Ew & (Hlw & Hokw & Hbw)).
  { split; [rewrite firstn_length; lia|]. split; [apply firstn_ok; auto|]. intros k. apply prefix_bits; auto. }
  rewrite Ew. cbn [bind]. eexists. split; [reflexivity|]. split.
  - unfold change. rewrite Eb. apply put_nth_forall2; auto. unfold rep, shown. cbn [fst snd].
    split; [rewrite app_length, skipn_length; lia|]. split.
    { unfold storage_ok. rewrite Forall_app. split; auto. apply skipn_ok; auto. }
    intros k. rewrite split_bits by auto. unfold nbits. rewrite Hlw.
    destruct (N.ltb_spec k (es * N.of_nat (h_extent h))) as [Hk|Hk].
    + rewrite Hbw.
      assert (G : forall l b1 b2, (forall q, q < es * N.of_nat (h_extent h) -> b1 q = b2 q) ->
                  written_all (h_def h) l b1 k = written_all (h_def h) l b2 k).
      { induction l as [|[m v] l IH]; intros b1 b2 H12; cbn [written_all]; auto. apply IH.
        intros q Hq. destruct (find _ (h_def h)); auto. unfold written. destruct (place _ _ _); auto. }
      apply G. intros q Hq. replace (q <? es * N.of_nat (h_extent h)) with true by lia. cbn [andb]. auto.
    + rewrite (written_all_outside _ (es * N.of_nat (h_extent h))) by auto. rewrite <- Hb.
      rewrite <- (firstn_skipn (h_extent h) st) at 2. rewrite split_bits by (apply firstn_ok; auto).
      unfold nbits. rewrite firstn_length, Nat.min_l by lia.
      destruct (N.ltb_spec k (es * N.of_nat (h_extent h))); [lia|]. auto.
  - clear - E Hlw Hlen. revert E. generalize (h_store h). induction hp as [|x hp IH]; intros [|i] E; cbn in *; auto.
    + injection E as ->. f_equal. rewrite app_length, skipn_length. lia.
    + f_equal. auto.
Qed.

Lemma handle_ok_lengths hp hp' h : (exists l, map (@length N) hp' = map (@length N) hp ++ l) -> handle_ok hp h -> handle_ok hp' h.
Proof.
  intros (l & Hm) (Hg & Hf & st & E & Hl). split; auto. split; auto.
  assert (E' : nth_error (map (@length N) hp') (h_store h) = Some (length st)).
  { rewrite Hm. rewrite nth_error_app1; [apply map_nth_error; auto|]. rewrite map_length. apply nth_error_Some. congruence. }
  rewrite nth_error_map in E'. destruct (nth_error hp' (h_store h)) as [st'|]; [|discriminate]. cbn in E'. injection E' as E'.
  exists st'. split; auto. lia.
Qed.
Lemma handles_lengths hp hp' vs : (exists l, map (@length N) hp' = map (@length N) hp ++ l) -> Forall (handle_ok hp) vs -> Forall (handle_ok hp') vs.
Proof. intros H. apply Forall_impl. intros h. apply handle_ok_lengths; auto. Qed.
Lemma lengths_same hp hp' : map (@length N) hp' = map (@length N) hp -> exists l, map (@length N) hp' = map (@length N) hp ++ l.
Proof. intros H. exists []. rewrite app_nil_r. auto. Qed.
Lemma lengths_app hp st : exists l, map (@length N) (hp ++ [st]) = map (@length N) hp ++ l.
Proof. exists [length st]. apply map_app. Qed.

(** Sources. *)
Lemma source_seen s a src i k m : inv s a -> source_of s src = Some (i, k, m) ->
  seen_by a src = (i, k) /\ exists st, nth_error (heap s) i = Some st /\ (k <= length st)%nat.
Proof.
  intros (Hn & HR & Hh). destruct src as [j|v]; cbn [source_of seen_by].
  - destruct (nth_error (heap s) j) as [st|] eqn:E; [|discriminate]. intros H. injection H as <- <- _.
    destruct (forall2_nth _ _ _ HR _ _ E) as ([n b] & Eb & (Hl & _)). rewrite Eb. cbn [fst] in Hl. split; [congruence|]. eauto.
  - rewrite Hn. destruct (nth_error (vars s) v) as [h|] eqn:E; [|discriminate]. intros H. injection H as <- <- _. split; auto.
    rewrite Forall_forall in Hh. destruct (Hh h) as (_ & _ & X); [eapply nth_error_In; eauto|]. auto.
Qed.
Lemma new_owner_ok hp d n st : msg_good d -> fields_fit (es * N.of_nat n) d -> length st = n ->
  handle_ok (hp ++ [st]) {| h_def := d; h_store := length hp; h_extent := n; h_mut := true |}.
Proof.
  intros Hd Hf Hl. split; auto. split; auto. exists st. cbn [h_store h_extent]. split; [|lia].
  rewrite nth_error_app2, Nat.sub_diag by lia. auto.
Qed.

Lemma change_nil d i sts : change i (written_all d []) sts = sts.
Proof.
  unfold change. destruct (nth_error sts i) as [[n b]|] eqn:E; auto. change (written_all d [] b) with b.
  revert i E. induction sts as [|x sts IH]; intros [|i] E; cbn in *; auto; try discriminate.
  - injection E as ->. auto.
  - f_equal. auto.
Qed.

Lemma step_inv c s a o : inv s a -> command_good es c -> compares_alike (names a) c -> step es c s = Some o ->
  exists s' obs, o = Done (s', obs) /\ inv s' (effect es c a) /\ shows c a obs.
Proof.
  intros Hinv Hc Hcmp Hs. pose proof Hinv as (Hn & HR & Hh). assert (HL : length (heap s) = length (stores a)) by (clear - HR; induction HR; cbn; auto).
  destruct c as [st|i j v|d n vs|d n src vs|d n mut src vs|v vs|v f|x y]; cbn [step command_good effect shows] in *.
  - destruct (forallb _ st) eqn:E; [|discriminate]. injection Hs as <-. eexists _, _. split; [reflexivity|]. split; auto.
    split; [auto|]. cbn [heap vars stores names]. split; [|eapply handles_lengths; [apply lengths_app|]; auto].
    apply Forall2_app; auto. constructor; auto. split; auto. split; auto.
    rewrite forallb_forall in E. apply Forall_forall. intros x Hx. apply N.ltb_lt. auto.
  - destruct (nth_error (heap s) i) as [st|] eqn:E; [|discriminate]. destruct (Nat.ltb_spec j (length st)) as [Hj|Hj]; [|discriminate].
    injection Hs as <-. eexists _, _. split; [reflexivity|]. split; auto. split; [auto|]. cbn [heap vars stores names].
    destruct (forall2_nth _ _ _ HR _ _ E) as ([n b] & Eb & (Hl & Hok & Hb)). cbn [fst snd] in *.
    split.
    + unfold change. rewrite Eb. apply put_nth_forall2; auto. split; [rewrite set_nth_length; auto|].
      assert (Hv : v mod 2 ^ es < 2 ^ es) by (apply N.mod_lt, N.pow_nonzero; lia). split; [apply set_nth_ok; auto|].
      intros k. cbn [snd]. destruct (nth_error st j) as [e|] eqn:Ej; [|apply nth_error_None in Ej; lia].
      pose proof es_pos as Hes. rewrite (image_set es st j _ e k) by auto.
      pose proof (N.div_mod k es) as Hdm. pose proof (N.mod_lt k es) as Hml.
      destruct (N.eqb_spec (k / es) (N.of_nat j)) as [Q|Q].
      * rewrite <- Q. replace (N.of_nat (S j)) with (k / es + 1) by lia. rewrite N.mul_add_distr_l, N.mul_1_r.
        destruct (N.leb_spec (es * (k / es)) k); [|lia]. destruct (N.ltb_spec k (es * (k / es) + es)); [|lia]. cbn [andb].
        rewrite N.mod_pow2_bits_low by lia. f_equal. lia.
      * rewrite Hb. destruct ((es * N.of_nat j <=? k) && (k <? es * N.of_nat (S j))) eqn:Q2; auto. exfalso.
        apply andb_true_iff in Q2 as [Q2 Q3]. rewrite N.leb_le in Q2. rewrite N.ltb_lt in Q3. apply Q.
        symmetry. apply (N.div_unique k es (N.of_nat j) (k - es * N.of_nat j)); [|lia].
        replace (N.of_nat (S j)) with (N.of_nat j + 1) in Q3 by lia. rewrite N.mul_add_distr_l, N.mul_1_r in Q3. lia.
    + eapply handles_lengths; [|exact Hh]. apply lengths_same. clear - E. revert i E.
      induction (heap s) as [|x hp IH]; intros [|i] E; cbn in *; auto.
      * injection E as ->. rewrite set_nth_length. auto.
      * f_equal. auto.
  - destruct Hc as [Hg Hfit]. destruct (construct es n d vs) as [o'|] eqn:E; [|discriminate]. injection Hs as <-.
    unfold construct in E. destruct (fits_inside es (N.of_nat n) d && all_initialized d vs && forallb (settable es d (N.of_nat n)) vs) eqn:Ec; [|discriminate].
    injection E as <-. apply andb_true_iff in Ec as [_ Ec].
    destruct (run_defaults_shown es He d Hg n d Hfit (incl_refl d) (repeat 0 n) (fun _ => false)) as (st1 & E1 & Hs1).
    { split; [apply repeat_length|]. split; [apply storage_ok_zero|]. intros k. rewrite image_zero. apply N.bits_0. }
    rewrite E1. cbn [bind].
    destruct (run_sets_shown es He d Hg n vs Hfit (settable_names _ _ _ _ Ec) st1 _ Hs1) as (st2 & E2 & Hs2).
    rewrite E2. cbn [bind]. eexists _, _. split; [reflexivity|]. split; auto. split; [cbn; rewrite Hn, HL; auto|]. cbn [heap vars stores names].
    split; [apply Forall2_app; auto|]. rewrite Forall_app. split; [eapply handles_lengths; [apply lengths_app|]; auto|].
    constructor; auto. apply new_owner_ok; auto. apply Hs2.
  - destruct Hc as [Hg Hfit]. destruct (source_of s src) as [[[i k] m]|] eqn:Es; [|discriminate].
    destruct (source_seen s a src i k m Hinv Es) as (Hseen & st & Est & Hk). rewrite Est in Hs.
    destruct (construct_from es n d (firstn k st) vs) as [o'|] eqn:E; [|discriminate]. injection Hs as <-.
    unfold construct_from in E. destruct (fits_inside es (N.of_nat n) d && forallb (settable es d (N.of_nat n)) vs) eqn:Ec; [|discriminate].
    injection E as <-. apply andb_true_iff in Ec as [_ Ec].
    destruct (forall2_nth _ _ _ HR _ _ Est) as ([n0 b] & Eb & (Hl & Hok & Hb)). cbn [fst snd] in *.
    destruct (run_sets_shown es He d Hg n vs Hfit (settable_names _ _ _ _ Ec) (copy_storage n (firstn k st))
                (fun q => (q <? es * N.of_nat (Nat.min n k)) && bits_of a i q)) as (st2 & E2 & Hs2).
    { split; [apply copy_length|]. split; [apply copy_ok, firstn_ok; auto|]. intros q. unfold bits_of. rewrite Eb.
      unfold copy_storage. rewrite image_app, image_zero, N.mul_0_r, N.add_0_r, firstn_firstn.
      rewrite prefix_bits by (auto; lia). rewrite Hb. auto. }
    rewrite E2. cbn [bind]. rewrite Hseen. eexists _, _. split; [reflexivity|]. split; auto. split; [cbn; rewrite Hn, HL; auto|]. cbn [heap vars stores names].
    split; [apply Forall2_app; auto|]. rewrite Forall_app. split; [eapply handles_lengths; [apply lengths_app|]; auto|].
    constructor; auto. apply new_owner_ok; auto. apply Hs2.
  - destruct Hc as [Hg Hfit]. destruct (source_of s src) as [[[i k] m]|] eqn:Es; [|discriminate].
    destruct (source_seen s a src i k m Hinv Es) as (Hseen & st & Est & Hk). rewrite Hseen.
    destruct (Nat.leb n k && (negb mut || m) && fits_inside es (N.of_nat n) d && (mut || match vs with [] => true | _ => false end)) eqn:Ec; [|discriminate].
    rewrite !andb_true_iff in Ec. destruct Ec as [[[Ec _] _] Ev]. apply Nat.leb_le in Ec.
    set (h := {| h_def := d; h_store := i; h_extent := n; h_mut := mut |}) in *.
    assert (Hok : handle_ok (heap s) h) by (split; auto; split; auto; exists st; cbn [h h_store h_extent]; split; auto; lia).
    destruct mut.
    + destruct (set_through es h vs (heap s)) as [o'|] eqn:E; [|discriminate]. injection Hs as <-.
      destruct (set_through_shown h vs (heap s) (stores a) o' Hok HR E) as (hp' & -> & HR' & Hlen). cbn [bind].
      eexists _, _. split; [reflexivity|]. split; auto. split; [cbn; rewrite Hn; auto|]. cbn [heap vars stores names].
      split; auto. eapply handles_lengths; [apply lengths_same; eauto|]. rewrite Forall_app. split; auto.
    + injection Hs as <-. cbn [bind orb] in *. destruct vs; [|discriminate]. rewrite change_nil.
      eexists _, _. split; [reflexivity|]. split; auto. split; [cbn; rewrite Hn; auto|]. cbn [heap vars stores names].
      split; auto. rewrite Forall_app. split; auto.
  - rewrite Hn. destruct (nth_error (vars s) v) as [h|] eqn:Eh; [|discriminate].
    destruct (set_through es h vs (heap s)) as [o'|] eqn:E; [|discriminate]. injection Hs as <-.
    assert (Hok : handle_ok (heap s) h) by (rewrite Forall_forall in Hh; apply Hh; eapply nth_error_In; eauto).
    destruct (set_through_shown h vs (heap s) (stores a) o' Hok HR E) as (hp' & -> & HR' & Hlen). cbn [bind].
    eexists _, _. split; [reflexivity|]. split; auto. split; [auto|]. cbn [heap vars stores names].
    split; auto. eapply handles_lengths; [apply lengths_same; eauto|]. auto.
  - destruct (nth_error (vars s) v) as [h|] eqn:Eh; [|discriminate].
    assert (Hok : handle_ok (heap s) h) by (rewrite Forall_forall in Hh; apply Hh; eapply nth_error_In; eauto).
    destruct Hok as (Hg & Hfit & st & Est & Hl). unfold span_of in Hs. rewrite Est in Hs. cbn [option_map] in Hs.
    destruct (m_get es (h_def h) f (firstn (h_extent h) st)) as [o'|] eqn:E; [|discriminate]. injection Hs as <-.
    unfold m_get in E. destruct (find_field f (h_def h)) as [g|] eqn:Ef; [|discriminate].
    destruct (field_fits _ _) in E; [|discriminate]. injection E as <-. apply find_field_spec in Ef as [Hin Hname].
    destruct (forall2_nth _ _ _ HR _ _ Est) as ([n0 b] & Eb & (Hlb & Hokb & Hb)). cbn [fst snd] in *.
    destruct Hg as (_ & Hgf & _). rewrite Forall_forall in Hgf. destruct (Hgf g Hin) as (Hval & _).
    rewrite extract_value; auto using firstn_ok.
    2:{ unfold nbits. rewrite firstn_length, Nat.min_l by lia. apply Hfit; auto. }
    cbn [bind]. eexists _, _. split; [reflexivity|]. split; auto.
    exists h, g, (value_in es (firstn (h_extent h) st) g). rewrite Hn. split; auto. split; auto. split; auto. split; auto.
    unfold bits_of. rewrite Eb.
    pose proof (holds_value_in es (firstn (h_extent h) st) g _ (fun k => eq_refl)) as [Hlt Hpl]. split; auto.
    intros k x Ep. specialize (Hpl k x Ep). rewrite prefix_bits in Hpl by auto. rewrite <- Hb.
    destruct (N.ltb_spec k (es * N.of_nat (h_extent h))) as [Hk|Hk]; [auto|].
    rewrite (place_outside g _ k (es * N.of_nat (h_extent h))) in Ep; auto; discriminate.
  - rewrite Hn in *. destruct (nth_error (vars s) x) as [h|] eqn:Eh; [|discriminate]. destruct (nth_error (vars s) y) as [g|] eqn:Eg; [|discriminate].
    cbn [compares_alike] in Hcmp. rewrite Eh, Eg in Hcmp.
    assert (Hokh : handle_ok (heap s) h) by (rewrite Forall_forall in Hh; apply Hh; eapply nth_error_In; eauto).
    assert (Hokg : handle_ok (heap s) g) by (rewrite Forall_forall in Hh; apply Hh; eapply nth_error_In; eauto).
    destruct Hokh as (Hg & Hfit & st & Est & Hl). destruct Hokg as (Hg' & Hfit' & st' & Est' & Hl'). rewrite <- Hcmp in Hfit'.
    unfold span_of in Hs. rewrite Est, Est' in Hs. cbn [option_map] in Hs. injection Hs as <-.
    destruct (forall2_nth _ _ _ HR _ _ Est) as ([n0 b] & Eb & (Hlb & Hokb & Hb)). cbn [fst snd] in *.
    destruct (forall2_nth _ _ _ HR _ _ Est') as ([n1 b'] & Eb' & (Hlb' & Hokb' & Hb')). cbn [fst snd] in *.
    destruct Hg as (Hnd & Hgf & Hdis). 
    destruct (equiv_spec es (h_def h) (firstn (h_extent h) st) (firstn (h_extent g) st')) as (r & Er & Hr); auto using firstn_ok.
    { eapply Forall_impl; [|exact Hgf]. intros z Hz. apply Hz. }
    { intros z Hz. unfold nbits. rewrite firstn_length, Nat.min_l by lia. apply Hfit; auto. }
    { intros z Hz. unfold nbits. rewrite firstn_length, Nat.min_l by lia. apply Hfit'; auto. }
    rewrite Er. cbn [bind]. eexists _, _. split; [reflexivity|]. split; auto.
    exists h, g, r. rewrite ?Eh, ?Eg. split; auto. split; auto. split; auto. rewrite Hr. unfold bits_of. rewrite Eb, Eb'.
    rewrite Forall_forall in Hgf.
    assert (V : forall ext stx bx, (ext <= length stx)%nat -> storage_ok es stx -> fields_fit (es * N.of_nat ext) (h_def h) ->
      (forall k, N.testbit (image es stx) k = bx k) -> forall z, In z (h_def h) ->
      forall u, holds_value bx z u <-> u = value_in es (firstn ext stx) z).
    { intros ext stx bx H1 H2 H3 H4 z Hz u.
      assert (Ext : forall w k q, place (f_locs z) w k = Some q -> bx k = (N.testbit (image es (firstn ext stx)) k)).
      { intros w k q Hp. rewrite prefix_bits by auto. rewrite H4. destruct (N.ltb_spec k (es * N.of_nat ext)); auto.
        rewrite (place_outside z _ k (es * N.of_nat ext)) in Hp; auto; discriminate. }
      split.
      - intros [Hu1 Hu2]. apply (holds_value_unique es _ z (N.testbit (image es (firstn ext stx)))); auto.
        + apply (Hgf z Hz).
        + split; auto. intros k q Hp. rewrite <- (Ext u k q Hp). eauto.
      - intros ->. pose proof (holds_value_in es (firstn ext stx) z _ (fun k => eq_refl)) as [Hu1 Hu2].
        split; auto. intros k q Hp. rewrite (Ext _ k q Hp). eauto. }
    split.
    + intros H z Hz u. rewrite (V _ _ _ Hl Hokb Hfit Hb z Hz), (V _ _ _ Hl' Hokb' Hfit' Hb' z Hz). rewrite (H z Hz). tauto.
    + intros H z Hz. apply (V _ _ _ Hl' Hokb' Hfit' Hb' z Hz). apply H; auto. apply (V _ _ _ Hl Hokb Hfit Hb z Hz). auto.
Qed.

Lemma run_inv p : forall s a o, inv s a -> Forall (command_good es) p -> all_alike es p a -> run es p s = Some o ->
  exists s' obs, o = Done (s', obs) /\ inv s' (effects es p a) /\ all_shown es p a obs.
Proof.
  induction p as [|c p IH]; intros s a o Hi Hg Ha Hr.
  - cbn in Hr. injection Hr as <-. eexists _, _. split; [reflexivity|]. split; auto. constructor.
  - cbn [run all_alike effects] in *. inversion Hg; subst. destruct Ha as [Ha1 Ha2].
    destruct (step es c s) as [o1|] eqn:E; [|discriminate].
    destruct (step_inv c s a o1 Hi H1 Ha1 E) as (s1 & obs & -> & Hi1 & Hs1).
    destruct (run es p s1) as [q|] eqn:E2; [|discriminate]. injection Hr as <-.
    destruct (IH s1 _ q Hi1 H2 Ha2 E2) as (s2 & obs2 & -> & Hi2 & Hs2). cbn [bind fst snd].
    eexists _, _. split; [reflexivity|]. split; auto. constructor; auto.
Qed.
End Refine.

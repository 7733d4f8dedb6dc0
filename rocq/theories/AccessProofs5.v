(** Which commands compile. *)
From Coq Require Import List NArith ZArith Bool Arith Lia ZifyBool ZifyN ZifyNat.
From Verif Require Import FieldModel FieldSpec FieldProofs FieldProofs2 FieldProofs3 MatchModel FieldMatchersModel MessageModel MessageSpec MessageProofs AccessModel AccessSpec AccessProofs AccessProofs2 AccessProofs3.
Import ListNotations.
Local Open Scope N_scope.

Section Allowed.
Variable es : N.
Hypothesis He : narrow es.

Lemma fits_checks n ls : fits n ls -> field_fits n ls = true.
Proof.
  intros H. unfold field_fits. apply forallb_forall. intros l Hl. unfold loc_fits, l_msb. specialize (H l Hl). unfold loc_start in H. lia.
Qed.
Lemma settable_all d n vs : msg_good d -> fields_fit (es * n) d -> (forallb (settable es d n) vs = true <-> givable d vs).
Proof.
  intros (Hnd & _ & _) Hf. rewrite forallb_forall. unfold givable. split.
  - intros H m v Hin. specialize (H (m, v) Hin). unfold settable in H. cbn [fst] in H.
    destruct (find_field m d) as [f|] eqn:E; [|discriminate]. apply find_field_spec in E as [H1 H2]. exists f. repeat split; auto.
    destruct (f_default f); auto; discriminate.
  - intros H [m v] Hin. destruct (H m v Hin) as (f & H1 & H2 & H3). unfold settable. cbn [fst].
    rewrite <- H2, find_field_in by auto. rewrite fits_checks by (apply Hf; auto). destruct (f_default f); auto; contradiction.
Qed.
Lemma inside_all d n : fields_fit (es * n) d -> fits_inside es n d = true.
Proof. intros H. unfold fits_inside. apply forallb_forall. intros f Hf. apply fits_checks. apply H. auto. Qed.
Lemma initialized_all d vs : all_initialized d vs = true <-> forall f, In f d -> f_default f = DWithout -> In (f_name f) (map fst vs).
Proof.
  unfold all_initialized. rewrite forallb_forall. split.
  - intros H f Hf Ed. specialize (H f Hf). rewrite Ed in H. cbn in H. apply existsb_exists in H as (nv & Hin & E).
    apply Nat.eqb_eq in E. apply in_map_iff. eauto.
  - intros H f Hf. destruct (f_default f) eqn:Ed; auto. cbn. specialize (H f Hf Ed). apply in_map_iff in H as (nv & E & Hin).
    apply existsb_exists. exists nv. split; auto. apply Nat.eqb_eq; auto.
Qed.
Lemma source_known_iff s src k m : (exists i, source_of s src = Some (i, k, m)) <-> source_known s src k m.
Proof.
  unfold source_of, source_known. destruct src as [i|v].
  - destruct (nth_error (heap s) i) as [st|] eqn:E; split.
    + intros (j & H). injection H as _ <- <-. eauto.
    + intros (st' & H & -> & ->). exists i. congruence.
    + intros (j & H). discriminate.
    + intros (st' & H & _). discriminate.
  - destruct (nth_error (vars s) v) as [h|] eqn:E; split.
    + intros (j & H). injection H as _ <- <-. eauto.
    + intros (h' & H & -> & ->). injection H as ->. eauto.
    + intros (j & H). discriminate.
    + intros (h' & H & _). discriminate.
Qed.
Lemma source_exists hp s src i k m : Forall (handle_ok es hp) (vars s) -> hp = heap s -> source_of s src = Some (i, k, m) ->
  exists st, nth_error (heap s) i = Some st /\ (k <= length st)%nat.
Proof.
  intros H -> E. unfold source_of in E. destruct src as [j|v].
  - destruct (nth_error (heap s) j) as [st|] eqn:Ej; [|discriminate]. injection E as <- <- _. exists st. split; auto.
  - destruct (nth_error (vars s) v) as [h|] eqn:Ev; [|discriminate]. injection E as <- <- _. rewrite Forall_forall in H.
    destruct (H h) as (_ & _ & st & Hst & Hl); [eapply nth_error_In; eauto|]. eauto.
Qed.
Lemma set_through_allowed h vs hp st : msg_good (h_def h) -> fields_fit (es * N.of_nat (h_extent h)) (h_def h) ->
  nth_error hp (h_store h) = Some st -> (h_extent h <= length st)%nat ->
  (set_through es h vs hp <> None <-> h_mut h = true /\ givable (h_def h) vs).
Proof.
  intros Hg Hf Est Hl. unfold set_through. rewrite Est. destruct (h_mut h); [|split; [congruence|intros [H _]; discriminate]].
  unfold m_set. rewrite firstn_length, Nat.min_l by auto. pose proof (settable_all (h_def h) (N.of_nat (h_extent h)) vs Hg Hf) as HS.
  destruct (forallb _ vs).
  - split; [intros _; split; auto; apply HS; auto|discriminate].
  - split; [congruence|]. intros [_ H]. apply HS in H. discriminate.
Qed.

Lemma step_allowed c s a : inv es s a -> command_good es c -> (step es c s <> None <-> allowed es s c).
Proof.
  intros (_ & _ & Hh) Hc. destruct c as [st|i j v|d n vs|d n src vs|d n mut src vs|v vs|v f|x y]; cbn [step allowed].
  - destruct (forallb _ st) eqn:E.
    + split; [|discriminate]. intros _ e He'. rewrite forallb_forall in E. specialize (E e He'). lia.
    + split; [congruence|]. intros H. exfalso. assert (forallb (fun e => e <? 2 ^ es) st = true); [|congruence].
      apply forallb_forall. intros e He'. specialize (H e He'). lia.
  - destruct (nth_error (heap s) i) as [st|]; [|split; [congruence|intros (st & H & _); discriminate]].
    destruct (Nat.ltb_spec j (length st)).
    + split; [eauto|discriminate].
    + split; [congruence|]. intros (st' & H1 & H2). injection H1 as <-. lia.
  - destruct Hc as [Hg Hf]. pose proof (settable_all d (N.of_nat n) vs Hg Hf) as HS. pose proof (initialized_all d vs) as HI.
    unfold construct. rewrite inside_all by auto. cbn [andb]. destruct (all_initialized d vs); cbn [andb].
    2:{ split; [congruence|]. intros [H _]. apply HI in H. discriminate. }
    destruct (forallb _ vs).
    + split; [|discriminate]. intros _. split; [apply HI|apply HS]; auto.
    + split; [congruence|]. intros [_ H]. apply HS in H. discriminate.
  - destruct Hc as [Hg Hf]. pose proof (settable_all d (N.of_nat n) vs Hg Hf) as HS.
    destruct (source_of s src) as [[[i k] m]|] eqn:Es.
    + destruct (source_exists _ s src i k m Hh eq_refl Es) as (st & -> & _). unfold construct_from. rewrite inside_all by auto. cbn [andb].
      assert (HK : exists k m, source_known s src k m) by (exists k, m; apply source_known_iff; eauto).
      destruct (forallb _ vs).
      * split; [|discriminate]. intros _. split; auto. apply HS; auto.
      * split; [congruence|]. intros [_ H]. apply HS in H. discriminate.
    + split; [congruence|]. intros [(k & m & H) _]. apply source_known_iff in H as (i & H). congruence.
  - destruct Hc as [Hg Hf]. destruct (source_of s src) as [[[i k] m]|] eqn:Es.
    + destruct (source_exists _ s src i k m Hh eq_refl Es) as (st & Est & Hl). rewrite inside_all by auto.
      assert (HU : forall k' m', source_known s src k' m' -> k' = k /\ m' = m).
      { intros k' m' H. apply source_known_iff in H as (i' & H). rewrite Es in H. injection H as _ <- <-. auto. }
      assert (HK : source_known s src k m) by (apply source_known_iff; eauto).
      destruct (Nat.leb_spec n k) as [Hn|Hn]; cbn [andb].
      2:{ split; [congruence|]. intros (k' & m' & H & Hn' & _). apply HU in H as [-> _]. lia. }
      destruct mut; cbn [negb orb andb].
      * rewrite andb_true_r. destruct m; cbn [andb].
        2:{ split; [congruence|]. intros (k' & m' & H & _ & _ & Q). apply HU in H as [_ ->]. discriminate. }
        pose proof (set_through_allowed {| h_def := d; h_store := i; h_extent := n; h_mut := true |} vs (heap s) st Hg Hf Est) as HT.
        cbn [h_extent h_mut h_def] in HT. specialize (HT ltac:(lia)). destruct (set_through _ _ _ _) as [o|].
        -- split; [|discriminate]. intros _. exists k, true. repeat split; auto. apply HT. discriminate.
        -- split; [congruence|]. intros (k' & m' & _ & _ & H & _). exfalso. apply (proj2 HT); auto.
      * destruct vs as [|nv vs].
        -- split; [|cbn; discriminate]. intros _. exists k, m. repeat split; auto. intros ? ? [].
        -- split; [cbn; congruence|]. intros (k' & m' & _ & _ & _ & H). discriminate.
    + split; [congruence|]. intros (k & m & H & _). apply source_known_iff in H as (i & H). congruence.
  - destruct (nth_error (vars s) v) as [h|] eqn:Ev; [|split; [congruence|intros (h & H & _); discriminate]].
    rewrite Forall_forall in Hh. destruct (Hh h) as (Hg & Hf & st & Est & Hl); [eapply nth_error_In; eauto|].
    pose proof (set_through_allowed h vs (heap s) st Hg Hf Est Hl) as HT. destruct (set_through es h vs (heap s)).
    + split; [|discriminate]. intros _. exists h. split; auto. apply HT. discriminate.
    + split; [congruence|]. intros (h' & H & H1 & H2). injection H as <-. exfalso. apply (proj2 HT); auto.
  - destruct (nth_error (vars s) v) as [h|] eqn:Ev; [|split; [congruence|intros (h & H & _); discriminate]].
    rewrite Forall_forall in Hh. destruct (Hh h) as (Hg & Hf & st & Est & Hl); [eapply nth_error_In; eauto|].
    unfold span_of. rewrite Est. cbn [option_map]. unfold m_get. destruct (find_field f (h_def h)) as [g|] eqn:Eg.
    + apply find_field_spec in Eg as [Hin En]. rewrite firstn_length, Nat.min_l by auto. rewrite fits_checks by (apply Hf; auto).
      split; [|discriminate]. intros _. exists h. split; auto. rewrite <- En. apply in_map; auto.
    + split; [congruence|]. intros (h' & H & Hin). injection H as <-. apply find_field_none in Eg. contradiction.
  - destruct (nth_error (vars s) x) as [h|] eqn:Ex; [|split; [congruence|intros [H _]; congruence]].
    destruct (nth_error (vars s) y) as [g|] eqn:Ey; [|split; [congruence|intros [_ H]; congruence]].
    rewrite Forall_forall in Hh. destruct (Hh h) as (_ & _ & st & Est & _); [eapply nth_error_In; eauto|].
    destruct (Hh g) as (_ & _ & st' & Est' & _); [eapply nth_error_In; eauto|].
    unfold span_of. rewrite Est, Est'. cbn [option_map]. split; [split; discriminate|discriminate].
Qed.
End Allowed.

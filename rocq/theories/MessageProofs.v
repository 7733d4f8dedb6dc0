(** Proofs about message construction, access and equivalence. *)
From Coq Require Import List NArith Bool ZArith Lia ZifyBool ZifyN ZifyNat Permutation.
From Verif Require Import FieldModel FieldSpec FieldProofs FieldProofs2 FieldProofs3 MessageModel MessageSpec.
Import ListNotations.
Local Open Scope N_scope.

Definition narrow (es : N) : Prop := es = 8 \/ es = 16 \/ es = 32.
Lemma narrow_ew es : narrow es -> elem_width es.
Proof. unfold narrow, elem_width. tauto. Qed.
Lemma narrow_le es : narrow es -> es <= 32.
Proof. intros [->|[->| ->]]; lia. Qed.

Lemma total_size_ats l : total_size (map at_loc l) = fold_right (fun a n => at_size a + n) 0 l.
Proof. unfold total_size. induction l as [|a l IH]; cbn [map fold_right]; auto. rewrite IH. reflexivity. Qed.

Lemma raw_bits_spec b : b <= 8 -> raw_width (raw_bits b) /\ 8 * b <= raw_bits b.
Proof.
  intros H. unfold raw_bits, raw_width.
  destruct (N.leb_spec b 1); [lia|]. destruct (N.leb_spec b 2); [lia|]. destruct (N.leb_spec b 4); lia.
Qed.

Lemma field_valid_wf f : field_valid f = true -> field_wf (f_ew f) (f_locs f) /\ width f <= 8 * f_bytes f /\ 8 * f_bytes f <= f_ew f.
Proof.
  unfold field_valid. rewrite !andb_true_iff. intros [[H1 H2] H3].
  rewrite N.leb_le in H2, H3. rewrite <- total_size_ats in H2. fold (f_locs f) in H2.
  destruct (raw_bits_spec _ H3) as [Hr Hb]. unfold width, f_ew. split; [|split; auto].
  split; auto. split; [|lia]. unfold f_locs. apply Forall_forall. intros l Hl. apply in_map_iff in Hl as (a & <- & Ha).
  rewrite forallb_forall in H1. apply at_loc_wf. auto.
Qed.

Lemma find_field_spec n fs f : find_field n fs = Some f -> In f fs /\ f_name f = n.
Proof.
  unfold find_field. intros H. apply find_some in H as [H1 H2]. split; auto. apply Nat.eqb_eq. auto.
Qed.
Lemma find_field_in fs f : NoDup (map f_name fs) -> In f fs -> find_field (f_name f) fs = Some f.
Proof.
  unfold find_field. induction fs as [|g fs IH]; intros Hn Hf; [destruct Hf|]. cbn [find has_name].
  inversion Hn; subst. destruct Hf as [->|Hf].
  - unfold has_name. rewrite Nat.eqb_refl. auto.
  - unfold has_name at 1. destruct (Nat.eqb_spec (f_name g) (f_name f)) as [E|E]; auto.
    exfalso. apply H1. rewrite E. apply in_map. auto.
Qed.
Lemma find_field_none fs n : find_field n fs = None <-> ~ In n (map f_name fs).
Proof.
  unfold find_field. induction fs as [|g fs IH]; cbn; [tauto|].
  unfold has_name at 1. destruct (Nat.eqb_spec (f_name g) n).
  - split; [discriminate|]. intros H. exfalso. apply H. auto.
  - rewrite IH. tauto.
Qed.

Lemma supplied_acc m vs : forall acc,
  fold_left (fun acc nv => if Nat.eqb (fst nv) m then Some (snd nv) else acc) vs acc
  = match supplied vs m with Some x => Some x | None => acc end.
Proof.
  unfold supplied. induction vs as [|x vs IH]; intros acc; cbn [fold_left]; auto.
  rewrite IH. rewrite (IH (if Nat.eqb (fst x) m then Some (snd x) else None)).
  destruct (fold_left _ vs None); auto. destruct (Nat.eqb (fst x) m); auto.
Qed.

Section Run.
Variable es : N.
Hypothesis Hes : narrow es.
Variable fs : list mfield.
Hypothesis Hgood : msg_good fs.
Variable n : nat.
Hypothesis Hfit : fields_fit (es * N.of_nat n) fs.

(** [holds vals base st]: the fields of [st] have the values [vals], the rest
    of [st] is as in the image [base]. *)
Definition holds (vals : mfield -> N) (base : N) (st : list N) : Prop :=
  length st = n /\ storage_ok es st /\
  (forall f, In f fs -> value_in es st f = vals f) /\
  (forall k, ~ covered fs k -> N.testbit (image es st) k = N.testbit base k).

Lemma insert_holds f v vals base st : In f fs -> v < 2 ^ f_ew f -> holds vals base st ->
  exists st', field_insert es (f_ew f) (f_locs f) v st = Done st' /\
    holds (fun g => if Nat.eqb (f_name g) (f_name f) then v mod 2 ^ width f else vals g) base st'.
Proof.
  intros Hf Hv (Hl & Hst & Hv1 & Hb). destruct Hgood as (Hnd & Hfg & Hdis).
  rewrite Forall_forall in Hfg. destruct (Hfg f Hf) as (Hval & Hd & _).
  destruct (field_valid_wf f Hval) as (Hwf & Hw & Hew).
  destruct (field_insert_spec es (f_ew f) (f_locs f) v st) as (s & Hs & Hl' & Hst' & Hout & Hc & _);
    auto using narrow_ew, narrow_ok, narrow_le.
  { unfold nbits. rewrite Hl. apply Hfit. auto. }
  exists s. split; auto. split; [congruence|]. split; auto. split.
  - intros g Hg. destruct (Nat.eqb_spec (f_name g) (f_name f)) as [E|E].
    + assert (g = f) as ->.
      { pose proof (find_field_in fs g Hnd Hg) as H1. pose proof (find_field_in fs f Hnd Hf) as H2.
        rewrite E, H2 in H1. congruence. }
      exact Hc.
    + rewrite <- Hv1 by auto. unfold value_in. apply concat_ext. intros k Hk. symmetry. apply Hout.
      intros Hk'. apply (Hdis g f Hg Hf E k); auto.
  - intros k Hk. rewrite <- Hb by auto. symmetry. apply Hout. intros Hc'. apply Hk. exists f. auto.
Qed.

Lemma run_sets_holds vs : (forall nv, In nv vs -> In (fst nv) (map f_name fs)) -> forall vals base st,
  holds vals base st ->
  exists st', run_sets es fs vs st = Done st' /\
    holds (fun g => match supplied vs (f_name g) with Some v => v mod 2 ^ width g | None => vals g end) base st'.
Proof.
  induction vs as [|[m v] vs IH]; intros Hin vals base st Hh.
  - exists st. split; auto.
  - cbn [run_sets]. destruct (find_field m fs) as [f|] eqn:Ef.
    2:{ exfalso. apply find_field_none in Ef. apply Ef. apply (Hin (m, v)). left; auto. }
    destruct (find_field_spec m fs f Ef) as [Hf Hm].
    destruct (field_valid_wf f) as (Hwf & Hw & Hew).
    { destruct Hgood as (_ & Hfg & _). rewrite Forall_forall in Hfg. apply Hfg. auto. }
    destruct (insert_holds f (v mod 2 ^ (8 * f_bytes f)) vals base st) as (s & Hs & Hh'); auto.
    { apply N.lt_le_trans with (2 ^ (8 * f_bytes f)); [apply N.mod_lt, N.pow_nonzero; lia|].
      apply N.pow_le_mono_r; lia. }
    unfold set_field. rewrite Hs. cbn [bind].
    destruct (IH (fun nv H => Hin nv (or_intror H)) _ _ _ Hh') as (s' & Hs' & Hl & Hst & Hv & Hb).
    exists s'. split; auto. split; auto. split; auto. split; auto.
    intros g Hg. rewrite Hv by auto. unfold supplied at 2. cbn [fold_left fst snd].
    rewrite (supplied_acc (f_name g) vs).
    destruct (supplied vs (f_name g)); auto. rewrite Nat.eqb_sym, Hm.
    destruct (Nat.eqb_spec m (f_name g)) as [E|E]; auto.
    assert (g = f) as ->.
    { destruct Hgood as (Hnd & _). pose proof (find_field_in fs g Hnd Hg) as H1. rewrite <- E, Ef in H1. congruence. }
    replace (2 ^ (8 * f_bytes f)) with (2 ^ width f * 2 ^ (8 * f_bytes f - width f)).
    2:{ rewrite <- N.pow_add_r. f_equal. lia. }
    rewrite N.mod_mul_r by (apply N.pow_nonzero; lia).
    rewrite N.mul_comm, N.mod_add by (apply N.pow_nonzero; lia).
    rewrite N.mod_mod by (apply N.pow_nonzero; lia). auto.
Qed.

Lemma run_defaults_holds l : incl l fs -> NoDup (map f_name l) -> forall vals base st, holds vals base st ->
  exists st', run_defaults es l st = Done st' /\
    holds (fun g => if existsb (Nat.eqb (f_name g)) (map f_name l) then
                      match default_value (f_default g) with Some v => v mod 2 ^ width g | None => vals g end
                    else vals g) base st'.
Proof.
  induction l as [|f l IH]; intros Hin Hnd vals base st Hh.
  - exists st. auto.
  - cbn [run_defaults]. assert (Hf : In f fs) by (apply Hin; left; auto). inversion Hnd; subst.
    assert (Hstep : exists s, set_default es f st = Done s /\
      holds (fun g => if Nat.eqb (f_name g) (f_name f) then
        match default_value (f_default g) with Some v => v mod 2 ^ width g | None => vals g end else vals g) base s).
    { unfold set_default. destruct Hgood as (Hnd' & Hfg & _). rewrite Forall_forall in Hfg.
      assert (Heq : forall g, In g fs -> f_name g = f_name f -> g = f).
      { intros g Hg E. pose proof (find_field_in fs g Hnd' Hg) as H3. rewrite E, (find_field_in fs f Hnd' Hf) in H3. congruence. }
      destruct (Hfg f Hf) as (Hval & _ & Hdef). destruct (field_valid_wf f Hval) as (_ & _ & Hew).
      destruct (default_value (f_default f)) as [d|] eqn:Ed.
      - destruct (insert_holds f d vals base st) as (s & Hs & Hl & Hst & Hv & Hb); auto.
        { apply N.lt_le_trans with (2 ^ (8 * f_bytes f)); [auto|]. apply N.pow_le_mono_r; lia. }
        exists s. split; auto. split; auto. split; auto. split; auto.
        intros g Hg. rewrite Hv by auto. destruct (Nat.eqb_spec (f_name g) (f_name f)) as [E|E]; auto.
        rewrite (Heq g Hg E), Ed. auto.
      - exists st. split; auto. destruct Hh as (Hl & Hst & Hv & Hb). split; auto. split; auto. split; auto.
        intros g Hg. rewrite Hv by auto. destruct (Nat.eqb_spec (f_name g) (f_name f)) as [E|E]; auto.
        rewrite (Heq g Hg E), Ed. auto. }
    destruct Hstep as (s & Hs & Hh'). rewrite Hs. cbn [bind].
    destruct (IH (fun x Hx => Hin x (or_intror Hx)) H2 _ _ _ Hh') as (s' & Hs' & Hl & Hst & Hv & Hb).
    exists s'. split; auto. split; auto. split; auto. split; auto.
    intros g Hg. rewrite Hv by auto. cbn [map existsb].
    destruct (Nat.eqb (f_name g) (f_name f)); cbn [orb]; auto.
    destruct (existsb (Nat.eqb (f_name g)) (map f_name l)); auto. destruct (default_value (f_default g)); auto.
Qed.
End Run.

Lemma image_zero es m : image es (repeat 0 m) = 0.
Proof. induction m; cbn [repeat image]; auto. rewrite IHm. lia. Qed.
Lemma storage_ok_zero es m : storage_ok es (repeat 0 m).
Proof.
  apply Forall_forall. intros x H. apply repeat_spec in H. subst.
  apply N.neq_0_lt_0, N.pow_nonzero. lia.
Qed.
Lemma concat_zero ls : concat_value 0 ls = 0.
Proof.
  induction ls as [|l ls IH] using rev_ind; auto. rewrite concat_snoc, IH. unfold slice.
  rewrite N.shiftr_0_l, N.mod_0_l by (apply N.pow_nonzero; lia). lia.
Qed.

Lemma settable_names es fs n vs : forallb (settable es fs n) vs = true ->
  forall nv, In nv vs -> In (fst nv) (map f_name fs).
Proof.
  intros H nv Hnv. rewrite forallb_forall in H. specialize (H nv Hnv). unfold settable in H.
  destruct (find_field (fst nv) fs) as [f|] eqn:E; [|discriminate].
  apply find_field_spec in E as [H1 H2]. rewrite <- H2. apply in_map. auto.
Qed.

Lemma construct_spec es n fs vs o :
  narrow es -> msg_good fs -> fields_fit (es * N.of_nat n) fs ->
  construct es n fs vs = Some o ->
  exists st, o = Done st /\ length st = n /\ storage_ok es st /\
    (forall f, In f fs -> value_in es st f = expected vs f) /\
    (forall k, ~ covered fs k -> N.testbit (image es st) k = false).
Proof.
  intros Hes Hg Hf Hc. unfold construct in Hc.
  destruct (fits_inside es (N.of_nat n) fs && all_initialized fs vs && forallb (settable es fs (N.of_nat n)) vs) eqn:E; [|discriminate].
  injection Hc as <-. rewrite !andb_true_iff in E. destruct E as [[E1 E2] E3].
  pose proof Hg as (Hnd & _).
  destruct (run_defaults_holds es Hes fs Hg n Hf fs (incl_refl _) Hnd (fun _ => 0) 0 (repeat 0 n)) as (s & Hs & Hh).
  { split; [apply repeat_length|]. split; [apply storage_ok_zero|]. split.
    - intros f _. unfold value_in. rewrite image_zero. apply concat_zero.
    - intros k _. rewrite image_zero. auto. }
  destruct (run_sets_holds es Hes fs Hg n Hf vs (settable_names _ _ _ _ E3) _ _ _ Hh) as (s' & Hs' & Hl & Hst & Hv & Hb).
  exists s'. rewrite Hs. cbn [bind]. split; auto. split; auto. split; auto. split.
  - intros f Hin. rewrite Hv by auto. unfold expected. destruct (supplied vs (f_name f)); auto.
    assert (Hex : existsb (Nat.eqb (f_name f)) (map f_name fs) = true).
    { apply existsb_exists. exists (f_name f). split; [apply in_map; auto|apply Nat.eqb_refl]. }
    rewrite Hex. auto.
  - intros k Hk. rewrite Hb by auto. apply N.bits_0.
Qed.

Lemma set_spec es fs vs st o :
  narrow es -> msg_good fs -> storage_ok es st -> fields_fit (nbits es st) fs ->
  m_set es fs vs st = Some o ->
  exists st', o = Done st' /\ length st' = length st /\ storage_ok es st' /\
    (forall f, In f fs -> value_in es st' f = updated es st vs f) /\
    (forall k, ~ covered fs k -> N.testbit (image es st') k = N.testbit (image es st) k).
Proof.
  intros Hes Hg Hst Hf Hc. unfold m_set in Hc.
  destruct (forallb _ vs) eqn:E; [|discriminate]. injection Hc as <-.
  destruct (run_sets_holds es Hes fs Hg (length st) Hf vs (settable_names _ _ _ _ E) (value_in es st) (image es st) st) as (s & Hs & Hl & Hst' & Hv & Hb).
  { split; auto. }
  exists s. auto 6.
Qed.

Lemma copy_length n s : length (copy_storage n s) = n.
Proof. unfold copy_storage. rewrite app_length, firstn_length, repeat_length. lia. Qed.
Lemma copy_ok es n s : storage_ok es s -> storage_ok es (copy_storage n s).
Proof.
  intros H. unfold copy_storage. apply Forall_app. split; [|apply storage_ok_zero].
  unfold storage_ok in H. rewrite Forall_forall in *. intros x Hx. apply H.
  rewrite <- (firstn_skipn n s). apply in_or_app. auto.
Qed.
Lemma image_app es a b : image es (a ++ b) = image es a + 2 ^ nbits es a * image es b.
Proof.
  unfold nbits. induction a as [|x a IH]; cbn [app image length].
  - cbn [N.of_nat]. rewrite N.mul_0_r, N.pow_0_r, N.mul_1_l. auto.
  - rewrite IH. replace (es * N.of_nat (S (length a))) with (es + es * N.of_nat (length a)) by lia.
    rewrite N.pow_add_r. lia.
Qed.
Lemma image_firstn es s n k : 0 < es -> storage_ok es s -> k < es * N.of_nat n ->
  N.testbit (image es (copy_storage n s)) k = N.testbit (image es s) k.
Proof.
  intros Hes Hs Hk. unfold copy_storage.
  assert (Hz : forall a m, image es (a ++ repeat 0 m) = image es a).
  { intros. rewrite image_app, image_zero, N.mul_0_r, N.add_0_r. auto. }
  rewrite Hz. rewrite <- (firstn_skipn n s) at 2. rewrite image_app.
  destruct (Nat.le_gt_cases n (length s)) as [Hle|Hgt].
  - assert (Hn : nbits es (firstn n s) = es * N.of_nat n).
    { unfold nbits. rewrite firstn_length. do 2 f_equal. lia. }
    rewrite Hn. set (hi := image es (skipn n s)). set (lo := image es (firstn n s)).
    symmetry. rewrite N.mul_comm.
    rewrite <- (N.mod_pow2_bits_low (lo + hi * 2 ^ (es * N.of_nat n)) (es * N.of_nat n) k) by auto.
    rewrite N.mod_add by (apply N.pow_nonzero; lia). rewrite N.mod_pow2_bits_low by auto. auto.
  - rewrite (skipn_all2 s) by lia. cbn [image]. rewrite N.mul_0_r, N.add_0_r. auto.
Qed.

Lemma construct_from_spec es n fs s vs o :
  narrow es -> msg_good fs -> storage_ok es s -> fields_fit (es * N.of_nat n) fs ->
  fields_fit (nbits es s) fs ->
  construct_from es n fs s vs = Some o ->
  exists st, o = Done st /\ length st = n /\ storage_ok es st /\
    (forall f, In f fs -> value_in es st f = updated es s vs f).
Proof.
  intros Hes Hg Hs Hf Hf' Hc. unfold construct_from in Hc.
  destruct (fits_inside es (N.of_nat n) fs && forallb (settable es fs (N.of_nat n)) vs) eqn:E; [|discriminate].
  injection Hc as <-. rewrite andb_true_iff in E. destruct E as [E1 E2].
  destruct (run_sets_holds es Hes fs Hg n Hf vs (settable_names _ _ _ _ E2) (value_in es s) (image es (copy_storage n s)) (copy_storage n s)) as (s' & Hs' & Hl & Hst & Hv & Hb).
  { split; [apply copy_length|]. split; [apply copy_ok; auto|]. split; auto.
    intros f Hin. apply concat_ext. intros k (l & Hlin & Hk). apply image_firstn; auto.
    - apply elem_pos, narrow_ew. auto.
    - specialize (Hf f Hin l Hlin). unfold loc_covers in Hk. lia. }
  exists s'. auto.
Qed.

(** ** Equivalence *)
Lemma extract_value es f st : narrow es -> field_valid f = true -> storage_ok es st -> fits (nbits es st) (f_locs f) ->
  field_extract es (f_ew f) (f_locs f) st = Done (value_in es st f).
Proof.
  intros He Hv Hs Hf. apply field_extract_spec; auto using narrow_ew, narrow_read_ok, narrow_le.
  apply field_valid_wf; auto.
Qed.
Lemma equiv_spec es fs a b : narrow es -> Forall (fun f => field_valid f = true) fs ->
  storage_ok es a -> storage_ok es b -> fields_fit (nbits es a) fs -> fields_fit (nbits es b) fs ->
  exists r, equiv es fs a b = Done r /\ (r = true <-> forall f, In f fs -> value_in es a f = value_in es b f).
Proof.
  intros He Hv Ha Hb. induction Hv as [|f fs Hf Hv IH]; intros Fa Fb; cbn [equiv].
  - exists true. split; auto. split; auto. intros _ f [].
  - rewrite !extract_value; auto. 2:{ apply Fb; left; auto. } 2:{ apply Fa; left; auto. }
    cbn [bind]. destruct (N.eqb_spec (value_in es a f) (value_in es b f)) as [E|E].
    + destruct IH as (r & Hr & Hiff). { intros g Hg. apply Fa. right; auto. } { intros g Hg. apply Fb. right; auto. }
      exists r. split; auto. rewrite Hiff. split; [intros H g [<-|Hg]; auto|intros H g Hg; apply H; right; auto].
    + exists false. split; auto. split; [discriminate|]. intros H. exfalso. apply E, H. left; auto.
Qed.

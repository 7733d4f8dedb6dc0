(** Proofs about the indexed handler. *)
From Coq Require Import List Bool Arith ZArith Lia ZifyBool ZifyNat.
From Verif Require Import MatchModel MatchSpec MatchProofs FieldMatchersModel FieldMatchersSpec FieldMatchersProofs
  HandlerModel HandlerSpec HandlerProofs.
Import ListNotations.
Local Open Scope Z_scope.

(** ** Entry tables *)
Lemma get_ensure k k' es :
  get_entry k (ensure k' es) =
  match get_entry k es with Some b => Some b | None => if k' =? k then Some empty_bits else None end.
Proof.
  unfold ensure. destruct (get_entry k' es) as [b|] eqn:H.
  - destruct (get_entry k es) eqn:H'; auto. destruct (Z.eqb_spec k' k); auto. congruence.
  - clear H. induction es as [|[k1 v1] es IH]; cbn; auto. destruct (k1 =? k); auto.
Qed.
Lemma get_map (g : Z -> bits -> bits) k es :
  get_entry k (map (fun kv => (fst kv, g (fst kv) (snd kv))) es) = option_map (g k) (get_entry k es).
Proof.
  induction es as [|[k1 v1] es IH]; cbn; auto. destruct (Z.eqb_spec k1 k); subst; auto.
Qed.
Lemma get_update k k' f es :
  get_entry k (update k' f es) = if k' =? k then option_map f (get_entry k es) else get_entry k es.
Proof.
  induction es as [|[k1 v1] es IH]; cbn; [destruct (k' =? k); auto|].
  destruct (Z.eqb_spec k1 k'), (Z.eqb_spec k' k), (Z.eqb_spec k1 k); subst; cbn; rewrite ?Z.eqb_refl; auto; try congruence;
  try (destruct (Z.eqb_spec k1 k); congruence).
Qed.

(** ** Positive phase *)
Definition positives (w : list (Z * nat)) : temp_index -> temp_index :=
  fold_left (fun t vi => add_positive t (fst vi) (snd vi)) w.
Definition pos_inv (w : list (Z * nat)) (t : temp_index) : Prop :=
  (forall k, match get_entry k (ti_entries t) with
             | Some b => (exists i, In (k, i) w) /\ forall i, b i = true <-> In (k, i) w
             | None => forall i, ~ In (k, i) w
             end) /\
  (forall i, existsb (fun kv => snd kv i) (ti_entries t) = true <-> exists k, In (k, i) w) /\
  (forall i, ti_default t i = false) /\ (forall i, ti_negative t i = false).

Lemma exists_ensure i k es : existsb (fun kv : Z * bits => snd kv i) (ensure k es) = existsb (fun kv => snd kv i) es.
Proof. unfold ensure. destruct (get_entry k es); auto. rewrite existsb_app. cbn. rewrite !orb_false_r. auto. Qed.
Lemma exists_update i k j es : get_entry k es <> None ->
  existsb (fun kv : Z * bits => snd kv i) (update k (fun v => bit_set v j) es)
  = Nat.eqb i j || existsb (fun kv => snd kv i) es.
Proof.
  unfold update. induction es as [|[k1 v1] es IH]; cbn; [congruence|]. intros H.
  destruct (Z.eqb_spec k1 k); cbn.
  - clear -v1. unfold bit_set at 1. rewrite <- !orb_assoc.
    destruct (Nat.eqb i j) eqn:Hij; cbn; auto. f_equal.
    induction es as [|[k2 v2] es IH]; cbn; auto. rewrite IH. f_equal.
    destruct (k2 =? k); cbn; auto. unfold bit_set. rewrite Hij. auto.
  - rewrite IH by auto. destruct (v1 i), (Nat.eqb i j); auto.
Qed.

Lemma pos_inv_step w t k i : pos_inv w t -> pos_inv (w ++ [(k, i)]) (add_positive t k i).
Proof.
  intros (H1 & H2 & H3 & H4). unfold pos_inv, add_positive; cbn [ti_entries ti_default ti_negative].
  split; [|split; [|split; auto]].
  - intros k0. rewrite get_update, get_ensure. specialize (H1 k0).
    destruct (Z.eqb_spec k k0) as [<-|Hk].
    + destruct (get_entry k (ti_entries t)) as [b|]; cbn.
      * destruct H1 as [[j Hj] H1]. split; [exists j; rewrite in_app_iff; auto|].
        intros j'. unfold bit_set. rewrite orb_true_iff, Nat.eqb_eq, H1, in_app_iff. cbn.
        split; [intros [->|]; auto|intros [?|[[= <-]|[]]]; auto].
      * split; [exists i; rewrite in_app_iff; cbn; auto|].
        intros j'. unfold bit_set, empty_bits. rewrite orb_false_r, Nat.eqb_eq, in_app_iff. cbn.
        split; [intros ->; auto|intros [?|[[= <-]|[]]]; auto]. exfalso; eapply H1; eauto.
    + destruct (get_entry k0 (ti_entries t)) as [b|].
      * destruct H1 as [[j Hj] H1]. split; [exists j; rewrite in_app_iff; auto|].
        intros j'. rewrite H1, in_app_iff. cbn. split; [auto|intros [?|[[= ? ?]|[]]]; auto; congruence].
      * intros j. rewrite in_app_iff. cbn. intros [?|[[= ? ?]|[]]]; [eapply H1; eauto|congruence].
  - intros j. rewrite exists_update by (rewrite get_ensure; destruct (get_entry k _); [discriminate|rewrite Z.eqb_refl; discriminate]).
    rewrite exists_ensure, orb_true_iff, Nat.eqb_eq, H2. split.
    + intros [->|[k' Hk']]; [exists k; rewrite in_app_iff; cbn; auto|exists k'; rewrite in_app_iff; auto].
    + intros [k' Hk']. rewrite in_app_iff in Hk'. cbn in Hk'. destruct Hk' as [?|[[= <- <-]|[]]]; eauto.
Qed.
Lemma pos_inv_fold w : forall w0 t, pos_inv w0 t -> pos_inv (w0 ++ w) (positives w t).
Proof.
  induction w as [|[k i] w IH]; intros w0 t H; cbn; [rewrite app_nil_r; auto|].
  replace (w0 ++ (k, i) :: w) with ((w0 ++ [(k, i)]) ++ w) by (rewrite <- app_assoc; reflexivity).
  apply IH, pos_inv_step; auto.
Qed.
Lemma pos_inv_empty : pos_inv [] empty_index.
Proof.
  split; [cbn; auto|]. split; [|split; cbn; auto].
  intros i; cbn. split; [discriminate|intros [k []]].
Qed.

(** ** Negative phase *)
Section Negative.
Variable wp : list (Z * nat).   (* (value, callback) pairs of == terms *)
Variable n : nat.
Definition is_pos (i : nat) (k : Z) : Prop := In (k, i) wp.
Definition is_def (i : nat) : Prop := (i < n)%nat /\ forall k, ~ In (k, i) wp.

Definition negatives (w : list (Z * nat)) : temp_index -> temp_index :=
  fold_left (fun t vi => add_negative t (fst vi) (snd vi)) w.

Record neg_inv (w : list (Z * nat)) (t : temp_index) : Prop := {
  ni_default : forall i, ti_default t i = true <-> is_def i;
  ni_negative : forall i, ti_negative t i = true <-> exists k, In (k, i) w;
  ni_keys : forall k, get_entry k (ti_entries t) = None -> (forall i, ~ In (k, i) wp) /\ forall i, ~ In (k, i) w;
  ni_pos : forall k i, is_pos i k -> ~ In (k, i) w ->
    exists b, get_entry k (ti_entries t) = Some b /\ b i = true;
  ni_def : forall k i b, is_def i -> (exists k', In (k', i) w) -> ~ In (k, i) w ->
    get_entry k (ti_entries t) = Some b -> b i = true
}.

Definition exact_inv (w : list (Z * nat)) (t : temp_index) : Prop :=
  forall k i b, get_entry k (ti_entries t) = Some b -> b i = true ->
    (is_pos i k \/ is_def i) /\ ~ In (k, i) w.

Lemma get_negative t k i k0 :
  get_entry k0 (ti_entries (add_negative t k i)) =
  match get_entry k0 (ti_entries t) with
  | Some b => Some (if k =? k0 then bit_reset (bit_or b (ti_default t)) i else bit_set b i)
  | None => if k =? k0 then Some (bit_reset (bit_or empty_bits (ti_default t)) i) else None
  end.
Proof.
  unfold add_negative; cbn [ti_entries].
  rewrite (map_ext _ (fun kv => (fst kv, (fun k1 b => if k =? k1 then bit_reset (bit_or b (ti_default t)) i else bit_set b i) (fst kv) (snd kv)))).
  2:{ intros [k1 b]. cbn. rewrite (Z.eqb_sym k1 k). destruct (k =? k1); auto. }
  rewrite (get_map (fun k1 b => if k =? k1 then bit_reset (bit_or b (ti_default t)) i else bit_set b i)), get_ensure.
  destruct (get_entry k0 (ti_entries t)); cbn; auto. destruct (k =? k0) eqn:Hk; cbn; rewrite ?Hk; auto.
Qed.

Lemma in_snoc {A} (x y : A) l : In x (l ++ [y]) <-> In x l \/ y = x.
Proof. rewrite in_app_iff. cbn. tauto. Qed.

Lemma reset_keeps b d i j : j <> i -> b j = true \/ d j = true -> bit_reset (bit_or b d) i j = true.
Proof. unfold bit_reset, bit_or. intros H. rewrite andb_true_iff, orb_true_iff, negb_true_iff, Nat.eqb_neq. auto. Qed.
Lemma set_keeps b i j : b j = true -> bit_set b i j = true.
Proof. unfold bit_set. intros ->. apply orb_true_r. Qed.

Lemma neg_inv_step w t k i : neg_inv w t -> neg_inv (w ++ [(k, i)]) (add_negative t k i).
Proof.
  intros [D N K P F]. split.
  - exact D.
  - intros j. cbn. unfold bit_set. rewrite orb_true_iff, Nat.eqb_eq, N. split.
    + intros [->|[k' H]]; [exists k|exists k']; rewrite in_snoc; auto.
    + intros [k' H]. rewrite in_snoc in H. destruct H as [H|[= -> ->]]; eauto.
  - intros k0. rewrite get_negative. destruct (get_entry k0 (ti_entries t)) eqn:H0; [discriminate|].
    destruct (Z.eqb_spec k k0) as [->|Hk]; [discriminate|]. intros _. destruct (K _ H0) as [K1 K2].
    split; auto. intros j. rewrite in_snoc. intros [H|[= H _]]; [eapply K2; eauto|auto].
  - intros k0 j Hp Hn. rewrite in_snoc in Hn. destruct (P k0 j Hp) as (b & Hb & Hbj); [tauto|].
    rewrite get_negative, Hb. eexists; split; [reflexivity|].
    destruct (Z.eqb_spec k k0) as [->|Hk]; [|apply set_keeps; auto].
    apply reset_keeps; [intros ->; apply Hn; auto|auto].
  - intros k0 j b Hd He Hn. rewrite in_snoc in Hn. rewrite get_negative.
    destruct (get_entry k0 (ti_entries t)) as [b0|] eqn:H0.
    + intros [= <-]. destruct (Z.eqb_spec k k0) as [->|Hk].
      * apply reset_keeps; [intros ->; apply Hn; auto|]. right. apply D; auto.
      * destruct (Nat.eq_dec j i) as [->|Hji]; [unfold bit_set; rewrite Nat.eqb_refl; auto|].
        apply set_keeps. apply (F k0 j b0); auto.
        destruct He as [k' He]. rewrite in_snoc in He. destruct He as [He|[= ? ?]]; [eauto|congruence].
    + destruct (Z.eqb_spec k k0) as [->|Hk]; [|discriminate]. intros [= <-].
      apply reset_keeps; [intros ->; apply Hn; auto|]. right. apply D; auto.
Qed.

Lemma neg_inv_fold w : forall w0 t, neg_inv w0 t -> neg_inv (w0 ++ w) (negatives w t).
Proof.
  induction w as [|[k i] w IH]; intros w0 t H; cbn; [rewrite app_nil_r; auto|].
  replace (w0 ++ (k, i) :: w) with ((w0 ++ [(k, i)]) ++ w) by (rewrite <- app_assoc; reflexivity).
  apply IH, neg_inv_step; auto.
Qed.

Variable wn : list (Z * nat).
Hypothesis wn_range : forall k i, In (k, i) wn -> (i < n)%nat.
Hypothesis Xeqne : forall k k' i, In (k, i) wp -> In (k', i) wn -> False.
Hypothesis Xone : forall k k' i, In (k, i) wn -> In (k', i) wn -> k = k'.
Hypothesis Xdistinct : forall k i j, In (k, i) wn -> In (k, j) wn -> i = j.

Lemma exact_step w t k i : (forall x, In x (w ++ [(k, i)]) -> In x wn) ->
  neg_inv w t -> exact_inv w t -> exact_inv (w ++ [(k, i)]) (add_negative t k i).
Proof.
  intros Hsub HI HX k0 j b. rewrite get_negative.
  assert (Hki : In (k, i) wn) by (apply Hsub; rewrite in_snoc; auto).
  assert (Hw : forall x, In x w -> In x wn) by (intros; apply Hsub; rewrite in_snoc; auto).
  assert (Hres : forall b0, bit_reset (bit_or b0 (ti_default t)) i j = true -> k = k0 ->
            (b0 j = true -> (is_pos j k0 \/ is_def j) /\ ~ In (k0, j) w) ->
            (is_pos j k0 \/ is_def j) /\ ~ In (k0, j) (w ++ [(k, i)])).
  { intros b0 Hb <- H0. unfold bit_reset, bit_or in Hb.
    rewrite andb_true_iff, orb_true_iff, negb_true_iff, Nat.eqb_neq in Hb. destruct Hb as [Hji Hb].
    rewrite in_snoc. destruct Hb as [Hb|Hb].
    - destruct (H0 Hb) as [A B]. split; auto. intros [?|[= ?]]; auto.
    - apply (ni_default _ _ HI) in Hb. split; auto. intros [Hin|[= ?]]; auto.
      apply Hji. eapply Xdistinct; eauto. }
  destruct (get_entry k0 (ti_entries t)) as [b0|] eqn:H0.
  - intros [= <-]. destruct (Z.eqb_spec k k0) as [->|Hk].
    + intros Hb. eapply Hres; eauto.
    + unfold bit_set. rewrite orb_true_iff, Nat.eqb_eq, in_snoc. intros [->|Hb].
      * split; [right; split; eauto|].
        intros [Hin|[= ?]]; [|congruence]. apply Hk. eapply Xone; eauto.
      * destruct (HX _ _ _ H0 Hb) as [A B]. split; auto. intros [?|[= ?]]; auto; congruence.
  - destruct (Z.eqb_spec k k0) as [->|Hk]; [|discriminate]. intros [= <-] Hb.
    eapply Hres; eauto. discriminate.
Qed.

Lemma exact_fold w : forall w0 t, (forall x, In x (w0 ++ w) -> In x wn) ->
  neg_inv w0 t -> exact_inv w0 t -> exact_inv (w0 ++ w) (negatives w t).
Proof.
  induction w as [|[k i] w IH]; intros w0 t Hs HI HX; cbn; [rewrite app_nil_r; auto|].
  replace (w0 ++ (k, i) :: w) with ((w0 ++ [(k, i)]) ++ w) in * by (rewrite <- app_assoc; reflexivity).
  apply IH; auto; [apply neg_inv_step; auto|].
  apply exact_step; auto. intros x Hx. apply Hs. rewrite in_app_iff. auto.
Qed.
End Negative.

(** ** One field's index *)
Section OneField.
Variable wp wn : list (Z * nat).
Variable n : nat.
Definition final : temp_index :=
  propagate (negatives wn (collect_defaults (positives wp empty_index) n)).

Lemma start_inv :
  neg_inv wp n [] (collect_defaults (positives wp empty_index) n) /\
  exact_inv wp n [] (collect_defaults (positives wp empty_index) n).
Proof.
  destruct (pos_inv_fold wp [] _ pos_inv_empty) as (H1 & H2 & H3 & H4). rewrite app_nil_l in *.
  set (t := positives wp empty_index) in *. split; [split|]; cbn [collect_defaults ti_entries ti_default ti_negative].
  - intros i. rewrite H3, orb_false_r, andb_true_iff, Nat.ltb_lt, negb_true_iff. unfold is_def.
    specialize (H2 i). destruct (existsb _ _).
    + split; [intros []; discriminate|]. intros [_ H]. destruct (proj1 H2 eq_refl) as [k Hk]. exfalso; eapply H; eauto.
    + split; [|tauto]. intros [Hi _]. split; auto. intros k Hk. assert (false = true) by (apply H2; eauto). discriminate.
  - intros i. rewrite H4. split; [discriminate|intros [k []]].
  - intros k Hk. specialize (H1 k). rewrite Hk in H1. auto.
  - intros k i Hp _. specialize (H1 k). destruct (get_entry k (ti_entries t)) as [b|].
    + exists b. split; auto. apply H1. exact Hp.
    + exfalso; eapply H1; eauto.
  - intros k i b _ [k' []].
  - intros k i b Hb Hi. cbn in Hb. specialize (H1 k). rewrite Hb in H1. split; auto. left. apply H1. auto.
Qed.

Lemma lookup_final k : index_lookup final k =
  match get_entry k (ti_entries (negatives wn (collect_defaults (positives wp empty_index) n))) with
  | Some b => bit_or b (fun i => ti_default (negatives wn (collect_defaults (positives wp empty_index) n)) i &&
                                  negb (ti_negative (negatives wn (collect_defaults (positives wp empty_index) n)) i))
  | None => ti_default (negatives wn (collect_defaults (positives wp empty_index) n))
  end.
Proof.
  unfold index_lookup, final, propagate; cbn [ti_entries ti_default].
  rewrite (get_map (fun _ b => bit_or b _)). destruct (get_entry k _); auto.
Qed.

(** A callback none of whose terms reject the value is a candidate. *)
Lemma lookup_superset k i : is_pos wp i k \/ is_def wp n i -> ~ In (k, i) wn -> index_lookup final k i = true.
Proof.
  intros H Hn. rewrite lookup_final. destruct start_inv as [S0 _].
  pose proof (neg_inv_fold wp n wn [] _ S0) as [D N K P F]. rewrite app_nil_l in *.
  set (t := negatives wn _) in *. destruct (get_entry k (ti_entries t)) as [b|] eqn:Hb.
  - unfold bit_or. rewrite orb_true_iff, andb_true_iff, negb_true_iff. destruct H as [H|H].
    + left. destruct (P k i H Hn) as (b' & Hb' & Hi). congruence.
    + destruct (ti_negative t i) eqn:Hneg.
      * left. apply (F k i b); auto. apply N; auto.
      * right. split; auto. apply D; auto.
  - destruct H as [H|H]; [|apply D; auto]. destruct (K _ Hb) as [K1 _]. exfalso; eapply K1; eauto.
Qed.

Hypothesis Xrange : forall k i, In (k, i) wn -> (i < n)%nat.
Hypothesis Xeqne : forall k k' i, In (k, i) wp -> In (k', i) wn -> False.
Hypothesis Xone : forall k k' i, In (k, i) wn -> In (k', i) wn -> k = k'.
Hypothesis Xdistinct : forall k i j, In (k, i) wn -> In (k, j) wn -> i = j.

Lemma lookup_exact k i : index_lookup final k i = true ->
  (is_pos wp i k \/ is_def wp n i) /\ ~ In (k, i) wn.
Proof.
  rewrite lookup_final. destruct start_inv as [S0 S1].
  pose proof (neg_inv_fold wp n wn [] _ S0) as [D N K P F].
  pose proof (exact_fold wp n wn Xrange Xeqne Xone Xdistinct wn [] _ (fun x H => H) S0 S1) as HX. rewrite app_nil_l in *.
  set (t := negatives wn _) in *. destruct (get_entry k (ti_entries t)) as [b|] eqn:Hb.
  - unfold bit_or. rewrite orb_true_iff, andb_true_iff, negb_true_iff. intros [H|[H1 H2]].
    + eapply HX; eauto.
    + split; [right; apply D; auto|]. intros Hin. assert (ti_negative t i = true) by (apply N; eauto). congruence.
  - intros H. split; [right; apply D; auto|]. apply (K _ Hb).
Qed.
End OneField.

Lemma walk_in terms ms : forall s v i,
  In (v, i) (walk terms s ms) <-> exists m, (s <= i)%nat /\ nth_error ms (i - s) = Some m /\ In v (terms m).
Proof.
  induction ms as [|m ms IH]; intros s v i; cbn [walk].
  - split; [intros []|]. intros (m & _ & H & _). destruct (i - s)%nat; discriminate.
  - rewrite in_app_iff, in_map_iff, IH. split.
    + intros [(v' & [= -> ->] & Hv)|(m' & Hle & Hn & Hv)].
      * exists m. rewrite Nat.sub_diag. auto.
      * exists m'. split; [lia|]. replace (i - s)%nat with (S (i - S s)) by lia. auto.
    + intros (m' & Hle & Hn & Hv). destruct (Nat.eq_dec i s) as [->|Hi].
      * left. rewrite Nat.sub_diag in Hn. injection Hn as <-. exists v. auto.
      * right. exists m'. split; [lia|]. replace (i - s)%nat with (S (i - S s)) in Hn by lia. auto.
Qed.
Lemma walk0_in terms ms v i :
  In (v, i) (walk terms 0 ms) <-> exists m, nth_error ms i = Some m /\ In v (terms m).
Proof.
  rewrite walk_in. rewrite Nat.sub_0_r. split; intros (m & H); exists m; tauto || (split; [lia|tauto]).
Qed.

(** Terms of a product are its == and != leaves. *)
Lemma index_terms_in f m v : conj_of_literals m -> (In v (index_terms f m) <-> In (Rel f REq v) (leaves m)).
Proof.
  induction m as [[g o w|p]| | |a IHa b IHb|a IHa b IHb|a IHa]; cbn [conj_of_literals index_terms leaves]; intros Hc; try contradiction.
  - destruct o; try (cbn; split; [tauto|intros [H|[]]; discriminate]).
    destruct (Nat.eqb_spec g f) as [->|Hg]; cbn; (split; [try tauto; intros [->|[]]; auto|intros [[=]|[]]; try congruence; auto]).
  - cbn. split; [tauto|intros [H|[]]; discriminate].
  - cbn; tauto.
  - cbn; tauto.
  - rewrite !in_app_iff. destruct Hc. rewrite IHa, IHb by auto. tauto.
  - destruct a as [[|p]| | | | |]; try contradiction. cbn. split; [tauto|intros [H|[]]; discriminate].
Qed.
Lemma index_not_terms_in f m v : conj_of_literals m -> (In v (index_not_terms f m) <-> In (Rel f RNe v) (leaves m)).
Proof.
  induction m as [[g o w|p]| | |a IHa b IHb|a IHa b IHb|a IHa]; cbn [conj_of_literals index_not_terms leaves]; intros Hc; try contradiction.
  - destruct o; try (cbn; split; [tauto|intros [H|[]]; discriminate]).
    destruct (Nat.eqb_spec g f) as [->|Hg]; cbn; (split; [try tauto; intros [->|[]]; auto|intros [[=]|[]]; try congruence; auto]).
  - cbn. split; [tauto|intros [H|[]]; discriminate].
  - cbn; tauto.
  - cbn; tauto.
  - rewrite !in_app_iff. destruct Hc. rewrite IHa, IHb by auto. tauto.
  - destruct a as [[|p]| | | | |]; try contradiction. cbn. split; [tauto|intros [H|[]]; discriminate].
Qed.
Lemma conj_leaves_literals m : conj_of_leaves m -> conj_of_literals m.
Proof. induction m; cbn; try tauto. Qed.

Lemma build_index_superset f ms v i m :
  Forall conj_of_literals ms -> nth_error ms i = Some m ->
  (forall k, In (Rel f REq k) (leaves m) -> k = v) ->
  (forall k, In (Rel f RNe k) (leaves m) -> k <> v) ->
  index_lookup (build_index f ms) v i = true.
Proof.
  intros Hc Hm He Hn. change (build_index f ms) with (final (walk (index_terms f) 0 ms) (walk (index_not_terms f) 0 ms) (length ms)).
  assert (Hcm : conj_of_literals m) by (eapply Forall_forall; eauto using nth_error_In).
  apply lookup_superset.
  - destruct (index_terms f m) as [|k r] eqn:Hk.
    + right. split; [apply nth_error_Some; congruence|]. intros k. rewrite walk0_in. intros (m' & H1 & H2).
      rewrite Hm in H1. injection H1 as <-. rewrite Hk in H2. destruct H2.
    + left. assert (Hin : In k (index_terms f m)) by (rewrite Hk; left; auto).
      unfold is_pos. rewrite walk0_in. exists m. split; auto.
      rewrite <- (He k); auto. apply index_terms_in; auto.
  - rewrite walk0_in. intros (m' & H1 & H2). rewrite Hm in H1. injection H1 as <-.
    rewrite index_not_terms_in in H2 by auto. eapply Hn; eauto.
Qed.

Lemma build_index_exact f ms v i m :
  Forall conj_of_literals ms -> index_clean f ms -> nth_error ms i = Some m ->
  index_lookup (build_index f ms) v i = true ->
  (forall k, In (Rel f REq k) (leaves m) -> k = v) /\
  (forall k, In (Rel f RNe k) (leaves m) -> k <> v).
Proof.
  intros Hc [X1 X2 X3 X4] Hm. change (build_index f ms) with (final (walk (index_terms f) 0 ms) (walk (index_not_terms f) 0 ms) (length ms)).
  assert (HC : forall j m', nth_error ms j = Some m' -> conj_of_literals m').
  { intros. eapply Forall_forall; eauto using nth_error_In. }
  intros HL. apply lookup_exact in HL.
  - destruct HL as [HP HN]. split.
    + intros k Hk. destruct HP as [HP|[_ HP]].
      * unfold is_pos in HP. rewrite walk0_in in HP. destruct HP as (m' & H1 & H2). rewrite Hm in H1. injection H1 as <-.
        rewrite index_terms_in in H2 by eauto. eapply (X1 m); eauto using nth_error_In.
      * exfalso. apply (HP k). rewrite walk0_in. exists m. split; auto. rewrite index_terms_in by eauto. auto.
    + intros k Hk ->. apply HN. rewrite walk0_in. exists m. split; auto. rewrite index_not_terms_in by eauto. auto.
  - intros k j. rewrite walk0_in. intros (m' & H1 & _). apply nth_error_Some. congruence.
  - intros k k' j. rewrite !walk0_in. intros (m1 & H1 & H2) (m2 & H3 & H4). rewrite H1 in H3. injection H3 as <-.
    rewrite index_terms_in in H2 by eauto. rewrite index_not_terms_in in H4 by eauto.
    eapply X2; eauto using nth_error_In.
  - intros k k' j. rewrite !walk0_in. intros (m1 & H1 & H2) (m2 & H3 & H4). rewrite H1 in H3. injection H3 as <-.
    rewrite index_not_terms_in in H2 by eauto. rewrite index_not_terms_in in H4 by eauto.
    eapply X3; eauto using nth_error_In.
  - intros k j j'. rewrite !walk0_in. intros (m1 & H1 & H2) (m2 & H3 & H4).
    rewrite index_not_terms_in in H2 by eauto. rewrite index_not_terms_in in H4 by eauto. eauto.
Qed.

(** ** The handler *)
Section Handler.
Context {E : Type}.
Variable ftype : nat -> cty.
Variable fld : nat -> E -> Z.
Variable psem : nat -> E -> bool.
Notation sem := (leaf_sem fld psem).
Notation eval := (eval sem).
Notation cb := (callback leaf).

Lemma leaf_true m : conj_of_literals m -> forall e, eval m e = true ->
  forall f o v, In (Rel f o v) (leaves m) -> relb o (fld f e) v = true.
Proof.
  induction m as [l| | |a IHa b IHb|a IHa b IHb|a IHa]; cbn [conj_of_literals MatchSpec.eval leaves]; intros Hc e He f o v Hin; try contradiction.
  - destruct Hin as [->|[]]. exact He.
  - rewrite andb_true_iff in He. rewrite in_app_iff in Hin. destruct Hc, He, Hin; eauto.
  - destruct a as [[|p]| | | | |]; try contradiction. destruct Hin as [|[]]; discriminate.
Qed.

(** Every callback that should run is a candidate. *)
Lemma candidates_complete fs cbs e i c :
  fs <> [] -> Forall (fun c => conj_of_literals (cb_matcher c)) cbs ->
  nth_error cbs i = Some c -> eval (cb_matcher c) e = true ->
  candidates fld fs cbs e i = true.
Proof.
  intros Hfs Hc Hi He. unfold candidates. destruct fs as [|f0 fs']; [congruence|].
  apply forallb_forall. intros f _.
  assert (Hcm : conj_of_literals (cb_matcher c)) by (eapply (proj1 (Forall_forall _ _) Hc c); eauto using nth_error_In).
  pose proof (leaf_true _ Hcm e He) as HL.
  eapply build_index_superset with (m := cb_matcher c).
  - apply Forall_map. exact Hc.
  - rewrite nth_error_map, Hi. reflexivity.
  - intros k Hk. apply HL in Hk. cbn in Hk. lia.
  - intros k Hk. apply HL in Hk. cbn in Hk. lia.
Qed.

(** [G]: expressions on which the library's [and] keeps the meaning. *)
Variable G : fexpr -> Prop.
Hypothesis G_always : G Always.
Hypothesis G_never : G Never.
Hypothesis G_and : forall a b, G a -> G b -> G (fand ftype a b) /\ forall e, eval (fand ftype a b) e = eval a e && eval b e.

Lemma existsb_in f fs : existsb (Nat.eqb f) fs = true <-> In f fs.
Proof.
  rewrite existsb_exists. split; [intros (x & Hx & H); apply Nat.eqb_eq in H; subst; auto|].
  intros H. exists f. rewrite Nat.eqb_refl. auto.
Qed.

Lemma remove_spec fs m : conj_of_leaves m -> (forall l, In l (leaves m) -> kept fs l -> G (Leaf l)) ->
  G (remove_terms ftype fs m) /\
  forall e, eval m e = true <->
    (forall f v, In f fs -> In (Rel f REq v) (leaves m) -> v = fld f e) /\
    (forall f v, In f fs -> In (Rel f RNe v) (leaves m) -> v <> fld f e) /\
    eval (remove_terms ftype fs m) e = true.
Proof.
  induction m as [l| | |a IHa b IHb|a IHa b IHb|a IHa]; intros Hc HG; cbn [conj_of_leaves] in Hc; try contradiction.
  - assert (Hkept : kept fs l -> remove_terms ftype fs (Leaf l) = Leaf l).
    { destruct l as [f o v|p]; cbn; auto. destruct o; cbn; auto; intros Hn;
      (destruct (existsb (Nat.eqb f) fs) eqn:H; auto; apply existsb_in in H; contradiction). }
    assert (Hd : kept fs l \/ exists f v, In f fs /\ (l = Rel f REq v \/ l = Rel f RNe v)).
    { destruct l as [f o v|p]; [|left; exact I].
      destruct (in_dec Nat.eq_dec f fs) as [H|H]; [|left; destruct o; cbn; auto].
      destruct o; try (left; exact I); right; exists f, v; auto. }
    destruct Hd as [Hk|(f & v & Hf & Hl)].
    + rewrite Hkept by auto. split; [apply HG; [left; auto|auto]|].
      intros e. split; [|tauto]. intros He. split; [|split; auto].
      * intros f v _ [->|[]]. cbn in He. lia.
      * intros f v _ [->|[]]. cbn in He. lia.
    + assert (Hx : existsb (Nat.eqb f) fs = true) by (apply existsb_in; auto).
      destruct Hl as [-> | ->]; cbn [remove_terms leaves]; rewrite Hx; split; auto; intros e; cbn [MatchSpec.eval leaf_sem relb]; split.
      * intros He. repeat split; auto; intros f' v' _ [[=]|[]]; subst; lia.
      * intros (H & _). specialize (H f v Hf (or_introl eq_refl)). lia.
      * intros He. repeat split; auto; intros f' v' _ [[=]|[]]; subst; lia.
      * intros (_ & H & _). specialize (H f v Hf (or_introl eq_refl)). lia.
  - cbn. split; auto. intros e. split; auto. intros _. repeat split; auto; intros; contradiction.
  - cbn. split; auto. intros e. split; [discriminate|tauto].
  - destruct Hc as [Ha Hb]. destruct IHa as [Ga Ea]; auto.
    { intros l Hl. apply HG. cbn. rewrite in_app_iff. auto. }
    destruct IHb as [Gb Eb]; auto.
    { intros l Hl. apply HG. cbn. rewrite in_app_iff. auto. }
    cbn [remove_terms leaves]. destruct (G_and _ _ Ga Gb) as [H1 H2]. split; auto.
    intros e. rewrite H2. cbn [MatchSpec.eval]. rewrite !andb_true_iff, Ea, Eb. split.
    + intros ((A1 & A2 & A3) & B1 & B2 & B3). split; [|split; auto]; intros f v Hf; rewrite in_app_iff; intros [?|?]; eauto.
    + intros (H3 & H4 & H5 & H6). repeat split; auto; intros f v Hf Hin; (apply H3 || apply H4); auto; rewrite in_app_iff; auto.
Qed.

Definition kept_good (fs : list nat) (cbs : list cb) : Prop :=
  forall c l, In c cbs -> In l (leaves (cb_matcher c)) -> kept fs l -> G (Leaf l).

(** A callback runs iff its term holds. *)
Lemma candidate_exact fs cbs e i c :
  fs <> [] -> Forall (fun c => conj_of_leaves (cb_matcher c)) cbs -> kept_good fs cbs ->
  (forall f, In f fs -> index_clean f (map cb_matcher cbs)) ->
  nth_error cbs i = Some c ->
  (candidates fld fs cbs e i = true /\ eval (remove_terms ftype fs (cb_matcher c)) e = true <-> eval (cb_matcher c) e = true).
Proof.
  intros Hfs Hc HG HX Hi.
  assert (Hlit : Forall (fun c => conj_of_literals (cb_matcher c)) cbs).
  { eapply Forall_impl; [|exact Hc]. intros; apply conj_leaves_literals; auto. }
  assert (Hin : In c cbs) by eauto using nth_error_In.
  assert (Hcm : conj_of_leaves (cb_matcher c)) by (eapply (proj1 (Forall_forall _ _) Hc c); eauto).
  destruct (remove_spec fs (cb_matcher c) Hcm (fun l => HG c l Hin)) as [_ HR].
  split.
  - intros [Hcand Hev]. apply HR.
    unfold candidates in Hcand. destruct fs as [|f0 fs']; [congruence|]. rewrite forallb_forall in Hcand.
    assert (HB : forall f, In f (f0 :: fs') ->
      (forall k, In (Rel f REq k) (leaves (cb_matcher c)) -> k = fld f e) /\
      (forall k, In (Rel f RNe k) (leaves (cb_matcher c)) -> k <> fld f e)).
    { intros f Hf. apply (build_index_exact f (map cb_matcher cbs) (fld f e) i); auto.
      - apply Forall_map. exact Hlit.
      - rewrite nth_error_map, Hi. reflexivity. }
    split; [|split; auto]; intros f v Hf Hl; destruct (HB f Hf); eauto.
  - intros He. split; [eapply candidates_complete; eauto|]. apply HR. auto.
Qed.

Lemma invoke_from_spec fs cand e : forall cbs i acc,
  let r := invoke_from ftype fld psem fs cand i cbs e acc in
  let sel := fun ic : nat * cb => cand (fst ic) && eval (remove_terms ftype fs (cb_matcher (snd ic))) e in
  ran (fst r) = map (fun ic => cb_id (snd ic)) (filter sel (combine (seq i (length cbs)) cbs)) /\
  errors (fst r) = 0%nat /\
  snd r = acc || existsb sel (combine (seq i (length cbs)) cbs).
Proof.
  induction cbs as [|c r IH]; intros i acc; cbn zeta; cbn [invoke_from length seq combine filter existsb].
  - rewrite orb_false_r. auto.
  - cbn [fst snd]. destruct (cand i) eqn:Hc; cbn [andb].
    + unfold invoke_callback, cb_handle, cb_is_match. cbn [cb_matcher cb_id].
      destruct (eval (remove_terms ftype fs (cb_matcher c)) e) eqn:He.
      * specialize (IH (S i) (acc || true)). cbn zeta in IH. destruct (invoke_from _ _ _ _ _ _ r _ _) as [evs res].
        cbn [fst snd app] in *. destruct IH as (H1 & H2 & H3). cbn. rewrite <- H1. split; [reflexivity|]. split; [exact H2|].
        rewrite H3, orb_true_r. reflexivity.
      * specialize (IH (S i) (acc || false)). cbn zeta in IH. destruct (invoke_from _ _ _ _ _ _ r _ _) as [evs res].
        cbn [fst snd app] in *. destruct IH as (H1 & H2 & H3). rewrite <- H1. split; [reflexivity|]. split; [exact H2|].
        rewrite H3, orb_false_r. reflexivity.
    + apply IH.
Qed.

Lemma filter_combine_seq (p : nat * cb -> bool) (q : cb -> bool) cbs : forall s,
  (forall i c, nth_error cbs i = Some c -> p ((s + i)%nat, c) = q c) ->
  map (fun ic => cb_id (snd ic)) (filter p (combine (seq s (length cbs)) cbs)) = map cb_id (filter q cbs) /\
  existsb p (combine (seq s (length cbs)) cbs) = existsb q cbs.
Proof.
  induction cbs as [|c r IH]; intros s H; cbn; auto.
  pose proof (H 0%nat c eq_refl) as H0. rewrite Nat.add_0_r in H0. rewrite H0.
  destruct (IH (S s)) as [IH1 IH2].
  { intros i c' Hi. rewrite <- (H (S i) c' Hi). f_equal. f_equal. lia. }
  rewrite IH2. split; auto. destruct (q c); cbn; rewrite IH1; auto.
Qed.

Lemma indexed_handle_exact fs cbs e :
  fs <> [] -> Forall (fun c => conj_of_leaves (cb_matcher c)) cbs -> kept_good fs cbs ->
  (forall f, In f fs -> index_clean f (map cb_matcher cbs)) ->
  let r := indexed_handle ftype fld psem fs cbs e in
  ran (fst r) = map cb_id (filter (fun c => eval (cb_matcher c) e) cbs) /\
  snd r = existsb (fun c => eval (cb_matcher c) e) cbs /\
  errors (fst r) = (if snd r then 0 else 1)%nat.
Proof.
  intros Hfs Hc HG HX. cbn zeta. unfold indexed_handle.
  destruct (invoke_from_spec fs (candidates fld fs cbs e) e cbs 0 false) as (H1 & H2 & H3).
  destruct (invoke_from _ _ _ _ _ _ _ _ _) as [evs res]. cbn [fst snd] in *.
  destruct (filter_combine_seq
    (fun ic : nat * cb => candidates fld fs cbs e (fst ic) && eval (remove_terms ftype fs (cb_matcher (snd ic))) e)
    (fun c => eval (cb_matcher c) e) cbs 0) as [K1 K2].
  { intros i c Hi. cbn [fst snd Nat.add]. apply eq_true_iff_eq. rewrite andb_true_iff. eapply candidate_exact; eauto. }
  rewrite K1 in H1. rewrite K2 in H3. cbn in H3.
  destruct res; cbn [fst snd]; rewrite ?ran_app, ?errors_app, ?H1, ?H2; cbn; rewrite ?app_nil_r; auto.
Qed.
End Handler.

(** Unconditional facts. *)
Section Always.
Context {E : Type}.
Variable ftype : nat -> cty.
Variable fld : nat -> E -> Z.
Variable psem : nat -> E -> bool.

Lemma handled_is_match fs cbs e :
  snd (indexed_handle ftype fld psem fs cbs e) = true -> indexed_is_match fld fs cbs e = true.
Proof.
  unfold indexed_handle, indexed_is_match.
  destruct (invoke_from_spec ftype fld psem fs (candidates fld fs cbs e) e cbs 0 false) as (_ & _ & H3).
  destruct (invoke_from _ _ _ _ _ _ _ _ _) as [evs res]. cbn [fst snd orb] in *.
  destruct res; cbn; [|discriminate]. intros _. symmetry in H3. rewrite existsb_exists in H3.
  destruct H3 as ([i c] & Hin & H). cbn in H. rewrite andb_true_iff in H.
  apply existsb_exists. exists i. split; [|tauto]. eapply in_combine_l; eauto.
Qed.

Lemma is_match_complete fs cbs e c :
  fs <> [] -> Forall (fun c => conj_of_literals (cb_matcher c)) cbs ->
  In c cbs -> eval (leaf_sem fld psem) (cb_matcher c) e = true ->
  indexed_is_match fld fs cbs e = true.
Proof.
  intros Hfs Hc Hin He. apply In_nth_error in Hin. destruct Hin as [i Hi].
  apply existsb_exists. exists i. split; [|eapply candidates_complete; eauto].
  apply in_seq. assert (i < length cbs)%nat by (apply nth_error_Some; congruence). lia.
Qed.
End Always.

(** ** From declared callbacks to product terms *)
Section Split.
Context {E : Type}.
Variable ftype : nat -> cty.
Variable fld : nat -> E -> Z.
Variable psem : nat -> E -> bool.
Hypothesis Hty : forall f, cty_ok (ftype f).
Hypothesis Hfld : forall f e, in_range (ftype f) (fld f e).
Notation sem := (leaf_sem fld psem).
Notation eval := (eval sem).
Notation cb := (callback leaf).
Notation terms := (separate_sum_terms leaf_eqb (leaf_implies ftype) leaf_neg).
Notation Upos := (Upos ftype).
Notation Uone := (Uone ftype).

Lemma positive_no_double m : positive Upos m -> no_double_neg m.
Proof. induction m; cbn; try tauto. Qed.
Lemma positive_distr l r : positive Upos l -> positive Upos r -> positive Upos (distr l r).
Proof. intros Hl. induction r; cbn; intros; tauto. Qed.
Lemma positive_dist l r : positive Upos l -> positive Upos r -> positive Upos (dist l r).
Proof. intros Hl Hr. induction l; cbn in *; try (apply positive_distr; cbn; tauto). tauto. Qed.
Lemma positive_sop m : positive Upos m -> positive Upos (fsop m).
Proof.
  unfold fsop, sum_of_products. induction m; cbn; try tauto.
  intros [H1 H2]. apply positive_dist; auto.
Qed.
Lemma positive_product m : positive Upos m -> is_product m -> conj_of_leaves m.
Proof.
  induction m as [l| | |a IHa b IHb|a IHa b IHb|a IHa]; cbn; try tauto.
Qed.
Lemma split_positive m id t : positive Upos m -> is_sum_of_products m -> In t (split_terms m id) ->
  conj_of_leaves (cb_matcher t) /\ positive Upos (cb_matcher t).
Proof.
  induction m as [l| | |a IHa b IHb|a IHa b IHb|a IHa]; cbn [split_terms]; intros Hp Hs Hin;
  try (destruct Hin as [<-|[]]; cbn [cb_matcher]; split; auto; apply positive_product; auto; fail).
  rewrite in_app_iff in Hin. cbn in Hp, Hs. destruct Hp, Hs, Hin; auto.
Qed.

Lemma terms_positive c : positive Upos (cb_matcher c) ->
  (forall t, In t (terms c) -> conj_of_leaves (cb_matcher t) /\ positive Upos (cb_matcher t)) /\
  forall e, existsb (fun t => eval (cb_matcher t) e) (terms c) = eval (cb_matcher c) e.
Proof.
  intros Hp. destruct (positive_all ftype fld psem Hty Hfld [cb_matcher c]) as [H1 H2]; [constructor; auto|].
  pose proof (positive_sop _ H1) as H3. unfold separate_sum_terms. split.
  - intros t Ht. eapply split_positive; eauto. apply (dnf_shape leaf_eqb (leaf_implies ftype)). apply positive_no_double; auto.
  - intros e. rewrite split_terms_eval, (sop_eval sem leaf_neg (leaf_neg_sound fld psem)).
    unfold fall in H2. rewrite H2. cbn. apply andb_true_r.
Qed.

Lemma positive_leaf m l : positive Upos m -> In l (leaves m) -> Upos l.
Proof.
  induction m as [x| | |a IHa b IHb|a IHa b IHb|a IHa]; cbn; try tauto.
  - intros H [<-|[]]; auto.
  - rewrite in_app_iff. tauto.
  - rewrite in_app_iff. tauto.
Qed.

(** How often a callback's terms hold. *)
Definition hits (c : cb) (e : E) : nat := length (filter (fun t => eval (cb_matcher t) e) (terms c)).

Lemma hits_map c e : map cb_id (filter (fun t => eval (cb_matcher t) e) (terms c)) = repeat (cb_id c) (hits c e).
Proof.
  unfold hits.
  assert (H : forall t, In t (filter (fun t => eval (cb_matcher t) e) (terms c)) -> cb_id t = cb_id c).
  { intros t Ht. apply filter_In in Ht. destruct Ht as [Ht _]. eapply split_terms_id; exact Ht. }
  induction (filter _ _) as [|t r IH]; cbn; auto. rewrite H by (left; auto). f_equal. apply IH.
  intros t' Ht'. apply H. right; auto.
Qed.
Lemma hits_all orig e :
  map cb_id (filter (fun t => eval (cb_matcher t) e) (indexed_add ftype [] orig))
  = flat_map (fun c => repeat (cb_id c) (hits c e)) orig.
Proof.
  unfold indexed_add. cbn [app]. induction orig as [|c r IH]; cbn [flat_map]; auto.
  rewrite filter_app, map_app, IH, hits_map. reflexivity.
Qed.
Lemma hits_zero c e : (hits c e = 0)%nat <-> existsb (fun t => eval (cb_matcher t) e) (terms c) = false.
Proof.
  unfold hits. induction (terms c) as [|t r IH]; cbn; [tauto|]. destruct (eval (cb_matcher t) e); cbn; auto.
  split; discriminate.
Qed.
Lemma hits_single c e : length (terms c) = 1%nat ->
  hits c e = if existsb (fun t => eval (cb_matcher t) e) (terms c) then 1%nat else 0%nat.
Proof.
  unfold hits. destruct (terms c) as [|t [|? ?]]; cbn; try discriminate. intros _.
  destruct (eval (cb_matcher t) e); reflexivity.
Qed.
Lemma built_exists orig e :
  (forall c, In c orig -> existsb (fun t => eval (cb_matcher t) e) (terms c) = eval (cb_matcher c) e) ->
  existsb (fun t => eval (cb_matcher t) e) (indexed_add ftype [] orig) = existsb (fun c => eval (cb_matcher c) e) orig.
Proof.
  unfold indexed_add; cbn [app]. induction orig as [|c r IH]; cbn [flat_map existsb]; auto. intros H.
  rewrite existsb_app, (H c) by (left; auto). f_equal. apply IH. intros; apply H; right; auto.
Qed.
Lemma single_same orig e :
  (forall c, In c orig -> existsb (fun t => eval (cb_matcher t) e) (terms c) = eval (cb_matcher c) e) ->
  (forall c, In c orig -> length (terms c) = 1%nat) ->
  flat_map (fun c => repeat (cb_id c) (hits c e)) orig = map cb_id (filter (fun c => eval (cb_matcher c) e) orig).
Proof.
  induction orig as [|c r IH]; intros H1 H2; [reflexivity|]. cbn [flat_map filter].
  rewrite hits_single, H1 by (auto with datatypes).
  rewrite IH by (intros; auto with datatypes). destruct (eval (cb_matcher c) e); reflexivity.
Qed.

(** Negation-free matchers without !=. *)
Lemma indexed_positive fs orig e :
  fs <> [] ->
  (forall c, In c orig -> positive Upos (cb_matcher c)) ->
  (forall c t f v w, In c orig -> In t (terms c) -> In f fs ->
     In (Rel f REq v) (leaves (cb_matcher t)) -> In (Rel f REq w) (leaves (cb_matcher t)) -> v = w) ->
  let r := indexed_handle ftype fld psem fs (indexed_add ftype [] orig) e in
  ran (fst r) = flat_map (fun c => repeat (cb_id c) (hits c e)) orig /\
  (forall c, In c orig -> (hits c e = 0)%nat <-> eval (cb_matcher c) e = false) /\
  snd r = snd (handle sem orig e) /\ errors (fst r) = errors (fst (handle sem orig e)) /\
  ((forall c, In c orig -> length (terms c) = 1%nat) -> ran (fst r) = ran (fst (handle sem orig e))).
Proof.
  intros Hfs Hp Ho. cbn zeta.
  assert (HT : forall t, In t (indexed_add ftype [] orig) -> conj_of_leaves (cb_matcher t) /\ positive Upos (cb_matcher t)).
  { unfold indexed_add; cbn [app]. intros t Ht. apply in_flat_map in Ht. destruct Ht as (c & Hc & Ht).
    apply (terms_positive c); auto. }
  destruct (indexed_handle_exact ftype fld psem (positive Upos) I I) with (fs := fs) (cbs := indexed_add ftype [] orig) (e := e)
    as (H1 & H2 & H3); auto.
  - intros a b. apply (positive_and ftype fld psem Hty Hfld).
  - apply Forall_forall. intros t Ht. apply HT; auto.
  - intros t l Ht Hl _. eapply positive_leaf; [|eauto]. apply HT; auto.
  - intros f Hf. split.
    + intros m v w Hm Hv Hw. apply in_map_iff in Hm. destruct Hm as (t & <- & Ht).
      unfold indexed_add in Ht; cbn [app] in Ht. apply in_flat_map in Ht. destruct Ht as (c & Hc & Ht). eauto.
    + intros m v w Hm _ Hw. apply in_map_iff in Hm. destruct Hm as (t & <- & Ht).
      destruct (positive_leaf _ _ (proj2 (HT t Ht)) Hw) as [_ []].
    + intros m v w Hm _ Hw. apply in_map_iff in Hm. destruct Hm as (t & <- & Ht).
      destruct (positive_leaf _ _ (proj2 (HT t Ht)) Hw) as [_ []].
    + intros i j m m' v Hi Hj Hv Hw. apply nth_error_In, in_map_iff in Hi. destruct Hi as (t & <- & Ht).
      destruct (positive_leaf _ _ (proj2 (HT t Ht)) Hv) as [_ []].
  - assert (HE : forall c, In c orig -> existsb (fun t => eval (cb_matcher t) e) (terms c) = eval (cb_matcher c) e).
    { intros c Hc. apply terms_positive; auto. }
    destruct (handle_spec sem orig e) as (K1 & K2 & K3 & _).
    rewrite H1, hits_all. rewrite H3, H2, K1, K2, K3, built_exists by auto.
    split; [reflexivity|]. split; [intros c Hc; rewrite hits_zero, HE by auto; tauto|].
    split; [reflexivity|]. split; [reflexivity|]. intros Hs. apply single_same; auto.
Qed.

(** Any matchers whose product terms are negation-free and clean. *)
Lemma indexed_general c0 fs orig e :
  fs <> [] ->
  (forall c, In c orig -> all_leaves (Uone c0) (cb_matcher c)) ->
  (forall c t, In c orig -> In t (terms c) -> conj_of_leaves (cb_matcher t)) ->
  (forall f, In f fs -> index_clean f (map cb_matcher (indexed_add ftype [] orig))) ->
  let r := indexed_handle ftype fld psem fs (indexed_add ftype [] orig) e in
  ran (fst r) = flat_map (fun c => repeat (cb_id c) (hits c e)) orig /\
  (forall c, In c orig -> (hits c e = 0)%nat <-> eval (cb_matcher c) e = false) /\
  snd r = snd (handle sem orig e) /\ errors (fst r) = errors (fst (handle sem orig e)) /\
  ((forall c, In c orig -> length (terms c) = 1%nat) -> ran (fst r) = ran (fst (handle sem orig e))).
Proof.
  intros Hfs Hp Hc HX. cbn zeta.
  pose proof (truthful_one ftype fld psem Hty Hfld c0) as T.
  assert (HTU : forall t, In t (indexed_add ftype [] orig) -> all_leaves (Uone c0) (cb_matcher t)).
  { unfold indexed_add; cbn [app]. intros t Ht. apply in_flat_map in Ht. destruct Ht as (c & Hcin & Ht).
    unfold separate_sum_terms in Ht.
    assert (HS : all_leaves (Uone c0) (sum_of_products leaf leaf_neg (match_all leaf leaf_eqb (leaf_implies ftype) leaf_neg [cb_matcher c]))).
    { eapply sop_leaves; [exact T|]. eapply match_all_leaves; [exact T|]. constructor; auto. }
    revert HS Ht. generalize (sum_of_products leaf leaf_neg (match_all leaf leaf_eqb (leaf_implies ftype) leaf_neg [cb_matcher c])).
    clear. intros m. induction m; cbn [split_terms]; intros HS Ht; try (destruct Ht as [<-|[]]; exact HS).
    rewrite in_app_iff in Ht. cbn in HS. destruct HS, Ht; auto. }
  assert (HTC : forall t, In t (indexed_add ftype [] orig) -> conj_of_leaves (cb_matcher t)).
  { unfold indexed_add; cbn [app]. intros t Ht. apply in_flat_map in Ht. destruct Ht as (c & Hcin & Ht). eauto. }
  destruct (indexed_handle_exact ftype fld psem (all_leaves (Uone c0)) I I) with (fs := fs) (cbs := indexed_add ftype [] orig) (e := e)
    as (H1 & H2 & H3); auto.
  - intros a b Ha Hb. split; [eapply op_and_leaves; eauto|]. eapply op_and_sound; eauto.
  - apply Forall_forall. auto.
  - intros t l Ht Hl _. specialize (HTU t Ht). revert HTU Hl. clear. induction (cb_matcher t) as [x| | |a IHa b IHb|a IHa b IHb|a IHa]; cbn; try tauto.
    + intros H [<-|[]]; auto.
    + rewrite in_app_iff. tauto.
    + rewrite in_app_iff. tauto.
  - assert (HE : forall c, In c orig -> existsb (fun t => eval (cb_matcher t) e) (terms c) = eval (cb_matcher c) e).
    { intros c Hcin. eapply separate_eval; eauto. }
    destruct (handle_spec sem orig e) as (K1 & K2 & K3 & _).
    rewrite H1, hits_all. rewrite H3, H2, K1, K2, K3, built_exists by auto.
    split; [reflexivity|]. split; [intros c Hcin; rewrite hits_zero, HE by auto; tauto|].
    split; [reflexivity|]. split; [reflexivity|]. intros Hs. apply single_same; auto.
Qed.
End Split.

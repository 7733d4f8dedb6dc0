(** Lemmas on the tables of an indexed service. *)
From Coq Require Import List Bool Arith ZArith NArith Lia ZifyBool ZifyN ZifyNat Permutation.
From Verif Require Import MatchModel MatchSpec FieldMatchersModel FieldMatchersSpec HandlerModel HandlerSpec IndexedProofs BakedModel BakedSpec.
From Verif Require FieldModel LookupModel LookupSpec LookupProofs3 LookupProofs4 LookupProps.
Import ListNotations.
Local Open Scope Z_scope.

(** ** Selection *)
Lemma to_u32_range v : 0 <= to_u32 v < 2 ^ 32.
Proof. apply Z.mod_pos_bound. lia. Qed.
Lemma pow_le a b : 0 <= a <= b -> 2 ^ a <= 2 ^ b.
Proof. intros. apply Z.pow_le_mono_r; lia. Qed.
Lemma half w : 1 <= w -> 2 ^ w = 2 * 2 ^ (w - 1).
Proof. intros. rewrite <- Z.pow_succ_r by lia. f_equal. lia. Qed.
Lemma mod_inj_range m a b : 0 < m -> - m < a - b < m -> a mod m = b mod m -> a = b.
Proof.
  intros Hm H E. assert (D : (a - b) mod m = 0) by (rewrite Zminus_mod, E, Z.sub_diag; apply Z.mod_0_l; lia).
  apply Z.mod_divide in D; [|lia]. destruct D as [q D]. assert (q = 0) by nia. subst. lia.
Qed.
Lemma in_range_width t a b : field_type t -> in_range t a -> in_range t b -> - 2 ^ Z.of_N (width_of t) < a - b < 2 ^ Z.of_N (width_of t).
Proof.
  unfold field_type, in_range, width_of, cmin, cmax. destruct t as [w s| |w s].
  - intros Hw. rewrite Z2N.id by lia. rewrite (half w) by lia. assert (0 < 2 ^ (w - 1)) by (apply Z.pow_pos_nonneg; lia). destruct s; lia.
  - intros _. change (2 ^ Z.of_N 8) with 256. lia.
  - intros Hw. rewrite Z2N.id by lia. rewrite (half w) by lia. assert (0 < 2 ^ (w - 1)) by (apply Z.pow_pos_nonneg; lia). destruct s; lia.
Qed.
Lemma to_u32_inj t a b : field_type t -> (width_of t <= 32)%N -> in_range t a -> in_range t b -> to_u32 a = to_u32 b -> a = b.
Proof.
  intros Ht Hw Ha Hb. apply mod_inj_range; [lia|]. pose proof (in_range_width t a b Ht Ha Hb).
  pose proof (pow_le (Z.of_N (width_of t)) 32). lia.
Qed.
Lemma arc_select_right {A} t a b (x y : A) : field_type t -> (width_of t <= 32)%N -> in_range t a -> in_range t b ->
  arc_select a b x y = fallback_select a b x y.
Proof.
  intros Ht Hw Ha Hb. unfold arc_select, fallback_select, mov, cmp; cbn [zero]. unfold to_u32 at 1.
  pose proof (to_u32_range a). pose proof (to_u32_range b).
  destruct (Z.eqb_spec a b) as [->|N]; [rewrite Z.sub_diag; reflexivity|].
  destruct (Z.eqb_spec ((to_u32 a - to_u32 b) mod 2 ^ 32) 0) as [E|]; auto.
  exfalso. apply N. apply (to_u32_inj t); auto. apply Z.mod_divide in E; [|lia]. destruct E as [q E]. assert (q = 0) by nia. subst. lia.
Qed.
Definition bytes_of (t : cty) : Z := Z.of_N (width_of t) / 8.
Lemma bytes_4 t : field_type t -> (bytes_of t <=? 4) = true -> (width_of t <= 32)%N.
Proof.
  unfold bytes_of, field_type, width_of. destruct t as [w s| |w s]; intros H; try lia;
    destruct H as [-> | [-> | [-> | ->]]]; cbn; lia.
Qed.
Lemma select_right {A} arc ce t vb a b (x y : A) : field_type t -> in_range t a -> in_range t b ->
  select arc ce (bytes_of t) vb a b x y = if a =? b then x else y.
Proof.
  intros Ht Ha Hb. unfold select, optimized. destruct ce; auto. destruct arc; cbn [andb]; auto.
  destruct (vb <=? 4); cbn [andb]; auto. destruct (bytes_of t <=? 4) eqn:E; auto.
  apply (arc_select_right t); auto using bytes_4.
Qed.
Lemma select_lt_right {A} arc ce t vb a b (x y : A) : field_type t -> in_range t a -> in_range t b -> 
  (0 <= a <-> 0 <= b) -> select_lt arc ce (bytes_of t) vb a b x y = if a <? b then x else y.
Proof.
  intros Ht Ha Hb Hs. unfold select_lt, optimized. destruct ce; auto. destruct arc; cbn [andb]; auto.
  destruct (vb <=? 4); cbn [andb]; auto. destruct (bytes_of t <=? 4) eqn:E; auto.
  pose proof (bytes_4 t Ht E) as W. pose proof (in_range_width t a b Ht Ha Hb) as D. pose proof (pow_le (Z.of_N (width_of t)) 32) as P.
  unfold arc_select_lt, mov, cmp; cbn [carry].
  assert (R : - 2 ^ 32 <= a < 2 ^ 32 /\ - 2 ^ 32 <= b < 2 ^ 32).
  { clear - Ht Ha Hb W. unfold field_type, in_range, cmin, cmax, width_of in *. destruct t as [w s| |w s]; [|lia|];
      destruct Ht as [-> | [-> | [-> | ->]]]; destruct s; cbn in *; lia. }
  unfold to_u32. destruct (Z_le_dec 0 a).
  - rewrite !Z.mod_small by lia. reflexivity.
  - rewrite <- (Z_mod_plus_full a 1), <- (Z_mod_plus_full b 1), !Z.mod_small by lia.
    destruct (Z.ltb_spec (a + 1 * 2 ^ 32) (b + 1 * 2 ^ 32)), (Z.ltb_spec a b); auto; lia.
Qed.
Lemma linear_spec {A} arc ce t vb (es : list (Z * A)) d k : field_type t -> in_range t k -> Forall (fun kv => in_range t (fst kv)) es ->
  NoDup (map fst es) -> value_of d es k (linear_lookup arc ce (bytes_of t) vb d es k).
Proof.
  intros Ht Hk. unfold linear_lookup. revert d. induction es as [|[k1 v1] es IH]; intros d Hf Hn; cbn [fold_left fst snd].
  - right. cbn. auto.
  - inversion Hf; subst. cbn [map fst] in Hn. inversion Hn; subst. rewrite (select_right _ _ t) by auto.
    specialize (IH (if k =? k1 then v1 else d)). destruct IH as [I|[I J]]; auto.
    + left. right. exact I.
    + destruct (Z.eqb_spec k k1) as [->|N]; rewrite J.
      * left. left. reflexivity.
      * right. split; auto. cbn. intros [->|Q]; auto.
Qed.

(** ** The keys of an index *)
Notation keys t := (map fst (ti_entries t)).
Lemma get_none k (es : list (Z * bits)) : get_entry k es = None <-> ~ In k (map fst es).
Proof.
  induction es as [|[k1 v1] es IH]; cbn; [tauto|]. destruct (Z.eqb_spec k1 k) as [->|N].
  - split; [discriminate|]. tauto.
  - rewrite IH. tauto.
Qed.
Lemma get_some k (es : list (Z * bits)) b : NoDup (map fst es) -> (get_entry k es = Some b <-> In (k, b) es).
Proof.
  induction es as [|[k1 v1] es IH]; cbn; intros Hn; [split; [discriminate|tauto]|]. inversion Hn; subst.
  destruct (Z.eqb_spec k1 k) as [->|N].
  - split; [intros [= ->]; auto|]. intros [[= ->]|H]; auto. exfalso. apply H1. apply (in_map fst) in H. exact H.
  - rewrite IH by auto. split; auto. intros [[= -> ->]|H]; auto. congruence.
Qed.
Lemma keys_ensure k es : NoDup (map fst es) -> NoDup (map fst (ensure k es)) /\ forall x, In x (map fst (ensure k es)) <-> x = k \/ In x (map fst es).
Proof.
  intros Hn. unfold ensure. destruct (get_entry k es) eqn:G.
  - split; auto. intros x. split; auto. intros [->|H]; auto. destruct (in_dec Z.eq_dec k (map fst es)); auto. apply get_none in n. congruence.
  - apply get_none in G. rewrite map_app. cbn [map fst]. split.
    + apply NoDup_Add with (a := k) (l := map fst es); [|auto]. rewrite <- (app_nil_r (map fst es)) at 1. apply Add_app.
    + intros x. rewrite in_app_iff. cbn. intuition.
Qed.
Lemma keys_update k f es : map fst (update k f es) = map fst es.
Proof. unfold update. rewrite map_map. apply map_ext. intros [a b]. cbn. destruct (a =? k); auto. Qed.
Lemma keys_positive t k i : keys (add_positive t k i) = map fst (ensure k (ti_entries t)).
Proof. cbn. apply keys_update. Qed.
Lemma keys_negative t k i : keys (add_negative t k i) = map fst (ensure k (ti_entries t)).
Proof. cbn. rewrite map_map. apply map_ext. intros [a b]. cbn. destruct (a =? k); auto. Qed.
Lemma keys_fold (step : temp_index -> Z -> nat -> temp_index) : (forall t k i, keys (step t k i) = map fst (ensure k (ti_entries t))) ->
  forall w t, NoDup (keys t) -> let t' := fold_left (fun t vi => step t (fst vi) (snd vi)) w t in
  NoDup (keys t') /\ forall x, In x (keys t') <-> In x (map fst w) \/ In x (keys t).
Proof.
  intros Hs w. induction w as [|[k i] w IH]; intros t Hn; cbn [fold_left map fst snd].
  - split; auto. intros x. cbn. tauto.
  - destruct (keys_ensure k (ti_entries t) Hn) as [H1 H2]. destruct (IH (step t k i)) as [H3 H4]; [rewrite Hs; auto|].
    split; auto. intros x. rewrite H4, Hs, H2. cbn. intuition.
Qed.
Lemma keys_build f ms : NoDup (keys (build_index f ms)) /\
  forall x, In x (keys (build_index f ms)) <-> exists m, In m ms /\ (In x (index_terms f m) \/ In x (index_not_terms f m)).
Proof.
  unfold build_index. cbv zeta.
  destruct (keys_fold add_positive keys_positive (walk (index_terms f) 0 ms) empty_index (NoDup_nil _)) as [H1 H2]. cbv zeta in H1, H2.
  set (t1 := fold_left _ _ empty_index) in *.
  destruct (keys_fold add_negative keys_negative (walk (index_not_terms f) 0 ms) (collect_defaults t1 (length ms)) H1) as [H3 H4]. cbv zeta in H3, H4.
  set (t3 := fold_left _ (walk (index_not_terms f) 0 ms) _) in *.
  assert (K : keys (propagate t3) = keys t3) by (cbn; rewrite map_map; reflexivity). rewrite K. split; auto.
  assert (W : forall terms s ms' x, In x (map fst (walk terms s ms')) <-> exists m, In m ms' /\ In x (terms m)).
  { intros terms s ms'. revert s. induction ms' as [|m ms' IH]; intros s x; cbn [walk map]; [cbn; split; [tauto|intros (m & [] & _)]|].
    rewrite map_app, in_app_iff, map_map, IH. cbn [fst]. rewrite map_id. split.
    - intros [H|(m' & H & H')]; [exists m|exists m']; cbn; auto.
    - intros (m' & [->|H] & H'); auto. right. eauto. }
  intros x. rewrite H4. change (keys (collect_defaults t1 (length ms))) with (keys t1). rewrite H2, !W. cbn [ti_entries empty_index map]. split.
  - intros [(m & A & B)|[(m & A & B)|[]]]; exists m; auto.
  - intros (m & A & [B|B]); eauto.
Qed.
Scheme compares_mut := Induction for compares Sort Prop with differs_mut := Induction for differs Sort Prop.
Lemma differs_terms f m v : differs f m v <-> In v (index_not_terms f m).
Proof.
  split.
  - induction 1; cbn; rewrite ?in_app_iff, ?Nat.eqb_refl; cbn; auto.
  - induction m; cbn; try tauto.
    + destruct l as [g o x|]; [destruct o|]; cbn; try tauto. destruct (Nat.eqb_spec g f); cbn; try tauto. intros [->|[]]. subst. constructor.
    + rewrite in_app_iff. intros [H|H]; [apply D_and_l|apply D_and_r]; auto.
    + rewrite in_app_iff. intros [H|H]; [apply D_or_l|apply D_or_r]; auto.
    + intros H. constructor. auto.
Qed.
Lemma compares_terms f m v : compares f m v <-> In v (index_terms f m) \/ In v (index_not_terms f m).
Proof.
  split.
  - induction 1; cbn; rewrite ?in_app_iff, ?Nat.eqb_refl; cbn; try tauto. right. apply differs_terms; auto.
  - induction m; cbn; try tauto.
    + destruct l as [g o x|]; [destruct o|]; cbn; try tauto; destruct (Nat.eqb_spec g f); cbn; try tauto; intros H; assert (x = v) by tauto; subst; constructor.
    + rewrite !in_app_iff. intros H. assert (Q : (In v (index_terms f m1) \/ In v (index_not_terms f m1)) \/ (In v (index_terms f m2) \/ In v (index_not_terms f m2))) by tauto.
      destruct Q; [apply C_and_l|apply C_and_r]; auto.
    + rewrite !in_app_iff. intros H. assert (Q : (In v (index_terms f m1) \/ In v (index_not_terms f m1)) \/ (In v (index_terms f m2) \/ In v (index_not_terms f m2))) by tauto.
      destruct Q; [apply C_or_l|apply C_or_r]; auto.
    + intros [[]|H]. constructor. apply differs_terms. auto.
Qed.
Lemma keys_constants f ms : constants f ms (keys (build_index f ms)).
Proof.
  destruct (keys_build f ms) as [H1 H2]. split; auto. intros k. rewrite H2. split; intros (m & A & B); exists m; split; auto; apply compares_terms; auto.
Qed.
Lemma constants_perm f ms ks ks' : constants f ms ks -> constants f ms ks' -> Permutation ks ks'.
Proof. intros [H1 H2] [H3 H4]. apply NoDup_Permutation; auto. intros x. rewrite H2, H4. tauto. Qed.
Lemma compares_leaf f m v : compares f m v -> exists o, In (Rel f o v) (leaves m).
Proof.
  assert (D : forall m v, differs f m v -> exists o, In (Rel f o v) (leaves m)).
  { induction 1; cbn; try (destruct IHdiffers as [o I]; exists o; rewrite ?in_app_iff; auto). exists RNe. auto. }
  induction 1; cbn; try (destruct IHcompares as [o I]; exists o; rewrite ?in_app_iff; auto).
  - exists REq. auto.
  - exists RNe. auto.
  - apply D. auto.
Qed.

(** Lemmas on the tables of an indexed service: what they answer, and when they can be made. *)
From Coq Require Import List Bool Arith ZArith NArith Lia ZifyBool ZifyN ZifyNat Permutation Sorting.Sorted.
From Verif Require Import MatchModel MatchSpec FieldMatchersModel FieldMatchersSpec HandlerModel HandlerSpec IndexedProofs BakedModel BakedSpec BakedProofs.
From Verif Require FieldModel LookupModel LookupSpec LookupProofs LookupProofs3 LookupProofs4 LookupProps.
Import ListNotations.
Local Open Scope Z_scope.

(** ** The mask does not depend on the order of the keys *)
Lemma sorted_unique (l l' : list N) : StronglySorted N.le l -> StronglySorted N.le l' -> Permutation l l' -> l = l'.
Proof.
  intros H. revert l'. induction H as [|x l Hs IH Hx]; intros l' H' P.
  - apply Permutation_nil in P. auto.
  - destruct l' as [|y l']; [apply Permutation_sym, Permutation_nil in P; discriminate|]. inversion H' as [|? ? Hs' Hy]; subst.
    rewrite Forall_forall in Hx, Hy.
    assert (x = y). { assert (I : In x (y :: l')) by (apply (Permutation_in _ P); left; auto). assert (J : In y (x :: l)) by (apply (Permutation_in _ (Permutation_sym P)); left; auto).
      destruct I as [->|I]; auto. destruct J as [->|J]; auto. apply Hx in J. apply Hy in I. lia. }
    subst. f_equal. apply IH; auto. apply Permutation_cons_inv in P. auto.
Qed.
Lemma sortN_eq l l' : Permutation l l' -> LookupModel.sortN l = LookupModel.sortN l'.
Proof.
  intros P. apply sorted_unique; auto using LookupProofs3.sortN_sorted. rewrite !LookupProofs3.sortN_perm. auto.
Qed.
Section Perm.
Variables ks ks' : list N.
Hypothesis P : Permutation ks ks'.
Lemma dups_perm w m : LookupModel.count_duplicates (LookupModel.with_mask w m ks) = LookupModel.count_duplicates (LookupModel.with_mask w m ks').
Proof. unfold LookupModel.count_duplicates, LookupModel.with_mask. rewrite (sortN_eq (map (LookupModel.pext w m) ks) (map (LookupModel.pext w m) ks')); auto. apply Permutation_map. auto. Qed.
Lemma run_perm w m : LookupModel.count_longest_run (LookupModel.with_mask w m ks) = LookupModel.count_longest_run (LookupModel.with_mask w m ks').
Proof. unfold LookupModel.count_longest_run, LookupModel.with_mask. rewrite (sortN_eq (map (LookupModel.pext w m) ks) (map (LookupModel.pext w m) ks')); auto. apply Permutation_map. auto. Qed.
Lemma first_perm w : LookupModel.first_mask w ks = LookupModel.first_mask w ks'.
Proof.
  unfold LookupModel.first_mask. generalize (rev (LookupModel.bit_positions w)) (N.ones w). intros l. induction l as [|i l IH]; intros m; cbn [fold_left]; auto.
  assert (E : LookupModel.try_clear w ks m i = LookupModel.try_clear w ks' m i) by (unfold LookupModel.try_clear, LookupModel.keys_are_unique; rewrite dups_perm; auto).
  rewrite E. apply IH.
Qed.
Lemma cheapest_perm w m bs : forall best, LookupModel.cheapest w m ks bs best = LookupModel.cheapest w m ks' bs best.
Proof. induction bs as [|i bs IH]; intros best; cbn [LookupModel.cheapest]; auto. rewrite dups_perm. apply IH. Qed.
Lemma shrink_perm fuel w M : forall m r, LookupModel.shrink fuel w M ks m r = LookupModel.shrink fuel w M ks' m r.
Proof.
  induction fuel as [|fuel IH]; intros m r; cbn [LookupModel.shrink]; auto.
  unfold LookupModel.remove_cheapest_bit. rewrite cheapest_perm, run_perm, IH. auto.
Qed.
Lemma calc_perm w M : LookupModel.calc_mask w M ks = LookupModel.calc_mask w M ks'.
Proof. unfold LookupModel.calc_mask. rewrite first_perm. apply shrink_perm. Qed.
End Perm.

(** ** The raw keys *)
Lemma raw_lt t v : (raw t v < 2 ^ width_of t)%N.
Proof.
  unfold raw. assert (B := Z.mod_pos_bound v (2 ^ Z.of_N (width_of t)) (Z.pow_pos_nonneg 2 (Z.of_N (width_of t)) ltac:(lia) ltac:(lia))).
  apply N2Z.inj_lt. rewrite Z2N.id by lia. rewrite N2Z.inj_pow. lia.
Qed.
Lemma raw_inj t a b : field_type t -> in_range t a -> in_range t b -> raw t a = raw t b -> a = b.
Proof.
  intros Ht Ha Hb H. assert (Q : 0 < 2 ^ Z.of_N (width_of t)) by (apply Z.pow_pos_nonneg; lia).
  apply (mod_inj_range (2 ^ Z.of_N (width_of t))); auto; [apply in_range_width; auto|].
  unfold raw in H. apply Z2N.inj in H; auto; apply Z.mod_pos_bound; auto.
Qed.
Lemma key_width_of t : field_type t -> LookupSpec.key_width (width_of t).
Proof. unfold field_type, LookupSpec.key_width, width_of. destruct t as [w s| |w s]; intros H; try lia; destruct H as [-> | [-> | [-> | ->]]]; cbn; auto. Qed.
Lemma raw_keys t ks : field_type t -> Forall (in_range t) ks -> NoDup ks -> NoDup (map (raw t) ks).
Proof.
  intros Ht. induction ks as [|k ks IH]; intros Hf Hn; cbn; [constructor|]. inversion Hf; subst. inversion Hn; subst. constructor; auto.
  rewrite in_map_iff. intros (k' & E & I). apply raw_inj in E; auto; [subst; auto|]. rewrite Forall_forall in H2. auto.
Qed.
Lemma index_keys t i : map (@LookupModel.e_key bits) (LookupModel.i_entries (index_input t i)) = map (raw t) (map fst (ti_entries i)).
Proof. cbn. rewrite !map_map. reflexivity. Qed.

Section Index.
Variable srt : (N -> N) -> list (LookupModel.entry bits) -> list (LookupModel.entry bits).
Hypothesis Hsrt : LookupSpec.sorts srt.
Variable ftype : nat -> cty.
Hypothesis Hty : forall f, field_type (ftype f).

Definition in_ranges (ms : list fexpr) (f : nat) : Prop := forall m k, In m ms -> compares f m k -> in_range (ftype f) k.
Lemma keys_range ms f : in_ranges ms f -> Forall (in_range (ftype f)) (map fst (ti_entries (build_index f ms))).
Proof. intros H. rewrite Forall_forall. intros k I. apply (keys_constants f ms) in I. destruct I as (m & A & B). eauto. Qed.
Lemma input_ok ms f : in_ranges ms f -> LookupSpec.keys_in (width_of (ftype f)) (index_input (ftype f) (build_index f ms)) /\
  LookupSpec.unique_keys (index_input (ftype f) (build_index f ms)).
Proof.
  intros H. split.
  - unfold LookupSpec.keys_in. rewrite Forall_forall. intros e I. cbn [LookupModel.i_entries index_input] in I. apply in_map_iff in I. destruct I as (kv & <- & _). cbn. apply raw_lt.
  - unfold LookupSpec.unique_keys. rewrite index_keys. apply raw_keys; auto using keys_range. apply keys_build.
Qed.
Lemma index_right ms f l v : in_ranges ms f -> bake_index srt ftype ms f = Some l -> in_range (ftype f) v ->
  exists n, LookupModel.query l (raw (ftype f) v) = Some (FieldModel.Done (index_lookup (build_index f ms) v), n).
Proof.
  intros Hr H Hv. unfold bake_index in H. destruct (Nat.leb_spec (length (ti_entries (build_index f ms))) entry_capacity) as [Hc|]; [|discriminate].
  destruct (input_ok ms f Hr) as [K U].
  assert (L : (N.of_nat (length (LookupModel.i_entries (index_input (ftype f) (build_index f ms)))) < 2 ^ 64)%N).
  { cbn [LookupModel.i_entries index_input]. rewrite map_length. unfold entry_capacity in Hc. lia. }
  destruct (LookupProps.C23_make bits srt Hsrt _ (key_width_of _ (Hty f)) _ K L l H _ (raw_lt (ftype f) v)) as (x & n & Q & V).
  exists n. rewrite Q. do 3 f_equal. unfold index_lookup.
  destruct V as [V|[V ->]].
  - cbn [LookupModel.i_entries index_input] in V. apply in_map_iff in V. destruct V as ([k b] & E & I). cbn [fst snd] in E.
    assert (R : raw (ftype f) k = raw (ftype f) v) by congruence. assert (B : b = x) by congruence. subst x.
    apply raw_inj in R; auto; [|assert (F := keys_range ms f Hr); rewrite Forall_forall in F; apply F, (in_map fst _ _ I)]. subst k.
    apply (get_some v _ b) in I; [|apply keys_build]. rewrite I. reflexivity.
  - rewrite index_keys in V. destruct (get_entry v (ti_entries (build_index f ms))) eqn:G; auto. exfalso. apply V.
    apply in_map. destruct (in_dec Z.eq_dec v (map fst (ti_entries (build_index f ms)))) as [|N]; auto. apply get_none in N. congruence.
Qed.
Lemma index_compiles ms f ks : in_ranges ms f -> constants f ms ks ->
  (exists l, bake_index srt ftype ms f = Some l) <->
  (length ks <= 512)%nat /\ (LookupModel.popcount (width_of (ftype f)) (fst (LookupModel.calc_mask (width_of (ftype f)) 2 (map (raw (ftype f)) ks))) <= 30)%N.
Proof.
  intros Hr Hk. pose proof (constants_perm f ms _ _ Hk (keys_constants f ms)) as P.
  pose proof (Permutation_length P) as PL. rewrite map_length in PL.
  rewrite (calc_perm _ _ (Permutation_map (raw (ftype f)) P)), PL. unfold bake_index, entry_capacity. clear PL P.
  destruct (input_ok ms f Hr) as [K U].
  destruct (Nat.leb_spec (length (ti_entries (build_index f ms))) 512) as [Hc|Hc].
  2: { split; [intros [l H]; discriminate|]. intros [H _]. lia. }
  assert (L : (N.of_nat (length (LookupModel.i_entries (index_input (ftype f) (build_index f ms)))) < 2 ^ 64)%N).
  { cbn [LookupModel.i_entries index_input]. rewrite map_length. lia. }
  pose proof (LookupProps.C23_make_compiles bits srt Hsrt _ (key_width_of _ (Hty f)) _ K L) as C. rewrite index_keys in C.
  split.
  - intros [l H]. split; auto. apply C. exists l. split; auto.
    eapply (LookupProofs4.make_right srt Hsrt); eauto. apply LookupProps.width_pos, key_width_of; auto.
  - intros [_ H]. destruct C as [_ C]. destruct C as (l & C & _); eauto.
Qed.

(** ** Bits are those of callbacks *)
Definition below (n : nat) (b : bits) : Prop := forall i, b i = true -> (i < n)%nat.
Definition bounded (n : nat) (t : temp_index) : Prop :=
  Forall (fun kv => below n (snd kv)) (ti_entries t) /\ below n (ti_default t) /\ below n (ti_negative t).
Lemma below_set n b i : (i < n)%nat -> below n b -> below n (bit_set b i).
Proof. intros H B j. unfold bit_set. destruct (Nat.eqb_spec j i); subst; cbn; auto. Qed.
Lemma below_or n a b : below n a -> below n b -> below n (bit_or a b).
Proof. intros A B j. unfold bit_or. rewrite orb_true_iff. intros [H|H]; auto. Qed.
Lemma below_empty n : below n empty_bits.
Proof. intros i H. discriminate. Qed.
Lemma ensure_below n k es : Forall (fun kv : Z * bits => below n (snd kv)) es -> Forall (fun kv : Z * bits => below n (snd kv)) (ensure k es).
Proof. intros H. unfold ensure. destruct (get_entry k es); auto. apply Forall_app. split; auto. constructor; auto. apply below_empty. Qed.
Lemma positive_bounded n t k i : (i < n)%nat -> bounded n t -> bounded n (add_positive t k i).
Proof.
  intros H (A & B & C). split; [|split; auto]. cbn. unfold update. rewrite Forall_map. eapply Forall_impl; [|apply ensure_below; eauto].
  intros [k1 b] Hb. cbn in *. destruct (k1 =? k); cbn; auto using below_set.
Qed.
Lemma negative_bounded n t k i : (i < n)%nat -> bounded n t -> bounded n (add_negative t k i).
Proof.
  intros H (A & B & C). split; [|split; auto].
  - cbn. rewrite Forall_map. eapply Forall_impl; [|apply ensure_below; eauto]. intros [k1 b] Hb. cbn in *. destruct (k1 =? k); cbn; auto using below_set.
    intros j. unfold bit_reset. rewrite andb_true_iff. intros [_ Q]. apply (below_or n b (ti_default t)); auto.
  - cbn. apply below_set; auto.
Qed.
Lemma fold_bounded n (step : temp_index -> Z -> nat -> temp_index) : (forall t k i, (i < n)%nat -> bounded n t -> bounded n (step t k i)) ->
  forall w t, Forall (fun vi => (snd vi < n)%nat) w -> bounded n t -> bounded n (fold_left (fun t vi => step t (fst vi) (snd vi)) w t).
Proof. intros Hs w. induction w as [|[k i] w IH]; intros t Hw Hb; cbn [fold_left]; auto. inversion Hw; subst. apply IH; auto. Qed.
Lemma walk_below terms ms : forall s, Forall (fun vi : Z * nat => (snd vi < s + length ms)%nat) (walk terms s ms).
Proof.
  induction ms as [|m ms IH]; intros s; cbn [walk length]; [constructor|]. apply Forall_app. split.
  - rewrite Forall_map. apply Forall_forall. intros x _. cbn. lia.
  - eapply Forall_impl; [|apply IH]. cbn. intros. lia.
Qed.
Lemma build_bounded f ms : bounded (length ms) (build_index f ms).
Proof.
  unfold build_index. cbv zeta. set (t1 := fold_left _ _ empty_index).
  assert (B1 : bounded (length ms) t1).
  { apply (fold_bounded _ add_positive); [apply positive_bounded|apply (walk_below _ ms 0)|]. split; [constructor|]. split; apply below_empty. }
  set (t3 := fold_left _ (walk (index_not_terms f) 0 ms) _).
  assert (B3 : bounded (length ms) t3).
  { apply (fold_bounded _ add_negative); [apply negative_bounded|apply (walk_below _ ms 0)|]. destruct B1 as (A & B & C). split; auto. split; auto.
    intros i. cbn. rewrite orb_true_iff, andb_true_iff. intros [[H _]|H]; auto. apply Nat.ltb_lt. auto. }
  destruct B3 as (A & B & C). split; [|split; auto]. cbn. rewrite Forall_map. eapply Forall_impl; [|exact A]. intros [k b] Hb. cbn in *.
  apply below_or; auto. intros i. rewrite andb_true_iff. intros [H _]. auto.
Qed.
Lemma lookup_below f ms v : below (length ms) (index_lookup (build_index f ms) v).
Proof.
  destruct (build_bounded f ms) as (A & B & C). unfold index_lookup. destruct (get_entry v _) as [b|] eqn:G; auto.
  apply get_some in G; [|apply keys_build]. rewrite Forall_forall in A. apply (A _ G).
Qed.

(** ** Whole services *)
Lemma all_some_map {A B} (g : A -> option B) l r : all_some (map g l) = Some r <-> Forall2 (fun x y => g x = Some y) l r.
Proof.
  revert r. induction l as [|x l IH]; intros r; cbn.
  - split; [intros [= <-]; constructor|]. intros H. inversion H. auto.
  - destruct (g x) eqn:G.
    + destruct (all_some (map g l)) as [r'|] eqn:Q; cbn.
      * split; [intros [= <-]; constructor; auto; apply IH; auto|]. intros H. inversion H; subst. assert (b = y) by congruence. subst. f_equal. f_equal.
        assert (W : Some r' = Some l') by (apply IH; auto). congruence.
      * split; [discriminate|]. intros H. inversion H; subst. assert (W : None = Some l') by (apply IH; auto). discriminate.
    + split; [discriminate|]. intros H. inversion H; subst. congruence.
Qed.
Lemma all_some_exists {A B} (g : A -> option B) l : (exists r, all_some (map g l) = Some r) <-> forall x, In x l -> exists y, g x = Some y.
Proof.
  split.
  - intros [r H]. apply all_some_map in H. induction H; intros z; [intros []|]. intros [->|I]; eauto.
  - induction l as [|x l IH]; intros H; cbn; [eauto|]. destruct (H x) as [y Hy]; [left; auto|]. rewrite Hy. destruct IH as [r ->]; [intros; apply H; right; auto|]. cbn. eauto.
Qed.

Context {E : Type}.
Variable fld : nat -> E -> Z.
Variable psem : nat -> E -> bool.
Variable cbs : list (callback leaf).
Lemma ask_all_right fs ls e : (forall f, In f fs -> in_ranges (map cb_matcher cbs) f) -> (forall f, In f fs -> in_range (ftype f) (fld f e)) ->
  Forall2 (fun f l => bake_index srt ftype (map cb_matcher cbs) f = Some l) fs ls ->
  exists b, ask_all ftype fld ls fs e = FieldModel.Done b /\ forall i, b i = candidates fld fs cbs e i.
Proof.
  intros Hr Hv H. induction H as [|f l fs ls Hl Hls IH].
  - exists empty_bits. auto.
  - destruct (index_right _ f l (fld f e) (Hr f (or_introl eq_refl)) Hl (Hv f (or_introl eq_refl))) as [n Q].
    assert (A : ask ftype fld l f e = FieldModel.Done (index_lookup (build_index f (map cb_matcher cbs)) (fld f e))) by (unfold ask; rewrite Q; auto).
    destruct IH as (b & B1 & B2); [intros; apply Hr; right; auto|intros; apply Hv; right; auto|].
    destruct Hls as [|f2 l2 fs ls Hl2 Hls].
    + exists (index_lookup (build_index f (map cb_matcher cbs)) (fld f e)). split; [exact A|]. intros i. cbn. rewrite andb_true_r. auto.
    + change (ask_all ftype fld (l :: l2 :: ls) (f :: f2 :: fs) e) with
        (match ask ftype fld l f e with FieldModel.Done b0 => match ask_all ftype fld (l2 :: ls) (f2 :: fs) e with FieldModel.Done c => FieldModel.Done (fun i => b0 i && c i) | o => o end | o => o end).
      rewrite A, B1. eexists. split; [reflexivity|]. intros i. cbv beta. rewrite B2. reflexivity.
Qed.
Lemma invoke_ext fs c1 c2 e : (forall i, c1 i = c2 i) -> forall l i acc, invoke_from ftype fld psem fs c1 i l e acc = invoke_from ftype fld psem fs c2 i l e acc.
Proof. intros H l. induction l as [|c l IH]; intros i acc; cbn [invoke_from]; auto. rewrite H. destruct (c2 i); [|auto]. destruct (invoke_callback _ _ _ _ _ _). rewrite IH. auto. Qed.
Lemma candidates_below fs e : below (length cbs) (candidates fld fs cbs e).
Proof.
  intros i. destruct fs as [|f fs]; [discriminate|]. cbn [candidates forallb]. rewrite andb_true_iff. intros [H _].
  apply lookup_below in H. rewrite map_length in H. auto.
Qed.
Lemma existsb_more (b : bits) n m : below n b -> (n <= m)%nat -> existsb b (seq 0 m) = existsb b (seq 0 n).
Proof.
  intros B L. apply eq_true_iff_eq. rewrite !existsb_exists. split; intros (i & I & H); exists i; rewrite in_seq in *; split; auto; try lia. apply B in H. lia.
Qed.
Lemma bake_refines v fs ls e : (forall f, In f fs -> in_ranges (map cb_matcher cbs) f) -> (forall f, In f fs -> in_range (ftype f) (fld f e)) ->
  bake srt ftype v fs cbs = Some ls ->
  baked_handle ftype fld psem ls fs cbs e = Some (indexed_handle ftype fld psem fs cbs e) /\
  baked_is_match ftype fld ls fs e = Some (indexed_is_match fld fs cbs e).
Proof.
  intros Hr Hv H. unfold bake in H. destruct (match fs with [] => true | _ => _ end) eqn:Hc; [|discriminate].
  destruct (forallb _ cbs); [|discriminate]. apply all_some_map in H.
  destruct (ask_all_right fs ls e Hr Hv H) as (b & B1 & B2).
  unfold baked_handle, baked_is_match. rewrite B1. split.
  - rewrite (invoke_ext fs b (candidates fld fs cbs e)) by auto. unfold indexed_handle. destruct (invoke_from _ _ _ _ _ _ _ _ _). destruct b0; auto.
  - f_equal. unfold indexed_is_match. assert (Ex : forall l, existsb b l = existsb (candidates fld fs cbs e) l).
    { intros l. induction l; cbn; auto. rewrite B2, IHl. auto. }
    rewrite Ex. destruct fs as [|f fs]; [|apply Nat.leb_le in Hc; apply existsb_more; auto using candidates_below].
    cbn [candidates]. assert (F : forall l, existsb empty_bits l = false) by (induction l; auto). rewrite !F. auto.
Qed.
Lemma bake_compiles v fs (ks : nat -> list Z) : (forall f, In f fs -> in_ranges (map cb_matcher cbs) f) -> (forall f, constants f (map cb_matcher cbs) (ks f)) ->
  (exists ls, bake srt ftype v fs cbs = Some ls) <->
  (fs <> [] -> (length cbs <= 256)%nat) /\
  (forall c, In c cbs -> v = NeverValidator -> remove_terms ftype fs (cb_matcher c) <> Never) /\
  (forall f, In f fs -> (length (ks f) <= 512)%nat /\
     (LookupModel.popcount (width_of (ftype f)) (fst (LookupModel.calc_mask (width_of (ftype f)) 2 (map (raw (ftype f)) (ks f)))) <= 30)%N).
Proof.
  intros Hr Hk. unfold bake.
  assert (V : forallb (fun c => validate v (remove_terms ftype fs (cb_matcher c))) cbs = true <-> forall c, In c cbs -> v = NeverValidator -> remove_terms ftype fs (cb_matcher c) <> Never).
  { rewrite forallb_forall. split; intros H c I; specialize (H c I).
    - intros -> Q. rewrite Q in H. discriminate.
    - unfold validate. destruct v; auto. destruct (remove_terms _ _ _); auto; try discriminate. exfalso. apply H; auto. }
  assert (C : match fs with [] => true | _ => Nat.leb (length cbs) callback_capacity end = true <-> (fs <> [] -> (length cbs <= 256)%nat)).
  { destruct fs as [|f fs']; [split; auto; congruence|]. rewrite Nat.leb_le. unfold callback_capacity. split; auto. intros H. apply H. discriminate. }
  assert (S1 : (exists ls, all_some (map (bake_index srt ftype (map cb_matcher cbs)) fs) = Some ls) <-> (forall f, In f fs -> (length (ks f) <= 512)%nat /\
     (LookupModel.popcount (width_of (ftype f)) (fst (LookupModel.calc_mask (width_of (ftype f)) 2 (map (raw (ftype f)) (ks f)))) <= 30)%N)).
  { rewrite all_some_exists. split; intros H f I; specialize (H f I); apply (index_compiles (map cb_matcher cbs) f (ks f)); auto. }
  rewrite <- V, <- C, <- S1. clear.
  destruct (match fs with [] => true | _ => _ end), (forallb _ cbs); intuition; try discriminate; match goal with H : exists _, None = Some _ |- _ => destruct H; discriminate | _ => idtac end.
Qed.
End Index.

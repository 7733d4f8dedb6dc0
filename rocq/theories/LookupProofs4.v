(** Proofs about building and querying the tables. *)
From Coq Require Import List NArith Bool Arith Lia ZifyBool ZifyN ZifyNat Permutation Sorting.Sorted.
From Verif Require Import FieldModel FieldProofs LookupModel LookupSpec LookupProofs LookupProofs3.
Import ListNotations.
Local Open Scope N_scope.

Lemma uint_for_fits n : n < 2 ^ 64 -> n < 2 ^ uint_for n /\ n <= 2 ^ uint_for n - 1.
Proof.
  intros H. unfold uint_for. destruct (N.leb_spec n 255); [cbn; lia|]. destruct (N.leb_spec n 65535); [cbn; lia|].
  destruct (N.leb_spec n 4294967295); [cbn; lia|]. change (2 ^ 64) with 18446744073709551616 in *. lia.
Qed.

Section Tables.
Context {V : Type}.
Notation entry := (entry V).
Variable h : N -> N.
Notation hs := (map (fun e : entry => h (e_key e))).
Definition hash_at (S : list entry) (j : nat) (x : N) : Prop := exists e, nth_error S j = Some e /\ h (e_key e) = x.

Lemma hash_at_fun S j x y : hash_at S j x -> hash_at S j y -> x = y.
Proof. intros (e & H1 & H2) (e' & H3 & H4). congruence. Qed.
Lemma hash_at_lt S j x : hash_at S j x -> (j < length S)%nat.
Proof. intros (e & H & _). apply nth_error_Some. congruence. Qed.

(** ** Filling the index table *)
Definition table_inv (S : list entry) (size i : nat) (t : list N) : Prop :=
  length t = size /\
  forall x, (x < size)%nat ->
    (exists j, (i <= j)%nat /\ hash_at S j (N.of_nat x) /\ (forall j', (i <= j' < j)%nat -> ~ hash_at S j' (N.of_nat x)) /\
               nth_error t x = Some (N.of_nat j)) \/
    ((forall j, (i <= j)%nat -> ~ hash_at S j (N.of_nat x)) /\ nth_error t x = Some 0).

Lemma fill_table_spec S size b : N.of_nat (length S) <= 2 ^ b - 1 ->
  (forall e, In e S -> h (e_key e) < N.of_nat size) ->
  forall i fuel t, (i <= length S)%nat -> (i < fuel)%nat -> table_inv S size i t ->
  exists t', fill_table fuel h b S (if Nat.eqb i 0 then 2 ^ b - 1 else N.of_nat i - 1) t = Done t' /\ table_inv S size 0 t'.
Proof.
  intros Hb Hh. assert (Hpos : 0 < 2 ^ b) by (apply N.neq_0_lt_0, N.pow_nonzero; lia).
  induction i as [|i IH]; intros fuel t Hi Hf Hinv; (destruct fuel as [|f]; [lia|]); cbn [fill_table Nat.eqb].
  - replace (2 ^ b - 1 <? N.of_nat (length S)) with false by lia. eauto.
  - replace (N.of_nat (Datatypes.S i) - 1) with (N.of_nat i) by lia.
    replace (N.of_nat i <? N.of_nat (length S)) with true by lia. rewrite Nat2N.id.
    destruct (nth_error S i) as [e|] eqn:He; [|apply nth_error_None in He; lia].
    destruct Hinv as [Hl Hinv]. pose proof (Hh e (nth_error_In _ _ He)) as Hx.
    unfold wr. destruct (nth_error t (N.to_nat (h (e_key e)))) as [v|] eqn:Hv; [|apply nth_error_None in Hv; lia].
    cbn [bind].
    assert (Hidx : (N.of_nat i + 2 ^ b - 1) mod 2 ^ b = if Nat.eqb i 0 then 2 ^ b - 1 else N.of_nat i - 1).
    { destruct i as [|i]; cbn [Nat.eqb].
      - apply N.mod_small. lia.
      - replace (N.of_nat (Datatypes.S i) + 2 ^ b - 1) with (N.of_nat i + 1 * 2 ^ b) by lia.
        rewrite N.mod_add, N.mod_small by lia. lia. }
    rewrite Hidx. apply IH; [lia|lia|]. split; [rewrite set_nth_length; auto|].
    intros x Hxs. destruct (Nat.eq_dec x (N.to_nat (h (e_key e)))) as [->|Hne].
    + left. exists i. split; [lia|]. rewrite N2Nat.id. split; [exists e; auto|]. split; [intros; lia|].
      eapply set_nth_same; eauto.
    + rewrite set_nth_other by auto.
      assert (Hnot : ~ hash_at S i (N.of_nat x)).
      { intros (e' & H1 & H2). rewrite He in H1. injection H1 as <-. lia. }
      destruct (Hinv x Hxs) as [(j & H1 & H2 & H3 & H4)|[H1 H2]].
      * left. exists j. split; [lia|]. split; auto. split; auto. intros j' Hj'.
        destruct (Nat.eq_dec j' i) as [->|]; auto. apply H3. lia.
      * right. split; auto. intros j Hj. destruct (Nat.eq_dec j i) as [->|]; auto. apply H1. lia.
Qed.

(** ** Rotating *)
Definition le_h (a b : entry) : Prop := h (e_key a) <= h (e_key b).

Lemma ss_app (l1 l2 : list entry) : StronglySorted le_h (l1 ++ l2) ->
  StronglySorted le_h l1 /\ StronglySorted le_h l2 /\ (forall a b, In a l1 -> In b l2 -> le_h a b).
Proof.
  induction l1 as [|x r IH]; cbn [app]; intros H.
  - repeat split; [constructor|auto|intros a b []].
  - inversion_clear H. destruct (IH H0) as (H2 & H3 & H4). rewrite Forall_app in H1. destruct H1 as [H1 H5].
    repeat split; auto; [constructor; auto|]. intros a b [->|Ha] Hb; [|auto]. rewrite Forall_forall in H5. auto.
Qed.

Lemma split_longest_spec s rest : forall seen len prev,
  0 < s ->
  StronglySorted le_h (rev seen ++ rest) ->
  (exists e0 seen0, seen = e0 :: seen0 /\ h (e_key e0) = prev) ->
  cnt prev (hs seen) = len ->
  (exists T U, seen = T ++ U /\ N.of_nat (length T) = len /\ forall e, In e T -> h (e_key e) = prev) ->
  (forall x, x <> prev -> cnt x (hs seen) < s) ->
  (exists x, cnt x (hs (rev seen ++ rest)) = s) ->
  exists P Q, split_longest h s seen len prev rest = (P, Q) /\ P ++ Q = rev seen ++ rest /\
    (exists P0 T c, P = P0 ++ T /\ s <= N.of_nat (length T) /\ (forall e, In e T -> h (e_key e) = c)) /\
    (forall a b, In a P -> In b Q -> h (e_key a) < h (e_key b)).
Proof.
  induction rest as [|e r IH]; intros seen len prev Hs Hss Hhead Hlen HT Hcnt Hex; cbn [split_longest].
  - exists (rev seen), []. split; auto. split; auto. split; [|intros a b _ []].
    destruct HT as (T & U & -> & Hl & HT). exists (rev U), (rev T), prev. rewrite rev_app_distr. split; auto.
    split; [|intros e He; apply HT, in_rev; auto]. rewrite rev_length.
    destruct Hex as [x Hx]. rewrite app_nil_r in Hx.
    rewrite (cnt_perm x _ (hs (T ++ U))) in Hx by (apply Permutation_map; symmetry; apply Permutation_rev).
    destruct (N.eq_dec x prev) as [->|Hne]; [lia|]. specialize (Hcnt x Hne). lia.
  - assert (Hrev : rev (e :: seen) ++ r = rev seen ++ e :: r) by (cbn [rev]; rewrite <- app_assoc; reflexivity).
    destruct (ss_app _ _ Hss) as (S1 & S2 & S3).
    assert (Hle : forall a, In a seen -> h (e_key a) <= prev).
    { destruct Hhead as (e0 & seen0 & -> & <-). cbn [rev] in S1.
      destruct (ss_app _ _ S1) as (_ & _ & S4). intros a [->|Ha]; [lia|]. apply S4; [apply in_rev in Ha; auto|left; auto]. }
    assert (Hpe : prev <= h (e_key e)).
    { destruct Hhead as (e0 & seen0 & -> & <-). apply S3; [apply in_rev; rewrite rev_involutive; left; auto|left; auto]. }
    destruct (N.eqb_spec (h (e_key e)) prev) as [He|He].
    + destruct (IH (e :: seen) (len + 1) (h (e_key e))) as (P & Q & H1 & H2 & H3); auto.
      * rewrite Hrev. auto.
      * exists e, seen. auto.
      * cbn [map]. rewrite cnt_cons, N.eqb_refl, He. lia.
      * destruct HT as (T & U & -> & Hl & HT). exists (e :: T), U. split; [reflexivity|]. split; [cbn [length]; lia|].
        intros a [<-|Ha]; auto. rewrite He. auto.
      * intros x Hx. cbn [map]. rewrite cnt_cons. replace (h (e_key e) =? x) with false by lia. apply Hcnt. lia.
      * rewrite Hrev. auto.
      * exists P, Q. rewrite Hrev in H2. auto.
    + destruct (N.leb_spec s len) as [Hsl|Hsl].
      * exists (rev seen), (e :: r). split; auto. split; auto. split.
        -- destruct HT as (T & U & -> & Hl & HT). exists (rev U), (rev T), prev. rewrite rev_app_distr, rev_length.
           split; auto. split; [lia|]. intros a Ha. apply HT, in_rev. auto.
        -- intros a b Ha Hb. apply in_rev in Ha. specialize (Hle a Ha).
           inversion_clear S2. destruct Hb as [<-|Hb]; [lia|]. rewrite Forall_forall in H0. specialize (H0 b Hb). unfold le_h in H0. lia.
      * destruct (IH (e :: seen) 1 (h (e_key e))) as (P & Q & H1 & H2 & H3); auto.
        -- rewrite Hrev. auto.
        -- exists e, seen. auto.
        -- cbn [map]. rewrite cnt_cons, N.eqb_refl, cnt_zero; [lia|]. intros Hin. apply in_map_iff in Hin.
           destruct Hin as (a & Ha1 & Ha2). specialize (Hle a Ha2). lia.
        -- exists [e], seen. split; [reflexivity|]. split; [reflexivity|]. intros a [<-|[]]; auto.
        -- intros x Hx. cbn [map]. rewrite cnt_cons. replace (h (e_key e) =? x) with false by lia. rewrite N.add_0_l.
           destruct (N.eq_dec x prev) as [->|Hxp]; [lia|auto].
        -- rewrite Hrev. auto.
        -- exists P, Q. rewrite Hrev in H2. auto.
Qed.

(** Storage in which every bucket is contiguous and has room for a whole search. *)
Definition grouped (S : list entry) : Prop :=
  forall i j k x, (i <= j <= k)%nat -> hash_at S i x -> hash_at S k x -> hash_at S j x.
Definition roomy (s : N) (S : list entry) : Prop :=
  forall f x, hash_at S f x -> (forall j, (j < f)%nat -> ~ hash_at S j x) -> N.of_nat f + s <= N.of_nat (length S).

Lemma sorted_grouped S : StronglySorted le_h S -> grouped S.
Proof.
  intros Hs i j k x Hijk (a & Ha & Hax) (c & Hc & Hcx).
  destruct (nth_error S j) as [b|] eqn:Hb.
  2:{ apply nth_error_None in Hb. assert (k < length S)%nat by (apply nth_error_Some; congruence). lia. }
  exists b. split; auto.
  assert (Hle : forall m n u v, (m <= n)%nat -> nth_error S m = Some u -> nth_error S n = Some v -> h (e_key u) <= h (e_key v)).
  { clear -Hs. intros m n u v Hmn. revert m n Hmn. induction Hs as [|y r Hr IH Hy]; intros m n Hmn Hu Hv.
    - destruct m; discriminate.
    - destruct m as [|m], n as [|n]; cbn in Hu, Hv; [|..].
      + injection Hu as <-. injection Hv as <-. lia.
      + injection Hu as <-. rewrite Forall_forall in Hy. apply nth_error_In in Hv. apply (Hy _ Hv).
      + lia.
      + apply (IH m n); auto. lia. }
  pose proof (Hle i j a b ltac:(lia) Ha Hb). pose proof (Hle j k b c ltac:(lia) Hb Hc). lia.
Qed.
Lemma hash_at_app1 A B j x : (j < length A)%nat -> hash_at (A ++ B) j x <-> hash_at A j x.
Proof. intros H. unfold hash_at. rewrite nth_error_app1 by auto. tauto. Qed.
Lemma hash_at_app2 A B j x : (length A <= j)%nat -> hash_at (A ++ B) j x <-> hash_at B (j - length A) x.
Proof. intros H. unfold hash_at. rewrite nth_error_app2 by auto. tauto. Qed.

Lemma rotate_spec s L : 0 < s -> StronglySorted le_h L -> L <> [] -> (exists x, cnt x (hs L) = s) ->
  let S := rotate_longest h s L in Permutation S L /\ grouped S /\ roomy s S.
Proof.
  intros Hs HL Hne Hex. destruct L as [|e r]; [congruence|]. unfold rotate_longest.
  destruct (split_longest_spec s r [e] 1 (h (e_key e))) as (P & Q & H1 & H2 & (P0 & T & c & HP & HT & Hc) & H4); auto.
  - exists e, []. auto.
  - cbn [map]. rewrite cnt_cons, N.eqb_refl. reflexivity.
  - exists [e], []. split; [reflexivity|]. split; [reflexivity|]. intros a [<-|[]]; auto.
  - intros x Hx. cbn [map]. rewrite cnt_cons. replace (h (e_key e) =? x) with false by lia. cbn. lia.
  - rewrite H1. cbn zeta. cbn [rev app] in H2.
    assert (Hsort : StronglySorted le_h (P ++ Q)) by (rewrite H2; auto).
    destruct (ss_app _ _ Hsort) as (S1 & S2 & _).
    assert (Hperm : Permutation (Q ++ P) (e :: r)) by (rewrite <- H2; apply Permutation_app_comm).
    split; auto. split.
    + intros i j k x Hijk Hi Hk.
      destruct (Nat.lt_ge_cases k (length Q)) as [Hkq|Hkq].
      * rewrite hash_at_app1 in * by lia. eapply (sorted_grouped Q); eauto.
      * destruct (Nat.lt_ge_cases i (length Q)) as [Hiq|Hiq].
        -- exfalso. rewrite hash_at_app1 in Hi by auto. rewrite hash_at_app2 in Hk by auto.
           destruct Hi as (a & Ha & Hax), Hk as (b & Hb & Hbx).
           pose proof (H4 b a (nth_error_In _ _ Hb) (nth_error_In _ _ Ha)). lia.
        -- rewrite hash_at_app2 in * by lia. apply (sorted_grouped P S1 (i - length Q)%nat (j - length Q)%nat (k - length Q)%nat); auto. lia.
    + intros f x Hf Hfirst. subst P.
      assert (Hlen : length (Q ++ P0 ++ T) = (length Q + length P0 + length T)%nat) by (rewrite !app_length; lia).
      destruct (Nat.le_gt_cases f (length Q + length P0)) as [Hle|Hgt]; [lia|]. exfalso.
      assert (HTat : forall j, (length Q + length P0 <= j < length Q + length P0 + length T)%nat -> hash_at (Q ++ P0 ++ T) j c).
      { intros j Hj. rewrite !hash_at_app2 by lia. 
        destruct (nth_error T (j - length Q - length P0)) as [b|] eqn:Hb; [|apply nth_error_None in Hb; lia].
        exists b. split; auto. apply Hc. eapply nth_error_In; eauto. }
      pose proof (hash_at_lt _ _ _ Hf) as Hflt.
      assert (x = c) by (eapply hash_at_fun; [exact Hf|apply HTat; lia]). subst x.
      apply (Hfirst (length Q + length P0)%nat ltac:(lia)). apply HTat. lia.
Qed.

(** ** Searching *)
Lemma search_spec S (d : V) k b fuel : forall i,
  (i + fuel <= length S)%nat -> N.of_nat (length S) < 2 ^ b ->
  exists v c, search fuel b S d k (N.of_nat i) = (Done v, c) /\ (c <= fuel)%nat /\
    ((exists j e, (i <= j < i + fuel)%nat /\ nth_error S j = Some e /\ e_key e = k /\ v = e_value e) \/
     ((forall j e, (i <= j < i + fuel)%nat -> nth_error S j = Some e -> e_key e <> k) /\ v = d)).
Proof.
  induction fuel as [|f IH]; intros i Hi Hb; cbn [search].
  - exists d, 0%nat. split; auto. split; auto. right. split; auto. intros; lia.
  - rewrite Nat2N.id. destruct (nth_error S i) as [e|] eqn:He; [|apply nth_error_None in He; lia].
    destruct (N.eqb_spec k (e_key e)) as [->|Hk].
    + exists (e_value e), 1%nat. split; auto. split; [lia|]. left. exists i, e. repeat split; auto; lia.
    + replace (N.of_nat i + 1) with (N.of_nat (Datatypes.S i)) by lia. rewrite N.mod_small by lia.
      destruct (IH (Datatypes.S i) ltac:(lia) Hb) as (v & c & H1 & H2 & H3). rewrite H1.
      exists v, (Datatypes.S c). split; auto. split; [lia|].
      destruct H3 as [(j & e' & H3 & H4)|[H3 H4]].
      * left. exists j, e'. split; [lia|auto].
      * right. split; auto. intros j e' Hj Hje. destruct (Nat.eq_dec j i) as [->|]; [congruence|].
        apply (H3 j); auto. lia.
Qed.

(** A bucket is no longer than the number of keys with that hash. *)
Lemma bucket_length S x : forall f m,
  (forall j, (f <= j < f + m)%nat -> hash_at S j x) -> N.of_nat m <= cnt x (hs S).
Proof.
  induction S as [|e r IH]; intros f m H.
  - destruct m as [|m]; [lia|]. destruct (H f ltac:(lia)) as (a & Ha & _). destruct f; discriminate.
  - cbn [map]. rewrite cnt_cons. destruct f as [|f].
    + destruct m as [|m]; [lia|]. destruct (H 0%nat ltac:(lia)) as (a & Ha & Hax). cbn in Ha. injection Ha as ->.
      rewrite (proj2 (N.eqb_eq _ _) Hax).
      assert (N.of_nat m <= cnt x (hs r)); [|lia]. apply (IH 0%nat). intros j Hj. apply (H (Datatypes.S j)). lia.
    + assert (N.of_nat m <= cnt x (hs r)); [|lia]. apply (IH f). intros j Hj. apply (H (Datatypes.S j)). lia.
Qed.

Lemma nodup_entry (S : list entry) a b : NoDup (map e_key S) -> In a S -> In b S -> e_key a = e_key b -> a = b.
Proof.
  induction S as [|y r IH]; cbn [map]; intros Hn Ha Hb Hk; [destruct Ha|]. inversion_clear Hn.
  destruct Ha as [->|Ha], Hb as [->|Hb]; auto.
  - exfalso. apply H. rewrite Hk. apply in_map. auto.
  - exfalso. apply H. rewrite <- Hk. apply in_map. auto.
Qed.

(** ** The direct table *)
Lemma set_entry_length (st : list entry) : forall i e, length (set_entry st i e) = length st.
Proof. induction st as [|x r IH]; intros [|i] e; cbn; auto. Qed.
Lemma set_entry_same (st : list entry) : forall i e, (i < length st)%nat -> nth_error (set_entry st i e) i = Some e.
Proof. induction st as [|x r IH]; intros [|i] e; cbn; intros; auto; try lia. apply IH. lia. Qed.
Lemma set_entry_other (st : list entry) : forall i j e, i <> j -> nth_error (set_entry st i e) j = nth_error st j.
Proof. induction st as [|x r IH]; intros [|i] [|j] e H; cbn; auto; try congruence. Qed.

Lemma fill_direct_spec es : forall st, NoDup (hs es) -> (forall e, In e es -> (N.to_nat (h (e_key e)) < length st)%nat) ->
  exists st', fill_direct h es st = Done st' /\ length st' = length st /\
    (forall e, In e es -> nth_error st' (N.to_nat (h (e_key e))) = Some e) /\
    (forall j, (forall e, In e es -> N.to_nat (h (e_key e)) <> j) -> nth_error st' j = nth_error st j).
Proof.
  induction es as [|e r IH]; intros st Hn Hb; cbn [fill_direct].
  - exists st. repeat split; auto. intros e [].
  - rewrite (proj2 (Nat.ltb_lt _ _) (Hb e ltac:(left; auto))).
    cbn [map] in Hn. inversion_clear Hn.
    destruct (IH (set_entry st (N.to_nat (h (e_key e))) e)) as (st' & H1 & H2 & H3 & H4); auto.
    { intros a Ha. rewrite set_entry_length. apply Hb. right. auto. }
    rewrite set_entry_length in H2. exists st'. split; auto. split; auto. split.
    + intros a [<-|Ha]; auto. rewrite H4; [apply set_entry_same, Hb; left; auto|].
      intros b Hbr Heq. apply H. apply in_map_iff. exists b. split; auto. lia.
    + intros j Hj. rewrite H4; [apply set_entry_other; apply Hj; left; auto|]. intros a Ha. apply Hj. right. auto.
Qed.
End Tables.

(** ** The strategies *)
Section Make.
Context {V : Type}.
Variable srt : (N -> N) -> list (entry V) -> list (entry V).
Hypothesis Hsrt : sorts srt.

(** What every usable implementation satisfies. *)
Definition right (w : N) (i : input V) (l : lookup_impl V) (max : nat) : Prop :=
  forall k, k < 2 ^ w -> exists v n, query l k = Some (Done v, n) /\ is_value i k v /\ (n <= max)%nat.

Lemma is_value_of (i : input V) k e : In e (i_entries i) -> e_key e = k -> is_value i k (e_value e).
Proof. intros H1 H2. left. destruct e. cbn in *. subst. auto. Qed.

Lemma linear_right w i M l : unique_keys i -> linear_make M i = Some l -> l <> Failed -> right w i l (length (i_entries i)).
Proof.
  intros Hu H Hnf k Hk. unfold linear_make in H. destruct (_ <=? M); injection H as <-; [|congruence].
  cbn [query]. eexists _, _. split; [reflexivity|]. split; [|lia].
  unfold linear_query, unique_keys in *.
  assert (H : forall es d, NoDup (map e_key es) ->
    let v := fold_left (fun r (e : entry V) => if k =? e_key e then e_value e else r) es d in
    In {| e_key := k; e_value := v |} es \/ (~ In k (map e_key es) /\ v = d)).
  { clear. induction es as [|e r IH]; intros d Hn; cbn [fold_left]; [right; auto|].
    cbn [map] in Hn. inversion_clear Hn. cbn zeta. destruct (N.eqb_spec k (e_key e)) as [Hk|Hk].
    - destruct (IH (e_value e) H0) as [H1|[H1 H2]]; cbn zeta in *.
      + exfalso. apply H. rewrite <- Hk. apply (in_map e_key) in H1. exact H1.
      + left. left. rewrite H2, Hk. destruct e; auto.
    - destruct (IH d H0) as [H1|[H1 H2]]; cbn zeta in *.
      + left. right. auto.
      + right. split; auto. cbn [map In]. intros [|]; auto. }
  apply H; auto.
Qed.

Lemma pext_make_ok w ind M i : 0 < w -> keys_in w i -> N.of_nat (length (i_entries i)) < 2 ^ 64 ->
  ind = true \/ M = 1 -> unique_keys i ->
  popcount w (fst (calc_mask w M (map e_key (i_entries i)))) <= 30 ->
  exists l, pext_make srt w ind M i = Some l /\ l <> Failed /\
    right w i l (if ind then S (N.to_nat (if (1 <? M)%N then M else 0%N)) else 1).
Proof.
  intros Hw Hkeys Hlen Hind Hu Hpop. unfold pext_make.
  replace (negb (ind || (M =? 1))) with false by (destruct ind; [reflexivity|]; destruct Hind; [discriminate|]; subst; reflexivity).
  assert (Huu : keys_are_unique (map e_key (i_entries i)) = true) by (apply unique_spec; exact Hu).
  rewrite Huu. cbn [negb].
  destruct (calc_mask w M (map e_key (i_entries i))) as [mask run] eqn:Hcalc. cbn [fst] in Hpop.
  replace (30 <? popcount w mask) with false by lia.
  destruct (i_entries i) as [|e0 es0] eqn:Hes.
  { exists (Empty (i_default i)). split; auto. split; [discriminate|]. intros k Hk. exists (i_default i), 0%nat.
    split; auto. split; [|lia]. right. rewrite Hes. auto. }
  rewrite <- Hes in *. set (es := i_entries i) in *.
  assert (Hkf : Forall (fun k => k < 2 ^ w) (map e_key es)) by (rewrite Forall_map; exact Hkeys).
  assert (Hne : map e_key es <> []) by (rewrite Hes; discriminate).
  pose proof (calc_inv w (map e_key es) Hw Hkf Hu Hne M) as [(Hm & Hle & x & Hx) Hrun]. rewrite Hcalc in *. cbn [fst snd] in *.
  assert (Hhs : with_mask w mask (map e_key es) = map (fun e => pext w mask (e_key e)) es)
    by (unfold with_mask; rewrite map_map; reflexivity).
  rewrite Hhs in *. set (h := pext w mask) in *.
  assert (Hsize : N.of_nat (N.to_nat (2 ^ popcount w mask)) = 2 ^ popcount w mask) by apply N2Nat.id.
  assert (Hhlt : forall k, h k < 2 ^ popcount w mask) by (intros k; apply pext_range; auto).
  destruct ind.
  - destruct (Hsrt h es) as [Hperm Hsorted]. set (L := srt h es) in *.
    assert (HLh : forall y, cnt y (map (fun e => h (e_key e)) L) = cnt y (map (fun e => h (e_key e)) es))
      by (intros y; apply cnt_perm, Permutation_map; auto).
    destruct (rotate_spec h (run + 1) L) as (HS1 & HS2 & HS3).
    { lia. } { exact Hsorted. }
    { intros ->. apply Permutation_nil in Hperm. rewrite Hperm in Hes. discriminate. }
    { exists x. rewrite HLh. auto. }
    cbn zeta in *. set (S := rotate_longest h (run + 1) L) in *.
    assert (HSes : Permutation S es) by (rewrite HS1; auto).
    assert (HSl : length S = length es) by (apply Permutation_length; auto).
    assert (HSne : (0 < length S)%nat) by (rewrite HSl, Hes; cbn; lia).
    destruct (uint_for_fits (N.of_nat (length S))) as [Hf1 Hf2]; [rewrite HSl; auto|].
    set (b := uint_for (N.of_nat (length S))) in *.
    destruct (fill_table_spec h S (N.to_nat (2 ^ popcount w mask)) b Hf2) with
      (i := length S) (fuel := Datatypes.S (length S)) (t := repeat 0 (N.to_nat (2 ^ popcount w mask))) as (t & Ht & HtI & Ht2).
    { intros e _. rewrite Hsize. auto. } { lia. } { lia. }
    { split; [apply repeat_length|]. intros y Hy. right. split; [|apply nth_error_repeat; auto].
      intros j Hj Hat. apply hash_at_lt in Hat. lia. }
    replace ((N.of_nat (length S) - 1) mod 2 ^ b) with (if Nat.eqb (length S) 0 then 2 ^ b - 1 else N.of_nat (length S) - 1)
      by (destruct (Nat.eqb_spec (length S) 0); [lia|rewrite N.mod_small by lia; reflexivity]).
    rewrite Ht. eexists. split; [reflexivity|]. split; [discriminate|]. intros k Hk. cbn [query]. fold h.
    pose proof (Ht2 (N.to_nat (h k))) as Hslot. specialize (Hhlt k).
    specialize (Hslot ltac:(lia)). rewrite N2Nat.id in Hslot.
    assert (Hmaxc : forall y, cnt y (map (fun e => h (e_key e)) S) <= run + 1).
    { intros y. rewrite (cnt_perm y _ (map (fun e => h (e_key e)) es)) by (apply Permutation_map; auto). apply Hle. }
    assert (Hrs : forall f, nth_error t (N.to_nat (h k)) = Some (N.of_nat f) ->
      N.of_nat f + (run + 1) <= N.of_nat (length S) ->
      (forall j e, nth_error S j = Some e -> e_key e = k -> (f <= j < f + N.to_nat (run + 1))%nat) ->
      exists v n, Some (match nth_error t (N.to_nat (h k)) with None => (OutOfBounds, 0%nat)
        | Some i0 => search (N.to_nat (run + 1)) b S (i_default i) k i0 end) = Some (Done v, n) /\ is_value i k v /\
        (n <= Datatypes.S (N.to_nat (if (1 <? M)%N then M else 0%N)))%nat).
    { intros f Hnth Hroom Hin. rewrite Hnth.
      destruct (search_spec h S (i_default i) k b (N.to_nat (run + 1)) f) as (v & c & H1 & H2 & H3); [lia|lia|].
      exists v, c. rewrite H1. split; auto. split; [|lia].
      destruct H3 as [(j & e & H3 & H4 & H5 & ->)|[H3 ->]].
      - apply is_value_of; auto. apply (Permutation_in e HSes). eapply nth_error_In; eauto.
      - right. split; auto. intros Hink. apply in_map_iff in Hink. destruct Hink as (e & He1 & He2).
        apply (Permutation_in e (Permutation_sym HSes)), In_nth_error in He2. destruct He2 as [j Hj].
        apply (H3 j e); auto. apply (Hin j e); auto. }
    destruct Hslot as [(f & _ & Hat & Hfirst & Hnth)|[Hnone Hnth]].
    + apply (Hrs f); [exact Hnth| |].
      * apply (HS3 f (h k) Hat). intros j Hj. apply Hfirst. lia.
      * intros j e Hj Hke.
        assert (Hatj : hash_at h S j (h k)) by (exists e; split; auto; congruence).
        assert (Hfj : (f <= j)%nat). { destruct (Nat.le_gt_cases f j); auto. exfalso. apply (Hfirst j); [lia|auto]. }
        split; auto.
        pose proof (bucket_length h S (h k) f (j - f + 1)%nat) as Hbl.
        specialize (Hbl ltac:(intros m Hm2; apply (HS2 f m j); auto; lia)). specialize (Hmaxc (h k)). lia.
    + apply (Hrs 0%nat); [exact Hnth| |].
      * destruct (In_dec N.eq_dec x (map (fun e => h (e_key e)) S)) as [Hin|Hin].
        2:{ apply cnt_zero in Hin. rewrite (cnt_perm x _ _ (Permutation_map _ HSes)) in Hin. lia. }
        assert (Hcl : cnt x (map (fun e => h (e_key e)) S) <= N.of_nat (length S)).
        { unfold cnt. pose proof (count_occ_bound N.eq_dec x (map (fun e => h (e_key e)) S)). rewrite map_length in H. lia. }
        rewrite (cnt_perm x _ _ (Permutation_map _ HSes)) in Hcl. lia.
      * intros j e Hj Hke. exfalso. apply (Hnone j ltac:(lia)). exists e. split; auto. congruence.
  - destruct Hind as [|HM]; [discriminate|]. subst M. assert (Hr0 : run = 0) by (cbn in Hrun; lia). subst run.
    assert (Hnd : NoDup (map (fun e => h (e_key e)) es)).
    { apply (NoDup_count_occ N.eq_dec). intros y. specialize (Hle y). unfold cnt in Hle. lia. }
    destruct (fill_direct_spec h es (repeat {| e_key := 0; e_value := i_default i |} (N.to_nat (2 ^ popcount w mask))) Hnd)
      as (st & H1 & H2 & H3 & H4).
    { intros e _. rewrite repeat_length. specialize (Hhlt (e_key e)). lia. }
    rewrite H1. eexists. split; [reflexivity|]. split; [discriminate|]. intros k Hk. cbn [query]. fold h.
    rewrite repeat_length in H2. specialize (Hhlt k).
    destruct (In_dec N.eq_dec (h k) (map (fun e => h (e_key e)) es)) as [Hin|Hin].
    + apply in_map_iff in Hin. destruct Hin as (e & He1 & He2). rewrite <- He1, (H3 e He2).
      eexists _, _. split; [reflexivity|]. split; [|lia].
      destruct (N.eqb_spec k (e_key e)) as [Hke|Hke]; [apply is_value_of; auto|].
      right. split; auto. intros Hink. apply in_map_iff in Hink. destruct Hink as (e' & He3 & He4).
      assert (Heq : Some e = Some e').
      { rewrite <- (H3 e He2), <- (H3 e' He4). f_equal. f_equal. congruence. }
      congruence.
    + rewrite H4. 2:{ intros e He Heq. apply Hin. apply in_map_iff. exists e. split; auto. lia. }
      rewrite nth_error_repeat by lia. eexists _, _. split; [reflexivity|]. split; [|lia].
      cbn [e_key e_value]. right. split; [|destruct (k =? 0); auto].
      intros Hink. apply in_map_iff in Hink. destruct Hink as (e & He1 & He2). apply Hin, in_map_iff. exists e. split; auto. congruence.
Qed.

Lemma pext_make_none w ind M i : 0 < w -> keys_in w i -> N.of_nat (length (i_entries i)) < 2 ^ 64 ->
  pext_make srt w ind M i = None <->
  (ind = false /\ M <> 1) \/ ~ unique_keys i \/ 30 < popcount w (fst (calc_mask w M (map e_key (i_entries i)))).
Proof.
  intros Hw Hk Hl. split.
  - intros H. destruct (bool_dec ind true) as [Hi|Hi].
    + destruct (keys_are_unique (map e_key (i_entries i))) eqn:Hu.
      * apply unique_spec in Hu. destruct (N.lt_ge_cases 30 (popcount w (fst (calc_mask w M (map e_key (i_entries i)))))) as [|Hp]; auto.
        destruct (pext_make_ok w ind M i Hw Hk Hl (or_introl Hi) Hu Hp) as (l & H1 & _). congruence.
      * right. left. intros Hn. apply unique_spec in Hn. congruence.
    + destruct (N.eq_dec M 1) as [HM|HM]; [|left; split; [destruct ind; congruence|auto]].
      destruct (keys_are_unique (map e_key (i_entries i))) eqn:Hu.
      * apply unique_spec in Hu. destruct (N.lt_ge_cases 30 (popcount w (fst (calc_mask w M (map e_key (i_entries i)))))) as [|Hp]; auto.
        destruct (pext_make_ok w ind M i Hw Hk Hl (or_intror HM) Hu Hp) as (l & H1 & _). congruence.
      * right. left. intros Hn. apply unique_spec in Hn. congruence.
  - unfold pext_make. intros [[-> HM]|[Hn|Hp]].
    + replace (M =? 1) with false by lia. reflexivity.
    + destruct (negb (ind || (M =? 1))); auto. destruct (keys_are_unique _) eqn:Hu; [|reflexivity].
      exfalso. apply Hn. apply unique_spec. exact Hu.
    + destruct (negb (ind || (M =? 1))); auto. destruct (negb (keys_are_unique _)); auto.
      destruct (calc_mask w M _) as [mask run]. cbn [fst] in Hp. replace (30 <? popcount w mask) with true by lia. reflexivity.
Qed.
Lemma pext_make_right w ind M i l : 0 < w -> keys_in w i -> N.of_nat (length (i_entries i)) < 2 ^ 64 ->
  pext_make srt w ind M i = Some l -> l <> Failed /\ unique_keys i /\
    right w i l (if ind then S (N.to_nat (if (1 <? M)%N then M else 0%N)) else 1).
Proof.
  intros Hw Hk Hl H.
  assert (Hn : ~ ((ind = false /\ M <> 1) \/ ~ unique_keys i \/ 30 < popcount w (fst (calc_mask w M (map e_key (i_entries i)))))).
  { intros Hc. rewrite <- pext_make_none in Hc by auto. congruence. }
  assert (Hu : unique_keys i).
  { unfold unique_keys. destruct (keys_are_unique (map e_key (i_entries i))) eqn:Hu; [apply unique_spec; auto|].
    exfalso. apply Hn. right. left. intros Hd. apply unique_spec in Hd. congruence. }
  destruct (pext_make_ok w ind M i Hw Hk Hl) as (l' & H1 & H2 & H3); auto.
  - destruct ind; auto. right. destruct (N.eq_dec M 1); auto. exfalso. apply Hn. left. auto.
  - destruct (N.le_gt_cases (popcount w (fst (calc_mask w M (map e_key (i_entries i))))) 30); auto.
    exfalso. apply Hn. right. right. auto.
  - rewrite H in H1. injection H1 as <-. auto.
Qed.

(** Any choice of strategies. *)
Definition strategy_result (w : N) (i : input V) (r : option (lookup_impl V)) : Prop :=
  (exists M, r = linear_make M i) \/ (exists ind M, r = pext_make srt w ind M i).

Lemma strategies_right w i rs l : 0 < w -> keys_in w i -> N.of_nat (length (i_entries i)) < 2 ^ 64 -> unique_keys i ->
  Forall (strategy_result w i) rs -> strategies rs = Some l -> l <> Failed ->
  exists m, right w i l m.
Proof.
  intros Hw Hk Hl Hu Hrs. revert l. induction Hrs as [|r rs Hr Hrs IH]; intros l; cbn [strategies].
  - intros H. injection H as <-. congruence.
  - destruct r as [r|]; [|discriminate]. destruct (strategies rs) as [later|]; [|discriminate].
    destruct (failed r) eqn:Hf; intros H Hnf; injection H as <-; [eauto|].
    destruct Hr as [(M & HM)|(ind & M & HM)].
    + eexists. eapply linear_right; eauto.
    + eexists. symmetry in HM. apply (pext_make_right w ind M i r); auto.
Qed.

Lemma make_right w i l : 0 < w -> keys_in w i -> N.of_nat (length (i_entries i)) < 2 ^ 64 ->
  make srt w i = Some l -> l <> Failed /\ unique_keys i /\ exists m, right w i l m.
Proof.
  intros Hw Hk Hl H. unfold make in H.
  destruct (pext_make srt w true 2 i) as [lp|] eqn:Hp; [|destruct (linear_make 4 i); discriminate].
  destruct (pext_make_right w true 2 i lp Hw Hk Hl Hp) as (H1 & H2 & H3).
  assert (Hnf : l <> Failed).
  { intros ->. cbn [strategies] in H. unfold linear_make in H. destruct (_ <=? 4); cbn [failed] in H; destruct lp; cbn in H; congruence. }
  split; auto. split; auto. apply (strategies_right w i [linear_make 4 i; Some lp] l); auto.
  constructor; [left; eauto|]. constructor; [right; exists true, 2; auto|constructor].
Qed.

End Make.

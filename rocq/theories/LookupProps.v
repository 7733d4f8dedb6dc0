(** Property theorems for lookups (C23-C26). *)
From Coq Require Import List NArith Bool Arith Lia ZifyBool ZifyN ZifyNat Permutation Sorting.Sorted.
From Verif Require Import FieldModel FieldProofs LookupModel LookupSpec LookupProofs LookupProofs2 LookupProofs3 LookupProofs4.
Import ListNotations.
Local Open Scope N_scope.

Lemma width_pos w : key_width w -> 0 < w.
Proof. unfold key_width. lia. Qed.

(** A sort meeting [sorts], for the examples. *)
Section Sort.
Context {V : Type}.
Fixpoint insert_by (h : N -> N) (x : entry V) (l : list (entry V)) : list (entry V) :=
  match l with [] => [x] | y :: r => if h (e_key x) <=? h (e_key y) then x :: l else y :: insert_by h x r end.
Definition sort_by (h : N -> N) (l : list (entry V)) : list (entry V) := fold_right (insert_by h) [] l.
Lemma insert_by_perm h x l : Permutation (insert_by h x l) (x :: l).
Proof. induction l as [|y r IH]; cbn; auto. destruct (_ <=? _); auto. rewrite IH. apply perm_swap. Qed.
Lemma sort_by_sorts : sorts sort_by.
Proof.
  intros h l. split.
  - induction l as [|x r IH]; cbn; auto. rewrite insert_by_perm. auto.
  - induction l as [|x r IH]; cbn [sort_by fold_right]; [constructor|]. fold (sort_by h r).
    induction IH as [|y s Hs IHs Hy]; cbn [insert_by]; [repeat constructor|].
    destruct (N.leb_spec (h (e_key x)) (h (e_key y))) as [Hc|Hc].
    + constructor; [constructor; auto|]. constructor; auto. eapply Forall_impl; [|exact Hy]. cbn. intros; lia.
    + constructor; auto. rewrite Forall_forall in *. intros a Ha. rewrite insert_by_perm in Ha.
      destruct Ha as [->|Ha]; [lia|auto].
Qed.
End Sort.

(** ** C23 *)
(** Whatever lookup::make builds answers every query as the map does. *)
Theorem C23_make :
  forall (V : Type) (srt : (N -> N) -> list (entry V) -> list (entry V)), sorts srt ->
  forall w, key_width w -> forall i : input V,
  keys_in w i -> N.of_nat (length (i_entries i)) < 2 ^ 64 ->
  forall l, make srt w i = Some l ->
  forall k, k < 2 ^ w -> exists v n, query l k = Some (Done v, n) /\ is_value i k v.
Proof.
  intros V srt Hs w Hw i Hk Hl l Hm k Hkw.
  destruct (make_right srt Hs w i l (width_pos w Hw) Hk Hl Hm) as (_ & _ & m & Hr).
  destruct (Hr k Hkw) as (v & n & H1 & H2 & _). eauto.
Qed.
Print Assumptions C23_make.
(** Any list of strategies, in any order; a lookup that compiles and did not
    fail is right. *)
Theorem C23_strategies :
  forall (V : Type) (srt : (N -> N) -> list (entry V) -> list (entry V)), sorts srt ->
  forall w, key_width w -> forall i : input V,
  keys_in w i -> N.of_nat (length (i_entries i)) < 2 ^ 64 -> unique_keys i ->
  forall rs, Forall (strategy_result srt w i) rs ->
  forall l, strategies rs = Some l -> l <> Failed ->
  forall k, k < 2 ^ w -> exists v n, query l k = Some (Done v, n) /\ is_value i k v.
Proof.
  intros V srt Hs w Hw i Hk Hl Hu rs Hrs l Hm Hnf k Hkw.
  destruct (strategies_right srt Hs w i rs l (width_pos w Hw) Hk Hl Hu Hrs Hm Hnf) as (m & Hr).
  destruct (Hr k Hkw) as (v & n & H1 & H2 & _). eauto.
Qed.
Print Assumptions C23_strategies.
(** The value is determined by the input. *)
Theorem C23_value_unique :
  forall (V : Type) (i : input V) k v v', unique_keys i -> is_value i k v -> is_value i k v' -> v = v'.
Proof.
  intros V i k v v' Hu [H1|[H1 ->]] [H2|[H2 ->]]; auto.
  - pose proof (nodup_entry (i_entries i) _ _ Hu H1 H2 eq_refl) as H. congruence.
  - exfalso. apply H2. apply (in_map e_key) in H1. auto.
  - exfalso. apply H1. apply (in_map e_key) in H2. auto.
Qed.
Print Assumptions C23_value_unique.
(** lookup::make compiles exactly when the keys are unique and the mask chosen
    for a search length of 2 has at most 30 bits; then it does not fail. *)
Theorem C23_make_compiles :
  forall (V : Type) (srt : (N -> N) -> list (entry V) -> list (entry V)), sorts srt ->
  forall w, key_width w -> forall i : input V,
  keys_in w i -> N.of_nat (length (i_entries i)) < 2 ^ 64 ->
  (exists l, make srt w i = Some l /\ l <> Failed) <->
  unique_keys i /\ popcount w (fst (calc_mask w 2 (map e_key (i_entries i)))) <= 30.
Proof.
  intros V srt Hs w Hw i Hk Hl. split.
  - intros (l & H & _). unfold make in H.
    destruct (pext_make srt w true 2 i) as [lp|] eqn:Hp; [|destruct (linear_make 4 i); discriminate].
    destruct (pext_make_right srt Hs w true 2 i lp (width_pos w Hw) Hk Hl Hp) as (_ & Hu & _). split; auto.
    destruct (N.le_gt_cases (popcount w (fst (calc_mask w 2 (map e_key (i_entries i))))) 30) as [|Hgt]; auto.
    exfalso. assert (Hn : pext_make srt w true 2 i = None) by (apply pext_make_none; auto using width_pos). congruence.
  - intros [Hu Hp]. destruct (pext_make_ok srt Hs w true 2 i (width_pos w Hw) Hk Hl (or_introl eq_refl) Hu Hp) as (lp & H1 & H2 & _).
    assert (Hf : failed lp = false) by (destruct lp; auto; congruence).
    unfold make, linear_make. rewrite H1. destruct (_ <=? 4); cbn [strategies failed]; rewrite Hf.
    + eexists. split; [reflexivity|]. discriminate.
    + exists lp. auto.
Qed.
Print Assumptions C23_make_compiles.

Definition small : input nat :=
  {| i_default := 99%nat; i_entries := map (fun kv => {| e_key := fst kv; e_value := snd kv |})
     (combine [238; 213; 44; 9; 4; 22; 8; 14; 110] [1; 2; 3; 4; 5; 6; 7; 8; 9]%nat) |}.
Example C23_case :
  keys_in 8 small /\ unique_keys small /\
  exists l, make sort_by 8 small = Some l /\
    map (fun k => option_map fst (query l k)) [238; 9; 14; 110; 7; 0] =
    [Some (Done 1); Some (Done 4); Some (Done 8); Some (Done 9); Some (Done 99); Some (Done 99)]%nat.
Proof.
  split; [repeat constructor; cbn; lia|]. split; [apply unique_spec; vm_compute; reflexivity|].
  eexists. split; [vm_compute; reflexivity|]. vm_compute. reflexivity.
Qed.
Example C23_linear_case :
  let i := {| i_default := 5%nat; i_entries := [{| e_key := 300; e_value := 1%nat |}; {| e_key := 2; e_value := 0%nat |}] |} in
  exists l, make sort_by 16 i = Some l /\
    map (fun k => query l k) [300; 2; 3] = [Some (Done 1, 2); Some (Done 0, 2); Some (Done 5, 2)]%nat.
Proof. cbn zeta. eexists. split; vm_compute; reflexivity. Qed.
Example C23_direct_case :
  let i := {| i_default := 5%nat; i_entries := [{| e_key := 300; e_value := 1%nat |}; {| e_key := 2; e_value := 0%nat |}] |} in
  exists l, pext_make sort_by 16 false 1 i = Some l /\
    map (fun k => query l k) [300; 2; 3] = [Some (Done 1, 1); Some (Done 0, 1); Some (Done 5, 1)]%nat.
Proof. cbn zeta. eexists. split; vm_compute; reflexivity. Qed.

(** ** C24 *)
(** No access outside the tables; [query] is [OutOfBounds] on one. *)
Theorem C24_in_bounds :
  forall (V : Type) (srt : (N -> N) -> list (entry V) -> list (entry V)), sorts srt ->
  forall w, key_width w -> forall i : input V,
  keys_in w i -> N.of_nat (length (i_entries i)) < 2 ^ 64 ->
  forall l, (make srt w i = Some l \/ exists ind M, pext_make srt w ind M i = Some l) ->
  forall k, k < 2 ^ w -> exists v n, query l k = Some (Done v, n).
Proof.
  intros V srt Hs w Hw i Hk Hl l Hm k Hkw.
  destruct Hm as [Hm|(ind & M & Hm)].
  - destruct (make_right srt Hs w i l (width_pos w Hw) Hk Hl Hm) as (_ & _ & m & Hr).
    destruct (Hr k Hkw) as (v & n & H1 & H2 & _). eauto.
  - destruct (pext_make_right srt Hs w ind M i l (width_pos w Hw) Hk Hl Hm) as (_ & _ & Hr).
    destruct (Hr k Hkw) as (v & n & H1 & H2 & _). eauto.
Qed.
Print Assumptions C24_in_bounds.
(** Building ends, and fails only for the documented reasons: a direct table
    with a search length other than 1, duplicate keys, too wide a mask. *)
Theorem C24_build_exact :
  forall (V : Type) (srt : (N -> N) -> list (entry V) -> list (entry V)), sorts srt ->
  forall w, key_width w -> forall i : input V,
  keys_in w i -> N.of_nat (length (i_entries i)) < 2 ^ 64 -> forall ind M,
  pext_make srt w ind M i = None <->
  (ind = false /\ M <> 1) \/ ~ unique_keys i \/ 30 < popcount w (fst (calc_mask w M (map e_key (i_entries i)))).
Proof. intros V srt Hs w Hw i Hk Hl ind M. apply pext_make_none; auto using width_pos. Qed.
Print Assumptions C24_build_exact.

Lemma fill_table_values {V} (h : N -> N) b (S : list (entry V)) fuel : forall i t t',
  Forall (fun x => x < N.of_nat (length S)) t -> fill_table fuel h b S i t = Done t' ->
  Forall (fun x => x < N.of_nat (length S)) t' /\ length t' = length t.
Proof.
  induction fuel as [|f IH]; intros i t t' Ht; cbn [fill_table]; [discriminate|].
  destruct (N.ltb_spec i (N.of_nat (length S))) as [Hi|Hi]; [|intros H; injection H as <-; auto].
  destruct (nth_error S _); [|discriminate]. unfold wr. destruct (nth_error t _); [|discriminate]. cbn [bind].
  intros H. apply IH in H.
  - rewrite set_nth_length in H. auto.
  - rewrite Forall_forall in *. intros x Hx. apply In_nth_error in Hx. destruct Hx as [j Hj].
    destruct (Nat.eq_dec (N.to_nat (h (e_key e))) j) as [<-|Hne].
    + destruct (nth_error t (N.to_nat (h (e_key e)))) eqn:E.
      * rewrite (set_nth_same _ _ _ _ E) in Hj. congruence.
      * apply nth_error_None in E. rewrite <- (set_nth_length t (N.to_nat (h (e_key e))) i) in E.
        apply nth_error_None in E. congruence.
    + rewrite set_nth_other in Hj by auto. apply Ht. eapply nth_error_In; eauto.
Qed.
Lemma split_longest_app {V} (h : N -> N) s (rest : list (entry V)) : forall seen len prev,
  let pq := split_longest h s seen len prev rest in fst pq ++ snd pq = rev seen ++ rest.
Proof.
  induction rest as [|e r IH]; intros seen len prev; cbn [split_longest]; cbn zeta; auto.
  destruct (_ =? prev); [rewrite IH; cbn [rev]; rewrite <- app_assoc; reflexivity|].
  destruct (s <=? len); [reflexivity|]. rewrite IH. cbn [rev]. rewrite <- app_assoc. reflexivity.
Qed.
Lemma rotate_perm {V} (h : N -> N) s (l : list (entry V)) : Permutation (rotate_longest h s l) l.
Proof.
  destruct l as [|e r]; cbn; auto. pose proof (split_longest_app h s r [e] 1 (h (e_key e))) as H. cbn zeta in H.
  destruct (split_longest _ _ _ _ _ _) as [a b]. cbn in H. rewrite <- H. apply Permutation_app_comm.
Qed.
(** Every index stored is a position of the storage and a value of the index
    type, and the index table has a slot for every result of pseudo-pext. *)
Theorem C24_index_fits :
  forall (V : Type) (srt : (N -> N) -> list (entry V) -> list (entry V)), sorts srt ->
  forall w i, N.of_nat (length (i_entries i)) < 2 ^ 64 ->
  forall ind M mask d b n t st, pext_make srt w ind M i = Some (Indirect w mask d b n t st) ->
  N.of_nat (length st) < 2 ^ b /\ Forall (fun x => x < N.of_nat (length st)) t /\
  N.of_nat (length t) = 2 ^ popcount w mask /\ Permutation st (i_entries i).
Proof.
  intros V srt Hs w i Hl ind M mask d b n t st. unfold pext_make.
  destruct (negb _); [discriminate|]. destruct (negb _); [discriminate|].
  destruct (calc_mask w M (map e_key (i_entries i))) as [m run]. destruct (30 <? _); [discriminate|].
  destruct (i_entries i) as [|e0 es0] eqn:Hes; [discriminate|]. rewrite <- Hes in *. destruct ind.
  2:{ destruct (fill_direct _ _ _); discriminate. }
  set (S := rotate_longest _ _ _).
  assert (HS : Permutation S (i_entries i)) by (unfold S; rewrite rotate_perm; apply Hs).
  assert (HSl : length S = length (i_entries i)) by (apply Permutation_length; auto).
  destruct (fill_table _ _ _ _ _ _) as [t'| | |] eqn:Ht; try discriminate. intros H. injection H as <- <- <- <- <- <-.
  apply fill_table_values in Ht.
  - destruct Ht as [Ht1 Ht2]. rewrite repeat_length in Ht2.
    destruct (uint_for_fits (N.of_nat (length S))) as [H1 _]; [rewrite HSl; auto|].
    rewrite Ht2, N2Nat.id. auto.
  - apply Forall_forall. intros x Hx. apply repeat_spec in Hx. subst. rewrite HSl, Hes. cbn [length]. lia.
Qed.
Print Assumptions C24_index_fits.
Example C24_case : exists mask d b n t st, pext_make sort_by 8 true 2 small = Some (Indirect 8 mask d b n t st) /\ n = 3 /\ length t = 16%nat.
Proof. eexists _, _, _, _, _, _. split; [vm_compute; reflexivity|]. split; reflexivity. Qed.

(** ** C25 *)
(** False: with a maximum of 2, a query of these nine keys compares three. *)
Theorem C25_refuted :
  exists (i : input nat) (l : lookup_impl nat) (k : N),
    keys_in 8 i /\ unique_keys i /\ pext_make sort_by 8 true 2 i = Some l /\ k < 2 ^ 8 /\
    option_map snd (query l k) = Some 3%nat.
Proof.
  exists small. eexists. exists 110.
  split; [repeat constructor; cbn; lia|]. split; [apply unique_spec; vm_compute; reflexivity|].
  split; [vm_compute; reflexivity|]. split; [reflexivity|]. vm_compute. reflexivity.
Qed.
Print Assumptions C25_refuted.
(** Missing from the property: the bound is M + 1 instead of M (for M of 2 and more). *)
Theorem C25_plus_one_partial :
  forall (V : Type) (srt : (N -> N) -> list (entry V) -> list (entry V)), sorts srt ->
  forall w, key_width w -> forall i : input V,
  keys_in w i -> N.of_nat (length (i_entries i)) < 2 ^ 64 -> forall ind M l,
  pext_make srt w ind M i = Some l ->
  forall k, k < 2 ^ w -> exists v n, query l k = Some (Done v, n) /\ N.of_nat n <= M + 1.
Proof.
  intros V srt Hs w Hw i Hk Hl ind M l Hm k Hkw.
  destruct (pext_make_right srt Hs w ind M i l (width_pos w Hw) Hk Hl Hm) as (_ & _ & Hr).
  destruct (Hr k Hkw) as (v & n & H1 & _ & H3). exists v, n. split; auto.
  destruct ind; [|lia]. destruct (N.ltb_spec 1 M); lia.
Qed.
Print Assumptions C25_plus_one_partial.
(** With a maximum of 1 the bound holds. *)
Theorem C25_one_partial :
  forall (V : Type) (srt : (N -> N) -> list (entry V) -> list (entry V)), sorts srt ->
  forall w, key_width w -> forall i : input V,
  keys_in w i -> N.of_nat (length (i_entries i)) < 2 ^ 64 -> forall ind l,
  pext_make srt w ind 1 i = Some l ->
  forall k, k < 2 ^ w -> exists v n, query l k = Some (Done v, n) /\ (n <= 1)%nat.
Proof.
  intros V srt Hs w Hw i Hk Hl ind l Hm k Hkw.
  destruct (pext_make_right srt Hs w ind 1 i l (width_pos w Hw) Hk Hl Hm) as (_ & _ & Hr).
  destruct (Hr k Hkw) as (v & n & H1 & _ & H3). exists v, n. split; auto. destruct ind; cbn in H3; lia.
Qed.
Print Assumptions C25_one_partial.
(** The bit given up is one that leaves as many different values as any other
    would, and the lowest of those. *)
Definition values_left (w mask : N) (keys : list N) : nat := length (nodup N.eq_dec (map (pext w mask) keys)).
Lemma adjacent_count l : StronglySorted N.le l -> (N.to_nat (adjacent_equal l) + length (nodup N.eq_dec l) = length l)%nat.
Proof.
  induction 1 as [|x r Hr IH Hx]; [reflexivity|]. destruct r as [|y r]; [reflexivity|].
  change (adjacent_equal (x :: y :: r)) with ((if x =? y then 1 else 0) + adjacent_equal (y :: r)).
  assert (I : In x (y :: r) <-> x = y).
  { split; [|intros ->; now left]. intros [->|H]; auto. inversion_clear Hx as [|? ? H1 _]. inversion_clear Hr as [|? ? _ F]. rewrite Forall_forall in F. specialize (F x H). lia. }
  assert (E : nodup N.eq_dec (x :: y :: r) = if in_dec N.eq_dec x (y :: r) then nodup N.eq_dec (y :: r) else x :: nodup N.eq_dec (y :: r)) by reflexivity.
  rewrite E. clear E. destruct (in_dec N.eq_dec x (y :: r)) as [H|H], (N.eqb_spec x y) as [Q|Q]; try (exfalso; tauto).
  - change (length (x :: y :: r)) with (S (length (y :: r))). lia.
  - change (length (x :: y :: r)) with (S (length (y :: r))). change (length (x :: nodup N.eq_dec (y :: r))) with (S (length (nodup N.eq_dec (y :: r)))). lia.
Qed.
Lemma duplicates_left w mask keys : (N.to_nat (count_duplicates (with_mask w mask keys)) + values_left w mask keys = length keys)%nat.
Proof.
  unfold count_duplicates, values_left, with_mask. rewrite <- (map_length (pext w mask) keys). set (l := map (pext w mask) keys).
  rewrite <- (Permutation_length (sortN_perm l)), <- (adjacent_count _ (sortN_sorted l)). f_equal.
  apply Permutation_length, NoDup_Permutation; try apply NoDup_nodup. intros x. rewrite !nodup_In.
  split; apply Permutation_in; [symmetry|]; apply sortN_perm.
Qed.
Theorem C25_cheapest : forall w mask keys, (exists i, i < w /\ N.testbit mask i = true) ->
  exists i, i < w /\ N.testbit mask i = true /\ remove_cheapest_bit w mask keys = N.clearbit mask i /\
    forall j, j < w -> N.testbit mask j = true ->
      (values_left w (N.clearbit mask j) keys <= values_left w (N.clearbit mask i) keys)%nat /\
      (j < i -> (values_left w (N.clearbit mask j) keys < values_left w (N.clearbit mask i) keys)%nat).
Proof.
  intros w mask keys (i0 & H0 & T0).
  set (d i := count_duplicates (with_mask w (N.clearbit mask i) keys)).
  assert (B : forall j, In j (set_bits w mask) <-> j < w /\ N.testbit mask j = true).
  { intros j. unfold set_bits, bit_positions. rewrite filter_In, in_map_iff. split.
    - intros [(n & <- & Hn) T]. apply in_seq in Hn. split; [lia|exact T].
    - intros [Hj T]. split; [|exact T]. exists (N.to_nat j). split; [lia|]. apply in_seq. lia. }
  assert (ORD : StronglySorted N.lt (set_bits w mask)).
  { unfold set_bits, bit_positions. generalize 0%nat at 1. generalize (N.to_nat w). intros n. induction n as [|n IH]; intros a; cbn; [constructor|].
    destruct (N.testbit mask (N.of_nat a)); [|apply IH]. constructor; [apply IH|]. apply Forall_forall. intros x Hx. apply filter_In in Hx as [Hx _].
    apply in_map_iff in Hx as (m & <- & Hm). apply in_seq in Hm. lia. }
  assert (G : forall bits best, StronglySorted N.lt bits -> (forall b e, best = Some (b, e) -> e = d b /\ forall j, In j bits -> b < j) ->
    bits <> [] \/ best <> None ->
    exists i, cheapest w mask keys bits best = Some (i, d i) /\ (In i bits \/ best = Some (i, d i)) /\
      (forall j, In j bits -> d i <= d j /\ (j < i -> d i < d j)) /\ (forall b e, best = Some (b, e) -> d i <= e /\ (i <> b -> d i < e))).
  { induction bits as [|j bits IH]; intros best S Hb Hne.
    - destruct best as [[b e]|]; [|destruct Hne; congruence]. destruct (Hb b e eq_refl) as [-> _]. exists b. cbn. repeat split; auto; try tauto; intros; congruence || (injection H as <- <-; lia).
    - inversion_clear S as [|? ? S' F]. rewrite Forall_forall in F. cbn [cheapest]. fold (d j).
      destruct best as [[b e]|].
      + destruct (Hb b e eq_refl) as [-> Hj]. destruct (N.ltb_spec (d j) (d b)) as [L|L].
        * destruct (IH (Some (j, d j)) S') as (i & E & I & M & K); [intros ? ? [= <- <-]; auto|right; discriminate|]. exists i. split; [exact E|].
          destruct (K j (d j) eq_refl) as [K1 K2]. split; [left; destruct I as [I|[= ->]]; cbn; auto|]. split.
          -- intros x [<-|Hx]; [|auto]. split; [exact K1|]. intros Hlt. apply K2. lia.
          -- intros ? ? [= <- <-]. lia.
        * destruct (IH (Some (b, d b)) S') as (i & E & I & M & K); [intros ? ? [= <- <-]; split; [reflexivity|]; intros x Hx; apply Hj; now right|right; discriminate|]. exists i. split; [exact E|].
          destruct (K b (d b) eq_refl) as [K1 K2]. split; [destruct I as [I|I]; [left; now right|right; exact I]|]. split; [|exact K].
          intros x [<-|Hx]; [|auto]. split; [lia|]. intros Hlt. assert (i <> b) by (specialize (Hj j (or_introl eq_refl)); lia). specialize (K2 H). lia.
      + destruct (IH (Some (j, d j)) S') as (i & E & I & M & K); [intros ? ? [= <- <-]; auto|right; discriminate|]. exists i. split; [exact E|].
        destruct (K j (d j) eq_refl) as [K1 K2]. split; [left; destruct I as [I|[= ->]]; cbn; auto|]. split; [|discriminate].
        intros x [<-|Hx]; [|auto]. split; [exact K1|]. intros Hlt. apply K2. lia. }
  destruct (G (set_bits w mask) None ORD) as (i & E & I & M & _); [discriminate|left; intros X; assert (In i0 []) as [] by (rewrite <- X; apply B; auto)|].
  destruct I as [I|I]; [|discriminate]. exists i. apply B in I as I'. destruct I' as [I1 I2]. split; [exact I1|]. split; [exact I2|]. split; [unfold remove_cheapest_bit; now rewrite E|].
  intros j Hj Tj. destruct (M j (proj2 (B j) (conj Hj Tj))) as [M1 M2]. unfold d in *.
  pose proof (duplicates_left w (N.clearbit mask i) keys). pose proof (duplicates_left w (N.clearbit mask j) keys). split; [lia|]. intros Hlt. specialize (M2 Hlt). lia.
Qed.
Print Assumptions C25_cheapest.
Example C25_cheapest_case : remove_cheapest_bit 8 7 [1; 3; 5; 7] = 6 /\ values_left 8 6 [1; 3; 5; 7] = 4%nat /\ values_left 8 5 [1; 3; 5; 7] = 2%nat.
Proof. repeat split. Qed.
Example C25_case : exists l, pext_make sort_by 8 true 1 small = Some l /\ option_map snd (query l 14) = Some 1%nat.
Proof. eexists. split; vm_compute; reflexivity. Qed.

(** ** C26 *)
(** False: under the 8-bit mask 1011 two keys that differ under the mask meet. *)
Theorem C26_injective_refuted :
  exists w mask u v, key_width w /\ mask < 2 ^ w /\ u < 2 ^ w /\ v < 2 ^ w /\
    N.land u mask <> N.land v mask /\ pext w mask u = pext w mask v.
Proof.
  exists 8, 11. 
  assert (H : exists u v, u < 2 ^ 8 /\ v < 2 ^ 8 /\ N.land u 11 <> N.land v 11 /\ pext 8 11 u = pext 8 11 v).
  { change 11 with (two_stretches 0 2 1 1). apply two_collide; lia. }
  destruct H as (u & v & H). exists u, v. unfold key_width. split; [auto|]. split; [reflexivity|]. exact H.
Qed.
Print Assumptions C26_injective_refuted.
(** Results are below 2^(mask bits) for every mask. *)
Theorem C26_range :
  forall w mask, key_width w -> mask < 2 ^ w -> forall v, pext w mask v < 2 ^ popcount w mask.
Proof. intros w mask _ Hm v. apply pext_range. auto. Qed.
Print Assumptions C26_range.
(** Types below 32 bits are multiplied as int; the product is in range. *)
Theorem C26_no_signed_overflow :
  forall w mask, w = 8 \/ w = 16 -> mask < 2 ^ w -> forall v, v < 2 ^ w -> pext_product w mask v <= 2147483647.
Proof.
  intros w mask Hw Hm v Hv. pose proof (product_no_overflow w mask Hm v ltac:(lia) Hv) as H.
  change (2 ^ 31) with 2147483648 in H. lia.
Qed.
Print Assumptions C26_no_signed_overflow.
(** Injective when the partial products below the gap cannot carry into it. *)
Theorem C26_no_carry_partial :
  forall w mask, key_width w -> mask < 2 ^ w -> overlap w mask < 2 ^ gap_bits w mask ->
  forall u v, pext w mask u = pext w mask v -> N.land u mask = N.land v mask.
Proof. intros w mask _ Hm Ho u v. apply pext_injective; auto. Qed.
Print Assumptions C26_no_carry_partial.
(** A mask of one stretch of [p] bits at [a]: exactly those bits are extracted. *)
Theorem C26_one_stretch_partial :
  forall w a p, key_width w -> 0 < p -> a + p <= w -> forall v, v < 2 ^ w ->
  pext w (stretch a p) v = (v / 2 ^ a) mod 2 ^ p.
Proof. intros w a p _ Hp Ha v Hv. apply contiguous_pext; auto. Qed.
Print Assumptions C26_one_stretch_partial.
(** A mask of two stretches, [p] bits at [a] and [q] bits above a gap of [g]:
    injective exactly when the lower stretch is no longer than the gap. *)
Theorem C26_two_stretches_exact :
  forall w a p g q, key_width w -> 0 < p -> 0 < g -> 0 < q -> a + p + g + q <= w ->
  (forall u v, u < 2 ^ w -> v < 2 ^ w ->
     pext w (two_stretches a p g q) u = pext w (two_stretches a p g q) v ->
     N.land u (two_stretches a p g q) = N.land v (two_stretches a p g q)) <-> p <= g.
Proof. intros w a p g q _ Hp Hg Hq Hs. apply two_exact; auto. Qed.
Print Assumptions C26_two_stretches_exact.
Example C26_case :
  two_stretches 1 2 3 2 = 198 /\ pext 8 198 255 = 15 /\ overlap 8 198 < 2 ^ gap_bits 8 198 /\
  stretch 2 3 = 28 /\ pext 8 28 (255 - 8) = 5 /\
  (* three stretches of one bit *)
  overlap 16 273 < 2 ^ gap_bits 16 273.
Proof. vm_compute. repeat split; reflexivity. Qed.
(** What is used when a table is built: under the mask that is chosen the keys
    of the table are told apart up to the recorded run. *)
Theorem C26_chosen_mask :
  forall w, key_width w -> forall keys, Forall (fun k => k < 2 ^ w) keys -> NoDup keys -> keys <> [] -> forall M,
  let mask := fst (calc_mask w M keys) in
  let run := snd (calc_mask w M keys) in
  mask < 2 ^ w /\
  (forall x, N.of_nat (count_occ N.eq_dec (map (pext w mask) keys) x) <= run + 1) /\
  (M <= 1 -> NoDup (map (pext w mask) keys)).
Proof.
  intros w Hw keys Hk Hu Hne M. cbn zeta.
  destruct (calc_inv w keys (width_pos w Hw) Hk Hu Hne M) as [(H1 & H2 & H3) H4].
  split; auto. split; [exact H2|]. intros HM. apply (NoDup_count_occ N.eq_dec). intros x.
  specialize (H2 x). unfold cnt, with_mask in H2. replace (1 <? M) with false in H4 by lia. lia.
Qed.
Print Assumptions C26_chosen_mask.
Example C26_chosen_case : calc_mask 8 2 [238; 213; 44; 9; 4; 22; 8; 14; 110] = (170, 2) /\ calc_mask 8 1 [1; 2; 4] = (3, 0).
Proof. vm_compute. auto. Qed.

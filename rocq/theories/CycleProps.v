(** C159: the data generated for the lookup benchmarks is one cycle through the keys. *)
From Coq Require Import String Ascii Bool Arith List NArith ZArith Lia Permutation.
From Verif Require Import GenModel OutputModel OutputProofs3 CycleModel CycleSpec.
From Verif Require LookupModel LookupSpec LookupProofs4 LookupProps.
Import ListNotations.

(** ** The cycle *)
Lemma values_nth keys i : i < List.length keys -> nth i (values keys) 0%N = nth (S i mod List.length keys) keys 0%N.
Proof.
  destruct keys as [|k r]; cbn [List.length]; [lia|]. intros H. unfold values. cbn [skipn firstn].
  destruct (Nat.eq_dec i (List.length r)) as [->|N].
  - rewrite Nat.mod_same by lia. rewrite app_nth2, Nat.sub_diag by lia. reflexivity.
  - rewrite Nat.mod_small by lia. rewrite app_nth1 by lia. reflexivity.
Qed.
Lemma values_length keys : List.length (values keys) = List.length keys.
Proof. destruct keys as [|k r]; [reflexivity|]. unfold values. cbn [skipn firstn]. rewrite app_length. cbn. lia. Qed.
Lemma pairs_fst keys : map fst (pairs keys) = keys.
Proof.
  unfold pairs. pose proof (values_length keys) as L. revert L. generalize (values keys) as vs. induction keys as [|k r IH]; intros [|v vs] L; cbn in *; try discriminate; [reflexivity|].
  f_equal. apply IH. lia.
Qed.
Lemma pairs_snd keys : map snd (pairs keys) = values keys.
Proof.
  unfold pairs. pose proof (values_length keys) as L. revert L. generalize (values keys) as vs. induction keys as [|k r IH]; intros [|v vs] L; cbn in *; try discriminate; [reflexivity|].
  f_equal. apply IH. lia.
Qed.
Lemma values_perm keys : Permutation keys (values keys).
Proof. destruct keys as [|k r]; [constructor|]. unfold values. cbn [skipn firstn]. apply Permutation_cons_append. Qed.
Lemma pairs_step keys i b : NoDup keys -> i < List.length keys -> In (nth i keys 0%N, b) (pairs keys) <-> b = nth (S i mod List.length keys) keys 0%N.
Proof.
  intros N H. rewrite <- values_nth by exact H.
  assert (E : forall j, nth j (pairs keys) (0, 0)%N = (nth j keys 0%N, nth j (values keys) 0%N)) by (intros j; apply combine_nth; now rewrite values_length).
  assert (L : List.length (pairs keys) = List.length keys) by (unfold pairs; rewrite combine_length, values_length; lia).
  split.
  - intros I. apply (In_nth _ _ (0, 0)%N) in I as (j & J & X). rewrite E in X. rewrite L in J.
    assert (nth j keys 0%N = nth i keys 0%N) as Y by congruence. apply (proj1 (NoDup_nth keys 0%N) N) in Y; [|assumption|assumption]. subst j. congruence.
  - intros ->. rewrite <- E. apply nth_In. now rewrite L.
Qed.
Lemma walk_nth keys (step : N -> N -> Prop) : NoDup keys -> (forall a b, In a keys -> step a b <-> In (a, b) (pairs keys)) ->
  forall m i b, i < List.length keys -> walk step m (nth i keys 0%N) b <-> b = nth ((i + m) mod List.length keys) keys 0%N.
Proof.
  intros N St0. induction m as [|m IH]; intros i b H.
  - rewrite Nat.add_0_r, Nat.mod_small by exact H. split; [intros W; now inversion W|intros ->; constructor].
  - assert (M : S i mod List.length keys < List.length keys) by (apply Nat.mod_upper_bound; lia).
    assert (Q : (S i mod List.length keys + m) mod List.length keys = (i + S m) mod List.length keys).
    { rewrite Nat.add_mod_idemp_l by lia. f_equal. lia. }
    split.
    + intros W. inversion W as [|? ? c ? St W']; subst. apply St0 in St; [|now apply nth_In]. apply pairs_step in St; auto. subst c.
      apply IH in W'; [|exact M]. now rewrite Q in W'.
    + intros ->. apply Go with (b := nth (S i mod List.length keys) keys 0%N).
      * apply St0; [now apply nth_In|]. now apply pairs_step.
      * apply IH; [exact M|]. now rewrite Q.
Qed.
Lemma cycle keys (step : N -> N -> Prop) : NoDup keys -> (forall a b, In a keys -> step a b <-> In (a, b) (pairs keys)) -> one_cycle step keys.
Proof.
  intros N S. split; [|split].
  - intros n a b b' W W' I. apply (In_nth _ _ 0%N) in I as (i & H & <-). rewrite (walk_nth keys step N S) in W, W' by exact H. congruence.
  - intros a b I J. apply (In_nth _ _ 0%N) in I as (i & H & <-). apply (In_nth _ _ 0%N) in J as (j & H' & <-).
    exists ((j + List.length keys - i) mod List.length keys). split; [apply Nat.mod_upper_bound; lia|].
    rewrite (walk_nth keys step N S) by exact H. f_equal. rewrite Nat.add_mod_idemp_r by lia.
    replace (i + (j + List.length keys - i)) with (j + 1 * List.length keys) by lia. rewrite Nat.mod_add by lia. now rewrite Nat.mod_small.
  - intros n a I. apply (In_nth _ _ 0%N) in I as (i & H & <-). rewrite (walk_nth keys step N S) by exact H.
    assert (M : (i + n) mod List.length keys < List.length keys) by (apply Nat.mod_upper_bound; lia). split.
    + intros E. apply (proj1 (NoDup_nth keys 0%N) N) in E; [|assumption|assumption].
      exists ((i + n) / List.length keys). pose proof (Nat.div_mod (i + n) (List.length keys) ltac:(lia)). lia.
    + intros (m & ->). rewrite Nat.mod_add by lia. now rewrite Nat.mod_small.
Qed.

(** ** The keys *)
Lemma collect_some size draws : forall keys ks, NoDup keys -> List.length keys <= size -> collect size keys draws = Some ks ->
  NoDup ks /\ List.length ks = size /\ (forall k, In k ks -> In k keys \/ In k draws).
Proof.
  induction draws as [|d r IH]; intros keys ks N L; cbn [collect]; destruct (Nat.ltb_spec (List.length keys) size) as [H|H]; intros E; try discriminate.
  - assert (ks = keys) as -> by congruence. split; [exact N|]. split; [lia|auto].
  - destruct (existsb (N.eqb d) keys) eqn:X.
    + apply IH in E as (A & B & C); auto. split; [exact A|]. split; [exact B|]. intros k K. destruct (C k K); [now left|right; now right].
    + apply IH in E as (A & B & C).
      * split; [exact A|]. split; [exact B|]. intros k K. destruct (C k K) as [[<-|K']|K']; [right; now left|now left|right; now right].
      * constructor; [|exact N]. intros I. assert (existsb (N.eqb d) keys = true); [|congruence]. apply existsb_exists. exists d. split; [exact I|apply N.eqb_refl].
      * cbn. lia.
  - assert (ks = keys) as -> by congruence. split; [exact N|]. split; [lia|auto].
Qed.
Lemma collect_none size draws : forall keys, NoDup keys -> collect size keys draws = None ->
  exists ks, NoDup ks /\ List.length ks < size /\ (forall k, In k keys \/ In k draws -> In k ks).
Proof.
  induction draws as [|d r IH]; intros keys N; cbn [collect]; destruct (Nat.ltb_spec (List.length keys) size) as [H|H]; intros E; try discriminate.
  - exists keys. split; [exact N|]. split; [exact H|]. intros k [K|[]]; exact K.
  - destruct (existsb (N.eqb d) keys) eqn:X.
    + apply IH in E as (ks & A & B & C); auto. exists ks. split; [exact A|]. split; [exact B|].
      apply existsb_exists in X as (d' & I & Q). apply N.eqb_eq in Q as <-. intros k [K|[<-|K]]; apply C; auto.
    + apply IH in E as (ks & A & B & C).
      * exists ks. split; [exact A|]. split; [exact B|]. intros k [K|[<-|K]]; apply C; [left; now right|left; now left|now right].
      * constructor; [|exact N]. intros I. assert (existsb (N.eqb d) keys = true); [|congruence]. apply existsb_exists. exists d. split; [exact I|apply N.eqb_refl].
Qed.

(** The entries are as many as asked for, their keys are distinct and were drawn, the values are the keys, and looking up the
    result again and again goes through all of them and back to the start. *)
Theorem C159_cycle : forall order size t draws es, (forall l, Permutation l (order l)) -> entries order size t draws = Some es ->
  List.length es = size /\ NoDup (map fst es) /\ (forall k, In k (map fst es) -> exists x, In x draws /\ k = gen_fn t x) /\
  Permutation (map fst es) (map snd es) /\ one_cycle (fun a b => In (a, b) es) (map fst es).
Proof.
  intros order size t draws es O E. unfold entries in E. destruct (collect size [] (map (gen_fn t) draws)) as [ks|] eqn:C; [|discriminate].
  cbn in E. assert (es = pairs (order ks)) as -> by congruence. apply collect_some in C as (N & L & D); [|constructor|cbn; lia].
  pose proof (Permutation_NoDup (O ks) N) as N'. rewrite pairs_fst, pairs_snd.
  split; [unfold pairs; rewrite combine_length, values_length, Nat.min_id, <- L; symmetry; apply Permutation_length, O|].
  split; [exact N'|]. split; [|split; [apply values_perm|]].
  - intros k K. apply (Permutation_in _ (Permutation_sym (O ks))) in K. destruct (D k K) as [[]|H]. apply in_map_iff in H as (x & <- & H). eauto.
  - apply cycle; [exact N'|]. intros a b _. reflexivity.
Qed.
Print Assumptions C159_cycle.

(** The program comes to an end as soon as enough different keys were drawn. *)
Theorem C159_ends : forall order size t draws, entries order size t draws <> None <->
  exists l, NoDup l /\ List.length l = size /\ forall k, In k l -> exists x, In x draws /\ k = gen_fn t x.
Proof.
  intros order size t draws. unfold entries. destruct (collect size [] (map (gen_fn t) draws)) as [ks|] eqn:C; cbn [option_map].
  - split; [|discriminate]. intros _. apply collect_some in C as (N & L & D); [|constructor|cbn; lia]. exists ks. split; [exact N|]. split; [exact L|].
    intros k K. destruct (D k K) as [[]|H]. apply in_map_iff in H as (x & <- & H). eauto.
  - split; [now intros []|]. intros (l & N & L & D). exfalso. apply collect_none in C as (ks & Nk & Lk & I); [|constructor].
    assert (List.length l <= List.length ks); [|lia]. apply NoDup_incl_length; [exact N|]. intros k K. apply I. right.
    destruct (D k K) as (x & X & ->). now apply in_map.
Qed.
Print Assumptions C159_ends.
(** It never ends when more 16-bit keys are asked for than there are. *)
Theorem C159_never : forall order size draws, (65536 < N.of_nat size)%N -> entries order size Uint16 draws = None.
Proof.
  intros order size draws H. destruct (entries order size Uint16 draws) eqn:E; [|reflexivity]. exfalso.
  assert (X : entries order size Uint16 draws <> None) by congruence. apply C159_ends in X as (ks & N & L & D).
  assert (G : exists m, N.of_nat m = 65536%N) by (exists (N.to_nat 65536); apply N2Nat.id). destruct G as (m & G).
  assert (A : List.length ks <= List.length (map N.of_nat (seq 0 m))).
  { apply NoDup_incl_length; [exact N|]. intros k K. destruct (D k K) as (x & _ & ->). unfold gen_fn.
    assert (N.land x 65535 < 65536)%N. { change 65535%N with (N.ones 16). rewrite N.land_ones. apply N.mod_lt. discriminate. }
    apply in_map_iff. exists (N.to_nat (N.land x 65535)). split; [apply N2Nat.id|]. apply in_seq. lia. }
  rewrite map_length, seq_length in A. lia.
Qed.
Print Assumptions C159_never.

(** Every lookup the library makes of the data goes through all keys in the same way. *)
Definition lookup_input (es : list (N * N)) : LookupModel.input N :=
  {| LookupModel.i_default := 0%N; LookupModel.i_entries := map (fun e => {| LookupModel.e_key := fst e; LookupModel.e_value := snd e |}) es |}.
Theorem C159_lookup : forall order srt, (forall l, Permutation l (order l)) -> LookupSpec.sorts srt ->
  forall w size t draws es, LookupSpec.key_width w -> entries order size t draws = Some es -> (forall x, In x draws -> gen_fn t x < 2 ^ w)%N ->
  (N.of_nat size < 2 ^ 64)%N ->
  forall r l, LookupProofs4.strategy_result srt w (lookup_input es) r -> r = Some l -> l <> LookupModel.Failed ->
  one_cycle (fun a b => exists n, LookupModel.query l a = Some (FieldModel.Done b, n)) (map fst es).
Proof.
  intros order srt O S w size t draws es W E D Z r l R Er NF.
  pose proof (C159_cycle _ _ _ _ _ O E) as (L & N & K & _).
  assert (Mk : map LookupModel.e_key (LookupModel.i_entries (lookup_input es)) = map fst es) by (cbn; rewrite map_map; reflexivity).
  assert (U : LookupSpec.unique_keys (lookup_input es)) by (unfold LookupSpec.unique_keys; rewrite Mk; exact N).
  assert (KI : LookupSpec.keys_in w (lookup_input es)).
  { apply Forall_forall. intros e I. apply (in_map LookupModel.e_key) in I. rewrite Mk in I. destruct (K _ I) as (x & X & Ex). rewrite Ex. auto. }
  assert (Ln : (N.of_nat (List.length (LookupModel.i_entries (lookup_input es))) < 2 ^ 64)%N) by (cbn; rewrite map_length, L; exact Z).
  assert (Q : forall k, (k < 2 ^ w)%N -> exists v n, LookupModel.query l k = Some (FieldModel.Done v, n) /\ LookupSpec.is_value (lookup_input es) k v).
  { apply (LookupProps.C23_strategies _ srt S w W (lookup_input es) KI Ln U [r]).
    - constructor; [exact R|constructor].
    - rewrite Er. cbn. destruct l; try reflexivity; congruence.
    - exact NF. }
  unfold entries in E. destruct (collect size [] (map (gen_fn t) draws)) as [ks|]; [|discriminate].
  cbn in E. assert (es = pairs (order ks)) as -> by congruence. rewrite pairs_fst in *. apply cycle; [exact N|].
  intros a b I. destruct (K a I) as (x & X & Ex). destruct (Q a) as (v & n & Qv & V); [rewrite Ex; auto|].
  assert (Iv : In (a, v) (pairs (order ks))).
  { destruct V as [V|(V & _)]; [|now rewrite Mk in V]. cbn in V. apply in_map_iff in V as ([k v'] & Ev & V). cbn in Ev. assert (k = a /\ v' = v) as (-> & ->) by (split; congruence). exact V. }
  split.
  - intros (m & H). assert (b = v) as -> by congruence. exact Iv.
  - intros H. exists n. assert (b = v) as ->; [|exact Qv]. apply (In_nth _ _ 0%N) in I as (i & Hi & <-). apply pairs_step in H, Iv; auto. congruence.
Qed.
Print Assumptions C159_lookup.

(** ** The text *)
Local Open Scope string_scope.
Lemma small_value a d : digit_in 16 a = Some d -> hex_value (small a) = Some (Z.to_N d).
Proof.
  destruct a as [[] [] [] [] [] [] [] []]; vm_compute; intros H; try discriminate H; injection H as <-; reflexivity.
Qed.
Lemma digit_nonneg a d : digit_in 16 a = Some d -> (0 <= d)%Z.
Proof. destruct a as [[] [] [] [] [] [] [] []]; vm_compute; intros H; try discriminate H; injection H as <-; discriminate. Qed.
Lemma smalls_digits s : forall acc m, (0 <= acc)%Z -> digits_in 16 acc s = Some m -> hex_digits (Z.to_N acc) (smalls s) (Z.to_N m).
Proof.
  induction s as [|a s IH]; intros acc m H; cbn [digits_in smalls].
  - intros [= ->]. constructor.
  - destruct (digit_in 16 a) as [d|] eqn:D; [|discriminate]. intros E. pose proof (digit_nonneg _ _ D).
    apply HexMore with (d := Z.to_N d); [now apply small_value|]. replace (16 * Z.to_N acc + Z.to_N d)%N with (Z.to_N (16 * acc + d)) by lia. apply IH; [lia|exact E].
Qed.
Lemma smalls_app a b : smalls (a ++ b) = smalls a ++ smalls b.
Proof. induction a as [|x a IH]; cbn; [reflexivity|]. now rewrite IH. Qed.
Lemma literal_right n : literal_is (literal n) n.
Proof.
  unfold literal. destruct (hex8_number n) as (s & E & D & L & _). rewrite E. exists (smalls s). rewrite smalls_app. split; [reflexivity|].
  split; [destruct s; [cbn in L; lia|discriminate]|]. rewrite <- (N2Z.id n). change 0%N with (Z.to_N 0).
  apply smalls_digits; [lia|]. unfold some_digits in D. destruct s; [discriminate|exact D].
Qed.
Lemma pair_right e : pair_is (pair_text e) e.
Proof. exists (literal (fst e)), (literal (snd e)). split; [reflexivity|]. split; apply literal_right. Qed.
(** The entries, written down, are initialisers with their values. *)
Theorem C159_text : forall size t es, es <> [] -> exists before inits,
  table_text size t es = before ++ "{{" ++ nl ++ "    " ++ inits ++ nl ++ "}};" ++ nl /\ initialisers inits es.
Proof.
  intros size t es H. exists ("constexpr auto exp_" ++ type_text t ++ "_" ++ str (Z.of_nat size) ++ " = std::array<std::pair<std::" ++ type_text t ++ "_t, std::"
  ++ type_text t ++ "_t>, " ++ str (Z.of_nat size) ++ ">"), (join_with ("," ++ nl ++ "    ") (map pair_text es)). split.
  - unfold table_text. assert (A : forall a b c : string, (a ++ b) ++ c = a ++ b ++ c) by (induction a as [|x a IH]; intros; cbn; [reflexivity|now rewrite IH]).
    rewrite !A. reflexivity.
  - induction es as [|e es IH]; [congruence|]. destruct es as [|e' es]; [constructor; apply pair_right|].
    change (join_with ("," ++ nl ++ "    ") (map pair_text (e :: e' :: es))) with (pair_text e ++ "," ++ (nl ++ "    ") ++ join_with ("," ++ nl ++ "    ") (map pair_text (e' :: es))).
    constructor; [apply pair_right| |apply IH; discriminate]. cbn. intros a. intuition auto.
Qed.
Print Assumptions C159_text.

Example C159_case : entries (fun l => l) 3 Uint16 [5; 65541; 7; 7; 131072]%N = Some [(0, 7); (7, 5); (5, 0)]%N.
Proof. vm_compute. reflexivity. Qed.
Example C159_text_case : map pair_text [(65503, 7)]%N = ["{0x0000ffdfu, 0x00000007u}"].
Proof. vm_compute. reflexivity. Qed.
(** A lookup of the data, and three lookups one after the other. *)
Example C159_lookup_case :
  match LookupModel.pext_make LookupProps.sort_by 16 true 2 (lookup_input [(0, 7); (7, 5); (5, 0)]%N) with
  | Some l => l <> LookupModel.Failed /\
      map (fun k => option_map fst (LookupModel.query l k)) [0; 7; 5]%N = map (fun v => Some (FieldModel.Done v)) [7; 5; 0]%N
  | None => False
  end.
Proof. vm_compute. split; [discriminate|reflexivity]. Qed.

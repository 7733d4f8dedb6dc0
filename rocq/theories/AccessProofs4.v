(** Typed values, fields of a single integer, structured bindings and conditions
    on fields given by name. *)
From Coq Require Import List NArith ZArith Bool Arith Lia Permutation ZifyBool ZifyN ZifyNat.
From Coq Require Import Sorted.
From Verif Require Import FieldModel FieldSpec FieldProofs FieldProofs2 FieldProofs3 MatchModel MatchSpec MatchProofs FieldMatchersModel FieldMatchersSpec FieldMatchersProofs MessageModel MessageSpec MessageProofs MessageProofs2 HandlerModel HandlerSpec HandlerProofs AccessModel AccessSpec AccessProofs.
Import ListNotations.
Local Open Scope N_scope.

(** ** Typed values *)
Lemma pow_N w : Z.of_N (2 ^ w) = (2 ^ Z.of_N w)%Z.
Proof. apply N2Z.inj_pow. Qed.
Lemma half b : 0 < b -> (2 ^ (8 * Z.of_N b) = 2 * 2 ^ (8 * Z.of_N b - 1))%Z.
Proof. intros H. rewrite <- Z.pow_succ_r by lia. f_equal. lia. Qed.
Lemma half_N b : 0 < b -> (Z.of_N (2 ^ (8 * b - 1)) = 2 ^ (8 * Z.of_N b - 1))%Z.
Proof. intros H. rewrite pow_N. f_equal. lia. Qed.
Lemma of_raw_typed s b r : 0 < b -> r < 2 ^ (8 * b) -> of_raw s b r = typed s b r.
Proof.
  intros Hb Hr. unfold of_raw, typed. destruct s; cbn [andb]; auto.
  pose proof (half b Hb) as H2. pose proof (half_N b Hb) as H1.
  assert (Hp : (0 < 2 ^ (8 * Z.of_N b - 1))%Z) by (apply Z.pow_pos_nonneg; lia).
  assert (Hr' : (Z.of_N r < 2 ^ (8 * Z.of_N b))%Z).
  { replace (8 * Z.of_N b)%Z with (Z.of_N (8 * b)) by lia. rewrite <- pow_N. lia. }
  replace (Z.of_N (8 * b)) with (8 * Z.of_N b)%Z by lia.
  destruct (N.leb_spec (2 ^ (8 * b - 1)) r) as [H|H].
  - replace ((Z.of_N r + 2 ^ (8 * Z.of_N b - 1)) mod 2 ^ (8 * Z.of_N b))%Z with (Z.of_N r + 2 ^ (8 * Z.of_N b - 1) - 2 ^ (8 * Z.of_N b))%Z; [lia|].
    apply (Z.mod_unique_pos _ _ 1); lia.
  - rewrite Z.mod_small; lia.
Qed.
Lemma typed_of_type s b r : 0 < b -> r < 2 ^ (8 * b) -> of_type s b (typed s b r).
Proof.
  intros Hb Hr. unfold typed, of_type. pose proof (half b Hb) as H2.
  assert (Hp : (0 < 2 ^ (8 * Z.of_N b - 1))%Z) by (apply Z.pow_pos_nonneg; lia).
  destruct s.
  - pose proof (Z.mod_pos_bound (Z.of_N r + 2 ^ (8 * Z.of_N b - 1)) (2 ^ (8 * Z.of_N b))). lia.
  - replace (8 * Z.of_N b)%Z with (Z.of_N (8 * b)) by lia. rewrite <- pow_N. lia.
Qed.
Lemma to_raw_spec b v : Z.of_N (to_raw b v) = (v mod 2 ^ (8 * Z.of_N b))%Z.
Proof.
  unfold to_raw. replace (Z.of_N (8 * b)) with (8 * Z.of_N b)%Z by lia. apply Z2N.id, Z.mod_pos_bound, Z.pow_pos_nonneg; lia.
Qed.
Lemma to_raw_lt b v : to_raw b v < 2 ^ (8 * b).
Proof.
  assert (H : (Z.of_N (to_raw b v) < Z.of_N (2 ^ (8 * b)))%Z); [|lia].
  rewrite to_raw_spec, pow_N. replace (Z.of_N (8 * b)) with (8 * Z.of_N b)%Z by lia. apply Z.mod_pos_bound, Z.pow_pos_nonneg; lia.
Qed.
Lemma typed_to_raw s b v : 0 < b -> of_type s b v -> typed s b (to_raw b v) = v.
Proof.
  intros Hb Hv. unfold typed, of_type in *. pose proof (half b Hb) as H2.
  assert (Hp : (0 < 2 ^ (8 * Z.of_N b - 1))%Z) by (apply Z.pow_pos_nonneg; lia).
  rewrite to_raw_spec. destruct s; [|apply Z.mod_small; lia].
  rewrite Z.add_mod_idemp_l by lia. rewrite Z.mod_small; lia.
Qed.
(** The value read back. *)
Lemma typed_read es s f v st : narrow es -> field_valid f = true -> disjoint_locs (f_locs f) -> 0 < f_bytes f ->
  storage_ok es st -> fits (nbits es st) (f_locs f) ->
  exists st', insert_value es f v st = Done st' /\ storage_ok es st' /\ length st' = length st /\
    extract_value_of es s f st' = Done (typed s (f_bytes f) (to_raw (f_bytes f) v mod 2 ^ width f)).
Proof.
  intros He Hf Hd Hb Hs Hfit. destruct (field_valid_wf f Hf) as (Hwf & Hw & Hew).
  assert (Hr : to_raw (f_bytes f) v < 2 ^ f_ew f).
  { pose proof (to_raw_lt (f_bytes f) v). assert (2 ^ (8 * f_bytes f) <= 2 ^ f_ew f) by (apply N.pow_le_mono_r; lia). lia. }
  destruct (field_insert_spec es (f_ew f) (f_locs f) (to_raw (f_bytes f) v) st) as (st' & E & Hl & Hok & _ & Hc & _);
    auto using narrow_ew, narrow_ok, narrow_le.
  exists st'. unfold insert_value. repeat split; auto.
  unfold extract_value_of. rewrite extract_value; auto.
  2:{ unfold nbits in *. rewrite Hl. auto. }
  cbn [bind]. unfold value_in. rewrite Hc. fold (width f). rewrite of_raw_typed; auto.
  assert (to_raw (f_bytes f) v mod 2 ^ width f <= to_raw (f_bytes f) v) by (apply N.mod_le, N.pow_nonzero; lia).
  pose proof (to_raw_lt (f_bytes f) v). lia.
Qed.
Lemma typed_back s f v : field_valid f = true -> 0 < f_bytes f -> of_type s (f_bytes f) v ->
  (typed s (f_bytes f) (to_raw (f_bytes f) v mod 2 ^ width f) = v <->
   (0 <= v < 2 ^ Z.of_N (width f))%Z \/ width f = 8 * f_bytes f).
Proof.
  intros Hf Hb Hv. destruct (field_valid_wf f Hf) as (_ & Hw & _).
  destruct (N.eq_dec (width f) (8 * f_bytes f)) as [E|E].
  - rewrite E, N.mod_small by apply to_raw_lt. rewrite typed_to_raw; auto. tauto.
  - set (r := to_raw (f_bytes f) v mod 2 ^ width f).
    assert (Hr : r < 2 ^ width f) by (apply N.mod_lt, N.pow_nonzero; lia).
    assert (Hwp : 2 ^ width f <= 2 ^ (8 * f_bytes f - 1)) by (apply N.pow_le_mono_r; lia).
    assert (Hr2 : r < 2 ^ (8 * f_bytes f)).
    { assert (2 ^ (8 * f_bytes f - 1) <= 2 ^ (8 * f_bytes f)) by (apply N.pow_le_mono_r; lia). lia. }
    rewrite <- of_raw_typed by auto. unfold of_raw.
    destruct (N.leb_spec (2 ^ (8 * f_bytes f - 1)) r) as [H|H]; [lia|]. rewrite andb_false_r.
    assert (Er : Z.of_N r = (v mod 2 ^ Z.of_N (width f))%Z).
    { unfold r. rewrite N2Z.inj_mod by (apply N.pow_nonzero; lia). rewrite to_raw_spec, pow_N.
      replace (8 * Z.of_N (f_bytes f))%Z with (Z.of_N (width f) + (8 * Z.of_N (f_bytes f) - Z.of_N (width f)))%Z by lia.
      rewrite Z.pow_add_r by lia. rewrite Z.rem_mul_r by (try apply Z.pow_pos_nonneg; try apply Z.pow_nonzero; lia).
      rewrite Z.mul_comm, Z.mod_add by (apply Z.pow_nonzero; lia). apply Z.mod_mod, Z.pow_nonzero; lia. }
    rewrite Er. split.
    + intros Q. left. rewrite <- Q. apply Z.mod_pos_bound, Z.pow_pos_nonneg; lia.
    + intros [Q|Q]; [|congruence]. apply Z.mod_small. auto.
Qed.
Lemma can_hold_spec f v : can_hold f v = true <-> v < 2 ^ width f.
Proof.
  unfold can_hold, width, f_locs. rewrite total_size_ats. generalize (fold_right (fun a n => at_size a + n) 0 (f_ats f)). intros w.
  rewrite N.leb_le. destruct (N.eq_dec v 0) as [->|Hv].
  - cbn. split; intros _; [apply N.neq_0_lt_0, N.pow_nonzero; lia|lia].
  - rewrite N.size_log2 by auto. rewrite N.log2_lt_pow2 by lia. lia.
Qed.

(** ** Fields of a single integer *)
Lemma max_msb l : forall m w, fold_left (fun m a => N.max m (a_msb a)) l m < w <-> m < w /\ Forall (fun a => a_msb a < w) l.
Proof.
  induction l as [|a l IH]; intros m w; cbn [fold_left].
  - split; [intros H; split; auto|tauto].
  - rewrite IH. split.
    + intros [H1 H2]. split; [lia|]. constructor; auto; lia.
    + intros [H1 H2]. inversion H2; subst. split; auto; lia.
Qed.
Lemma in_integer_spec w f : 0 < w -> field_valid f = true -> (in_integer w f = true <-> fits w (f_locs f)).
Proof.
  intros Hw Hf. unfold in_integer. rewrite N.ltb_lt, max_msb.
  assert (Hv : forall a, In a (f_ats f) -> at_valid a = true).
  { unfold field_valid in Hf. rewrite !andb_true_iff in Hf. destruct Hf as [[Hf _] _]. rewrite forallb_forall in Hf. auto. }
  split.
  - intros [_ H] l Hl. unfold f_locs in Hl. apply in_map_iff in Hl as (a & <- & Ha). rewrite Forall_forall in H. specialize (H a Ha).
    destruct (at_loc_wf a (Hv a Ha)) as [[_ Hp] _].
    pose proof (proj1 (at_loc_covers a (loc_start (at_loc a) + l_size (at_loc a) - 1) (Hv a Ha))) as Hc. unfold loc_covers in Hc. lia.
  - intros H. split; auto. apply Forall_forall. intros a Ha. specialize (H (at_loc a) (in_map at_loc _ _ Ha)).
    assert (Hle : a_lsb a <= a_msb a). { pose proof (Hv a Ha) as Q. unfold at_valid in Q. lia. }
    pose proof (proj2 (at_loc_covers a (a_msb a) (Hv a Ha)) ltac:(lia)) as Hc. unfold loc_covers in Hc. lia.
Qed.
Lemma image_one w u : image w [u] = u.
Proof. cbn [image]. lia. Qed.
Lemma nbits_one w u : nbits w [u] = w.
Proof. unfold nbits. cbn [length]. lia. Qed.
Lemma narrow_pos w : narrow w -> 0 < w.
Proof. intros H. apply elem_pos, narrow_ew. auto. Qed.
Lemma extract_int_spec w f u : narrow w -> field_valid f = true -> u < 2 ^ w ->
  extract_int w f u = if in_integer w f then Some (Done (concat_value u (f_locs f))) else None.
Proof.
  intros Hw Hf Hu. unfold extract_int. destruct (in_integer w f) eqn:E; auto.
  apply in_integer_spec in E; auto using narrow_pos. rewrite extract_value; auto.
  - unfold value_in. rewrite image_one. auto.
  - constructor; auto.
  - rewrite nbits_one. auto.
Qed.
Lemma insert_int_spec w f v u o : narrow w -> field_valid f = true -> disjoint_locs (f_locs f) -> u < 2 ^ w -> v < 2 ^ f_ew f ->
  insert_int w f v u = Some o ->
  exists u', o = Done u' /\ u' < 2 ^ w /\
    (forall k, N.testbit u' k = match place (f_locs f) v k with Some b => b | None => N.testbit u k end) /\
    concat_value u' (f_locs f) = v mod 2 ^ width f.
Proof.
  intros Hw Hf Hd Hu Hv. unfold insert_int. destruct (in_integer w f) eqn:E; [|discriminate]. cbn [andb].
  destruct (mutable_ _); [|discriminate]. apply in_integer_spec in E; auto using narrow_pos.
  destruct (field_valid_wf f Hf) as (Hwf & _).
  assert (Hs : storage_ok w [u]) by (constructor; auto).
  assert (Hfit : fits (nbits w [u]) (f_locs f)) by (rewrite nbits_one; auto).
  destruct (field_insert_spec w (f_ew f) (f_locs f) v [u]) as (st' & Ei & Hl & Hok & _ & Hc & Hb);
    auto using narrow_ew, narrow_ok, narrow_le.
  intros H. injection H as <-. rewrite Ei. cbn [bind].
  destruct st' as [|u' [|? ?]]; try discriminate. cbn [hd]. exists u'. rewrite image_one in Hc.
  inversion Hok; subst. repeat split; auto. intros k. specialize (Hb k). rewrite !image_one in Hb. auto.
Qed.

(** ** Structured bindings *)
Lemma bindings_spec es l d st : narrow es -> message l = Some d -> storage_ok es st -> fields_fit (nbits es st) d ->
  bindings es d st = map (fun f => Some (Done (value_in es st f))) d /\ Permutation d l /\
  StronglySorted (fun a b => key_of a <= key_of b) d.
Proof.
  intros He Hm Hs Hf. destruct (message_spec l d Hm) as (Hnd & Hloc & Hv & Ed & Hp).
  assert (Hnd' : NoDup (map f_name d)).
  { eapply Permutation_NoDup; [|exact Hnd]. apply Permutation_map. symmetry. auto. }
  split; [|split; auto; subst d; apply sort_sorted].
  unfold bindings. apply map_ext_in. intros f Hin. unfold m_get. rewrite find_field_in by auto.
  assert (Hval : field_valid f = true).
  { rewrite forallb_forall in Hv. apply Hv. eapply Permutation_in; eauto. }
  replace (field_fits _ _) with true; [rewrite extract_value; auto|].
  symmetry. unfold field_fits. apply forallb_forall. intros x Hx. unfold loc_fits, l_msb. specialize (Hf f Hin x Hx).
  unfold nbits, loc_start in Hf. lia.
Qed.

(** ** Conditions by name *)
Section Closed.
Context {E : Type}.
Variable ftype : nat -> cty.
Variable sem : leaf -> E -> bool.
Variable U : leaf -> Prop.
Hypothesis T : truthful sem leaf_eqb (leaf_implies ftype) leaf_neg U.
Lemma fsimplify_leaves m : all_leaves U m -> all_leaves U (fsimplify ftype m).
Proof. intros H. apply (simplify_sound sem _ _ _ U T m H). Qed.
Lemma ops_leaves a b : all_leaves U a -> all_leaves U b ->
  all_leaves U (fand ftype a b) /\ all_leaves U (for_ ftype a b) /\ all_leaves U (fnot ftype a).
Proof.
  intros Ha Hb. unfold fand, for_, fnot, op_and, op_or, op_not. repeat split; apply fsimplify_leaves; cbn [all_leaves]; auto.
  apply (negate_allU sem _ _ _ U T); auto.
Qed.
End Closed.

Section Makers.
Variable ftab : nat -> mfield.
Variable ftype : nat -> cty.
Notation make := (make_matcher ftab ftype).

Lemma find_name_spec ids n i : find_name ftab ids n = Some i -> In i ids /\ f_name (ftab i) = n.
Proof. unfold find_name. intros H. apply find_some in H as [H1 H2]. apply Nat.eqb_eq in H2. auto. Qed.
Lemma find_name_none ids n : find_name ftab ids n = None <-> ~ In n (map (fun i => f_name (ftab i)) ids).
Proof.
  unfold find_name. split.
  - intros H Hin. apply in_map_iff in Hin as (i & E & Hi). pose proof (find_none _ _ H i Hi) as Q. cbn in Q. rewrite E, Nat.eqb_refl in Q. discriminate.
  - intros H. destruct (find _ ids) as [i|] eqn:E; auto. exfalso. apply find_some in E as [H1 H2]. apply Nat.eqb_eq in H2.
    apply H. apply in_map_iff. eauto.
Qed.
Lemma or_makers_some ids n vs : forall acc, find_name ftab ids n <> None -> or_makers ftab ftype ids n acc vs <> None.
Proof.
  induction vs as [|v vs IH]; intros acc H; cbn [or_makers]; [discriminate|]. unfold make_rel. destruct (find_name ftab ids n); [|congruence]. auto.
Qed.
(** A condition compiles iff its names are those of fields and no list is empty. *)
Lemma make_compiles ids m : make ids m <> None <->
  incl (names_in m) (map (fun i => f_name (ftab i)) ids) /\ no_empty_in m.
Proof.
  induction m as [n o v|a IH|a IHa b IHb|a IHa b IHb|n vs|x]; cbn [make_matcher names_in no_empty_in].
  - unfold make_rel. destruct (find_name ftab ids n) eqn:E.
    + split; [|discriminate]. intros _. split; auto. apply find_name_spec in E as [H1 <-]. intros y [<-|[]]. apply in_map_iff; eauto.
    + split; [congruence|]. intros [H _]. exfalso. apply find_name_none in E. apply E, H. left; auto.
  - rewrite <- IH. destruct (make ids a); cbn; split; congruence.
  - destruct (make ids a), (make ids b); (split; [intros H|intros [H1 [H2 H3]] Q]); try congruence.
    + destruct (proj1 IHa ltac:(discriminate)), (proj1 IHb ltac:(discriminate)). split; [apply incl_app|]; auto.
    + apply incl_app_inv in H1 as [H1 H1']. apply (proj2 IHb); auto.
    + apply incl_app_inv in H1 as [H1 H1']. apply (proj2 IHa); auto.
    + apply incl_app_inv in H1 as [H1 H1']. apply (proj2 IHa); auto.
  - destruct (make ids a), (make ids b); (split; [intros H|intros [H1 [H2 H3]] Q]); try congruence.
    + destruct (proj1 IHa ltac:(discriminate)), (proj1 IHb ltac:(discriminate)). split; [apply incl_app|]; auto.
    + apply incl_app_inv in H1 as [H1 H1']. apply (proj2 IHb); auto.
    + apply incl_app_inv in H1 as [H1 H1']. apply (proj2 IHa); auto.
    + apply incl_app_inv in H1 as [H1 H1']. apply (proj2 IHa); auto.
  - destruct vs as [|v vs]; [split; [congruence|tauto]|]. unfold make_rel. destruct (find_name ftab ids n) eqn:E.
    + split; [|intros _; apply or_makers_some; congruence]. intros _. split; auto.
      apply find_name_spec in E as [H1 <-]. intros y [<-|[]]. apply in_map_iff; eauto.
    + split; [congruence|]. intros [H _]. exfalso. apply find_name_none in E. apply E, H. left; auto.
  - split; [|discriminate]. intros _. split; [intros y []|auto].
Qed.

(** The meaning, given the meaning of the operators on expressions of a class [K]. *)
Section Meaning.
Variable E : Type.
Variable e : E.
Variable ids : list nat.
Variable fld : nat -> E -> Z.
Variable psem : nat -> E -> bool.
Variable value : nat -> Z.
Hypothesis Hval : forall i, In i ids -> fld i e = value (f_name (ftab i)).
Variable K : fexpr -> Prop.
Notation ev x := (eval (leaf_sem fld psem) x e).
Hypothesis Kand : forall a b, K a -> K b -> K (fand ftype a b) /\ ev (fand ftype a b) = ev a && ev b.
Hypothesis Kor : forall a b, K a -> K b -> K (for_ ftype a b) /\ ev (for_ ftype a b) = ev a || ev b.
Variable P : nat -> bool -> Z -> Prop.
Variable negative : bool.
Hypothesis Knot : negative = true -> forall a, K a -> K (fnot ftype a) /\ ev (fnot ftype a) = negb (ev a).
Hypothesis Kleaf : forall i o v, In i ids -> P (f_name (ftab i)) (match o with REq | RNe => true | _ => false end) v ->
  (negative = true \/ o <> RNe) -> K (Leaf (Rel i o v)).

Lemma or_makers_meaning n vs : forall acc x, K acc -> Forall (P n true) vs -> or_makers ftab ftype ids n acc vs = Some x ->
  K x /\ (ev x = true <-> ev acc = true \/ In (value n) vs).
Proof.
  induction vs as [|v vs IH]; intros acc x Ka HP; cbn [or_makers].
  - intros H. injection H as <-. cbn. tauto.
  - inversion HP; subst. unfold make_rel. destruct (find_name ftab ids n) as [i|] eqn:Ef; [|discriminate].
    apply find_name_spec in Ef as [Hi Hn]. intros H.
    destruct (Kor acc (Leaf (Rel i REq v)) Ka) as [K1 E1]. { apply Kleaf; auto; [rewrite Hn; auto|right; discriminate]. }
    destruct (IH _ _ K1 ltac:(auto) H) as [K2 E2]. split; auto. rewrite E2, E1, orb_true_iff. cbn [eval leaf_sem relb].
    rewrite Hval, Hn by auto. rewrite Z.eqb_eq. cbn [In]. split; intuition.
Qed.
Lemma make_meaning m : forall x, constants P m -> wrapped K m -> (negative = true \/ plain m) -> make ids m = Some x ->
  K x /\ (ev x = true <-> condition value (fun y => ev y = true) m).
Proof.
  induction m as [n o v|a IH|a IHa b IHb|a IHa b IHb|n vs|y]; intros x HP HW Hn; cbn [make_matcher constants wrapped condition] in *.
  - unfold make_rel. destruct (find_name ftab ids n) as [i|] eqn:Ef; [|discriminate].
    apply find_name_spec in Ef as [Hi En]. intros H. injection H as <-. split.
    + apply Kleaf; auto; [rewrite En; auto|]. destruct Hn as [Hn|Hn]; auto. right. intros ->. destruct Hn.
    + cbn [eval leaf_sem]. rewrite Hval, En by auto. apply relb_spec.
  - destruct (make ids a) as [xa|] eqn:Ea; cbn; [|discriminate]. intros H. injection H as <-.
    destruct Hn as [Hn|[]]. destruct (IH xa HP HW (or_introl Hn) eq_refl) as [K1 E1].
    destruct (Knot Hn xa K1) as [K2 E2]. split; auto. rewrite E2, <- E1. destruct (ev xa); cbn; split; congruence.
  - destruct (make ids a) as [xa|] eqn:Ea; [|discriminate]. destruct (make ids b) as [xb|] eqn:Eb; [|discriminate].
    intros H. injection H as <-. destruct HP, HW.
    destruct (IHa xa) as [K1 E1]; auto. { cbn in Hn; tauto. }
    destruct (IHb xb) as [K2 E2]; auto. { cbn in Hn; tauto. }
    destruct (Kand xa xb K1 K2) as [K3 E3]. split; auto. rewrite E3, andb_true_iff, E1, E2. tauto.
  - destruct (make ids a) as [xa|] eqn:Ea; [|discriminate]. destruct (make ids b) as [xb|] eqn:Eb; [|discriminate].
    intros H. injection H as <-. destruct HP, HW.
    destruct (IHa xa) as [K1 E1]; auto. { cbn in Hn; tauto. }
    destruct (IHb xb) as [K2 E2]; auto. { cbn in Hn; tauto. }
    destruct (Kor xa xb K1 K2) as [K3 E3]. split; auto. rewrite E3, orb_true_iff, E1, E2. tauto.
  - destruct vs as [|v vs]; [discriminate|]. inversion HP; subst. unfold make_rel. destruct (find_name ftab ids n) as [i|] eqn:Ef; [|discriminate].
    apply find_name_spec in Ef as [Hi En]. intros H.
    assert (K0 : K (Leaf (Rel i REq v))). { apply Kleaf; auto; [rewrite En; auto|right; discriminate]. }
    destruct (or_makers_meaning n vs _ x K0 ltac:(auto) H) as [K1 E1]. split; auto. rewrite E1. cbn [eval leaf_sem relb In].
    rewrite Hval, En by auto. rewrite Z.eqb_eq. split; intuition.
  - intros H. injection H as <-. tauto.
Qed.
End Meaning.

(** ** The values of the fields of what comes in *)
Variable es : N.
Hypothesis He : narrow es.
Hypothesis Hft : forall i, field_valid (ftab i) = true /\ type_fits (ftype i) (ftab i).

Lemma type_pos i : 0 < f_bytes (ftab i).
Proof. destruct (Hft i) as [_ H]. unfold type_fits in H. destruct (ftype i); destruct H; lia. Qed.
Lemma type_ok i : cty_ok (ftype i).
Proof. pose proof (type_pos i) as Hp. destruct (Hft i) as [_ H]. unfold type_fits in H. unfold cty_ok. destruct (ftype i); auto; lia. Qed.
Lemma typed_in_range i r : r < 2 ^ width (ftab i) -> in_range (ftype i) (typed (signed_type (ftype i)) (f_bytes (ftab i)) r).
Proof.
  intros Hr. destruct (Hft i) as [Hv Ht]. destruct (field_valid_wf _ Hv) as (_ & Hw & _).
  assert (Hr2 : r < 2 ^ (8 * f_bytes (ftab i))).
  { assert (2 ^ width (ftab i) <= 2 ^ (8 * f_bytes (ftab i))) by (apply N.pow_le_mono_r; lia). lia. }
  pose proof (typed_of_type (signed_type (ftype i)) (f_bytes (ftab i)) r (type_pos i) Hr2) as H.
  unfold in_range, type_fits, of_type in *. destruct (ftype i) as [w [|]| |w [|]]; cbn [signed_type cmin cmax] in *;
    try (destruct Ht as [-> _]; lia).
  destruct Ht as [_ Hw1]. cbn [typed]. assert (2 ^ width (ftab i) <= 2 ^ 1) by (apply N.pow_le_mono_r; lia). cbn in *. lia.
Qed.
Lemma raw_in_range i st r : storage_ok es st -> field_extract es (f_ew (ftab i)) (f_locs (ftab i)) st = Done r -> r < 2 ^ width (ftab i).
Proof.
  intros Hs E. destruct (Hft i) as [Hv _]. destruct (field_valid_wf _ Hv) as (Hwf & _).
  assert (Hfit : fits (nbits es st) (f_locs (ftab i))).
  { apply (field_extract_oob es (f_ew (ftab i))); auto using narrow_ew, narrow_read_ok, narrow_le. eauto. }
  rewrite extract_value in E by auto. injection E as <-. apply concat_lt.
Qed.
Lemma signed_same t : is_signed t = signed_type t.
Proof. destruct t; auto. Qed.
Lemma read_in_range i st o : storage_ok es st -> (forall r, o = Done r -> r < 2 ^ width (ftab i)) ->
  in_range (ftype i) match o with Done r => of_raw (is_signed (ftype i)) (f_bytes (ftab i)) r | _ => 0%Z end.
Proof.
  intros Hs Ho. destruct (Hft i) as [Hv _]. destruct (field_valid_wf _ Hv) as (_ & Hw & _).
  assert (H0 : in_range (ftype i) 0%Z).
  { replace 0%Z with (typed (signed_type (ftype i)) (f_bytes (ftab i)) 0).
    - apply typed_in_range. apply N.neq_0_lt_0, N.pow_nonzero. lia.
    - unfold typed. destruct (signed_type _); auto. pose proof (half _ (type_pos i)).
      assert (0 < 2 ^ (8 * Z.of_N (f_bytes (ftab i)) - 1))%Z by (apply Z.pow_pos_nonneg; pose proof (type_pos i); lia).
      rewrite Z.mod_small; lia. }
  destruct o as [r| | |]; auto. specialize (Ho r eq_refl). rewrite of_raw_typed, signed_same; [apply typed_in_range; auto|apply type_pos|].
  assert (2 ^ width (ftab i) <= 2 ^ (8 * f_bytes (ftab i))) by (apply N.pow_le_mono_r; lia). lia.
Qed.

Notation names_apart := (AccessSpec.names_apart ftab).
Notation value_of := (AccessSpec.value_of ftab ftype es).
Notation carries := (AccessSpec.carries ftab es).
Notation consts_one := (AccessSpec.consts_one ftab ftype).
Notation class_one := (AccessSpec.class_one ftab ftype).
Notation consts_in_range := (AccessSpec.consts_in_range ftab ftype).
Notation class_plain := (AccessSpec.class_plain ftype).

Lemma find_table ids i : names_apart ids -> In i ids -> find (fun j => Nat.eqb (f_name (ftab j)) (f_name (ftab i))) ids = Some i.
Proof.
  intros Hn Hi. destruct (find _ ids) as [j|] eqn:E.
  - apply find_some in E as [Hj Q]. apply Nat.eqb_eq in Q. f_equal. apply Hn; auto.
  - exfalso. pose proof (find_none _ _ E i Hi) as Q. cbn in Q. rewrite Nat.eqb_refl in Q. discriminate.
Qed.
Lemma find_field_map n ids : find_field n (map ftab ids) = option_map ftab (find (fun i => Nat.eqb (f_name (ftab i)) n) ids).
Proof.
  unfold find_field, has_name. induction ids as [|i ids IH]; cbn [map find]; auto. destruct (Nat.eqb (f_name (ftab i)) n); auto.
Qed.
Lemma extract_field_in ids e i : names_apart ids -> carries ids e -> In i ids ->
  extract_field ftab ftype es i e = value_of ids (storage_of e) (f_name (ftab i)).
Proof.
  intros Hn (Hs & Hf & He') Hi. unfold value_of. rewrite find_table by auto.
  assert (Hfi : fits (nbits es (storage_of e)) (f_locs (ftab i))) by (apply Hf, in_map; auto).
  destruct (Hft i) as [Hv _]. destruct (field_valid_wf _ Hv) as (_ & Hw & _).
  assert (Hx : value_in es (storage_of e) (ftab i) < 2 ^ (8 * f_bytes (ftab i))).
  { assert (value_in es (storage_of e) (ftab i) < 2 ^ width (ftab i)) by apply concat_lt.
    assert (2 ^ width (ftab i) <= 2 ^ (8 * f_bytes (ftab i))) by (apply N.pow_le_mono_r; lia). lia. }
  unfold extract_field. destruct e as [ids' st|st]; cbn [storage_of] in *.
  - subst ids'. unfold m_get. rewrite find_field_map, find_table by auto. cbn [option_map].
    replace (field_fits _ _) with true. 2:{ symmetry. unfold field_fits. apply forallb_forall. intros x Hx'. unfold loc_fits, l_msb.
      specialize (Hfi x Hx'). unfold nbits, loc_start in Hfi. lia. }
    rewrite extract_value by auto. rewrite of_raw_typed, signed_same; auto using type_pos.
  - rewrite extract_value by auto. rewrite of_raw_typed, signed_same; auto using type_pos.
Qed.
Lemma extract_field_range ids e i : names_apart ids -> carries ids e -> in_range (ftype i) (extract_field ftab ftype es i e).
Proof.
  intros Hn (Hs & Hf & He'). unfold extract_field. apply (read_in_range i (storage_of e)); auto. intros r.
  destruct e as [ids' st|st]; cbn [storage_of] in *.
  - subst ids'. unfold m_get. rewrite find_field_map. destruct (find _ ids) as [j|] eqn:E; cbn [option_map]; [|discriminate].
    apply find_some in E as [Hj Q]. apply Nat.eqb_eq in Q.
    assert (j = i) as ->. { symmetry. apply Hn; auto. }
    destruct (field_fits _ _); [|discriminate]. apply raw_in_range; auto.
  - apply raw_in_range; auto.
Qed.

Variable psem : nat -> incoming -> bool.
Notation sem := (leaf_sem (extract_field ftab ftype es) psem).
(** One event at a time. *)
Lemma eval_at e (m : fexpr) : eval (leaf_sem (fun i (_ : unit) => extract_field ftab ftype es i e) (fun p _ => psem p e)) m tt = eval sem m e.
Proof. induction m as [l| | |a IHa b IHb|a IHa b IHb|a IHa]; cbn [eval]; auto; try congruence. Qed.

Lemma plain_positive x : class_plain x <-> positive (Upos ftype) x.
Proof. unfold AccessSpec.class_plain, Upos. induction x; cbn [negation_free positive]; tauto. Qed.

Section Event.
Variable ids : list nat.
Variable e : incoming.
Hypothesis Hn : names_apart ids.
Hypothesis Hc : carries ids e.
Notation fld1 := (fun i (_ : unit) => extract_field ftab ftype es i e).
Notation ps1 := (fun p (_ : unit) => psem p e).
Notation ev x := (eval sem x e).
Lemma fld_range : forall f (u : unit), in_range (ftype f) (fld1 f u).
Proof. intros f u. apply extract_field_range with (ids := ids); auto. Qed.

Lemma one_constant c m x : constants (consts_one ids c) m -> wrapped (class_one c) m -> make ids m = Some x ->
  class_one c x /\ (ev x = true <-> condition (value_of ids (storage_of e)) (fun y => ev y = true) m).
Proof.
  intros HP HW Hm. pose proof (truthful_one ftype fld1 ps1 type_ok fld_range (fun i => c (f_name (ftab i)))) as T.
  destruct (ops_sound _ _ _ _ _ T) as (_ & Sand & Sor & Snot & _).
  apply (make_meaning incoming e ids (extract_field ftab ftype es) psem (value_of ids (storage_of e))) with (K := class_one c) (P := consts_one ids c) (negative := true); auto.
  - intros i Hi. apply extract_field_in; auto.
  - intros a b Ka Kb. split; [apply (ops_leaves _ _ _ T a b); auto|]. rewrite <- !eval_at. apply (Sand a b Ka Kb tt).
  - intros a b Ka Kb. split; [apply (ops_leaves _ _ _ T a b); auto|]. rewrite <- !eval_at. apply (Sor a b Ka Kb tt).
  - intros _ a Ka. split; [apply (ops_leaves _ _ _ T a a); auto|]. rewrite <- !eval_at. apply (Snot a Ka tt).
  - intros i o v Hi [H1 H2] _. split; [cbn; auto|]. destruct o; cbn; auto.
Qed.

Lemma plain_condition m x : plain m -> constants (consts_in_range ids) m -> wrapped class_plain m -> make ids m = Some x ->
  class_plain x /\ (ev x = true <-> condition (value_of ids (storage_of e)) (fun y => ev y = true) m).
Proof.
  intros Hp HP HW Hm.
  apply (make_meaning incoming e ids (extract_field ftab ftype es) psem (value_of ids (storage_of e))) with (K := class_plain) (P := consts_in_range ids) (negative := false); auto.
  - intros i Hi. apply extract_field_in; auto.
  - intros a b Ka Kb. rewrite !plain_positive in *. destruct (positive_and ftype fld1 ps1 type_ok fld_range a b Ka Kb) as [H1 H2]. split; auto. rewrite <- !eval_at. apply H2.
  - intros a b Ka Kb. rewrite !plain_positive in *. destruct (positive_or ftype fld1 ps1 type_ok fld_range a b Ka Kb) as [H1 H2]. split; auto. rewrite <- !eval_at. apply H2.
  - discriminate.
  - intros i o v Hi H1 [H2|H2]; [discriminate|]. split; [cbn; apply H1; auto|]. destruct o; cbn; auto.
Qed.

(** Callbacks with such conditions. *)
Lemma callbacks_run c ms (ds : list (declaration leaf)) :
  Forall2 (fun m d => d_id d = fst (fst m) /\ d_user d <> None /\ d_user d = make ids (snd (fst m)) /\ d_fields d = snd m /\ d_conds d = []) ms ds ->
  Forall (fun m => constants (consts_one ids c) (snd (fst m)) /\ wrapped (class_one c) (snd (fst m)) /\ Forall (class_one c) (snd m)) ms ->
  forall id, In id (ran (fst (HandlerModel.handle sem (map (build leaf_eqb (leaf_implies ftype) leaf_neg) ds) e))) <->
    exists m fs, In (id, m, fs) ms /\ condition (value_of ids (storage_of e)) (fun y => ev y = true) m /\ Forall (fun f => ev f = true) fs.
Proof.
  intros HF HP id. pose proof (truthful_one ftype fld1 ps1 type_ok fld_range (fun i => c (f_name (ftab i)))) as T.
  destruct (handle_spec sem (map (build leaf_eqb (leaf_implies ftype) leaf_neg) ds) e) as (H1 & _). rewrite H1.
  clear H1. revert HP. induction HF as [|[[i m] fs] d ms ds (Hid & Hu & Hm & Hf & Hk) HF IH]; intros HP; cbn [map filter].
  - split; [intros []|]. intros (m & fs & [] & _).
  - inversion HP as [|? ? (C1 & C2 & C3) HP']; subst. cbn [fst snd] in *. specialize (IH HP').
    destruct (make ids m) as [x|] eqn:Ex; [|exfalso; apply Hu, Hm]. destruct (one_constant c m x C1 C2 Ex) as [Kx Ev].
    assert (Hd : decl_leaves (fun l => leaf_in_range ftype l /\ one_eq_constant (fun i => c (f_name (ftab i))) l) d).
    { unfold decl_leaves. rewrite Hm, Hk. split; [exact Kx|]. split; [rewrite Hf; exact C3|constructor]. }
    destruct (build_spec _ _ _ _ _ T d Hd) as (_ & Bid & Bev). specialize (Bev tt). rewrite eval_at in Bev.
    assert (Ha : eval sem (cb_matcher (build leaf_eqb (leaf_implies ftype) leaf_neg d)) e = true <->
                 condition (value_of ids (storage_of e)) (fun y => ev y = true) m /\ Forall (fun f => ev f = true) fs).
    { rewrite Bev. unfold accepts. rewrite Hm, Hk, Hf. cbn [forallb]. rewrite andb_true_r, andb_true_iff, eval_at, Ev, forallb_forall, Forall_forall.
      split; intros [Q1 Q2]; split; auto; intros f Hin; specialize (Q2 f Hin); rewrite eval_at in *; auto. }
    destruct (eval sem (cb_matcher (build leaf_eqb (leaf_implies ftype) leaf_neg d)) e) eqn:Ee; cbn [map In].
    + rewrite IH, Bid. split.
      * intros [<-|(m' & fs' & Hin & Q)]; [|exists m', fs'; tauto]. exists m, fs. destruct (proj1 Ha eq_refl). rewrite Hid. auto.
      * intros (m' & fs' & [Q|Q] & R); [|right; eauto]. injection Q as <- _ _. auto.
    + rewrite IH. split.
      * intros (m' & fs' & Hin & Q). exists m', fs'. tauto.
      * intros (m' & fs' & [Q|Q] & R); [|eauto]. injection Q as -> -> ->. apply Ha in R. discriminate.
Qed.
End Event.
End Makers.

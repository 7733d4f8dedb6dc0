(** Proofs about field storage access. *)
From Coq Require Import List NArith ZArith Bool Lia ZifyBool ZifyN ZifyNat.
From Verif Require Import FieldModel FieldSpec.
Import ListNotations.
Local Open Scope N_scope.
Ltac Zify.zify_post_hook ::= Z.div_mod_to_equations.

(** ** Bit lemmas *)
Lemma tb_small e w i : e < 2 ^ w -> w <= i -> N.testbit e i = false.
Proof.
  intros He Hi. destruct (N.eq_dec e 0) as [->|Hz]; [apply N.bits_0|].
  apply N.bits_above_log2. assert (N.log2 e < w) by (apply N.log2_lt_pow2; lia). lia.
Qed.
Lemma tb_lt e w : (forall i, w <= i -> N.testbit e i = false) -> e < 2 ^ w.
Proof.
  intros H. replace e with (e mod 2 ^ w).
  - apply N.mod_lt, N.pow_nonzero. lia.
  - apply N.bits_inj. intros i. destruct (N.lt_ge_cases i w).
    + apply N.mod_pow2_bits_low; auto.
    + rewrite N.mod_pow2_bits_high by auto. symmetry; auto.
Qed.
Lemma tb_mod v w i : N.testbit (v mod 2 ^ w) i = (i <? w) && N.testbit v i.
Proof.
  destruct (N.ltb_spec i w); cbn.
  - apply N.mod_pow2_bits_low; auto.
  - apply N.mod_pow2_bits_high; auto.
Qed.
Lemma tb_shiftl v n i : N.testbit (N.shiftl v n) i = (n <=? i) && N.testbit v (i - n).
Proof.
  destruct (N.leb_spec n i); cbn.
  - apply N.shiftl_spec_high'; auto.
  - apply N.shiftl_spec_low; auto.
Qed.
Lemma tb_shiftr v n i : N.testbit (N.shiftr v n) i = N.testbit v (i + n).
Proof. apply N.shiftr_spec'. Qed.
Lemma tb_ones n i : N.testbit (N.ones n) i = (i <? n).
Proof.
  destruct (N.ltb_spec i n); [apply N.ones_spec_low|apply N.ones_spec_high]; auto.
Qed.
Lemma tb_mask m l i : l <= m -> N.testbit (bit_mask m l) i = (l <=? i) && (i <=? m).
Proof.
  intros. unfold bit_mask. rewrite tb_shiftl, tb_ones.
  destruct (N.leb_spec l i); cbn; auto.
  destruct (N.leb_spec i m); [apply N.ltb_lt|apply N.ltb_ge]; lia.
Qed.
Lemma tb_slice img p len i : N.testbit (slice img p len) i = (i <? len) && N.testbit img (p + i).
Proof. unfold slice. rewrite tb_mod, tb_shiftr, (N.add_comm i p). reflexivity. Qed.

(** ** The image *)
Lemma nth_error_some {A} (l : list A) i : (i < length l)%nat -> exists x, nth_error l i = Some x.
Proof. intros H. destruct (nth_error l i) eqn:E; eauto. apply nth_error_None in E. lia. Qed.

Lemma lor_add_disjoint e r w : e < 2 ^ w -> e + 2 ^ w * r = N.lor e (N.shiftl r w).
Proof.
  intros He. rewrite N.shiftl_mul_pow2, (N.mul_comm r).
  symmetry. rewrite <- N.lxor_lor.
  - symmetry. apply N.add_nocarry_lxor. apply N.bits_inj. intros i.
    rewrite N.land_spec, N.bits_0, N.mul_comm, <- N.shiftl_mul_pow2, tb_shiftl.
    destruct (N.leb_spec w i); cbn; rewrite ?andb_false_r; auto.
    rewrite (tb_small e w i); auto.
  - apply N.bits_inj. intros i.
    rewrite N.land_spec, N.bits_0, N.mul_comm, <- N.shiftl_mul_pow2, tb_shiftl.
    destruct (N.leb_spec w i); cbn; rewrite ?andb_false_r; auto.
    rewrite (tb_small e w i); auto.
Qed.

Lemma image_cons es e r k : e < 2 ^ es ->
  N.testbit (image es (e :: r)) k = if k <? es then N.testbit e k else N.testbit (image es r) (k - es).
Proof.
  intros He. cbn [image]. rewrite lor_add_disjoint by auto. rewrite N.lor_spec, tb_shiftl.
  destruct (N.ltb_spec k es), (N.leb_spec es k); try lia; cbn.
  - apply orb_false_r.
  - rewrite (tb_small e es k); auto.
Qed.

Lemma image_at es st : 0 < es -> storage_ok es st ->
  forall i e r, nth_error st i = Some e -> r < es ->
  N.testbit (image es st) (es * N.of_nat i + r) = N.testbit e r.
Proof.
  intros Hes Hok. induction Hok as [|x st Hx Hok IH]; intros i e r Hi Hr.
  - destruct i; discriminate.
  - rewrite image_cons by auto. destruct i as [|i]; cbn in Hi.
    + injection Hi as <-. replace (es * N.of_nat 0 + r) with r by lia.
      destruct (N.ltb_spec r es); auto; lia.
    + destruct (N.ltb_spec (es * N.of_nat (S i) + r) es) as [H|H].
      * exfalso. rewrite Nnat.Nat2N.inj_succ, N.mul_succ_r in H. lia.
      * rewrite <- (IH i e r Hi Hr). f_equal. rewrite Nnat.Nat2N.inj_succ, N.mul_succ_r. lia.
Qed.
Lemma image_high es st k : 0 < es -> storage_ok es st -> nbits es st <= k ->
  N.testbit (image es st) k = false.
Proof.
  intros Hes Hok. revert k. unfold nbits. induction Hok as [|x st Hx Hok IH]; intros k Hk.
  - apply N.bits_0.
  - rewrite image_cons by auto. cbn [length] in Hk. rewrite Nnat.Nat2N.inj_succ, N.mul_succ_r in Hk.
    destruct (N.ltb_spec k es); [lia|]. apply IH. lia.
Qed.
Lemma image_lt es st : 0 < es -> storage_ok es st -> image es st < 2 ^ nbits es st.
Proof. intros. apply tb_lt. intros. apply image_high; auto. Qed.

Lemma set_nth_length st : forall i v, length (set_nth st i v) = length st.
Proof. induction st as [|x st IH]; intros [|i] v; cbn; auto. Qed.
Lemma set_nth_same st : forall i v x, nth_error st i = Some x -> nth_error (set_nth st i v) i = Some v.
Proof. induction st as [|y st IH]; intros [|i] v x H; cbn in *; try discriminate; eauto. Qed.
Lemma set_nth_other st : forall i j v, i <> j -> nth_error (set_nth st i v) j = nth_error st j.
Proof. induction st as [|y st IH]; intros [|i] [|j] v H; cbn in *; auto; try congruence. Qed.
Lemma set_nth_ok es st : forall i v, storage_ok es st -> v < 2 ^ es -> storage_ok es (set_nth st i v).
Proof.
  induction st as [|y st IH]; intros [|i] v H Hv; cbn; auto; inversion H; subst; constructor; auto.
  apply IH; auto.
Qed.
Lemma image_ext es st st' : 0 < es -> storage_ok es st -> storage_ok es st' -> length st = length st' ->
  (forall i e e', nth_error st i = Some e -> nth_error st' i = Some e' -> e = e') -> image es st = image es st'.
Proof.
  intros Hes Hs Hs' Hl H. f_equal. revert st' Hs' Hl H.
  induction Hs as [|x st Hx Hs IH]; intros [|y st'] Hs' Hl H; cbn in Hl; try discriminate; auto.
  f_equal. apply (H O); auto. inversion Hs'; subst. apply IH; auto. intros i. apply (H (S i)).
Qed.

Lemma image_set es st i v e k : 0 < es -> storage_ok es st -> v < 2 ^ es ->
  nth_error st i = Some e ->
  N.testbit (image es (set_nth st i v)) k =
  if k / es =? N.of_nat i then N.testbit v (k mod es) else N.testbit (image es st) k.
Proof.
  intros Hes Hok Hv Hi.
  pose proof (set_nth_ok es st i v Hok Hv) as Hok'.
  assert (Hk : k = es * (k / es) + k mod es) by (apply N.div_mod; lia).
  assert (Hm : k mod es < es) by (apply N.mod_lt; lia).
  destruct (N.lt_ge_cases (k / es) (N.of_nat (length st))) as [Hlt|Hge].
  - destruct (N.eqb_spec (k / es) (N.of_nat i)) as [Heq|Hne].
    + rewrite Hk at 1. rewrite Heq. apply image_at; auto. eapply set_nth_same; eauto.
    + destruct (nth_error_some st (N.to_nat (k / es))) as [x Hx]; [lia|].
      rewrite Hk. rewrite <- (Nnat.N2Nat.id (k / es)).
      rewrite (image_at es st Hes Hok _ x) by auto.
      apply image_at; auto. rewrite set_nth_other; auto. lia.
  - assert (Hn : nbits es st <= k).
    { unfold nbits. rewrite Hk. apply N.le_trans with (es * (k / es)); [|lia].
      apply N.mul_le_mono_l. lia. }
    destruct (N.eqb_spec (k / es) (N.of_nat i)) as [Heq|Hne].
    + assert (i < length st)%nat by (apply nth_error_Some; congruence). lia.
    + rewrite !image_high; auto. unfold nbits in *. rewrite set_nth_length. auto.
Qed.

Lemma rd_done st i : i < N.of_nat (length st) -> exists e, rd st i = Done e /\ nth_error st (N.to_nat i) = Some e.
Proof.
  intros H. destruct (nth_error_some st (N.to_nat i)) as [e He]; [lia|].
  exists e. unfold rd. rewrite He. auto.
Qed.
Lemma image_rd es st i e r : 0 < es -> storage_ok es st -> nth_error st (N.to_nat i) = Some e -> r < es ->
  N.testbit (image es st) (es * i + r) = N.testbit e r.
Proof. intros. rewrite <- (Nnat.N2Nat.id i). apply image_at; auto. Qed.
Lemma elem_lt es st i e : storage_ok es st -> nth_error st i = Some e -> e < 2 ^ es.
Proof. intros H Hi. eapply Forall_forall in H; eauto. eapply nth_error_In; eauto. Qed.

(** ** Extraction *)
Section Extract.
Variables es tw base : N.
Variables ql sl qm sm : N.
Variable st : list N.
Hypothesis Hes : 0 < es.
Hypothesis Hestw : es <= tw.
Hypothesis Hst : storage_ok es st.
Hypothesis Hsl : sl < es.
Hypothesis Hsm : sm < es.
Let lsb := es * ql + sl.
Let msb := es * qm + sm.
Hypothesis Hle : lsb <= msb.
Hypothesis Hsize : msb + 1 - lsb <= tw.
Hypothesis Hbound : base + qm < N.of_nat (length st).
Notation img := (image es st).

Lemma div_es q r : r < es -> (es * q + r) / es = q.
Proof. intros. symmetry. eapply N.div_unique; eauto. Qed.
Lemma mod_es q r : r < es -> (es * q + r) mod es = r.
Proof. intros. symmetry. eapply N.mod_unique; eauto. Qed.

Lemma extract_loop_rest : forall fuel q v,
  ql <= q < qm -> (N.to_nat (q - ql) < fuel)%nat ->
  (forall i, N.testbit v i = (i <? msb + 1 - es * (q + 1)) && N.testbit img (es * base + es * (q + 1) + i)) ->
  exists r, extract_loop fuel es tw base lsb (base + qm) (base + ql) (es * q + (es - 1)) v st = Done r /\
  forall i, N.testbit r i = (i <? msb + 1 - lsb) && N.testbit img (es * base + lsb + i).
Proof.
  induction fuel as [|fuel IH]; intros q v Hq Hf Hv; [lia|].
  cbn [extract_loop]. rewrite div_es, mod_es by lia.
  assert (Hmul : es * (q + 1) <= es * qm) by (apply N.mul_le_mono_l; lia).
  assert (Hmul1 : es * (q + 1) = es * q + es) by lia.
  replace (base + q =? base + qm) with false by lia. cbn [andb].
  destruct (rd_done st (base + q)) as (e & He & Hne); [lia|].
  pose proof (elem_lt _ _ _ _ Hst Hne) as Hel.
  assert (Himg : forall r, r < es -> N.testbit img (es * base + es * q + r) = N.testbit e r).
  { intros r Hr. replace (es * base + es * q + r) with (es * (base + q) + r) by lia.
    eapply image_rd; eauto. }
  destruct (N.eqb_spec (base + q) (base + ql)) as [Hmin|Hmin].
  - assert (Hqq : q = ql) by lia. subst q. clear Hmin Hq.
    assert (Hlm : lsb mod es = sl) by (apply mod_es; auto). rewrite Hlm.
    unfold shl. destruct (N.ltb_spec (es - sl) tw) as [Hs|Hs].
    2:{ exfalso. unfold lsb, msb in *. lia. }
    cbn [bind]. rewrite He. cbn [bind]. unfold shr, promoted.
    destruct (N.ltb_spec sl (N.max 32 (N.max es 0))) as [H0|H0]; [|lia]. cbn [bind].
    eexists. split; [reflexivity|]. intros i.
    rewrite N.lor_spec, tb_mod, tb_shiftl, tb_shiftr, Hv.
    destruct (N.ltb_spec i (es - sl)) as [Hi|Hi].
    + replace (es - sl <=? i) with false by lia. rewrite andb_false_l, andb_false_r, orb_false_l.
      rewrite <- Himg by lia. replace (i <? msb + 1 - lsb) with true by (unfold lsb, msb in *; lia).
      cbn. f_equal. unfold lsb. lia.
    + rewrite (tb_small e es (i + sl)) by (auto; lia). rewrite orb_false_r.
      replace (es - sl <=? i) with true by lia. cbn [andb].
      replace (es * base + es * (ql + 1) + (i - (es - sl))) with (es * base + lsb + i) by (unfold lsb; lia).
      destruct (N.ltb_spec i (msb + 1 - lsb)) as [H1|H1].
      * replace (i <? tw) with true by lia.
        replace (i - (es - sl) <? msb + 1 - es * (ql + 1)) with true by (unfold lsb, msb in *; lia).
        reflexivity.
      * replace (i - (es - sl) <? msb + 1 - es * (ql + 1)) with false by (unfold lsb, msb in *; lia).
        rewrite andb_false_l, andb_false_r. reflexivity.
  - assert (Hq1 : ql < q) by lia.
    assert (Hmul2 : es * (ql + 1) <= es * q) by (apply N.mul_le_mono_l; lia).
    assert (Hmul3 : es * (ql + 1) = es * ql + es) by lia.
    unfold shl. destruct (N.ltb_spec es tw) as [Hs|Hs].
    2:{ exfalso. unfold lsb, msb in *. lia. }
    cbn [bind]. rewrite He. cbn [bind].
    replace (es * q + (es - 1) - es) with (es * (q - 1) + (es - 1)).
    2:{ rewrite N.mul_sub_distr_l. lia. }
    apply IH; [lia|lia|].
    replace (q - 1 + 1) with q by lia. intros i.
    rewrite N.lor_spec, tb_mod, tb_shiftl, Hv.
    destruct (N.ltb_spec i es) as [Hi|Hi].
    + replace (es <=? i) with false by lia. rewrite andb_false_l, andb_false_r, orb_false_l.
      rewrite <- Himg by lia. replace (i <? msb + 1 - es * q) with true by (unfold msb in *; lia).
      reflexivity.
    + rewrite (tb_small e es i) by auto. rewrite orb_false_r.
      replace (es <=? i) with true by lia. cbn [andb].
      replace (es * base + es * (q + 1) + (i - es)) with (es * base + es * q + i) by lia.
      destruct (N.ltb_spec i (msb + 1 - es * q)) as [H1|H1].
      * replace (i <? tw) with true by (unfold lsb, msb in *; lia).
        replace (i - es <? msb + 1 - es * (q + 1)) with true by (unfold lsb, msb in *; lia).
        reflexivity.
      * replace (i - es <? msb + 1 - es * (q + 1)) with false by (unfold lsb, msb in *; lia).
        rewrite andb_false_l, andb_false_r. reflexivity.
Qed.

Lemma extract_loop_spec fuel : (N.to_nat (qm - ql) < fuel)%nat ->
  exists r, extract_loop fuel es tw base lsb (base + qm) (base + ql) msb 0 st = Done r /\
  forall i, N.testbit r i = (i <? msb + 1 - lsb) && N.testbit img (es * base + lsb + i).
Proof.
  intros Hf. destruct fuel as [|fuel]; [lia|]. cbn [extract_loop].
  assert (Hmd : msb / es = qm) by (apply div_es; auto).
  assert (Hmm : msb mod es = sm) by (apply mod_es; auto). rewrite Hmd, Hmm.
  assert (Hq : ql <= qm).
  { destruct (N.le_gt_cases ql qm) as [H|H]; auto.
    assert (es * (qm + 1) <= es * ql) by (apply N.mul_le_mono_l; lia).
    assert (es * (qm + 1) = es * qm + es) by lia. unfold lsb, msb in *. lia. }
  destruct (rd_done st (base + qm)) as (e & He & Hne); [lia|].
  pose proof (elem_lt _ _ _ _ Hst Hne) as Hel.
  assert (Himg : forall r, r < es -> N.testbit img (es * base + es * qm + r) = N.testbit e r).
  { intros r Hr. replace (es * base + es * qm + r) with (es * (base + qm) + r) by lia.
    eapply image_rd; eauto. }
  rewrite N.eqb_refl. cbn [andb].
  destruct (N.eqb_spec (base + qm) (base + ql)) as [Hmin|Hmin].
  - assert (qm = ql) by lia. rewrite He. cbn [bind]. 
    assert (Hlm : lsb mod es = sl) by (apply mod_es; auto). rewrite Hlm.
    unfold shr. destruct (N.ltb_spec sl tw) as [Hs|Hs]; [|lia].
    eexists. split; [reflexivity|]. intros i. rewrite tb_shiftr, N.land_spec, tb_mask by lia.
    replace (0 <=? i + sl) with true by lia. cbn [andb].
    destruct (N.ltb_spec i (msb + 1 - lsb)) as [H1|H1].
    + replace (i + sl <=? sm) with true by (unfold lsb, msb in *; lia). rewrite andb_true_r. cbn.
      rewrite <- Himg by (unfold lsb, msb in *; lia). f_equal. unfold lsb. lia.
    + replace (i + sl <=? sm) with false by (unfold lsb, msb in *; lia). rewrite andb_false_r. reflexivity.
  - rewrite He. cbn [bind].
    assert (Hq1 : ql < qm) by lia.
    replace (qm * es - 1) with (es * (qm - 1) + (es - 1)).
    2:{ rewrite N.mul_sub_distr_l, (N.mul_comm qm es). 
        assert (es * 1 <= es * qm) by (apply N.mul_le_mono_l; lia). lia. }
    apply extract_loop_rest; [lia|lia|].
    replace (qm - 1 + 1) with qm by lia. intros i. rewrite N.land_spec, tb_mask by lia.
    replace (0 <=? i) with true by lia. cbn [andb].
    destruct (N.ltb_spec i (msb + 1 - es * qm)) as [H1|H1].
    + replace (i <=? sm) with true by (unfold msb in *; lia). rewrite andb_true_r. cbn.
      rewrite <- Himg by (unfold msb in *; lia). reflexivity.
    + replace (i <=? sm) with false by (unfold msb in *; lia). rewrite andb_false_r. reflexivity.
Qed.
End Extract.

(** ** Insertion *)
Section Insert.
Variables es tw base : N.
Variables ql sl qm sm : N.
Hypothesis Hes : 0 < es.
Hypothesis Hsl : sl < es.
Hypothesis Hsm : sm < es.
Let lsb := es * ql + sl.
Let msb := es * qm + sm.
Hypothesis Hle : lsb <= msb.
Hypothesis Hsize : msb + 1 - lsb <= tw.
Hypothesis Hsltw : sl < tw.

(** What writing [v] at positions [c .. msb] does. *)
Definition written (c v : N) (st st' : list N) : Prop :=
  length st' = length st /\ storage_ok es st' /\
  forall k, N.testbit (image es st') k =
    if (es * base + c <=? k) && (k <=? es * base + msb)
    then N.testbit v (k - (es * base + c)) else N.testbit (image es st) k.

(** The final element. *)
Lemma insert_last c fuel q r v st :
  c = es * q + r -> r <= sm -> q = qm -> r < tw -> (es <= tw \/ sm < tw) ->
  storage_ok es st -> base + qm < N.of_nat (length st) -> v < 2 ^ (msb + 1 - c) ->
  exists st', insert_loop (S fuel) es tw base msb (base + qm) (base + ql) c v st = Done st' /\
  written c v st st'.
Proof.
  intros Hc Hr Hq Hrtw Hfit Hst Hb Hv. subst q.
  assert (Hd : c / es = qm) by (rewrite Hc; apply div_es; lia).
  assert (Hm : c mod es = r) by (rewrite Hc; apply mod_es; lia).
  assert (Hmm : msb mod es = sm) by (apply mod_es; lia).
  cbn [insert_loop]. rewrite Hd, Hm, Hmm, N.eqb_refl.
  destruct (rd_done st (base + qm)) as (e & He & Hne); [lia|].
  pose proof (elem_lt _ _ _ _ Hst Hne) as Hel.
  rewrite He. cbn [bind]. unfold shl. replace (r <? tw) with true by lia. cbn [bind].
  unfold wr. rewrite Hne.
  set (nv := N.lor _ _).
  assert (Hnvb : forall i, N.testbit nv i = if (r <=? i) && (i <=? sm) then N.testbit v (i - r) else N.testbit e i).
  { intros i. unfold nv. rewrite N.lor_spec, N.ldiff_spec, tb_mask, !tb_mod, tb_shiftl by lia.
    destruct (N.leb_spec r i), (N.leb_spec i sm); cbn [andb negb].
    - replace (i <? es) with true by lia. replace (i <? tw) with true by lia. rewrite andb_false_r. reflexivity.
    - rewrite (tb_small v (msb + 1 - c) (i - r)) by (auto; unfold msb in *; lia).
      rewrite !andb_false_r, orb_false_r, andb_true_r. reflexivity.
    - rewrite !andb_false_r, orb_false_r, andb_true_r. reflexivity.
    - rewrite !andb_false_r, orb_false_r, andb_true_r. reflexivity. }
  assert (Hnv : nv < 2 ^ es).
  { apply tb_lt. intros i Hi. rewrite Hnvb. destruct (N.leb_spec i sm); [lia|].
    rewrite andb_false_r. eapply tb_small; eauto. }
  eexists. split; [reflexivity|]. split; [apply set_nth_length|]. split; [apply set_nth_ok; auto|].
  intros k. rewrite (image_set es st _ nv e) by auto. rewrite Nnat.N2Nat.id.
  assert (Hk : k = es * (k / es) + k mod es) by (apply N.div_mod; lia).
  assert (Hkm : k mod es < es) by (apply N.mod_lt; lia).
  destruct (N.eqb_spec (k / es) (base + qm)) as [Heq|Hneq].
  - rewrite Hnvb.
    assert (Hk' : k = es * base + es * qm + k mod es) by (rewrite Hk at 1; rewrite Heq; lia).
    set (j := k mod es) in *.
    assert (Hsame : N.testbit (image es st) k = N.testbit e j).
    { replace k with (es * (base + qm) + j) by lia. eapply image_rd; eauto. }
    rewrite Hsame.
    replace ((es * base + c <=? k) && (k <=? es * base + msb)) with ((r <=? j) && (j <=? sm)).
    2:{ unfold msb. rewrite Hc, Hk'. f_equal.
        - destruct (N.leb_spec r j); symmetry; [apply N.leb_le|apply N.leb_gt]; lia.
        - destruct (N.leb_spec j sm); symmetry; [apply N.leb_le|apply N.leb_gt]; lia. }
    destruct (N.leb_spec r j), (N.leb_spec j sm); cbn; auto. f_equal. rewrite Hc, Hk'. lia.
  - destruct (N.leb_spec (es * base + c) k) as [H1|H1]; cbn; auto.
    destruct (N.leb_spec k (es * base + msb)) as [H2|H2]; cbn; auto.
    exfalso. apply Hneq.
    assert (Hk2 : k = es * (base + qm) + (k - es * base - es * qm)) by (unfold msb in *; lia).
    rewrite Hk2. apply div_es. unfold msb in *. lia.
Qed.

(** The elements after the first, for a field spanning several. *)
Lemma insert_rest : forall fuel q v st,
  ql < q <= qm -> (N.to_nat (qm - q) < fuel)%nat ->
  storage_ok es st -> base + qm < N.of_nat (length st) -> v < 2 ^ (msb + 1 - es * q) ->
  exists st', insert_loop fuel es tw base msb (base + qm) (base + ql) (es * q) v st = Done st' /\
  written (es * q) v st st'.
Proof.
  induction fuel as [|fuel IH]; intros q v st Hq Hf Hst Hb Hv; [lia|].
  assert (Hmulq : es * (ql + 1) <= es * q) by (apply N.mul_le_mono_l; lia).
  assert (Hmulq1 : es * (ql + 1) = es * ql + es) by lia.
  destruct (N.eq_dec q qm) as [->|Hne].
  { apply insert_last with (q := qm) (r := 0); auto; try lia. }
  assert (Hmul : es * (q + 1) <= es * qm) by (apply N.mul_le_mono_l; lia).
  assert (Hmul1 : es * (q + 1) = es * q + es) by lia.
  cbn [insert_loop].
  assert (Hd : (es * q) / es = q).
  { replace (es * q) with (es * q + 0) by lia. apply div_es; lia. }
  rewrite Hd. replace (base + q =? base + qm) with false by lia.
  replace (base + q =? base + ql) with false by lia.
  destruct (rd_done st (base + q)) as (e & He & Hnth); [lia|].
  unfold wr at 1. rewrite Hnth. cbn [bind].
  unfold shr. replace (es <? tw) with true by (unfold lsb, msb in *; lia). cbn [bind].
  set (nv := N.land v _).
  assert (Hnvb : forall i, N.testbit nv i = (i <? es) && N.testbit v i).
  { intros i. unfold nv. rewrite N.land_spec, tb_mask by lia. replace (0 <=? i) with true by lia.
    cbn. rewrite andb_comm. f_equal. destruct (N.leb_spec i (es - 1)); symmetry; [apply N.ltb_lt|apply N.ltb_ge]; lia. }
  assert (Hnv : nv < 2 ^ es).
  { apply tb_lt. intros i Hi. rewrite Hnvb. replace (i <? es) with false by lia. reflexivity. }
  set (st1 := set_nth st (N.to_nat (base + q)) nv).
  destruct (IH (q + 1) (N.shiftr v es) st1) as (st' & Hst' & Hl & Hok & Hbits).
  - lia.
  - lia.
  - apply set_nth_ok; auto.
  - unfold st1. rewrite set_nth_length. auto.
  - apply tb_lt. intros i Hi. rewrite tb_shiftr. eapply tb_small; eauto. unfold msb in *. lia.
  - exists st'. rewrite <- Hmul1. split; [exact Hst'|].
    split; [rewrite Hl; apply set_nth_length|]. split; auto. intros k. rewrite Hbits.
    unfold st1. rewrite (image_set es st _ nv e) by auto. rewrite Nnat.N2Nat.id.
    assert (Hk : k = es * (k / es) + k mod es) by (apply N.div_mod; lia).
    assert (Hkm : k mod es < es) by (apply N.mod_lt; lia).
    destruct (N.leb_spec (es * base + es * (q + 1)) k) as [H1|H1]; cbn [andb].
    + replace (es * base + es * q <=? k) with true by lia.
      destruct (N.leb_spec k (es * base + msb)) as [H2|H2]; cbn [andb].
      * rewrite tb_shiftr. f_equal. lia.
      * destruct (N.eqb_spec (k / es) (base + q)) as [Heq|]; auto. exfalso.
        rewrite Heq in Hk. lia.
    + destruct (N.leb_spec (es * base + es * q) k) as [H2|H2]; cbn [andb].
      * assert (Hdk : k / es = base + q).
        { assert (Hk2 : k = es * (base + q) + (k - es * base - es * q)) by lia.
          rewrite Hk2. apply div_es. lia. }
        rewrite Hdk, N.eqb_refl. rewrite Hnvb.
        replace (k <=? es * base + msb) with true by (unfold msb; lia).
        rewrite Hdk in Hk. replace (k mod es <? es) with true by lia. cbn. f_equal. lia.
      * destruct (N.eqb_spec (k / es) (base + q)) as [Heq|]; auto. exfalso.
        rewrite Heq in Hk. lia.
Qed.

Lemma insert_loop_spec fuel v st : (N.to_nat (qm - ql) < fuel)%nat ->
  storage_ok es st -> base + qm < N.of_nat (length st) -> v < 2 ^ (msb + 1 - lsb) ->
  (es <= tw \/ sm < tw \/ ql < qm) ->
  exists st', insert_loop fuel es tw base msb (base + qm) (base + ql) lsb v st = Done st' /\
  written lsb v st st'.
Proof.
  intros Hf Hst Hb Hv Hfit. destruct fuel as [|fuel]; [lia|].
  assert (Hq : ql <= qm).
  { destruct (N.le_gt_cases ql qm) as [H|H]; auto.
    assert (es * (qm + 1) <= es * ql) by (apply N.mul_le_mono_l; lia).
    assert (es * (qm + 1) = es * qm + es) by lia. unfold lsb, msb in *. lia. }
  destruct (N.eq_dec ql qm) as [Heq|Hneq].
  { apply insert_last with (q := ql) (r := sl); auto; try lia. }
  assert (Hmul : es * (ql + 1) <= es * qm) by (apply N.mul_le_mono_l; lia).
  assert (Hmul1 : es * (ql + 1) = es * ql + es) by lia.
  cbn [insert_loop].
  assert (Hld : lsb / es = ql) by (apply div_es; auto).
  assert (Hlm : lsb mod es = sl) by (apply mod_es; auto).
  rewrite Hld, Hlm, N.eqb_refl. replace (base + ql =? base + qm) with false by lia.
  destruct (rd_done st (base + ql)) as (e & He & Hnth); [lia|].
  pose proof (elem_lt _ _ _ _ Hst Hnth) as Hel.
  rewrite He. cbn [bind]. unfold shl, promoted. replace (sl <? N.max 32 (N.max tw es)) with true by lia.
  cbn [bind]. unfold wr at 1. rewrite Hnth. cbn [bind].
  unfold shr. replace (es - sl <? tw) with true by (unfold lsb, msb in *; lia). cbn [bind].
  set (nv := N.lor _ _).
  assert (Hnvb : forall i, N.testbit nv i = if sl <=? i then (i <? es) && N.testbit v (i - sl) else N.testbit e i).
  { intros i. unfold nv. rewrite N.lor_spec, N.ldiff_spec, !tb_mod, !tb_shiftl, N.land_spec, tb_mask by lia.
    destruct (N.leb_spec sl i); cbn [andb].
    - replace (0 <=? i - sl) with true by lia. cbn [andb].
      destruct (N.ltb_spec i es).
      + replace (i - sl <=? es - sl - 1) with true by lia. cbn.
        replace (i <? N.max 32 (N.max tw es)) with true by lia.
        rewrite andb_false_r, andb_true_r. reflexivity.
      + rewrite (tb_small e es i) by auto. reflexivity.
    - cbn. rewrite !andb_false_r, orb_false_r, andb_true_r. reflexivity. }
  assert (Hnv : nv < 2 ^ es).
  { apply tb_lt. intros i Hi. rewrite Hnvb. replace (i <? es) with false by lia.
    destruct (sl <=? i); auto. eapply tb_small; eauto. }
  set (st1 := set_nth st (N.to_nat (base + ql)) nv).
  replace (lsb + (es - sl)) with (es * (ql + 1)) by (unfold lsb; lia).
  destruct (insert_rest fuel (ql + 1) (N.shiftr v (es - sl)) st1) as (st' & Hst' & Hl & Hok & Hbits).
  - lia.
  - lia.
  - apply set_nth_ok; auto.
  - unfold st1. rewrite set_nth_length. auto.
  - apply tb_lt. intros i Hi. rewrite tb_shiftr. eapply tb_small; eauto. unfold lsb, msb in *. lia.
  - exists st'. split; [exact Hst'|].
    split; [rewrite Hl; apply set_nth_length|]. split; auto. intros k. rewrite Hbits.
    unfold st1. rewrite (image_set es st _ nv e) by auto. rewrite Nnat.N2Nat.id.
    assert (Hk : k = es * (k / es) + k mod es) by (apply N.div_mod; lia).
    assert (Hkm : k mod es < es) by (apply N.mod_lt; lia).
    destruct (N.leb_spec (es * base + es * (ql + 1)) k) as [H1|H1]; cbn [andb].
    + replace (es * base + lsb <=? k) with true by (unfold lsb; lia).
      destruct (N.leb_spec k (es * base + msb)) as [H2|H2]; cbn [andb].
      * rewrite tb_shiftr. f_equal. unfold lsb. lia.
      * destruct (N.eqb_spec (k / es) (base + ql)) as [Heq|]; auto. exfalso.
        rewrite Heq in Hk. lia.
    + destruct (N.eqb_spec (k / es) (base + ql)) as [Heq|Hnq].
      * rewrite Hnvb. rewrite Heq in Hk. set (j := k mod es) in *.
        replace (k <=? es * base + msb) with true by (unfold msb; lia). rewrite andb_true_r.
        replace (es * base + lsb <=? k) with (sl <=? j).
        2:{ unfold lsb. destruct (N.leb_spec sl j); symmetry; [apply N.leb_le|apply N.leb_gt]; lia. }
        destruct (N.leb_spec sl j).
        -- replace (j <? es) with true by lia. cbn. f_equal. unfold lsb. lia.
        -- rewrite Hk. replace (es * (base + ql) + j) with (es * (base + ql) + j) by lia.
           symmetry. eapply image_rd; eauto.
      * destruct (N.leb_spec (es * base + lsb) k) as [H2|H2]; cbn [andb]; auto.
        exfalso. apply Hnq.
        assert (Hk2 : k = es * (base + ql) + (k - es * base - es * ql)) by (unfold lsb in *; lia).
        rewrite Hk2. apply div_es. lia.
Qed.
End Insert.

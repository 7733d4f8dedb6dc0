(** Proofs about set and subscripts. *)
From Coq Require Import List NArith ZArith Bool Arith Lia ZifyBool ZifyN ZifyNat.
From Verif Require Import FieldModel FieldSpec FieldProofs2 FieldProofs3 MessageModel MessageSpec MessageProofs AccessModel AccessSpec AccessProofs AccessProofs2 AccessProofs3 AccessProofs5 SubscriptModel SubscriptSpec.
Import ListNotations.
Local Open Scope N_scope.

(** ** set *)
Section Set_.
Variable es : N.
Hypothesis He : narrow es.
Variable d : list mfield.
Hypothesis Hd : msg_good d.

(** As the library takes the arguments: by their names alone, if not all are values. *)
Definition taken_as (args : list argument) : list argument :=
  if forallb is_value args then args else map (fun a => AType (arg_name a)) args.

Lemma values_given args : forallb is_value args = true -> forall b, written_all d (map value_given args) b = all_given d args b.
Proof.
  unfold all_given. induction args as [|a args IH]; intros H b; auto. cbn [forallb] in H. apply andb_true_iff in H as [H1 H2].
  destruct a as [n v| |]; try discriminate. cbn [map value_given written_all fold_left]. rewrite IH by auto. f_equal.
Qed.
Lemma defaults_given args b : defaulted (fields_named d (map arg_name args)) b = all_given d (map (fun a => AType (arg_name a)) args) b.
Proof.
  unfold defaulted, all_given. revert b. induction args as [|a args IH]; intros b; auto.
  cbn [map fields_named flat_map fold_left]. rewrite fold_left_app. unfold fields_named in IH. rewrite IH. f_equal.
  unfold given. cbn [arg_name]. unfold find_field, has_name. destruct (find _ d) as [f|]; auto.
Qed.
Lemma fields_named_incl ns : incl (fields_named d ns) d.
Proof.
  intros f H. unfold fields_named in H. apply in_flat_map in H as (k & _ & H).
  destruct (find_field k d) as [g|] eqn:E; [|destruct H]. destruct H as [<-|[]]. apply find_field_spec in E. tauto.
Qed.
Lemma in_all_names l : forallb is_value l = true -> l <> [] -> forallb is_name l = false.
Proof. destruct l as [|[| |] l]; intros H1 H2; try discriminate; auto. congruence. Qed.

Lemma set_shown args st n o : fields_fit (es * N.of_nat n) d -> length st = n -> storage_ok es st ->
  set_call es d args st = Some o ->
  exists st', o = Done st' /\ length st' = n /\ storage_ok es st' /\
    forall k, N.testbit (image es st') k = all_given d (taken_as args) (N.testbit (image es st)) k.
Proof.
  intros Hfit Hl Hok. unfold set_call, taken_as. destruct (forallb is_value args) eqn:Ev.
  - unfold m_set. destruct (forallb _ (map value_given args)) eqn:Es; [|discriminate]. intros E. injection E as <-.
    destruct (run_sets_shown es He d Hd n (map value_given args) Hfit) with (st := st) (b := N.testbit (image es st)) as (st' & E & H1 & H2 & H3).
    + intros nv Hin. rewrite forallb_forall in Es. specialize (Es nv Hin). unfold settable in Es.
      destruct (find_field (fst nv) d) as [f|] eqn:Ef; [|discriminate]. apply find_field_spec in Ef as [Hf <-]. apply in_map; auto.
    + split; auto.
    + exists st'. repeat split; auto. intros k. rewrite H3, values_given; auto.
  - destruct (forallb is_name args); [discriminate|]. destruct (forallb (fun a => resettable _ _ _ _) args) eqn:Er; [|discriminate]. intros E. injection E as <-.
    destruct (run_defaults_shown es He d Hd n (fields_named d (map arg_name args)) Hfit (fields_named_incl _) st (N.testbit (image es st))) as (st' & E & H1 & H2 & H3).
    { split; auto. }
    exists st'. repeat split; auto. intros k. rewrite H3, defaults_given. auto.
Qed.
Lemma set_accepted args st n : fields_fit (es * N.of_nat n) d -> length st = n ->
  (set_call es d args st <> None <->
   (forall a, In a args -> exists f, In f d /\ f_name f = arg_name a) /\
   ((forall a, In a args -> is_value a = true /\ may_give d a) \/
    (exists a, In a args /\ is_value a = false) /\ (exists a, In a args /\ is_name a = false))).
Proof.
  intros Hfit Hl. pose proof Hd as (Hnd & _ & _).
  assert (Hr : forall a, resettable es d (N.of_nat (length st)) (arg_name a) = true <-> exists f, In f d /\ f_name f = arg_name a).
  { intros a. unfold resettable. destruct (find_field (arg_name a) d) as [f|] eqn:E.
    - apply find_field_spec in E as [H1 H2]. split; eauto. intros _. apply fits_checks. rewrite Hl. apply Hfit; auto.
    - split; [discriminate|]. intros (f & H1 & H2). apply find_field_none in E. exfalso. apply E. rewrite <- H2. apply in_map; auto. }
  assert (Hs : forall a, is_value a = true -> (settable es d (N.of_nat (length st)) (value_given a) = true <-> may_give d a)).
  { intros a Ha. destruct a as [m v| |]; try discriminate. unfold settable, may_give. cbn [value_given fst arg_name].
    destruct (find_field m d) as [f|] eqn:E.
    - apply find_field_spec in E as [H1 H2]. split.
      + intros H. exists f. repeat split; auto. destruct (f_default f); auto; discriminate.
      + intros (g & H3 & H4 & H5). assert (g = f).
        { assert (Q : find_field (f_name g) d = find_field (f_name f) d) by congruence. rewrite !find_field_in in Q by auto. congruence. }
        subst g. rewrite fits_checks by (rewrite Hl; apply Hfit; auto). destruct (f_default f); auto; contradiction.
    - split; [discriminate|]. intros (f & H1 & H2 & _). apply find_field_none in E. exfalso. apply E. rewrite <- H2. apply in_map; auto. }
  unfold set_call. destruct (forallb is_value args) eqn:Ev.
  - rewrite forallb_forall in Ev. unfold m_set. destruct (forallb _ (map value_given args)) eqn:Es.
    + split; [|discriminate]. intros _. assert (Hm : forall a, In a args -> is_value a = true /\ may_give d a).
      { intros a Ha. split; auto. apply Hs; auto. rewrite forallb_forall in Es. apply Es. apply in_map; auto. }
      split; [|left; auto]. intros a Ha. destruct (Hm a Ha) as (_ & f & H1 & H2 & _). eauto.
    + split; [congruence|]. intros (_ & [H|((a & Ha & E) & _)]).
      * exfalso. assert (Q : forallb (settable es d (N.of_nat (length st))) (map value_given args) = true); [|congruence].
        apply forallb_forall. intros nv Hin. apply in_map_iff in Hin as (a & <- & Ha). destruct (H a Ha). apply Hs; auto.
      * rewrite (Ev a Ha) in E. discriminate.
  - destruct (forallb is_name args) eqn:En.
    + split; [congruence|]. intros (_ & [H|(_ & a & Ha & E)]).
      * exfalso. assert (Q : forallb is_value args = true); [|congruence]. apply forallb_forall. intros a Ha. apply H; auto.
      * rewrite forallb_forall in En. rewrite (En a Ha) in E. discriminate.
    + assert (X : forall (f : argument -> bool), forallb f args = false -> exists a, In a args /\ f a = false).
      { intros f. clear. induction args as [|a l IH]; cbn; [discriminate|]. destruct (f a) eqn:E; cbn.
        - intros H. destruct (IH H) as (x & H1 & H2). eauto.
        - eauto. }
      destruct (forallb (fun a => resettable _ _ _ _) args) eqn:Er.
      * split; [|discriminate]. intros _. rewrite forallb_forall in Er. split; [intros a Ha; apply Hr; auto|]. right. split; auto.
      * split; [congruence|]. intros (H & _). exfalso. apply X in Er as (a & Ha & E). apply H, Hr in Ha. congruence.
Qed.
End Set_.

(** ** Subscripts *)
Section Subscript.
Variable es : N.
Hypothesis He : narrow es.

Lemma got_step v n s o : got es v n s = Some o -> exists x, step es (Get v n) s = Some x /\ (forall s' x', x = Done (s', [Value x']) -> o = Done x' /\ s' = s).
Proof.
  unfold got. destruct (step es (Get v n) s) as [x|] eqn:E; [|discriminate]. intros H. exists x. split; auto.
  intros s' x' ->. injection H as <-. split; auto. cbn [step] in E.
  destruct (nth_error (vars s) v); [|discriminate]. destruct (span_of _ _); [|discriminate]. destruct (m_get _ _ _ _) as [q|]; [|discriminate].
  injection E as E. destruct q; cbn in E; try discriminate. congruence.
Qed.
Lemma got_shown v n s a o : inv es s a -> got es v n s = Some o -> exists x, o = Done x /\ has_value a v n x.
Proof.
  intros Hi Hg. destruct (got_step v n s o Hg) as (q & E & Hq).
  destruct (step_inv es He (Get v n) s a q Hi I I E) as (s' & obs & -> & _ & Hs).
  cbn [shows] in Hs. destruct Hs as (h & f & x & H1 & H2 & H3 & H4 & ->). destruct (Hq _ _ eq_refl) as [-> _].
  exists x. split; auto. exists h, f. auto.
Qed.
Lemma got_done v n s x : got es v n s = Some (Done x) -> step es (Get v n) s = Some (Done (s, [Value x])).
Proof.
  unfold got. destruct (step es (Get v n) s) as [[[s' [|[y|] [|]]]| | |]|] eqn:E; try discriminate. intros H. injection H as <-.
  cbn [step] in E.
  destruct (nth_error (vars s) v); [|discriminate]. destruct (span_of _ _); [|discriminate]. destruct (m_get _ _ _ _) as [q|]; [|discriminate].
  injection E as E. destruct q; cbn in E; try discriminate. congruence.
Qed.

Definition thing_of (t : taken) : thing := match t with Held x => AnN x | Proxy v n => TheField v n end.

Lemma assign_inv v n x s a o : inv es (base s) a -> assign es v n x s = Some o ->
  exists s', o = Done (s', []) /\ inv es (base s') (effect es (Set_ v [(n, x)]) a) /\ held s' = held s /\ owners s' = owners s /\
    step es (Set_ v [(n, x)]) (base s) = Some (Done (base s', [])).
Proof.
  intros Hi. unfold assign. destruct (step es (Set_ v [(n, x)]) (base s)) as [q|] eqn:E; [|discriminate]. intros H. injection H as <-.
  destruct (step_inv es He (Set_ v [(n, x)]) (base s) a q Hi I I E) as (s' & obs & -> & Hi' & Hs).
  cbn [shows] in Hs. subst obs. cbn [bind fst]. eexists. split; [reflexivity|]. cbn [base held owners]. auto.
Qed.

Lemma srun_behaves p : forall s a o, inv es (base s) a -> Forall (scommand_good es) p -> salike es p s -> srun es p s = Some o ->
  exists s' obs, o = Done (s', obs) /\ behaves es p a (map thing_of (held s)) obs.
Proof.
  induction p as [|c p IH]; intros s a o Hi Hg Ha Hr.
  - cbn in Hr. injection Hr as <-. eexists _, _. split; [reflexivity|]. constructor.
  - cbn [srun salike] in *. apply Forall_cons_iff in Hg as [Hc Hg]. destruct Ha as [Ha1 Ha2].
    destruct (sstep es c s) as [o1|] eqn:E; [|discriminate].
    assert (K : forall s1 obs1 a1, o1 = Done (s1, obs1) -> inv es (base s1) a1 ->
      exists s' q, o = Done (s', obs1 ++ q) /\ behaves es p a1 (map thing_of (held s1)) q).
    { intros s1 obs1 a1 -> Hi1. destruct (srun es p s1) as [o2|] eqn:E2; [|discriminate].
      destruct (IH s1 a1 o2 Hi1 Hg (Ha2 _ _ eq_refl) E2) as (s' & q & -> & Hb). injection Hr as <-. cbn [bind fst snd]. eauto. }
    destruct c as [b|v n x|k v n|t|k v n w m]; cbn [sstep scommand_good] in E, Hc.
    + destruct (step es b (base s)) as [q|] eqn:Eb; [|discriminate]. injection E as <-. pose proof Hi as (Hn & _).
      destruct (step_inv es He b (base s) a q Hi Hc) as (s' & obs & -> & Hi' & Hs); auto. { rewrite Hn. auto. }
      destruct (K _ _ (effect es b a) eq_refl Hi') as (s2 & q2 & -> & Hb). exists s2. eexists. split; [reflexivity|].
      cbn [held] in Hb. cbn [fst snd]. constructor; auto.
    + destruct (assign_inv v n x s a o1 Hi E) as (s' & -> & Hi' & Hh & _).
      destruct (K _ _ _ eq_refl Hi') as (s2 & q2 & -> & Hb). eexists _, _. split; [reflexivity|]. cbn [app]. constructor. rewrite <- Hh. auto.
    + destruct (got es v n (base s)) as [q|] eqn:Eg; [|discriminate]. destruct (got_shown v n (base s) a q Hi Eg) as (x & -> & Hv).
      destruct k; injection E as <-; cbn [bind] in *.
      * destruct (K _ _ a eq_refl Hi) as (s2 & q2 & -> & Hb). eexists _, _. split; [reflexivity|]. cbn [app]. econstructor; [exact Hv|].
        cbn [held] in Hb. rewrite map_app in Hb. exact Hb.
      * destruct (K _ _ a eq_refl Hi) as (s2 & q2 & -> & Hb). eexists _, _. split; [reflexivity|]. cbn [app]. constructor.
        cbn [held] in Hb. rewrite map_app in Hb. exact Hb.
    + destruct (nth_error (held s) t) as [y|] eqn:Et; [|discriminate]. destruct y as [x|v n].
      * injection E as <-. destruct (K _ _ a eq_refl Hi) as (s2 & q2 & -> & Hb). eexists _, _. split; [reflexivity|]. cbn [app].
        constructor; auto. rewrite nth_error_map, Et. auto.
      * destruct (got es v n (base s)) as [q|] eqn:Eg; [|discriminate]. injection E as <-. destruct (got_shown v n (base s) a q Hi Eg) as (x & -> & Hv).
        cbn [bind] in *. destruct (K _ _ a eq_refl Hi) as (s2 & q2 & -> & Hb). eexists _, _. split; [reflexivity|]. cbn [app].
        eapply behaves_read_field; eauto. rewrite nth_error_map, Et. auto.
    + destruct (negb k && Nat.eqb n m && same_type s v w); [discriminate|].
      destruct (got es w m (base s)) as [q|] eqn:Eg; [|discriminate]. destruct (got_shown w m (base s) a q Hi Eg) as (x & -> & Hv).
      destruct (assign_inv v n x s a o1 Hi E) as (s' & -> & Hi' & Hh & _).
      destruct (K _ _ _ eq_refl Hi') as (s2 & q2 & -> & Hb). eexists _, _. split; [reflexivity|]. cbn [app]. econstructor; [exact Hv|]. rewrite <- Hh. auto.
Qed.

(** What was taken still has the value it had. *)
Definition still (s : sstate) (is : list nat) (t : taken) (x : N) : Prop :=
  match t with
  | Held y => x = y
  | Proxy v n => got es v n (base s) = Some (Done x) /\ exists h, nth_error (vars (base s)) v = Some h /\ In (h_store h) is
  end.
Lemma got_kept v n x s s' h : got es v n s = Some (Done x) -> nth_error (vars s) v = Some h -> nth_error (vars s') v = Some h ->
  nth_error (heap s') (h_store h) = nth_error (heap s) (h_store h) -> got es v n s' = Some (Done x).
Proof.
  intros H H1 H2 H3. apply got_done in H. unfold got. cbn [step] in *. rewrite H1 in H. rewrite H2. unfold span_of in *. rewrite H3.
  destruct (option_map _ _); [|discriminate]. destruct (m_get _ _ _ _) as [q|]; [|discriminate]. injection H as H.
  destruct q; cbn in H; try discriminate. injection H as <-. auto.
Qed.
Lemma still_kept s s' is c o t x : sstep es c s = Some (Done (s', o)) -> (forall i, In i is -> ~ swrites (base s) c i) ->
  still s is t x -> still s' is t x.
Proof.
  intros E Hw. destruct t as [y|v n]; auto. intros (Hg & h & Hv & Hin).
  assert (Hlen : (h_store h < length (heap (base s)))%nat).
  { apply got_done in Hg. cbn [step] in Hg. rewrite Hv in Hg. unfold span_of in Hg. destruct (nth_error (heap (base s)) (h_store h)) eqn:Q; [|discriminate].
    apply nth_error_Some. congruence. }
  assert (K : forall b o', step es b (base s) = Some (Done (base s', o')) -> ~ writes_to (base s) b (h_store h) -> still s' is (Proxy v n) x).
  { intros b o' Eb Hb. pose proof (step_other es b (base s) (base s') o' (h_store h) Eb Hlen Hb) as Hk.
    destruct (step_grows es b (base s) (base s') o' Eb) as (_ & l & Hl).
    assert (Hv' : nth_error (vars (base s')) v = Some h). { rewrite Hl. rewrite nth_error_app1; auto. apply nth_error_Some. congruence. }
    split; [|eauto]. eapply got_kept; eauto. }
  specialize (Hw _ Hin).
  assert (KA : forall w m y, assign es w m y s = Some (Done (s', o)) -> ~ (exists g, nth_error (vars (base s)) w = Some g /\ h_store g = h_store h) -> still s' is (Proxy v n) x).
  { intros w m y Ea Hn. unfold assign in Ea. destruct (step es (Set_ w [(m, y)]) (base s)) as [q|] eqn:Q; [|discriminate]. injection Ea as Ea.
    destruct q as [[s1 o1]| | |]; cbn in Ea; try discriminate. injection Ea as <- <-. apply (K (Set_ w [(m, y)]) o1); auto. }
  destruct c as [b|w m y|k w m|t|k w m u j]; cbn [sstep swrites] in *.
  - destruct (step es b (base s)) as [q|] eqn:Q; [|discriminate]. injection E as E. destruct q as [[s1 o1]| | |]; cbn in E; try discriminate.
    injection E as <- <-. apply (K b o1); auto.
  - eapply KA; eauto.
  - destruct (got es w m (base s)) as [q|]; [|discriminate]. destruct k.
    + destruct q; cbn in E; try discriminate. injection E as <- _. split; cbn [base]; eauto.
    + injection E as <- _. split; cbn [base]; eauto.
  - destruct (nth_error (held s) t) as [[y|w m]|]; [| |discriminate].
    + injection E as <- _. split; eauto.
    + destruct (got es w m (base s)) as [q|]; [|discriminate]. injection E as E. destruct q; cbn in E; try discriminate. injection E as <- _. split; eauto.
  - destruct (negb k && Nat.eqb m j && same_type s w u); [discriminate|]. destruct (got es u j (base s)) as [[y| | |]|]; try discriminate. eapply KA; eauto.
Qed.

Lemma srun_meant p : forall s a o is ys, inv es (base s) a -> Forall (scommand_good es) p -> salike es p s -> left_alone es p s is ->
  Forall2 (still s is) (held s) ys -> srun es p s = Some o ->
  exists s' obs, o = Done (s', obs) /\ meant es p a ys obs.
Proof.
  induction p as [|c p IH]; intros s a o is ys Hi Hg Ha Hl Hy Hr.
  - cbn in Hr. injection Hr as <-. eexists _, _. split; [reflexivity|]. constructor.
  - cbn [srun salike left_alone] in *. apply Forall_cons_iff in Hg as [Hc Hg]. destruct Ha as [Ha1 Ha2]. destruct Hl as [Hw Hl].
    destruct (sstep es c s) as [o1|] eqn:E; [|discriminate].
    assert (Hk : forall s1 obs1, o1 = Done (s1, obs1) -> Forall2 (still s1 is) (held s) ys).
    { intros s1 obs1 ->. clear - Hy E Hw He. induction Hy; constructor; auto. eapply still_kept; eauto. }
    assert (K : forall s1 obs1 a1 ys1 is1, o1 = Done (s1, obs1) -> inv es (base s1) a1 -> left_alone es p s1 is1 -> Forall2 (still s1 is1) (held s1) ys1 ->
      exists s' q, o = Done (s', obs1 ++ q) /\ meant es p a1 ys1 q).
    { intros s1 obs1 a1 ys1 is1 -> Hi1 Hl1 Hy1. destruct (srun es p s1) as [o2|] eqn:E2; [|discriminate].
      destruct (IH s1 a1 o2 is1 ys1 Hi1 Hg (Ha2 _ _ eq_refl) Hl1 Hy1 E2) as (s' & q & -> & Hb). injection Hr as <-. cbn [bind fst snd]. eauto. }
    destruct c as [b|v n x|k v n|t|k v n w m]; cbn [sstep scommand_good] in E, Hc.
    + destruct (step es b (base s)) as [q|] eqn:Eb; [|discriminate]. injection E as <-. pose proof Hi as (Hn & _).
      destruct (step_inv es He b (base s) a q Hi Hc) as (s' & obs & -> & Hi' & Hs); auto. { rewrite Hn. auto. }
      destruct (K _ _ (effect es b a) ys is eq_refl Hi' (Hl _ _ eq_refl) (Hk _ _ eq_refl)) as (s2 & q2 & -> & Hb).
      exists s2. eexists. split; [reflexivity|]. cbn [fst snd]. constructor; auto.
    + destruct (assign_inv v n x s a o1 Hi E) as (s' & -> & Hi' & Hh & _).
      destruct (K _ _ _ ys is eq_refl Hi' (Hl _ _ eq_refl)) as (s2 & q2 & -> & Hb). { rewrite Hh. eapply Hk; eauto. }
      eexists _, _. split; [reflexivity|]. cbn [app]. constructor. auto.
    + destruct (got es v n (base s)) as [q|] eqn:Eg; [|discriminate]. destruct (got_shown v n (base s) a q Hi Eg) as (x & -> & Hv).
      destruct k; injection E as <-; cbn [bind] in *.
      * destruct (K _ _ a (ys ++ [x]) is eq_refl Hi (Hl _ _ eq_refl)) as (s2 & q2 & -> & Hb).
        { cbn [held]. apply Forall2_app; [eapply Hk; reflexivity|]. constructor; auto. reflexivity. }
        eexists _, _. split; [reflexivity|]. cbn [app]. econstructor; [exact Hv|]. exact Hb.
      * destruct (got_step v n (base s) _ Eg) as (z & Ez & _). cbn [step] in Ez. destruct (nth_error (vars (base s)) v) as [h|] eqn:Ev; [|discriminate].
        destruct (K _ _ a (ys ++ [x]) (h_store h :: is) eq_refl Hi (Hl _ _ eq_refl)) as (s2 & q2 & -> & Hb).
        { cbn [held]. apply Forall2_app.
          - specialize (Hk _ _ eq_refl). clear -Hk. induction Hk as [|t y l m H1 H2 IH]; constructor; auto.
            destruct t; auto. destruct H1 as (H1 & h' & H3 & H4). split; auto. exists h'. split; auto. right; auto.
          - constructor; auto. split; cbn [base]; auto. exists h. split; auto. left; auto. }
        eexists _, _. split; [reflexivity|]. cbn [app]. econstructor; [exact Hv|]. exact Hb.
    + destruct (nth_error (held s) t) as [y|] eqn:Et; [|discriminate]. destruct (forall2_nth _ _ _ Hy _ _ Et) as (x0 & Ex & Hst). destruct y as [x|v n].
      * injection E as <-. destruct (K _ _ a ys is eq_refl Hi (Hl _ _ eq_refl) Hy) as (s2 & q2 & -> & Hb). eexists _, _. split; [reflexivity|]. cbn [app].
        cbn [still] in Hst. subst x0. constructor; auto.
      * destruct (got es v n (base s)) as [q|] eqn:Eg; [|discriminate]. injection E as <-. destruct Hst as (Hst & _). rewrite Hst in Eg. injection Eg as <-.
        cbn [bind] in *. destruct (K _ _ a ys is eq_refl Hi (Hl _ _ eq_refl) Hy) as (s2 & q2 & -> & Hb). eexists _, _. split; [reflexivity|]. cbn [app].
        constructor; auto.
    + destruct (negb k && Nat.eqb n m && same_type s v w); [discriminate|].
      destruct (got es w m (base s)) as [q|] eqn:Eg; [|discriminate]. destruct (got_shown w m (base s) a q Hi Eg) as (x & -> & Hv).
      destruct (assign_inv v n x s a o1 Hi E) as (s' & -> & Hi' & Hh & _).
      destruct (K _ _ _ ys is eq_refl Hi' (Hl _ _ eq_refl)) as (s2 & q2 & -> & Hb). { rewrite Hh. eapply Hk; eauto. }
      eexists _, _. split; [reflexivity|]. cbn [app]. econstructor; [exact Hv|]. auto.
Qed.
End Subscript.

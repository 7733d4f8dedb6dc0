(** Properties of flows: C27 to C34 and C56. *)
From Coq Require Import Ascii String Bool Arith List Permutation Relations Lia.
From Verif Require Import FlowModel FlowSpec FlowProofs FlowProofs2 FlowProofs3 FlowProofs4 FlowProofs5.
Import ListNotations.
Local Open Scope string_scope.

(** Containers used in the concrete cases: last in, first out. *)
Definition pop_last (_ : nat) (l : list node) : option (node * list node) :=
  match rev l with [] => None | x :: r => Some (x, rev r) end.
Definition in_order (_ : nat) (l : list node) : list node := l.
Lemma pop_last_ok : pops_some pop_last.
Proof.
  intros t l. unfold pop_last. destruct (rev l) as [|x r] eqn:E.
  - apply (f_equal (@rev node)) in E. rewrite rev_involutive in E. auto.
  - apply (f_equal (@rev node)) in E. rewrite rev_involutive in E. rewrite E. cbn. symmetry. apply Permutation_cons_append.
Qed.
Lemma in_order_ok : enumerates in_order.
Proof. intros t l. reflexivity. Qed.
Definition st (x : string) (f : nat) (v : bool) : node := {| n_type := Action; n_name := x; n_value := v; n_cond := always; n_func := f |}.
Definition lf (x : string) (f : nat) (v : bool) : subgraph := Leaf (LNode (st x f v)).

(** ** C27 *)
Theorem C27_order : forall pops enum b o, pops_some pops -> enumerates enum -> build pops enum b = Built o ->
  NoDup (map n_name o) /\
  (forall x, In x (map n_name o) <-> step_mentioned b x) /\
  (forall n, In n o <-> exists g own, In g b /\ adds g n own) /\
  (forall c p q, in_sequence b c p q -> before (map n_name o) (leaf_name p) (leaf_name q)).
Proof.
  intros pops enum b o Hp He H. destruct (built_order pops enum Hp He b o H) as (ns & (C1 & C2 & C3 & C4) & P & O).
  assert (Pn : Permutation (map n_name o) (map n_name ns)) by (apply Permutation_map; auto).
  split; [eapply Permutation_NoDup; [symmetry; exact Pn|auto]|]. split; [|split].
  - intros x. rewrite <- C3. split; apply Permutation_in; [|symmetry]; auto.
  - intros n. rewrite <- (b_nodes_spec b ns C1). split; apply Permutation_in; [|symmetry]; auto.
  - intros c p q Hs. apply O. exists c, p, q. auto.
Qed.
(** When no step has a runtime condition, running the flow calls every step's
    function once, in that order. *)
Theorem C27_run : forall (St : Type) (pred : nat -> St -> bool) (step : nat -> St -> St) name o s,
  (forall n, In n o -> c_preds (n_cond n) = []) -> calls (fst (run_flow pred step name o s)) = map n_func o.
Proof.
  intros St pred step name o s H. rewrite run_flow_calls. generalize (negb (String.eqb name "")) as lg.
  revert s H. induction o as [|n o IH]; intros s H lg; auto. cbn [run_nodes]. unfold run_node, holds.
  rewrite (H n) by (cbn; auto). cbn [forallb]. specialize (IH (step (n_func n) s) (fun m Hm => H m (or_intror Hm)) lg).
  destruct (run_nodes pred step lg o (step (n_func n) s)) as [e s']. cbn [fst] in *. rewrite !calls_app, calls_log, IH. reflexivity.
Qed.
Example C27_case : let b := [seq_of (lf "a" 1 true) (par_of (lf "b" 2 true) (lf "c" 3 true)); seq_of (lf "b" 2 false) (seq_of (lf "d" 4 true) (lf "c" 3 false))] in
  exists o, build pop_last in_order b = Built o /\ map n_name o = ["a"; "b"; "d"; "c"].
Proof. eexists. split; vm_compute; reflexivity. Qed.
Print Assumptions C27_order.

(** ** C28 *)
Theorem C28_cycle : forall pops enum b, pops_some pops -> enumerates enum ->
  build pops enum b <> Rejected -> build pops enum b <> MissingSteps -> build pops enum b <> DuplicateSteps -> build pops enum b <> WeakCondition ->
  ((exists g, build pops enum b = Cycle g) <-> cyclic (declared b)) /\ ((exists o, build pops enum b = Built o) <-> ~ cyclic (declared b)).
Proof.
  intros pops enum b Hp He H1 H2 H3 H4. destruct (build_kind pops enum Hp He b) as (K1 & K2 & K3 & K4 & K5 & K6).
  assert (A1 : b_nodes b <> None) by tauto. assert (A2 : ~ has_missing b) by tauto.
  assert (A3 : ~ has_repeat b) by tauto. assert (A4 : ~ has_weak b) by tauto. tauto.
Qed.
Lemma rt_cases {A} (R : A -> A -> Prop) x y : clos_refl_trans A R x y -> x = y \/ clos_trans A R x y.
Proof. induction 1 as [x y H|x|x y z _ [->|H1] _ [->|H2]]; auto; right; [apply t_step; auto|eapply t_trans; eauto]. Qed.
(** What is reported: exactly the sequences leaving a step that lies on a cycle
    or downstream of one. *)
Theorem C28_reported : forall pops enum b g, pops_some pops -> enumerates enum -> build pops enum b = Cycle g ->
  forall x y, (exists n vs m, In (n, vs) g /\ In m vs /\ n_name n = x /\ n_name m = y) <->
    declared b x y /\ exists z, clos_trans string (declared b) z z /\ clos_refl_trans string (declared b) z x.
Proof.
  intros pops enum b g Hp He H. pose proof (build_spec pops enum Hp He b) as Hb. rewrite H in Hb. destruct Hb as (_ & ns & o & Hc & Hs).
  destruct (the_graph_spec b ns Hc) as (G1 & G2 & G3).
  destruct (leftover_spec node_eq_dec (the_graph b ns) o g Hs) as [L1 L2].
  { intros p q Hpq. apply G3 in Hpq. apply G2. tauto. }
  pose proof Hc as (C1 & C2 & C3 & C4).
  assert (Hinj : forall a c, In a ns -> In c ns -> n_name a = n_name c -> a = c) by (intros a c; apply nodup_map_inj; auto).
  assert (Hrt : forall p q, clos_refl_trans node (arc (the_graph b ns)) p q -> clos_refl_trans string (declared b) (n_name p) (n_name q)).
  { intros p q. induction 1; [apply rt_step; apply G3 in H0; tauto|apply rt_refl|eapply rt_trans; eauto]. }
  intros x y. split.
  - intros (n & vs & m & I1 & I2 & <- & <-). assert (Harc : arc g n m) by (exists vs; auto). apply L2 in Harc. destruct Harc as [Harc Hk].
    split; [apply G3 in Harc; tauto|]. apply L1 in Hk. destruct Hk as (z & Z1 & Z2). exists (n_name z). split; [|auto].
    revert Z1. apply clos_trans_map. intros a c Hac. apply G3 in Hac. tauto.
  - intros (Hd & z & Z1 & Z2). destruct (declared_nodes b ns x y Hc Hd) as (p & q & I1 & I2 & I3 & <- & <-).
    assert (Hu : forall u v, declared b u v -> exists a c, In a ns /\ In c ns /\ arc (the_graph b ns) a c /\ n_name a = u /\ n_name c = v)
      by (intros u v; apply declared_nodes; auto).
    destruct (clos_trans_unmap (fun n => In n ns) (arc (the_graph b ns)) (declared b) n_name Hinj Hu z z Z1) as (a & a' & A1 & A2 & A3 & A4 & A5).
    assert (a = a') by (apply Hinj; congruence). subst a'.
    assert (Hk : In p (keys g)).
    { apply L1. exists a. split; auto. destruct (rt_cases _ _ _ Z2) as [E|Hzx].
      - rewrite (Hinj a p); [apply rt_refl|auto|auto|congruence].
      - destruct (clos_trans_unmap (fun n => In n ns) (arc (the_graph b ns)) (declared b) n_name Hinj Hu z (n_name p) Hzx) as (c & d & D1 & D2 & D3 & D4 & D5).
        assert (c = a) by (apply Hinj; congruence). assert (d = p) by (apply Hinj; congruence). subst c d.
        clear -D3. induction D3; [apply rt_step; auto|eapply rt_trans; eauto]. }
    assert (Harc : arc g p q) by (apply L2; auto). destruct Harc as (vs & V1 & V2). exists p, vs, q. auto.
Qed.
Example C28_case : let b := [seq_of (lf "a" 1 true) (seq_of (lf "b" 2 true) (lf "c" 3 true)); seq_of (lf "c" 3 false) (lf "b" 2 false)] in
  exists g, build pop_last in_order b = Cycle g /\ map n_name (keys g) = ["b"; "c"].
Proof. eexists. split; vm_compute; reflexivity. Qed.
Print Assumptions C28_cycle.
Print Assumptions C28_reported.

(** ** C29 *)
Theorem C29_added_once : forall pops enum b, pops_some pops -> enumerates enum ->
  (exists o, build pops enum b = Built o) \/ (exists g, build pops enum b = Cycle g) \/ build pops enum b = WeakCondition ->
  forall x, step_mentioned b x -> added b x = 1.
Proof.
  intros pops enum b Hp He H x Hx. destruct (build_kind pops enum Hp He b) as (K1 & K2 & K3 & K4 & K5 & K6).
  assert (A : b_nodes b <> None /\ ~ has_missing b /\ ~ has_repeat b) by tauto. destruct A as (A1 & A2 & A3).
  destruct (b_nodes b) as [ns|] eqn:Hns; [|congruence].
  destruct (added_occurrences x b ns Hns) as [O1 O2].
  assert (Hin : In x (map n_name ns)).
  { destruct (in_dec string_dec x (map n_name ns)); auto. exfalso. apply A2. exists ns, x. auto. }
  assert (Hnd : NoDup (map n_name ns)).
  { destruct (ListDec.NoDup_dec string_dec (map n_name ns)); auto. exfalso. apply A3. exists ns. auto. }
  rewrite occurrences_nodup in O1, O2 by auto. destruct (in_dec string_dec x (map n_name ns)); [|contradiction]. specialize (O2 Nat.lt_0_1). lia.
Qed.
Theorem C29_missing_rejected : forall pops enum b x, pops_some pops -> enumerates enum ->
  step_mentioned b x -> added b x = 0 -> build pops enum b = Rejected \/ build pops enum b = MissingSteps.
Proof.
  intros pops enum b x Hp He Hx Ha. destruct (build_kind pops enum Hp He b) as (K1 & K2 & _).
  destruct (b_nodes b) as [ns|] eqn:Hns; [|tauto]. right. apply K2. split; [discriminate|]. exists ns, x. split; auto. split; auto.
  intros Hc. apply occurrences_pos in Hc. apply (added_occurrences x b ns Hns) in Hc. lia.
Qed.
Theorem C29_repeated_rejected : forall pops enum b x, pops_some pops -> enumerates enum ->
  1 < added b x -> build pops enum b = Rejected \/ build pops enum b = MissingSteps \/ build pops enum b = DuplicateSteps.
Proof.
  intros pops enum b x Hp He Ha. destruct (build_kind pops enum Hp He b) as (K1 & K2 & K3 & _).
  destruct (b_nodes b) as [ns|] eqn:Hns; [|tauto].
  assert (Hr : has_repeat b).
  { exists ns. split; auto. intros Hc. destruct (added_occurrences x b ns Hns) as [O1 _]. rewrite occurrences_nodup in O1 by auto.
    destruct (in_dec string_dec x (map n_name ns)); lia. }
  assert (Hn : Some ns <> None) by discriminate.
  destruct (ListDec.incl_dec string_dec (map leaf_name (b_mentioned b)) (map n_name ns)) as [Hi|Hi].
  - right. right. apply K3. split; auto. split; auto. intros (ns' & y & E & Y1 & Y2). assert (ns' = ns) by congruence. subst.
    apply Y2, Hi, mentioned_names. auto.
  - right. left. apply K2. split; auto. pose proof (build_spec pops enum Hp He b) as Hb.
    destruct (build pops enum b); try congruence.
    + destruct Hb as (ns' & E & y & Y1 & Y2). exists ns', y. auto.
    + exfalso. destruct Hb as (ns' & E & Y & _). assert (ns' = ns) by congruence. subst. apply Hi. intros y Hy. apply Y, mentioned_names. auto.
    + exfalso. destruct Hb as (ns' & E & _ & Y & _). assert (ns' = ns) by congruence. subst. apply Hi. intros y Hy. apply Y, mentioned_names. auto.
    + exfalso. destruct Hb as (_ & ns' & o & (E & _ & Y & _) & _). assert (ns' = ns) by congruence. subst. apply Hi. intros y Hy. apply Y, mentioned_names. auto.
    + exfalso. destruct Hb as (ns' & (E & _ & Y & _) & _). assert (ns' = ns) by congruence. subst. apply Hi. intros y Hy. apply Y, mentioned_names. auto.
Qed.
(** The converse: steps that are added exactly once are not rejected as missing
    or duplicated, when starred composites write each of their steps one way
    and star no references by name. *)
Theorem C29_not_rejected : forall pops enum b, pops_some pops -> enumerates enum ->
  b_nodes b <> None -> (forall g, In g b -> uniform g) -> (forall x, step_mentioned b x -> added b x = 1) ->
  build pops enum b <> MissingSteps /\ build pops enum b <> DuplicateSteps /\ build pops enum b <> Rejected.
Proof.
  intros pops enum b Hp He Hn Hu Ha. destruct (build_kind pops enum Hp He b) as (K1 & K2 & K3 & _).
  destruct (b_nodes b) as [ns|] eqn:Hns; [|congruence].
  assert (Hx := fun x => added_exact x b Hu ns Hns).
  assert (Hm : ~ has_missing b).
  { intros (ns' & x & E & X1 & X2). assert (ns' = ns) by congruence. subst. apply X2. apply occurrences_pos. rewrite Hx, Ha; auto. }
  assert (Hr : ~ has_repeat b).
  { intros (ns' & E & X). assert (ns' = ns) by congruence. subst. apply X. apply (NoDup_count_occ string_dec). intros x.
    destruct (in_dec string_dec x (map n_name ns)) as [Hi|Hi].
    - fold (occurrences x (map n_name ns)). rewrite Hx, Ha; auto. apply (names_in_mentioned b ns Hns) in Hi. apply mentioned_names. auto.
    - rewrite (proj1 (count_occ_not_In string_dec _ _) Hi). lia. }
  rewrite K2, K3, K1. split; [tauto|]. split; [tauto|discriminate].
Qed.
(** Without that proviso a flow can be rejected for a step added once. *)
Example C29_case : let b := [Par (lf "a" 1 true) (lf "a" 1 false) true] in
  added b "a" = 1 /\ build pop_last in_order b = DuplicateSteps /\
  build pop_last in_order [seq_of (lf "a" 1 true) (lf "b" 2 false)] = MissingSteps.
Proof. vm_compute. repeat split. Qed.
Print Assumptions C29_added_once.
Print Assumptions C29_not_rejected.
(** C29, for what is written: a star adds every step that is mentioned under it, once, and
    changes no order between steps; >> and && add what their sides add. *)
Theorem C29_star : forall g g', star g = Some g' ->
  (forall x, times_added x g' = if mentions_name x g then 1 else 0) /\
  (forall c x y, in_sequence [g'] c x y <-> in_sequence [g] c x y).
Proof.
  intros g g' H. split.
  - intro x. destruct g as [[n|s]|l r v c|l r v]; cbn in H; try discriminate; injection H as <-; cbn; reflexivity.
  - intros d x y. destruct g as [[n|s]|l r v c|l r v]; cbn in H; try discriminate; injection H as <-.
    + split; intros (h & l & r & v & [<-|[]] & P & _); inversion P.
    + split; intros (h & l0 & r0 & v0 & [<-|[]] & P & A & B); inversion P; subst.
      * exists (Seq l0 r0 v d), l0, r0, v. repeat split; auto; [left; reflexivity|constructor].
      * exists (Seq l r v c), l0, r0, v0. repeat split; auto; [left; reflexivity|]. now apply part_seq_l.
      * exists (Seq l r v c), l0, r0, v0. repeat split; auto; [left; reflexivity|]. now apply part_seq_r.
      * exists (Seq l0 r0 true d), l0, r0, true. repeat split; auto; [left; reflexivity|constructor].
      * exists (Seq l r true c), l0, r0, v0. repeat split; auto; [left; reflexivity|]. now apply part_seq_l.
      * exists (Seq l r true c), l0, r0, v0. repeat split; auto; [left; reflexivity|]. now apply part_seq_r.
    + split; intros (h & l0 & r0 & v0 & [<-|[]] & P & A & B); inversion P; subst.
      * exists (Par l r v), l0, r0, v0. repeat split; auto; [left; reflexivity|]. now apply part_par_l.
      * exists (Par l r v), l0, r0, v0. repeat split; auto; [left; reflexivity|]. now apply part_par_r.
      * exists (Par l r true), l0, r0, v0. repeat split; auto; [left; reflexivity|]. now apply part_par_l.
      * exists (Par l r true), l0, r0, v0. repeat split; auto; [left; reflexivity|]. now apply part_par_r.
Qed.
Print Assumptions C29_star.
Theorem C29_operators : forall l r,
  (forall x, times_added x (seq_of l r) = times_added x l + times_added x r) /\
  (forall x, times_added x (par_of l r) = times_added x l + times_added x r) /\
  (forall c x y, in_sequence [seq_of l r] c x y <->
     in_sequence [l] c x y \/ in_sequence [r] c x y \/ (c = always /\ ends_with l x /\ starts_with r y)) /\
  (forall c x y, in_sequence [par_of l r] c x y <-> in_sequence [l] c x y \/ in_sequence [r] c x y).
Proof.
  intros l r. split; [reflexivity|]. split; [reflexivity|].
  assert (L : forall (g h : subgraph) d x y, (forall k, part h k -> part g k) -> in_sequence [h] d x y -> in_sequence [g] d x y).
  { intros g h d x y Hg (k & l0 & r0 & v0 & [<-|[]] & P & A & B). exists g, l0, r0, v0. repeat split; auto. left. reflexivity. }
  split; intros d x y; split.
  - intros (h & l0 & r0 & v0 & [<-|[]] & P & A & B). inversion P; subst.
    + right. right. auto.
    + left. exists l, l0, r0, v0. repeat split; auto. left. reflexivity.
    + right. left. exists r, l0, r0, v0. repeat split; auto. left. reflexivity.
  - intros [H|[H|(-> & A & B)]].
    + revert H. apply L. intros. now apply part_seq_l.
    + revert H. apply L. intros. now apply part_seq_r.
    + exists (seq_of l r), l, r, false. repeat split; auto; [left; reflexivity|constructor].
  - intros (h & l0 & r0 & v0 & [<-|[]] & P & A & B). inversion P; subst.
    + left. exists l, l0, r0, v0. repeat split; auto. left. reflexivity.
    + right. exists r, l0, r0, v0. repeat split; auto. left. reflexivity.
  - intros [H|H]; revert H; apply L; intros; [now apply part_par_l|now apply part_par_r].
Qed.
Print Assumptions C29_operators.
Example C29_star_case : let g := par_of (lf "a" 1 false) (seq_of (lf "b" 2 false) (lf "a" 1 false)) in
  exists g', star g = Some g' /\ times_added "a" g' = 1 /\ times_added "b" g' = 1 /\ times_added "c" g' = 0 /\
    times_added "a" g = 0 /\ star (Leaf (LRef "a")) = None.
Proof. eexists. split; [reflexivity|]. vm_compute. auto. Qed.

(** ** C30 *)
(** A flow built from components' contributions. *)
Definition composed (cfgs : list config) (b : builder) : Prop := exists gs, all_some (map extends cfgs) = Some gs /\ b = concat gs.
(** The documented behaviour fails for starred composites: a step of
    [*(a >> b)] contributed under a false condition runs. *)
Theorem C30_refuted : exists cfgs b o cs g n, composed cfgs b /\ build pop_last in_order b = Built o /\
  under (hd (Fragment g) cfgs) cs g /\ adds g n false /\ forallb (holds (fun _ => false)) cs = false /\
  In (n_func n) (calls (fst (run_flow (fun _ _ => false) (fun _ s => s) "f" o tt))).
Proof.
  pose (c := {| c_name := "off"; c_preds := [0] |}).
  pose (g := Seq (lf "a" 1 false) (lf "b" 2 false) true always).
  exists [When c [Fragment g]], [Seq (lf "a" 1 false) (lf "b" 2 false) true c], [st "a" 1 true; st "b" 2 true], [c], g, (st "a" 1 true).
  split; [eexists; split; vm_compute; reflexivity|]. split; [vm_compute; reflexivity|]. split; [cbn; apply under_when with (x := Fragment g); [left; auto|constructor]|].
  split; [|split; [reflexivity|vm_compute; auto]].
  apply (adds_seq_star (lf "a" 1 false) (lf "b" 2 false) always (st "a" 1 false)). apply part_seq_l. constructor.
Qed.
(** Exactly: every step of the built flow is a contributed step; its condition is
    the one it was written with, together with the enclosing conditions if the
    step itself is starred, and without them if only a composite around it is. *)
Theorem C30_exact : forall pops enum cfgs b o, pops_some pops -> enumerates enum -> composed cfgs b -> build pops enum b = Built o ->
  (forall x cs g n own, In x cfgs -> under x cs g -> adds g n own ->
     exists m, In m o /\ n_name m = n_name n /\ n_func m = n_func n /\ n_type m = n_type n /\
       forall pred, holds pred (n_cond m) = holds pred (n_cond n) && (if own then forallb (holds pred) cs else true)) /\
  (forall m, In m o -> exists x cs g n own, In x cfgs /\ under x cs g /\ adds g n own /\
     n_name m = n_name n /\ n_func m = n_func n /\ n_type m = n_type n /\
       forall pred, holds pred (n_cond m) = holds pred (n_cond n) && (if own then forallb (holds pred) cs else true)).
Proof.
  intros pops enum cfgs b o Hp He (gs & Hgs & ->) H. destruct (C27_order pops enum _ o Hp He H) as (_ & _ & Ho & _).
  pose proof (all_some_map _ _ _ Hgs) as Hin. split.
  - intros x cs g n own Hx Hu Ha. destruct (conditions_facts cs own n (adds_value _ _ _ Ha)) as (F1 & F2 & F3 & F4 & F5).
    exists (conditions cs own n). split; [|auto]. apply Ho.
    destruct (extends x) as [l|] eqn:Hl.
    2:{ exfalso. assert (all_some (map extends cfgs) = None) by (apply all_some_none_iff; eauto). congruence. }
    assert (Hex : exists h, In h l /\ adds h (conditions cs own n) own) by (apply (extends_adds x l Hl); exists cs, g, n; auto).
    destruct Hex as (h & H1 & H2). exists h, own. split; auto. apply in_concat. exists l. split; auto. apply Hin. eauto.
  - intros m Hm. apply Ho in Hm. destruct Hm as (h & own & H1 & H2). apply in_concat in H1. destruct H1 as (l & L1 & L2).
    apply Hin in L1. destruct L1 as (x & X1 & X2).
    assert (Hex : exists cs g n, under x cs g /\ adds g n own /\ m = conditions cs own n) by (apply (extends_adds x l X2); eauto).
    destruct Hex as (cs & g & n & U1 & U2 & ->). destruct (conditions_facts cs own n (adds_value _ _ _ U2)) as (F1 & F2 & F3 & F4 & F5).
    exists x, cs, g, n, own. repeat split; auto.
Qed.
(** The documented rule, for steps that are starred themselves; missing: steps
    starred only through a composite (see [C30_refuted]). *)
Theorem C30_starred_step_partial : forall pops enum cfgs b o x cs g n, pops_some pops -> enumerates enum -> composed cfgs b -> build pops enum b = Built o ->
  In x cfgs -> under x cs g -> adds g n true ->
  exists o1 m o2, o = (o1 ++ m :: o2)%list /\ n_name m = n_name n /\ n_func m = n_func n /\
    forall (St : Type) (pred : nat -> St -> bool) (step : nat -> St -> St) logged s,
      let s1 := snd (run_nodes pred step logged o1 s) in
      calls (fst (run_nodes pred step logged o s)) =
        (calls (fst (run_nodes pred step logged o1 s)) ++
        if holds (fun p => pred p s1) (n_cond n) && forallb (holds (fun p => pred p s1)) cs
         then n_func n :: calls (fst (run_nodes pred step logged o2 (step (n_func n) s1)))
         else calls (fst (run_nodes pred step logged o2 s1)))%list.
Proof.
  intros pops enum cfgs b o x cs g n Hp He Hc Hb Hx Hu Ha.
  destruct (C30_exact pops enum cfgs b o Hp He Hc Hb) as [H _]. destruct (H x cs g n true Hx Hu Ha) as (m & M1 & M2 & M3 & M4 & M5).
  apply in_split in M1. destruct M1 as (o1 & o2 & ->). exists o1, m, o2. split; auto. split; auto. split; auto.
  intros St pred step logged s. cbn zeta. rewrite run_nodes_app. destruct (run_nodes pred step logged o1 s) as [e1 s1]. cbn [fst snd run_nodes].
  unfold run_node. rewrite M5. destruct (holds (fun p => pred p s1) (n_cond n) && forallb (holds (fun p => pred p s1)) cs).
  - rewrite M3. destruct (run_nodes pred step logged o2 (step (n_func n) s1)) as [e2 s2]. cbn [fst]. rewrite !calls_app, calls_log. reflexivity.
  - destruct (run_nodes pred step logged o2 s1) as [e2 s2]. cbn [fst app]. rewrite calls_app. reflexivity.
Qed.
(** Under fixed truth values, the steps that run are those of the built order
    whose condition holds, in that order. *)
Theorem C30_relative_order : forall (St : Type) (pred : nat -> St -> bool) (step : nat -> St -> St) name o s,
  (forall p u v, pred p u = pred p v) ->
  calls (fst (run_flow pred step name o s)) = map n_func (filter (fun n => holds (fun p => pred p s) (n_cond n)) o).
Proof. intros. rewrite run_flow_calls. apply run_nodes_fixed. auto. Qed.
Example C30_case :
  let c := {| c_name := "p"; c_preds := [0] |} in let d := {| c_name := "q"; c_preds := [1] |} in
  let cfgs := [Fragment (seq_of (lf "a" 1 true) (lf "z" 9 true)); When c [Fragment (seq_of (lf "a" 1 false) (lf "b" 2 true)); When d [Fragment (seq_of (lf "b" 2 false) (lf "c" 3 true))]]] in
  exists b o, composed cfgs b /\ build pop_last in_order b = Built o /\
    calls (fst (run_flow (fun p _ => Nat.eqb p 0) (fun _ s => s) "f" o tt)) = [1; 2; 9] /\
    calls (fst (run_flow (fun p _ => true) (fun _ s => s) "f" o tt)) = [1; 2; 3; 9].
Proof. do 2 eexists. split; [eexists; split; vm_compute; reflexivity|]. split; [vm_compute; reflexivity|]. split; vm_compute; reflexivity. Qed.
Print Assumptions C30_refuted.
Print Assumptions C30_exact.
Print Assumptions C30_starred_step_partial.

(** ** C31 *)
Theorem C31_sequences_supported : forall pops enum b o, pops_some pops -> enumerates enum -> build pops enum b = Built o ->
  forall c p q, in_sequence b c p q -> exists m n, In m o /\ In n o /\ n_name m = leaf_name p /\ n_name n = leaf_name q /\
    forall pred, holds pred c = true -> holds pred (n_cond m) = true /\ holds pred (n_cond n) = true.
Proof.
  intros pops enum b o Hp He H c p q Hs. destruct (built_order pops enum Hp He b o H) as (ns & Hc & P & _).
  pose proof Hc as (C1 & C2 & C3 & C4). pose proof (sequence_mentioned b c p q Hs) as [Mp Mq]. apply C3 in Mp, Mq.
  destruct (named_some ns _ Mp) as (m & Em), (named_some ns _ Mq) as (n & En).
  pose proof (proj1 (named_spec ns _ m C2) Em) as [M1 M2]. pose proof (proj1 (named_spec ns _ n C2) En) as [N1 N2].
  exists m, n. split; [eapply Permutation_in; [symmetry; exact P|auto]|]. split; [eapply Permutation_in; [symmetry; exact P|auto]|].
  split; auto. split; auto. intros pred Hh.
  pose (e := {| e_src := p; e_dst := q; e_cond := c |}). rewrite forallb_forall in C4.
  assert (Hok : edge_ok ns e = true). { apply C4. apply unique_in, b_edges_spec. exact Hs. }
  apply (edge_ok_holds ns e m n pred Hok Em En Hh).
Qed.
(** ... and a sequence whose condition lacks a predicate of one of its steps is
    rejected. *)
Theorem C31_weaker_rejected : forall pops enum b, pops_some pops -> enumerates enum ->
  forall c p q m own g r, in_sequence b c p q -> In g b -> adds g m own -> (n_name m = leaf_name p \/ n_name m = leaf_name q) ->
  In r (c_preds (n_cond m)) -> ~ In r (c_preds c) -> forall o, build pops enum b <> Built o.
Proof.
  intros pops enum b Hp He c p q m own g r Hs Hg Ha Hm Hr Hn o H. destruct (built_order pops enum Hp He b o H) as (ns & Hc & _ & _).
  pose proof Hc as (C1 & C2 & C3 & C4). pose proof (sequence_mentioned b c p q Hs) as [Mp Mq]. apply C3 in Mp, Mq.
  destruct (named_some ns _ Mp) as (mp & Em), (named_some ns _ Mq) as (mq & En).
  assert (Hin : In m ns) by (apply (b_nodes_spec b ns C1); eauto).
  rewrite forallb_forall in C4. assert (Hok : edge_ok ns {| e_src := p; e_dst := q; e_cond := c |} = true).
  { apply C4. apply unique_in, b_edges_spec. exact Hs. }
  unfold edge_ok in Hok. cbn in Hok. rewrite Em, En in Hok. rewrite forallb_forall in Hok.
  assert (Hrin : In r (c_preds (n_cond mp) ++ c_preds (n_cond mq))).
  { apply in_app_iff. destruct Hm as [Hm|Hm]; [left|right].
    - assert (Some m = Some mp) by (rewrite <- Em; symmetry; apply named_spec; auto). congruence.
    - assert (Some m = Some mq) by (rewrite <- En; symmetry; apply named_spec; auto). congruence. }
  apply Hok in Hrin. apply existsb_exists in Hrin. destruct Hrin as (y & Y1 & Y2). apply Nat.eqb_eq in Y2. subst. auto.
Qed.
Example C31_case : let c := {| c_name := "p"; c_preds := [0] |} in
  exists b b' o, composed [Fragment (lf "a" 1 true); When c [Fragment (seq_of (lf "a" 1 false) (lf "b" 2 true))]] b /\ build pop_last in_order b = Built o /\
  composed [Fragment (seq_of (lf "a" 1 true) (lf "b" 2 false)); When c [Fragment (lf "b" 2 true)]] b' /\ build pop_last in_order b' = WeakCondition.
Proof. do 3 eexists. split; [eexists; split; vm_compute; reflexivity|]. split; [vm_compute; reflexivity|]. split; [eexists; split; vm_compute; reflexivity|]. vm_compute. reflexivity. Qed.
Print Assumptions C31_sequences_supported.
Print Assumptions C31_weaker_rejected.

(** ** C32 *)
(** Two outcomes of the same kind, with the same steps, or the same reported
    sequences. *)
Definition same_outcome (r r' : build_result) : Prop :=
  match r, r' with
  | Rejected, Rejected | MissingSteps, MissingSteps | DuplicateSteps, DuplicateSteps | WeakCondition, WeakCondition => True
  | Cycle g, Cycle g' => forall x y,
      (exists n vs m, In (n, vs) g /\ In m vs /\ n_name n = x /\ n_name m = y) <-> (exists n vs m, In (n, vs) g' /\ In m vs /\ n_name n = x /\ n_name m = y)
  | Built o, Built o' => Permutation o o'
  | _, _ => False
  end.
Theorem C32_same_flow : forall pops enum pops' enum' b b', pops_some pops -> enumerates enum -> pops_some pops' -> enumerates enum' ->
  Permutation b b' -> same_outcome (build pops enum b) (build pops' enum' b') /\
  (forall c p q, in_sequence b c p q <-> in_sequence b' c p q).
Proof.
  intros pops enum pops' enum' b b' Hp He Hp' He' P. split; [|intros; apply perm_sequence; auto].
  destruct (build_kind pops enum Hp He b) as (K1 & K2 & K3 & K4 & K5 & K6).
  destruct (build_kind pops' enum' Hp' He' b') as (J1 & J2 & J3 & J4 & J5 & J6).
  assert (P' : Permutation b' b) by (symmetry; auto).
  assert (E1 : b_nodes b = None <-> b_nodes b' = None) by (split; apply perm_rejected; auto).
  assert (E2 : has_missing b <-> has_missing b') by (split; apply perm_missing; auto).
  assert (E3 : has_repeat b <-> has_repeat b') by (split; apply perm_repeat; auto).
  assert (E4 : has_weak b <-> has_weak b') by (split; apply perm_weak; auto).
  assert (E5 : cyclic (declared b) <-> cyclic (declared b')) by (apply cyclic_iff; intros; apply perm_declared; auto).
  assert (E1' : b_nodes b <> None <-> b_nodes b' <> None) by (clear -E1; tauto).
  assert (L1 : build pops enum b = Rejected -> build pops' enum' b' = Rejected) by (rewrite K1, J1, E1; auto).
  assert (L2 : build pops enum b = MissingSteps -> build pops' enum' b' = MissingSteps) by (rewrite K2, J2, E1', E2; auto).
  assert (L3 : build pops enum b = DuplicateSteps -> build pops' enum' b' = DuplicateSteps) by (rewrite K3, J3, E1', E2, E3; auto).
  assert (L4 : build pops enum b = WeakCondition -> build pops' enum' b' = WeakCondition) by (rewrite K4, J4, E1', E2, E3, E4; auto).
  assert (L5 : (exists g, build pops enum b = Cycle g) -> exists g, build pops' enum' b' = Cycle g) by (rewrite K5, J5, E1', E2, E3, E4, E5; auto).
  assert (L6 : (exists o, build pops enum b = Built o) -> exists o, build pops' enum' b' = Built o) by (rewrite K6, J6, E1', E2, E3, E4, E5; auto).
  clear K1 K2 K3 K4 K5 K6 J1 J2 J3 J4 J5 J6.
  destruct (build pops enum b) as [| | | |g|o] eqn:Hb.
  - rewrite (L1 eq_refl). exact I.
  - rewrite (L2 eq_refl). exact I.
  - rewrite (L3 eq_refl). exact I.
  - rewrite (L4 eq_refl). exact I.
  - destruct L5 as (h & H); [eauto|]. rewrite H. cbn. intros x y. rewrite (C28_reported pops enum b g Hp He Hb x y), (C28_reported pops' enum' b' h Hp' He' H x y).
    rewrite (perm_declared b b' x y P).
    assert (Ht := clos_trans_iff (declared b) (declared b') (fun u v => perm_declared b b' u v P)).
    assert (Hr := clos_rt_iff (declared b) (declared b') (fun u v => perm_declared b b' u v P)).
    split; intros (D & z & Z1 & Z2); (split; [auto|]); exists z; (split; [apply Ht; auto|apply Hr; auto]).
  - destruct L6 as (o' & H); [eauto|]. rewrite H. cbn. pose proof (built_order pops enum Hp He b o Hb) as (ns & (C1 & _) & P1 & _).
    pose proof (built_order pops' enum' Hp' He' b' o' H) as (ns' & (C1' & _) & P1' & _).
    pose proof (perm_nodes b b' P) as PN. rewrite C1, C1' in PN. rewrite P1, P1'. auto.
Qed.
(** In particular for one [add] against several, in any order. *)
Theorem C32_split : forall pops enum pops' enum' (calls_ : list (list subgraph)) fs, pops_some pops -> enumerates enum -> pops_some pops' -> enumerates enum' ->
  Permutation (concat calls_) fs -> same_outcome (build pops enum (fold_left add calls_ [])) (build pops' enum' (add [] fs)).
Proof.
  intros pops enum pops' enum' cs fs H1 H2 H3 H4 P.
  assert (Hf : forall l b, fold_left add l b = (b ++ concat l)%list).
  { induction l as [|x l IH]; intros b; cbn; [rewrite app_nil_r; auto|]. rewrite IH. unfold add. rewrite app_assoc. auto. }
  rewrite Hf. apply C32_same_flow; auto.
Qed.
Example C32_case : let f := seq_of (lf "a" 1 true) (lf "b" 2 true) in let g := seq_of (lf "b" 2 false) (lf "c" 3 true) in
  exists o, build pop_last in_order (add (add [] [g]) [f]) = Built o /\ build pop_last in_order (add [] [f; g]) = Built o /\ map n_name o = ["a"; "b"; "c"].
Proof. eexists. split; [vm_compute; reflexivity|]. split; vm_compute; reflexivity. Qed.
Print Assumptions C32_same_flow.
Print Assumptions C32_split.

(** ** C33 *)
Definition reachable (b : builder) : string -> string -> Prop := clos_refl_trans string (declared b).
Theorem C33_selection : forall b start finish depth ns, b_nodes b = Some ns -> ~ cyclic (declared b) ->
  In start (map n_name ns) -> In finish (map n_name ns) -> length (b_mentioned b) <= depth ->
  exists sub es, debug_build depth start finish b = Some (sub, es) /\ NoDup sub /\ NoDup es /\
    (forall n, In n sub <-> (exists g own, In g b /\ adds g n own) /\ reachable b start (n_name n) /\ reachable b (n_name n) finish) /\
    (forall e, In e es <-> in_sequence b (e_cond e) (e_src e) (e_dst e) /\ In (leaf_name (e_src e)) (map n_name sub) /\ In (leaf_name (e_dst e)) (map n_name sub)).
Proof.
  intros b start finish depth ns Hns Hac Hs Hf Hd. destruct (debug_terminates b start finish depth ns Hns Hac Hd Hs Hf) as (sub & es & H).
  exists sub, es. split; auto. destruct (debug_correct b start finish depth ns sub es Hns H) as (D1 & D2 & D3 & D4).
  split; auto. split; auto. split; auto. intros n. rewrite D3, (b_nodes_spec b ns Hns). reflexivity.
Qed.
(** On a cycle that avoids the start step the selection never finishes, at any
    template depth. *)
Theorem C33_cycle_diverges : exists b, b_nodes b <> None /\ forall depth, debug_build depth "s" "s" b = None.
Proof.
  pose (b := [lf "s" 0 true; seq_of (lf "p" 1 true) (lf "p" 1 false)]). exists b. split; [vm_compute; discriminate|]. intros depth.
  assert (H : forall d, reaches d (fun x => parents_of x (unique edge_eq_dec (b_edges b))) "s" "p" = None).
  { induction d as [|d IH]; [reflexivity|]. cbn [reaches].
    replace (String.eqb "p" "s") with false by reflexivity.
    replace (parents_of "p" (unique edge_eq_dec (b_edges b))) with ["p"] by (vm_compute; reflexivity).
    cbn [map]. rewrite IH. reflexivity. }
  unfold debug_build. replace (b_nodes b) with (Some [st "s" 0 true; st "p" 1 true]) by (vm_compute; reflexivity).
  replace (unique node_eq_dec [st "s" 0 true; st "p" 1 true]) with [st "s" 0 true; st "p" 1 true] by (vm_compute; reflexivity).
  cbn [named find st n_name String.eqb].
  replace (named [st "s" 0 true; st "p" 1 true] "s") with (Some (st "s" 0 true)) by (vm_compute; reflexivity).
  assert (Hc : copy_if (reaches depth (fun x => parents_of x (unique edge_eq_dec (b_edges b))) "s") [st "s" 0 true; st "p" 1 true] = None).
  { unfold copy_if. cbn [map]. change (n_name (st "p" 1 true)) with "p". rewrite H.
    destruct (reaches depth _ "s" (n_name (st "s" 0 true))); reflexivity. }
  rewrite Hc. reflexivity.
Qed.
Example C33_case : let b := [seq_of (lf "a" 1 true) (seq_of (par_of (lf "b" 2 true) (lf "c" 3 true)) (lf "d" 4 true)); seq_of (lf "c" 3 false) (lf "e" 5 true)] in
  exists sub es, debug_build 8 "a" "d" b = Some (sub, es) /\ map n_name sub = ["a"; "b"; "c"; "d"] /\ length es = 4.
Proof. do 2 eexists. split; [vm_compute; reflexivity|]. split; reflexivity. Qed.
Print Assumptions C33_selection.
Print Assumptions C33_cycle_diverges.

(** ** C34 *)
Definition keep {A} (l : list A) : list A := l.
(** A sequence written once with stars and once without appears twice. *)
Theorem C34_refuted : exists b vn ve, viz_build keep keep b = Some (vn, ve) /\ build pop_last in_order b <> Rejected /\
  (exists o, build pop_last in_order b = Built o) /\ ~ NoDup (map shown ve) /\ ~ NoDup (map (render_edge graphviz) ve).
Proof.
  pose (b := [seq_of (lf "a" 1 true) (lf "b" 2 true); seq_of (lf "a" 1 false) (lf "b" 2 false)]).
  exists b. do 2 eexists. split; [vm_compute; reflexivity|]. split; [vm_compute; discriminate|]. split; [eexists; vm_compute; reflexivity|].
  split; intros H; inversion_clear H; apply H0; vm_compute; auto.
Qed.
(** Different steps can get the same mermaid node, and a step may be confused
    with the start of the flow. *)
Theorem C34_ids_refuted : exists b vn ve p q, viz_build keep keep b = Some (vn, ve) /\ (exists o, build pop_last in_order b = Built o) /\
  In p vn /\ In q vn /\ n_name p <> n_name q /\ to_id (n_name p) = to_id (n_name q).
Proof.
  exists [lf "a b" 1 true; lf "a_b" 2 true]. do 4 eexists. split; [vm_compute; reflexivity|]. split; [eexists; vm_compute; reflexivity|].
  split; [right; right; left; reflexivity|]. split; [right; right; right; left; reflexivity|]. split; [vm_compute; discriminate|vm_compute; reflexivity].
Qed.
Theorem C34_start_refuted : exists b vn ve, viz_build keep keep b = Some (vn, ve) /\ (exists o, build pop_last in_order b = Built o) /\ ~ NoDup (map n_name vn).
Proof.
  exists [lf "start" 1 true]. do 2 eexists. split; [vm_compute; reflexivity|]. split; [eexists; vm_compute; reflexivity|].
  intros H. inversion_clear H. apply H0. vm_compute. auto.
Qed.
(** What is shown, as sets: exactly the documented nodes and edges (this is the
    whole property except that an edge may be shown more than once). *)
Theorem C34_shown_partial : forall sort_nodes sort_edges b vn ve, (forall l, Permutation (sort_nodes l) l) -> (forall l, Permutation (sort_edges l) l) ->
  viz_build sort_nodes sort_edges b = Some (vn, ve) ->
  (exists ns, vn = milestone "start" :: milestone "end" :: ns /\ NoDup ns /\ forall n, In n ns <-> exists g own, In g b /\ adds g n own) /\
  (forall x y c, In (x, y, c) (map shown ve) <->
     (exists p q, in_sequence b c p q /\ leaf_name p = x /\ leaf_name q = y) \/
     (x = "start" /\ exists n, (exists g own, In g b /\ adds g n own) /\ n_name n = y /\ n_cond n = c /\ forall z, ~ declared b z y) \/
     (y = "end" /\ exists n, (exists g own, In g b /\ adds g n own) /\ n_name n = x /\ n_cond n = c /\ forall z, ~ declared b x z)).
Proof.
  intros sn se b vn ve Hsn Hse H. destruct (b_nodes b) as [ns|] eqn:Hns; [|unfold viz_build in H; rewrite Hns in H; discriminate].
  rewrite (viz_build_eq sn se b ns Hns) in H. injection H as <- <-. split.
  - exists (sn (unique node_eq_dec ns)). split; auto. split; [apply viz_nodes_nodup; auto|]. apply viz_nodes_in; auto.
  - intros x y c. rewrite !map_app, !in_app_iff. rewrite (shown_es se Hse), (shown_start sn se Hsn Hse b ns Hns), (shown_end sn se Hsn Hse b ns Hns). reflexivity.
Qed.
(** ... and each once, when every step is always written the same way and none
    is called "start" or "end". *)
Theorem C34_once_partial : forall sort_nodes sort_edges b vn ve, (forall l, Permutation (sort_nodes l) l) -> (forall l, Permutation (sort_edges l) l) ->
  viz_build sort_nodes sort_edges b = Some (vn, ve) -> written_once b -> ~ step_mentioned b "start" -> ~ step_mentioned b "end" ->
  NoDup (map shown ve) /\ NoDup (map n_name vn).
Proof.
  intros sn se b vn ve Hsn Hse H Hw Hs He. destruct (b_nodes b) as [ns|] eqn:Hns; [|unfold viz_build in H; rewrite Hns in H; discriminate].
  rewrite (viz_build_eq sn se b ns Hns) in H. injection H as <- <-. split; [apply shown_nodup; auto|].
  assert (Hm : forall n, In n (sn (unique node_eq_dec ns)) -> step_mentioned b (n_name n)).
  { intros n Hn. apply (viz_nodes_in sn Hsn b ns Hns) in Hn. destruct Hn as (g & o & G1 & G2). apply adds_mentions in G2. destruct G2 as (m & M1 & -> & _).
    exists g, (LNode m). auto. }
  assert (Hi : forall x, In x (map n_name (sn (unique node_eq_dec ns))) -> step_mentioned b x).
  { intros x Hx. apply in_map_iff in Hx. destruct Hx as (n & <- & Hn). auto. }
  cbn [map n_name milestone]. constructor; [intros [E|Hc]; [discriminate|apply Hs, Hi, Hc]|]. constructor; [intros Hc; apply He, Hi, Hc|].
  apply nodup_map_of; [apply viz_nodes_nodup; auto|]. apply (adds_named_once sn Hsn b ns Hns Hw).
Qed.
Example C34_case : let b := [seq_of (lf "a" 1 true) (par_of (lf "b" 2 true) (lf "c" 3 true))] in
  exists vn ve, viz_build keep keep b = Some (vn, ve) /\
  visualize graphviz "f" vn ve = "digraph f {" ++ newline ++ "  start" ++ newline ++ "  end" ++ newline ++ "  a" ++ newline ++ "  b" ++ newline ++ "  c" ++ newline ++
   "  a -> b" ++ newline ++ "  a -> c" ++ newline ++ "  start -> a" ++ newline ++ "  b -> end" ++ newline ++ "  c -> end" ++ newline ++ "}".
Proof. do 2 eexists. split; [vm_compute; reflexivity|]. vm_compute. reflexivity. Qed.
Print Assumptions C34_refuted.
Print Assumptions C34_shown_partial.
Print Assumptions C34_once_partial.

(** ** C56 *)
(** The capacities computed for a flow's containers suffice: with containers of
    that size the graph and its sort are what they are with unbounded ones. *)
Theorem C56_capacity : forall pops enum ns es, pops_some pops -> enumerates enum -> NoDup (map n_name ns) ->
  make_graph_fixed (length ns) (edge_size ns es) ns es = Some (make_graph ns es) /\
  topo_sort_fixed (length ns) pops enum (make_graph ns es) = topo_sort node_eq_dec pops enum (make_graph ns es).
Proof.
  intros pops enum ns es Hp He Hn. split; [apply make_graph_fixed_spec; auto|].
  destruct (make_graph_spec ns es Hn) as (M1 & M2 & M3). apply topo_fixed; auto.
  - intros a c Hac. apply M3 in Hac. destruct Hac as (e & _ & _ & E). apply M2. apply named_spec in E; tauto.
  - apply NoDup_incl_length; [apply M1|]. intros x Hx. apply M2. auto.
Qed.
(** One value less per key would not do. *)
Example C56_case : let b := [par_of (seq_of (lf "a" 1 true) (lf "b" 2 true)) (seq_of (lf "a" 1 false) (lf "c" 3 true))] in
  exists ns, b_nodes b = Some ns /\ edge_size ns (b_edges b) = 2 /\ make_graph_fixed 3 2 ns (b_edges b) = Some (make_graph ns (b_edges b)) /\
  make_graph_fixed 3 1 ns (b_edges b) = None /\ make_graph_fixed 2 2 ns (b_edges b) = None.
Proof. eexists. split; [vm_compute; reflexivity|]. repeat split; vm_compute; reflexivity. Qed.
Print Assumptions C56_capacity.

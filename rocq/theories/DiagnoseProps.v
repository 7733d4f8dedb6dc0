(** C137, C138: the errors of a flow. *)
From Coq Require Import String Bool Arith List Permutation Relations Lia.
From Verif Require Import FlowModel FlowSpec FlowProofs FlowProofs2 FlowProofs3 FlowProofs4 FlowProps DiagnoseModel DiagnoseSpec.
Import ListNotations.
Local Open Scope string_scope.

Lemma app_assoc_s (a b c : string) : (a ++ b) ++ c = a ++ b ++ c.
Proof. induction a; cbn; congruence. Qed.
Lemma join_concat sep l : error_join sep l = String.concat sep l.
Proof.
  destruct l as [|x r]; auto. cbn [error_join]. revert x. induction r as [|y r IH]; intros x; auto.
  cbn [fold_left]. rewrite IH. cbn [String.concat]. destruct r as [|z r]; rewrite ?app_assoc_s; reflexivity.
Qed.
Lemma sorted_in sorts l x : permutes sorts -> In x (sorted_set sorts l) <-> In x l.
Proof.
  intros H. unfold sorted_set. specialize (H (nodup string_dec l)). rewrite <- (nodup_In string_dec l x). split; apply Permutation_in; auto. symmetry; auto.
Qed.
Lemma sorted_nodup sorts l : permutes sorts -> NoDup (sorted_set sorts l).
Proof. intros H. eapply Permutation_NoDup; [apply H|apply NoDup_nodup]. Qed.
Lemma existsb_in (x : string) l : existsb (String.eqb x) l = true <-> In x l.
Proof. rewrite existsb_exists. split; [intros (y & H & E); apply String.eqb_eq in E; rewrite E; auto|intros H; exists x; rewrite String.eqb_refl; auto]. Qed.
Lemma filter_count x l : length (filter (String.eqb x) l) = occurrences x l.
Proof.
  unfold occurrences. induction l as [|y l IH]; auto. cbn. destruct (String.eqb_spec x y) as [E|E]; destruct (string_dec y x); cbn; congruence.
Qed.
Lemma hd_filter x l : In x l -> hd "" (filter (String.eqb x) l) = x.
Proof.
  induction l as [|y l IH]; [intros []|]. cbn. destruct (String.eqb_spec x y) as [->|E]; [reflexivity|]. intros [->|H]; [congruence|auto].
Qed.

(** Steps that are used and not added. *)
Theorem C137_missing : forall sorts pname flow pops enum b, permutes sorts -> pops_some pops -> enumerates enum -> build pops enum b = MissingSteps ->
  exists l, exactly l (fun x => step_mentioned b x /\ added b x = 0) /\
    errors sorts pname flow pops enum b = ["One or more steps are referenced in the flow (" ++ flow ++ ") but not explicitly added with the * operator. The missing steps are: " ++ String.concat ", " l ++ "."].
Proof.
  intros sorts pname flow pops enum b Hs Hp He H. pose proof (build_spec pops enum Hp He b) as Hb. rewrite H in Hb. destruct Hb as (ns & Hns & x & X1 & X2).
  exists (missing_names sorts (map n_name ns) (map leaf_name (b_mentioned b))).
  assert (E : forall x, In x (missing_names sorts (map n_name ns) (map leaf_name (b_mentioned b))) <-> step_mentioned b x /\ added b x = 0).
  { intros y. unfold missing_names. rewrite filter_In, sorted_in, mentioned_names, negb_true_iff, <- not_true_iff_false, existsb_in, sorted_in by auto.
    destruct (added_occurrences y b ns Hns) as [O1 O2]. pose proof (occurrences_pos y (map n_name ns)) as P. split; intros [A B]; split; auto.
    - destruct (added b y) as [|k] eqn:Ea; auto. exfalso. apply B, P. lia.
    - intros Hi. apply P in Hi. lia. }
  split.
  - split; [|split; auto]; [|apply NoDup_filter, sorted_nodup; auto].
    intros En. assert (Hx : In x []); [|destruct Hx]. rewrite <- En. apply E. split; auto.
    destruct (added_occurrences x b ns Hns) as [O1 O2]. pose proof (occurrences_pos x (map n_name ns)) as P.
    destruct (added b x) as [|k] eqn:Ea; auto. exfalso. apply X2, P. lia.
  - unfold errors. rewrite Hns, H. unfold missing_text. rewrite join_concat. reflexivity.
Qed.
Print Assumptions C137_missing.
(** Steps that are added more than once.  (A composite that mentions one step in two
    ways adds it twice when it is starred: [uniform] excludes it.) *)
Theorem C137_duplicate : forall sorts pname flow pops enum b, permutes sorts -> pops_some pops -> enumerates enum -> build pops enum b = DuplicateSteps ->
  (forall g, In g b -> uniform g) ->
  exists l, exactly l (fun x => 1 < added b x) /\
    errors sorts pname flow pops enum b = ["One or more steps in the flow (" ++ flow ++ ") are explicitly added more than once using the * operator. The duplicate steps are: " ++ String.concat ", " l ++ "."].
Proof.
  intros sorts pname flow pops enum b Hs Hp He H Hu. pose proof (build_spec pops enum Hp He b) as Hb. rewrite H in Hb. destruct Hb as (ns & Hns & _ & Hd).
  exists (duplicate_names sorts (map n_name ns)). set (names := map n_name ns) in *.
  assert (E : duplicate_names sorts names = filter (fun x => Nat.ltb 1 (occurrences x names)) (sorted_set sorts names)).
  { unfold duplicate_names, gather. assert (Hall : forall x, In x (sorted_set sorts names) -> In x names) by (intros x; apply sorted_in; auto).
    revert Hall. generalize (sorted_set sorts names). intros l Hl. induction l as [|x l IH]; auto. cbn [map filter]. rewrite filter_count.
    destruct (Nat.ltb 1 (occurrences x names)); cbn [map]; [rewrite hd_filter by (apply Hl; left; auto)|]; rewrite IH; auto; intros y Hy; apply Hl; right; auto. }
  assert (E2 : forall x, In x (duplicate_names sorts names) <-> 1 < added b x).
  { intros x. rewrite E, filter_In, sorted_in, Nat.ltb_lt by auto. unfold names. rewrite (added_exact x b Hu ns Hns). split; [tauto|]. intros Hx. split; auto.
    apply occurrences_pos. rewrite (added_exact x b Hu ns Hns). lia. }
  split.
  - split; [|split; auto]; [|rewrite E; apply NoDup_filter, sorted_nodup; auto].
    intros En. apply Hd. apply (NoDup_count_occ string_dec). intros x. change (occurrences x names <= 1). destruct (le_lt_dec (occurrences x names) 1) as [|Hl]; auto. exfalso.
    assert (Hx : In x []); [|destruct Hx]. rewrite <- En. apply E2. rewrite <- (added_exact x b Hu ns Hns). exact Hl.
  - unfold errors. rewrite Hns, H. unfold duplicate_text. rewrite join_concat. reflexivity.
Qed.
Print Assumptions C137_duplicate.
(** Sequences that ask for less than their steps: one error for each predicate that
    is missing, and no others. *)
Theorem C137_weak : forall sorts pname flow pops enum b, pops_some pops -> enumerates enum -> build pops enum b = WeakCondition ->
  exists ns, (forall n, In n ns <-> exists g o, In g b /\ adds g n o) /\ errors sorts pname flow pops enum b <> [] /\
  forall t, In t (errors sorts pname flow pops enum b) <-> exists c x y p, lacks b ns c x y p /\
    t = "The conditions on the sequence (" ++ n_name x ++ " >> " ++ n_name y ++ ")[" ++ c_name c ++ "] are weaker than those on "
      ++ n_name x ++ "[" ++ c_name (n_cond x) ++ "] or " ++ n_name y ++ "[" ++ c_name (n_cond y) ++ "]. Specifically, the sequence is missing the predicate: " ++ pname p.
Proof.
  intros sorts pname flow pops enum b Hp He H. pose proof (build_spec pops enum Hp He b) as Hb. rewrite H in Hb. destruct Hb as (ns & Hns & Hd & Hm & e & E1 & E2).
  exists ns. split; [apply b_nodes_spec; auto|]. unfold errors. rewrite Hns, H. rewrite (unique_id node_eq_dec ns) by (eapply NoDup_map_inv; eauto).
  assert (K : forall t, In t (weak_texts pname ns (unique edge_eq_dec (b_edges b))) <-> exists c x y p, lacks b ns c x y p /\ t = weak_text pname x y {| e_src := LRef ""; e_dst := LRef ""; e_cond := c |} p).
  { intros t. unfold weak_texts. rewrite in_flat_map. split.
    - intros (f & F1 & F2). apply unique_in in F1. destruct (named ns (leaf_name (e_src f))) as [x|] eqn:Ex; [|destruct F2]. destruct (named ns (leaf_name (e_dst f))) as [y|] eqn:Ey; [|destruct F2].
      apply in_map_iff in F2. destruct F2 as (p & <- & P). apply filter_In in P. destruct P as [P1 P2]. apply nodup_In, in_app_iff in P1.
      apply named_spec in Ex; auto. apply named_spec in Ey; auto. destruct Ex as [X1 X2], Ey as [Y1 Y2].
      exists (e_cond f), x, y, p. split; [|reflexivity]. split; auto. split; auto. split.
      + exists (e_src f), (e_dst f). split; [apply b_edges_spec; auto|]. split; congruence.
      + split; auto. intros Hin. rewrite negb_true_iff, <- not_true_iff_false in P2. apply P2. apply existsb_exists. exists p. rewrite Nat.eqb_refl. auto.
    - intros (c & x & y & p & (X & Y & (l & r & S & L & R) & P & Q) & ->).
      exists {| e_src := l; e_dst := r; e_cond := c |}. split; [apply unique_in, b_edges_spec; auto|]. cbn [e_src e_dst].
      rewrite (proj2 (named_spec ns (leaf_name l) x Hd)), (proj2 (named_spec ns (leaf_name r) y Hd)) by (split; auto).
      apply in_map_iff. exists p. split; [reflexivity|]. apply filter_In. split; [apply nodup_In, in_app_iff; auto|]. cbn [e_cond].
      rewrite negb_true_iff, <- not_true_iff_false, existsb_exists. intros (q & Q1 & Q2). apply Nat.eqb_eq in Q2. subst. auto. }
  split; [|intros t; rewrite K; reflexivity].
  (* some edge is weak *)
  assert (Hend : forall l r, in_sequence b (e_cond e) l r -> step_mentioned b (leaf_name l) /\ step_mentioned b (leaf_name r)) by (intros l r; apply sequence_mentioned).
  apply b_edges_spec in E1. destruct (Hend _ _ E1) as [M1 M2]. apply Hm in M1. apply Hm in M2.
  destruct (named_some ns _ M1) as (x & Ex). destruct (named_some ns _ M2) as (y & Ey). unfold edge_ok in E2. rewrite Ex, Ey in E2.
  apply named_spec in Ex; auto. apply named_spec in Ey; auto. destruct Ex as [X1 X2], Ey as [Y1 Y2].
  assert (Hp' : exists p, In p (c_preds (n_cond x) ++ c_preds (n_cond y))%list /\ existsb (Nat.eqb p) (c_preds (e_cond e)) = false).
  { clear -E2. induction (c_preds (n_cond x) ++ c_preds (n_cond y))%list as [|p l IH]; [discriminate|]. cbn in E2. apply andb_false_iff in E2. destruct E2 as [E2|E2]; [exists p; cbn; auto|].
    destruct (IH E2) as (q & Q1 & Q2). exists q. cbn. auto. }
  destruct Hp' as (p & P1 & P2). apply in_app_iff in P1.
  intros En. assert (Hx : In (weak_text pname x y {| e_src := LRef ""; e_dst := LRef ""; e_cond := e_cond e |} p) []); [|destruct Hx]. rewrite <- En. apply K.
  exists (e_cond e), x, y, p. split; [|reflexivity]. split; auto. split; auto. split; [exists (e_src e), (e_dst e); auto|]. split; auto.
  intros Hin. rewrite <- not_true_iff_false in P2. apply P2. apply existsb_exists. exists p. rewrite Nat.eqb_refl. auto.
Qed.
Print Assumptions C137_weak.
(** No errors, for a flow that is built. *)
Theorem C137_built : forall sorts pname flow pops enum b o, build pops enum b = Built o -> errors sorts pname flow pops enum b = [].
Proof. intros sorts pname flow pops enum b o H. unfold errors. rewrite H. destruct (b_nodes b); reflexivity. Qed.
Print Assumptions C137_built.

Definition same (l : list string) : list string := l.
Example C137_case : let b := [seq_of (lf "a" 1 true) (seq_of (lf "b" 2 false) (lf "c" 3 false)); lf "c" 3 false] in
  build pop_last in_order b = MissingSteps /\ errors same (fun _ => "") "f" pop_last in_order b =
  ["One or more steps are referenced in the flow (f) but not explicitly added with the * operator. The missing steps are: b, c."].
Proof. split; [vm_compute; reflexivity|]. vm_compute. reflexivity. Qed.
Example C137_duplicate_case : let b := [seq_of (lf "a" 1 true) (lf "b" 2 true); lf "a" 1 true; lf "b" 2 true] in
  build pop_last in_order b = DuplicateSteps /\ (forall g, In g b -> uniform g) /\ errors same (fun _ => "") "f" pop_last in_order b =
  ["One or more steps in the flow (f) are explicitly added more than once using the * operator. The duplicate steps are: a, b."].
Proof. split; [vm_compute; reflexivity|]. split; [|vm_compute; reflexivity]. intros g [<-|[<-|[<-|[]]]] h Hh Hc; exfalso; repeat (inversion Hh; subst; clear Hh; try (inversion Hc; fail); match goal with H : part _ h |- _ => rename H into Hh end). Qed.
Example C137_weak_case :
  let c := {| c_name := "on"; c_preds := [7] |} in
  let b := [Leaf (LNode {| n_type := Action; n_name := "a"; n_value := true; n_cond := c; n_func := 1 |}); seq_of (Leaf (LRef "a")) (lf "b" 2 true)] in
  build pop_last in_order b = WeakCondition /\ errors same (fun _ => "is_on") "f" pop_last in_order b =
  ["The conditions on the sequence (a >> b)[always] are weaker than those on a[on] or b[always]. Specifically, the sequence is missing the predicate: is_on"].
Proof. split; [vm_compute; reflexivity|]. vm_compute. reflexivity. Qed.

(** ** C138 *)
Lemma edges_nodup (g : graph node) : good g -> (forall n m, In n (keys g ++ flat_map snd g)%list -> In m (keys g ++ flat_map snd g)%list -> n_name n = n_name m -> n = m) ->
  NoDup (leftover_edges g).
Proof.
  intros [G1 G2] Hinj. unfold leftover_edges.
  assert (Hn : NoDup (flat_map (fun e : node * list node => map (fun m => (fst e, m)) (snd e)) g)).
  { clear Hinj. induction g as [|[n vs] g IH]; [constructor|]. cbn [flat_map fst snd]. cbn [keys map fst] in G1. inversion_clear G1 as [|? ? N1 N2].
    inversion_clear G2 as [|? ? Hv G3]. cbn [snd] in Hv. assert (IH' : NoDup (flat_map (fun e : node * list node => map (fun m => (fst e, m)) (snd e)) g)).
    { apply IH; auto. }
    clear IH. assert (Ha : forall l : list node, NoDup l -> NoDup (map (fun m => (n, m)) l)).
    { intros l Hl. apply FinFun.Injective_map_NoDup; auto. intros x y E. congruence. }
    assert (Hd : forall p, In p (map (fun m => (n, m)) vs) -> ~ In p (flat_map (fun e : node * list node => map (fun m => (fst e, m)) (snd e)) g)).
    { intros p H1 H2. apply in_map_iff in H1. destruct H1 as (m & <- & _). apply in_flat_map in H2. destruct H2 as ([k us] & K1 & K2). apply in_map_iff in K2. destruct K2 as (m' & E & _).
      cbn in E. injection E as <- <-. apply N1. apply (in_map fst) in K1. exact K1. }
    clear - Ha Hd IH' Hv. specialize (Ha vs Hv). induction (map (fun m => (n, m)) vs) as [|p l IHl]; auto. inversion_clear Ha as [|? ? A1 A2]. cbn. constructor.
    - rewrite in_app_iff. intros [C|C]; auto. apply (Hd p); auto. left; auto.
    - apply IHl; auto. intros q Hq. apply Hd. right; auto. }
  replace (flat_map (fun e => map (fun m => (n_name (fst e), n_name m)) (snd e)) g)
    with (map (fun p => (n_name (fst p), n_name (snd p))) (flat_map (fun e : node * list node => map (fun m => (fst e, m)) (snd e)) g)).
  2:{ clear. induction g as [|e g IH]; auto. cbn [flat_map]. rewrite map_app, IH, map_map. reflexivity. }
  assert (Hsub : forall p, In p (flat_map (fun e : node * list node => map (fun m => (fst e, m)) (snd e)) g) -> In (fst p) (keys g) /\ In (snd p) (flat_map snd g)).
  { intros p Hi. apply in_flat_map in Hi. destruct Hi as ([k us] & K1 & K2). apply in_map_iff in K2. destruct K2 as (m & <- & M). split; [apply (in_map fst) in K1; exact K1|]. apply in_flat_map. exists (k, us). auto. }
  revert Hsub. induction Hn as [|p l P1 P2 IH]; intros Hsub; cbn [map]; constructor.
  - intros Hi. apply in_map_iff in Hi. destruct Hi as (q & E & Q). injection E as E1 E2. apply P1. destruct (Hsub p) as [S1 S2]; [left; auto|]. destruct (Hsub q) as [T1 T2]; [right; auto|].
    assert (F1 : fst q = fst p) by (apply Hinj; auto; apply in_app_iff; auto). assert (F2 : snd q = snd p) by (apply Hinj; auto; apply in_app_iff; auto).
    destruct p, q; cbn in *; subst; auto.
  - apply IH. intros q Hq. apply Hsub. right. auto.
Qed.
(** The edges listed for a cycle: those of the description that are on a cycle or
    come after one, each once. *)
Theorem C138_exact : forall sorts pname flow pops enum b g, pops_some pops -> enumerates enum -> build pops enum b = Cycle g ->
  exists l, exactly l (fun e => after_cycle (declared b) (fst e) (snd e)) /\
    errors sorts pname flow pops enum b = ["Topological sort failed: cycle in flow.

Unresolved edges involved in cycle:
" ++ String.concat "
" (map (fun e => fst e ++ " -> " ++ snd e) l) ++ "

"].
Proof.
  intros sorts pname flow pops enum b g Hp He H. exists (leftover_edges g).
  assert (E : forall e, In e (leftover_edges g) <-> after_cycle (declared b) (fst e) (snd e)).
  { intros [x y]. cbn [fst snd]. unfold after_cycle. rewrite <- (C28_reported pops enum b g Hp He H x y). unfold leftover_edges. rewrite in_flat_map. split.
    - intros ([n vs] & I1 & I2). apply in_map_iff in I2. destruct I2 as (m & E & I3). injection E as <- <-. exists n, vs, m. auto.
    - intros (n & vs & m & I1 & I2 & <- & <-). exists (n, vs). split; auto. apply in_map_iff. exists m. auto. }
  pose proof (build_spec pops enum Hp He b) as Hb. rewrite H in Hb. destruct Hb as (Hg & ns & o & Hc & Hs).
  destruct (the_graph_spec b ns Hc) as (G1 & G2 & G3). pose proof Hc as (C1 & C2 & C3 & C4).
  split; [split; [|split; auto]|].
  - destruct (C28_cycle pops enum b Hp He) as [K _]; try (rewrite H; discriminate). destruct (proj1 K (ex_intro _ g H)) as (z & Z).
    intros En. apply clos_trans_t1n in Z. assert (Hz : exists y, declared b z y /\ clos_trans string (declared b) z z).
    { inversion Z; subst; [exists z; split; [auto|apply t_step; auto]|]. exists y. split; auto. eapply t_trans; [apply t_step; eauto|]. apply clos_t1n_trans. auto. }
    destruct Hz as (y & Y1 & Y2). assert (Hx : In (z, y) []); [|destruct Hx]. rewrite <- En. apply E. split; [exact Y1|]. exists z. split; auto. apply rt_refl.
  - apply edges_nodup; [apply (i_good _ _ _ _ Hs)|]. assert (Hin : forall n, In n (keys g ++ flat_map snd g)%list -> In n ns).
    { intros n Hn. apply in_app_iff in Hn. destruct Hn as [Hn|Hn].
      - apply G2. apply (i_part _ _ _ _ Hs). auto.
      - apply in_flat_map in Hn. destruct Hn as ([k vs] & K1 & K2). assert (Ha : arc g k n) by (exists vs; auto). apply (i_arcs _ _ _ _ Hs) in Ha. destruct Ha as [Ha _]. apply G3 in Ha. tauto. }
    intros n m Hn Hm. apply nodup_map_inj with (l := ns); auto.
  - unfold errors. rewrite C1, H. unfold cycle_text. rewrite join_concat. reflexivity.
Qed.
Print Assumptions C138_exact.
(** So every edge that is part of a cycle is listed, and only those if no edge leads
    away from a cycle. *)
Theorem C138_partial : forall sorts pname flow pops enum b g, pops_some pops -> enumerates enum -> build pops enum b = Cycle g ->
  exists l, (forall x y, on_cycle (declared b) x y -> In (x, y) l) /\
    ((forall x y, clos_trans string (declared b) x x -> declared b x y -> clos_refl_trans string (declared b) y x) -> exactly l (fun e => on_cycle (declared b) (fst e) (snd e))) /\
    errors sorts pname flow pops enum b = ["Topological sort failed: cycle in flow.

Unresolved edges involved in cycle:
" ++ String.concat "
" (map (fun e => fst e ++ " -> " ++ snd e) l) ++ "

"].
Proof.
  intros sorts pname flow pops enum b g Hp He H. destruct (C138_exact sorts pname flow pops enum b g Hp He H) as (l & (L1 & L2 & L3) & E).
  assert (Hon : forall x y, on_cycle (declared b) x y -> after_cycle (declared b) x y).
  { intros x y [H1 H2]. split; auto. exists x. split; [|apply rt_refl]. destruct (rt_cases _ _ _ H2) as [->|H3]; [apply t_step; auto|]. eapply t_trans; [apply t_step; exact H1|auto]. }
  exists l. split; [intros x y Hx; apply L3, Hon; auto|]. split; auto. intros Hleave. split; auto. split; auto. intros [x y]. rewrite L3. cbn [fst snd]. split; [|apply Hon].
  intros [H1 (z & Z1 & Z2)]. split; auto. assert (Hx : clos_trans string (declared b) x x).
  { clear - Z1 Z2 Hleave. apply clos_rt_rt1n in Z2. induction Z2 as [|z u x Hzu _ IH]; auto. apply IH. specialize (Hleave z u Z1 Hzu).
    destruct (rt_cases _ _ _ Hleave) as [->|Huz]; [apply t_step; auto|]. eapply t_trans; [exact Huz|apply t_step; auto]. }
  apply Hleave; auto.
Qed.
Print Assumptions C138_partial.
(** An edge after the cycle is listed among those "involved in cycle". *)
Definition tail_of_cycle : builder := [seq_of (lf "a" 1 true) (seq_of (lf "b" 2 true) (lf "c" 3 true)); seq_of (lf "b" 2 false) (lf "a" 1 false); seq_of (lf "c" 3 false) (lf "d" 4 true)].
Theorem C138_refuted : exists sorts pname flow pops enum b x y, pops_some pops /\ enumerates enum /\
  errors sorts pname flow pops enum b = ["Topological sort failed: cycle in flow.

Unresolved edges involved in cycle:
a -> b
b -> c
b -> a
" ++ x ++ " -> " ++ y ++ "

"] /\ ~ on_cycle (declared b) x y.
Proof.
  exists same, (fun _ => ""), "f", pop_last, in_order, tail_of_cycle, "c", "d". split; [apply pop_last_ok|]. split; [apply in_order_ok|].
  split; [vm_compute; reflexivity|]. intros [_ H]. apply clos_rt_rt1n in H. inversion H as [|z w Hd _]; subst. apply declared_edges in Hd.
  destruct Hd as (e & He & E1 & E2). vm_compute in He. repeat destruct He as [<-|He]; try destruct He; discriminate E1.
Qed.
Print Assumptions C138_refuted.
Example C138_case : exists g, build pop_last in_order tail_of_cycle = Cycle g.
Proof. eexists. vm_compute. reflexivity. Qed.
Example C138_pure_case : let b := [seq_of (lf "a" 1 true) (lf "b" 2 true); seq_of (lf "b" 2 false) (lf "a" 1 false)] in
  (exists g, build pop_last in_order b = Cycle g) /\ (forall x y, clos_trans string (declared b) x x -> declared b x y -> clos_refl_trans string (declared b) y x).
Proof.
  intros b. split; [eexists; vm_compute; reflexivity|].
  assert (D : forall x y, declared b x y <-> (x = "a" /\ y = "b") \/ (x = "b" /\ y = "a")).
  { intros x y. rewrite declared_edges. split.
    - intros (e & He & <- & <-). vm_compute in He. destruct He as [<-|[<-|[]]]; cbn; auto.
    - intros [[-> ->]|[-> ->]].
      + exists {| e_src := LNode (st "a" 1 true); e_dst := LNode (st "b" 2 true); e_cond := always |}. split; [left|]; auto.
      + exists {| e_src := LNode (st "b" 2 false); e_dst := LNode (st "a" 1 false); e_cond := always |}. split; [right; left|]; auto. }
  intros x y _ H. apply rt_step. rewrite D in *. tauto.
Qed.

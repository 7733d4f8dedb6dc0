(** Theorems C108 to C112: whole projects. *)
From Coq Require Import String Bool Arith List Permutation Relations Lia.
From Verif Require IrqModel IrqSpec IrqProofs IrqProofs3.
From Verif Require Import FlowModel FlowSpec FlowProofs FlowProps NexusModel NexusSpec NexusProofs NexusProofs2 ProjectModel ProjectSpec ProjectProofs ProjectProofs2 ProjectProofs3 ProjectProofs4 ProjectProofs5 ProjectProofs6 ProjectProofs7.
Import ListNotations.
Local Open Scope string_scope.
Local Open Scope list_scope.

(** ** C108: a project does what its components say *)
(** Every run of a program: nexuses are started in order, each service called is the
    one of the nexus started last that exports it, a flow does its added steps in an
    order the components allow, skipping those whose conditions do not hold at that
    moment, a callback service calls all its functions, and so on inside them. *)
Theorem C108_runs : forall W pops enum (pred : nat -> W -> bool) act body nexus fuel l w t y, pops_some pops -> enumerates enum ->
  run_program pops enum pred act body nexus fuel l w = Some (t, y) ->
  exists m, does pred act body nexus (ops_task 0 l) (at_first w) t m /\ now m = world y /\ over m = panicked y.
Proof.
  intros W pops enum pred act body nexus fuel l w t y Hp He H. destruct (refines_program pops enum Hp He pred act body nexus fuel l w t y H) as (m & D & _ & _ & S1 & S2). exists m. auto.
Qed.
Print Assumptions C108_runs.
(** If services do not run themselves in turn, every program ends, in any world. *)
Theorem C108_ends : forall W pops enum (pred : nat -> W -> bool) act body nexus rank fuel l w, pops_some pops -> enumerates enum ->
  ranked rank nexus body -> (forall n, services pops enum (nexus n) <> None) -> (forall o, In o l -> runs_below rank nexus 0 fuel o) ->
  run_program pops enum pred act body nexus fuel l w <> None.
Proof.
  intros W pops enum pred act body nexus rank fuel l w Hp He R C B. unfold run_program.
  apply (works_ops pops enum pred act body nexus rank C (run_service pops enum pred act body nexus fuel) 0 fuel l (refines_service pops enum Hp He pred act body nexus fuel)
    (works_service pops enum Hp He pred act body nexus rank R C fuel) B (initial w) (at_first w)); [reflexivity|apply sees_initial].
Qed.
Print Assumptions C108_ends.
(** If a nexus compiles, every flow has an order the components allow. *)
Theorem C108_compiles : forall pops enum x s, pops_some pops -> enumerates enum -> services pops enum x <> None -> exported s x ->
  match s_name s with Some _ => exists o, lawful x s o | None => exists fs, callbacks x s fs end.
Proof.
  intros pops enum x s Hp He C Hs. destruct (services pops enum x) as [l|] eqn:E; [|congruence]. assert (I := impl_all pops enum x l s E Hs).
  destruct (impl_of pops enum x s) as [i|] eqn:Ei; [|congruence]. destruct (impl_spec pops enum Hp He x s i Ei) as [_ K]. destruct i as [n o|fs]; destruct K as [-> K]; [|eauto].
  destruct K as (ds & _ & L). eauto.
Qed.
Print Assumptions C108_compiles.
(** Three components: one adds a step to the start flow and exports a callback
    service, one adds a conditional step after it, one adds callbacks and a step of the
    main loop. *)
Definition flow (i : nat) (n : string) : svc := {| s_id := i; s_name := Some n; s_ret := 0 |}.
Definition ticks : svc := {| s_id := 9; s_name := None; s_ret := 0 |}.
Definition odd_world : cond := {| c_name := "odd"; c_preds := [1] |}.
Definition comp_a : config element := Many [Exports [ticks]; Extend (ByType (flow 2 "start")) [Frag (lf "a" 1 true)]].
Definition comp_b : config element := When odd_world [Extend (ByType (flow 2 "start")) [Frag (seq_of (lf "a" 1 false) (lf "b" 2 true))]].
Definition comp_c : config element := Many [Extend (ByType ticks) [Function 7; Function 8]; Extend (ByName "loop") [Frag (lf "m" 3 true)]].
Definition top (project : config element) : config element := top_config (flow 0 "") (flow 1 "") (flow 2 "start") (flow 3 "loop") project.
Definition demo : nat -> config element := fun _ => top (Many [comp_a; comp_b; comp_c]).
Definition demo_pred (p w : nat) : bool := Nat.odd w.
Definition demo_body (f : nat) : list op := match f with 1 => [Do 1; Run ticks] | 2 => [Do 2] | 3 => [Do 10; RunOwn ticks] | 7 => [Do 7] | 8 => [Do 5] | _ => [] end.
Definition demo_main (j : nat) : list op := main_ops (flow 0 "") (flow 1 "") (flow 2 "start") (flow 3 "loop") j.
Definition demo_run (j w : nat) := run_program pop_last in_order demo_pred Nat.add demo_body demo 5 (demo_main j) w.
Example C108_case : services pop_last in_order (demo 0) <> None /\
  option_map (fun r => (fst r, world (snd r))) (demo_run 5 0) =
  Some ([Said "flow.start(start)"; Said "flow.action(a)"; Did 1; Did 7; Did 5; Said "flow.action(b)"; Did 2; Said "flow.end(start)";
         Said "flow.start(loop)"; Said "flow.action(m)"; Did 10; Did 7; Did 5; Said "flow.end(loop)"], 37) /\
  option_map (fun r => (fst r, world (snd r))) (demo_run 4 1) =
  Some ([Said "flow.start(start)"; Said "flow.action(a)"; Did 1; Did 7; Did 5; Said "flow.end(start)"], 14).
Proof. split; [vm_compute; discriminate|]. split; vm_compute; reflexivity. Qed.
Definition demo_rank (s : svc) : nat := match s_name s with None => 0 | Some _ => 1 end.
Lemma demo_given n s cs e : given (demo n) s cs e -> (s = flow 2 "start" /\ (e = Frag (lf "a" 1 true) \/ e = Frag (seq_of (lf "a" 1 false) (lf "b" 2 true)))) \/
  (s = ticks /\ (e = Function 7 \/ e = Function 8)) \/ (s = flow 3 "loop" /\ e = Frag (lf "m" 3 true)).
Proof.
  intros (t & a & H & M & I). apply locate_means in M. vm_compute in H. repeat (destruct H as [[= <- <- <-]|H]; [vm_compute in M; injection M as <-; repeat (destruct I as [<-|I]; [tauto|]); destruct I|]). destruct H.
Qed.
Lemma demo_below n f o : In o (demo_body f) -> runs_below demo_rank demo n 1 o.
Proof.
  assert (X : exported ticks (demo n)) by (apply exported_exports; vm_compute; auto 9).
  do 9 (destruct f as [|f]; [intros I; cbn in I; repeat (destruct I as [<-|I]; [cbn; auto; fail|]); destruct I|]). intros [].
Qed.
Example C108_case_ranked : ranked demo_rank demo demo_body /\ forall j o, In o (demo_main j) -> runs_below demo_rank demo 0 2 o.
Proof.
  split.
  - intros n s f o _ B I. destruct B as [(d & (g & G & A) & <-)|(cs & G)]; apply demo_given in G; decompose [and or] G; subst; try discriminate; try apply (demo_below n _ o I).
    all: match goal with H : Function _ = Function _ |- _ => injection H as -> end; cbn in I; destruct I as [<-|[]]; exact Logic.I.
  - intros j o H. apply in_map_iff in H as (e & <- & H). unfold top_events in H. revert H. generalize PInit as p. induction j as [|j IH]; intros p; [intros []|]. cbn [top_events]. intros [<-|H]; [|apply (IH _ H)].
    destruct p; cbn; auto.
Qed.

(** ** C109: a project started by cib::top *)
Section Top.
Context {W : Type} (pops : nat -> list node -> option (node * list node)) (enum : nat -> list node -> list node) (pred : nat -> W -> bool) (act : nat -> W -> W) (body : nat -> list op) (nexus : nat -> config element).
Lemma main_ops_all early rt_init start main_loop k : main_ops early rt_init start main_loop (4 + k) = Start 0 :: map Run ([early; rt_init; start] ++ repeat main_loop k).
Proof. unfold main_ops. rewrite top_events_all. rewrite map_app. cbn [map op_of_event app]. do 4 f_equal. induction k as [|k IH]; cbn [repeat map op_of_event]; f_equal; auto. Qed.
End Top.
(** The flows of cib::top in order, then the main loop again and again; the services
    are those of this nexus throughout, if the project starts no other. *)
Theorem C109_boot : forall W pops enum (pred : nat -> W -> bool) act body nexus early rt_init start main_loop project fuel k w t y, pops_some pops -> enumerates enum ->
  nexus 0 = top_config early rt_init start main_loop project -> (forall f n, ~ In (Start n) (body f)) ->
  run_program pops enum pred act body nexus fuel (main_ops early rt_init start main_loop (4 + k)) w = Some (t, y) ->
  exists m, does pred act body nexus (TSeq (map (TService 0) ([early; rt_init; start] ++ repeat main_loop k))) {| started := [0]; now := w; over := false |} t m /\
    now m = world y /\ over m = panicked y.
Proof.
  intros W pops enum pred act body nexus early rt_init start main_loop project fuel k w t y Hp He Hx Hb H. destruct (C108_runs _ _ _ _ _ _ _ _ _ _ _ _ Hp He H) as (m & D & S). exists m. split; auto.
  rewrite main_ops_all in D. unfold ops_task in D. cbn [map] in D. fold (map (TOp 0) (map Run ([early; rt_init; start] ++ repeat main_loop k))) in D.
  change (does pred act body nexus (TSeq (TOp 0 (Start 0) :: map (TOp 0) (map Run ([early; rt_init; start] ++ repeat main_loop k)))) (at_first w) t m) in D.
  assert (D' : does pred act body nexus (TSeq (map (TOp 0) (map Run ([early; rt_init; start] ++ repeat main_loop k)))) {| started := [0]; now := w; over := false |} t m).
  { inversion D as [| | |k' l' m0 t1 m1 t2 m2 D1 O1 D2|k' l' m0 t1 m1 D1 O1| | | | | | | | | | |]; subst; inversion D1; subst; [exact D2|discriminate]. }
  apply (run_services pred act body nexus (fun o => forall n, o <> Start n)) with (own := 0); auto.
  - intros f o Ho n ->. apply (Hb f n Ho).
  - intros n N. apply (N n eq_refl).
  - intros s Hs. apply exported_exports. rewrite Hx. unfold top_config. cbn [exports map concat]. apply in_app_iff. left. apply in_app_iff in Hs as [Hs|Hs]; [cbn in *; tauto|]. apply repeat_spec in Hs. subst. cbn. auto.
Qed.
Print Assumptions C109_boot.
(** Nothing panics if what the functions run is exported. *)
Theorem C109_no_panic : forall W pops enum (pred : nat -> W -> bool) act body nexus early rt_init start main_loop project fuel k w t y, pops_some pops -> enumerates enum ->
  nexus 0 = top_config early rt_init start main_loop project -> (forall f n, ~ In (Start n) (body f)) ->
  (forall f s, In (Run s) (body f) -> exported s (nexus 0)) ->
  (forall f k, In (RunName k) (body f) -> exists s, exported s (nexus 0) /\ s_name s = Some k /\ s_ret s = 0) ->
  run_program pops enum pred act body nexus fuel (main_ops early rt_init start main_loop (4 + k)) w = Some (t, y) ->
  ~ In Panicked t /\ panicked y = false.
Proof.
  intros W pops enum pred act body nexus early rt_init start main_loop project fuel k w t y Hp He Hx Hb H1 H2 H. destruct (C109_boot _ _ _ _ _ _ _ _ _ _ _ _ _ _ _ _ _ Hp He Hx Hb H) as (m & D & _ & <-).
  destruct (does_safe pred act body nexus (fun o => exists f, In o (body f))) with (n0 := 0) (5 := D) as [S1 S2]; auto.
  - eauto.
  - intros n (f & I). apply (Hb f n I).
  - intros s (f & I). apply (H1 f s I).
  - intros n (f & I). destruct (H2 f n I) as (s & X & E1 & E2). unfold names_returning. apply existsb_exists. exists s. split; [apply exported_exports, X|]. rewrite E2, andb_true_r. apply has_name_eq, E1.
  - constructor. intros x I. apply in_map_iff in I as (s & <- & _). constructor.
Qed.
Print Assumptions C109_no_panic.
(** However far it is followed, the program goes on. *)
Theorem C109_alive : forall W pops enum (pred : nat -> W -> bool) act body nexus rank early rt_init start main_loop project w, pops_some pops -> enumerates enum ->
  nexus 0 = top_config early rt_init start main_loop project -> ranked rank nexus body -> (forall n, services pops enum (nexus n) <> None) ->
  exists fuel, forall k, run_program pops enum pred act body nexus fuel (main_ops early rt_init start main_loop (4 + k)) w <> None.
Proof.
  intros W pops enum pred act body nexus rank early rt_init start main_loop project w Hp He Hx R C. exists (S (rank early + rank rt_init + rank start + rank main_loop)). intros k.
  apply (C108_ends W pops enum pred act body nexus rank); auto. intros o I. rewrite main_ops_all in I. destruct I as [<-|I]; [exact Logic.I|]. apply in_map_iff in I as (s & <- & I). cbn.
  apply in_app_iff in I as [I|I]; [cbn in I; destruct I as [<-|[<-|[<-|[]]]]; lia|]. apply repeat_spec in I as ->. lia.
Qed.
Print Assumptions C109_alive.
Example C109_case : demo 0 = top (Many [comp_a; comp_b; comp_c]) /\ (forall f n, ~ In (Start n) (demo_body f)) /\ (forall f s, In (Run s) (demo_body f) -> exported s (demo 0)) /\
  (forall f k, ~ In (RunName k) (demo_body f)) /\ option_map (fun r => (length (fst r), panicked (snd r))) (demo_run 20 0) = Some (104, false).
Proof.
  split; [reflexivity|]. assert (B : forall f o, In o (demo_body f) -> (exists a, o = Do a) \/ o = Run ticks \/ o = RunOwn ticks).
  { intros f o. do 9 (destruct f as [|f]; [intros I; cbn in I; repeat (destruct I as [<-|I]; [eauto|]); destruct I|]). intros []. }
  split; [intros f n I; apply B in I as [(a & I)|[I|I]]; discriminate|]. split; [|split; [intros f n I; apply B in I as [(a & I)|[I|I]]; discriminate|vm_compute; reflexivity]].
  intros f s I. apply B in I as [(a & I)|[I|I]]; try discriminate. injection I as ->. apply exported_exports. vm_compute. auto 9.
Qed.
(** A function that runs a service no nexus exports ends in a panic. *)
Example C109_needed : option_map (fun r => (rev (fst r), panicked (snd r)))
  (run_program pop_last in_order demo_pred Nat.add (fun f => match f with 3 => [Run (flow 77 "")] | _ => demo_body f end) demo 5 (demo_main 5) 1) =
  Some ([Panicked; Said "flow.action(m)"; Said "flow.start(loop)"; Said "flow.end(start)"; Did 5; Did 7; Did 1; Said "flow.action(a)"; Said "flow.start(start)"], true).
Proof. vm_compute. reflexivity. Qed.

(** ** C110: the order of steps the components leave open does not matter *)
Theorem C110_orders : forall W (pred : nat -> W -> bool) effect x s o o', lawful x s o -> lawful x s o' -> unordered_independent pred effect x s ->
  forall w, follow pred effect o w = follow pred effect o' w /\ forall f, times_called pred effect f o w = times_called pred effect f o' w.
Proof.
  intros W pred effect x s o o' L L' I w. split.
  - apply (orders_same pred effect x s o o' (fun _ => 0) L L' I). reflexivity.
  - intros f. rewrite !times_tally. apply (orders_same pred effect x s o o' _ L L' I). intros d d' (_ & F & _). rewrite F. reflexivity.
Qed.
Print Assumptions C110_orders.
Lemma last_init_ext p q h : (forall n, p n = q n) -> last_init p h = last_init q h.
Proof. intros E. induction h as [|e h IH]; auto. cbn [last_init]. rewrite IH. destruct e; auto. destruct (last_init q h); auto. rewrite E. reflexivity. Qed.
Lemma serving_same {W} nexus nexus' (m : @moment W) s : (forall n, same_parts (nexus n) (nexus' n)) -> serving nexus m s = serving nexus' m s.
Proof.
  intros P. apply last_init_ext. intros n. unfold exportsb. apply eq_true_iff_eq. rewrite !existsb_exists.
  split; intros (s' & I & E); exists s'; (split; [|exact E]); (eapply Permutation_in; [|exact I]); [apply (sp_exports _ _ (P n))|apply Permutation_sym, (sp_exports _ _ (P n))].
Qed.
Lemma started_only {W} (pred : nat -> W -> bool) act body nexus s l : forall (m0 m1 : @moment W) t1, (forall o, In o l -> exists n, o = Start n) -> over m0 = false -> does pred act body nexus (ops_task 0 (l ++ [Run s])) m0 t1 m1 ->
  does pred act body nexus (TOp 0 (Run s)) {| started := started m0 ++ map (fun o => match o with Start n => n | _ => 0 end) l; now := now m0; over := false |} t1 m1.
Proof.
  induction l as [|o l IH]; intros m0 m1 t1 Hl O D; cbn [app map] in *.
  - rewrite app_nil_r. destruct m0 as [sm nm om]. cbn in O |- *. subst om. unfold ops_task in D. cbn [map] in D.
    inversion D as [| | |k l' a1 a2 a3 a4 a5 D1 O1 D2|k l' a1 a2 a3 D1 O1| | | | | | | | | | |]; subst; [inversion D2; subst; rewrite app_nil_r|]; exact D1.
  - destruct (Hl o (or_introl eq_refl)) as (n & ->). unfold ops_task in D. cbn [map] in D.
    inversion D as [| | |k l' a1 a2 a3 a4 a5 D1 O1 D2|k l' a1 a2 a3 D1 O1| | | | | | | | | | |]; subst; inversion D1; subst; [|cbn in O1; congruence].
    specialize (IH (with_nexus n m0) m1 a4 (fun o H => Hl o (or_intror H)) O1 D2). cbn [with_nexus started now] in IH. rewrite <- app_assoc in IH. exact IH.
Qed.
Lemma runs_same {W} pops enum pops' enum' (pred : nat -> W -> bool) act body nexus nexus' s name l fuel w t y t' y' :
  pops_some pops -> enumerates enum -> pops_some pops' -> enumerates enum' -> s_name s = Some name -> acts_only body ->
  (forall m : @moment W, serving nexus m s = serving nexus' m s) -> (forall n o, lawful (nexus' n) s o -> lawful (nexus n) s o) ->
  (forall n, unordered_independent pred (effect_of act body) (nexus n) s) -> (forall o, In o l -> exists n, o = Start n) ->
  run_program pops enum pred act body nexus fuel (l ++ [Run s]) w = Some (t, y) -> run_program pops' enum' pred act body nexus' fuel (l ++ [Run s]) w = Some (t', y') ->
  world y = world y' /\ Permutation t t' /\ panicked y = panicked y'.
Proof.
  intros Hp He Hp' He' Hn Ha Hs Hc Hi Hl R R'.
  destruct (C108_runs _ _ _ _ _ _ _ _ _ _ _ _ Hp He R) as (m & D & <- & <-), (C108_runs _ _ _ _ _ _ _ _ _ _ _ _ Hp' He' R') as (m' & D' & <- & <-). clear R R'.
  assert (E := started_only pred act body nexus s l (at_first w) _ _ Hl eq_refl D). assert (E' := started_only pred act body nexus' s l (at_first w) _ _ Hl eq_refl D'). clear D D'.
  set (m0 := {| started := _; now := _; over := false |}) in E, E'. assert (Sv := Hs m0).
  inversion E as [| | | | | |own s1 n m1 t1 m2 S1 D1| | | | | | | | |]; subst; inversion E' as [| | | | | |own' s1' n' m1' t1' m2' S1' D1'| | | | | | | | |]; subst; try congruence; [|auto].
  assert (n = n') by congruence. subst n'.
  destruct (does_service_acts pred act body nexus Ha n s name m0 t m Hn eq_refl D1) as (o & L & -> & -> & -> & _), (does_service_acts pred act body nexus' Ha n s name m0 t' m' Hn eq_refl D1') as (o' & L' & -> & -> & -> & _).
  apply Hc in L'.
  split; [apply (proj1 (C110_orders W pred (effect_of act body) (nexus n) s o o' L L' (Hi n) _))|]. split; [|reflexivity].
  apply Permutation_app_head, Permutation_app_tail. eapply shows_same; eauto.
Qed.
(** The same of flows as built and run, whatever the containers used to build them:
    the same final state, and the same things happen. *)
Theorem C110_runs : forall W pops enum pops' enum' (pred : nat -> W -> bool) act body nexus s name l fuel w t y t' y',
  pops_some pops -> enumerates enum -> pops_some pops' -> enumerates enum' -> s_name s = Some name -> acts_only body ->
  (forall n, unordered_independent pred (effect_of act body) (nexus n) s) -> (forall o, In o l -> exists n, o = Start n) ->
  run_program pops enum pred act body nexus fuel (l ++ [Run s]) w = Some (t, y) -> run_program pops' enum' pred act body nexus fuel (l ++ [Run s]) w = Some (t', y') ->
  world y = world y' /\ Permutation t t' /\ panicked y = panicked y'.
Proof. intros W pops enum pops' enum' pred act body nexus s name l fuel w t y t' y' Hp He Hp' He' Hn Ha Hi Hl. apply (runs_same pops enum pops' enum' pred act body nexus nexus s name l fuel w t y t' y'); auto. Qed.
Print Assumptions C110_runs.
(** a and b in no order, both before c. *)
Definition work : svc := flow 5 "work".
Definition fork : config element := Many [Exports [work]; Extend (ByType work) [Frag (lf "a" 1 true); Frag (seq_of (lf "a" 1 false) (lf "c" 3 true))]; Extend (ByType work) [Frag (seq_of (lf "b" 2 true) (lf "c" 3 false))]].
Definition fork_act (a w : nat) : nat := match a with 1 => w + 5 | 2 => w + 7 | 3 => w * 2 | _ => 100 end.
Definition fork_body (f : nat) : list op := [Do f].
Definition pop_first (_ : nat) (l : list node) : option (node * list node) := match l with [] => None | x :: r => Some (x, r) end.
Lemma pop_first_ok : pops_some pop_first. Proof. intros t [|x l]; cbn; auto. Qed.
Definition step_of (x : string) (f : nat) : step := {| st_node := st x f true; st_own := true; st_conds := [] |}.
Lemma fork_steps d : adds_step fork work d -> d = step_of "a" 1 \/ d = step_of "b" 2 \/ d = step_of "c" 3.
Proof.
  destruct d as [n o cs]. intros (g & (t & a & H & M & I) & A). cbn [st_conds st_node st_own] in *. vm_compute in H.
  repeat (destruct H as [[= <- <- <-]|H]; [repeat (destruct I as [[= <-]|I]; [repeat match goal with H : adds _ _ _ |- _ => inversion H; clear H; subst end; try discriminate; auto|]); destruct I|]). destruct H.
Qed.
Lemma fork_order p : p = "a" \/ p = "b" -> puts_before fork work p "c".
Proof.
  intros H. assert (G : forall g, In (Frag g) [Frag (lf "a" 1 true); Frag (seq_of (lf "a" 1 false) (lf "c" 3 true))] \/ In (Frag g) [Frag (seq_of (lf "b" 2 true) (lf "c" 3 false))] -> given fork work [] (Frag g)).
  { intros g [I|I]; (do 2 eexists; split; [|split; [|exact I]]); [vm_compute; left; reflexivity|constructor; vm_compute; auto|vm_compute; right; left; reflexivity|constructor; vm_compute; auto]. }
  destruct H as [->| ->].
  - exists [], (seq_of (lf "a" 1 false) (lf "c" 3 true)), always, (LNode (st "a" 1 false)), (LNode (st "c" 3 true)). split; [apply G; left; right; left; auto|]. split; auto. do 4 eexists. split; [left; reflexivity|]. split; [constructor|]. split; constructor.
  - exists [], (seq_of (lf "b" 2 true) (lf "c" 3 false)), always, (LNode (st "b" 2 true)), (LNode (st "c" 3 false)). split; [apply G; right; left; auto|]. split; auto. do 4 eexists. split; [left; reflexivity|]. split; [constructor|]. split; constructor.
Qed.
Definition fork_run pops := option_map (fun r => (fst r, world (snd r))) (run_program pops in_order (fun _ _ => true) fork_act fork_body (fun _ => fork) 3 ([Start 0] ++ [Run work]) 1).
Example C110_case : unordered_independent (fun _ _ => true) (effect_of fork_act fork_body) fork work /\ acts_only fork_body /\
  fork_run pop_first = Some ([Said "flow.start(work)"; Said "flow.action(b)"; Did 2; Said "flow.action(a)"; Did 1; Said "flow.action(c)"; Did 3; Said "flow.end(work)"], 26) /\
  fork_run pop_last = Some ([Said "flow.start(work)"; Said "flow.action(a)"; Did 1; Said "flow.action(b)"; Did 2; Said "flow.action(c)"; Did 3; Said "flow.end(work)"], 26).
Proof.
  split; [|split; [intros f o [<-|[]]; eauto|split; vm_compute; reflexivity]].
  intros d d' A A' (U1 & U2 & U3). apply fork_steps in A, A'.
  destruct A as [->|[->| ->]], A' as [->|[->| ->]]; try (destruct (U1 eq_refl)); try (destruct U2; apply t_step; apply fork_order; cbn; auto; fail); try (destruct U3; apply t_step; apply fork_order; cbn; auto; fail).
  all: intros w; cbn; split; [lia|auto].
Qed.
(** Steps that are not independent: the result depends on the containers. *)
Example C110_needed : let act a w := match a with 1 => w + 5 | 2 => w * 7 | _ => w end in
  let r pops := option_map (fun r => world (snd r)) (run_program pops in_order (fun _ _ => true) act fork_body (fun _ => fork) 3 ([Start 0] ++ [Run work]) 1) in
  r pop_first = Some 12 /\ r pop_last = Some 42.
Proof. split; vm_compute; reflexivity. Qed.

(** ** C111: the arrangement of components does not matter *)
(** Components in another order, nested or flattened, extensions split or merged,
    conditions spread over parts: the project compiles or not alike, and the services get
    the same. *)
Theorem C111_accepts : forall pops enum pops' enum' x y, pops_some pops -> enumerates enum -> pops_some pops' -> enumerates enum' -> rearranged x y -> clear_names x ->
  services pops enum x <> None <-> services pops' enum' y <> None.
Proof.
  intros pops enum pops' enum' x y Hp He Hp' He' R U. apply rearranged_same in R. split; apply services_same; auto; [apply same_parts_sym, R|apply (clear_same x y R U)].
Qed.
Print Assumptions C111_accepts.
Theorem C111_services : forall pops enum pops' enum' x y s i i', pops_some pops -> enumerates enum -> pops_some pops' -> enumerates enum' -> rearranged x y -> clear_names x ->
  impl_of pops enum x s = Some i -> impl_of pops' enum' y s = Some i' ->
  match i, i' with
  | FlowImpl n o, FlowImpl n' o' => n = n' /\ Permutation o o'
  | CallbackImpl fs, CallbackImpl fs' => Permutation fs fs'
  | _, _ => False
  end /\ forall o, lawful x s o <-> lawful y s o.
Proof.
  intros pops enum pops' enum' x y s i i' Hp He Hp' He' R U I I'. apply rearranged_same in R. split; [apply (impl_same pops pops' enum enum' Hp He Hp' He' x y s); auto|].
  intros o. split; [apply lawful_same|apply lawful_same]; auto; [apply same_parts_sym, R|apply (clear_same x y R U)].
Qed.
Print Assumptions C111_services.
(** With C110: a flow has the same effect. *)
Theorem C111_runs : forall W pops enum pops' enum' (pred : nat -> W -> bool) act body nexus nexus' s name l fuel w t y t' y',
  pops_some pops -> enumerates enum -> pops_some pops' -> enumerates enum' -> s_name s = Some name -> acts_only body ->
  (forall n, rearranged (nexus n) (nexus' n)) -> (forall n, clear_names (nexus n)) ->
  (forall n, unordered_independent pred (effect_of act body) (nexus n) s) -> (forall o, In o l -> exists n, o = Start n) ->
  run_program pops enum pred act body nexus fuel (l ++ [Run s]) w = Some (t, y) -> run_program pops' enum' pred act body nexus' fuel (l ++ [Run s]) w = Some (t', y') ->
  world y = world y' /\ Permutation t t' /\ panicked y = panicked y'.
Proof.
  intros W pops enum pops' enum' pred act body nexus nexus' s name l fuel w t y t' y' Hp He Hp' He' Hn Ha R U Hi Hl. assert (P : forall n, same_parts (nexus n) (nexus' n)) by (intros; apply rearranged_same; auto).
  apply (runs_same pops enum pops' enum' pred act body nexus nexus' s name l fuel w t y t' y'); auto.
  - intros m. apply serving_same, P.
  - intros n o. apply lawful_same; [apply same_parts_sym, P|apply (clear_same _ _ (P n) (U n))].
Qed.
Print Assumptions C111_runs.
Definition demo' : config element := top (Many [When odd_world [Many [Extend (ByType (flow 2 "start")) [Frag (seq_of (lf "a" 1 false) (lf "b" 2 true))]]]; comp_c; comp_a]).
Example C111_case : rearranged (demo 0) demo' /\ clear_names (demo 0) /\ services pop_last in_order (demo 0) <> None /\ demo 0 <> demo'.
Proof.
  split; [|split; [|split; [vm_compute; discriminate|discriminate]]].
  - apply (re_inside _ _ [Exports [flow 0 ""; flow 1 ""; flow 2 "start"; flow 3 "loop"]] []). apply (re_inside _ _ [] []).
    eapply re_trans; [apply re_order; apply (Permutation_cons_append [comp_b; comp_c] comp_a)|]. apply (re_inside _ _ [] [comp_c; comp_a]). apply re_when_inside, re_sym, re_single.
  - intros t cs a H. vm_compute in H. repeat (destruct H as [[= <- <- <-]|H]; [cbn [clear_target]; auto|]); [|destruct H]. intros s s' H H'. vm_compute in H, H'.
    repeat (destruct H as [<-|H]; [repeat (destruct H' as [<-|H']; [cbn; try discriminate; auto; fail|]); destruct H'|]). destruct H.
Qed.
(** A name that means two services: the first exported wins. The order of the
    callbacks of a service follows that of the components. *)
Example C111_needed :
  (let g := Extend (ByName "n") [Frag (lf "a" 1 true)] in let x := Many [Exports [flow 0 "n"]; Exports [flow 1 "n"]; g] in let y := Many [Exports [flow 1 "n"]; Exports [flow 0 "n"]; g] in
   rearranged x y /\ is_active pop_last in_order x (flow 0 "n") = true /\ is_active pop_last in_order y (flow 0 "n") = false) /\
  (let x := Many [Exports [ticks]; Extend (ByType ticks) [Function 7]; Extend (ByType ticks) [Function 8]] in let y := Many [Exports [ticks]; Extend (ByType ticks) [Function 8]; Extend (ByType ticks) [Function 7]] in
   rearranged x y /\ impl_of pop_last in_order x ticks = Some (CallbackImpl [8; 7]) /\ impl_of pop_last in_order y ticks = Some (CallbackImpl [7; 8])).
Proof.
  split; cbn zeta.
  - split; [apply re_order, perm_swap|]. split; vm_compute; reflexivity.
  - split; [apply re_order, perm_skip, perm_swap|]. split; vm_compute; reflexivity.
Qed.

(** ** C112: interrupts and components *)
(** An interrupt is taken care of if a component adds a step to one of the flows of an
    interrupt at or below it, in some nexus. *)
Theorem C112_active : forall pops enum nexus svc_of nexi x, pops_some pops -> enumerates enum -> IrqModel.well_formed x = true ->
  (forall n, In n nexi -> services pops enum (nexus n) <> None) -> (forall n f, In n nexi -> exported (svc_of f) (nexus n)) -> (forall f, s_name (svc_of f) <> None) ->
  IrqModel.active (fun n f => is_active pops enum (nexus n) (svc_of f)) nexi x = true <->
  exists y f n d, IrqSpec.below x y /\ In f (IrqModel.i_flows (IrqModel.info_of y)) /\ In n nexi /\ adds_step (nexus n) (svc_of f) d.
Proof.
  intros pops enum nexus svc_of nexi x Hp He Hw C X N. rewrite (IrqProofs3.active_spec (fun n f => is_active pops enum (nexus n) (svc_of f)) nexi x Hw). unfold IrqSpec.has_active.
  assert (A : forall n f, In n nexi -> is_active pops enum (nexus n) (svc_of f) = true <-> exists d, adds_step (nexus n) (svc_of f) d).
  { intros n f Hn. specialize (N f). destruct (s_name (svc_of f)) as [k|] eqn:E; [|congruence]. apply (active_adds pops enum Hp He _ _ k); auto. }
  split.
  - intros (y & f & n & H1 & H2 & H3 & H4). apply A in H4 as (d & H4); auto. exists y, f, n, d. auto.
  - intros (y & f & n & d & H1 & H2 & H3 & H4). exists y, f, n. repeat (split; [auto|]). apply A; eauto.
Qed.
Print Assumptions C112_active.
(** Interrupts taken one after the other when a program has got to some point: each
    flow served (C39 says which) runs as its components say, in the world as it then is. *)
Theorem C112_served : forall W Env (view : Env -> @sys W * list happening) read clear serve pops enum (pred : nat -> W -> bool) act body nexus svc_of rank nexi fuel l w t0 y0 irqs e,
  pops_some pops -> enumerates enum -> ranked rank nexus body -> (forall n, services pops enum (nexus n) <> None) ->
  (forall f e, view (snd (read f e)) = view e) -> (forall f e, view (clear f e) = view e) ->
  (forall n f e, view (serve n f e) = serve_project pops enum pred act body nexus fuel n (svc_of f) (view e)) ->
  (forall n f, exported (svc_of f) (nexus n) /\ rank (svc_of f) < fuel) ->
  run_program pops enum pred act body nexus fuel l w = Some (t0, y0) -> panicked y0 = false -> view e = (y0, t0) ->
  let res := fold_right (fun x k => IrqModel.chain (IrqModel.run read clear serve (fun n f => is_active pops enum (nexus n) (svc_of f)) nexi x) k) IrqModel.nothing irqs e in
  exists t m, snd (view (fst res)) = t0 ++ t /\
    does pred act body nexus (TSeq [ops_task 0 l; TSeq (map (fun p => TService (fst p) (svc_of (snd p))) (IrqSpec.served (snd res)))]) (at_first w) (t0 ++ t) m /\
    now m = world (fst (view (fst res))) /\ over m = panicked (fst (view (fst res))).
Proof.
  intros W Env view read clear serve pops enum pred act body nexus svc_of rank nexi fuel l w t0 y0 irqs e Hp He R C V1 V2 V3 X Rp Py Ve res.
  destruct (refines_program pops enum Hp He pred act body nexus fuel l w t0 y0 Rp) as (m0 & D0 & S0).
  assert (F := follows_fold view (fun p a => serve_project pops enum pred act body nexus fuel (fst p) (svc_of (snd p)) a)
    (IrqModel.run read clear serve (fun n f => is_active pops enum (nexus n) (svc_of f)) nexi) irqs
    (fun x _ => follows_run view (fun p a => serve_project pops enum pred act body nexus fuel (fst p) (svc_of (snd p)) a) read clear serve _ nexi V1 V2 V3 x) e).
  fold res in F. rewrite Ve in F. set (sv := IrqSpec.served (snd res)) in *.
  destruct (after_does pops enum Hp He pred act body nexus rank fuel (map (fun p => (fst p, svc_of (snd p))) sv) R C) with (x := y0) (tr := t0) (m := m0) as (t & y & m & E & D & S1 & S2 & S3 & S4); auto.
  { intros n s I. apply in_map_iff in I as ([n' f] & [= <- <-] & _). apply X. }
  assert (E' : fold_left (fun a p => serve_project pops enum pred act body nexus fuel (fst p) (svc_of (snd p)) a) sv (y0, t0) = (y, t0 ++ t)).
  { rewrite <- E. clear. generalize (y0, t0). induction sv as [|p l IH]; intros a; cbn [map fold_left fst snd]; auto. }
  exists t, m. rewrite map_map in D. cbn [fst snd] in D.
  replace (view (fst res)) with (y, t0 ++ t) by (rewrite F; symmetry; exact E'). cbn [fst snd]. split; auto. split; [|auto].
  apply does_next with (m1 := m0); auto; [destruct S0 as (_ & _ & _ & S0); congruence|]. replace t with (t ++ []) by apply app_nil_r.
  destruct (over m) eqn:O; [rewrite app_nil_r; eapply does_stop; eauto|]. eapply does_next; eauto. constructor.
Qed.
Print Assumptions C112_served.
(** A shared interrupt with two below it: the flow of one has steps, that of the other
    has none. *)
Definition leaf_irq (n : string) (en st f : nat) : IrqModel.irq :=
  IrqModel.Irq {| IrqModel.i_name := n; IrqModel.i_enable := Some en; IrqModel.i_status := Some st; IrqModel.i_policy := IrqModel.ClearFirst; IrqModel.i_resources := []; IrqModel.i_flows := [f] |} [].
Definition shared_irq : IrqModel.irq :=
  IrqModel.Irq {| IrqModel.i_name := "shared"; IrqModel.i_enable := None; IrqModel.i_status := Some 0; IrqModel.i_policy := IrqModel.ClearLast; IrqModel.i_resources := []; IrqModel.i_flows := [] |} [leaf_irq "x" 1 2 1; leaf_irq "y" 3 4 0].
Definition irq_svc (f : nat) : svc := if Nat.eqb f 1 then flow 3 "loop" else flow 0 "".
Definition irq_env : Type := ((nat -> bool) * (@sys nat * list happening))%type.
Definition env_read (f : nat) (e : irq_env) : bool * irq_env := (fst e f, e).
Definition env_clear (f : nat) (e : irq_env) : irq_env := ((fun g => if Nat.eqb g f then false else fst e g), snd e).
Definition env_serve (n f : nat) (e : irq_env) : irq_env := (fst e, serve_project pop_last in_order demo_pred Nat.add demo_body demo 5 n (irq_svc f) (snd e)).
Definition irq_now (sa : nat -> nat -> bool) (e : irq_env) := fold_right (fun x k => IrqModel.chain (IrqModel.run env_read env_clear env_serve sa [0] x) k) IrqModel.nothing [shared_irq; shared_irq] e.
Example C112_case : IrqModel.well_formed shared_irq = true /\ (forall f, exported (irq_svc f) (demo 0) /\ s_name (irq_svc f) <> None) /\
  (exists d, adds_step (demo 0) (irq_svc 1) d) /\ ~ (exists d, adds_step (demo 0) (irq_svc 0) d) /\
  let sa n f := is_active pop_last in_order (demo n) (irq_svc f) in
  (sa 0 1, sa 0 0) = (true, false) /\
  match demo_run 3 0 with
  | None => False
  | Some (t, y) => let res := irq_now sa ((fun _ => true), (y, t)) in
    IrqSpec.served (snd res) = [(0, 1)] /\ snd (snd (fst res)) = [Said "flow.start(loop)"; Said "flow.action(m)"; Did 10; Did 7; Did 5; Said "flow.end(loop)"] /\ map (fst (fst res)) [0; 1; 2; 3; 4] = [false; true; false; true; true]
  end.
Proof.
  split; [reflexivity|]. split; [|split; [|split]].
  - intros f. unfold irq_svc. destruct (Nat.eqb f 1); (split; [apply exported_exports; vm_compute; auto 9|discriminate]).
  - exists (step_of "m" 3). exists (lf "m" 3 true). split; [|constructor; reflexivity]. exists (ByName "loop"), [Frag (lf "m" 3 true)]. split; [vm_compute; auto 9|]. split; [apply locate_means; vm_compute; reflexivity|left; auto].
  - intros (d & g & G & _). apply demo_given in G. decompose [and or] G; discriminate.
  - vm_compute. auto 9.
Qed.

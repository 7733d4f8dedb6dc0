(** Properties of the nexus: C48-C52, C65, C66. *)
From Coq Require Import String Bool Arith List Lia Permutation.
From Verif Require Import FlowModel NexusModel NexusSpec NexusProofs NexusProofs2.
Import ListNotations.
Local Open Scope string_scope.
Local Open Scope list_scope.
Local Notation When := NexusModel.When (only parsing).
Local Notation extends := NexusModel.extends (only parsing).

(** ** C48: every service gets all its extensions *)
(** A configuration is accepted exactly when it makes sense. *)
Theorem C48_accepts {A} item_when (x : config A) : builders item_when x <> None <-> sensible item_when x.
Proof. apply builders_sensible. Qed.
Print Assumptions C48_accepts.
Theorem C48_unexported {A} item_when (x : config A) t cs a : In (t, cs, a) (offers [] x) -> (forall s, exported s x -> ~ means (exports x) t s) -> builders item_when x = None.
Proof.
  intros Ho Hn. destruct (builders item_when x) as [bs|] eqn:E; auto. exfalso. assert (S : sensible item_when x) by (apply builders_sensible; congruence).
  destruct (S t cs a Ho) as [[s Hs] _]. apply (Hn s); auto. apply exported_exports, (means_in _ _ _ Hs).
Qed.
Print Assumptions C48_unexported.
(** There is one builder for every exported service, and it has exactly the items of
    the extensions that mean the service, under the conditions around them. *)
Theorem C48_builds {A} item_when (x : config A) bs : builders item_when x = Some bs ->
  NoDup (map fst bs) /\ (forall s, In s (map fst bs) <-> exported s x) /\
  forall s, exported s x -> exists items l, builder_of bs s = Some items /\
    contributions item_when (exports x) s (offers [] x) l /\ Permutation items (concat l).
Proof.
  intros E. destruct (builders_services item_when x bs E) as [H1 H2]. split; auto. split; [intros s; rewrite H2; apply exported_exports|].
  intros s Hs. apply exported_exports, H2 in Hs. destruct (builder_of_some bs s Hs) as (items & Hi). destruct (builders_items item_when x bs s items E Hi) as (l & Hl & ->).
  exists (concat (rev l)), l. split; auto. split; auto. clear. induction l as [|a l IH]; [constructor|]. cbn [rev concat]. rewrite concat_app. cbn [concat]. rewrite app_nil_r.
  etransitivity; [apply Permutation_app_comm|]. apply Permutation_app_head, IH.
Qed.
Print Assumptions C48_builds.
(** Nothing else is given to a service: the contributions are determined. *)
Theorem C48_determined {A} item_when ex s (os : list (target * list cond * list A)) l l' :
  contributions item_when ex s os l -> contributions item_when ex s os l' -> l = l'.
Proof. apply contributions_fun. Qed.
Print Assumptions C48_determined.
Definition sv (i : nat) (n : string) : svc := {| s_id := i; s_name := Some n; s_ret := 0 |}.
Definition ex_config : config nat := Many [Many [Extend (ByName "b") [1; 2]; Exports [sv 0 "a"]]; IfConst true [Extend (ByType (sv 0 "a")) [3]];
  IfConst false [Extend (ByType (sv 9 "zzz")) [4]]; Exports [sv 1 "b"; sv 2 "c"]; Extend (ByType (sv 0 "a")) [5; 6]].
Example C48_case : exists bs, builders no_conditional ex_config = Some bs /\
  builder_of bs (sv 0 "a") = Some [5; 6; 3] /\ builder_of bs (sv 1 "b") = Some [1; 2] /\ builder_of bs (sv 2 "c") = Some [].
Proof. eexists. split; [vm_compute; reflexivity|]. vm_compute. auto. Qed.
Example C48_case_rejected : builders no_conditional (Many [Exports [sv 0 "a"]; Extend (ByType (sv 1 "b")) [1]]) = None /\
  builders no_conditional (Many [Exports [sv 0 "a"]; IfConst false [Exports [sv 1 "b"]]; Extend (ByName "b") [1]]) = None.
Proof. vm_compute. auto. Qed.
(** With two services of one name, an extension by name goes to the first alone. *)
Example C48_same_name : exists bs, builders no_conditional (Many [Exports [sv 0 "a"; sv 1 "a"]; Extend (ByName "a") [7]]) = Some bs /\
  builder_of bs (sv 0 "a") = Some [7] /\ builder_of bs (sv 1 "a") = Some [].
Proof. eexists. split; [vm_compute; reflexivity|]. vm_compute. auto. Qed.

(** ** C49: callback services *)
Lemma run_spec {V} (fs : list (callback V)) : forall args, map fst (run_callbacks fs args) = map cb_id fs /\
  forall k f, nth_error fs k = Some f -> nth_error (run_callbacks fs args) k = Some (cb_id f, fold_left (fun v g => cb_effect g v) (firstn k fs) args).
Proof.
  induction fs as [|f fs IH]; intros args; cbn [run_callbacks].
  - split; auto. intros [|k] f; discriminate.
  - destruct (IH (cb_effect f args)) as [H1 H2]. split; [cbn; f_equal; auto|]. intros [|k] g; cbn [nth_error firstn fold_left]; [intros [= ->]; reflexivity|]. apply H2.
Qed.
(** Every callback registered for the service is called once, those of the last
    extension first, in order within an extension; the k-th call sees the
    arguments as the calls before it left them. *)
Theorem C49_exact {V} (x : config (callback V)) bs s fs args : builders no_conditional x = Some bs -> builder_of bs s = Some fs ->
  exists l, contributions no_conditional (exports x) s (offers [] x) l /\
    map fst (run_callbacks fs args) = map cb_id (concat (rev l)) /\
    forall k f, nth_error (concat (rev l)) k = Some f ->
      nth_error (run_callbacks fs args) k = Some (cb_id f, fold_left (fun v g => cb_effect g v) (firstn k (concat (rev l))) args).
Proof.
  intros E Hb. destruct (builders_items no_conditional x bs s fs E Hb) as (l & Hl & ->). exists l. split; auto. apply run_spec.
Qed.
Print Assumptions C49_exact.
Theorem C49_partial {V} (x : config (callback V)) bs s fs args : builders no_conditional x = Some bs -> builder_of bs s = Some fs ->
  (forall f, In f fs -> forall v, cb_effect f v = v) ->
  exists l, contributions no_conditional (exports x) s (offers [] x) l /\ run_callbacks fs args = map (fun f => (cb_id f, args)) (concat (rev l)).
Proof.
  intros E Hb Hpure. destruct (builders_items no_conditional x bs s fs E Hb) as (l & Hl & ->). exists l. split; auto.
  revert Hpure. generalize (concat (rev l)) as fs. induction fs as [|f fs IH]; intros Hpure; auto. cbn [run_callbacks map]. rewrite Hpure by (left; auto). f_equal. apply IH. intros g Hg. apply Hpure. right. auto.
Qed.
Print Assumptions C49_partial.
Definition cb (i : nat) : callback nat := {| cb_id := i; cb_effect := fun v => v |}.
Definition ex_callbacks : config (callback nat) := Many [Exports [sv 0 "a"]; Extend (ByType (sv 0 "a")) [cb 1; cb 2]; Extend (ByName "a") [cb 3]].
Example C49_case : exists bs fs, builders no_conditional ex_callbacks = Some bs /\ builder_of bs (sv 0 "a") = Some fs /\
  run_callbacks fs 42 = [(3, 42); (1, 42); (2, 42)] /\ (forall f, In f fs -> forall v, cb_effect f v = v).
Proof.
  eexists. eexists. split; [vm_compute; reflexivity|]. split; [vm_compute; reflexivity|]. split; [vm_compute; reflexivity|].
  intros f [<-|[<-|[<-|[]]]] v; reflexivity.
Qed.
(** A callback with a reference parameter changes what the others are called with. *)
Theorem C49_refuted : exists (x : config (callback nat)) bs s fs args, builders no_conditional x = Some bs /\ builder_of bs s = Some fs /\
  exists i v, In (i, v) (run_callbacks fs args) /\ v <> args.
Proof.
  exists (Many [Exports [sv 0 "a"]; Extend (ByType (sv 0 "a")) [{| cb_id := 1; cb_effect := S |}; cb 2]]). eexists. exists (sv 0 "a"). eexists. exists 5.
  split; [vm_compute; reflexivity|]. split; [vm_compute; reflexivity|]. exists 2, 6. split; [vm_compute; auto|discriminate].
Qed.
Print Assumptions C49_refuted.
(** With arguments that can only be moved there is at most one callback, and it gets them. *)
Theorem C49_move_only {V} (fs : list (callback V)) args out : run_move_only fs args = Some out -> (length fs <= 1) /\ out = map (fun f => (cb_id f, args)) fs.
Proof. destruct fs as [|f [|g fs]]; cbn; intros [= <-]; auto. Qed.
Print Assumptions C49_move_only.

(** ** C50: before and after initialisation *)
Section C50.
Context {A : Type} (item_when : cond -> A -> option A) (nexus : nat -> config A).
(** A call by type runs the service of the nexus initialised last among those that
    export it, and panics when there is none. *)
Theorem C50_by_type h s : (forall n, builders item_when (nexus n) <> None) ->
  last_effect item_when nexus h (Call s) = [match last_init (fun n => exportsb nexus n s) h with Some n => Ran n s | None => Panic end].
Proof. intros H. apply call_type, H. Qed.
(** A call by name and return type does the same, when names are unique. *)
Theorem C50_by_name h m r : (forall n, builders item_when (nexus n) <> None) -> (forall n, unique_names (nexus n)) ->
  match last_init (names_returning nexus m r) h with
  | None => last_effect item_when nexus h (CallName m r) = [Panic]
  | Some n => exists s, In s (exports (nexus n)) /\ s_name s = Some m /\ s_ret s = r /\ last_effect item_when nexus h (CallName m r) = [Ran n s]
  end.
Proof.
  intros H Hu. rewrite call_name by auto. destruct (last_init (names_returning nexus m r) h) as [n|] eqn:E; auto.
  apply last_init_spec in E as [E _]. destruct (by_name_found nexus m r n E) as (s & -> & Hs & Hn). exists s. split; auto. split; auto. split; auto.
  apply existsb_exists in E as (t & Ht & Hb). apply andb_prop in Hb as [Hb1 Hb2]. apply has_name_eq in Hb1. rewrite <- (Hu n t s m); auto. apply Nat.eqb_eq, Hb2.
Qed.
(** Exactly when a call by name panics, whatever the names: when no nexus initialised before it exports a
    service of this name that returns this type. *)
Theorem C50_exact h m r : (forall n, builders item_when (nexus n) <> None) ->
  (last_effect item_when nexus h (CallName m r) = [Panic] <-> forall n s, In (Init n) h -> In s (exports (nexus n)) -> s_name s = Some m -> s_ret s <> r).
Proof.
  intros H. rewrite call_name by auto.
  assert (L : forall p h, last_init p h = None <-> forall n, In (Init n) h -> p n = false).
  { intros p. clear. induction h as [|e h IH]; cbn [last_init]; [split; [intros _ n []|reflexivity]|].
    destruct e as [k|s|m r]; try (rewrite IH; split; intros F n; [intros [D|I]; [discriminate|apply F, I]|intros I; apply F; right; exact I]).
    destruct (last_init p h) as [n|].
    - split; [discriminate|]. intros F. apply IH. intros n' I. apply F. right. exact I.
    - destruct IH as [IH _]. specialize (IH eq_refl). destruct (p k) eqn:P.
      + split; [discriminate|]. intros F. rewrite F in P by (left; reflexivity). discriminate.
      + split; [|reflexivity]. intros _ n [[= <-]|I]; auto. }
  assert (N : forall n, names_returning nexus m r n = false <-> forall s, In s (exports (nexus n)) -> s_name s = Some m -> s_ret s <> r).
  { intros n. unfold names_returning. split.
    - intros F s I E R. assert (T : existsb (fun s => has_name m s && Nat.eqb (s_ret s) r)%bool (exports (nexus n)) = true); [|congruence].
      apply existsb_exists. exists s. split; [exact I|]. apply andb_true_intro. split; [apply has_name_eq, E|apply Nat.eqb_eq, R].
    - intros F. apply not_true_iff_false. intros T. apply existsb_exists in T as (s & I & B). apply andb_prop in B as [B1 B2]. apply (F s I); [apply has_name_eq, B1|apply Nat.eqb_eq, B2]. }
  destruct (last_init (names_returning nexus m r) h) as [n|] eqn:E.
  - split.
    + apply last_init_spec in E as [E I]. destruct (by_name_found nexus m r n E) as (s & -> & _). discriminate.
    + intros F. exfalso. assert (T : last_init (names_returning nexus m r) h = None); [|congruence]. apply L. intros k I. apply N. intros s. apply F, I.
  - split; [|reflexivity]. intros _ n s I. apply N. revert I. apply L, E.
Qed.
(** Initialising a nexus changes nothing for the services it does not export. *)
Theorem C50_frame h h' n s : (forall n, builders item_when (nexus n) <> None) -> ~ In s (exports (nexus n)) ->
  last_effect item_when nexus (h ++ Init n :: h') (Call s) = last_effect item_when nexus (h ++ h') (Call s).
Proof.
  intros H Hs. rewrite !C50_by_type by auto. f_equal. assert (E : exportsb nexus n s = false).
  { unfold exportsb. apply not_true_iff_false. intros E. apply existsb_exists in E as (t & Ht & Hb). apply svc_eqb_eq in Hb as <-. auto. }
  assert (L : last_init (fun n => exportsb nexus n s) (h ++ Init n :: h') = last_init (fun n => exportsb nexus n s) (h ++ h')); [|rewrite L; reflexivity].
  induction h as [|e h IH]; cbn [app last_init].
  - rewrite E. destruct (last_init _ h'); reflexivity.
  - destruct e; auto. rewrite IH. reflexivity.
Qed.
(** After the initialisation of a nexus, calls to what it exports never panic. *)
Theorem C50_after h h' n s : (forall n, builders item_when (nexus n) <> None) -> In s (exports (nexus n)) ->
  exists k, last_effect item_when nexus (h ++ Init n :: h') (Call s) = [Ran k s].
Proof.
  intros H Hs. rewrite C50_by_type by auto. assert (E : exportsb nexus n s = true) by (apply existsb_exists; exists s; split; auto; apply svc_eqb_refl).
  assert (L : last_init (fun n => exportsb nexus n s) (h ++ Init n :: h') <> None).
  { induction h as [|e h IH]; cbn [app last_init]; [destruct (last_init _ h'); [discriminate|rewrite E; discriminate]|].
    destruct e; auto. destruct (last_init _ (h ++ Init n :: h')); [discriminate|]. congruence. }
  destruct (last_init _ (h ++ Init n :: h')) as [k|]; [exists k; auto|congruence].
Qed.
End C50.
Print Assumptions C50_by_type.
Print Assumptions C50_by_name.
Print Assumptions C50_exact.
Print Assumptions C50_frame.
Print Assumptions C50_after.
Definition ex_nexus (n : nat) : config nat := match n with 0 => ex_config | 1 => Exports [sv 1 "b"; sv 5 "e"] | _ => Many [] end.
Lemma ex_compiles n : builders no_conditional (ex_nexus n) <> None.
Proof. destruct n as [|[|n]]; vm_compute; discriminate. Qed.
Example C50_case : (forall n, unique_names (ex_nexus n)) /\
  snd (run_events no_conditional ex_nexus uninitialized [Call (sv 0 "a"); Init 0; Call (sv 0 "a"); CallName "b" 0; Init 1; Call (sv 1 "b"); CallName "e" 0; CallName "a" 0; Call (sv 9 "q")]) =
  [Panic; Ran 0 (sv 0 "a"); Ran 0 (sv 1 "b"); Ran 1 (sv 1 "b"); Ran 1 (sv 5 "e"); Ran 0 (sv 0 "a"); Panic].
Proof.
  split; [|vm_compute; reflexivity]. intros [|[|n]] s t m Hs Ht; cbn in Hs, Ht; repeat match goal with H : _ \/ _ |- _ => destruct H end; subst; try contradiction; cbn; intros [= <-] [=]; reflexivity.
Qed.
(** A call by name with another return type than the service's compiles, and panics
    after initialisation too. *)
Theorem C50_refuted : exists (x : config nat) s m, builders no_conditional x <> None /\ unique_names x /\ exported s x /\ s_name s = Some m /\
  last_effect no_conditional (fun _ => x) [Init 0] (CallName m 0) = [Panic].
Proof.
  exists (Exports [{| s_id := 0; s_name := Some "a"; s_ret := 1 |}]), {| s_id := 0; s_name := Some "a"; s_ret := 1 |}, "a". split; [vm_compute; discriminate|]. split.
  - intros s t n [<-|[]] [<-|[]] _ _. reflexivity.
  - split; [constructor; left; auto|]. split; auto.
Qed.
Print Assumptions C50_refuted.

(** ** C51: runtime conditions *)
Theorem C51_and pred a b : holds pred (cond_and a b) = (holds pred a && holds pred b)%bool.
Proof.
  unfold cond_and, holds. destruct (c_preds a) as [|p l] eqn:Ea, (c_preds b) as [|q l'] eqn:Eb; cbn [c_preds always forallb andb]; rewrite ?Ea, ?Eb; cbn [forallb andb]; try reflexivity.
  - rewrite andb_true_r. reflexivity.
  - rewrite forallb_app. cbn [forallb]. rewrite andb_assoc. reflexivity.
Qed.
Print Assumptions C51_and.
Theorem C51_laws pred a b c :
  holds pred (cond_and a (cond_and b c)) = holds pred (cond_and (cond_and a b) c) /\
  holds pred (cond_and a b) = holds pred (cond_and b a) /\ holds pred (cond_and a a) = holds pred a /\
  (c_preds a <> [] -> cond_and always a = a /\ cond_and a always = a) /\ (c_preds a = [] -> holds pred a = true).
Proof.
  rewrite !C51_and. split; [apply andb_assoc|]. split; [apply andb_comm|]. split; [apply andb_diag|]. split.
  - intros H. unfold cond_and. cbn [c_preds always]. destruct (c_preds a); [congruence|]. auto.
  - intros H. unfold holds. rewrite H. reflexivity.
Qed.
Print Assumptions C51_laws.
(** Every step added under nested conditions runs exactly when its own condition
    and all those around it hold; steps only referred to are left alone. *)
Fixpoint leaves (g : subgraph) : list leaf := match g with Leaf l => [l] | Seq l r _ _ | Par l r _ => leaves l ++ leaves r end.
Fixpoint edge_conds (g : subgraph) : list cond := match g with Leaf _ => [] | Seq l r _ c => c :: edge_conds l ++ edge_conds r | Par l r _ => edge_conds l ++ edge_conds r end.
Definition guarded (pred : nat -> bool) (cs : list cond) (c c' : cond) : Prop := holds pred c' = (holds pred c && forallb (holds pred) cs)%bool.
Definition leaf_guarded pred cs (l l' : leaf) : Prop :=
  match l, l' with
  | LNode n, LNode n' => n_name n' = n_name n /\ n_func n' = n_func n /\ n_value n' = n_value n /\ (if n_value n then guarded pred cs (n_cond n) (n_cond n') else n' = n)
  | _, _ => False
  end.
Lemma conditional_one pred c g : forall g', conditional c g = Some g' ->
  Forall2 (leaf_guarded pred [c]) (leaves g) (leaves g') /\ Forall2 (guarded pred [c]) (edge_conds g) (edge_conds g').
Proof.
  induction g as [l|l IHl r IHr v ec|l IHl r IHr v]; intros g'; cbn [conditional].
  - destruct l as [n|s]; [|discriminate]. intros [= <-]. cbn [leaves edge_conds]. split; [|constructor]. constructor; [|constructor]. cbn [leaf_guarded]. destruct (n_value n) eqn:E; cbn; rewrite ?E; auto.
    repeat split; auto. unfold guarded. cbn. rewrite C51_and, andb_true_r. reflexivity.
  - destruct (conditional c l) as [l'|]; [|discriminate]. destruct (conditional c r) as [r'|]; [|discriminate]. intros [= <-]. destruct (IHl _ eq_refl), (IHr _ eq_refl). cbn [leaves edge_conds].
    split; [apply Forall2_app; auto|]. constructor; [|apply Forall2_app; auto]. unfold guarded. cbn. rewrite C51_and, andb_true_r. reflexivity.
  - destruct (conditional c l) as [l'|]; [|discriminate]. destruct (conditional c r) as [r'|]; [|discriminate]. intros [= <-]. destruct (IHl _ eq_refl), (IHr _ eq_refl). cbn [leaves edge_conds].
    split; apply Forall2_app; auto.
Qed.
Lemma Forall2_trans' {X} (R S T : X -> X -> Prop) l1 l2 l3 : (forall a b c, R a b -> S b c -> T a c) -> Forall2 R l1 l2 -> Forall2 S l2 l3 -> Forall2 T l1 l3.
Proof. intros H H1. revert l3. induction H1; intros l3 H2; inversion_clear H2; constructor; eauto. Qed.
Lemma Forall2_refl' {X} (R : X -> X -> Prop) l : (forall a, In a l -> R a a) -> Forall2 R l l.
Proof. induction l; constructor; auto. apply H. left. auto. apply IHl. intros. apply H. right. auto. Qed.
Theorem C51_nested pred cs g g' : cs <> [] -> when_all conditional cs g = Some g' ->
  Forall2 (leaf_guarded pred cs) (leaves g) (leaves g') /\ Forall2 (guarded pred cs) (edge_conds g) (edge_conds g').
Proof.
  assert (T : forall c cs a b d, guarded pred [c] a b -> guarded pred cs b d -> guarded pred (c :: cs) a d).
  { unfold guarded. cbn [forallb]. intros c cs' a b d -> ->. rewrite andb_true_r, andb_assoc. reflexivity. }
  revert g. induction cs as [|c cs IH]; intros g; [congruence|]. intros _. cbn [when_all]. destruct (conditional c g) as [g1|] eqn:E; [|discriminate].
  destruct (conditional_one pred c g g1 E) as [H1 H2]. destruct cs as [|c2 cs]; [intros [= <-]; auto|]. intros H. apply IH in H as [H3 H4]; [|discriminate]. split.
  - revert H1 H3. apply Forall2_trans'. intros [n|s] [n1|s1] [n2|s2]; cbn [leaf_guarded]; try contradiction.
    intros (A1 & A2 & A3 & A4) (B1 & B2 & B3 & B4). split; [congruence|]. split; [congruence|]. split; [congruence|]. rewrite A3 in B4. destruct (n_value n); [eapply T; eauto|congruence].
  - revert H2 H4. apply Forall2_trans'. intros a b d. apply T.
Qed.
Print Assumptions C51_nested.
Definition on (p : nat) : cond := {| c_name := "c"; c_preds := [p] |}.
Definition a_step : subgraph := Leaf (LNode {| n_type := Action; n_name := "s"; n_value := true; n_cond := always; n_func := 3 |}).
Example C51_case : exists g', when_all conditional [on 1; on 2] a_step = Some g' /\ map (fun l => match l with LNode n => c_preds (n_cond n) | _ => [] end) (leaves g') = [[1; 2]].
Proof. eexists. split; [vm_compute; reflexivity|]. vm_compute. reflexivity. Qed.

(** ** C52: the lifecycle *)
Theorem C52_order early rt_init start main_loop k :
  top_events early rt_init start main_loop (4 + k) PInit = [Init 0; Call early; Call rt_init; Call start] ++ repeat (Call main_loop) k.
Proof. apply top_events_all. Qed.
Print Assumptions C52_order.
(** Whatever the project adds: every flow runs once and the main loop ever after,
    and no call finds its service uninitialised. *)
Theorem C52_effects {A} item_when early rt_init start main_loop (project : config A) j :
  builders item_when (top_config early rt_init start main_loop project) <> None ->
  snd (run_events item_when (fun _ => top_config early rt_init start main_loop project) uninitialized (top_events early rt_init start main_loop j PInit)) =
  firstn (j - 1) ([Ran 0 early; Ran 0 rt_init; Ran 0 start] ++ repeat (Ran 0 main_loop) (j - 4)).
Proof.
  intros H. set (x := top_config early rt_init start main_loop project) in *. destruct j as [|j]; [reflexivity|]. cbn [top_events top_event top_next run_events step].
  set (st := init item_when (fun _ => x) 0 uninitialized). assert (S : forall s, In s [early; rt_init; start; main_loop] -> by_type st s = Some 0).
  { intros s Hs. unfold st. rewrite (proj1 (init_spec item_when (fun _ => x) (fun _ => H) 0 uninitialized)). unfold exportsb. replace (existsb _ _) with true; auto. symmetry. apply existsb_exists. exists s.
    split; [|apply svc_eqb_refl]. unfold x, top_config. cbn [exports map concat]. apply in_app_iff. left. exact Hs. }
  assert (L : forall k, run_events item_when (fun _ => x) st (top_events early rt_init start main_loop k PLoop) = (st, repeat (Ran 0 main_loop) k)).
  { induction k as [|k IH]; [reflexivity|]. cbn [top_events top_event top_next run_events step]. rewrite S by (cbn; auto). cbn [call_effect]. rewrite IH. reflexivity. }
  destruct j as [|[|[|j]]].
  - reflexivity.
  - cbn [top_events top_event top_next run_events step]. rewrite S by (cbn; auto). reflexivity.
  - cbn [top_events top_event top_next run_events step]. rewrite !S by (cbn; auto). reflexivity.
  - cbn [top_events top_event top_next run_events step]. rewrite !S by (cbn; auto). cbn [call_effect]. rewrite L. cbn [snd app Nat.sub firstn].
    rewrite Nat.sub_0_r. do 3 f_equal. symmetry. apply firstn_all2. rewrite repeat_length. lia.
Qed.
Print Assumptions C52_effects.
Example C52_case : builders no_conditional (top_config (sv 0 "early") (sv 1 "init") (sv 2 "start") (sv 3 "main") (Many [Extend (ByType (sv 3 "main")) [8]; Exports [sv 4 "own"]])) <> None.
Proof. vm_compute. discriminate. Qed.

(** ** C65: extending by name *)
(** Without runtime conditions, an extension by a unique name means the same as one
    by type. *)
Theorem C65_partial {A} (x : config A) n s : unique_names x -> exported s x -> s_name s = Some n -> means (exports x) (ByName n) s /\ means (exports x) (ByType s) s.
Proof.
  intros Hu Hs Hn. apply exported_exports in Hs. split; [|constructor; auto]. apply locate_means. cbn [locate]. destruct (find (has_name n) (exports x)) as [t|] eqn:E.
  - apply find_some in E as [E1 E2]. f_equal. apply (Hu t s n); auto. apply has_name_eq, E2.
  - pose proof (find_none _ _ E s Hs) as F. assert (has_name n s = true) by (apply has_name_eq; auto). congruence.
Qed.
Print Assumptions C65_partial.
Example C65_case : unique_names ex_config /\ exported (sv 1 "b") ex_config.
Proof. split; [apply (proj1 C50_case 0)|]. apply exported_exports. vm_compute. auto. Qed.
(** Under a runtime condition an extension by name is rejected, whatever it holds. *)
Theorem C65_refuted {A} item_when (x y : config A) c n a : builders item_when (Many [x; When c [y; Extend (ByName n) a]]) = None.
Proof.
  destruct (builders item_when _) eqn:E; auto. exfalso. assert (S : sensible item_when (Many [x; When c [y; Extend (ByName n) a]])) by (apply builders_sensible; congruence).
  destruct (S (ByName n) [c] a) as (_ & H & _).
  - cbn [offers flat_map]. apply in_app_iff. right. rewrite app_nil_r. apply in_app_iff. right. left. auto.
  - destruct H as [s [=]]. discriminate.
Qed.
Print Assumptions C65_refuted.

(** ** C66: message callbacks under runtime conditions keep their function *)
Theorem C66_partial cs m m' : cs <> [] -> when_all mcallback_when cs m = Some m' -> (exists f, mc_call m = Stateless f) ->
  mc_call m' = mc_call m /\ mc_conds m' = mc_conds m ++ cs.
Proof.
  intros _. revert m. induction cs as [|c cs IH]; intros m; cbn [when_all].
  - intros [= <-] _. rewrite app_nil_r. auto.
  - intros H [f Hf]. unfold mcallback_when in H. rewrite Hf in H. cbn in H. apply IH in H as [H1 H2]; [|cbn; eauto]. cbn in *. rewrite H1, H2, <- app_assoc. auto.
Qed.
Print Assumptions C66_partial.
Example C66_case : when_all mcallback_when [on 1; on 2] {| mc_conds := []; mc_call := Stateless 7 |} = Some {| mc_conds := [on 1; on 2]; mc_call := Stateless 7 |}. Proof. reflexivity. Qed.
(** A callback made from a function pointer is accepted and ends up calling null;
    one with state is rejected. *)
Theorem C66_refuted c cs f : (exists m', when_all mcallback_when (c :: cs) {| mc_conds := []; mc_call := Pointer (Some f) |} = Some m' /\ called (mc_call m') = None) /\
  when_all mcallback_when (c :: cs) {| mc_conds := []; mc_call := Stateful f |} = None.
Proof.
  split; [|reflexivity]. cbn [when_all mcallback_when mc_call value_init option_map mc_conds app]. generalize [c] as l. induction cs as [|d cs IH]; intros l; cbn [when_all].
  - eexists. split; reflexivity.
  - cbn [mcallback_when mc_call value_init option_map mc_conds]. apply IH.
Qed.
Print Assumptions C66_refuted.

(** What becomes of every callback under every non-empty list of conditions: it is
    rejected exactly when its callable has state; otherwise it gets the conditions,
    and calls what it called exactly when its callable is no pointer to a function. *)
Theorem C66_exact c cs m :
  (when_all mcallback_when (c :: cs) m = None <-> exists f, mc_call m = Stateful f) /\
  (forall m', when_all mcallback_when (c :: cs) m = Some m' -> mc_conds m' = mc_conds m ++ c :: cs /\
     (forall f, called (mc_call m') = Some f <-> mc_call m = Stateless f)).
Proof.
  assert (P : forall l x, mc_call x = Pointer None -> exists y, when_all mcallback_when l x = Some y /\ mc_call y = Pointer None /\ mc_conds y = mc_conds x ++ l).
  { induction l as [|d l IH]; intros x E; cbn [when_all]; [exists x; rewrite app_nil_r; auto|].
    assert (W : mcallback_when d x = Some {| mc_conds := mc_conds x ++ [d]; mc_call := Pointer None |}) by (unfold mcallback_when; rewrite E; reflexivity). rewrite W.
    destruct (IH {| mc_conds := mc_conds x ++ [d]; mc_call := Pointer None |} eq_refl) as (y & E1 & E2 & E3). exists y. rewrite E1, E3. cbn [mc_conds]. rewrite <- app_assoc. auto. }
  assert (Q : forall l x f, mc_call x = Stateless f -> exists y, when_all mcallback_when l x = Some y /\ mc_call y = Stateless f /\ mc_conds y = mc_conds x ++ l).
  { induction l as [|d l IH]; intros x f E; cbn [when_all]; [exists x; rewrite app_nil_r; auto|].
    assert (W : mcallback_when d x = Some {| mc_conds := mc_conds x ++ [d]; mc_call := Stateless f |}) by (unfold mcallback_when; rewrite E; reflexivity). rewrite W.
    destruct (IH {| mc_conds := mc_conds x ++ [d]; mc_call := Stateless f |} f eq_refl) as (y & E1 & E2 & E3). exists y. rewrite E1, E3. cbn [mc_conds]. rewrite <- app_assoc. auto. }
  destruct (mc_call m) as [f|f|p] eqn:E.
  - destruct (Q (c :: cs) m f E) as (y & E1 & E2 & E3). rewrite E1. split; [split; [discriminate|intros (g & [=])]|]. intros m' [= <-]. split; auto.
    intros g. rewrite E2. cbn [called]. split; [intros [= ->]|intros [= ->]]; reflexivity.
  - assert (N : when_all mcallback_when (c :: cs) m = None) by (cbn [when_all]; unfold mcallback_when; rewrite E; reflexivity). rewrite N.
    split; [split; [intros _; eauto|reflexivity]|discriminate].
  - assert (N : when_all mcallback_when (c :: cs) m = when_all mcallback_when cs {| mc_conds := mc_conds m ++ [c]; mc_call := Pointer None |}) by (cbn [when_all]; unfold mcallback_when; rewrite E; reflexivity).
    destruct (P cs {| mc_conds := mc_conds m ++ [c]; mc_call := Pointer None |} eq_refl) as (y & E1 & E2 & E3). rewrite N, E1.
    split; [split; [discriminate|intros (g & [=])]|]. intros m' [= <-]. rewrite E2, E3. cbn [mc_conds called]. rewrite <- app_assoc. split; [reflexivity|]. intros g. split; discriminate.
Qed.
Print Assumptions C66_exact.

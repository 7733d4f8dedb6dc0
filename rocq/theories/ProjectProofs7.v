(** Proofs about projects: interrupts. *)
From Coq Require Import String Bool Arith List Permutation Relations Lia.
From Verif Require IrqModel IrqSpec IrqProofs IrqProofs3.
From Verif Require Import FlowModel FlowSpec FlowProofs NexusModel NexusSpec NexusProofs NexusProofs2 ProjectModel ProjectSpec ProjectProofs ProjectProofs2.
Import ListNotations.

(** ** What the flows see of a run *)
Section View.
Context {Env S : Type} (view : Env -> S) (g : nat * nat -> S -> S).
Context (read : nat -> Env -> bool * Env) (clear : nat -> Env -> Env) (serve : nat -> nat -> Env -> Env) (service_active : nat -> nat -> bool) (nexi : list nat).
Hypothesis view_read : forall f e, view (snd (read f e)) = view e.
Hypothesis view_clear : forall f e, view (clear f e) = view e.
Hypothesis view_serve : forall n f e, view (serve n f e) = g (n, f) (view e).
Definition follows (r : Env -> Env * list IrqModel.event) : Prop :=
  forall e, view (fst (r e)) = fold_left (fun s p => g p s) (IrqSpec.served (snd (r e))) (view e).
Lemma served_app t t' : IrqSpec.served (t ++ t') = IrqSpec.served t ++ IrqSpec.served t'. Proof. apply flat_map_app. Qed.
Lemma follows_chain a b : follows a -> follows b -> follows (IrqModel.chain a b).
Proof.
  intros Ha Hb e. unfold IrqModel.chain. specialize (Ha e). destruct (a e) as [e1 t1]. specialize (Hb e1). destruct (b e1) as [e2 t2]. cbn [fst snd] in *.
  rewrite served_app, fold_left_app, <- Ha. exact Hb.
Qed.
Lemma follows_nothing : follows IrqModel.nothing. Proof. intros e. reflexivity. Qed.
Lemma follows_clear f : follows (IrqModel.clear_field clear f).
Proof. intros e. destruct f; cbn; auto. Qed.
Lemma follows_fold {A} (h : A -> Env -> Env * list IrqModel.event) l : (forall a, In a l -> follows (h a)) -> follows (fold_right (fun a k => IrqModel.chain (h a) k) IrqModel.nothing l).
Proof. induction l as [|a l IH]; intros H; cbn [fold_right]; [apply follows_nothing|]. apply follows_chain; [apply H; left; auto|apply IH; intros; apply H; right; auto]. Qed.
Lemma follows_policy p c b : follows c -> follows b -> follows (IrqModel.run_policy p c b).
Proof. intros. destruct p; cbn [IrqModel.run_policy]; auto; apply follows_chain; auto. Qed.
Lemma follows_run x : follows (IrqModel.run read clear serve service_active nexi x).
Proof.
  induction x as [i cs IH] using IrqProofs.irq_induction. intros e. cbn [IrqModel.run]. destruct (IrqModel.active _ _ _); [|reflexivity].
  assert (R : forall f e0, view (snd (fst (IrqModel.read_field read f e0))) = view e0 /\ IrqSpec.served (snd (IrqModel.read_field read f e0)) = []).
  { intros [f|] e0; cbn [IrqModel.read_field]; [|auto]. specialize (view_read f e0). destruct (read f e0) as [v e']. cbn in *. auto. }
  pose proof (R (IrqModel.i_enable i) e) as R1. destruct (IrqModel.read_field read (IrqModel.i_enable i) e) as [[en e1] t1]. cbn [fst snd] in R1. destruct R1 as [R1 R1'].
  destruct en; cbn [fst snd]; [|rewrite R1', R1; reflexivity].
  pose proof (R (IrqModel.i_status i) e1) as R2. destruct (IrqModel.read_field read (IrqModel.i_status i) e1) as [[st e2] t2]. cbn [fst snd] in R2. destruct R2 as [R2 R2'].
  destruct st; cbn [fst snd]; [|rewrite served_app, R1', R2', R2, R1; reflexivity].
  match goal with |- context [IrqModel.run_policy ?p ?c ?b e2] => assert (F : follows (IrqModel.run_policy p c b)) end.
  { apply follows_policy; [apply follows_clear|]. destruct cs as [|c cs].
    - unfold IrqModel.isr. apply follows_fold. intros f _. apply follows_fold. intros n _ e0. cbn. apply view_serve.
    - apply (follows_fold (IrqModel.run read clear serve service_active nexi)). exact IH. }
  specialize (F e2). destruct (IrqModel.run_policy _ _ _ e2) as [e3 t3]. cbn [fst snd] in *. rewrite !served_app, R1', R2'. cbn [app]. rewrite F, R2, R1. reflexivity.
Qed.
End View.

(** ** The flows of a project as interrupt services *)
Section Services.
Context {W : Type} (pops : nat -> list node -> option (node * list node)) (enum : nat -> list node -> list node).
Context (Hp : pops_some pops) (He : enumerates enum).
Context (pred : nat -> W -> bool) (act : nat -> W -> W) (body : nat -> list op) (nexus : nat -> config element).
Notation does := (does pred act body nexus).
Notation sees := (sees nexus).
Notation after := (serve_project pops enum pred act body nexus).
Lemma after_does rank fuel l : ranked rank nexus body -> (forall n, services pops enum (nexus n) <> None) ->
  (forall n s, In (n, s) l -> exported s (nexus n) /\ rank s < fuel) ->
  forall x tr m, panicked x = false -> sees x m -> exists t y m', fold_left (fun a p => after fuel (fst p) (snd p) a) l (x, tr) = (y, tr ++ t) /\
    does (TSeq (map (fun p => TService (fst p) (snd p)) l)) m t m' /\ sees y m'.
Proof.
  intros R C. induction l as [|[n s] l IH]; intros X x tr m Hx S.
  - exists [], x, m. cbn. rewrite app_nil_r. repeat split; try constructor; apply S.
  - destruct (X n s (or_introl eq_refl)) as [X1 X2]. cbn [fold_left fst snd map]. unfold serve_project at 2. cbn [fst snd]. rewrite Hx.
    pose proof (works_service pops enum Hp He pred act body nexus rank R C fuel n s X1 X2 x m Hx S) as Wk.
    destruct (run_service pops enum pred act body nexus fuel n s x) as [[t y]|] eqn:E; [|congruence].
    destruct (refines_service pops enum Hp He pred act body nexus fuel n s x t y m E Hx S) as (m1 & D & S1).
    destruct (panicked y) eqn:Py.
    + exists t, y, m1. split; [|split; auto].
      * clear - Py. generalize (tr ++ t) as u. induction l as [|p l IH]; intros u; [reflexivity|]. cbn [fold_left]. unfold serve_project at 2. cbn [fst snd]. rewrite Py. apply IH.
      * eapply does_stop; eauto. destruct S1 as (_ & _ & _ & H). congruence.
    + destruct (IH (fun n s H => X n s (or_intror H)) y (tr ++ t) m1 Py S1) as (t' & z & m' & E' & D' & S'). exists (t ++ t'), z, m'. rewrite E', app_assoc. split; auto. split; auto.
      eapply does_next; eauto. destruct S1 as (_ & _ & _ & H). congruence.
Qed.
(** A flow is active if a component adds a step to it. *)
Lemma active_adds x s name : services pops enum x <> None -> s_name s = Some name -> exported s x -> is_active pops enum x s = true <-> exists d, adds_step x s d.
Proof.
  intros C Hn Hs. destruct (services pops enum x) as [l|] eqn:E; [|congruence]. assert (I := impl_all pops enum x l s E Hs). unfold is_active.
  destruct (impl_of pops enum x s) as [i|] eqn:Ei; [|congruence]. destruct (impl_spec pops enum Hp He x s i Ei) as [_ K].
  destruct i as [n o|fs]; [|destruct K; congruence]. destruct K as (_ & ds & F & L). rewrite negb_true_iff, Nat.eqb_neq. split.
  - intros H. destruct F as [|m d o ds]; [cbn in H; congruence|]. exists d. apply (lf_added _ _ _ L). left. auto.
  - intros (d & Hd). destruct (lf_all _ _ _ L d Hd) as (d' & Hd' & _). destruct F; [destruct Hd'|discriminate].
Qed.
End Services.

(** Logging from several threads: what one thread alone writes, and how packets get mixed. *)
From Coq Require Import Bool Arith List Lia.
From Verif Require Import LogModel LogSpec LogProofs2.
Import ListNotations.

Section Threads.
Context {W : Type} (prog : nat -> list (write W)).
Definition packets_to (k : nat) (l : list (write W)) : list (packet W) := map snd (filter (fun w => d_sink (fst w) =? k) l).
Lemma packets_cons k d p l : concat (packets_to k ((d, p) :: l)) = (if d_sink d =? k then p else []) ++ concat (packets_to k l).
Proof. unfold packets_to. cbn [filter fst]. destruct (d_sink d =? k); reflexivity. Qed.
Lemma packets_app k a b : concat (packets_to k (a ++ b)) = concat (packets_to k a) ++ concat (packets_to k b).
Proof. unfold packets_to. rewrite filter_app, map_app, concat_app. reflexivity. Qed.

(** A sink that one thread writes to. *)
Lemma single_sink t0 k s : (forall t d p, In (d, p) (prog t) -> d_sink d = k -> t = t0) -> reachable prog s ->
  exists done, done ++ current (threads s t0) ++ t_todo (threads s t0) = prog t0 /\
    (forall d p dn rs, t_phase (threads s t0) = Writing d p dn rs -> p = dn ++ rs) /\
    sinks s k = concat (packets_to k done) ++ written (threads s t0) k.
Proof.
  intros H1 R. induction R as [|s t s' R (done & IH2 & IH3 & IH4) Hs].
  - exists []. split; [reflexivity|]. split; [discriminate|]. reflexivity.
  - destruct (inv_reachable prog s R) as [h I]. destruct (Nat.eq_dec t t0) as [->|Ht].
    + destruct Hs as [d p r E Fd|d p dn w rest r E|d p dn r E]; cbn [threads sinks]; unfold set_thread; rewrite !Nat.eqb_refl; rewrite E in *.
      * exists done. split; auto. split; [cbn; intros ? ? ? ? [= -> -> <- <-]; auto|]. rewrite IH4. f_equal. unfold written. cbn. destruct (d_sink d =? k); auto.
      * exists done. split; auto. split; [cbn; intros ? ? ? ? [= -> -> <- <-]; rewrite <- app_assoc; apply (IH3 _ _ _ _ eq_refl)|]. rewrite IH4. unfold written. cbn. rewrite (Nat.eqb_sym k). destruct (d_sink d =? k); auto. rewrite app_assoc. auto.
      * specialize (IH3 _ _ _ _ eq_refl). rewrite app_nil_r in IH3. subst dn. exists (done ++ [(d, p)]). split; [rewrite <- IH2, <- app_assoc; reflexivity|]. split; [discriminate|]. rewrite IH4. unfold written. cbn.
        rewrite packets_app, packets_cons. cbn. destruct (d_sink d =? k); cbn; rewrite ?app_nil_r; reflexivity.
    + assert (Q : threads s' t0 = threads s t0).
      { assert (N : (t0 =? t) = false) by (apply Nat.eqb_neq; congruence). destruct Hs; cbn [threads]; unfold set_thread; rewrite N; reflexivity. }
      rewrite Q. exists done. split; [exact IH2|]. split; [exact IH3|]. rewrite <- IH4. destruct Hs as [d p r E Fd|d p dn w rest r E|d p dn r E]; cbn [sinks]; try reflexivity.
      destruct (Nat.eqb_spec k (d_sink d)) as [Ek|]; [|reflexivity]. exfalso. apply Ht. apply (H1 t d p); [|auto]. apply (in_prog prog h s t d p dn (w :: rest) I). rewrite E. reflexivity.
Qed.

(** Steps one after the other. *)
Inductive steps (s : system W) : system W -> Prop :=
| steps_none : steps s s
| steps_more t s' s'' : steps s s' -> tstep t s' s'' -> steps s s''.
Lemma steps_reachable s s' : steps s s' -> reachable prog s -> reachable prog s'.
Proof. induction 1 as [|t s1 s2 S IH T]; intros R; [exact R|]. exact (reach_step prog s1 t s2 (IH R) T). Qed.
Lemma steps_trans s s' s'' : steps s s' -> steps s' s'' -> steps s s''.
Proof. intros H. induction 1 as [|t s1 s2 S IH T]; [exact H|]. exact (steps_more s t s1 s2 IH T). Qed.
Definition same_but (t : nat) (s s' : system W) : Prop := forall t', t' <> t -> threads s' t' = threads s t'.
(** One thread writes the rest of its packet. *)
Lemma write_rest t rest : forall s d p dn r, threads s t = {| t_phase := Writing d p dn rest; t_todo := r |} ->
  exists s', steps s s' /\ threads s' t = {| t_phase := Writing d p (dn ++ rest) []; t_todo := r |} /\ same_but t s s' /\ locks s' = locks s /\
    forall k, sinks s' k = sinks s k ++ (if d_sink d =? k then rest else []).
Proof.
  induction rest as [|w rest IH]; intros s d p dn r E.
  - exists s. rewrite app_nil_r. split; [constructor|]. split; [exact E|]. split; [intros t' _; reflexivity|]. split; [reflexivity|]. intros k. destruct (d_sink d =? k); rewrite app_nil_r; reflexivity.
  - pose proof (step_word t s d p dn w rest r E) as T. set (s1 := {| locks := _; sinks := _; threads := _ |}) in T.
    assert (E1 : threads s1 t = {| t_phase := Writing d p (dn ++ [w]) rest; t_todo := r |}) by (cbn; unfold set_thread; rewrite Nat.eqb_refl; reflexivity).
    destruct (IH s1 d p (dn ++ [w]) r E1) as (s' & S & E' & F & L & K). exists s'. split; [eapply steps_trans; [|exact S]; eapply steps_more; [constructor|exact T]|].
    split; [rewrite E', <- app_assoc; reflexivity|]. split; [|split; [rewrite L; reflexivity|]].
    + intros t' Ht. rewrite (F t' Ht). cbn. unfold set_thread. apply Nat.eqb_neq in Ht. rewrite Ht. reflexivity.
    + intros k. rewrite K. cbn [sinks s1]. rewrite (Nat.eqb_sym k). destruct (d_sink d =? k); [rewrite <- app_assoc; reflexivity|]. reflexivity.
Qed.
(** One thread runs alone while nothing is locked. *)
Lemma run_alone t a : forall s r, (forall ty, locks s ty = None) -> threads s t = {| t_phase := Idle; t_todo := a ++ r |} ->
  exists s', steps s s' /\ threads s' t = {| t_phase := Idle; t_todo := r |} /\ same_but t s s' /\ (forall ty, locks s' ty = None) /\ forall k, sinks s' k = sinks s k ++ concat (packets_to k a).
Proof.
  induction a as [|[d p] a IH]; intros s r L E.
  - exists s. split; [constructor|]. split; [exact E|]. split; [intros t' _; reflexivity|]. split; [exact L|]. intros k. cbn. rewrite app_nil_r. reflexivity.
  - assert (F : free s d) by (unfold free; destruct (d_type d); auto). cbn [app] in E. pose proof (step_enter t s d p (a ++ r) E F) as T. set (s1 := {| locks := _; sinks := _; threads := _ |}) in T.
    assert (E1 : threads s1 t = {| t_phase := Writing d p [] p; t_todo := a ++ r |}) by (cbn; unfold set_thread; rewrite Nat.eqb_refl; reflexivity).
    destruct (write_rest t p s1 d p [] (a ++ r) E1) as (s2 & S2 & E2 & F2 & L2 & K2). cbn [app] in E2.
    pose proof (step_leave t s2 d p p (a ++ r) E2) as T3. set (s3 := {| locks := _; sinks := _; threads := _ |}) in T3.
    assert (E3 : threads s3 t = {| t_phase := Idle; t_todo := a ++ r |}) by (cbn; unfold set_thread; rewrite Nat.eqb_refl; reflexivity).
    assert (L3 : forall ty, locks s3 ty = None).
    { intros ty. cbn [locks s3]. unfold set_lock. rewrite L2. cbn [locks s1]. unfold set_lock. destruct (d_type d) as [ty'|]; [destruct (ty =? ty'); auto|apply L]. }
    destruct (IH s3 r L3 E3) as (s' & S & E' & F' & L' & K). exists s'. split; [|split; [exact E'|split; [|split; [exact L'|]]]].
    + eapply steps_trans; [eapply steps_more; [constructor|exact T]|]. eapply steps_trans; [exact S2|]. eapply steps_trans; [eapply steps_more; [constructor|exact T3]|exact S].
    + intros t' Ht. rewrite (F' t' Ht). cbn [threads s3]. unfold set_thread. pose proof Ht as Hb. apply Nat.eqb_neq in Hb. rewrite Hb, (F2 t' Ht). cbn [threads s1]. unfold set_thread. rewrite Hb. reflexivity.
    + intros k. rewrite K, packets_cons. cbn [sinks s3]. rewrite K2. cbn [sinks s1]. rewrite <- app_assoc. reflexivity.
Qed.
(** Two packets of different threads in no common critical section. *)
Definition apart (d d' : dest) : Prop := match d_type d, d_type d' with Some a, Some b => a <> b | _, _ => True end.
Lemma mix_two t t' k a1 a2 b1 b2 d d' w1 w2 p v q : t <> t' -> prog t = a1 ++ (d, w1 :: w2 :: p) :: a2 -> prog t' = b1 ++ (d', v :: q) :: b2 ->
  d_sink d = k -> d_sink d' = k -> apart d d' ->
  exists s, reachable prog s /\ sinks s k = concat (packets_to k a1) ++ concat (packets_to k b1) ++ [w1; v; w2].
Proof.
  intros N P P' K K' A.
  destruct (run_alone t a1 (start prog) ((d, w1 :: w2 :: p) :: a2)) as (s1 & S1 & E1 & F1 & L1 & K1); [reflexivity|cbn; rewrite P; reflexivity|].
  destruct (run_alone t' b1 s1 ((d', v :: q) :: b2)) as (s2 & S2 & E2 & F2 & L2 & K2); [exact L1|rewrite (F1 t') by congruence; cbn; rewrite P'; reflexivity|].
  assert (E2t : threads s2 t = {| t_phase := Idle; t_todo := (d, w1 :: w2 :: p) :: a2 |}) by (rewrite (F2 t), E1 by congruence; reflexivity).
  assert (Fr : free s2 d) by (unfold free; destruct (d_type d); auto).
  pose proof (step_enter t s2 d _ a2 E2t Fr) as T3. set (s3 := {| locks := _; sinks := _; threads := _ |}) in T3.
  assert (B : (t' =? t) = false) by (apply Nat.eqb_neq; congruence). assert (B' : (t =? t') = false) by (apply Nat.eqb_neq; congruence).
  assert (E3t : threads s3 t = {| t_phase := Writing d (w1 :: w2 :: p) [] (w1 :: w2 :: p); t_todo := a2 |}) by (cbn; unfold set_thread; rewrite Nat.eqb_refl; reflexivity).
  assert (E3 : threads s3 t' = {| t_phase := Idle; t_todo := (d', v :: q) :: b2 |}) by (cbn; unfold set_thread; rewrite B, E2; reflexivity).
  assert (Fr' : free s3 d').
  { unfold free. unfold apart in A. destruct (d_type d') as [ty'|]; [|exact I]. cbn [locks s3]. unfold set_lock. destruct (d_type d) as [ty|]; [|apply L2]. destruct (Nat.eqb_spec ty' ty); [congruence|apply L2]. }
  pose proof (step_enter t' s3 d' _ b2 E3 Fr') as T4. set (s4 := {| locks := _; sinks := _; threads := _ |}) in T4.
  assert (E4t : threads s4 t = {| t_phase := Writing d (w1 :: w2 :: p) [] (w1 :: w2 :: p); t_todo := a2 |}) by (cbn [threads s4]; unfold set_thread; rewrite B'; exact E3t).
  assert (E4 : threads s4 t' = {| t_phase := Writing d' (v :: q) [] (v :: q); t_todo := b2 |}) by (cbn [threads s4]; unfold set_thread; rewrite Nat.eqb_refl; reflexivity).
  pose proof (step_word t s4 d _ [] w1 (w2 :: p) a2 E4t) as T5. set (s5 := {| locks := _; sinks := _; threads := _ |}) in T5.
  assert (E5t : threads s5 t = {| t_phase := Writing d (w1 :: w2 :: p) [w1] (w2 :: p); t_todo := a2 |}) by (cbn [threads s5]; unfold set_thread; rewrite Nat.eqb_refl; reflexivity).
  assert (E5 : threads s5 t' = {| t_phase := Writing d' (v :: q) [] (v :: q); t_todo := b2 |}) by (cbn [threads s5]; unfold set_thread; rewrite B; exact E4).
  pose proof (step_word t' s5 d' _ [] v q b2 E5) as T6. set (s6 := {| locks := _; sinks := _; threads := _ |}) in T6.
  assert (E6t : threads s6 t = {| t_phase := Writing d (w1 :: w2 :: p) [w1] (w2 :: p); t_todo := a2 |}) by (cbn [threads s6]; unfold set_thread; rewrite B'; exact E5t).
  pose proof (step_word t s6 d _ [w1] w2 p a2 E6t) as T7. eexists. split.
  - eapply reach_step; [|exact T7]. eapply reach_step; [|exact T6]. eapply reach_step; [|exact T5]. eapply reach_step; [|exact T4]. eapply reach_step; [|exact T3].
    apply (steps_reachable s1 s2 S2), (steps_reachable _ s1 S1). constructor.
  - cbn [sinks s6 s5 s4 s3]. rewrite K, K', Nat.eqb_refl, K2, K1. cbn [start sinks app]. rewrite <- !app_assoc. reflexivity.
Qed.
(** Every run can be brought to an end, which leaves what has been written. *)
Lemma step_appends t s s' : @tstep W t s s' -> forall k, exists x, sinks s' k = sinks s k ++ x.
Proof.
  intros [d p r E F|d p done w rest r E|d p done r E] k; cbn [sinks]; [exists []; rewrite app_nil_r; reflexivity| |exists []; rewrite app_nil_r; reflexivity].
  destruct (k =? d_sink d); [exists [w]; reflexivity|exists []; rewrite app_nil_r; reflexivity].
Qed.
Lemma finish n : (forall t, n <= t -> prog t = []) -> forall s, reachable prog s -> exists s', reachable prog s' /\ finished s' /\ forall k, exists x, sinks s' k = sinks s k ++ x.
Proof.
  intros Hn s R. assert (M : exists m, runs prog m s). { clear Hn. induction R as [|s t s' R [m IH] H]; [exists 0; constructor|exists (S m); eapply runs_step; eauto]. } destruct M as [m M].
  remember (list_sum (map (fun t => costs (prog t)) (seq 0 n)) - m) as j eqn:J. revert m s R M J. induction j as [j IH] using lt_wf_ind. intros m s R M J.
  assert (D : finished s \/ exists t, threads s t <> {| t_phase := Idle; t_todo := [] |}).
  { assert (G : forall l, (forall t, In t l -> threads s t = {| t_phase := Idle; t_todo := [] |}) \/ exists t, threads s t <> {| t_phase := Idle; t_todo := [] |}).
    { induction l as [|t l [IHl|IHl]]; [left; intros t []| |right; exact IHl].
      destruct (threads s t) as [[|d p dn rest] [|w todo]] eqn:E; [|right; exists t; rewrite E; discriminate|right; exists t; rewrite E; discriminate|right; exists t; rewrite E; discriminate].
      left. intros t' [<-|H]; [exact E|apply IHl, H]. }
    destruct (G (seq 0 n)) as [H|H]; [|right; exact H]. left. intros t. destruct (lt_dec t n) as [L|L]; [apply H, in_seq; lia|]. apply (runs_total prog n m s Hn M). lia. }
  destruct D as [F|[t Ht]]; [exists s; split; [exact R|split; [exact F|]]; intros k; exists []; rewrite app_nil_r; reflexivity|].
  destruct (progress prog s t R Ht) as (t' & s1 & T). assert (R1 : reachable prog s1) by (eapply reach_step; eauto). assert (M1 : runs prog (S m) s1) by (eapply runs_step; eauto).
  pose proof (runs_bound prog n (S m) s1 Hn M1) as B. destruct (IH (list_sum (map (fun t => costs (prog t)) (seq 0 n)) - S m) ltac:(lia) (S m) s1 R1 M1 eq_refl) as (s' & R' & F' & A).
  exists s'. split; [exact R'|]. split; [exact F'|]. intros k. destruct (A k) as [y Hy]. destruct (step_appends t' s s1 T k) as [x Hx]. exists (x ++ y). rewrite Hy, Hx, app_assoc. reflexivity.
Qed.
End Threads.

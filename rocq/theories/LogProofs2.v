(** Logging from several threads: an invariant, progress and termination. *)
From Coq Require Import Bool Arith List Lia.
From Verif Require Import LogModel LogSpec.
Import ListNotations.

Section Threads.
Context {W : Type} (prog : nat -> list (write W)).
Definition current (x : @thread W) : list (write W) := match t_phase x with Idle => [] | Writing d p _ _ => [(d, p)] end.
Definition written (x : @thread W) (k : nat) : packet W := match t_phase x with Idle => [] | Writing d p done _ => if d_sink d =? k then done else [] end.
Record inv (h : list (nat * write W)) (s : system W) : Prop := {
  i_prog : forall t, of_thread t h ++ current (threads s t) ++ t_todo (threads s t) = prog t;
  i_parts : forall t d p done rest, t_phase (threads s t) = Writing d p done rest -> p = done ++ rest;
  i_locks : forall ty t, locks s ty = Some t <-> exists d p done rest, t_phase (threads s t) = Writing d p done rest /\ d_type d = Some ty;
  i_sinks : forall k ty, guarded prog k ty ->
    sinks s k = concat (to_sink k h) ++ match locks s ty with None => [] | Some t => written (threads s t) k end
}.
Lemma inv_start : inv [] (start prog).
Proof.
  split; cbn.
  - reflexivity.
  - discriminate.
  - intros ty t. split; [discriminate|]. intros (? & ? & ? & ? & [=] & _).
  - reflexivity.
Qed.
Lemma of_thread_snoc (h : list (nat * write W)) t t' w : of_thread t (h ++ [(t', w)]) = of_thread t h ++ (if t' =? t then [w] else []).
Proof. unfold of_thread. rewrite filter_app, map_app. cbn. destruct (t' =? t); reflexivity. Qed.
Lemma to_sink_snoc (h : list (nat * write W)) k t d p : to_sink k (h ++ [(t, (d, p))]) = to_sink k h ++ (if d_sink d =? k then [p] else []).
Proof. unfold to_sink. rewrite filter_app, map_app. cbn. destruct (d_sink d =? k); reflexivity. Qed.
Lemma in_prog h s t d p done rest : inv h s -> t_phase (threads s t) = Writing d p done rest -> In (d, p) (prog t).
Proof. intros I E. rewrite <- (i_prog _ _ I t). apply in_or_app. right. unfold current. rewrite E. left. auto. Qed.
Lemma inv_step h s t s' : inv h s -> tstep t s s' -> exists h', inv h' s' /\ (h' = h \/ exists w, h' = h ++ [(t, w)]).
Proof.
  intros I H. destruct H as [d p r E F|d p done w rest r E|d p done r E].
  - exists h. split; [|auto]. split; cbn [locks sinks threads].
    + intros t'. unfold set_thread. destruct (Nat.eqb_spec t' t) as [->|_]; [|apply I]. rewrite <- (i_prog _ _ I t), E. reflexivity.
    + intros t' d' p' done rest. unfold set_thread. destruct (t' =? t); [cbn; intros [= -> -> <- <-]; auto|apply I].
    + intros ty t'. unfold set_lock, set_thread, free in *. destruct (d_type d) as [ty'|] eqn:Ed.
      * destruct (Nat.eqb_spec ty ty') as [->|Hty].
        -- destruct (Nat.eqb_spec t' t) as [->|Ht]; cbn; [split; eauto 6|]. split; [congruence|].
           intros G. apply (i_locks _ _ I) in G. congruence.
        -- destruct (Nat.eqb_spec t' t) as [->|Ht]; [|apply I]. rewrite (i_locks _ _ I). cbn. rewrite E. cbn. split.
           ++ intros (? & ? & ? & ? & [=] & _).
           ++ intros (? & ? & ? & ? & [= <- <- <- <-] & ?). congruence.
      * destruct (Nat.eqb_spec t' t) as [->|Ht]; [|apply I]. rewrite (i_locks _ _ I). cbn. rewrite E. cbn. split.
        ++ intros (? & ? & ? & ? & [=] & _).
        ++ intros (? & ? & ? & ? & [= <- <- <- <-] & ?). congruence.
    + intros k ty G. rewrite (i_sinks _ _ I k ty G). f_equal. unfold set_lock, set_thread, free in *. destruct (d_type d) as [ty'|] eqn:Ed.
      * destruct (Nat.eqb_spec ty ty') as [->|Hty].
        -- rewrite F, Nat.eqb_refl. unfold written. cbn. destruct (d_sink d =? k); reflexivity.
        -- destruct (locks s ty) as [t'|] eqn:El; auto. destruct (Nat.eqb_spec t' t) as [->|]; auto. unfold written. rewrite E. cbn. destruct (d_sink d =? k); reflexivity.
      * destruct (locks s ty) as [t'|] eqn:El; auto. destruct (Nat.eqb_spec t' t) as [->|]; auto. unfold written. rewrite E. cbn. destruct (d_sink d =? k); reflexivity.
  - exists h. split; [|auto]. assert (Ep : p = done ++ w :: rest) by (apply (i_parts _ _ I t d p); rewrite E; auto).
    assert (Hp : In (d, p) (prog t)) by (apply (in_prog h s t d p done (w :: rest) I); rewrite E; auto). split; cbn [locks sinks threads].
    + intros t'. unfold set_thread. destruct (Nat.eqb_spec t' t) as [->|_]; [|apply I]. rewrite <- (i_prog _ _ I t), E. reflexivity.
    + intros t' d' p' done' rest'. unfold set_thread. destruct (t' =? t); [cbn; intros [= -> -> <- <-]; rewrite <- app_assoc; auto|apply I].
    + intros ty t'. rewrite (i_locks _ _ I). unfold set_thread. destruct (Nat.eqb_spec t' t) as [->|_]; [|tauto]. rewrite E. cbn. split; intros (? & ? & ? & ? & [= <- <- <- <-] & ?); eauto 6.
    + intros k ty G. rewrite (i_sinks _ _ I k ty G). destruct (Nat.eqb_spec k (d_sink d)) as [->|Hk].
      * assert (El : locks s ty = Some t). { apply (i_locks _ _ I). exists d, p, done, (w :: rest). rewrite E. split; auto. apply (G t d p Hp). reflexivity. }
        rewrite El. unfold set_thread. rewrite Nat.eqb_refl. unfold written. rewrite E. cbn. rewrite Nat.eqb_refl, app_assoc. reflexivity.
      * f_equal. destruct (locks s ty) as [t'|]; auto. unfold set_thread. destruct (Nat.eqb_spec t' t) as [->|]; auto. unfold written. rewrite E. cbn.
        destruct (Nat.eqb_spec (d_sink d) k); [congruence|reflexivity].
  - exists (h ++ [(t, (d, p))]). split; [|eauto]. assert (Ep : p = done) by (rewrite <- (app_nil_r done); apply (i_parts _ _ I t d p); rewrite E; auto). subst done.
    assert (Hp : In (d, p) (prog t)) by (apply (in_prog h s t d p p [] I); rewrite E; auto). split; cbn [locks sinks threads].
    + intros t'. rewrite of_thread_snoc. unfold set_thread. rewrite (Nat.eqb_sym t t'). destruct (Nat.eqb_spec t' t) as [->|_].
      * rewrite <- (i_prog _ _ I t), E. cbn. rewrite <- app_assoc. reflexivity.
      * rewrite app_nil_r. apply I.
    + intros t' d' p' done' rest'. unfold set_thread. destruct (t' =? t); [discriminate|apply I].
    + intros ty t'. unfold set_lock, set_thread. destruct (d_type d) as [ty'|] eqn:Ed.
      * destruct (Nat.eqb_spec ty ty') as [->|Hty].
        -- split; [discriminate|]. assert (El : locks s ty' = Some t) by (apply (i_locks _ _ I); exists d, p, p, []; rewrite E; auto).
           destruct (Nat.eqb_spec t' t) as [->|Ht]; cbn; [intros (? & ? & ? & ? & [=] & _)|]. intros G. apply (i_locks _ _ I) in G. congruence.
        -- rewrite (i_locks _ _ I). destruct (Nat.eqb_spec t' t) as [->|Ht]; [|tauto]. rewrite E. cbn. split; [intros (? & ? & ? & ? & [= <- <- <- <-] & ?); congruence|intros (? & ? & ? & ? & [=] & _)].
      * rewrite (i_locks _ _ I). destruct (Nat.eqb_spec t' t) as [->|Ht]; [|tauto]. rewrite E. cbn. split; [intros (? & ? & ? & ? & [= <- <- <- <-] & ?); congruence|intros (? & ? & ? & ? & [=] & _)].
    + intros k ty G. rewrite (i_sinks _ _ I k ty G), to_sink_snoc, concat_app, <- app_assoc. f_equal. destruct (Nat.eqb_spec (d_sink d) k) as [Hk|Hk].
      * assert (Ed : d_type d = Some ty) by (apply (G t d p Hp Hk)). assert (El : locks s ty = Some t) by (apply (i_locks _ _ I); exists d, p, p, []; rewrite E; auto).
        rewrite El. unfold set_lock. rewrite Ed, Nat.eqb_refl. unfold written. rewrite E. cbn. rewrite Hk, Nat.eqb_refl, !app_nil_r. reflexivity.
      * cbn [concat app]. unfold set_lock, set_thread. destruct (locks s ty) as [t'|] eqn:El.
        -- destruct (Nat.eq_dec t' t) as [->|Ht].
           ++ assert (written (threads s t) k = []) as ->. { unfold written. rewrite E. cbn. destruct (Nat.eqb_spec (d_sink d) k); congruence. }
              assert (d_type d = Some ty) as ->. { apply (i_locks _ _ I) in El as (d' & p' & dn & rs & E2 & E3). rewrite E in E2. cbn in E2. congruence. } rewrite Nat.eqb_refl. reflexivity.
           ++ destruct (d_type d) as [ty'|] eqn:Ed.
              ** destruct (Nat.eqb_spec ty ty') as [->|]. { assert (locks s ty' = Some t) by (apply (i_locks _ _ I); exists d, p, p, []; rewrite E; auto). congruence. }
                 rewrite El. destruct (Nat.eqb_spec t' t); congruence || reflexivity.
              ** rewrite El. destruct (Nat.eqb_spec t' t); congruence || reflexivity.
        -- destruct (d_type d) as [ty'|] eqn:Ed; [destruct (ty =? ty'); auto; rewrite El; reflexivity|rewrite El; reflexivity].
Qed.
Lemma inv_reachable s : reachable prog s -> exists h, inv h s.
Proof.
  induction 1 as [|s t s' H [h IH] Hs]; [exists []; apply inv_start|]. destruct (inv_step h s t s' IH Hs) as (h' & Hi & _). eauto.
Qed.

(** ** Runs by a schedule *)
Definition exec (t : nat) (s : system W) : option (system W) :=
  match threads s t with
  | {| t_phase := Idle; t_todo := (d, p) :: r |} =>
    if match d_type d with None => true | Some ty => match locks s ty with None => true | Some _ => false end end
    then Some {| locks := set_lock s d (Some t); sinks := sinks s; threads := set_thread s t {| t_phase := Writing d p [] p; t_todo := r |} |} else None
  | {| t_phase := Writing d p done (w :: rest); t_todo := r |} =>
    Some {| locks := locks s; sinks := fun k => if k =? d_sink d then sinks s k ++ [w] else sinks s k;
      threads := set_thread s t {| t_phase := Writing d p (done ++ [w]) rest; t_todo := r |} |}
  | {| t_phase := Writing d p done []; t_todo := r |} =>
    Some {| locks := set_lock s d None; sinks := sinks s; threads := set_thread s t {| t_phase := Idle; t_todo := r |} |}
  | _ => None
  end.
Fixpoint exec_all (l : list nat) (s : system W) : option (system W) :=
  match l with [] => Some s | t :: r => match exec t s with Some s' => exec_all r s' | None => None end end.
Lemma exec_ok t s s' : exec t s = Some s' -> tstep t s s'.
Proof.
  unfold exec. destruct (threads s t) as [[|d p done [|w rest]] todo] eqn:E.
  - destruct todo as [|[d p] r]; [discriminate|]. destruct (match d_type d with None => true | Some ty => match locks s ty with None => true | Some _ => false end end) eqn:F; [|discriminate].
    intros [= <-]. apply step_enter; auto. unfold free. destruct (d_type d) as [ty|]; auto. destruct (locks s ty); [discriminate|reflexivity].
  - intros [= <-]. eapply step_leave; eauto.
  - intros [= <-]. eapply step_word; eauto.
Qed.
Lemma exec_threads t s s' : exec t s = Some s' -> exists x, threads s' = set_thread s t x.
Proof.
  unfold exec. destruct (threads s t) as [[|d p done [|w rest]] [|[d' p'] r]]; try discriminate; try (intros [= <-]; eexists; reflexivity).
  destruct (match d_type d' with None => true | Some ty => match locks s ty with None => true | Some _ => false end end); [|discriminate]. intros [= <-]. eexists. reflexivity.
Qed.
Lemma exec_all_ok {V} l (f : system W -> V) v : option_map f (exec_all l (start prog)) = Some v ->
  exists s, reachable prog s /\ f s = v /\ forall t, ~ In t l -> threads s t = {| t_phase := Idle; t_todo := prog t |}.
Proof.
  assert (G : forall l s, reachable prog s -> option_map f (exec_all l s) = Some v -> exists s', reachable prog s' /\ f s' = v /\ forall t, ~ In t l -> threads s' t = threads s t).
  { clear l. induction l as [|t l IH]; intros s R; cbn [exec_all option_map]; [intros [= <-]; eauto|]. destruct (exec t s) as [s'|] eqn:E; [|discriminate]. intros H.
    destruct (IH s') as (s2 & R2 & E2 & H2); auto; [eapply reach_step; eauto; apply exec_ok, E|]. exists s2. split; auto. split; auto. intros t' Ht'. destruct (exec_threads t s s' E) as (x & Ex).
    rewrite H2 by (intros Q; apply Ht'; right; auto). rewrite Ex. unfold set_thread. destruct (Nat.eqb_spec t' t) as [->|]; auto. exfalso. apply Ht'. left. auto. }
  intros H. apply (G l (start prog)); auto. constructor.
Qed.

(** ** Progress *)
Lemma progress s t : reachable prog s -> threads s t <> {| t_phase := Idle; t_todo := [] |} -> exists t' s', tstep t' s s'.
Proof.
  intros R Ht. destruct (inv_reachable s R) as [h I].
  assert (Go : forall t' d p done rest, t_phase (threads s t') = Writing d p done rest -> exists s', tstep t' s s').
  { intros t' d p done rest E. destruct (threads s t') as [ph todo] eqn:Et. cbn in E. subst ph. destruct rest as [|w rest]; eexists; [eapply step_leave; eauto|eapply step_word; eauto]. }
  destruct (threads s t) as [ph todo] eqn:Et. destruct ph as [|d p done rest].
  - destruct todo as [|[d p] todo]; [congruence|]. destruct (d_type d) as [ty|] eqn:Ed.
    + destruct (locks s ty) as [t'|] eqn:El.
      * apply (i_locks _ _ I) in El as (d' & p' & done & rest & E & _). apply Go in E as [s' E]. eauto.
      * exists t. eexists. eapply step_enter; eauto. unfold free. rewrite Ed. auto.
    + exists t. eexists. eapply step_enter; eauto. unfold free. rewrite Ed. auto.
  - destruct (Go t d p done rest) as [s' E]; [rewrite Et; auto|]. eauto.
Qed.

(** ** Termination *)
Definition cost (w : write W) : nat := length (snd w) + 2.
Definition costs (l : list (write W)) : nat := list_sum (map cost l).
Definition weight (x : @thread W) : nat := match t_phase x with Idle => 0 | Writing _ _ _ rest => length rest + 1 end + costs (t_todo x).
Definition total (n : nat) (f : nat -> @thread W) : nat := list_sum (map (fun t => weight (f t)) (seq 0 n)).
Lemma total_update n f t x : t < n -> total n (fun t' => if t' =? t then x else f t') + weight (f t) = total n f + weight x.
Proof.
  unfold total. intros H. assert (G : forall l, NoDup l -> list_sum (map (fun t' => weight (if t' =? t then x else f t')) l) + (if in_dec Nat.eq_dec t l then weight (f t) else 0) =
    list_sum (map (fun t' => weight (f t')) l) + (if in_dec Nat.eq_dec t l then weight x else 0)).
  { induction 1 as [|a l Ha Hl IH]; [cbn; auto|]. cbn [map list_sum fold_right]. fold (list_sum (map (fun t' => weight (if t' =? t then x else f t')) l)) (list_sum (map (fun t' => weight (f t')) l)).
    destruct (Nat.eqb_spec a t) as [->|Hat].
    - destruct (in_dec Nat.eq_dec t l); [contradiction|]. destruct (in_dec Nat.eq_dec t (t :: l)) as [_|G]; [|exfalso; apply G; left; auto]. lia.
    - destruct (in_dec Nat.eq_dec t (a :: l)) as [G|G]; destruct (in_dec Nat.eq_dec t l) as [G'|G']; try lia; exfalso; [destruct G; auto|apply G; right; auto]. }
  specialize (G (seq 0 n) (seq_NoDup n 0)). destruct (in_dec Nat.eq_dec t (seq 0 n)) as [_|F]; [exact G|]. exfalso. apply F, in_seq. lia.
Qed.
Lemma step_weight t s s' : tstep t s s' -> exists x, threads s' = set_thread s t x /\ weight (threads s t) = S (weight x).
Proof.
  intros H. destruct H as [d p r E F|d p done w rest r E|d p done r E]; eexists; (split; [reflexivity|]); rewrite E; unfold weight; cbn [t_phase t_todo].
  - unfold costs, cost. cbn [map list_sum fold_right snd fst plus]. unfold list_sum. lia.
  - cbn. lia.
  - cbn. lia.
Qed.
Lemma step_busy t (s s' : system W) : tstep t s s' -> threads s t <> {| t_phase := Idle; t_todo := [] |}.
Proof. intros [d p r E _|d p done w rest r E|d p done r E]; rewrite E; discriminate. Qed.
Lemma runs_reachable m s : runs prog m s -> reachable prog s.
Proof. induction 1; econstructor; eauto. Qed.
Lemma total_ext n f g : (forall t, f t = g t) -> total n f = total n g.
Proof. intros H. unfold total. f_equal. apply map_ext. intros t. rewrite H. auto. Qed.
Lemma runs_total n m s : (forall t, n <= t -> prog t = []) -> runs prog m s ->
  m + total n (threads s) = total n (threads (start prog)) /\ forall t, n <= t -> threads s t = {| t_phase := Idle; t_todo := [] |}.
Proof.
  intros Hn. induction 1 as [|m s t s' H [IH1 IH2] Hs].
  - split; auto. intros t Ht. cbn. rewrite Hn; auto.
  - assert (Lt : t < n). { destruct (lt_dec t n) as [|G]; auto. exfalso. apply (step_busy t s s' Hs), IH2. lia. }
    destruct (step_weight t s s' Hs) as (x & -> & Hx). split.
    + pose proof (total_update n (threads s) t x Lt) as T. unfold set_thread. lia.
    + intros t' Ht'. unfold set_thread. destruct (Nat.eqb_spec t' t); [lia|]. apply IH2. auto.
Qed.
Lemma runs_bound n m s : (forall t, n <= t -> prog t = []) -> runs prog m s -> m <= list_sum (map (fun t => costs (prog t)) (seq 0 n)).
Proof.
  intros Hn R. destruct (runs_total n m s Hn R) as [H _]. assert (E : total n (threads (start prog)) = list_sum (map (fun t => costs (prog t)) (seq 0 n))) by reflexivity. lia.
Qed.
Lemma stuck_finished n m s : (forall t, n <= t -> prog t = []) -> runs prog m s -> (forall t s', ~ tstep t s s') -> finished s.
Proof.
  intros Hn R Hs t. destruct (threads s t) as [[|d p done rest] [|w todo]] eqn:E; auto; exfalso; (destruct (progress s t (runs_reachable m s R)) as (t' & s' & G); [rewrite E; discriminate|apply (Hs t' s' G)]).
Qed.
End Threads.

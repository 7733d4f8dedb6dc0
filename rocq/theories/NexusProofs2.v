(** Proofs about initialisation, calls and cib::top. *)
From Coq Require Import String Bool Arith List Lia.
From Verif Require Import FlowModel NexusModel NexusSpec NexusProofs.
Import ListNotations.

Section Calls.
Context {A : Type} (item_when : cond -> A -> option A) (nexus : nat -> config A).
Hypothesis compiles : forall n, builders item_when (nexus n) <> None.

Lemma init_fold n l : forall st,
  (forall s, by_type (fold_left (init_service n) l st) s = if existsb (svc_eqb s) l then Some n else by_type st s) /\
  (forall m r, by_name_ret (fold_left (init_service n) l st) m r = if existsb (fun s => has_name m s && (s_ret s =? r))%bool l then Some n else by_name_ret st m r).
Proof.
  induction l as [|x l IH]; intros st; cbn [fold_left existsb]; [split; reflexivity|]. destruct (IH (init_service n st x)) as [H1 H2]. split.
  - intros s. rewrite H1. cbn [by_type init_service]. destruct (svc_eqb s x); cbn [orb]; [|reflexivity]. destruct (existsb _ l); reflexivity.
  - intros m r. rewrite H2. cbn [by_name_ret init_service]. unfold has_name at 2. destruct (s_name x) as [m'|]; cbn [andb orb]; [|reflexivity].
    rewrite (String.eqb_sym m' m), (Nat.eqb_sym (s_ret x) r). destruct (String.eqb m m' && (r =? s_ret x))%bool; cbn [orb]; [|reflexivity]. destruct (existsb _ l); reflexivity.
Qed.
Lemma existsb_perm {X} (f : X -> bool) l l' : (forall x, In x l <-> In x l') -> existsb f l = existsb f l'.
Proof.
  intros H. destruct (existsb f l) eqn:E.
  - symmetry. apply existsb_exists in E as (x & Hx & Hf). apply existsb_exists. exists x. split; auto. apply H, Hx.
  - symmetry. apply not_true_iff_false. intros E'. apply existsb_exists in E' as (x & Hx & Hf). apply H in Hx. assert (existsb f l = true) by (apply existsb_exists; eauto). congruence.
Qed.
Lemma init_spec n st :
  (forall s, by_type (init item_when nexus n st) s = if exportsb nexus n s then Some n else by_type st s) /\
  (forall m r, by_name_ret (init item_when nexus n st) m r = if names_returning nexus m r n then Some n else by_name_ret st m r).
Proof.
  unfold init, exportsb, names_returning. destruct (builders item_when (nexus n)) as [bs|] eqn:E; [|elim (compiles n E)].
  destruct (builders_services item_when _ _ E) as [_ H]. destruct (init_fold n (map fst bs) st) as [H1 H2]. split.
  - intros s. rewrite H1. rewrite (existsb_perm _ _ _ H). reflexivity.
  - intros m r. rewrite H2. rewrite (existsb_perm _ _ _ H). reflexivity.
Qed.
Lemma run_app es es' : forall st, run_events item_when nexus st (es ++ es') =
  (fst (run_events item_when nexus (fst (run_events item_when nexus st es)) es'),
   snd (run_events item_when nexus st es) ++ snd (run_events item_when nexus (fst (run_events item_when nexus st es)) es')).
Proof.
  induction es as [|e es IH]; intros st; cbn [app run_events].
  - cbn [fst snd app]. destruct (run_events item_when nexus st es'). reflexivity.
  - destruct (step item_when nexus st e) as [st1 o]. rewrite IH. destruct (run_events item_when nexus st1 es) as [st2 o2]. cbn [fst snd].
    rewrite app_assoc. reflexivity.
Qed.
Lemma run_state h : forall st,
  (forall s, by_type (fst (run_events item_when nexus st h)) s = match last_init (fun n => exportsb nexus n s) h with Some n => Some n | None => by_type st s end) /\
  (forall m r, by_name_ret (fst (run_events item_when nexus st h)) m r = match last_init (names_returning nexus m r) h with Some n => Some n | None => by_name_ret st m r end).
Proof.
  induction h as [|e h IH]; intros st; cbn [run_events].
  - split; reflexivity.
  - destruct e as [n|s|m r]; cbn [step last_init].
    + destruct (run_events item_when nexus (init item_when nexus n st) h) as [st2 o] eqn:E. cbn [fst]. destruct (IH (init item_when nexus n st)) as [H1 H2]. rewrite E in H1, H2. cbn [fst] in *.
      destruct (init_spec n st) as [I1 I2]. split.
      * intros s. rewrite H1, I1. destruct (last_init _ h); auto. destruct (exportsb nexus n s); reflexivity.
      * intros m r. rewrite H2, I2. destruct (last_init _ h); auto. destruct (names_returning nexus m r n); reflexivity.
    + specialize (IH st). destruct (run_events item_when nexus st h) as [st2 o]. exact IH.
    + specialize (IH st). destruct (run_events item_when nexus st h) as [st2 o]. exact IH.
Qed.
(** The effect of a call after a history. *)
Definition last_effect (h : list event) (e : event) : list effect := snd (step item_when nexus (fst (run_events item_when nexus uninitialized h)) e).
Lemma last_effect_ok h e : snd (run_events item_when nexus uninitialized (h ++ [e])) = snd (run_events item_when nexus uninitialized h) ++ last_effect h e.
Proof.
  rewrite run_app. cbn [snd run_events]. unfold last_effect. destruct (step item_when nexus _ e) as [st o]. cbn [fst snd]. rewrite app_nil_r. reflexivity.
Qed.
Lemma call_type h s : last_effect h (Call s) = [match last_init (fun n => exportsb nexus n s) h with Some n => Ran n s | None => Panic end].
Proof.
  unfold last_effect. cbn [step snd]. destruct (run_state h uninitialized) as [H _]. rewrite H. unfold call_effect. destruct (last_init _ h); reflexivity.
Qed.
Lemma last_init_spec p h n : last_init p h = Some n -> p n = true /\ In (Init n) h.
Proof.
  induction h as [|e h IH]; [discriminate|]. destruct e as [k|s|m r]; cbn [last_init].
  - destruct (last_init p h) as [j|]; [intros [= ->]; destruct IH; auto; split; auto; right; auto|]. destruct (p k) eqn:E; [|discriminate]. intros [= <-]. split; auto. left. auto.
  - intros H. destruct (IH H). split; auto. right. auto.
  - intros H. destruct (IH H). split; auto. right. auto.
Qed.
Lemma call_name h m r : last_effect h (CallName m r) =
  match last_init (names_returning nexus m r) h with
  | None => [Panic]
  | Some n => match by_name (nexus n) m with Some s => [Ran n s] | None => [] end
  end.
Proof. unfold last_effect. cbn [step snd]. destruct (run_state h uninitialized) as [_ H]. rewrite H. destruct (last_init _ h); reflexivity. Qed.
Lemma by_name_found m r n : names_returning nexus m r n = true -> exists s, by_name (nexus n) m = Some s /\ In s (exports (nexus n)) /\ s_name s = Some m.
Proof.
  intros H. apply existsb_exists in H as (s & Hs & Hb). apply andb_prop in Hb as [Hn _]. unfold by_name. destruct (find (has_name m) (exports (nexus n))) as [s'|] eqn:E.
  - apply find_some in E as [E1 E2]. exists s'. split; auto. split; auto. apply has_name_eq, E2.
  - exfalso. pose proof (find_none _ _ E s Hs). congruence.
Qed.
End Calls.

(** ** top *)
Section Top.
Context {A : Type} (item_when : cond -> A -> option A) (early rt_init start main_loop : svc) (project : config A).
Lemma top_loop k : top_events early rt_init start main_loop k PLoop = repeat (Call main_loop) k.
Proof. induction k as [|k IH]; cbn [top_events top_event top_next repeat]; f_equal; auto. Qed.
Lemma top_events_all k : top_events early rt_init start main_loop (4 + k) PInit = [Init 0; Call early; Call rt_init; Call start] ++ repeat (Call main_loop) k.
Proof. cbn [Nat.add top_events top_event top_next app]. rewrite top_loop. reflexivity. Qed.
Lemma top_events_prefix j : forall k p, top_events early rt_init start main_loop j p = firstn j (top_events early rt_init start main_loop (j + k) p).
Proof. induction j as [|j IH]; intros k p; [reflexivity|]. cbn [Nat.add top_events firstn]. f_equal. apply IH. Qed.
End Top.

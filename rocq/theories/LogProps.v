(** Properties of logging: C67-C75. *)
From Coq Require Import String Ascii Bool Arith List Lia.
From Verif Require Import LogModel LogSpec LogProofs LogProofs2 LogProofs3.
Import ListNotations.
Local Open Scope string_scope.
Local Open Scope nat_scope.
Local Open Scope list_scope.

(** ** C67: packets of concurrent log calls arrive whole *)
(** At any moment of any run there is one history of whole writes that agrees with
    the order in every thread, and every sink that is only written inside one
    critical section has exactly the packets of that history, followed by a part
    of the packet that is being written. *)
Theorem C67_whole {W} (prog : nat -> list (write W)) s : reachable prog s ->
  exists h, (forall t, exists later, of_thread t h ++ later = prog t) /\
  forall k ty, guarded prog k ty -> exists part, sinks s k = concat (to_sink k h) ++ part /\
    match locks s ty with
    | None => part = []
    | Some t => exists d rest later, of_thread t h ++ (d, part ++ rest) :: later = prog t \/ part = []
    end.
Proof.
  intros R. destruct (inv_reachable prog s R) as [h I]. exists h. split.
  - intros t. exists (current (threads s t) ++ t_todo (threads s t)). apply I.
  - intros k ty G. eexists. split; [apply (i_sinks _ _ _ I k ty G)|]. destruct (locks s ty) as [t|] eqn:El; auto. apply (i_locks _ _ _ I) in El as (d & p & done & rest & E & _).
    exists d, rest, (t_todo (threads s t)). unfold written. rewrite E. destruct (d_sink d =? k); [left|auto]. rewrite <- (i_parts _ _ _ I t d p done rest E), <- (i_prog _ _ _ I t). unfold current. rewrite E. reflexivity.
Qed.
Print Assumptions C67_whole.
(** When all threads are done, every packet has arrived, in the order of each thread. *)
Theorem C67_complete {W} (prog : nat -> list (write W)) s : reachable prog s -> finished s ->
  exists h, (forall t, of_thread t h = prog t) /\ forall k ty, guarded prog k ty -> sinks s k = concat (to_sink k h).
Proof.
  intros R F. destruct (inv_reachable prog s R) as [h I]. exists h. split.
  - intros t. rewrite <- (i_prog _ _ _ I t), (F t). cbn. rewrite app_nil_r. reflexivity.
  - intros k ty G. rewrite (i_sinks _ _ _ I k ty G). destruct (locks s ty) as [t|] eqn:El; [|apply app_nil_r]. apply (i_locks _ _ _ I) in El as (d & p & done & rest & E & _). rewrite F in E. discriminate.
Qed.
Print Assumptions C67_complete.
(** Log calls neither block for ever nor go on for ever: with finitely many of them
    every run is bounded and one that cannot go on has delivered everything. *)
Theorem C67_ends {W} (prog : nat -> list (write W)) n m s : (forall t, n <= t -> prog t = []) -> runs prog m s ->
  m <= list_sum (map (fun t => list_sum (map (fun w => List.length (snd w) + 2) (prog t))) (seq 0 n)) /\ ((forall t s', ~ tstep t s s') -> finished s).
Proof. intros Hn R. split; [apply (runs_bound prog n m s Hn R)|apply (stuck_finished prog n m s Hn R)]. Qed.
Print Assumptions C67_ends.
(** Every log call reaches every destination. *)
Theorem C67_everywhere {W} dests (msgs : nat -> list (packet W)) s :
  NoDup (map d_sink dests) -> (forall d, In d dests -> d_type d <> None) ->
  reachable (fun t => flat_map (log_writes dests) (msgs t)) s -> finished s ->
  forall d, In d dests -> exists h : list (nat * packet W),
    (forall t, map snd (filter (fun x => fst x =? t) h) = msgs t) /\ sinks s (d_sink d) = concat (map snd h).
Proof.
  intros N T R F d Hd. destruct (C67_complete _ s R F) as (h & Hh & Hk). destruct (d_type d) as [ty|] eqn:Ed; [|destruct (T d Hd Ed)].
  assert (U : forall d', In d' dests -> d_sink d' = d_sink d -> d' = d).
  { clear - N Hd. induction dests as [|x l IH]; [contradiction|]. cbn in N. apply NoDup_cons_iff in N as [N1 N2]. intros d' [->|H'] E; destruct Hd as [->|Hd]; auto.
    - destruct N1. rewrite E. apply in_map. auto.
    - destruct N1. rewrite <- E. apply in_map. auto. }
  exists (map (fun x => (fst x, snd (snd x))) (filter (fun x => d_sink (fst (snd x)) =? d_sink d) h)). split.
  - intros t. transitivity (map snd (filter (fun w => d_sink (fst w) =? d_sink d) (of_thread t h))).
    + clear. unfold of_thread. induction h as [|[t' [d' p]] h IH]; auto. cbn [filter fst snd]. destruct (d_sink d' =? d_sink d) eqn:E1; destruct (t' =? t) eqn:E2; cbn [map filter fst snd]; rewrite ?E1, ?E2; cbn [map filter fst snd]; rewrite ?E1, ?E2; cbn [map fst snd]; rewrite ?IH; auto.
    + rewrite Hh. induction (msgs t) as [|p l IH]; auto. cbn [flat_map]. rewrite filter_app, map_app. change (p :: l) with ([p] ++ l). f_equal; [|exact IH]. clear - N Hd U. unfold log_writes.
      induction dests as [|x l IH]; [contradiction|]. cbn in N. apply NoDup_cons_iff in N as [N1 N2]. cbn [map filter fst]. destruct (Nat.eqb_spec (d_sink x) (d_sink d)) as [E|E].
      * cbn [map snd]. f_equal. assert (G : forall y, In y l -> d_sink y <> d_sink d) by (intros y Hy E'; apply N1; rewrite E, <- E'; apply in_map; auto). clear - G. induction l as [|y l IH]; auto. cbn [map filter fst]. destruct (Nat.eqb_spec (d_sink y) (d_sink d)) as [E'|E']; [destruct (G y); [left|]; auto|]. apply IH. intros z Hz. apply G. right. auto.
      * destruct Hd as [->|Hd]; [congruence|]. apply IH; auto. intros d' H'. apply U. right. auto.
  - rewrite (Hk (d_sink d) ty). { unfold to_sink. rewrite map_map. reflexivity. }
    intros t d' p H' E. apply in_flat_map in H' as (q & _ & H'). apply in_map_iff in H' as (d'' & [= -> ->] & H'). rewrite (U d' H' E). auto.
Qed.
Print Assumptions C67_everywhere.
Definition port (ty : option nat) : dest := {| d_type := ty; d_sink := 0 |}.
Definition two (a b : list (write nat)) (t : nat) : list (write nat) := match t with 0 => a | 1 => b | _ => [] end.
Definition ex_prog := two (log_writes [port (Some 7)] [1; 2] ++ log_writes [port (Some 7)] [3]) (log_writes [port (Some 7)] [4; 5]).
Example C67_case : guarded ex_prog 0 7 /\ exists s, reachable ex_prog s /\ sinks s 0 = [4; 5; 1] /\ locks s 7 = Some 0.
Proof.
  split.
  - intros [|[|t]] d p H _; cbn in H; repeat (destruct H as [[= <- <-]|H]); try contradiction; reflexivity.
  - destruct (exec_all_ok ex_prog [1; 1; 1; 1; 0; 0] (fun s => (sinks s 0, locks s 7)) ([4; 5; 1], Some 0)) as (s & R & [= E1 E2] & _); [vm_compute; reflexivity|]. eauto.
Qed.

Example C67_dests : forall d, In d [port (Some 7); {| d_type := Some 7; d_sink := 1 |}] -> exists s, reachable (two (flat_map (log_writes [port (Some 7); {| d_type := Some 7; d_sink := 1 |}]) [[1]; [2; 3]]) []) s /\ finished s /\ sinks s (d_sink d) = [1; 2; 3].
Proof.
  intros d Hd. destruct (exec_all_ok (two (flat_map (log_writes [port (Some 7); {| d_type := Some 7; d_sink := 1 |}]) [[1]; [2; 3]]) []) (repeat 0 14) (fun s => (sinks s 0, sinks s 1, threads s 0)) ([1; 2; 3], [1; 2; 3], {| t_phase := Idle; t_todo := [] |})) as (s & R & [= E1 E2 E3] & Ht); [vm_compute; reflexivity|].
  exists s. split; auto. split; [intros [|t]; auto; rewrite Ht; [destruct t; reflexivity|]; cbn; intuition discriminate|]. destruct Hd as [<-|[<-|[]]]; auto.
Qed.

(** ** C68: packets arrive whole whatever writes them *)
Definition mixed_prog ty ty' := two (log_writes [port ty] [1; 1]) (log_writes [port ty'] [2; 2]).
Lemma mixed : (exists s, reachable (mixed_prog None None) s /\ sinks s 0 = [1; 2; 1; 2] /\ finished s) /\
  exists s, reachable (mixed_prog (Some 0) (Some 1)) s /\ sinks s 0 = [1; 2; 1; 2] /\ finished s.
Proof.
  assert (G : forall ty ty', option_map (fun s => (sinks s 0, threads s 0, threads s 1)) (exec_all [0; 1; 0; 1; 0; 1; 0; 1] (start (mixed_prog ty ty'))) =
    Some ([1; 2; 1; 2], {| t_phase := Idle; t_todo := [] |}, {| t_phase := Idle; t_todo := [] |}) -> exists s, reachable (mixed_prog ty ty') s /\ sinks s 0 = [1; 2; 1; 2] /\ finished s).
  { intros ty ty' H. destruct (exec_all_ok _ _ _ _ H) as (s & R & [= E1 E2 E3] & Ht). exists s. split; auto. split; auto. intros [|[|t]]; auto. apply Ht. cbn. lia. }
  split; apply G; vm_compute; reflexivity.
Qed.
(** A writer taken from the environment is called outside any critical section, and
    destinations of different types do not exclude one another. *)
Theorem C68_refuted : exists (prog : nat -> list (write nat)) s k, reachable prog s /\ finished s /\ (forall t w, In w (prog t) -> d_type (fst w) = None) /\
  forall h, (forall t, of_thread t h = prog t) -> sinks s k <> concat (to_sink k h).
Proof.
  destruct (proj1 mixed) as (s & R & E & F). exists (mixed_prog None None), s, 0. split; auto. split; auto. split.
  - intros [|[|t]] w H; cbn in H; [destruct H as [<-|[]]; reflexivity|destruct H as [<-|[]]; reflexivity|contradiction].
  - rewrite E. intros h H G. pose proof (H 0) as H0. pose proof (H 1) as H1. assert (L : forall x, In x h -> snd x = (port None, [1; 1]) \/ snd x = (port None, [2; 2])).
    { intros [t w] Hx. assert (Hw : In w (of_thread t h)). { unfold of_thread. apply in_map_iff. exists (t, w). split; auto. apply filter_In. split; auto. apply Nat.eqb_refl. }
      rewrite H in Hw. destruct t as [|[|t]]; cbn in Hw |- *; intuition. }
    destruct h as [|[t w] h]; [discriminate|]. destruct (L (t, w)) as [Hw|Hw]; [left; auto| |]; cbn in Hw; subst w; discriminate.
Qed.
Print Assumptions C68_refuted.
Theorem C68_types_refuted : exists (prog : nat -> list (write nat)) s, reachable prog s /\ finished s /\ (forall t w, In w (prog t) -> d_type (fst w) <> None) /\ sinks s 0 = [1; 2; 1; 2] /\
  prog 0 = [(port (Some 0), [1; 1])] /\ prog 1 = [(port (Some 1), [2; 2])].
Proof.
  destruct (proj2 mixed) as (s & R & E & F). exists (mixed_prog (Some 0) (Some 1)), s. split; auto. split; auto. split; auto.
  intros [|[|t]] w H; cbn in H; [destruct H as [<-|[]]; discriminate|destruct H as [<-|[]]; discriminate|contradiction].
Qed.
Print Assumptions C68_types_refuted.
(** From one thread everything arrives whole, whatever the writers. *)
Theorem C68_partial {W} (prog : nat -> list (write W)) s : (forall t, 0 < t -> prog t = []) -> reachable prog s -> finished s ->
  forall k, sinks s k = concat (map snd (filter (fun w => d_sink (fst w) =? k) (prog 0))).
Proof.
  intros H1 R F.
  assert (I : (forall t, 0 < t -> threads s t = {| t_phase := Idle; t_todo := [] |}) /\ exists done, done ++ current (threads s 0) ++ t_todo (threads s 0) = prog 0 /\
    (forall d p dn rs, t_phase (threads s 0) = Writing d p dn rs -> p = dn ++ rs) /\
    forall k, sinks s k = concat (map snd (filter (fun w => d_sink (fst w) =? k) done)) ++ written (threads s 0) k).
  { clear F. induction R as [|s t s' R [IH1 (done & IH2 & IH3 & IH4)] Hs].
    - split; [intros t Ht; cbn; rewrite H1; auto|]. exists []. split; auto. split; [discriminate|]. reflexivity.
    - assert (t = 0) as ->. { destruct t as [|t]; auto. exfalso. apply (step_busy (S t) s s' Hs), IH1. lia. }
      assert (Fr : forall x t, 0 < t -> set_thread s 0 x t = {| t_phase := Idle; t_todo := [] |}). { intros x t Ht. unfold set_thread. destruct (Nat.eqb_spec t 0); [lia|auto]. }
      destruct Hs as [d p r E Fd|d p dn w rest r E|d p dn r E]; cbn [threads sinks]; (split; [apply Fr|]); unfold set_thread; cbn [Nat.eqb]; rewrite E in *.
      + exists done. split; auto. split; [cbn; intros ? ? ? ? [= -> -> <- <-]; auto|]. intros k. rewrite IH4. f_equal. unfold written. cbn. destruct (d_sink d =? k); auto.
      + exists done. split; auto. split; [cbn; intros ? ? ? ? [= -> -> <- <-]; rewrite <- app_assoc; apply (IH3 _ _ _ _ eq_refl)|]. intros k. rewrite IH4. unfold written. cbn. rewrite (Nat.eqb_sym k). destruct (d_sink d =? k); auto. rewrite app_assoc. auto.
      + specialize (IH3 _ _ _ _ eq_refl). rewrite app_nil_r in IH3. subst dn. exists (done ++ [(d, p)]). split; [rewrite <- IH2, <- app_assoc; reflexivity|]. split; [discriminate|]. intros k. rewrite IH4. unfold written. cbn.
        rewrite filter_app, map_app, concat_app. cbn. destruct (d_sink d =? k); cbn; rewrite ?app_nil_r; reflexivity. }
  destruct I as (_ & done & I1 & _ & I2). rewrite F in I1. cbn in I1. rewrite app_nil_r in I1. subst. intros k. rewrite I2, F. unfold written. cbn. apply app_nil_r.
Qed.
Print Assumptions C68_partial.
(** More generally a sink gets its packets whole if one thread alone writes to it, whatever the writers
    and whatever else the other threads write to. *)
Theorem C68_when {W} (prog : nat -> list (write W)) t0 k s : (forall t d p, In (d, p) (prog t) -> d_sink d = k -> t = t0) -> reachable prog s -> finished s ->
  sinks s k = concat (map snd (filter (fun w => d_sink (fst w) =? k) (prog t0))).
Proof.
  intros H R F. destruct (single_sink prog t0 k s H R) as (done & I1 & _ & I2). rewrite F in I1, I2. cbn in I1. rewrite app_nil_r in I1. subst done. rewrite I2. unfold written. cbn. apply app_nil_r.
Qed.
Print Assumptions C68_when.
Lemma in_history {W} (prog : nat -> list (write W)) h : (forall t, of_thread t h = prog t) -> forall t w, In w (prog t) <-> In (t, w) h.
Proof.
  intros H t w. rewrite <- H. unfold of_thread. rewrite in_map_iff. split.
  - intros ([t' w'] & E & I). cbn in E. subst w'. apply filter_In in I as [I B]. apply Nat.eqb_eq in B. cbn in B. subst t'. exact I.
  - intros I. exists (t, w). split; [reflexivity|]. apply filter_In. split; [exact I|apply Nat.eqb_refl].
Qed.
(** Exactly which programs keep a sink's packets whole, with finitely many threads, packets of two words or
    more and words that show who wrote them: those in which any two writes to it from different threads are
    in one critical section. *)
Theorem C68_exact {W} (prog : nat -> list (write W)) (label : W -> nat) n k : (forall t, n <= t -> prog t = []) ->
  (forall t d p, In (d, p) (prog t) -> d_sink d = k -> 2 <= length p /\ forall w, In w p -> label w = t) ->
  ((forall s, reachable prog s -> finished s -> exists h, (forall t, of_thread t h = prog t) /\ sinks s k = concat (to_sink k h)) <->
   (forall t t' d d' p p', t <> t' -> In (d, p) (prog t) -> In (d', p') (prog t') -> d_sink d = k -> d_sink d' = k -> exists ty, d_type d = Some ty /\ d_type d' = Some ty)).
Proof.
  intros Hn Hp. split.
  - intros Wh t t' d d' p p' N I I' K K'. destruct (Hp t d p I K) as [Lp Ap]. destruct (Hp t' d' p' I' K') as [Lp' Ap'].
    assert (D : apart d d' \/ exists ty, d_type d = Some ty /\ d_type d' = Some ty).
    { unfold apart. destruct (d_type d) as [a|], (d_type d') as [b|]; auto. destruct (Nat.eq_dec a b) as [<-|]; eauto. }
    destruct D as [A|D]; [exfalso|exact D]. destruct p as [|w1 [|w2 p]]; cbn in Lp; try lia. destruct p' as [|v q]; cbn in Lp'; try lia.
    apply in_split in I as (a1 & a2 & P). apply in_split in I' as (b1 & b2 & P').
    destruct (mix_two prog t t' k a1 a2 b1 b2 d d' w1 w2 p v q N P P' K K' A) as (s & R & E). destruct (finish prog n Hn s R) as (s' & R' & F' & X). destruct (X k) as [x Hx].
    destruct (Wh s' R' F') as (h & Hh & C). rewrite Hx, E in C. rewrite <- !app_assoc in C. cbn [app] in C.
    set (pre := concat (packets_to k a1) ++ concat (packets_to k b1)) in *. rewrite app_assoc in C. fold pre in C.
    assert (Q : forall q0, In q0 (to_sink k h) -> 2 <= length q0 /\ exists t0, forall w, In w q0 -> label w = t0).
    { intros q0 Hq. unfold to_sink in Hq. apply in_map_iff in Hq as ([t0 [d0 p0]] & Eq & Hq). cbn in Eq. subst p0. apply filter_In in Hq as [Hq B]. apply Nat.eqb_eq in B. cbn in B.
      apply (in_history prog h Hh) in Hq. destruct (Hp t0 d0 q0 Hq B) as [L1 L2]. split; [exact L1|]. exists t0. exact L2. }
    assert (L1 : label w1 = t) by (apply Ap; left; reflexivity). assert (L2 : label w2 = t) by (apply Ap; right; left; reflexivity). assert (L3 : label v = t') by (apply Ap'; left; reflexivity).
    assert (Z : forall l pre x, (forall q0, In q0 l -> 2 <= length q0 /\ exists t0, forall w, In w q0 -> label w = t0) -> pre ++ w1 :: v :: w2 :: x <> concat l).
    { clear - N L1 L2 L3. induction l as [|q0 l IH]; intros pre x Q C; [destruct pre; discriminate|]. cbn [concat] in C. destruct (Q q0 (or_introl eq_refl)) as [Lq [t0 Aq]].
      (* where the packet q0 ends *)
      assert (S : (exists z, pre = q0 ++ z) \/ (exists z y, z <> [] /\ q0 = pre ++ z /\ w1 :: v :: w2 :: x = z ++ y /\ y = concat l)).
      { clear - C. revert pre C. induction q0 as [|c q0 IHq]; intros pre C; [left; exists pre; reflexivity|]. destruct pre as [|c' pre].
        - right. exists (c :: q0), (concat l). split; [discriminate|]. auto.
        - cbn [app] in C. injection C as <- C. destruct (IHq pre C) as [(z & ->)|(z & y & Z1 & -> & Z2 & Z3)]; [left; exists z; reflexivity|right; exists z, y; auto]. }
      destruct S as [(z & ->)|(z & y & Z1 & -> & Z2 & Z3)].
      - rewrite <- app_assoc in C. apply app_inv_head in C. apply (IH z x); auto. intros q1 H1. apply Q. right. exact H1.
      - assert (In1 : forall w, In w z -> label w = t0) by (intros w Hw; apply Aq, in_or_app; right; exact Hw).
        destruct z as [|c1 z]; [congruence|]. injection Z2 as <- Z2. rewrite (In1 w1 (or_introl eq_refl)) in L1. subst t0.
        destruct z as [|c2 z].
        + (* v starts a packet *) cbn in Z2. subst y. destruct l as [|q1 l]; [discriminate|]. cbn [concat] in Z3. destruct (Q q1 (or_intror (or_introl eq_refl))) as [Lq1 [t1 Aq1]].
          destruct q1 as [|c1 [|c2 q1]]; cbn in Lq1; try lia. cbn [app] in Z3. injection Z3 as <- <- _. rewrite (Aq1 v (or_introl eq_refl)) in L3. rewrite (Aq1 w2 (or_intror (or_introl eq_refl))) in L2. congruence.
        + injection Z2 as <- _. rewrite (In1 v (or_intror (or_introl eq_refl))) in L3. congruence. }
    exact (Z (to_sink k h) pre x Q C).
  - intros G s R F. destruct (C67_complete prog s R F) as (h & Hh & Hk). exists h. split; [exact Hh|]. pose proof (in_history prog h Hh) as Ih.
    destruct (filter (fun x => d_sink (fst (snd x)) =? k) h) as [|[t0 [d0 p0]] r] eqn:E.
    + apply (Hk k 0). intros t d p I K. apply Ih in I. assert (X : In (t, (d, p)) (filter (fun x => d_sink (fst (snd x)) =? k) h)) by (apply filter_In; split; [exact I|apply Nat.eqb_eq, K]). rewrite E in X. destruct X.
    + assert (I0 : In (t0, (d0, p0)) h /\ d_sink d0 = k). { assert (X : In (t0, (d0, p0)) (filter (fun x => d_sink (fst (snd x)) =? k) h)) by (rewrite E; left; reflexivity). apply filter_In in X as [X B]. apply Nat.eqb_eq in B. auto. }
      destruct I0 as [I0 K0]. apply Ih in I0.
      destruct (existsb (fun x => negb (fst x =? t0)) r) eqn:X.
      * apply existsb_exists in X as ([t1 [d1 p1]] & I1 & B). cbn in B. apply negb_true_iff, Nat.eqb_neq in B.
        assert (J1 : In (t1, (d1, p1)) (filter (fun x => d_sink (fst (snd x)) =? k) h)) by (rewrite E; right; exact I1). apply filter_In in J1 as [J1 K1]. apply Nat.eqb_eq in K1. cbn in K1. apply Ih in J1.
        destruct (G t0 t1 d0 d1 p0 p1 ltac:(congruence) I0 J1 K0 K1) as (ty & T0 & T1). apply (Hk k ty). intros t d p I K.
        destruct (Nat.eq_dec t t0) as [->|Nt].
        -- destruct (G t0 t1 d d1 p p1 ltac:(congruence) I J1 K K1) as (ty' & D1 & D2). congruence.
        -- destruct (G t t0 d d0 p p0 Nt I I0 K K0) as (ty' & D1 & D2). congruence.
      * assert (Al : forall t d p, In (d, p) (prog t) -> d_sink d = k -> t = t0).
        { intros t d p I K. apply Ih in I. assert (J : In (t, (d, p)) (filter (fun x => d_sink (fst (snd x)) =? k) h)) by (apply filter_In; split; [exact I|apply Nat.eqb_eq, K]). rewrite E in J. destruct J as [[= <- _ _]|J]; [reflexivity|].
          destruct (Nat.eq_dec t t0); auto. exfalso. assert (Y : existsb (fun x => negb (fst x =? t0)) r = true); [|congruence]. apply existsb_exists. exists (t, (d, p)). split; [exact J|]. cbn. apply negb_true_iff, Nat.eqb_neq. assumption. }
        rewrite (C68_when prog t0 k s Al R F), <- Hh. unfold to_sink, of_thread. f_equal.
        assert (All : forall x, In x h -> d_sink (fst (snd x)) = k -> fst x = t0) by (intros [t [d p]] I K; apply (Al t d p); [apply Ih, I|exact K]). clear - All.
        induction h as [|[t [d p]] h IH]; [reflexivity|]. assert (All' : forall x, In x h -> d_sink (fst (snd x)) = k -> fst x = t0) by (intros x I; apply All; right; exact I). specialize (IH All'). cbn [filter fst snd].
        destruct (Nat.eqb_spec (d_sink d) k) as [K|K].
        -- rewrite (All (t, (d, p)) (or_introl eq_refl) K : t = t0), Nat.eqb_refl. cbn [map filter fst snd]. apply Nat.eqb_eq in K. rewrite K. cbn [map snd]. f_equal. exact IH.
        -- destruct (t =? t0); cbn [map filter fst snd]; [|exact IH]. apply Nat.eqb_neq in K. rewrite K. exact IH.
Qed.
Print Assumptions C68_exact.
(** Two threads that share a device in one critical section, and one that has a device of its own. *)
Definition shared_prog (ty : option nat) (t : nat) : list (write (nat * nat)) :=
  match t with 0 => [(port (Some 7), [(0, 1); (0, 2)])] | 1 => [(port ty, [(1, 5); (1, 6)])] | 2 => [({| d_type := None; d_sink := 1 |}, [(2, 8)])] | _ => [] end.
Example C68_exact_case : (forall t, 3 <= t -> shared_prog (Some 7) t = []) /\
  (forall ty t d p, In (d, p) (shared_prog ty t) -> d_sink d = 0 -> 2 <= length p /\ forall w, In w p -> fst w = t) /\
  (forall t t' d d' p p', t <> t' -> In (d, p) (shared_prog (Some 7) t) -> In (d', p') (shared_prog (Some 7) t') -> d_sink d = 0 -> d_sink d' = 0 -> exists ty, d_type d = Some ty /\ d_type d' = Some ty) /\
  ~ (forall t t' d d' p p', t <> t' -> In (d, p) (shared_prog None t) -> In (d', p') (shared_prog None t') -> d_sink d = 0 -> d_sink d' = 0 -> exists ty, d_type d = Some ty /\ d_type d' = Some ty).
Proof.
  split; [intros [|[|[|t]]] H; try lia; reflexivity|]. split; [|split].
  - intros ty [|[|[|t]]] d p I K; cbn in I; try contradiction; destruct I as [[= <- <-]|[]]; cbn in K |- *; try discriminate; (split; [lia|]; intros w [<-|[<-|[]]]; reflexivity).
  - intros t t' d d' p p' _ I I' K K'. exists 7. destruct t as [|[|[|t]]]; cbn in I; try contradiction; destruct I as [[= <- <-]|[]]; cbn in K; try discriminate; (split; [reflexivity|]);
      destruct t' as [|[|[|t']]]; cbn in I'; try contradiction; destruct I' as [[= <- <-]|[]]; cbn in K'; try discriminate; reflexivity.
  - intros H. destruct (H 0 1 (port (Some 7)) (port None) [(0, 1); (0, 2)] [(1, 5); (1, 6)] ltac:(discriminate) (or_introl eq_refl) (or_introl eq_refl) eq_refl eq_refl) as (ty & _ & D). discriminate.
Qed.

(** ** C69: destinations keep their state *)
(** Every packet is handed to a copy of the destinations as they were configured. *)
Theorem C69_exact {D P O} (op : D -> P -> D * O) ds ps : log_packets op ds ps = (ds, map (fun p => map (fun d => snd (op d p)) ds) ps).
Proof. apply log_packets_eq. Qed.
Print Assumptions C69_exact.
Theorem C69_partial {D P O} (op : D -> P -> D * O) d ps : (forall p, fst (op d p) = d) -> snd (log_packets op [d] ps) = map (fun o => [o]) (kept op d ps).
Proof.
  intros H. rewrite log_packets_eq. cbn [snd]. induction ps as [|p ps IH]; auto. cbn [map kept]. rewrite H. f_equal. exact IH.
Qed.
Print Assumptions C69_partial.
Example C69_case : snd (log_packets (fun (d p : nat) => (d, d + p)) [10] [1; 2; 3]) = [[11]; [12]; [13]]. Proof. reflexivity. Qed.
(** A destination that numbers its packets gives all of them the same number. *)
Theorem C69_refuted : exists (op : nat -> nat -> nat * (nat * nat)) ps, snd (log_packets op [0] ps) <> map (fun o => [o]) (kept op 0 ps) /\ kept op 0 ps = [(0, 5); (1, 6)] /\ snd (log_packets op [0] ps) = [[(0, 5)]; [(0, 6)]].
Proof. exists (fun d p => (S d, (d, p))), [5; 6]. split; [discriminate|]. split; reflexivity. Qed.
Print Assumptions C69_refuted.

(** ** C70: the text logger writes one line per call to each destination *)
(** To a stream that is a destination once, whatever the others are. *)
Theorem C70_partial outs s cs w : (exists pre post, outs = pre ++ Inserter s :: post /\ ~ In (Inserter s) (pre ++ post)) ->
  streams (fmt_logs outs cs w) s = (streams w s ++ text (map line cs))%string.
Proof.
  intros (pre & post & -> & H). rewrite fmt_logs_stream. f_equal. assert (E : filter (inserts s) (pre ++ Inserter s :: post) = [Inserter s]).
  { assert (G : forall l, ~ In (Inserter s) l -> filter (inserts s) l = []). { induction l as [|o l IH]; auto. intros Hl. cbn [filter]. destruct o as [s'|b p]; cbn [inserts].
      - destruct (Nat.eqb_spec s' s) as [->|]; [exfalso; apply Hl; left; auto|]. apply IH. intros G. apply Hl. right. auto.
      - apply IH. intros G. apply Hl. right. auto. }
    rewrite filter_app. cbn [filter inserts]. rewrite Nat.eqb_refl, !G; auto; intros F; apply H, in_or_app; auto. }
  rewrite E. reflexivity.
Qed.
Print Assumptions C70_partial.
(** The lines can be told apart when messages, levels and modules have no newline. *)
Theorem C70_lines (cs : list (nat * string * string * string)) :
  (forall t l m x, In (t, l, m, x) cs -> ~ has_char newline l /\ ~ has_char newline m /\ ~ has_char newline x) ->
  cut "" (text (map (fun c => let '(t, l, m, x) := c in line (prefix t l m, x)) cs)) = map (fun c => let '(t, l, m, x) := c in (prefix t l m ++ x)%string) cs.
Proof.
  intros H. pose proof (cut_lines (map (fun c => let '(t, l, m, x) := c in (prefix t l m, x)) cs)) as E. rewrite !map_map in E.
  replace (map (fun c => let '(t, l, m, x) := c in line (prefix t l m, x)) cs) with (map (fun x => line (let '(t, l, m, x0) := x in (prefix t l m, x0))) cs) by (apply map_ext; intros [[[? ?] ?] ?]; reflexivity).
  rewrite E; [apply map_ext; intros [[[? ?] ?] ?]; reflexivity|]. intros c Hc. apply in_map_iff in Hc as ([[[t l] m] x] & <- & Hc). cbn [fst snd]. destruct (H t l m x Hc) as (H1 & H2 & H3). split; auto. apply prefix_no_newline; auto.
Qed.
Print Assumptions C70_lines.
(** The time at the start of a line is the time of the call. *)
Theorem C70_time t : number 0 (decimal t) = t.
Proof. apply decimal_number. lia. Qed.
Print Assumptions C70_time.
(** The layout of a line: the time right-aligned, the level and the module. *)
Theorem C70_layout t l m x : exists pad ds, (prefix t l m ++ x)%string = (pad ++ ds ++ "us " ++ l ++ " [" ++ m ++ "]: " ++ x)%string /\
  only (fun a => a = " "%char) pad /\ only (fun a => 48 <= nat_of_ascii a <= 57) ds /\ number 0 ds = t /\ String.length (pad ++ ds) = Nat.max 8 (String.length ds).
Proof.
  exists (spaces (8 - String.length (decimal t))), (decimal t). split; [unfold prefix; rewrite !append_assoc; reflexivity|]. split; [apply spaces_only|]. split; [apply decimal_digits; exact I|]. split; [apply C70_time|].
  rewrite length_append. destruct (spaces_only (8 - String.length (decimal t))) as [_ ->]. lia.
Qed.
Print Assumptions C70_layout.
(** The name of a level. *)
Theorem C70_level l : nth_error level_text (level_number l) = Some (level_name l).
Proof. destruct l; reflexivity. Qed.
Print Assumptions C70_level.
Example C70_case : streams (fmt_logs [Inserter 3; Place 0 0; Inserter 4] [(prefix 17 "TRACE" "default", "Hello"); (prefix 1234 "INFO" "m", "{}")] {| streams := fun _ => "x"; buffers := fun _ _ => None |}) 4 =
  ("x      17us TRACE [default]: Hello" ++ String newline "    1234us INFO [m]: {}" ++ String newline "")%string.
Proof. vm_compute. reflexivity. Qed.
Example C70_levels : Forall (fun l => ~ has_char newline l) level_text.
Proof. repeat constructor; vm_compute; intuition discriminate. Qed.
(** Through an iterator that carries its own position, each part overwrites the one
    before, and the newline comes first. *)
Theorem C70_refuted : exists p m, let w := fmt_logs [Place 0 0] [(p, m)] {| streams := fun _ => ""; buffers := fun _ _ => None |} in
  buffers w 0 0 = Some newline /\ map (buffers w 0) (seq 0 6) <> map (fun a => Some a) (list_ascii_of_string (line (p, m))) /\ String.length (line (p, m)) = 6.
Proof. exists "ab:", "hi". cbn zeta. split; [vm_compute; reflexivity|]. split; [vm_compute; discriminate|reflexivity]. Qed.
Print Assumptions C70_refuted.

(** ** C71: the innermost setting wins *)
Theorem C71_settings src cs : source_calls src = Some cs ->
  Forall2 (fun c p => fst c = fst p /\ forall k, (forall v, query (snd c) k = Some v <-> setting (snd p) k v) /\ (query (snd c) k = None <-> unset (snd p) k)) cs (body_scopes scopes [] src).
Proof.
  intros H. apply calls_scopes in H. subst. induction (body_scopes scopes [] src) as [|[id ds] l IH]; constructor; auto. split; auto. intros k. split; [intros v; apply query_setting|apply query_unset].
Qed.
Print Assumptions C71_settings.
(** The module and the unit of a call are those set last, or the defaults. *)
Theorem C71_defaults src cs : source_calls src = Some cs ->
  Forall2 (fun c p => (forall v, setting (snd p) k_module v -> module_of (snd c) = v) /\ (unset (snd p) k_module -> module_of (snd c) = 0) /\
    (forall v, setting (snd p) k_unit v -> unit_of (snd c) = v) /\ (unset (snd p) k_unit -> unit_of (snd c) = 0)) cs (body_scopes scopes [] src).
Proof.
  intros H. apply C71_settings in H. induction H as [|c p cs ps [_ H] _ IH]; constructor; auto. unfold module_of, unit_of.
  split; [intros v Hv; apply H in Hv; rewrite Hv; auto|]. split; [intros Hv; apply H in Hv; rewrite Hv; auto|]. split; [intros v Hv; apply H in Hv; rewrite Hv; auto|]. intros Hv; apply H in Hv; rewrite Hv; auto.
Qed.
Print Assumptions C71_defaults.
(** What is accepted: each scope declares once at most, the body of a
    CIB_WITH_LOG_ENV not at all, nor the global scope. *)
Theorem C71_accepts src : source_calls src <> None <-> Forall scoped src /\ decls src = 0.
Proof. apply source_scoped. Qed.
Print Assumptions C71_accepts.
Definition ex_source := [LogCall 1 [(k_level, 7)]; Block [LogCall 2 []; Decl [(k_module, 5); (k_level, 4)]; With [(k_module, 6)] [LogCall 3 []; Block [Decl [(k_unit, 9)]; LogCall 4 [(k_level, 2)]]]; LogCall 5 []]].
Example C71_case : option_map (map (fun c => (fst c, query (snd c) k_level, query (snd c) k_module, query (snd c) k_unit))) (source_calls ex_source) =
  Some [(1, Some 7, None, None); (2, None, None, None); (3, Some 4, Some 6, None); (4, Some 2, Some 6, Some 9); (5, Some 4, Some 5, None)].
Proof. vm_compute. reflexivity. Qed.
(** A declaration directly in the body of CIB_WITH_LOG_ENV is rejected, although
    the same in a block is not. *)
Theorem C71_refuted kvs kvs' : source_calls [Block [Block [Decl kvs; Block [Decl kvs']]]] <> None /\ source_calls [Block [Block [Decl kvs; Decl kvs']]] = None /\ source_calls [Block [With kvs [Decl kvs']]] = None.
Proof. repeat split; discriminate || reflexivity. Qed.
Print Assumptions C71_refuted.

(** ** C72: fatal errors and assertions *)
Section C72.
Context (config : option value -> option nat) {arg val : Type} (F : string -> list arg -> string * list val).
(** One log call at level FATAL in the environment of the call, then a panic with the
    same text and values, and the arguments the text has no place for. *)
Theorem C72_fatal e fmt args : specifiers fmt <= List.length args ->
  exists m rest e', cib_fatal config F e fmt args = Some (log config e' m ++ [Panicked m rest]) /\
    m = F fmt (firstn (specifiers fmt) args) /\ firstn (specifiers fmt) args ++ rest = args /\
    query e' k_level = Some fatal /\ forall k, k <> k_level -> query e' k = query e k.
Proof.
  intros H. unfold cib_fatal, panic. apply Nat.leb_le in H. rewrite H. eexists _, _, _. split; [reflexivity|]. split; auto. split; [apply firstn_skipn|]. split; auto.
  intros k Hk. unfold extend. rewrite query_app. unfold query at 1. cbn [find fst snd option_map]. destruct (Nat.eqb_spec k_level k); [congruence|]. reflexivity.
Qed.
(** How many places a text has. *)
Theorem C72_places l : Forall piece_ok l -> specifiers (text (map render l)) = List.length (filter is_field l).
Proof. apply specifiers_pieces. Qed.
Theorem C72_few e fmt args : List.length args < specifiers fmt -> cib_fatal config F e fmt args = None.
Proof. intros H. unfold cib_fatal, panic. apply Nat.leb_gt in H. rewrite H. reflexivity. Qed.
(** An assertion without braces in its text does nothing when it holds, and otherwise
    what CIB_FATAL does with its text and all the arguments to the panic. *)
Theorem C72_assert_partial e text holds args : ~ has_char "{" text ->
  cib_assert config F e text holds args = Some (if holds then [] else
    log config (extend e [(k_level, fatal)]) (F ("Assertion failure: " ++ text)%string []) ++ [Panicked (F ("Assertion failure: " ++ text)%string []) args]).
Proof.
  intros H. unfold cib_assert, cib_fatal, panic. rewrite specifiers_none by (rewrite has_char_app; cbn; intuition discriminate). reflexivity.
Qed.
End C72.
Print Assumptions C72_fatal.
Print Assumptions C72_places.
Print Assumptions C72_few.
Print Assumptions C72_assert_partial.
(** The text of the expression is used as a format string: an expression with {} is
    rejected, or takes an argument meant for the panic. *)
Theorem C72_refuted : (forall config (arg val : Type) (F : string -> list arg -> string * list val) e holds, cib_assert config F e "x == T{}" holds [] = None) /\
  exists (F : string -> list nat -> string * list nat) a, cib_assert (fun _ => Some 0) F [] "x == T{}" false [a] = Some [Logged 0 [(k_level, fatal)] (F "Assertion failure: x == T{}" [a]); Panicked (F "Assertion failure: x == T{}" [a]) []].
Proof. split; [reflexivity|]. exists (fun s l => (s, l)), 5. reflexivity. Qed.
Print Assumptions C72_refuted.
Example C72_pieces : text (map render [Txt "a "; Field ""; Txt " "; Doubled; Txt "b}} "; Field ":d"]) = "a {} {{b}} {:d}". Proof. reflexivity. Qed.
Example C72_case : cib_fatal (fun _ => Some 0) (fun s (l : list nat) => (s, l)) [(k_module, 3)] "a {} {{b}} {:d}" [1; 2; 3] =
  Some [Logged 0 [(k_level, 1); (k_module, 3)] ("a {} {{b}} {:d}", [1; 2]); Panicked ("a {} {{b}} {:d}", [1; 2]) [3]].
Proof. reflexivity. Qed.

(** ** C73: the version is logged in the environment of the call *)
Section C73.
Context (config : option value -> option nat) {arg val : Type}.
Definition effect_env (x : @effect arg val) : option env := match x with Logged _ e _ | VersionLogged _ e => Some e | Panicked _ _ => None end.
Definition effect_logger (x : @effect arg val) : option nat := match x with Logged g _ _ | VersionLogged g _ => Some g | Panicked _ _ => None end.
(** The logger of the flavor asked for gets it, once. *)
Theorem C73_logger has_version version e f : map effect_logger (@cib_log_v config arg val has_version version e f) =
  match (if f =? default_flavor then config None else config (Some f)) with Some g => [Some g] | None => [] end.
Proof.
  unfold cib_log_v, log_version, get_config, flavor, extend. cbn [app]. unfold query. cbn [find fst snd option_map k_flavor Nat.eqb]. destruct (if f =? default_flavor then config None else config (Some f)) as [g|]; auto. destruct (has_version g); reflexivity.
Qed.
Theorem C73_partial has_version version e f x : (forall g, has_version g = true) -> In x (@cib_log_v config arg val has_version version e f) ->
  effect_env x = Some (extend e [(k_flavor, f)]).
Proof.
  intros H. unfold cib_log_v, log_version. destruct (get_config config _) as [g|]; [|contradiction]. rewrite H. intros [<-|[]]. reflexivity.
Qed.
End C73.
Print Assumptions C73_logger.
Print Assumptions C73_partial.
(** A logger without log_version gets a text without the module of the call. *)
Theorem C73_refuted : exists (e : env) x, @cib_log_v (fun _ => Some 0) nat nat (fun _ => false) ("v", []) e default_flavor = [x] /\ module_of e = 5 /\ exists e', effect_env x = Some e' /\ module_of e' = 0.
Proof. exists [(k_module, 5)]. eexists. split; [reflexivity|]. split; [reflexivity|]. eexists. split; reflexivity. Qed.
Print Assumptions C73_refuted.
Example C73_case : @cib_log_v (fun f => match f with Some 8 => Some 1 | _ => Some 0 end) nat nat (fun g => g =? 1) ("v", []) [(k_module, 5)] 8 = [VersionLogged 1 [(k_flavor, 8); (k_module, 5)]]. Proof. reflexivity. Qed.

(** ** C74: a log call goes to the logger of its flavor and no other *)
Theorem C74_flavor config {arg val} e m : @log config arg val e m =
  match query e k_flavor with
  | Some f => if f =? default_flavor then match config None with Some g => [Logged g e m] | None => [] end else match config (Some f) with Some g => [Logged g e m] | None => [] end
  | None => match config None with Some g => [Logged g e m] | None => [] end
  end.
Proof. unfold log, get_config, flavor. destruct (query e k_flavor) as [f|]; [|reflexivity]. destruct (f =? default_flavor); reflexivity. Qed.
Print Assumptions C74_flavor.
(** Configuring another flavor changes nothing for a call. *)
Theorem C74_frame config config' {arg val} e m : config' (if flavor e =? default_flavor then None else Some (flavor e)) = config (if flavor e =? default_flavor then None else Some (flavor e)) ->
  @log config' arg val e m = @log config arg val e m.
Proof. unfold log, get_config. destruct (flavor e =? default_flavor); intros ->; reflexivity. Qed.
Print Assumptions C74_frame.
Example C74_case : @log (fun f => match f with Some 8 => Some 1 | None => Some 0 | _ => None end) nat nat [(k_flavor, 8)] ("x", []) = [Logged 1 [(k_flavor, 8)] ("x", [])] /\
  @log (fun f => match f with Some 8 => Some 1 | None => Some 0 | _ => None end) nat nat [(k_flavor, 9)] ("x", []) = [].
Proof. split; reflexivity. Qed.

(** ** C75: the log environment of flows and steps *)
Section C75.
Context {E : Type} (dec : forall a b : E, {a = b} + {a <> b}) (dflt : E) (set : string -> option E).
(** The environment set for the step, else for the flow, else for "default", else
    the library's. *)
Definition first_set (step flow : string) : E :=
  match set step with Some e => e | None => match set flow with Some e => e | None => match set "default" with Some e => e | None => dflt end end end.
Theorem C75_partial step flow : set step <> Some dflt -> set flow <> Some dflt -> get_log_env dec dflt set step flow = first_set step flow.
Proof.
  intros H1 H2. unfold get_log_env, get_log_env1, log_env, first_set. destruct (set step) as [e|].
  - destruct (dec e dflt) as [->|]; [congruence|reflexivity].
  - destruct (dec dflt dflt) as [_|]; [|congruence]. destruct (string_dec flow "default") as [->|_].
    + destruct (set "default"); reflexivity.
    + destruct (set flow) as [e|]; [destruct (dec e dflt) as [->|]; [congruence|reflexivity]|]. destruct (dec dflt dflt); [reflexivity|congruence].
Qed.
Theorem C75_flow_partial flow : set flow <> Some dflt -> get_log_env1 dec dflt set flow = match set flow with Some e => e | None => match set "default" with Some e => e | None => dflt end end.
Proof.
  intros H. unfold get_log_env1, log_env. destruct (set flow) as [e|]; [destruct (dec e dflt) as [->|]; [congruence|reflexivity]|]. destruct (dec dflt dflt); [reflexivity|congruence].
Qed.
End C75.
Print Assumptions C75_partial.
Print Assumptions C75_flow_partial.
(** Setting a step back to the library's environment has no effect. *)
Theorem C75_refuted : exists set : string -> option nat, set "step" = Some 7 /\ get_log_env Nat.eq_dec 7 set "step" "flow" = 4.
Proof. exists (fun n => if string_dec n "step" then Some 7 else if string_dec n "flow" then Some 4 else None). split; reflexivity. Qed.
Print Assumptions C75_refuted.
Example C75_case : get_log_env Nat.eq_dec 7 (fun n => if string_dec n "flow" then Some 4 else if string_dec n "default" then Some 3 else None) "step" "flow" = 4 /\
  get_log_env Nat.eq_dec 7 (fun n => if string_dec n "default" then Some 3 else None) "step" "flow" = 3.
Proof. split; reflexivity. Qed.

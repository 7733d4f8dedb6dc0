(** The operations of the controller step by step. *)
From Coq Require Import String Bool Arith List NArith Lia.
From Verif Require Import IrqModel IrqSpec IrqProofs IrqProofs2 IrqProofs3 ConcModel ConcSpec.
Import ListNotations.
Local Open Scope nat_scope.

Lemma same_refl s : same_state s s.
Proof. repeat split. Qed.
Lemma same_sym a b : same_state a b -> same_state b a.
Proof. intros (A & B & C & D). repeat split; auto. Qed.
Lemma same_trans a b c : same_state a b -> same_state b c -> same_state a c.
Proof. intros (A & B & C & D) (A' & B' & C' & D'). repeat split; intros; congruence. Qed.

Section Steps.
Variables (h : hal) (r : root).
Definition run_micros (ms : list micro) (sl : state * locals) : state * locals := fold_left (fun sl m => micro_step h m sl) ms sl.
Lemma run_app a b sl : run_micros (a ++ b) sl = run_micros b (run_micros a sl).
Proof. apply fold_left_app. Qed.
Lemma run_cons m ms sl : run_micros (m :: ms) sl = run_micros ms (micro_step h m sl).
Proof. reflexivity. Qed.

Lemma run_set v ts i : i || forallb (known r) ts = true -> forall s s0 l, same_state s s0 ->
  exists s1, fold_left (set_one r i v) ts (Some s0) = Some s1 /\ same_state (fst (run_micros (set_steps r v ts) (s, l))) s1.
Proof.
  induction ts as [|t ts IH]; intros A s s0 l S; [exists s0; split; auto|]. unfold set_steps. cbn [flat_map fold_left set_one]. fold (set_steps r v ts). cbn [forallb] in A.
  assert (A' : i || forallb (known r) ts = true) by (destruct i; auto; cbn in *; apply andb_prop in A; tauto).
  destruct (known r t) eqn:K.
  - cbn [app]. rewrite !run_cons. cbn [micro_step]. apply IH; auto. destruct S as (S1 & S2 & S3 & S4). split; [|auto]. intros u. cbn [with_enables enables v_bits]. unfold set_item.
    destruct (item_eq_dec u t) as [->|]; [destruct t; reflexivity|]. rewrite S1. destruct (kind_eqb _ _); reflexivity.
  - cbn [app]. destruct i; [|cbn in A; discriminate]. apply IH; auto.
Qed.
Lemma run_compute group : forall s l, exists l', run_micros (map Compute group) (s, l) = (s, l') /\ v_value l' = N.lor (v_value l) (mask_all h (filter (is_on (enables s)) group)).
Proof.
  induction group as [|x group IH]; intros s l; [exists l; split; [reflexivity|cbn; rewrite N.lor_0_r; reflexivity]|].
  cbn [map]. rewrite run_cons. cbn [micro_step filter]. destruct (is_on (enables s) x).
  - destruct (IH s {| v_bits := v_bits l; v_value := N.lor (v_value l) (mask_for h x); v_new := v_new l; v_old := v_old l; v_read := v_read l |}) as (l' & E & V). exists l'. split; auto. rewrite V. cbn [mask_all fold_right v_value]. rewrite N.lor_assoc. reflexivity.
  - apply IH.
Qed.
Lemma run_update_of force xs g s s0 l : same_state s s0 -> same_state (fst (run_micros (update_steps_of h force xs g) (s, l))) (update_register h force xs s0 g).
Proof.
  intros (S1 & S2 & S3 & S4). unfold update_steps_of. rewrite run_cons, run_app. cbn [micro_step].
  destruct (run_compute (filter (in_register h g) xs) s {| v_bits := v_bits l; v_value := 0; v_new := v_new l; v_old := v_old l; v_read := v_read l |}) as (l' & -> & V). cbn [v_value] in V. rewrite N.lor_0_l in V.
  unfold update_register. rewrite run_cons. cbn [micro_step].
  assert (Ev : mask_all h (filter (is_on (enables s0)) (filter (in_register h g) xs)) = v_value l').
  { rewrite V. f_equal. apply filter_ext. intros x. apply is_on_same. auto. }
  rewrite Ev. rewrite <- S2. set (new := N.lor (N.ldiff (shadow s g) (mask_all h (filter (in_register h g) xs))) (v_value l')).
  destruct force; cbn [orb]; rewrite !run_cons; cbn [micro_step run_micros fold_left fst v_new v_old].
  - split; [|split; [|split]]; cbn [write_reg with_shadow enables shadow registers writes]; auto; intros; unfold set_reg; rewrite ?Nat.eqb_refl, ?S2, ?S3, ?S4; auto.
  - destruct (N.eqb new (shadow s g)) eqn:E; cbn [negb].
    + split; [|split; [|split]]; cbn [write_reg with_shadow enables shadow registers writes]; auto; intros; unfold set_reg; rewrite ?S2; auto.
    + split; [|split; [|split]]; cbn [write_reg with_shadow enables shadow registers writes]; auto; intros; unfold set_reg; rewrite ?Nat.eqb_refl, ?S2, ?S3, ?S4; auto.
Qed.
Lemma run_update force xs s s0 l : same_state s s0 -> same_state (fst (run_micros (update_steps h force xs) (s, l))) (update h force xs s0).
Proof.
  unfold update_steps, update. generalize (registers_of h xs) as gs. intros gs. revert s s0 l. induction gs as [|g gs IH]; intros s s0 l S; [exact S|].
  cbn [flat_map fold_left]. rewrite run_app. destruct (run_micros (update_steps_of h force xs g) (s, l)) as [s' l'] eqn:E. apply IH. pose proof (run_update_of force xs g s s0 l S) as H. rewrite E in H. exact H.
Qed.
Lemma run_zero gs : forall s l, exists s', run_micros (map ZeroShadow gs) (s, l) = (s', l) /\
  enables s' = enables s /\ registers s' = registers s /\ writes s' = writes s /\ forall g, shadow s' g = if memb g gs then 0%N else shadow s g.
Proof.
  induction gs as [|g gs IH]; intros s l; [exists s; cbn; auto|]. cbn [map]. rewrite run_cons. cbn [micro_step]. destruct (IH (with_shadow s g 0%N) l) as (s' & E & H1 & H2 & H3 & H4). exists s'. split; [exact E|].
  rewrite H1, H2, H3. repeat split; auto. intros g'. rewrite H4. cbn [with_shadow shadow memb existsb]. unfold set_reg, memb. cbn [existsb]. destruct (existsb (Nat.eqb g') gs); [rewrite orb_true_r; auto|]. rewrite orb_false_r. reflexivity.
Qed.
Lemma run_mark ys : forall s l, exists s', run_micros (flat_map (fun x => match register_of h x with Some g => [MarkShadow g (mask_for h x)] | None => [] end) ys) (s, l) = (s', l) /\
  enables s' = enables s /\ registers s' = registers s /\ writes s' = writes s /\ forall g, shadow s' g = N.lor (shadow s g) (mask_all h (filter (in_register h g) ys)).
Proof.
  induction ys as [|x ys IH]; intros s l; [exists s; cbn; split; auto; repeat split; auto; intros; rewrite N.lor_0_r; auto|]. cbn [flat_map].
  destruct (register_of h x) as [g|] eqn:R.
  - cbn [app]. rewrite run_cons. cbn [micro_step]. destruct (IH (with_shadow s g (N.lor (shadow s g) (mask_for h x))) l) as (s' & E & H1 & H2 & H3 & H4). exists s'. split; [exact E|]. rewrite H1, H2, H3. repeat split; auto.
    intros g'. rewrite H4. cbn [with_shadow shadow filter]. unfold in_register at 2. rewrite R. unfold set_reg. rewrite (Nat.eqb_sym g g'). destruct (Nat.eqb_spec g' g) as [->|]; auto. cbn [mask_all fold_right]. rewrite N.lor_assoc. reflexivity.
  - cbn [app]. destruct (IH s l) as (s' & E & H1 & H2 & H3 & H4). exists s'. split; [exact E|]. rewrite H1, H2, H3. repeat split; auto. intros g'. rewrite H4. cbn [filter]. unfold in_register at 2. rewrite R. reflexivity.
Qed.
Lemma run_init a al s s0 l : same_state s s0 -> same_state (fst (run_micros (init_steps h r a al) (s, l))) (init h r a al s0).
Proof.
  intros S. unfold init_steps, init. rewrite !run_app.
  destruct (run_micros [StoreBits KResource (fun t => known r t && a t); StoreBits KFlow (fun t => known r t && a t); StoreBits KName (fun t => known r t)] (s, l)) as [s1 l1] eqn:E1.
  cbn [run_micros fold_left micro_step] in E1. injection E1 as <- <-.
  set (s1 := with_enables _ _). destruct (run_zero (registers_of h (filter has_enable_field (descendants r))) s1 l) as (s2 & -> & Z1 & Z2 & Z3 & Z4).
  destruct (run_mark (filter al (descendants r)) s2 l) as (s3 & -> & M1 & M2 & M3 & M4). apply run_update. destruct S as (S1 & S2 & S3 & S4).
  split; [|split; [|split]]; cbn [enables shadow registers writes].
  - intros t. rewrite M1, Z1. unfold s1. cbn [with_enables enables]. destruct t; cbn [kind_of kind_eqb]; rewrite ?andb_true_r; reflexivity.
  - intros g. rewrite M4, Z4. unfold s1. cbn [with_enables shadow]. rewrite S2. reflexivity.
  - intros g. rewrite M2, Z2. unfold s1. cbn [with_enables registers]. auto.
  - rewrite M3, Z3. unfold s1. cbn [with_enables writes]. auto.
Qed.
(** An operation that nobody interferes with. *)
Lemma run_steps o s s0 l : accepted r o = true -> same_state s s0 -> exists s1, perform h r o s0 = Some s1 /\ same_state (fst (run_micros (steps_of h r o) (s, l))) s1.
Proof.
  intros A S. destruct o as [v p i ts|v i ns|a| |a al]; cbn [accepted perform steps_of] in *.
  - destruct (run_set v ts i A s s0 l S) as (s1 & E & S1). unfold switch. rewrite E. cbn [option_map]. eexists. split; [reflexivity|]. rewrite run_app. destruct (run_micros (set_steps r v ts) (s, l)) as [s' l']. apply run_update, S1.
  - destruct (run_set v (map Name ns) i A s s0 l S) as (s1 & E & S1). unfold switch_names. rewrite E. cbn [option_map]. eexists. split; [reflexivity|]. rewrite run_app. destruct (run_micros (set_steps r v (map Name ns)) (s, l)) as [s' l']. apply run_update, S1.
  - eexists. split; [reflexivity|]. apply run_update, S.
  - eexists. split; [reflexivity|]. rewrite run_app. unfold reset. cbn [run_micros fold_left micro_step]. apply run_update. destruct S as (S1 & S2 & S3 & S4). split; [|auto]. intros t. cbn [with_enables enables]. destruct t; reflexivity.
  - eexists. split; [reflexivity|]. apply run_init, S.
Qed.
Lemma run_action_read f s l : run_micros (action_steps h r (ReadEnable f)) (s, l) = (s, snd (run_micros (action_steps h r (ReadEnable f)) (s, l))) /\ v_read (snd (run_micros (action_steps h r (ReadEnable f)) (s, l))) = reads_on h s f.
Proof. split; reflexivity. Qed.
Lemma reads_same s s0 f : same_state s s0 -> reads_on h s f = reads_on h s0 f.
Proof. intros (_ & _ & H & _). unfold reads_on. rewrite H. reflexivity. Qed.

(** Actions one after the other, step by step. *)
Fixpoint serial (s : state) (q : list (nat * action)) : state * list (nat * nat * bool) :=
  match q with
  | [] => (s, [])
  | (t, a) :: q =>
    let (s1, l1) := run_micros (action_steps h r a) (s, no_locals) in let (s2, as_) := serial s1 q in (s2, match a with ReadEnable f => (t, f, v_read l1) :: as_ | Op _ => as_ end)
  end.
Lemma serial_in_turn q : (forall t o, In (t, Op o) q -> accepted r o = true) -> forall s s0, same_state s s0 ->
  exists s', in_turn h r s0 q s' (snd (serial s q)) /\ same_state (fst (serial s q)) s'.
Proof.
  induction q as [|[t a] q IH]; intros A s s0 S; [exists s0; split; [constructor|auto]|]. cbn [serial].
  assert (A' : forall t o, In (t, Op o) q -> accepted r o = true) by (intros t' o H; apply (A t'); right; auto).
  destruct a as [o|f].
  - destruct (run_steps o s s0 no_locals) as (s1 & P & S1); auto; [apply (A t); left; auto|]. cbn [action_steps]. destruct (run_micros (steps_of h r o) (s, no_locals)) as [s1' l1]. cbn [fst] in S1.
    destruct (IH A' s1' s1 S1) as (s' & T & S'). destruct (serial s1' q) as [s2 as_]. exists s'. split; auto. econstructor; eauto.
  - destruct (run_action_read f s no_locals) as (E & V). rewrite E. rewrite V. destruct (IH A' s s0 S) as (s' & T & S'). destruct (serial s q) as [s2 as_]. exists s'. split; auto. cbn [fst snd] in *. rewrite (reads_same s s0 f S). constructor. exact T.
Qed.
Lemma serial_snoc q t a : forall s, serial s (q ++ [(t, a)]) =
  (fst (run_micros (action_steps h r a) (fst (serial s q), no_locals)),
   snd (serial s q) ++ match a with ReadEnable f => [(t, f, v_read (snd (run_micros (action_steps h r a) (fst (serial s q), no_locals))))] | Op _ => [] end).
Proof.
  induction q as [|[t' a'] q IH]; intros s; cbn [app serial].
  - destruct (run_micros (action_steps h r a) (s, no_locals)) as [s1 l1] eqn:E. cbn [fst snd]. rewrite E. cbn [fst snd app]. destruct a; reflexivity.
  - destruct (run_micros (action_steps h r a') (s, no_locals)) as [s1 l1]. rewrite IH. destruct (serial s1 q) as [s2 as_]. cbn [fst snd]. destruct a'; reflexivity.
Qed.

(** ** Threads *)
Variables (s0 : state) (prog : nat -> list action).
Lemma of_thread_snoc t u a q : of_thread t (q ++ [(u, a)]) = of_thread t q ++ (if u =? t then [a] else []).
Proof. unfold of_thread. rewrite filter_app, map_app. cbn [filter fst]. destruct (u =? t); reflexivity. Qed.
Record invariant (s : system) (q : list (nat * action)) : Prop := {
  inv_todo : forall t, of_thread t q ++ match t_phase (threads s t) with Out => [] | In_ a _ _ => [a] end ++ t_todo (threads s t) = prog t;
  inv_answers : answers s = rev (snd (serial s0 q));
  inv_free : mutex s = None -> shared s = fst (serial s0 q) /\ forall t, t_phase (threads s t) = Out;
  inv_held : forall t, mutex s = Some t -> exists a l ms pre, t_phase (threads s t) = In_ a l ms /\ action_steps h r a = pre ++ ms /\
    (shared s, l) = run_micros pre (fst (serial s0 q), no_locals) /\ forall u, u <> t -> t_phase (threads s u) = Out
}.
Lemma reach_invariant s : no_reset prog -> reachable h r s0 prog s -> exists q, invariant s q.
Proof.
  intros NR. induction 1 as [|s t s' R [q I] St].
  - exists []. constructor; cbn; auto. discriminate.
  - destruct I as [Itodo Ians Ifree Iheld].
    assert (L : forall u a l ms, t_phase (threads s u) = In_ a l ms -> locked a = true /\ mutex s = Some u).
    { intros u a l ms E. assert (Hl : locked a = true).
      { destruct a as [[| | | |]|]; auto. exfalso. apply (NR u). rewrite <- (Itodo u), E. apply in_or_app. right. left. reflexivity. }
      split; auto. destruct (mutex s) as [v|] eqn:M; [|destruct (Ifree eq_refl) as [_ F]; rewrite F in E; discriminate].
      destruct (Iheld v eq_refl) as (a' & l' & ms' & pre & _ & _ & _ & U). destruct (Nat.eq_dec u v) as [->|Huv]; auto. rewrite (U u Huv) in E. discriminate. }
    destruct St as [a rest E Fr|a l m ms rest E|a l rest E].
    + assert (Hl : locked a = true).
      { destruct a as [[| | | |]|]; auto. exfalso. apply (NR t). rewrite <- (Itodo t), E. apply in_or_app. right. cbn. auto. }
      destruct (Ifree (Fr Hl)) as [Es Eo]. exists q. constructor; cbn [threads answers mutex shared]; rewrite ?Hl.
      * intros u. unfold set_thread. destruct (Nat.eqb_spec u t) as [->|]; [|apply Itodo]. cbn [t_phase t_todo]. rewrite <- (Itodo t), E. reflexivity.
      * exact Ians.
      * discriminate.
      * intros u [= <-]. exists a, no_locals, (action_steps h r a), []. unfold set_thread. rewrite Nat.eqb_refl. cbn [t_phase]. split; auto. split; auto. split; [rewrite Es; reflexivity|].
        intros u Hu. rewrite (proj2 (Nat.eqb_neq u t) Hu). auto.
    + destruct (L t a l (m :: ms)) as [Hl M]; [rewrite E; reflexivity|]. destruct (Iheld t M) as (a' & l' & ms' & pre & Ep & Ea & Er & U). rewrite E in Ep. cbn [t_phase] in Ep. injection Ep as <- <- <-.
      exists q. constructor; cbn [threads answers mutex shared]; rewrite ?M.
      * intros u. unfold set_thread. destruct (Nat.eqb_spec u t) as [->|]; [|apply Itodo]. cbn [t_phase t_todo]. rewrite <- (Itodo t), E. reflexivity.
      * exact Ians.
      * discriminate.
      * intros u [= <-]. exists a, (snd (micro_step h m (shared s, l))), ms, (pre ++ [m]). unfold set_thread. rewrite Nat.eqb_refl. cbn [t_phase]. split; auto. split; [rewrite <- app_assoc; exact Ea|]. split.
        -- rewrite run_app, <- Er. cbn [run_micros fold_left]. symmetry; apply surjective_pairing.
        -- intros u Hu. rewrite (proj2 (Nat.eqb_neq u t) Hu). auto.
    + destruct (L t a l []) as [Hl M]; [rewrite E; reflexivity|]. destruct (Iheld t M) as (a' & l' & ms' & pre & Ep & Ea & Er & U). rewrite E in Ep. cbn [t_phase] in Ep. injection Ep as <- <- <-. rewrite app_nil_r in Ea. subst pre.
      exists (q ++ [(t, a)]). constructor; cbn [threads answers mutex shared]; rewrite ?Hl.
      * intros u. rewrite of_thread_snoc. unfold set_thread. rewrite (Nat.eqb_sym t u). destruct (Nat.eqb_spec u t) as [->|].
        -- cbn [t_phase t_todo]. rewrite <- (Itodo t), E. cbn [t_phase t_todo app]. rewrite <- app_assoc. reflexivity.
        -- rewrite app_nil_r. apply Itodo.
      * rewrite serial_snoc. cbn [snd]. rewrite rev_app_distr. rewrite <- Er. cbn [snd]. rewrite Ians. unfold answer. destruct a; reflexivity.
      * intros _. rewrite serial_snoc. cbn [fst]. rewrite <- Er. cbn [fst]. split; auto. intros u. unfold set_thread. destruct (Nat.eqb_spec u t) as [->|Hu]; auto.
      * discriminate.
Qed.

(** ** Schedules *)
Definition exec (t : nat) (s : system) : option system :=
  match threads s t with
  | {| t_phase := Out; t_todo := [] |} => None
  | {| t_phase := Out; t_todo := a :: q |} =>
    if locked a && match mutex s with None => false | Some _ => true end then None else
    Some {| shared := shared s; mutex := if locked a then Some t else mutex s; threads := set_thread s t {| t_phase := In_ a no_locals (action_steps h r a); t_todo := q |}; answers := answers s |}
  | {| t_phase := In_ a l (m :: ms); t_todo := q |} =>
    Some {| shared := fst (micro_step h m (shared s, l)); mutex := mutex s;
      threads := set_thread s t {| t_phase := In_ a (snd (micro_step h m (shared s, l))) ms; t_todo := q |}; answers := answers s |}
  | {| t_phase := In_ a l []; t_todo := q |} =>
    Some {| shared := shared s; mutex := if locked a then None else mutex s; threads := set_thread s t {| t_phase := Out; t_todo := q |}; answers := answer t a l (answers s) |}
  end.
Fixpoint exec_all (l : list nat) (s : system) : option system := match l with [] => Some s | t :: l => match exec t s with Some s' => exec_all l s' | None => None end end.
Lemma exec_step t s s' : exec t s = Some s' -> tstep h r t s s'.
Proof.
  unfold exec. destruct (threads s t) as [ph q] eqn:E. destruct ph as [|a l ms].
  - destruct q as [|a q]; [discriminate|]. destruct (locked a && _) eqn:B; [discriminate|]. intros [= <-]. apply (step_enter h r t s a q E). intros L. rewrite L in B. destruct (mutex s); [discriminate|auto].
  - destruct ms as [|m ms]; intros [= <-]; [apply (step_leave h r t s a l q E)|apply (step_micro h r t s a l m ms q E)].
Qed.
Lemma exec_all_reach l (P : system -> Prop) : match exec_all l (start s0 prog) with Some s => P s | None => False end ->
  exists s, reachable h r s0 prog s /\ P s /\ forall t, ~ In t l -> threads s t = {| t_phase := Out; t_todo := prog t |}.
Proof.
  assert (G : forall l s, reachable h r s0 prog s -> match exec_all l s with Some s => P s | None => False end -> exists s', reachable h r s0 prog s' /\ P s' /\ forall t, ~ In t l -> threads s' t = threads s t).
  { clear l. induction l as [|t l IH]; intros s R; cbn [exec_all]; [eauto|]. destruct (exec t s) as [s'|] eqn:E; [|contradiction]. intros H.
    destruct (IH s') as (s2 & R2 & E2 & H2); auto; [eapply reach_step; eauto; apply exec_step, E|]. exists s2. split; auto. split; auto. intros t' Ht'.
    rewrite H2 by (intros Q; apply Ht'; right; auto). apply exec_step in E. assert (N : t' <> t) by (intros ->; apply Ht'; left; auto). destruct E; cbn [threads]; unfold set_thread; rewrite (proj2 (Nat.eqb_neq _ _) N); reflexivity. }
  intros H. destruct (G l _ (reach_start _ _ _ _) H) as (s & R & E & F). exists s. split; auto.
Qed.
End Steps.

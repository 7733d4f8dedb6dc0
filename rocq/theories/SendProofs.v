(** Requests and replies: the invariant of all executions. *)
From Coq Require Import List Arith Lia.
From Verif Require Import SendModel SendSpec.
Import ListNotations.

Section Proofs.
Context {V : Type}.
Implicit Types (es : list (event V)) (s : state V).

(** The events that started a request. *)
Definition starts (es : list (event V)) : list nat :=
  flat_map (fun e => match e with Started i _ _ => [i] | _ => [] end) es.

Lemma first_run_app t es fs :
  first_run t (es ++ fs) = match first_run t es with Some v => Some v | None => first_run t fs end.
Proof. induction es as [|e r IH]; [reflexivity|]. destruct e; cbn; auto. destruct (Nat.eqb _ _); auto. Qed.

(** The trigger and values of the request with a number, and what came after. *)
Fixpoint request (i : nat) (es : list (event V)) : option (nat * list V * list (event V)) :=
  match es with
  | [] => None
  | Started j t x :: r => if Nat.eqb j i then Some (t, x, r) else request i r
  | _ :: r => request i r
  end.
Lemma answer_request i es :
  answer i es = match request i es with
                | Some (t, x, r) => option_map (fun vs => vs ++ x) (first_run t r) | None => None end.
Proof. induction es as [|e r IH]; [reflexivity|]. destruct e; cbn; auto. destruct (Nat.eqb _ _); auto. Qed.
Lemma request_app i es fs :
  request i (es ++ fs) = match request i es with Some (t, x, r) => Some (t, x, r ++ fs) | None => request i fs end.
Proof. induction es as [|e r IH]; [reflexivity|]. destruct e; cbn; auto. destruct (Nat.eqb _ _); auto. Qed.
Lemma request_starts i es : request i es <> None <-> In i (starts es).
Proof.
  unfold starts. induction es as [|e r IH]; cbn; [tauto|].
  destruct e as [j t x|j a|t a|j a]; cbn; auto.
  destruct (Nat.eqb_spec j i); [split; [auto|congruence]|]. rewrite IH. split; [auto|intros [?|?]; [congruence|auto]].
Qed.
Lemma received_app i es fs : received i (es ++ fs) = received i es ++ received i fs.
Proof. apply flat_map_app. Qed.

(** What holds of the request with a number: not started; in the queue; to be
    completed; received. *)
Definition queued (i : nat) (q : list (operation V)) := filter (fun o => Nat.eqb (o_id o) i) q.
Definition pending (i : nat) (td : list (item V)) : list (operation V * list V) :=
  flat_map (fun x => match x with Complete o vs => if Nat.eqb (o_id o) i then [(o, vs)] else [] | _ => [] end) td.

Inductive standing (i : nat) (s : state V) : Prop :=
| sUnknown : request i (trace s) = None -> next s <= i -> queued i (queue s) = [] -> pending i (todo s) = [] ->
    received i (trace s) = [] -> standing i s
| sWaiting o r : request i (trace s) = Some (o_trigger o, o_extra o, r) -> first_run (o_trigger o) r = None ->
    queued i (queue s) = [o] -> pending i (todo s) = [] -> received i (trace s) = [] -> i < next s -> standing i s
| sPending o vs r : request i (trace s) = Some (o_trigger o, o_extra o, r) -> first_run (o_trigger o) r = Some vs ->
    queued i (queue s) = [] -> pending i (todo s) = [(o, vs)] -> received i (trace s) = [] -> i < next s -> standing i s
| sDone t x vs r : request i (trace s) = Some (t, x, r) -> first_run t r = Some vs ->
    queued i (queue s) = [] -> pending i (todo s) = [] -> received i (trace s) = [vs ++ x] -> i < next s -> standing i s.

Lemma pending_app i a b : pending i (a ++ b) = pending i a ++ pending i b.
Proof. apply flat_map_app. Qed.
Lemma pending_do i l : pending i (map Do l) = [].
Proof. induction l; cbn; auto. Qed.
Lemma queued_app i a b : queued i (a ++ b) = queued i a ++ queued i b.
Proof. apply filter_app. Qed.
Lemma pending_complete i vs l : pending i (map (fun o => Complete o vs) l) = map (fun o => (o, vs)) (queued i l).
Proof.
  induction l as [|o l IH]; [reflexivity|].
  change (pending i (map (fun o => Complete o vs) (o :: l))) with
    ((if Nat.eqb (o_id o) i then [(o, vs)] else []) ++ pending i (map (fun o => Complete o vs) l)).
  rewrite IH. unfold queued. cbn. destruct (Nat.eqb _ _); auto.
Qed.
Lemma queued_filter i p q : queued i (filter p q) = filter p (queued i q).
Proof.
  induction q as [|o q IH]; [reflexivity|]. cbn. unfold queued in *.
  destruct (p o) eqn:P; destruct (Nat.eqb (o_id o) i) eqn:E; cbn; rewrite ?P, ?E, ?IH; auto.
Qed.

Lemma step_standing s s' : step s = Some s' -> (forall i, standing i s) -> forall i, standing i s'.
Proof.
  destruct s as [td q n tr]. unfold step. cbn [todo queue next trace].
  intros H Hs i. specialize (Hs i). destruct td as [|[[f args t g x|t vs]|o vs] td]; [discriminate| | |];
    injection H as H; subst s'.
  - (* a request is started *)
    destruct (Nat.eq_dec n i) as [->|Hi].
    + destruct Hs as [A B C D E|? ? A B C D E F|? ? ? A B C D E F|? ? ? ? A B C D E F];
        cbn [todo queue next trace] in *; try lia.
      change (pending i (Do (Start f args t g x) :: td)) with (pending i td) in D.
      refine (sWaiting i _ {| o_id := i; o_trigger := t; o_recv := g; o_extra := x |} [Sent i args] _ _ _ _ _ _);
        cbn [todo queue next trace o_trigger o_extra].
      * rewrite request_app, A. cbn. now rewrite Nat.eqb_refl.
      * reflexivity.
      * rewrite queued_app, C. cbn. now rewrite Nat.eqb_refl.
      * now rewrite pending_app, pending_do, D.
      * rewrite received_app, E. reflexivity.
      * lia.
    + assert (Hn : Nat.eqb n i = false) by (apply Nat.eqb_neq; assumption).
      assert (Q : queued i (q ++ [{| o_id := n; o_trigger := t; o_recv := g; o_extra := x |}]) = queued i q)
        by (rewrite queued_app; cbn; rewrite Hn; apply app_nil_r).
      assert (P : pending i (map Do (f args) ++ td) = pending i td) by (now rewrite pending_app, pending_do).
      assert (R : received i (tr ++ [Started n t x; Sent n args]) = received i tr)
        by (rewrite received_app; apply app_nil_r).
      destruct Hs as [A B C D E|o r A B C D E F|o vs r A B C D E F|t' x' vs r A B C D E F];
        cbn [todo queue next trace] in *;
        change (pending i (Do (Start f args t g x) :: td)) with (pending i td) in D.
      * apply sUnknown; cbn [todo queue next trace]; [|lia|congruence|congruence|congruence].
        rewrite request_app, A. cbn. now rewrite Hn.
      * apply (sWaiting i _ o (r ++ [Started n t x; Sent n args])); cbn [todo queue next trace];
          [now rewrite request_app, A|now rewrite first_run_app, B|congruence|congruence|congruence|lia].
      * apply (sPending i _ o vs (r ++ [Started n t x; Sent n args])); cbn [todo queue next trace];
          [now rewrite request_app, A|now rewrite first_run_app, B|congruence|congruence|congruence|lia].
      * apply (sDone i _ t' x' vs (r ++ [Started n t x; Sent n args])); cbn [todo queue next trace];
          [now rewrite request_app, A|now rewrite first_run_app, B|congruence|congruence|congruence|lia].
  - (* a trigger is run *)
    assert (R : received i (tr ++ [Ran t vs]) = received i tr) by (rewrite received_app; apply app_nil_r).
    assert (P : pending i (map (fun o => Complete o vs) (filter (fun o => Nat.eqb (o_trigger o) t) q) ++ td) =
                map (fun o => (o, vs)) (filter (fun o => Nat.eqb (o_trigger o) t) (queued i q)) ++ pending i td)
      by (now rewrite pending_app, pending_complete, queued_filter).
    assert (Q := queued_filter i (fun o => negb (Nat.eqb (o_trigger o) t)) q).
    destruct Hs as [A B C D E|o r A B C D E F|o ws r A B C D E F|t' x' ws r A B C D E F];
      cbn [todo queue next trace] in *;
      change (pending i (Do (Run t vs) :: td)) with (pending i td) in D; rewrite C in P, Q; rewrite D in P; cbn in P, Q.
    + apply sUnknown; cbn [todo queue next trace]; [|assumption|assumption|assumption|congruence].
      now rewrite request_app, A.
    + destruct (Nat.eqb_spec (o_trigger o) t) as [Ht|Ht]; cbn in P, Q.
      * apply (sPending i _ o vs (r ++ [Ran t vs])); cbn [todo queue next trace];
          [now rewrite request_app, A| |assumption|assumption|congruence|assumption].
        rewrite first_run_app, B, Ht. cbn. now rewrite Nat.eqb_refl.
      * apply (sWaiting i _ o (r ++ [Ran t vs])); cbn [todo queue next trace];
          [now rewrite request_app, A| |assumption|assumption|congruence|assumption].
        rewrite first_run_app, B. cbn. destruct (Nat.eqb_spec t (o_trigger o)); congruence.
    + apply (sPending i _ o ws (r ++ [Ran t vs])); cbn [todo queue next trace];
        [now rewrite request_app, A|now rewrite first_run_app, B|assumption|assumption|congruence|assumption].
    + apply (sDone i _ t' x' ws (r ++ [Ran t vs])); cbn [todo queue next trace];
        [now rewrite request_app, A|now rewrite first_run_app, B|assumption|assumption|congruence|assumption].
  - (* an operation is completed *)
    assert (P : forall l, pending i (map Do l ++ td) = pending i td) by (intro; now rewrite pending_app, pending_do).
    set (e := Received (o_id o) (vs ++ o_extra o)).
    assert (R : received i (tr ++ [e]) = received i tr ++ (if Nat.eqb (o_id o) i then [vs ++ o_extra o] else []))
      by (rewrite received_app; cbn; now rewrite app_nil_r).
    assert (D' : pending i (Complete o vs :: td) = (if Nat.eqb (o_id o) i then [(o, vs)] else []) ++ pending i td)
      by reflexivity.
    destruct Hs as [A B C D E|o' r A B C D E F|o' ws r A B C D E F|t' x' ws r A B C D E F];
      cbn [todo queue next trace] in *; rewrite D in D'; rewrite E in R;
      destruct (Nat.eqb (o_id o) i) eqn:Hi; cbn in D', R; try discriminate D'.
    + apply sUnknown; cbn [todo queue next trace]; [|assumption|assumption|now rewrite P|assumption].
      now rewrite request_app, A.
    + apply (sWaiting i _ o' (r ++ [e])); cbn [todo queue next trace];
        [now rewrite request_app, A|now rewrite first_run_app, B|assumption|now rewrite P|assumption|assumption].
    + injection D' as Ho Hw Htd. subst o' ws.
      apply (sDone i _ (o_trigger o) (o_extra o) vs (r ++ [e])); cbn [todo queue next trace];
        [now rewrite request_app, A|now rewrite first_run_app, B|assumption|now rewrite P|assumption|assumption].
    + apply (sPending i _ o' ws (r ++ [e])); cbn [todo queue next trace];
        [now rewrite request_app, A|now rewrite first_run_app, B|assumption|now rewrite P|assumption|assumption].
    + apply (sDone i _ t' x' ws (r ++ [e])); cbn [todo queue next trace];
        [now rewrite request_app, A|now rewrite first_run_app, B|assumption|now rewrite P|assumption|assumption].
Qed.

Lemma reaches_standing p s : reaches p s -> forall i, standing i s.
Proof.
  induction 1 as [|s s' _ IH H].
  - intro i. apply sUnknown; cbn; try reflexivity; [lia|]. apply pending_do.
  - exact (step_standing s s' H IH).
Qed.

(** Traces only grow. *)
Lemma step_trace s s' : step s = Some s' -> exists es, trace s' = trace s ++ es /\
  match es with [Received i vs] => exists o ws, hd_error (todo s) = Some (Complete o ws) /\ i = o_id o /\ vs = ws ++ o_extra o
              | [Started _ _ _; Sent _ _] | [Ran _ _] => True | _ => False end.
Proof.
  destruct s as [td q n tr]. unfold step. cbn [todo queue next trace].
  intro H. destruct td as [|[[f args t g x|t vs]|o vs] td]; [discriminate| | |]; injection H as H; subst s'; cbn;
    (eexists; split; [reflexivity|]); cbn; auto. eauto.
Qed.

Lemma starts_below p s : reaches p s -> forall i, In i (starts (trace s)) <-> i < next s.
Proof.
  intros H i. destruct (reaches_standing p s H i) as [A B C D E|o r A B C D E F|o vs r A B C D E F|t x vs r A B C D E F];
    rewrite <- request_starts, A; split; intros; try congruence; try lia.
Qed.

Lemma finished_received p s i : reaches p s -> finished s -> received i (trace s) = as_list (answer i (trace s)).
Proof.
  intros H Hf. rewrite answer_request. unfold finished in Hf.
  destruct (reaches_standing p s H i) as [A B C D E|o r A B C D E F|o vs r A B C D E F|t x vs r A B C D E F];
    rewrite A, E; try reflexivity; try (rewrite B; reflexivity).
  rewrite Hf in D. discriminate.
Qed.

Lemma received_once p s i : reaches p s ->
  received i (trace s) = [] \/ received i (trace s) = as_list (answer i (trace s)).
Proof.
  intros H. rewrite answer_request.
  destruct (reaches_standing p s H i) as [A B C D E|o r A B C D E F|o vs r A B C D E F|t x vs r A B C D E F];
    rewrite A, E; auto; rewrite B; auto.
Qed.

(** What is in the queue waits for a run. *)
Lemma answer_grows i es fs vs : answer i es = Some vs -> answer i (es ++ fs) = Some vs.
Proof.
  rewrite !answer_request, request_app. destruct (request i es) as [[[t x] r]|]; [|discriminate].
  rewrite first_run_app. destruct (first_run t r); [auto|discriminate].
Qed.

Lemma received_after p s : reaches p s ->
  forall es i vs fs, trace s = es ++ Received i vs :: fs -> answer i es = Some vs.
Proof.
  induction 1 as [|s s' Hr IH H]; intros es i vs fs Ht.
  - destruct es; discriminate.
  - destruct (step_trace s s' H) as [new [Hn Hc]]. rewrite Hn in Ht.
    assert (Hcase : (exists fs', trace s = es ++ Received i vs :: fs') \/
                    (new = [Received i vs] /\ es = trace s)).
    { clear - Ht Hc. destruct new as [|e1 [|e2 [|e3 new]]]; try (now destruct Hc).
      - destruct fs as [|f0 fs] using rev_ind.
        + apply app_inj_tail in Ht. destruct Ht as [-> ->]. right. auto.
        + left. exists fs. change (es ++ Received i vs :: fs ++ [f0]) with (es ++ (Received i vs :: fs) ++ [f0]) in Ht.
          rewrite app_assoc in Ht. apply app_inj_tail in Ht. apply Ht.
      - destruct e1; destruct e2; try (now destruct Hc).
        change (trace s ++ [Started i0 trigger extra; Sent i1 args]) with
          (trace s ++ [Started i0 trigger extra] ++ [Sent i1 args]) in Ht. rewrite app_assoc in Ht.
        destruct fs as [|f0 fs] using rev_ind; [apply app_inj_tail in Ht; destruct Ht; discriminate|clear IHfs].
        change (es ++ Received i vs :: fs ++ [f0]) with (es ++ (Received i vs :: fs) ++ [f0]) in Ht.
        rewrite app_assoc in Ht. apply app_inj_tail in Ht. destruct Ht as [Ht _].
        destruct fs as [|f1 fs] using rev_ind; [apply app_inj_tail in Ht; destruct Ht; discriminate|clear IHfs].
        change (es ++ Received i vs :: fs ++ [f1]) with (es ++ (Received i vs :: fs) ++ [f1]) in Ht.
        rewrite app_assoc in Ht. apply app_inj_tail in Ht. left. exists fs. apply Ht.
      - destruct e1; try (now destruct Hc). destruct e2; now destruct Hc. }
    destruct Hcase as [[fs' E]|[-> ->]]; [exact (IH _ _ _ _ E)|].
    destruct Hc as [o [ws [Hh [-> ->]]]].
    destruct s as [td q n tr]. cbn [todo trace] in *. destruct td as [|x td]; [discriminate|].
    injection Hh as ->. rewrite answer_request.
    destruct (reaches_standing p _ Hr (o_id o)) as [A B C D E|o' r A B C D E F|o' ws' r A B C D E F|t x ws' r A B C D E F];
      cbn [todo trace] in *; cbn in D; rewrite Nat.eqb_refl in D; try discriminate.
    injection D as -> -> _. now rewrite A, B.
Qed.

(** Each request is sent once, as it is started. *)
Lemma sent_app i es fs : sent i (es ++ fs) = sent i es ++ sent i fs.
Proof. apply flat_map_app. Qed.
Lemma sent_once p s i : reaches p s -> length (sent i (trace s)) = if i <? next s then 1 else 0.
Proof.
  induction 1 as [|s s' _ IH H]; [reflexivity|].
  destruct s as [td q n tr]. unfold step in H. cbn [todo queue next trace] in *.
  destruct td as [|[[f args t g x|t vs]|o vs] td]; [discriminate| | |]; injection H as H; subst s';
    cbn [next trace]; rewrite sent_app, app_length, IH.
  - cbn - [Nat.ltb]. destruct (Nat.eqb_spec n i); destruct (Nat.ltb_spec i n); destruct (Nat.ltb_spec i (S n)); cbn; lia.
  - cbn - [Nat.ltb]. lia.
  - cbn - [Nat.ltb]. lia.
Qed.
Lemma started_sent p s : reaches p s ->
  forall es i t x fs, trace s = es ++ Started i t x :: fs -> exists args gs, fs = Sent i args :: gs.
Proof.
  intro H. assert (Hg : forall es i t x fs, trace s = es ++ Started i t x :: fs ->
    fs <> [] /\ forall e gs, fs = e :: gs -> exists args, e = Sent i args).
  { induction H as [|s s' _ IH H]; intros es i t x fs Ht; [destruct es; discriminate|].
    assert (Hshort : forall new, trace s' = trace s ++ new -> (forall j u y, ~ In (Started j u y) new) ->
      fs <> [] /\ forall e gs, fs = e :: gs -> exists args, e = Sent i args).
    { intros new Hn Hno. rewrite Hn in Ht. clear - Ht IH Hno.
      destruct (app_eq_app _ _ _ _ Ht) as [l [[E1 E2]|[E1 E2]]].
      - destruct l as [|e l].
        + destruct new as [|e0 new]; [discriminate|]. injection E2 as <- _. destruct (Hno i t x). left. reflexivity.
        + injection E2 as <- E2. destruct (IH _ _ _ _ _ E1) as [A B]. destruct l as [|e l]; [congruence|].
          subst fs. split; [discriminate|]. intros e' gs He. injection He as <- _. eapply B. reflexivity.
      - destruct (Hno i t x). rewrite E2. apply in_or_app. right. left. reflexivity. }
    destruct s as [td q n tr]. unfold step in H. cbn [todo queue next trace] in *.
    destruct td as [|[[f args t' g x'|t' vs]|o vs] td]; [discriminate| | |]; injection H as H; subst s';
      cbn [trace] in *.
    - destruct (app_eq_app _ _ _ _ Ht) as [l [[E1 E2]|[E1 E2]]].
      + destruct l as [|e l].
        * injection E2 as -> _ _ ->. split; [discriminate|]. intros e gs He. injection He as <- _. eauto.
        * injection E2 as <- E2. destruct (IH _ _ _ _ _ E1) as [A B]. destruct l as [|e l]; [congruence|].
          subst fs. split; [discriminate|]. intros e' gs He. injection He as <- _. eapply B. reflexivity.
      + destruct l as [|e1 [|e2 [|e3 l]]]; cbn in E2.
        * injection E2 as <- _ _ <-. split; [discriminate|]. intros e gs He. injection He as <- _. eauto.
        * discriminate.
        * discriminate.
        * discriminate.
    - apply (Hshort _ eq_refl). intros j u y [E|[]]. discriminate.
    - apply (Hshort _ eq_refl). intros j u y [E|[]]. discriminate. }
  intros es i t x fs Ht. destruct (Hg es i t x fs Ht) as [A B]. destruct fs as [|e gs]; [congruence|].
  destruct (B e gs eq_refl) as [args ->]. eauto.
Qed.

(** A request that was not answered is still in the queue. *)
Lemma unanswered_kept p s i : reaches p s -> In i (starts (trace s)) -> answer i (trace s) = None ->
  In i (map o_id (queue s)).
Proof.
  intros H Hi Ha. rewrite answer_request in Ha.
  destruct (reaches_standing p s H i) as [A B C D E|o r A B C D E F|o vs r A B C D E F|t x vs r A B C D E F];
    rewrite A in Ha; try (rewrite B in Ha; discriminate).
  - apply request_starts in Hi. congruence.
  - assert (Ho : In o (queued i (queue s))) by (rewrite C; left; reflexivity).
    unfold queued in Ho. apply filter_In in Ho. destruct Ho as [Ho E']. apply Nat.eqb_eq in E'. subst i.
    now apply in_map.
Qed.
End Proofs.

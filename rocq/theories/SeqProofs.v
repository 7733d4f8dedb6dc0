(** Proofs about running sequencers. *)
From Coq Require Import String Bool Arith List Lia.
From Verif Require Import SeqModel SeqSpec.
Import ListNotations.

Section Run.
Context {Env : Type}.
Variable n : nat.
Variable call : direction -> nat -> Env -> status * Env.

(** What the members mean. *)
Definition represents (q : sequencer) (p : place) : Prop :=
  next_step q = position p /\ next_step q <= n /\
  match pending p with
  | None => prev_status q = Done
  | Some d => prev_status q = NotDone /\ prev_direction q = d /\ can_continue n d q = true
  end.
Lemma opposite_opposite d : opposite (opposite d) = d.
Proof. destruct d; auto. Qed.
Lemma opposite_neq d : opposite d <> d.
Proof. destruct d; discriminate. Qed.

Local Opaque Nat.ltb.
Lemma step_spec d q e w : next_step q <= n -> can_continue n d q = true -> w = None \/ w = Some d ->
  exists r q' e' x, step n call d q e = Some (r, q', e', [x]) /\ i_result x = r /\ i_dir x = d /\
    call (i_dir x) (i_step x) e = (r, e') /\ next_step q' <= n /\ prev_status q' = prev_status q /\ prev_direction q' = prev_direction q /\
    invokes n {| position := next_step q; pending := w |} x
      {| position := next_step q'; pending := match r with Done => None | NotDone => Some d end |} /\
    (r = NotDone -> q' = q) /\
    (r = Done -> match d with Forward => next_step q' = S (next_step q) | Backward => S (next_step q') = next_step q end).
Proof.
  intros Hle Hc Hw. destruct d; cbn [can_continue] in Hc.
  - unfold step. rewrite Hc. apply Nat.ltb_lt in Hc. destruct (call Forward (next_step q) e) as [[] e'] eqn:He.
    + exists NotDone, q, e', {| i_dir := Forward; i_step := next_step q; i_result := NotDone |}. cbn. repeat split; auto; try congruence.
      apply (inv_forward n (next_step q) w NotDone); auto.
    + exists Done, (with_next q (S (next_step q))), e', {| i_dir := Forward; i_step := next_step q; i_result := Done |}. cbn.
      repeat split; auto; try congruence. apply (inv_forward n (next_step q) w Done); auto.
  - apply Nat.ltb_lt in Hc. unfold step. destruct (next_step q) as [|k] eqn:Hk; [lia|].
    destruct (Nat.ltb_spec k n); [|lia]. destruct (call Backward k e) as [[] e'] eqn:He.
    + exists NotDone, q, e', {| i_dir := Backward; i_step := k; i_result := NotDone |}. cbn. rewrite Hk. repeat split; auto; try congruence.
      apply (inv_backward n k w NotDone); auto.
    + exists Done, (with_next q k), e', {| i_dir := Backward; i_step := k; i_result := Done |}. cbn.
      repeat split; auto; try congruence; [lia|]. apply (inv_backward n k w Done); auto.
Qed.

Definition remaining (d : direction) (q : sequencer) : nat := match d with Forward => n - next_step q | Backward => next_step q end.
Lemma proceed_spec d : forall fuel q e w, next_step q <= n -> remaining d q <= fuel -> prev_direction q = d ->
  w = None \/ (w = Some d /\ can_continue n d q = true) ->
  exists s q' e' evs p', proceed n call fuel d q e = Some (s, q', e', evs) /\ represents q' p' /\ answered call e evs e' /\
    invoke_all n {| position := next_step q; pending := w |} evs p' /\
    (forall a x b, evs = a ++ x :: b -> i_result x = NotDone -> b = []) /\
    (forall a x b, evs = a ++ x :: b -> i_dir x = d) /\
    (s = Done <-> pending p' = None /\ position p' = end_of n d) /\ (s = NotDone <-> pending p' <> None).
Proof.
  induction fuel as [|f IH]; intros q e w Hle Hf Hd Hw.
  - assert (Hc : can_continue n d q = false). { unfold remaining, can_continue in *. destruct d; apply Nat.ltb_ge; lia. }
    destruct Hw as [->|[-> Hw]]; [|congruence]. cbn. rewrite Hc.
    exists Done, (with_status q Done), e, [], {| position := next_step q; pending := None |}.
    repeat split; auto; try constructor; try discriminate; try (intros [] ? ?; discriminate); cbn [pending position with_status next_step prev_status] in *.
    + unfold can_continue in Hc. destruct d; cbn [end_of]; apply Nat.ltb_ge in Hc; lia.
    + congruence.
  - cbn [proceed]. destruct (can_continue n d q) eqn:Hc.
    + destruct (step_spec d q e w) as (r & q1 & e1 & x & E1 & E2 & E3 & E4 & E5 & E6 & E7 & E8 & E9 & E10); auto; [tauto|].
      rewrite E1. rewrite <- E2 in E4. destruct r.
      * rewrite (E9 eq_refl) in *. exists NotDone, (with_status q NotDone), e1, [x], {| position := next_step q; pending := Some d |}.
        repeat split; auto; cbn; try discriminate; try tauto; try congruence.
        -- apply an_more with e1; auto. constructor.
        -- apply ia_more with {| position := next_step q; pending := Some d |}; auto. constructor.
        -- intros [|? [|? ?]] y b [=]; auto.
        -- intros [|? [|? ?]] y b [=]; subst; auto.
        -- intros [H _]. discriminate.
      * specialize (E10 eq_refl).
        destruct (IH q1 e1 None) as (s & q2 & e2 & evs & p' & I1 & I2 & I3 & I4 & I5 & I6 & I7 & I8); auto; [|congruence|].
        { unfold remaining, can_continue in *. destruct d; apply Nat.ltb_lt in Hc; lia. }
        rewrite I1. exists s, q2, e2, (x :: evs), p'. split; [reflexivity|]. split; auto. split; [econstructor; eauto|].
        split; [econstructor; eauto|]. split; [|split; [|tauto]].
        -- intros [|y a] z b [= -> ->]; [congruence|]. apply (I5 a); auto.
        -- intros [|y a] z b [= -> ->]; auto. eapply I6; eauto.
    + destruct Hw as [->|[-> Hw]]; [|congruence].
      exists Done, (with_status q Done), e, [], {| position := next_step q; pending := None |}.
      repeat split; auto; try constructor; try discriminate; try (intros [] ? ?; discriminate); cbn [pending position with_status next_step prev_status] in *.
      * unfold can_continue in Hc. destruct d; cbn [end_of]; apply Nat.ltb_ge in Hc; lia.
      * congruence.
Qed.
Lemma remaining_le d q : next_step q <= n -> remaining d q <= S n.
Proof. destruct d; cbn; lia. Qed.

Lemma go_spec d q e p : represents q p ->
  exists s q' e' evs p', go n call d q e = Some (s, q', e', evs) /\ represents q' p' /\ answered call e evs e' /\ serves n p d s evs p'.
Proof.
  intros (R1 & R2 & R3). unfold go. destruct p as [pos w]. cbn [position pending] in *. subst pos.
  assert (Hsame : w = None \/ w = Some d ->
     direction_eqb (prev_direction q) (opposite d) && status_eqb (prev_status q) NotDone = false /\ (w = None \/ (w = Some d /\ can_continue n d q = true))).
  { intros [->| ->].
    - rewrite R3. rewrite andb_comm. auto.
    - destruct R3 as (-> & -> & Hc). split; auto. destruct d; auto. }
  assert (Hdec : (w = None \/ w = Some d) \/ w = Some (opposite d)) by (destruct w as [[]|], d; auto).
  destruct Hdec as [Hw|Hw].
  - destruct (Hsame Hw) as [-> Hw'].
    destruct (proceed_spec d (S n) (with_direction q d) e w) as (s & q' & e' & evs & p' & I1 & I2 & I3 & I4 & I5 & I6 & I7 & I8); auto;
      [apply remaining_le; auto|]. cbn [app].
    rewrite I1. exists s, q', e', evs, p'. split; [reflexivity|]. split; auto. split; auto. split; [exact I4|]. split; auto. split; [|split; auto].
    intros a x b Hx. left. eapply I6; eauto.
  - subst w. destruct R3 as (Hst & Hpd & Hc). rewrite Hst, Hpd.
    replace (direction_eqb (opposite d) (opposite d) && status_eqb NotDone NotDone) with true by (destruct d; auto).
    destruct (step_spec (opposite d) q e (Some (opposite d))) as (r & q1 & e1 & x & E1 & E2 & E3 & E4 & E5 & E6 & E7 & E8 & E9 & E10); auto.
    rewrite E1. rewrite <- E2 in E4. destruct r.
    + rewrite (E9 eq_refl) in *. exists NotDone, q, e1, [x], {| position := next_step q; pending := Some (opposite d) |}.
      split; [reflexivity|]. split; [|split; [|split; [|split; [|split; [|split]]]]]; cbn.
      * repeat split; auto.
      * apply an_more with e1; auto. constructor.
      * apply ia_more with {| position := next_step q; pending := Some (opposite d) |}; auto. constructor.
      * intros [|? [|? ?]] y b [=]; auto.
      * intros [|? [|? ?]] y b [=]; subst; auto.
      * split; [discriminate|intros [H _]; discriminate].
      * split; [discriminate|auto].
    + destruct (proceed_spec d (S n) (with_direction q1 d) e1 None) as (s & q' & e' & evs & p' & I1 & I2 & I3 & I4 & I5 & I6 & I7 & I8); auto;
        [apply remaining_le; auto|].
      rewrite I1. exists s, q', e', ([x] ++ evs), p'. split; [reflexivity|]. split; auto. split; [econstructor; eauto|].
      split; [econstructor; eauto|]. split; [|split; [|tauto]].
      * intros [|y a] z b [= -> ->]; [congruence|]. apply (I5 a); auto.
      * intros [|y a] z b [= -> ->]; auto. left. eapply I6; eauto.
Qed.

Lemma history_spec ds : forall q e p, represents q p ->
  exists l q' e' p', history n call ds q e = Some (l, q', e') /\ map (fun x => fst (fst x)) l = ds /\ serves_all n call p e l p' e'.
Proof.
  induction ds as [|d ds IH]; intros q e p R.
  - exists [], q, e, p. repeat split; constructor.
  - cbn [history]. destruct (go_spec d q e p R) as (s & q1 & e1 & evs & p1 & E1 & E2 & E3 & E4). rewrite E1.
    destruct (IH q1 e1 p1 E2) as (l & q2 & e2 & p2 & I1 & I2 & I3). rewrite I1. exists ((d, s, evs) :: l), q2, e2, p2.
    split; [reflexivity|]. split; [cbn; congruence|]. econstructor; eauto.
Qed.
Lemma initial_represents : represents initial start.
Proof. repeat split; cbn; lia. Qed.
End Run.

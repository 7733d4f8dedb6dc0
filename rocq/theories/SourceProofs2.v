(** Lemmas for C106: logs of several threads. *)
From Coq Require Import String Ascii Bool Arith List NArith ZArith Lia.
From Verif Require Import LogModel LogSpec LogProofs LogProps SourceModel SourceSpec.
Import ListNotations.

(** The part of a thread in a history. *)
Definition part_of {A} (t : nat) (h : list (nat * A)) : list A := map snd (filter (fun x => fst x =? t) h).
Lemma lift_history {X B} (R : X -> B -> Prop) (hp : list (nat * B)) : forall Q : nat -> list X -> Prop,
  (forall t, exists xs, Q t xs /\ Forall2 R xs (part_of t hp)) ->
  exists hc : list (nat * X), Forall2 (fun c b => fst c = fst b /\ R (snd c) (snd b)) hc hp /\ forall t, Q t (part_of t hc).
Proof.
  induction hp as [|[t0 b] hp IH]; intros Q H.
  - exists []. split; [constructor|]. intros t. destruct (H t) as (xs & Hq & F). inversion F. subst. exact Hq.
  - assert (H0 := H t0). unfold part_of in H0. cbn [filter fst] in H0. rewrite Nat.eqb_refl in H0. destruct H0 as (xs0 & Hq0 & F0). cbn [map snd] in F0. inversion F0 as [|c ? xs0' ? R0 F0']; subst.
    destruct (IH (fun t l => if t =? t0 then Q t (c :: l) else Q t l)) as (hc & F & Hc).
    + intros t. destruct (Nat.eqb_spec t t0) as [->|N].
      * exists xs0'. auto.
      * destruct (H t) as (xs & Hq & Fx). exists xs. split; auto. unfold part_of in *. cbn [filter fst] in Fx. destruct (Nat.eqb_spec t0 t); [congruence|exact Fx].
    + exists ((t0, c) :: hc). split; [constructor; auto|]. intros t. specialize (Hc t). unfold part_of. cbn [filter fst]. destruct (Nat.eqb_spec t0 t) as [->|N].
      * rewrite Nat.eqb_refl in Hc. exact Hc.
      * destruct (Nat.eqb_spec t t0); [congruence|exact Hc].
Qed.
Lemma part_combine {A B} (R : A -> B -> Prop) (hc : list (nat * A)) ls : Forall2 R (map snd hc) ls ->
  exists h : list (nat * B), map snd h = ls /\ forall t, Forall2 R (part_of t hc) (part_of t h).
Proof.
  revert ls. induction hc as [|[t0 a] hc IH]; intros ls H; cbn [map snd] in H; inversion H as [|? l ? ls' H1 H2]; subst.
  - exists []. split; [reflexivity|]. intros t. constructor.
  - destruct (IH ls' H2) as (h & E & F). exists ((t0, l) :: h). split; [cbn [map snd]; congruence|]. intros t. specialize (F t). unfold part_of in *. cbn [filter fst]. destruct (t0 =? t); [cbn [map snd]; constructor; auto|exact F].
Qed.
Lemma part_in {A} (h : list (nat * A)) x : In x h -> In (snd x) (part_of (fst x) h).
Proof. intros H. unfold part_of. apply in_map, filter_In. split; auto. apply Nat.eqb_refl. Qed.

(** What a destination has at any time: whole packets, of each thread the first of
    its. *)
Lemma sink_prefix {W} dests (msgs : nat -> list (packet W)) s : NoDup (map d_sink dests) -> (forall d, In d dests -> d_type d <> None) ->
  reachable (fun t => flat_map (log_writes dests) (msgs t)) s ->
  forall d ty, In d dests -> d_type d = Some ty -> locks s ty = None -> exists h : list (nat * packet W),
    (forall t, exists later, part_of t h ++ later = msgs t) /\ sinks s (d_sink d) = concat (map snd h).
Proof.
  intros N T R d ty Hd Ht L. destruct (C67_whole _ s R) as (h & Hh & Hk).
  assert (U : forall d', In d' dests -> d_sink d' = d_sink d -> d' = d).
  { intros d' Hd' E. clear - N Hd Hd' E. induction dests as [|x dests IH]; [destruct Hd|]. cbn [map] in N. inversion_clear N as [|? ? N1 N2].
    destruct Hd as [->|Hd], Hd' as [->|Hd']; auto; exfalso; apply N1; [rewrite <- E|rewrite E]; apply in_map; auto. }
  assert (G : guarded (fun t => flat_map (log_writes dests) (msgs t)) (d_sink d) ty).
  { intros t d' q Hin Es. apply in_flat_map in Hin as (m & _ & Hin). apply in_map_iff in Hin as (d'' & [= <- <-] & Hd''). rewrite (U _ Hd'' Es). exact Ht. }
  destruct (Hk _ _ G) as (part & E & P). rewrite L in P. subst part. rewrite app_nil_r in E.
  exists (map (fun x => (fst x, snd (snd x))) (filter (fun x => d_sink (fst (snd x)) =? d_sink d) h)). split.
  - intros t. destruct (Hh t) as (later & Hl).
    assert (E1 : part_of t (map (fun x => (fst x, snd (snd x))) (filter (fun x => d_sink (fst (snd x)) =? d_sink d) h)) = map snd (filter (fun w => d_sink (fst w) =? d_sink d) (of_thread t h))).
    { unfold part_of, of_thread. clear. induction h as [|[t' [d' q]] h IH]; auto. cbn [filter fst snd]. destruct (d_sink d' =? d_sink d) eqn:E; cbn [map filter fst snd]; destruct (t' =? t) eqn:E'; cbn [map filter fst snd]; rewrite ?E; cbn [map snd]; rewrite ?IH; reflexivity. }
    assert (E2 : map snd (filter (fun w => d_sink (fst w) =? d_sink d) (flat_map (log_writes dests) (msgs t))) = msgs t).
    { assert (F : forall m, filter (fun w => d_sink (fst w) =? d_sink d) (@log_writes W dests m) = [(d, m)]).
      { intros m. unfold log_writes. clear - N Hd U. induction dests as [|x l IH]; [destruct Hd|]. cbn [map] in N. inversion_clear N as [|? ? N1 N2]. cbn [map filter fst].
        destruct (Nat.eqb_spec (d_sink x) (d_sink d)) as [E|E].
        - assert (x = d) by (apply U; [left; auto|exact E]). subst x. f_equal. clear - N1. induction l as [|y l IH]; auto. cbn [map filter fst]. destruct (Nat.eqb_spec (d_sink y) (d_sink d)) as [E|E]; [exfalso; apply N1; left; auto|]. apply IH. intros H. apply N1. right. auto.
        - destruct Hd as [->|Hd]; [congruence|]. apply IH; auto. intros d' Hd'. apply U. right. exact Hd'. }
      clear - F. induction (msgs t) as [|m l IH]; auto. cbn [flat_map]. rewrite filter_app, F, map_app. cbn [map snd app]. f_equal. exact IH. }
    exists (map snd (filter (fun w => d_sink (fst w) =? d_sink d) later)). rewrite E1, <- map_app, <- filter_app. etransitivity; [|exact E2]. f_equal. f_equal. exact Hl.
  - rewrite E. unfold to_sink. rewrite map_map. reflexivity.
Qed.

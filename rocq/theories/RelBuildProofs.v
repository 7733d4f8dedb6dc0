(** The release header is made of the files it looks at, and builds notice dependencies only. *)
From Coq Require Import String Bool Arith List Lia.
From Verif Require Import ReleaseModel ReleaseProofs ReleaseProps RelBuildModel RelBuildSpec.
Import ListNotations.
Local Open Scope string_scope.

Section Agree.
Variables (fs fs' : files) (root : string).
Hypothesis same : forall p, looked_at fs root p -> file fs' p = file fs p.
Lemma process_agrees k : forall p s, looked_at fs root p -> process fs' k p s = process fs k p s.
Proof.
  induction k as [|k IH]; intros p s L; [reflexivity|]. rewrite !process_step. destruct (mem p (visited s)); [reflexivity|]. rewrite (same p L).
  destruct (file fs p) as [ls|] eqn:F; [|reflexivity].
  assert (H : forall l, In l ls -> forall t w, l = Include t w -> looked_at fs root t) by (intros l I t w ->; eapply l_include; eauto).
  clear F. revert H. generalize (visit p s). induction ls as [|l ls IHl]; intros s0 H; [reflexivity|].
  assert (H' : forall l, In l ls -> forall t w, l = Include t w -> looked_at fs root t) by (intros x I; apply H; right; exact I).
  destruct l; cbn [lines]; try (apply IHl, H').
  assert (T : looked_at fs root target) by (eapply H; [left; reflexivity|reflexivity]).
  assert (E : exists_ fs' target = exists_ fs target) by (unfold exists_; rewrite (same _ T); reflexivity). rewrite E.
  destruct (exists_ fs target); [|apply IHl, H']. rewrite (IH _ _ T). destruct (process fs k target (note_include s0)); [apply IHl, H'|reflexivity].
Qed.
Lemma release_agrees : release fs' (S (List.length fs')) root = release fs (S (List.length fs)) root.
Proof.
  assert (K : forall k, release fs' k root = release fs k root) by (intros k; unfold release; rewrite (process_agrees k root start (l_root fs root)); reflexivity).
  destruct (file fs root) as [ls|] eqn:F.
  - destruct (C88_ends fs root) as (x & X); [eauto|]. destruct (C88_ends fs' root) as (y & Y); [rewrite (same root (l_root fs root)); eauto|].
    rewrite (X (S (List.length fs))) by lia. rewrite (Y (S (List.length fs'))) by lia.
    rewrite <- (X (S (List.length fs + List.length fs'))) by lia. rewrite <- (Y (S (List.length fs + List.length fs'))) by lia. apply K.
  - unfold release. rewrite !process_step. cbn [mem existsb visited start]. rewrite (same root (l_root fs root)), F. reflexivity.
Qed.
End Agree.
Lemma printed_same root t t' : looks_same root t t' -> printed (sources t') (version t') root = printed (sources t) (version t) root.
Proof. intros [V S]. unfold printed. rewrite V, (release_agrees (sources t) (sources t') root S). reflexivity. Qed.
Lemma printed_some fs v root : file fs root <> None -> exists text, printed fs v root = Some text.
Proof.
  intros F. destruct (C88_ends fs root) as (x & X); [destruct (file fs root); [eauto|congruence]|]. unfold printed. rewrite (X (S (List.length fs))) by lia. eexists. reflexivity.
Qed.

(** ** Changes *)
Lemma alter_made cs : forall t, made (alter_all cs t) = made t.
Proof. unfold alter_all. induction cs as [|c cs IH]; intros t; [reflexivity|]. cbn [fold_left]. rewrite IH. destruct c; reflexivity. Qed.
Lemma alter_times cs : forall t, (forall p, changed_at t p <= now t) -> now t <= now (alter_all cs t) /\ forall p, changed_at (alter_all cs t) p <= now (alter_all cs t).
Proof.
  unfold alter_all. induction cs as [|c cs IH]; intros t H; [split; [apply le_n|exact H]|]. cbn [fold_left].
  destruct (IH (alter t c)) as [I1 I2].
  - intros p. specialize (H p). destruct c as [r ls|r|v]; cbn [alter changed_at now]; [destruct (p =? r)| |]; lia.
  - split; [|exact I2]. assert (N : now t <= now (alter t c)) by (destruct c; cbn [alter now]; lia). lia.
Qed.
Lemma alter_grows cs : forall t p, changed_at t p <= now t -> (forall q, changed_at t q <= now t) -> changed_at t p <= changed_at (alter_all cs t) p.
Proof.
  unfold alter_all. induction cs as [|c cs IH]; intros t p L H; [apply le_n|]. cbn [fold_left].
  assert (G : changed_at t p <= changed_at (alter t c) p) by (destruct c as [r ls|r|v]; cbn [alter changed_at now]; [destruct (p =? r)| |]; lia).
  assert (H' : forall q, changed_at (alter t c) q <= now (alter t c)) by (intros q; specialize (H q); destruct c as [r ls|r|v]; cbn [alter changed_at now]; [destruct (q =? r)| |]; lia).
  specialize (IH (alter t c) p (H' p) H'). lia.
Qed.
Lemma alter_written cs : forall t p, (forall q, changed_at t q <= now t) -> Exists (writes p) cs -> now t < changed_at (alter_all cs t) p.
Proof.
  unfold alter_all. induction cs as [|c cs IH]; intros t p H E; [inversion E|]. cbn [fold_left].
  assert (H' : forall q, changed_at (alter t c) q <= now (alter t c)) by (intros q; specialize (H q); destruct c as [r ls|r|v]; cbn [alter changed_at now]; [destruct (q =? r)| |]; lia).
  inversion_clear E as [? ? W|? ? W].
  - destruct c as [r ls|r|v]; cbn [writes] in W; try contradiction. subst r. pose proof (alter_grows cs (alter t (Write p ls)) p (H' p) H') as G. unfold alter_all in G.
    assert (X : changed_at (alter t (Write p ls)) p = S (now t)) by (cbn [alter changed_at]; rewrite String.eqb_refl; reflexivity). lia.
  - specialize (IH (alter t c) p H' W). assert (N : now t <= now (alter t c)) by (destruct c; cbn [alter now]; lia). lia.
Qed.
Lemma alter_unwritten cs : forall t p, ~ Exists (writes p) cs -> changed_at (alter_all cs t) p = changed_at t p.
Proof.
  unfold alter_all. induction cs as [|c cs IH]; intros t p E; [reflexivity|]. cbn [fold_left]. rewrite IH by (intros X; apply E; right; exact X).
  destruct c; cbn; auto. destruct (String.eqb_spec p p0); [|reflexivity]. exfalso. apply E. left. cbn. auto.
Qed.

(** ** Builds *)
Definition timely (t : tree) : Prop := (forall p, changed_at t p <= now t) /\ (forall m o, made t = Some (m, o) -> m <= now t).
Lemma build_sources deps root t : sources (build deps root t) = sources t /\ version (build deps root t) = version t.
Proof. unfold build. destruct (_ || _); auto. Qed.
Lemma alter_timely cs t : timely t -> timely (alter_all cs t).
Proof. intros [H1 H2]. destruct (alter_times cs t H1) as [A B]. split; [exact B|]. intros m o E. rewrite alter_made in E. specialize (H2 m o E). lia. Qed.
Lemma build_timely deps root t : timely t -> timely (build deps root t).
Proof.
  intros [H1 H2]. unfold build. destruct (_ || _); [split; assumption|]. split; cbn.
  - intros p. specialize (H1 p). lia.
  - intros m o. destruct (printed _ _ _); cbn; intros [=]. lia.
Qed.
Lemma all_there (deps : list string) fs : (forall p, In p deps -> file fs p <> None) -> forallb (exists_ fs) deps = true.
Proof. intros H. apply forallb_forall. intros p I. unfold exists_. specialize (H p I). destruct (file fs p); [reflexivity|congruence]. Qed.
(** A build runs the script exactly if there is no header or a dependency is newer than it. *)
Lemma build_runs deps root t : (forall p, In p deps -> file (sources t) p <> None) ->
  made (build deps root t) = made t /\ (exists m o, made t = Some (m, o) /\ forall p, In p deps -> changed_at t p <= m) \/
  made (build deps root t) = option_map (fun text => (S (now t), text)) (printed (sources t) (version t) root) /\
    (made t = None \/ exists m o p, made t = Some (m, o) /\ In p deps /\ m < changed_at t p).
Proof.
  intros H. unfold build. rewrite (all_there deps _ H). cbn [negb orb]. destruct (made t) as [[m o]|] eqn:E.
  - destruct (forallb _ deps) eqn:F.
    + left. split; [exact E|]. exists m, o. split; [reflexivity|]. intros p I. rewrite forallb_forall in F. apply Nat.leb_le, F, I.
    + right. split; [reflexivity|]. right. exists m, o.
      assert (X : exists p, In p deps /\ Nat.leb (changed_at t p) m = false).
      { clear - F. induction deps as [|p l IH]; [discriminate|]. cbn [forallb] in F. destruct (Nat.leb (changed_at t p) m) eqn:L; [|exists p; split; [left; reflexivity|exact L]].
        destruct (IH F) as (q & I & Q). exists q. split; [right; exact I|exact Q]. }
      destruct X as (p & I & L). exists p. apply Nat.leb_gt in L. auto.
  - right. split; [reflexivity|]. left. reflexivity.
Qed.
(** The header is as old as the newest dependency at least. *)
Definition settled (deps : list string) (t : tree) : Prop := forall m o p, made t = Some (m, o) -> In p deps -> changed_at t p <= m.
Lemma build_settled deps root t : timely t -> (forall p, In p deps -> file (sources t) p <> None) -> settled deps (build deps root t).
Proof.
  intros [T1 T2] H m o p E I. destruct (build_runs deps root t H) as [[B (m' & o' & M & C)]|[B _]].
  - rewrite B in E. rewrite M in E. injection E as <- <-. assert (changed_at (build deps root t) p = changed_at t p) by (unfold build; destruct (_ || _); reflexivity). rewrite H0. apply C, I.
  - rewrite B in E. destruct (printed _ _ _); cbn in E; [|discriminate]. injection E as <- <-. assert (X : changed_at (build deps root t) p = changed_at t p) by (unfold build; destruct (_ || _); reflexivity).
    rewrite X. specialize (T1 p). lia.
Qed.

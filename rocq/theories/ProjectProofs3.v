(** Proofs about projects: starting with cib::top. *)
From Coq Require Import String Bool Arith List Permutation Lia.
From Verif Require Import FlowModel FlowSpec NexusModel NexusSpec NexusProofs NexusProofs2 ProjectModel ProjectSpec ProjectProofs ProjectProofs2.
Import ListNotations.

Section Quiet.
Context {W : Type} (pred : nat -> W -> bool) (act : nat -> W -> W) (body : nat -> list op) (nexus : nat -> config element).
Notation does := (does pred act body nexus).
Variable P : op -> Prop.
Inductive good : task -> Prop :=
| good_say lg x : good (TSay lg x)
| good_op own o : P o -> good (TOp own o)
| good_step own lg d : good (TStep own lg d)
| good_service n s : good (TService n s)
| good_seq l : (forall k, In k l -> good k) -> good (TSeq l).
Hypothesis bodies : forall f o, In o (body f) -> P o.
Lemma good_ops own f : good (ops_task own (body f)).
Proof. constructor. intros k Hk. apply in_map_iff in Hk as (o & <- & Ho). constructor. apply (bodies f o Ho). Qed.
(** Functions that start no nexus leave what is started. *)
Lemma does_started k m t m' : (forall n, ~ P (Start n)) -> does k m t m' -> good k -> started m' = started m.
Proof.
  intros N. induction 1; intros G; auto.
  - inversion G; subst. rewrite IHdoes2, IHdoes1; auto; [apply H3; left; auto|constructor; intros; apply H3; right; auto].
  - inversion G; subst. apply IHdoes, H2. left; auto.
  - apply IHdoes. constructor.
  - apply IHdoes. constructor.
  - apply IHdoes. constructor.
  - exfalso. inversion G; subst. apply (N n H0).
  - apply IHdoes. constructor. intros k [<-|[<-|[]]]; [constructor|apply good_ops].
  - apply IHdoes. constructor. intros k [<-|Hk]; [constructor|]. apply in_app_iff in Hk as [Hk|[<-|[]]]; [|constructor]. apply in_map_iff in Hk as (d & <- & _). constructor.
  - apply IHdoes. constructor. intros k Hk. apply in_map_iff in Hk as (f & <- & _). apply good_ops.
Qed.
(** If what they run is exported by the nexus started, nothing panics. *)
Variable n0 : nat.
Hypothesis no_start : forall n, ~ P (Start n).
Hypothesis has_service : forall s, P (Run s) -> exported s (nexus n0).
Hypothesis has_name : forall k, P (RunName k) -> names_returning nexus k 0 n0 = true.
Lemma serving_one (m : @moment W) s : started m = [n0] -> exported s (nexus n0) -> serving nexus m s = Some n0.
Proof.
  intros H E. unfold serving. rewrite H. cbn [map last_init]. replace (exportsb nexus n0 s) with true; auto. symmetry. apply existsb_exists. exists s. split; [apply exported_exports, E|apply svc_eqb_refl].
Qed.
Lemma does_safe k m t m' : does k m t m' -> good k -> started m = [n0] -> over m = false -> over m' = false /\ ~ In Panicked t.
Proof.
  intros D. induction D; intros G S O.
  1,2,3,6,14: (split; [exact O|]; intros Hin; repeat (destruct Hin as [Hin|Hin]; [discriminate|]); destruct Hin).
  - inversion G as [| | | |l' Hl]; subst. assert (Gk : good k) by (apply Hl; left; auto). destruct (IHD1 Gk S O) as [I1 I2].
    assert (Gl : good (TSeq l)) by (constructor; intros; apply Hl; right; auto).
    assert (S1 : started m1 = [n0]) by (rewrite (does_started _ _ _ _ no_start D1 Gk); auto). destruct (IHD2 Gl S1 I1) as [J1 J2].
    split; auto. intros I. apply in_app_iff in I as [I|I]; contradiction.
  - inversion G as [| | | |l' Hl]; subst. assert (Gk : good k) by (apply Hl; left; auto). destruct (IHD Gk S O) as [I1 I2]. congruence.
  - apply IHD; auto. constructor.
  - exfalso. inversion G; subst. rewrite (serving_one _ _ S (has_service _ H1)) in H. discriminate.
  - apply IHD; auto. constructor.
  - exfalso. inversion G; subst. unfold serving_name in H. rewrite S in H. cbn [map last_init] in H. rewrite (has_name _ H1) in H. discriminate.
  - apply IHD; auto. constructor.
  - exfalso. inversion G; subst. apply (no_start n H0).
  - apply IHD; auto. constructor. intros k [<-|[<-|[]]]; [constructor|apply good_ops].
  - apply IHD; auto. constructor. intros k [<-|Hk]; [constructor|]. apply in_app_iff in Hk as [Hk|[<-|[]]]; [|constructor]. apply in_map_iff in Hk as (d & <- & _). constructor.
  - apply IHD; auto. constructor. intros k Hk. apply in_map_iff in Hk as (f & <- & _). apply good_ops.
Qed.
(** Running services of the only nexus. *)
Lemma run_services own l : forall m t m', does (TSeq (map (TOp own) (map Run l))) m t m' -> started m = [n0] ->
  (forall s, In s l -> exported s (nexus n0)) -> does (TSeq (map (TService n0) l)) m t m'.
Proof.
  induction l as [|s l IH]; intros m t m' D S E; cbn [map] in *; [exact D|]. assert (Es := E s (or_introl eq_refl)).
  assert (R : forall u m1, does (TOp own (Run s)) m u m1 -> does (TService n0 s) m u m1).
  { intros u m1 D1. inversion D1; subst; rewrite (serving_one _ _ S Es) in *; [|discriminate]. match goal with H : Some _ = Some _ |- _ => injection H as <- end. auto. }
  inversion D; subst.
  - match goal with H : does (TOp own (Run s)) m _ _ |- _ => apply R in H; rename H into D1 end. eapply does_next; eauto. apply IH; auto; [|intros; apply E; right; auto].
    rewrite (does_started _ _ _ _ no_start D1); auto. constructor.
  - eapply does_stop; eauto.
Qed.
End Quiet.

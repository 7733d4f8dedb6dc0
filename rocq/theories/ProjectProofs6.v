(** Proofs about projects: the arrangement of components, and interrupts. *)
From Coq Require Import String Bool Arith List Permutation Relations Lia.
From Verif Require Import FlowModel FlowSpec FlowProofs FlowProofs3 FlowProps NexusModel NexusSpec NexusProofs NexusProofs2 ProjectModel ProjectSpec ProjectProofs ProjectProofs2 ProjectProofs4.
Import ListNotations.

Lemma all_some_perm {A} (l l' : list (option A)) : Permutation l l' -> forall r, all_some l = Some r -> exists r', all_some l' = Some r' /\ Permutation r r'.
Proof.
  intros P r H. apply all_some_Forall2 in H. subst. apply Permutation_sym, Permutation_map_inv in P as (r' & -> & P). exists r'. split; [apply all_some_Forall2; auto|exact P].
Qed.
Lemma fragments_perm l l' b : Permutation l l' -> fragments l = Some b -> exists b', fragments l' = Some b' /\ Permutation b b'.
Proof. intros P. apply all_some_perm. apply Permutation_map, P. Qed.
Lemma functions_perm l l' b : Permutation l l' -> functions l = Some b -> exists b', functions l' = Some b' /\ Permutation b b'.
Proof. intros P. apply all_some_perm. apply Permutation_map, P. Qed.
Lemma find_fst {A} (l : list (svc * A)) p : NoDup (map fst l) -> In p l -> find (fun q => svc_eqb (fst p) (fst q)) l = Some p.
Proof.
  induction l as [|q l IH]; cbn [map find]; [intros _ []|]. intros N [->|I].
  - rewrite svc_eqb_refl. reflexivity.
  - inversion N as [|? ? Nq Nl]; subst. destruct (svc_eqb (fst p) (fst q)) eqn:E; auto. apply svc_eqb_eq in E. destruct Nq. rewrite <- E. apply in_map, I.
Qed.
Lemma services_builds pops enum x : services pops enum x <> None <-> exists bs, builders element_when x = Some bs /\ forall s items, builder_of bs s = Some items -> build_service pops enum s items <> None.
Proof.
  unfold services. destruct (builders element_when x) as [bs|] eqn:E; [|split; [congruence|intros (bs & H & _); discriminate]].
  destruct (builders_services element_when x bs E) as [N _]. split.
  - intros H. exists bs. split; auto. intros s items B. destruct (all_some _) as [r|] eqn:R in H; [|congruence]. apply all_some_Forall2 in R. unfold builder_of in B.
    destruct (find _ bs) as [[s' it]|] eqn:F; [|discriminate]. injection B as <-. apply find_some in F as [F1 F2]. cbn [fst] in F2. apply svc_eqb_eq in F2. subst s'.
    apply (in_map (fun p => option_map (pair (fst p)) (build_service pops enum (fst p) (snd p)))) in F1. rewrite R in F1. apply in_map_iff in F1 as (i & F1 & _). cbn [fst snd] in F1.
    cbn [snd]. destruct (build_service pops enum s it); [discriminate|discriminate F1].
  - intros (bs' & [= <-] & H). assert (Q : forall p, In p bs -> build_service pops enum (fst p) (snd p) <> None).
    { intros p Hp. apply H. unfold builder_of. rewrite (find_fst bs p N Hp). reflexivity. }
    clear - Q. induction bs as [|p bs IH]; [discriminate|]. cbn [map all_some]. assert (Qp := Q p (or_introl eq_refl)). destruct (build_service pops enum (fst p) (snd p)); [|congruence]. cbn [option_map].
    destruct (all_some _) as [r|] eqn:R; [discriminate|]. exfalso. apply IH; auto. intros. apply Q. right. auto.
Qed.
Section Rearranging.
Variables (pops pops' : nat -> list node -> option (node * list node)) (enum enum' : nat -> list node -> list node).
Hypotheses (Hp : pops_some pops) (He : enumerates enum) (Hp' : pops_some pops') (He' : enumerates enum').
Lemma build_service_perm s l l' : Permutation l l' ->
  match build_service pops enum s l, build_service pops' enum' s l' with
  | None, None => True
  | Some (FlowImpl n o), Some (FlowImpl n' o') => n = n' /\ Permutation o o'
  | Some (CallbackImpl fs), Some (CallbackImpl fs') => Permutation fs fs'
  | _, _ => False
  end.
Proof.
  intros P. unfold build_service. destruct (s_name s) as [n|].
  - destruct (fragments l) as [b|] eqn:F.
    + destruct (fragments_perm _ _ _ P F) as (b' & -> & Pb). destruct (C32_same_flow pops enum pops' enum' b b' Hp He Hp' He' Pb) as [S _].
      destruct (build pops enum b), (build pops' enum' b'); cbn in S; try contradiction; auto.
    + destruct (fragments l') as [b'|] eqn:F'; auto. destruct (fragments_perm _ _ _ (Permutation_sym P) F') as (b & Hb & _). congruence.
  - destruct (functions l) as [b|] eqn:F.
    + destruct (functions_perm _ _ _ P F) as (b' & -> & Pb). exact Pb.
    + destruct (functions l') as [b'|] eqn:F'; [|exact I]. destruct (functions_perm _ _ _ (Permutation_sym P) F') as (b & Hb & _). congruence.
Qed.
Lemma builder_both x y bs bs' s items' : same_parts x y -> builders element_when x = Some bs -> builders element_when y = Some bs' -> builder_of bs' s = Some items' -> exists items, builder_of bs s = Some items.
Proof.
  intros P E E' B. assert (X := builder_exported element_when y bs' s items' E' B). apply exported_exports in X.
  apply (Permutation_in _ (Permutation_sym (sp_exports _ _ P))) in X. destruct (builders_services element_when x bs E) as [N H]. apply H in X. apply in_map_iff in X as (p & <- & X).
  exists (snd p). unfold builder_of. rewrite (find_fst bs p N X). reflexivity.
Qed.
Lemma services_same x y : same_parts x y -> clear_names x -> services pops enum x <> None -> services pops' enum' y <> None.
Proof.
  intros P U H. apply services_builds in H as (bs & E & H). apply services_builds.
  assert (S : builders element_when y <> None). { apply builders_sensible. apply (sensible_same element_when x y); auto. apply builders_sensible. congruence. }
  destruct (builders element_when y) as [bs'|] eqn:E'; [|congruence]. exists bs'. split; auto. intros s items' B'.
  destruct (builder_both x y bs bs' s items' P E E' B') as (items & B). assert (Pi := items_same element_when x y bs bs' s items items' P U E E' B B').
  assert (K := build_service_perm s items items' Pi). specialize (H s items B). destruct (build_service pops enum s items) as [i|]; [|congruence].
  destruct (build_service pops' enum' s items'); [discriminate|]. destruct i; contradiction.
Qed.
Lemma impl_of_services x s i : impl_of pops enum x s = Some i -> services pops enum x <> None.
Proof. unfold impl_of. destruct (services pops enum x); discriminate. Qed.
Lemma impl_same x y s i i' : same_parts x y -> clear_names x -> impl_of pops enum x s = Some i -> impl_of pops' enum' y s = Some i' ->
  match i, i' with
  | FlowImpl n o, FlowImpl n' o' => n = n' /\ Permutation o o'
  | CallbackImpl fs, CallbackImpl fs' => Permutation fs fs'
  | _, _ => False
  end.
Proof.
  intros P U I I'. destruct (impl_builder _ _ _ _ _ I) as (bs & items & E & B & S), (impl_builder _ _ _ _ _ I') as (bs' & items' & E' & B' & S').
  assert (K := build_service_perm s items items' (items_same element_when x y bs bs' s items items' P U E E' B B')). rewrite S, S' in K. exact K.
Qed.
End Rearranging.

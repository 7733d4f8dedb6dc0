(** Theorems C35 and C57. *)
From Coq Require Import String Bool Arith List Permutation.
From Verif Require FlowModel FlowSpec.
From Verif Require Import SeqModel SeqSpec SeqProofs SeqProofs2.
Import ListNotations.
Open Scope string_scope.

(** C35: for every number of steps, every behaviour of the step functions and
    every history of forward() and backward() calls, the sequencer never leaves
    its step vectors and answers every call correctly. *)
Theorem C35_sequencer : forall (Env : Type) n (call : direction -> nat -> Env -> status * Env) ds e,
  exists l q e' p, history n call ds initial e = Some (l, q, e') /\ map (fun x => fst (fst x)) l = ds /\
    serves_all n call start e l p e'.
Proof. intros. apply history_spec, initial_represents. Qed.
(** Three steps; the second needs two attempts forward, and turning round while
    it is pending finishes it first. *)
Definition slow (d : direction) (i : nat) (tries : nat) : status * nat :=
  match d, i with
  | Forward, 1 => match tries with 0 => (NotDone, 1) | S _ => (Done, tries) end
  | _, _ => (Done, tries)
  end.
Example C35_case :
  option_map (fun r => map (fun x => (snd (fst x), map (fun v => (i_dir v, i_step v)) (snd x))) (fst (fst r)))
    (history 3 slow [Forward; Backward; Forward; Forward] initial 0) =
  Some [(NotDone, [(Forward, 0); (Forward, 1)]);
        (Done, [(Forward, 1); (Backward, 1); (Backward, 0)]);
        (Done, [(Forward, 0); (Forward, 1); (Forward, 2)]);
        (Done, [])].
Proof. vm_compute. reflexivity. Qed.
Print Assumptions C35_sequencer.

(** C57 fails: a step added without the star is accepted, and the sequencer
    holds a null function for it. *)
Definition pop_last (t : nat) (l : list rt_step) : option (rt_step * list rt_step) :=
  match rev l with [] => None | x :: r => Some (x, rev r) end.
Definition in_order (t : nat) (l : list rt_step) : list rt_step := l.
Theorem C57_refuted : exists b s o, declares b s /\ s_funcs s <> None /\ seq_build pop_last in_order b = Some (o, []) /\ o = [None].
Proof.
  exists [SLeaf (step_of "S" 1 2)], (step_of "S" 1 2). eexists. split; [exists (SLeaf (step_of "S" 1 2)); cbn; auto using oc_self|].
  split; [discriminate|]. split; vm_compute; reflexivity.
Qed.
(** A starred composite loses the functions of all its steps, whatever they
    were declared with: null steps are equal, so two parallel ones collapse into
    one, and two in sequence look like a cycle and leave an empty sequencer. *)
Theorem C57_composite_refuted : forall f1 b1 f2 b2, let A := SLeaf (star_step (step_of "A" f1 b1)) in let B := SLeaf (star_step (step_of "B" f2 b2)) in
  (exists g, SeqModel.star (SPar A B false) = Some g /\ seq_build pop_last in_order [g] = Some ([None], [])) /\
  (exists g, SeqModel.star (SSeq A B false) = Some g /\ seq_build pop_last in_order [g] = Some ([], [(None, [None])])).
Proof. intros. split; eexists; (split; [reflexivity|]); vm_compute; reflexivity. Qed.
(** What each node holds: nothing if its type is unstarred, otherwise the
    functions of the first leaf of that name. *)
Theorem C57_exact : forall b ns k, seq_nodes b = Some ns -> In k ns ->
  (s_starred k = false -> s_funcs k = None) /\
  (s_starred k = true -> exists a s c, flat_map leaves b = (a ++ s :: c)%list /\ (forall t, In t a -> s_name t <> s_name k) /\
     s_name s = s_name k /\ s_funcs k = s_funcs s).
Proof. intros. eapply nodes_functions; eauto. Qed.
(** A starred composite that mentions a step by its name only does not compile, at any depth;
    all else does. *)
Theorem C57_reference : forall b, seq_nodes b = None <->
  exists g h x, In g b /\ occurs h g /\ occurs (SRef x) h /\ ((exists l r, h = SSeq l r true) \/ (exists l r, h = SPar l r true)).
Proof.
  assert (Href : forall g, has_ref g = true <-> exists x, occurs (SRef x) g).
  { induction g as [s|y|l IHl r IHr v|l IHl r IHr v]; cbn.
    - split; [discriminate|intros [x H]; inversion H].
    - split; [intros _; exists y; constructor|auto].
    - rewrite orb_true_iff, IHl, IHr. split; [intros [[x H]|[x H]]; exists x; [apply oc_seq_l|apply oc_seq_r]; auto|].
      intros [x H]. inversion H; subst; eauto.
    - rewrite orb_true_iff, IHl, IHr. split; [intros [[x H]|[x H]]; exists x; [apply oc_par_l|apply oc_par_r]; auto|].
      intros [x H]. inversion H; subst; eauto. }
  assert (Htr : forall a b c, occurs a b -> occurs b c -> occurs a c).
  { intros a b c Hab Hbc. induction Hbc; auto; [apply oc_seq_l|apply oc_seq_r|apply oc_par_l|apply oc_par_r]; auto. }
  set (starred := fun h => (exists l r, h = SSeq l r true) \/ (exists l r, h = SPar l r true)).
  assert (Hty : forall g, node_types g = None <-> exists h x, occurs h g /\ occurs (SRef x) h /\ starred h).
  { induction g as [s|y|l IHl r IHr v|l IHl r IHr v].
    - split; [discriminate|intros (h & x & H & _ & S)]. inversion H; subst. destruct S as [(? & ? & S)|(? & ? & S)]; discriminate.
    - split; [discriminate|intros (h & x & H & _ & S)]. inversion H; subst. destruct S as [(? & ? & S)|(? & ? & S)]; discriminate.
    - destruct v; cbn [node_types].
      + destruct (has_ref l || has_ref r) eqn:E; (split; [intros H|intros (h & x & H1 & H2 & S)]); try reflexivity; try discriminate.
        * apply (Href (SSeq l r true)) in E as [x Hx]. exists (SSeq l r true), x. split; [constructor|]. split; [exact Hx|]. left. eauto.
        * exfalso. assert (X : has_ref (SSeq l r true) = true).
          { apply Href. exists x. exact (Htr _ _ _ H2 H1). }
          cbn in X. congruence.
      + destruct (node_types l) eqn:El; [destruct (node_types r) eqn:Er|]; (split; [intros H|intros (h & x & H1 & H2 & S)]); try reflexivity; try discriminate.
        * exfalso. inversion H1; subst; [destruct S as [(? & ? & S)|(? & ? & S)]; discriminate| |].
          -- assert (X : Some l0 = None) by (apply IHl; eauto). discriminate.
          -- assert (X : Some l1 = None) by (apply IHr; eauto). discriminate.
        * destruct (proj1 IHr eq_refl) as (h & x & H1 & H2 & S). exists h, x. split; [apply oc_seq_r; auto|auto].
        * destruct (proj1 IHl eq_refl) as (h & x & H1 & H2 & S). exists h, x. split; [apply oc_seq_l; auto|auto].
    - destruct v; cbn [node_types].
      + destruct (has_ref l || has_ref r) eqn:E; (split; [intros H|intros (h & x & H1 & H2 & S)]); try reflexivity; try discriminate.
        * apply (Href (SPar l r true)) in E as [x Hx]. exists (SPar l r true), x. split; [constructor|]. split; [exact Hx|]. right. eauto.
        * exfalso. assert (X : has_ref (SPar l r true) = true).
          { apply Href. exists x. exact (Htr _ _ _ H2 H1). }
          cbn in X. congruence.
      + destruct (node_types l) eqn:El; [destruct (node_types r) eqn:Er|]; (split; [intros H|intros (h & x & H1 & H2 & S)]); try reflexivity; try discriminate.
        * exfalso. inversion H1; subst; [destruct S as [(? & ? & S)|(? & ? & S)]; discriminate| |].
          -- assert (X : Some l0 = None) by (apply IHl; eauto). discriminate.
          -- assert (X : Some l1 = None) by (apply IHr; eauto). discriminate.
        * destruct (proj1 IHr eq_refl) as (h & x & H1 & H2 & S). exists h, x. split; [apply oc_par_r; auto|auto].
        * destruct (proj1 IHl eq_refl) as (h & x & H1 & H2 & S). exists h, x. split; [apply oc_par_l; auto|auto]. }
  intro b. unfold seq_nodes.
  assert (Hall : FlowModel.all_some (map node_types b) = None <-> exists g, In g b /\ node_types g = None).
  { induction b as [|g b IH]; cbn; [split; [discriminate|intros (g & [] & _)]|].
    destruct (node_types g) eqn:E.
    - destruct (FlowModel.all_some (map node_types b)) eqn:F; cbn; (split; [intros H|intros (k & [<-|Hk] & K)]); try congruence.
      + assert (X : Some l0 = None) by (apply IH; eauto). discriminate.
      + destruct (proj1 IH eq_refl) as (k & Hk & K). eauto.
    - split; [intros _; eauto|auto]. }
  destruct (FlowModel.all_some (map node_types b)) eqn:E.
  - split; [discriminate|]. intros (g & h & x & Hg & H). assert (X : Some l = None) by (apply Hall; exists g; split; auto; apply Hty; eauto). discriminate.
  - split; [intros _|auto]. destruct (proj1 Hall eq_refl) as (g & Hg & H). apply Hty in H as (h & x & H). exists g, h, x. auto.
Qed.
Print Assumptions C57_reference.
Example C57_reference_case : seq_nodes [SPar (SLeaf (star_step (step_of "A" 1 2))) (SSeq (SLeaf (step_of "B" 3 4)) (SRef "A") true) false] = None /\
  seq_nodes [SPar (SLeaf (star_step (step_of "A" 1 2))) (SSeq (SLeaf (star_step (step_of "B" 3 4))) (SRef "A") false) false] <> None.
Proof. vm_compute. split; congruence. Qed.
(** When every step is starred by itself: the description builds exactly when
    every name is declared once and every reference resolves; the sequencer
    holds each declared step with its own functions exactly once, in an order
    respecting all sequences; edges are left over exactly if they are cyclic. *)
Theorem C57_partial : forall pops enum b, FlowSpec.pops_some pops -> FlowSpec.enumerates enum -> each_starred b ->
  ((exists r, seq_build pops enum b = Some r) <->
     NoDup (map s_name (flat_map leaves b)) /\ incl (flat_map mention b) (map s_name (flat_map leaves b))) /\
  forall o g, seq_build pops enum b = Some (o, g) ->
    (g <> [] <-> FlowSpec.cyclic (sequenced b)) /\
    (g = [] -> NoDup o /\ (forall k, In k o <-> exists s, declares b s /\ calls_of s k) /\
       forall s t ks kt, declares b s -> declares b t -> calls_of s ks -> calls_of t kt -> sequenced b (s_name s) (s_name t) ->
         FlowSpec.before o ks kt).
Proof.
  intros pops enum b Hp He Hs. split; [apply seq_builds; auto|]. intros o g H.
  destruct (seq_order pops enum Hp He b o g Hs H) as (H1 & H2 & H3). split; auto. intros Hg. destruct (H3 Hg) as [P O].
  assert (Hf : forall s, declares b s -> s_funcs s <> None) by (intros s Hd; apply Hs in Hd; tauto).
  split; auto. split.
  - intros k. split.
    + intros Hk. apply (Permutation_in _ P) in Hk. apply in_map_iff in Hk. destruct Hk as (s & <- & Hin). apply declares_leaves in Hin.
      exists s. split; auto. apply calls_rt; auto.
    + intros (s & Hd & Hc). apply calls_rt in Hc; auto. subst k. apply (Permutation_in _ (Permutation_sym P)). apply in_map. apply declares_leaves; auto.
  - intros s t ks kt Ds Dt Cs Ct Hq. apply calls_rt in Cs, Ct; auto. subst. auto.
Qed.
Fixpoint plain (g : description) : bool :=
  match g with SSeq l r v | SPar l r v => negb v && plain l && plain r | _ => true end.
Lemma plain_spec g : plain g = true -> forall l r v, occurs (SSeq l r v) g \/ occurs (SPar l r v) g -> v = false.
Proof.
  induction g as [s|x|l IHl r IHr v|l IHl r IHr v]; cbn; intros H l' r' v' Ho; [destruct Ho as [Ho|Ho]; inversion Ho..| |];
    apply andb_true_iff in H; destruct H as [H Hr]; apply andb_true_iff in H; destruct H as [H Hl]; apply negb_true_iff in H;
    destruct Ho as [Ho|Ho]; inversion Ho; subst; eauto.
Qed.
Example C57_case : let st x f b := SLeaf (star_step (step_of x f b)) in
  let b := [SSeq (st "A" 1 2) (SPar (st "B" 3 4) (st "C" 5 6) false) false; SSeq (SRef "C") (SRef "B") false] in
  each_starred b /\ seq_build pop_last in_order b = Some ([Some (1, 2, "A"); Some (5, 6, "C"); Some (3, 4, "B")], []).
Proof.
  cbn. split; [|vm_compute; reflexivity]. split.
  - intros s Hd. apply declares_leaves in Hd. cbn in Hd. destruct Hd as [<-|[<-|[<-|[]]]]; split; auto; discriminate.
  - intros g l r v [<-|[<-|[]]]; apply plain_spec; reflexivity.
Qed.
Print Assumptions C57_refuted.
Print Assumptions C57_composite_refuted.
Print Assumptions C57_exact.
Print Assumptions C57_partial.

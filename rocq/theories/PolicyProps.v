(** Theorems about policies: C135, C136. *)
From Coq Require Import String Bool Arith List NArith Lia Permutation.
From Verif Require Import IrqModel IrqSpec IrqProofs IrqProofs2 IrqProps PolicyModel PolicySpec.
Import ListNotations.
Open Scope string_scope.

(** ** C135 *)
Lemma select_says (f : policy -> option bool) (d : policy) ps o : says f ps o ->
  f (select d (fun p => match f p with Some _ => true | None => false end) ps) = match o with Some b => Some b | None => f d end.
Proof.
  unfold select. intros H. induction H as [|p ps b E|p ps o E H IH]; cbn [existsb filter].
  - reflexivity.
  - rewrite E. cbn [orb hd]. exact E.
  - rewrite E. cbn [orb]. exact IH.
Qed.
Lemma says_total f ps : exists o, says f ps o.
Proof.
  induction ps as [|p ps (o & IH)]; [exists None; constructor|]. destruct (f p) as [b|] eqn:E; [exists (Some b); now apply says_first|exists o; now apply says_later].
Qed.
(** What a call does: it propagates and ignores unknowns as the first policies that
    say so do, and without such policies does neither. *)
Theorem C135_chosen : forall h r v ts ns ps s u g, says on_unknowns ps u -> says on_propagation ps g ->
  let ignore := match u with Some b => b | None => false end in
  let up := match g with Some b => b | None => false end in
  call_types h r v ts ps s = switch h r v up ignore ts s /\ call_names h r v ns ps s = switch_names h r v ignore ns s.
Proof.
  intros h r v ts ns ps s u g Hu Hg. cbn zeta. unfold call_types, call_names, ignores, propagates.
  assert (U := select_says on_unknowns error_unknowns ps u Hu). assert (G := select_says on_propagation no_propagate ps g Hg).
  change (fun p => match on_unknowns p with Some _ => true | None => false end) with is_unknown in U.
  change (fun p => match on_propagation p with Some _ => true | None => false end) with is_propagate in G.
  rewrite U, G. destruct u, g; auto.
Qed.
Print Assumptions C135_chosen.
(** So with at most one policy on each matter the order of the policies, and what
    else is among them, makes no difference. *)
Lemma at_most_cons f p ps : at_most_one f (p :: ps) -> at_most_one f ps.
Proof. intros H a b pre mid post E. apply (H a b (p :: pre) mid post). now rewrite E. Qed.
Lemma at_most_head f p ps q : at_most_one f (p :: ps) -> In q ps -> f p = None \/ f q = None.
Proof. intros H I. apply in_split in I as (a & b & ->). now apply (H p q [] a b). Qed.
Lemma says_in f ps b : at_most_one f ps -> (says f ps (Some b) <-> exists p, In p ps /\ f p = Some b).
Proof.
  induction ps as [|p ps IH]; intros H.
  - split; [intros X; inversion X|intros (p & [] & _)].
  - specialize (IH (at_most_cons _ _ _ H)). split.
    + intros X. inversion X; subst.
      * exists p. split; [now left|auto].
      * destruct (proj1 IH ltac:(assumption)) as (q & I & E). exists q. split; [now right|exact E].
    + intros (q & [->|I] & E); [now constructor|]. destruct (at_most_head f p ps q H I) as [N|N]; [|congruence].
      apply says_later; [exact N|]. apply IH. eauto.
Qed.
Lemma says_det f ps o o' : says f ps o -> says f ps o' -> o = o'.
Proof. intros H. revert o'. induction H; intros o' H'; inversion H'; subst; try congruence; auto. Qed.
Lemma at_most_none f ps : says f ps None -> forall p, In p ps -> f p = None.
Proof.
  induction ps as [|p ps IH]; intros H q I; [destruct I|]. inversion H; subst. destruct I as [<-|I]; auto.
Qed.
Theorem C135_order : forall h r v ts ns ps ps' s,
  at_most_one on_unknowns ps -> at_most_one on_propagation ps -> at_most_one on_unknowns ps' -> at_most_one on_propagation ps' ->
  (forall p, is_unknown p || is_propagate p = true -> (In p ps <-> In p ps')) ->
  call_types h r v ts ps s = call_types h r v ts ps' s /\ call_names h r v ns ps s = call_names h r v ns ps' s.
Proof.
  intros h r v ts ns ps ps' s U G U' G' I.
  assert (K : forall f qs qs', at_most_one f qs -> at_most_one f qs' -> (forall p, f p <> None -> (In p qs <-> In p qs')) -> forall o, says f qs o -> says f qs' o).
  { intros f qs qs' A A' J o S. destruct (says_total f qs') as (o' & S'). enough (o = o') by congruence.
    destruct o as [b|], o' as [b'|]; auto.
    - apply (says_in f qs b A) in S as (p & Ip & Ep). apply J in Ip; [|congruence].
      assert (S : says f qs' (Some b)) by (apply says_in; eauto). exact (says_det _ _ _ _ S S').
    - apply (says_in f qs b A) in S as (p & Ip & Ep). apply J in Ip; [|congruence]. rewrite (at_most_none _ _ S' _ Ip) in Ep. discriminate.
    - apply (says_in f qs' b' A') in S' as (p & Ip & Ep). apply J in Ip; [|congruence]. rewrite (at_most_none _ _ S _ Ip) in Ep. discriminate. }
  destruct (says_total on_unknowns ps) as (u & Su). destruct (says_total on_propagation ps) as (g & Sg).
  assert (Su' : says on_unknowns ps' u).
  { apply (K on_unknowns ps ps'); auto. intros p N. apply I. unfold is_unknown. destruct (on_unknowns p); [reflexivity|congruence]. }
  assert (Sg' : says on_propagation ps' g).
  { apply (K on_propagation ps ps'); auto. intros p N. apply I. unfold is_propagate. destruct (on_propagation p); [apply orb_true_r|congruence]. }
  destruct (C135_chosen h r v ts ns ps s u g Su Sg) as [-> ->]. destruct (C135_chosen h r v ts ns ps' s u g Su' Sg') as [-> ->]. auto.
Qed.
Print Assumptions C135_order.
(** Both orders of two policies, and a type that is no policy; two of a kind in two
    orders. *)
Definition odd_ : policy := {| on_unknowns := None; on_propagation := None |}.
Example C135_case :
  let regs ps := option_map (fun s => registers s 0) (call_types one_reg sys false [Flow 1; Flow 2; Flow 9] ps (init one_reg sys all_on none_already blank)) in
  regs [propagate; ignore_unknowns] = Some 0%N /\ regs [ignore_unknowns; odd_; propagate] = Some 0%N /\
  regs [propagate] = None /\ regs [ignore_unknowns] = Some 3%N /\ regs [ignore_unknowns; error_unknowns] = Some 3%N /\ regs [error_unknowns; ignore_unknowns] = None /\
  at_most_one on_unknowns [ignore_unknowns; odd_; propagate] /\ at_most_one on_propagation [ignore_unknowns; odd_; propagate].
Proof.
  cbn zeta. do 6 (split; [vm_compute; reflexivity|]).
  assert (F : forall f : policy -> option bool, (List.length (filter (fun p => match f p with Some _ => true | None => false end) [ignore_unknowns; odd_; propagate]) <= 1)%nat ->
    at_most_one f [ignore_unknowns; odd_; propagate]).
  { intros f H p q pre mid post E. rewrite E in H. rewrite filter_app in H. cbn [filter] in H. rewrite app_length in H.
    destruct (f p) as [b|]; [right|auto]. destruct (f q) as [c|] eqn:Q; [|reflexivity]. exfalso.
    cbn [List.length] in H. rewrite filter_app in H. cbn [filter] in H. rewrite Q, app_length in H. cbn [List.length] in H. lia. }
  split; apply F; cbn; lia.
Qed.

(** ** C136 *)
(** The policy with all interrupts active. *)
Definition any_irq (p : init_policy) : init_policy := {| for_resources := for_resources p; for_flows := for_flows p; for_irqs := None |}.
Lemma starts_spec p e r :
  (forall t, e t = known r t && match t with Name _ => true | _ => activates p t end) ->
  forall x, in_tree r x -> (should_be_on e x <-> starts_on (any_irq p) x).
Proof.
  intros He.
  assert (A : forall t, (match t with Name _ => true | _ => activates p t end) = true <-> chosen (any_irq p) t).
  { intros [n|n|n]; cbn [activates chosen listed any_irq for_resources for_flows for_irqs]; [| |tauto].
    - destruct (for_resources p); [apply memb_spec|cbn; tauto].
    - destruct (for_flows p); [apply memb_spec|cbn; tauto]. }
  assert (K : forall y t, in_tree r y -> mentions y t -> (e t = true <-> chosen (any_irq p) t)).
  { intros y t Hy Hm. rewrite He, andb_true_iff, A. assert (known r t = true) by (apply known_spec; eauto). tauto. }
  intros x. induction x as [i cs IH] using irq_induction. intros Hx.
  assert (Hc : forall c, In c cs -> in_tree r c).
  { intros c Hc. destruct Hx as (z & Hz & Hb). exists z. split; auto. eapply below_trans; [exact Hb|]. econstructor; [exact Hc|constructor]. }
  assert (KN := K (Irq i cs) (Name (i_name i)) Hx eq_refl).
  assert (KR : forall n, In n (i_resources i) -> (e (Resource n) = true <-> chosen (any_irq p) (Resource n))) by (intros n Hn; exact (K (Irq i cs) (Resource n) Hx Hn)).
  assert (KF : forall n, In n (i_flows i) -> (e (Flow n) = true <-> chosen (any_irq p) (Flow n))) by (intros n Hn; exact (K (Irq i cs) (Flow n) Hx Hn)).
  split; intros H; inversion H as [? ? f HN HR Hf He'|? ? c HN HR Hin Ho]; subst.
  - eapply starts_by_flow; [now apply KN| |exact Hf|now apply KF]. intros n Hn. apply KR; auto.
  - eapply starts_by_child; [now apply KN| |exact Hin|now apply (IH c Hin (Hc c Hin))]. intros n Hn. apply KR; auto.
  - eapply on_by_flow; [now apply KN| |exact Hf|now apply KF]. intros n Hn. apply KR; auto.
  - eapply on_by_child; [now apply KN| |exact Hin|now apply (IH c Hin (Hc c Hin))]. intros n Hn. apply KR; auto.
Qed.
(** After init the enable fields of all interrupts not given as already enabled show
    what the policy says of resources and flows; those given stay enabled. *)
Theorem C136_exact : forall h r, layout_ok h r -> forall p already s, before_init h r already s ->
  let s' := init_with h r p already s in
  forall x f, in_tree r x -> i_enable (info_of x) = Some f ->
    (already x = true -> field_on h (registers s') f) /\
    (already x = false -> (starts_on (any_irq p) x -> field_on h (registers s') f) /\ (~ starts_on (any_irq p) x -> field_off h (registers s') f)).
Proof.
  intros h r Hl p already s Hb s' x f Hx Hf. unfold s', init_with.
  destruct (init_spec h r Hl (activates p) already s Hb) as (_ & I2 & I3 & I4). cbn zeta in *. split.
  - intros Ha. exact (proj1 (shows_field h _ x true) (I3 x Hx Ha) f Hf).
  - intros Ha. destruct (I2 x Hx Ha f Hf) as [On Off].
    assert (S := starts_spec p _ r I4 x Hx). split; [intros H; apply On; now apply S|intros H; apply Off; now rewrite S].
Qed.
Print Assumptions C136_exact.
(** The whole policy, when it makes all interrupts active. *)
Theorem C136_partial : forall h r, layout_ok h r -> forall p s, before_init h r none_already s -> for_irqs p = None ->
  let s' := init_with h r p none_already s in
  forall x f, in_tree r x -> i_enable (info_of x) = Some f ->
    (starts_on p x -> field_on h (registers s') f) /\ (~ starts_on p x -> field_off h (registers s') f).
Proof.
  intros h r Hl p s Hb Hi s' x f Hx Hf. destruct (C136_exact h r Hl p none_already s Hb x f Hx Hf) as [_ H]. specialize (H eq_refl).
  replace (any_irq p) with p in H by (destruct p; cbn in Hi; subst; reflexivity). exact H.
Qed.
Print Assumptions C136_partial.
(** A policy that makes no interrupt active leaves them all enabled. *)
Theorem C136_refuted : exists h r p s, layout_ok h r /\ before_init h r none_already s /\ for_irqs p = Some [] /\
  let s' := init_with h r p none_already s in
  exists x f, in_tree r x /\ i_enable (info_of x) = Some f /\ ~ starts_on p x /\ field_on h (registers s') f.
Proof.
  exists one_reg, sys, {| for_resources := None; for_flows := None; for_irqs := Some [] |}, blank.
  split; [apply sys_layout|]. split; [apply blank_before|]. split; [reflexivity|]. cbn zeta. exists leaf_b, 3.
  split; [apply sys_tree; auto|]. split; [reflexivity|]. split; [|vm_compute; reflexivity].
  intros H. inversion H as [? ? f HN HR Hf He|? ? c HN HR Hin Ho]; destruct HN.
Qed.
Print Assumptions C136_refuted.
(** A policy that lists flow 1 and no resources, and one that lists resource 7 and
    flow 1: a needs resource 7. *)
Example C136_case :
  let regs p := registers (init_with one_reg sys p none_already blank) 0 in
  regs {| for_resources := Some []; for_flows := Some [1]; for_irqs := None |} = 0%N /\
  regs {| for_resources := Some [7]; for_flows := Some [1]; for_irqs := None |} = 7%N /\
  regs default_policy = 15%N /\ regs {| for_resources := Some []; for_flows := None; for_irqs := None |} = 11%N.
Proof. vm_compute. auto. Qed.

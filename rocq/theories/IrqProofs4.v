(** Running on hardware that only changes by clearing; initialisation with the
    default policy. *)
From Coq Require Import String Bool Arith List NArith Lia Permutation.
From Verif Require Import IrqModel IrqSpec IrqProofs IrqProofs2 IrqProofs3.
Import ListNotations.
Local Open Scope nat_scope.

Lemma subseq_empty {A} (l : list A) : subseq [] l.
Proof. induction l; constructor; auto. Qed.
Lemma subseq_app {A} (a b c d : list A) : subseq a b -> subseq c d -> subseq (a ++ c) (b ++ d).
Proof. intros H Hc. induction H; cbn; auto; [apply subseq_skip|apply subseq_take]; auto. Qed.
Lemma preorder_perm x : Permutation (preorder x) (x :: descendants_of x).
Proof.
  induction x as [i cs IH] using irq_induction. cbn [preorder descendants_of]. constructor.
  transitivity (flat_map (fun c => c :: descendants_of c) cs).
  - induction cs as [|c cs IHl]; cbn; auto. rewrite (IH c) by (cbn; auto). cbn. constructor. apply Permutation_app_head. apply IHl. intros; apply IH; cbn; auto.
  - clear IH. induction cs as [|c cs IHl]; cbn; auto. constructor. rewrite IHl. rewrite !app_assoc. apply Permutation_app_tail. apply Permutation_app_comm.
Qed.
Definition tree_fields (x : irq) : list nat := flat_map fields_of (preorder x).
Lemma tree_fields_perm x : Permutation (tree_fields x) (all_fields x).
Proof. unfold tree_fields, all_fields. apply Permutation_flat_map. apply preorder_perm. Qed.
Lemma tree_fields_unfold i cs : tree_fields (Irq i cs) = fields_of (Irq i cs) ++ flat_map tree_fields cs.
Proof.
  unfold tree_fields. cbn [preorder flat_map]. f_equal. induction cs as [|c cs IH]; cbn; auto. rewrite flat_map_app, IH. auto.
Qed.
Lemma NoDup_app_inv {A} (a b : list A) : NoDup (a ++ b) -> NoDup a /\ NoDup b /\ forall z, In z a -> ~ In z b.
Proof.
  induction a as [|x a IH]; cbn; intros H; [repeat split; auto; constructor|]. inversion_clear H. destruct (IH H1) as (A1 & A2 & A3).
  rewrite in_app_iff in H0. repeat split; auto; [constructor; auto|]. intros z [<-|Hz]; auto.
Qed.

Section Plain.
Context {Env : Type}.
Variable read : nat -> Env -> bool * Env.
Variable clear : nat -> Env -> Env.
Variable serve : nat -> nat -> Env -> Env.
Variable service_active : nat -> nat -> bool.
Variable nexi : list nat.
Variable bit : Env -> nat -> bool.
Hypothesis Hplain : plain_hardware read clear serve bit.
Let run' := run read clear serve service_active nexi.
Let act := active service_active nexi.

Definition field_readb (b : nat -> bool) (f : option nat) : bool := match f with None => true | Some g => b g end.
Lemma field_readb_spec b f : field_readb b f = true <-> field_reads b f.
Proof. unfold field_reads. destruct f as [g|]; cbn; split; intros H; [intros g' [= <-]; auto|auto|discriminate|auto]. Qed.
Definition readyb (b : nat -> bool) (x : irq) : bool := act x && field_readb b (i_enable (info_of x)) && field_readb b (i_status (info_of x)).
Fixpoint serviced_list (b : nat -> bool) (x : irq) : list irq :=
  match x with Irq i cs => if readyb b (Irq i cs) then Irq i cs :: flat_map (serviced_list b) cs else [] end.
Lemma readyb_spec b x : well_formed x = true -> readyb b x = true <-> ready service_active nexi b x.
Proof. intros Hw. unfold readyb, ready. rewrite !andb_true_iff, !field_readb_spec. unfold act. rewrite active_spec by auto. tauto. Qed.
Lemma serviced_list_spec b x : well_formed x = true -> forall y, In y (serviced_list b x) <-> serviced service_active nexi b x y.
Proof.
  induction x as [i cs IH] using irq_induction. intros Hw y. cbn [serviced_list].
  destruct (readyb b (Irq i cs)) eqn:E.
  - apply readyb_spec in E; auto. cbn [In]. rewrite in_flat_map. split.
    + intros [<-|(c & Hc & Hy)]; [constructor; auto|]. apply serviced_below with c; auto. apply IH; auto. eapply wf_children; eauto.
    + intros H. inversion H; subst; [auto|]. right. exists c. split; auto. apply IH; auto. eapply wf_children; eauto.
  - split; [intros []|]. intros H. assert (Hr : ready service_active nexi b (Irq i cs)) by (inversion H; subst; auto).
    apply readyb_spec in Hr; auto. congruence.
Qed.
Lemma serviced_list_subseq b x : subseq (serviced_list b x) (preorder x).
Proof.
  induction x as [i cs IH] using irq_induction. cbn [serviced_list preorder]. destruct (readyb b (Irq i cs)); [|apply subseq_empty].
  apply subseq_take. induction cs as [|c cs IHl]; cbn; [constructor|]. apply subseq_app; [apply IH; cbn; auto|]. apply IHl. intros; apply IH; cbn; auto.
Qed.
Lemma fields_of_enable x f : i_enable (info_of x) = Some f -> In f (fields_of x).
Proof. unfold fields_of. intros ->. cbn. auto. Qed.
Lemma fields_of_status x f : i_status (info_of x) = Some f -> In f (fields_of x).
Proof. unfold fields_of. intros ->. apply in_or_app. cbn. auto. Qed.
Lemma readyb_ext b b' x : (forall f, In f (fields_of x) -> b f = b' f) -> readyb b x = readyb b' x.
Proof.
  intros H. unfold readyb, field_readb. destruct (i_enable (info_of x)) eqn:E1, (i_status (info_of x)) eqn:E2; auto;
    repeat first [rewrite (H _ (fields_of_enable _ _ E1))|rewrite (H _ (fields_of_status _ _ E2))]; auto.
Qed.
Lemma serviced_list_ext b b' x : (forall f, In f (tree_fields x) -> b f = b' f) -> serviced_list b x = serviced_list b' x.
Proof.
  induction x as [i cs IH] using irq_induction. intros H. rewrite tree_fields_unfold in H. cbn [serviced_list].
  rewrite (readyb_ext b b') by (intros; apply H; apply in_or_app; auto). destruct (readyb b' (Irq i cs)); auto. f_equal.
  assert (H' : forall f, In f (flat_map tree_fields cs) -> b f = b' f) by (intros; apply H; apply in_or_app; auto). clear H.
  induction cs as [|c cs IHl]; cbn; auto. cbn in H'. rewrite (IH c); [|cbn; auto|intros; apply H'; apply in_or_app; auto]. f_equal.
  apply IHl; [intros; apply IH; cbn; auto|intros; apply H'; apply in_or_app; auto].
Qed.
Lemma own_clears_fields y f : In f (own_clears y) -> In f (fields_of y).
Proof. unfold own_clears. intros H. apply fields_of_status. destruct (i_policy (info_of y)), (i_status (info_of y)); cbn in H; intuition congruence. Qed.
Lemma clears_fields b x f : In f (flat_map own_clears (serviced_list b x)) -> In f (tree_fields x).
Proof.
  rewrite in_flat_map. intros (y & Hy & Hf). unfold tree_fields. apply in_flat_map. exists y. split; [|apply own_clears_fields; auto].
  assert (Hs := serviced_list_subseq b x). clear Hf. revert Hy. induction Hs; cbn; intuition.
Qed.

(** What a piece of a run does. *)
Record does (e : Env) (res : Env * list event) (sv : list (nat * nat)) (cl : list nat) : Prop := {
  d_served : served (snd res) = sv;
  d_cleared : Permutation (cleared (snd res)) cl;
  d_bits : forall g, bit (fst res) g = bit e g && negb (existsb (Nat.eqb g) (cleared (snd res)));
}.
Lemma existsb_app' g a b : existsb (Nat.eqb g) (a ++ b) = existsb (Nat.eqb g) a || existsb (Nat.eqb g) b.
Proof. apply existsb_app. Qed.
Lemma does_chain a b e sv cl sv' cl' : does e (a e) sv cl -> does (fst (a e)) (b (fst (a e))) sv' cl' -> does e (chain a b e) (sv ++ sv') (cl ++ cl').
Proof.
  unfold chain. intros [A1 A2 A3] [B1 B2 B3]. destruct (a e) as [e1 t1]. cbn [fst snd] in *. destruct (b e1) as [e2 t2]. cbn [fst snd] in *. split; cbn [fst snd].
  - rewrite served_app. congruence.
  - rewrite cleared_app. apply Permutation_app; auto.
  - intros g. rewrite B3, A3, cleared_app, existsb_app', negb_orb, andb_assoc. auto.
Qed.
Lemma does_nothing e : does e (nothing e) [] [].
Proof. split; cbn; auto. intros. rewrite andb_true_r. auto. Qed.
Lemma does_clear f e : does e (clear_field clear (Some f) e) [] [f].
Proof.
  split; cbn; auto. intros g. rewrite (ph_clear _ _ _ _ Hplain). destruct (Nat.eqb g f); cbn; [rewrite andb_false_r|rewrite andb_true_r]; auto.
Qed.
Lemma serve_bits flows : forall e g, bit (fst (isr serve nexi flows e)) g = bit e g.
Proof.
  unfold isr. induction flows as [|f flows IH]; intros e g; cbn [fold_right]; auto.
  assert (Hn : forall l e g, bit (fst (fold_right (fun n k => chain (fun e => (serve n f e, [Serve n f])) k) nothing l e)) g = bit e g).
  { induction l as [|n l IHl]; intros e0 g0; cbn [fold_right]; auto. unfold chain at 1. specialize (IHl (serve n f e0) g0).
    destruct (fold_right _ nothing l (serve n f e0)) as [e2 t2]. cbn in *. rewrite IHl. apply (ph_serve _ _ _ _ Hplain). }
  unfold chain at 1. specialize (Hn nexi e g). destruct (fold_right _ nothing nexi e) as [e1 t1]. cbn in Hn. specialize (IH e1 g).
  destruct (fold_right _ nothing flows e1) as [e2 t2]. cbn in *. congruence.
Qed.
Lemma does_isr flows e : does e (isr serve nexi flows e) (flat_map (fun f => map (fun n => (n, f)) nexi) flows) [].
Proof.
  split.
  - rewrite isr_trace. induction (flat_map _ flows) as [|[n f] l IH]; cbn; auto. f_equal. auto.
  - rewrite isr_trace. induction (flat_map _ flows) as [|[n f] l IH]; cbn; auto.
  - intros g. rewrite serve_bits, isr_trace. replace (cleared _) with (@nil nat); [cbn; rewrite andb_true_r; auto|].
    induction (flat_map _ flows) as [|[n f] l IH]; cbn; auto.
Qed.
Lemma does_children cs : NoDup (flat_map tree_fields cs) ->
  (forall c, In c cs -> forall e, does e (run' c e) (flat_map (own_services nexi) (serviced_list (bit e) c)) (flat_map own_clears (serviced_list (bit e) c))) ->
  forall e, does e (fold_right (fun c k => chain (run' c) k) nothing cs e) (flat_map (own_services nexi) (flat_map (serviced_list (bit e)) cs)) (flat_map own_clears (flat_map (serviced_list (bit e)) cs)).
Proof.
  induction cs as [|c cs IH]; intros Hn Hc e; cbn [fold_right flat_map].
  - apply does_nothing.
  - cbn [flat_map] in Hn. apply NoDup_app_inv in Hn. destruct Hn as (_ & Hn & Hd). rewrite !flat_map_app.
    assert (D := Hc c (or_introl eq_refl) e). apply (does_chain (run' c)); auto.
    assert (E : flat_map (serviced_list (bit e)) cs = flat_map (serviced_list (bit (fst (run' c e)))) cs).
    { assert (Hb : forall f, In f (flat_map tree_fields cs) -> bit e f = bit (fst (run' c e)) f).
      { intros f Hf. rewrite (d_bits _ _ _ _ D f). destruct (existsb _ _) eqn:Ex; [|rewrite andb_true_r; auto]. exfalso.
        apply existsb_exists in Ex. destruct Ex as (f' & Hf' & Heq). apply Nat.eqb_eq in Heq. subst f'.
        apply (Permutation_in _ (d_cleared _ _ _ _ D)) in Hf'. apply clears_fields in Hf'. apply (Hd f); auto. }
      clear -Hb. induction cs as [|d cs IH]; cbn; auto. cbn in Hb. rewrite (serviced_list_ext (bit e) (bit (fst (run' c e))) d); [|intros; apply Hb; apply in_or_app; auto].
      f_equal. apply IH. intros; apply Hb; apply in_or_app; auto. }
    rewrite E. apply IH; auto. intros; apply Hc; cbn; auto.
Qed.
Lemma does_reads e e2 t sv cl res : (forall g, bit e2 g = bit e g) -> (forall ev, In ev t -> exists f v, ev = Read f v) -> does e2 res sv cl ->
  does e (fst res, t ++ snd res) sv cl.
Proof.
  intros Hb Ht [A1 A2 A3]. assert (Hs : served t = [] /\ cleared t = []).
  { clear -Ht. induction t as [|a t IH]; cbn; auto. destruct (Ht a (or_introl eq_refl)) as (f & v & ->). cbn. apply IH. intros; apply Ht; cbn; auto. }
  destruct Hs as [S1 S2]. split; cbn [fst snd].
  - rewrite served_app, S1. auto.
  - rewrite cleared_app, S2. auto.
  - intros g. rewrite A3, Hb, cleared_app, S2. auto.
Qed.
Lemma run_does x : well_formed x = true -> NoDup (tree_fields x) ->
  forall e, does e (run' x e) (flat_map (own_services nexi) (serviced_list (bit e) x)) (flat_map own_clears (serviced_list (bit e) x)).
Proof.
  induction x as [i cs IH] using irq_induction. intros Hw Hn e. rewrite tree_fields_unfold in Hn. apply NoDup_app_inv in Hn. destruct Hn as (_ & Hn & Hd).
  assert (Hkids : forall e, does e (fold_right (fun c k => chain (run' c) k) nothing cs e) (flat_map (own_services nexi) (flat_map (serviced_list (bit e)) cs)) (flat_map own_clears (flat_map (serviced_list (bit e)) cs))).
  { apply does_children; auto. intros c Hc. apply IH; auto; [eapply wf_children; eauto|]. clear -Hn Hc. induction cs as [|d cs IHl]; [destruct Hc|].
    cbn in Hn. apply NoDup_app_inv in Hn. destruct Hn as (N1 & N2 & _). destruct Hc as [<-|Hc]; auto. }
  assert (Hbody : forall e2, (forall g, bit e2 g = bit e g) ->
     does e2 (body read clear serve service_active nexi (Irq i cs) e2) (flat_map (own_services nexi) (Irq i cs :: flat_map (serviced_list (bit e)) cs)) (flat_map own_clears (Irq i cs :: flat_map (serviced_list (bit e)) cs))).
  { intros e2 He2. set (SL := flat_map (serviced_list (bit e)) cs).
    assert (Hin : forall e3, (forall g, In g (flat_map tree_fields cs) -> bit e3 g = bit e g) ->
      does e3 (match cs with [] => isr serve nexi (i_flows i) | _ => fold_right (fun c k => chain (run' c) k) nothing cs end e3) (flat_map (own_services nexi) (Irq i cs :: SL)) (flat_map own_clears SL)).
    { intros e3 He3. cbn [flat_map]. destruct cs as [|c0 cs0] eqn:Ecs.
      - cbn. rewrite app_nil_r. apply does_isr.
      - rewrite <- Ecs in *. assert (Hf : own_services nexi (Irq i cs) = []) by (unfold own_services; cbn; rewrite (wf_flows i cs); auto; subst; discriminate).
        rewrite Hf. cbn [app]. unfold SL. rewrite <- Ecs. replace (flat_map (serviced_list (bit e)) cs) with (flat_map (serviced_list (bit e3)) cs).
        + apply Hkids.
        + clear -He3. induction cs as [|d cs IH]; cbn; auto. cbn in He3. f_equal; [apply serviced_list_ext; intros; apply He3; apply in_or_app; auto|].
          apply IH. intros; apply He3; apply in_or_app; auto. }
    assert (Hin2 : forall g, In g (flat_map tree_fields cs) -> bit e2 g = bit e g) by auto.
    cbn [body]. fold run'. set (bd := match cs with [] => _ | _ => _ end) in *. change (flat_map own_clears (Irq i cs :: SL)) with (own_clears (Irq i cs) ++ flat_map own_clears SL).
    unfold own_clears at 1. cbn [info_of]. destruct (i_policy i); cbn [run_policy].
    - destruct (i_status i) as [f|] eqn:Ef.
      + apply (does_chain (clear_field clear (Some f)) bd e2 [] [f]); [apply does_clear|]. apply Hin. intros g Hg. cbn. rewrite (ph_clear _ _ _ _ Hplain).
        destruct (Nat.eqb g f) eqn:Eg; auto. apply Nat.eqb_eq in Eg. subst g. exfalso. apply (Hd f); auto. apply fields_of_status. auto.
      + apply (does_chain (clear_field clear None) bd e2 [] []); [apply does_nothing|]. apply Hin; auto.
    - destruct (i_status i) as [f|] eqn:Ef.
      + assert (D := does_chain bd (clear_field clear (Some f)) e2 _ _ _ _ (Hin e2 Hin2) (does_clear f _)). rewrite app_nil_r in D.
        destruct D as [D1 D2 D3]. split; auto. rewrite D2. apply Permutation_app_comm.
      + assert (D := does_chain bd (clear_field clear None) e2 _ _ _ _ (Hin e2 Hin2) (does_nothing _)). rewrite !app_nil_r in D. auto.
    - cbn. apply Hin. auto. }
  cbn [serviced_list]. unfold readyb. cbn [info_of].
  destruct (run_shape read clear serve service_active nexi (Irq i cs) e) as [(R & Ha & R')|[(f & e1 & Hen & R1 & R & Ha)|(Ha & e1 & u1 & Hen & Hrest)]]; fold act in Ha; cbn [info_of] in *; rewrite Ha.
  - cbn [andb]. fold run' in R, R'. split; rewrite ?R, ?R'; cbn; auto. intros. rewrite andb_true_r. auto.
  - destruct (ph_read _ _ _ _ Hplain f e) as [P1 P2]. rewrite R1 in P1, P2. cbn [fst snd] in P1, P2. rewrite Hen. cbn [field_readb]. rewrite <- P1. cbn [andb].
    unfold run'. rewrite R. split; cbn; auto. intros. rewrite andb_true_r. auto.
  - assert (H1 : (forall g, bit e1 g = bit e g) /\ field_readb (bit e) (i_enable i) = true /\ forall ev, In ev u1 -> exists f v, ev = Read f v).
    { destruct Hen as [(-> & -> & ->)|(f & -> & R1 & ->)]; cbn.
      - repeat split; auto. intros _ [].
      - destruct (ph_read _ _ _ _ Hplain f e) as [P1 P2]. rewrite R1 in P1, P2. cbn in *. repeat split; auto. intros ev [<-|[]]. eauto. }
    destruct H1 as (B1 & -> & Hu1). cbn [andb].
    destruct Hrest as [(g & e2 & Hst & R2 & R)|(e2 & u2 & Hst & R)]; cbn [info_of] in Hst.
    + destruct (ph_read _ _ _ _ Hplain g e1) as [P1 P2]. rewrite R2 in P1, P2. cbn [fst snd] in P1, P2. rewrite Hst. cbn [field_readb]. rewrite <- B1, <- P1.
      unfold run'. rewrite R. rewrite <- (app_nil_r (u1 ++ [Read g false])). apply (does_reads e e2 (u1 ++ [Read g false]) [] [] (e2, [])).
      * intros g'. rewrite P2, B1. auto.
      * intros ev Hev. apply in_app_or in Hev. destruct Hev as [|[<-|[]]]; eauto.
      * split; cbn; auto. intros. rewrite andb_true_r. auto.
    + assert (H2 : (forall g, bit e2 g = bit e g) /\ field_readb (bit e) (i_status i) = true /\ forall ev, In ev u2 -> exists f v, ev = Read f v).
      { destruct Hst as [(-> & -> & ->)|(f & -> & R2 & ->)]; cbn.
        - repeat split; auto. intros _ [].
        - destruct (ph_read _ _ _ _ Hplain f e1) as [P1 P2]. rewrite R2 in P1, P2. cbn in *. repeat split; [intros; rewrite P2; auto|rewrite <- B1; auto|]. intros ev [<-|[]]. eauto. }
      destruct H2 as (B2 & -> & Hu2). unfold run'. rewrite R. rewrite app_assoc.
      apply (does_reads e e2 (u1 ++ u2)); auto. intros ev Hev. apply in_app_or in Hev. destruct Hev; auto.
Qed.
End Plain.

(** ** The default policy *)
Section Default.
Variable service_active : nat -> nat -> bool.
Variable nexi : list nat.
Lemma active_flows_spec x f : well_formed x = true -> In f (active_flows service_active nexi x) <-> (exists y, below x y /\ In f (i_flows (info_of y))) /\ exists n, In n nexi /\ service_active n f = true.
Proof.
  induction x as [i cs IH] using irq_induction. intros Hw. destruct cs as [|c cs]; cbn [active_flows].
  - rewrite filter_In, flow_active_spec. split.
    + intros [H1 H2]. split; auto. exists (Irq i []). split; auto. constructor.
    + intros [(y & Hy & Hf) H2]. inversion Hy; subst; [auto|contradiction].
  - rewrite in_flat_map. split.
    + intros (d & Hd & Hf). apply IH in Hf; auto; [|eapply wf_children; eauto]. destruct Hf as [(y & Hy & Hf) Hn]. split; auto. exists y. split; auto. econstructor; eauto.
    + intros [(y & Hy & Hf) Hn]. inversion Hy; subst.
      * cbn in Hf. rewrite (wf_flows _ _ Hw) in Hf by discriminate. destruct Hf.
      * exists c0. split; auto. apply IH; auto; [eapply wf_children; eauto|]. eauto.
Qed.
Definition flow_runs (f : nat) : Prop := exists n, In n nexi /\ service_active n f = true.
Lemma default_on (tops : list (nat * irq)) (e : item -> bool) : (forall t, In t tops -> well_formed (snd t) = true) ->
  (forall t, e t = known (map snd tops) t && match t with Name _ => true | _ => default_active service_active nexi tops t end) ->
  forall x, in_tree (map snd tops) x -> should_be_on e x <-> open_to flow_runs x.
Proof.
  intros Hw He x. induction x as [i cs IH] using irq_induction. intros Hx.
  assert (Hname : e (Name (i_name i)) = true).
  { rewrite He, andb_true_r. apply (depends_known _ (Irq i cs)); auto. exists (Irq i cs). split; [constructor|reflexivity]. }
  assert (Hres : (forall n, In n (i_resources i) -> e (Resource n) = true) <-> i_resources i = []).
  { split; [|intros ->; intros n []]. destruct (i_resources i) as [|n ns]; auto. intros H. specialize (H n (or_introl eq_refl)).
    rewrite He in H. cbn [default_active] in H. rewrite andb_false_r in H. discriminate. }
  assert (Hflow : forall f, In f (i_flows i) -> e (Flow f) = true <-> flow_runs f).
  { intros f Hf. rewrite He. assert (Hk : known (map snd tops) (Flow f) = true).
    { apply (depends_known _ (Irq i cs)); auto. exists (Irq i cs). split; [constructor|auto]. }
    rewrite Hk. cbn [andb default_active]. rewrite memb_spec, in_flat_map. split.
    - intros (t & Ht & Ha). apply active_flows_spec in Ha; auto. apply Ha.
    - intros Hr. destruct Hx as (z & Hz & Hb). apply in_map_iff in Hz. destruct Hz as (t & <- & Ht). exists t. split; auto. apply active_flows_spec; auto.
      split; [exists (Irq i cs); auto|auto]. }
  assert (Hkid : forall c, In c cs -> in_tree (map snd tops) c).
  { intros c Hc. apply (in_tree_below _ (Irq i cs)); auto. econstructor; eauto. constructor. }
  split; intros H; inversion H; subst.
  - eapply open_flow; eauto; [apply Hres; auto|apply Hflow; auto].
  - eapply open_child; eauto; [apply Hres; auto|apply IH; auto].
  - eapply on_by_flow; eauto; [apply Hres; auto|apply Hflow; auto].
  - eapply on_by_child; eauto; [apply Hres; auto|apply IH; auto].
Qed.
End Default.

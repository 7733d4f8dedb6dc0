(** Proofs about projects with message services: refinement, ending, and the
    irrelevance of indexing. *)
From Coq Require Import String Bool Arith ZArith List Lia.
From Verif Require Import FieldMatchersModel FieldMatchersSpec HandlerModel HandlerSpec FlowModel NexusModel NexusSpec NexusProofs NexusProofs2 DispatchModel DispatchSpec DispatchProofs DispatchProofs2.
Import ListNotations.
Local Notation run_send := DispatchModel.run_send.
Local Notation serving := DispatchModel.serving.

Scheme does_mut := Induction for does Sort Prop with handles_mut := Induction for handles Sort Prop with hears_mut := Induction for hears Sort Prop.

Section Run.
Context (ftype : nat -> cty) (cond_no : cond -> nat) (kind_of : svc -> kind).
Context {M W : Type} (fld : nat -> M -> Z) (psem : nat -> M * W -> bool) (pred : nat -> W -> bool) (act : nat -> W -> W)
  (body : nat -> nat -> M -> @prog M W) (nexus : nat -> config item).
Notation handler_of := (handler_of ftype cond_no kind_of).
Notation wants := (wants fld psem pred).
Notation does := (does fld psem pred act body nexus kind_of).
Notation handles := (handles fld psem pred act body nexus kind_of).
Notation hears := (hears fld psem pred act body nexus kind_of).
Notation run_prog := (run_prog ftype cond_no kind_of fld psem act nexus).
Notation run_entries := (run_entries ftype cond_no kind_of fld psem act body nexus).
Notation run_handler := (run_handler ftype cond_no kind_of fld psem act body nexus).
Notation run_send := (run_send ftype cond_no kind_of fld psem act body nexus).
Notation tests := (tests ftype fld psem).

Definition sees (x : @sys W) (o : @moment W) : Prop :=
  (forall s, by_type (ptrs x) s = current nexus o s) /\ world x = now o /\ halted x = over o.
Lemma last_init_snoc p h n : last_init p (map Init (h ++ [n])) = if p n then Some n else last_init p (map Init h).
Proof. induction h as [|k h IH]; cbn [app map last_init]; [destruct (p n); auto|]. rewrite IH. destruct (p n); auto. Qed.
Lemma sees_start x o n : compiles (nexus n) = true -> sees x o ->
  sees {| ptrs := init item_when nexus n (ptrs x); world := world x; halted := halted x |} {| started := started o ++ [n]; now := now o; over := over o |}.
Proof.
  intros B (S1 & S2 & S3). assert (B' : builders item_when (nexus n) <> None) by (unfold compiles in B; destruct (builders item_when (nexus n)); congruence).
  destruct (init_spec item_when (fun _ => nexus n) (fun _ => B') n (ptrs x)) as [I1 _].
  change (init item_when (fun _ => nexus n) n (ptrs x)) with (init item_when nexus n (ptrs x)) in *.
  split; [|auto]. intros s. cbn [ptrs]. rewrite I1. unfold current. cbn [started]. rewrite last_init_snoc. change (exportsb (fun _ => nexus n) n s) with (exportsb nexus n s).
  destruct (exportsb nexus n s); auto. apply S1.
Qed.
Lemma sees_asked x o v s : sees x o -> serving v s x = asked nexus v s o.
Proof. intros (S1 & _). destruct v; cbn [serving asked]; auto. Qed.
Lemma sees_stop x o : sees x o -> sees (halts x) (stop o).
Proof. intros (S1 & S2 & S3). split; [exact S1|split; [exact S2|reflexivity]]. Qed.
Lemma sees_initial w : sees (initial w) (at_first w).
Proof. split; [|split; reflexivity]. intros s. reflexivity. Qed.

Definition send_ok (send : nat -> svc -> M -> @sys W -> option (list happening * @sys W * bool)) : Prop :=
  forall n s m x t y b o, send n s m x = Some (t, y, b) -> halted x = false -> sees x o -> exists o', handles n s m o t o' b /\ sees y o'.

Section Sound.
Hypothesis CP : clear_project ftype fld psem pred cond_no kind_of nexus.
Lemma answer_ok v s m x o b : is_match_at ftype cond_no kind_of fld psem nexus v s m x = Some b -> sees x o -> answer fld psem pred nexus kind_of v s m o b.
Proof.
  intros H S. unfold is_match_at in H. rewrite (sees_asked x o v s S) in H. unfold answer. destruct (asked nexus v s o) as [n|]; [|congruence].
  destruct (handler_of (nexus n) s) as [h|] eqn:E; [|discriminate]. cbn [option_map] in H. injection H as <-.
  destruct S as (_ & Sw & _). rewrite <- Sw.
  destruct (is_match_listeners ftype cond_no kind_of fld psem pred nexus CP n s h m (world x) E) as (ls & H1 & H2 & H3).
  exists ls. auto.
Qed.
Lemma prog_ok send : send_ok send -> forall p x t y o, run_prog send p x = Some (t, y) -> halted x = false -> sees x o -> exists o', does p o t o' /\ sees y o'.
Proof.
  intros SO. induction p as [|a k IH|k IH|v s m k IH|v s m k IH|n k IH]; intros x t y o R Hx S; cbn [DispatchModel.run_prog] in R.
  - injection R as <- <-. exists o. split; [constructor|auto].
  - unfold then_ in R. destruct (run_prog send k _) as [[t1 y1]|] eqn:E; [|discriminate]. cbn [option_map fst snd app] in R. injection R as <- <-.
    destruct S as (S1 & S2 & S3). destruct (IH _ _ _ {| started := started o; now := act a (now o); over := over o |} E) as (o' & D & S'); cbn [halted]; auto.
    + split; [exact S1|]. cbn [world halted now over]. split; congruence.
    + exists o'. split; auto. constructor. exact D.
  - pose proof S as (_ & Sw & _). destruct (IH (world x) _ _ _ o R Hx S) as (o' & D & S'). exists o'. split; auto. constructor. rewrite <- Sw. exact D.
  - rewrite (sees_asked x o v s S) in R. destruct (asked nexus v s o) as [n|] eqn:A.
    + destruct (send n s m x) as [[[t1 y1] b]|] eqn:E; [|discriminate]. destruct (SO n s m x t1 y1 b o E Hx S) as (o1 & H1 & S1).
      destruct (halted y1) eqn:Hy.
      * injection R as <- <-. exists o1. split; auto. eapply does_send_over; eauto. destruct S1 as (_ & _ & <-). exact Hy.
      * unfold then_ in R. destruct (run_prog send (k b) y1) as [[t2 y2]|] eqn:E2; [|discriminate]. cbn [option_map fst snd] in R. injection R as <- <-.
        destruct (IH b y1 t2 y2 o1 E2 Hy S1) as (o2 & D & S2). exists o2. split; auto. eapply does_send; eauto. destruct S1 as (_ & _ & <-). exact Hy.
    + injection R as <- <-. exists (stop o). split; [apply does_panic; auto|apply sees_stop; auto].
  - destruct (is_match_at ftype cond_no kind_of fld psem nexus v s m x) as [b|] eqn:E; [|discriminate].
    destruct (IH b x t y o R Hx S) as (o' & D & S'). exists o'. split; auto. eapply does_ask; eauto. eapply answer_ok; eauto.
  - destruct (compiles (nexus n)) eqn:C; [|discriminate]. destruct (IH _ t y {| started := started o ++ [n]; now := now o; over := over o |} R) as (o' & D & S'); cbn [halted]; auto.
    + apply sees_start; auto.
    + exists o'. split; auto. constructor. exact D.
Qed.
Lemma entries_ok send n m : send_ok send -> forall l ls, alike fld psem pred m l ls -> forall found x t y b o,
  run_entries send n m l found x = Some (t, y, b) -> halted x = false -> sees x o -> exists o' b', hears n m ls o t o' b' /\ sees y o' /\ b = found || b'.
Proof.
  intros SO l ls A. induction A as [|f name c l a ls Hf Hn Hc Hc' A IH|l a ls Hf A IH]; intros found x t y b o R Hx S.
  - cbn [DispatchModel.run_entries] in R. injection R as <- <- <-. exists o, false. rewrite orb_false_r. split; [constructor|auto].
  - cbn [DispatchModel.run_entries] in R. rewrite Hf in R. pose proof S as (_ & Sw & _). rewrite Sw in R. destruct (wants a m (now o)) eqn:Hw.
    + destruct (run_call ftype cond_no kind_of fld psem act body nexus send n m c x) as [[t1 y1]|] eqn:E; [|discriminate].
      unfold run_call in E. destruct (called c) as [g|] eqn:Hg; [|congruence].
      destruct (prog_ok send SO _ x t1 y1 o E Hx S) as (o1 & D1 & S1).
      destruct (halted y1) eqn:Hy.
      * injection R as <- <- <-. exists o1, true. rewrite orb_true_r. split; [|auto]. rewrite Hn. eapply hears_over; eauto. destruct S1 as (_ & _ & <-). exact Hy.
      * destruct (run_entries send n m l true y1) as [[[t2 y2] b2]|] eqn:E2; [|discriminate]. cbn [option_map fst snd] in R. injection R as <- <- <-.
        destruct (IH true y1 t2 y2 b2 o1 E2 Hy S1) as (o2 & b' & H2 & S2 & Hb). exists o2, true. rewrite orb_true_r. split; [|split; [auto|rewrite Hb; reflexivity]].
        rewrite Hn. eapply hears_call; eauto. destruct S1 as (_ & _ & <-). exact Hy.
    + destruct (IH found x t y b o R Hx S) as (o' & b' & H' & S' & Hb). exists o', b'. split; [constructor; auto|auto].
  - destruct (IH found x t y b o R Hx S) as (o' & b' & H' & S' & Hb). exists o', b'. split; [constructor; auto|auto].
Qed.
Lemma send_sound fuel : send_ok (run_send fuel).
Proof.
  induction fuel as [|fuel IH]; intros n s m x t y b o R Hx S; cbn [DispatchModel.run_send] in R; [discriminate|].
  destruct (handler_of (nexus n) s) as [h|] eqn:E; [|discriminate].
  destruct (handler_alike ftype cond_no kind_of fld psem pred act body nexus CP n s h m E) as (ls & H1 & H2 & H3 & H4).
  unfold DispatchModel.run_handler in R. destruct (run_entries (run_send fuel) n m (tests h m) false x) as [[[t1 y1] b1]|] eqn:E1; [|discriminate].
  destruct (entries_ok _ n m IH _ _ H3 _ _ _ _ _ o E1 Hx S) as (o' & b' & D & S' & Hb). cbn [orb] in Hb. subst b1.
  destruct b'; injection R as <- <- <-; exists o'; (split; [|auto]).
  - eapply handles_claimed; eauto.
  - rewrite H4. eapply handles_unclaimed; eauto.
Qed.
Lemma main_sound fuel p w t y : run_main ftype cond_no kind_of fld psem act body nexus fuel p w = Some (t, y) ->
  exists o, does p (at_first w) t o /\ world y = now o /\ halted y = over o /\ forall s, by_type (ptrs y) s = current nexus o s.
Proof.
  intros R. destruct (prog_ok _ (send_sound fuel) p (initial w) t y (at_first w) R eq_refl (sees_initial w)) as (o & D & S1 & S2 & S3). exists o. auto.
Qed.
End Sound.

(** ** Ending *)
Section Ends.
Hypothesis CP : clear_project ftype fld psem pred cond_no kind_of nexus.
Context (rank : svc -> M -> nat).
Hypothesis all_compile : forall n, builders item_when (nexus n) <> None.
Hypothesis R : ranked rank nexus body.
Definition ok (x : @sys W) : Prop := forall s n, by_type (ptrs x) s = Some n -> exported s (nexus n).
Lemma ok_start x n : ok x -> ok {| ptrs := init item_when nexus n (ptrs x); world := world x; halted := halted x |}.
Proof.
  intros H s k. cbn [ptrs]. rewrite (proj1 (init_spec item_when nexus all_compile n (ptrs x))). destruct (exportsb nexus n s) eqn:E; [|apply H].
  intros [= <-]. unfold exportsb in E. apply existsb_exists in E as (s' & Hs & E). apply svc_eqb_eq in E. subst. apply exported_exports, Hs.
Qed.
Definition send_ends (k : nat) (send : nat -> svc -> M -> @sys W -> option (list happening * @sys W * bool)) : Prop :=
  forall n s m x, rank s m < k -> exported s (nexus n) -> ok x -> exists t y b, send n s m x = Some (t, y, b) /\ ok y.
Lemma prog_ends k send : send_ends k send -> forall p x, below rank nexus k p -> ok x -> exists t y, run_prog send p x = Some (t, y) /\ ok y.
Proof.
  intros SE. induction p as [|a q IH|q IH|v s m q IH|v s m q IH|n q IH]; intros x B Ox; cbn [DispatchModel.run_prog below] in *.
  - eauto.
  - destruct (IH {| ptrs := ptrs x; world := act a (world x); halted := halted x |} B Ox) as (t & y & E & Oy). rewrite E. cbn. eauto.
  - apply IH; auto.
  - destruct B as (B1 & B2 & B3).
    assert (Hs : forall n, serving v s x = Some n -> exported s (nexus n)) by (intros n; destruct v; cbn [serving]; [apply Ox|intros [= <-]; exact B2]).
    destruct (serving v s x) as [n|]; [|do 2 eexists; split; [reflexivity|exact Ox]].
    destruct (SE n s m x B1 (Hs n eq_refl) Ox) as (t & y & b & E & Oy). rewrite E. destruct (halted y); [eauto|].
    destruct (IH b y (B3 b) Oy) as (t2 & y2 & E2 & Oy2). rewrite E2. cbn. eauto.
  - destruct B as [B2 B3]. unfold is_match_at.
    assert (Hs : forall n, serving v s x = Some n -> exported s (nexus n)) by (intros n; destruct v; cbn [serving]; [apply Ox|intros [= <-]; exact B2]).
    destruct (serving v s x) as [n|]; [|apply IH; auto].
    pose proof (handler_exported ftype cond_no kind_of (nexus n) s (all_compile n) (Hs n eq_refl)) as HN.
    destruct (handler_of (nexus n) s) as [h|]; [|congruence]. cbn [option_map]. apply IH; auto.
  - unfold compiles. destruct (builders item_when (nexus n)) eqn:E; [|elim (all_compile n E)]. apply IH; auto. apply ok_start; auto.
Qed.
Lemma entries_end k send n s m : rank s m <= k -> exported s (nexus n) -> send_ends k send -> forall l ls, alike fld psem pred m l ls -> (forall a, In a ls -> listens (nexus n) s a) ->
  forall found x, ok x -> exists t y b, run_entries send n m l found x = Some (t, y, b) /\ ok y.
Proof.
  intros Hk Ex SE l ls A. induction A as [|f name c l a ls Hf Hn Hc Hc' A IH|l a ls Hf A IH]; intros HL found x Ox.
  - cbn [DispatchModel.run_entries]. eauto.
  - cbn [DispatchModel.run_entries]. assert (HL' : forall b, In b ls -> listens (nexus n) s b) by (intros; apply HL; right; auto).
    destruct (f (world x)); [|apply IH; auto]. unfold run_call. destruct (called c) as [g|] eqn:Hg; [|congruence].
    assert (SE' : send_ends (rank s m) send) by (intros n' s' m' x' Hr; apply SE; lia).
    destruct (prog_ends _ send SE' (body g n m) x) as (t & y & E & Oy); auto.
    { apply (R n s a g m Ex); [apply HL; left; auto|congruence]. }
    rewrite E. destruct (halted y); [eauto|]. destruct (IH HL' true y Oy) as (t2 & y2 & b2 & E2 & Oy2). rewrite E2. cbn. eauto.
  - apply IH; auto. intros b Hb. apply HL. right; auto.
Qed.
Lemma send_ends_fuel fuel : send_ends fuel (run_send fuel).
Proof.
  induction fuel as [|fuel IH]; intros n s m x Hr Ex Ox; [lia|]. cbn [DispatchModel.run_send].
  pose proof (handler_exported ftype cond_no kind_of (nexus n) s (all_compile n) Ex) as HN. destruct (handler_of (nexus n) s) as [h|] eqn:E; [|congruence].
  destruct (handler_alike ftype cond_no kind_of fld psem pred act body nexus CP n s h m E) as (ls & H1 & H2 & H3 & H4).
  assert (HL : forall a, In a ls -> listens (nexus n) s a) by (intros a; apply listeners_listen; auto).
  assert (Hr' : rank s m <= fuel) by lia. destruct (entries_end fuel _ n s m Hr' Ex IH _ _ H3 HL false x Ox) as (t & y & b & E1 & Oy).
  unfold DispatchModel.run_handler. rewrite E1. destruct b; eauto.
Qed.
Lemma main_ends fuel p w : below rank nexus fuel p -> run_main ftype cond_no kind_of fld psem act body nexus fuel p w <> None.
Proof.
  intros B. destruct (prog_ends fuel _ (send_ends_fuel fuel) p (initial w) B) as (t & y & E & _); [intros s n; discriminate|].
  unfold run_main. rewrite E. discriminate.
Qed.
End Ends.
End Run.

(** ** Indexing makes no difference *)
Section Same.
Context {M W : Type} (fld : nat -> M -> Z) (psem : nat -> M * W -> bool) (pred : nat -> W -> bool) (act : nat -> W -> W)
  (body : nat -> nat -> M -> @prog M W) (nexus : nat -> config item) (k1 k2 : svc -> kind).
Hypothesis bodies : forall f n m, asks_nothing (body f n m).
Notation does k := (does fld psem pred act body nexus k).
Notation handles k := (handles fld psem pred act body nexus k).
Notation hears k := (hears fld psem pred act body nexus k).
Lemma reasons_app a b : without_reasons (a ++ b) = without_reasons a ++ without_reasons b.
Proof. apply filter_app. Qed.
Lemma reasons_nobody k s l : without_reasons (nobody k s l) = [Unclaimed].
Proof. unfold nobody, without_reasons. cbn [filter]. destruct (k s); [|reflexivity]. f_equal. induction l; cbn; auto. Qed.
Definition P_does (p : prog) (x : @moment W) (t : list happening) (y : @moment W) (_ : does k1 p x t y) : Prop :=
  asks_nothing p -> forall t' y', does k2 p x t' y' -> without_reasons t = without_reasons t' /\ y = y'.
Definition P_handles (n : nat) (s : svc) (m : M) (x : @moment W) (t : list happening) (y : @moment W) (b : bool) (_ : handles k1 n s m x t y b) : Prop :=
  forall t' y' b', handles k2 n s m x t' y' b' -> without_reasons t = without_reasons t' /\ y = y' /\ b = b'.
Definition P_hears (n : nat) (m : M) (l : list listener) (x : @moment W) (t : list happening) (y : @moment W) (b : bool) (_ : hears k1 n m l x t y b) : Prop :=
  forall t' y' b', hears k2 n m l x t' y' b' -> without_reasons t = without_reasons t' /\ y = y' /\ b = b'.
Lemma same p x t y (D : does k1 p x t y) : P_does p x t y D.
Proof.
  apply (does_mut M W fld psem pred act body nexus k1 P_does P_handles P_hears); clear p x t y D; unfold P_does, P_handles, P_hears.
  - intros x _ t' y' D. inversion D; subst. auto.
  - intros a k x t y D IH N t' y' D'. inversion D'; subst. match goal with H1 : does k2 _ _ _ _ |- _ => destruct (IH N _ _ H1) as [E ->] end. cbn. unfold without_reasons in *. rewrite E. auto.
  - intros k x t y D IH N t' y' D'. inversion D'; subst. cbn in N. eauto.
  - intros v s m k x n t y b t' z A H IH O D IH2 N t2 z2 D'. cbn in N. inversion D'; subst.
    + match goal with H1 : asked _ _ _ _ = Some ?a, H2 : asked _ _ _ _ = Some ?b |- _ => rewrite H1 in H2; injection H2 as -> end.
      match goal with H1 : handles k2 _ _ _ _ _ _ _ |- _ => destruct (IH _ _ _ H1) as (E1 & -> & ->) end.
      match goal with H1 : does k2 _ _ _ _ |- _ => destruct (IH2 (N _) _ _ H1) as (E2 & ->) end. rewrite !reasons_app, E1, E2. auto.
    + exfalso. match goal with H1 : asked _ _ _ _ = Some ?a, H2 : asked _ _ _ _ = Some ?b |- _ => rewrite H1 in H2; injection H2 as -> end.
      match goal with H1 : handles k2 _ _ _ _ _ _ _ |- _ => destruct (IH _ _ _ H1) as (E1 & -> & ->) end. congruence.
    + congruence.
  - intros v s m k x n t y b A H IH O N t2 z2 D'. cbn in N. inversion D'; subst.
    + exfalso. match goal with H1 : asked _ _ _ _ = Some ?a, H2 : asked _ _ _ _ = Some ?b |- _ => rewrite H1 in H2; injection H2 as -> end.
      match goal with H1 : handles k2 _ _ _ _ _ _ _ |- _ => destruct (IH _ _ _ H1) as (E1 & -> & ->) end. congruence.
    + match goal with H1 : asked _ _ _ _ = Some ?a, H2 : asked _ _ _ _ = Some ?b |- _ => rewrite H1 in H2; injection H2 as -> end.
      match goal with H1 : handles k2 _ _ _ _ _ _ _ |- _ => destruct (IH _ _ _ H1) as (E1 & -> & ->) end. auto.
    + congruence.
  - intros v s m k x A N t2 z2 D'. inversion D'; subst; try congruence. auto.
  - intros v s m k x b t y A D IH N. destruct N.
  - intros n k x t y D IH N t' y' D'. inversion D'; subst. cbn in N. eauto.
  - intros n s m l x t y E L H IH t' y' b' H'. inversion H'; subst.
    + assert (l0 = l) as -> by (eapply listeners_fun; eauto). match goal with H1 : hears k2 _ _ _ _ _ _ _ |- _ => destruct (IH _ _ _ H1) as (E1 & -> & _) end. auto.
    + assert (l0 = l) as -> by (eapply listeners_fun; eauto). match goal with H1 : hears k2 _ _ _ _ _ _ _ |- _ => destruct (IH _ _ _ H1) as (_ & _ & [=]) end.
  - intros n s m l x t y E L H IH t' y' b' H'. inversion H'; subst.
    + assert (l0 = l) as -> by (eapply listeners_fun; eauto). match goal with H1 : hears k2 _ _ _ _ _ _ _ |- _ => destruct (IH _ _ _ H1) as (_ & _ & [=]) end.
    + assert (l0 = l) as -> by (eapply listeners_fun; eauto). match goal with H1 : hears k2 _ _ _ _ _ _ _ |- _ => destruct (IH _ _ _ H1) as (E1 & -> & _) end.
      rewrite !reasons_app, !reasons_nobody, E1. auto.
  - intros n m x t' y' b' H'. inversion H'; subst. auto.
  - intros n m a l x t y b Hw H IH t' y' b' H'. inversion H'; subst; try congruence. eauto.
  - intros n m a l f x t y t' z b Hw Hc D IH O H IH2 t2 y2 b2 H'. inversion H'; subst; try congruence.
    + match goal with H1 : called _ = Some ?f0 |- _ => assert (f0 = f) as -> by congruence end.
      match goal with H1 : does k2 _ _ _ _ |- _ => destruct (IH (bodies _ _ _) _ _ H1) as (E1 & ->) end.
      match goal with H1 : hears k2 _ _ _ _ _ _ _ |- _ => destruct (IH2 _ _ _ H1) as (E2 & -> & _) end.
      split; [|auto]. cbn. f_equal. change (without_reasons (t ++ t') = without_reasons (t0 ++ t'0)). rewrite !reasons_app, E1, E2. reflexivity.
    + exfalso. match goal with H1 : called _ = Some ?f0, H2 : called _ = Some ?f1 |- _ => assert (f0 = f1) as -> by congruence end.
      match goal with H1 : does k2 _ _ _ _ |- _ => destruct (IH (bodies _ _ _) _ _ H1) as (E1 & ->) end. congruence.
  - intros n m a l f x t y Hw Hc D IH O t2 y2 b2 H'. inversion H'; subst; try congruence.
    + exfalso. match goal with H1 : called _ = Some ?f0, H2 : called _ = Some ?f1 |- _ => assert (f0 = f1) as -> by congruence end.
      match goal with H1 : does k2 _ _ _ _ |- _ => destruct (IH (bodies _ _ _) _ _ H1) as (E1 & ->) end. congruence.
    + match goal with H1 : called _ = Some ?f0, H2 : called _ = Some ?f1 |- _ => assert (f0 = f1) as -> by congruence end.
      match goal with H1 : does k2 _ _ _ _ |- _ => destruct (IH (bodies _ _ _) _ _ H1) as (E1 & ->) end.
      split; [|auto]. cbn. f_equal. exact E1.
Qed.
End Same.

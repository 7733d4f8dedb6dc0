(** Theorems C36 to C39, C58 and C59. *)
From Coq Require Import String Bool Arith List NArith Lia Permutation.
From Verif Require Import IrqModel IrqSpec IrqProofs IrqProofs2 IrqProofs3 IrqProofs4.
Import ListNotations.
Open Scope string_scope.

(** ** A system used in the cases *)
(** A grandparent g, its child p, its grandchildren a and b; a needs resource 7. *)
Definition node name en st res flows := {| i_name := name; i_enable := en; i_status := st; i_policy := ClearFirst; i_resources := res; i_flows := flows |}.
Definition leaf_a := Irq (node "a" (Some 2) (Some 12) [7] [1]) [].
Definition leaf_b := Irq (node "b" (Some 3) (Some 13) [] [2]) [].
Definition mid := Irq (node "p" (Some 1) (Some 11) [] []) [leaf_a; leaf_b].
Definition grand := Irq (node "g" (Some 0) None [] []) [mid].
Definition sys : root := [grand].
Definition one_reg : hal := {| reg_of := fun _ => 0; mask_of := fun f => N.shiftl 1 (N.of_nat f) |}.
Definition blank : state := {| enables := fun _ => false; shadow := fun _ => 0%N; registers := fun _ => 0%N; writes := [] |}.
Lemma sys_tree x : in_tree sys x <-> x = grand \/ x = mid \/ x = leaf_a \/ x = leaf_b.
Proof. rewrite in_tree_descendants. cbn. intuition congruence. Qed.
Lemma sys_layout : layout_ok one_reg sys.
Proof.
  intros x y f g Hx Hy Hf Hg. apply sys_tree in Hx, Hy.
  destruct Hx as [->|[->|[->| ->]]], Hy as [->|[->|[->| ->]]]; cbn in Hf, Hg; injection Hf as <-; injection Hg as <-; split; try (vm_compute; discriminate); auto; right; right; reflexivity.
Qed.
Definition all_on : item -> bool := fun _ => true.
Definition none_already : irq -> bool := fun _ => false.
Lemma blank_before : before_init one_reg sys none_already blank.
Proof. intros g _ k. cbn [registers blank]. rewrite N.bits_0. split; [discriminate|]. intros (x & f & _ & H & _). discriminate. Qed.

(** ** C36 *)
(** Every interrupt an operation touches shows the documented rule afterwards. *)
Theorem C36_affected : forall h r, layout_ok h r -> forall o s s' x, ~ is_init o -> synced h r s -> perform h r o s = Some s' ->
  touched r o x -> agrees h s' x.
Proof. intros h r Hl o s s' x. apply perform_touched. auto. Qed.
(** After init and any operations that recompute everything that depends on what
    they change, every interrupt not named as already enabled shows the rule;
    after init without already-enabled interrupts, all do. *)
Theorem C36_partial : forall h r, layout_ok h r -> forall active s0 os s', before_init h r (fun _ => false) s0 ->
  (forall o, In o os -> reaches_all r o) -> perform_all h r (Init active (fun _ => false) :: os) s0 = Some s' ->
  synced h r s' /\ forall x, in_tree r x -> agrees h s' x.
Proof.
  intros h r Hl active s0 os s' Hb Ho H. cbn [perform_all perform] in H. destruct (init_spec h r Hl active (fun _ => false) s0 Hb) as (I1 & I2 & _).
  apply (perform_all_agrees h r Hl os (init h r active (fun _ => false) s0)); auto.
Qed.
(** With propagation, switching flows always recomputes everything. *)
Theorem C36_flows_reach : forall r v i fs, reaches_all r (Switch v true i (map Flow fs)).
Proof. intros r v i fs t x Ht Hx Hd. apply in_map_iff in Ht. destruct Ht as (f & <- & _). auto. Qed.
(** So does switching resources when only interrupts without grandchildren that
    need them depend on them: here, trees of at most two levels. *)
Theorem C36_resources_reach : forall r v i ns, (forall x c, in_tree r x -> In c (children_of x) -> children_of c = []) ->
  reaches_all r (Switch v true i (map Resource ns)).
Proof.
  intros r v i ns Hflat t x Ht Hx (y & Hb & Hm). apply in_map_iff in Ht. destruct Ht as (n & <- & _).
  destruct Hb as [x|j cs c y Hc Hb]; [auto|]. right. split; auto. exists c. split; auto.
  specialize (Hflat _ _ Hx Hc). destruct Hb as [|j' cs' d y Hd _]; auto. cbn in Hflat. subst. destruct Hd.
Qed.
(** Three levels: disabling, with propagation, the resource a grandchild needs
    leaves the grandparent enabled although nothing below it is on. *)
Definition sys3 : root := [Irq (node "g" (Some 0) None [] []) [Irq (node "p" (Some 1) (Some 11) [] []) [leaf_a]]].
Theorem C36_refuted : exists r s, perform_all one_reg r [Init all_on none_already; Switch false true false [Resource 7]] blank = Some s /\
  layout_ok one_reg r /\ before_init one_reg r none_already blank /\
  exists x, in_tree r x /\ ~ agrees one_reg s x.
Proof.
  exists sys3. eexists. split; [reflexivity|].
  assert (Ht : forall x, in_tree sys3 x <-> In x (descendants sys3)) by (intros; apply in_tree_descendants).
  split; [|split].
  - intros x y f g Hx Hy Hf Hg. apply Ht in Hx, Hy. cbn in Hx, Hy.
    destruct Hx as [<-|[<-|[<-|[]]]], Hy as [<-|[<-|[<-|[]]]]; cbn in Hf, Hg; injection Hf as <-; injection Hg as <-; split; try (vm_compute; discriminate); auto; right; right; reflexivity.
  - intros g _ k. cbn [registers blank]. rewrite N.bits_0. split; [discriminate|]. intros (x & f & _ & H & _). discriminate.
  - eexists. split; [apply Ht; left; reflexivity|]. intros H. destruct (H 0 eq_refl) as [_ H0].
    assert (Hn : N.land 1 1 = 0%N); [|discriminate]. apply H0. intros Hon. apply is_on_spec in Hon. vm_compute in Hon. discriminate.
Qed.
(** By name: disabling both grandchildren leaves the parent enabled. *)
Theorem C36_names_refuted : exists s, perform_all one_reg sys [Init all_on none_already; SwitchNames false false ["a"; "b"]] blank = Some s /\
  ~ agrees one_reg s mid.
Proof.
  eexists. split; [reflexivity|]. intros H. destruct (H 1 eq_refl) as [_ H0]. assert (Hn : N.land 2 2 = 0%N); [|discriminate].
  apply H0. intros Hon. apply is_on_spec in Hon. vm_compute in Hon. discriminate.
Qed.
(** Flow 1 off, then flow 2 off, then both on again: the whole tree follows. *)
Example C36_case : let ops := [Switch false true false [Flow 1]; Switch false true false [Flow 2]] in
  (forall o, In o ops -> reaches_all sys o) /\ layout_ok one_reg sys /\ before_init one_reg sys none_already blank /\
  option_map (fun s => registers s 0) (perform_all one_reg sys [Init all_on none_already] blank) = Some 15%N /\
  option_map (fun s => registers s 0) (perform_all one_reg sys [Init all_on none_already; Switch false true false [Flow 1]] blank) = Some 11%N /\
  option_map (fun s => registers s 0) (perform_all one_reg sys (Init all_on none_already :: ops) blank) = Some 0%N.
Proof.
  cbn zeta. split; [|split; [apply sys_layout|split; [apply blank_before|repeat split; reflexivity]]].
  intros o [<-|[<-|[]]]; apply (C36_flows_reach sys false false [_]).
Qed.
Print Assumptions C36_affected.
Print Assumptions C36_partial.
Print Assumptions C36_flows_reach.
Print Assumptions C36_resources_reach.
Print Assumptions C36_refuted.
Print Assumptions C36_names_refuted.

(** ** C37 *)
(** Bits of interrupts that are not touched never change; the shadow stays the
    register; a register is written at most once, only with a value that it then
    holds, and by a switch only when that is a new value. *)
Theorem C37_frame : forall h r, forall o s s', ~ is_init o -> synced h r s -> perform h r o s = Some s' ->
  (forall g k, (forall x f, touched r o x -> i_enable (info_of x) = Some f -> reg_of h f = g -> N.testbit (mask_of h f) k = false) ->
     N.testbit (registers s' g) k = N.testbit (registers s g) k) /\
  synced h r s' /\
  exists w, writes s' = (w ++ writes s)%list /\ NoDup (map fst w) /\
    (forall g v, In (g, v) w -> registers s' g = v /\ enable_register h r g /\ (is_switch o -> v <> registers s g)) /\
    (forall g, registers s' g <> registers s g -> exists v, In (g, v) w).
Proof.
  intros h r o s s' Hi Hs H. split; [|split].
  - intros g k Hk. apply (perform_frame h r o); auto.
  - apply (perform_synced h r o s); auto.
  - destruct (perform_writes h r o s s' Hi Hs H) as (w & W1 & W2 & W3). exists w. split; [auto|]. split; [auto|]. split; [auto|].
    intros g Hg. destruct (perform_written h r o s s' g Hi Hs H Hg) as (v & w' & W & Hv). exists v. rewrite W1 in W. apply app_inv_tail in W. congruence.
Qed.
(** The shadow stays right through any number of operations after an init from
    hardware holding exactly the already-enabled fields. *)
Theorem C37_partial : forall h r, layout_ok h r -> forall active already os s0 s', before_init h r already s0 ->
  (forall o, In o os -> ~ is_init o) -> perform_all h r (Init active already :: os) s0 = Some s' -> synced h r s'.
Proof.
  intros h r Hl active already os s0 s' Hb Ho H. cbn [perform_all perform] in H. destruct (init_spec h r Hl active already s0 Hb) as (I1 & _).
  revert I1 H. generalize (init h r active already s0). induction os as [|o os IH]; intros s Hs H; cbn [perform_all] in H.
  - injection H as <-. auto.
  - destruct (perform h r o s) as [s1|] eqn:P; [|discriminate]. apply (IH (fun o' Ho' => Ho o' (or_intror Ho')) s1); auto.
    apply (perform_synced h r o s s1); auto. apply Ho. cbn. auto.
Qed.
(** A second init forgets what the hardware holds: after it the register still
    has the interrupts on that the new policy wants off. *)
Theorem C37_refuted : exists s, perform_all one_reg sys [Init all_on none_already; Init (fun _ => false) none_already] blank = Some s /\
  layout_ok one_reg sys /\ before_init one_reg sys none_already blank /\ ~ synced one_reg sys s /\ registers s 0 = 15%N /\ shadow s 0 = 0%N.
Proof.
  eexists. split; [reflexivity|]. split; [apply sys_layout|]. split; [apply blank_before|]. split; [|split; reflexivity].
  intros H. assert (Hn : (15 = 0)%N); [|discriminate]. apply (H 0). exists grand, 0. split; [apply sys_tree; auto|auto].
Qed.
(** Disabling "b" by name changes bit 3 alone with one write. *)
Example C37_case : exists s s', perform_all one_reg sys [Init all_on none_already] blank = Some s /\ synced one_reg sys s /\
  perform one_reg sys (SwitchNames false false ["b"]) s = Some s' /\ registers s 0 = 15%N /\ registers s' 0 = 7%N /\
  writes s' = [(0, 7%N); (0, 15%N)] /\
  exists s2, perform one_reg sys (SwitchNames false false ["b"]) s' = Some s2 /\ writes s2 = writes s'.
Proof.
  eexists. eexists. split; [reflexivity|]. split; [|repeat split; try reflexivity; eexists; split; reflexivity].
  exact (C37_partial one_reg sys sys_layout all_on none_already [] blank _ blank_before (fun o H => match H with end) eq_refl).
Qed.
(** Exactly when a shadow is right, whatever the state before: after an operation that writes the register
    the shadow is right; after one that does not, if it was right before, or, for init, if the register
    held just the fields of the interrupts that are already enabled. *)
Definition fits_already (h : hal) (r : root) (already : irq -> bool) (v : N) (g : nat) : Prop :=
  forall k, N.testbit v k = true <-> exists x f, in_tree r x /\ already x = true /\ i_enable (info_of x) = Some f /\ reg_of h f = g /\ N.testbit (mask_of h f) k = true.
Lemma update_right h force xs s g :
  registers (update h force xs s) g = shadow (update h force xs s) g <->
  (exists v w, writes (update h force xs s) = (w ++ writes s)%list /\ In (g, v) w) \/ registers s g = shadow s g.
Proof.
  destruct (update_spec h force xs s) as [_ US UR (w & W1 & W2 & W3)]. rewrite US, UR, W1. split.
  - intros E. destruct (in_dec Nat.eq_dec g (registers_of h xs)) as [Hi|]; auto. destruct (force || _) eqn:C.
    + left. eexists _, w. split; [reflexivity|]. apply W3. split; [exact Hi|]. split; [reflexivity|]. apply orb_prop in C as [C|C]; auto. right. intros F. rewrite F, N.eqb_refl in C. discriminate.
    + right. apply orb_false_iff in C as [_ C]. apply negb_false_iff, N.eqb_eq in C. rewrite C in E. exact E.
  - intros [(v & w' & E & I)|E].
    + apply app_inv_tail in E as <-. apply W3 in I as (Hi & -> & D). destruct (in_dec Nat.eq_dec g (registers_of h xs)); [|contradiction].
      assert (C : (force || negb (N.eqb (computed h xs (enables s) (shadow s g) g) (shadow s g)))%bool = true); [|rewrite C; reflexivity].
      destruct D as [->|D]; [reflexivity|]. apply N.eqb_neq in D. rewrite D. apply orb_true_r.
    + destruct (in_dec Nat.eq_dec g (registers_of h xs)); auto. destruct (force || _) eqn:C; auto.
      apply orb_false_iff in C as [_ C]. apply negb_false_iff, N.eqb_eq in C. rewrite C. exact E.
Qed.
Lemma marked_bits h r already s g k : enable_register h r g ->
  N.testbit (N.lor (if memb g (registers_of h (filter has_enable_field (descendants r))) then 0%N else shadow s g) (mask_all h (filter (in_register h g) (filter already (descendants r))))) k = true <->
  exists x f, in_tree r x /\ already x = true /\ i_enable (info_of x) = Some f /\ reg_of h f = g /\ N.testbit (mask_of h f) k = true.
Proof.
  intros Hg. assert (Hm : memb g (registers_of h (filter has_enable_field (descendants r))) = true).
  { apply memb_spec, registers_of_spec. apply enable_register_spec in Hg. destruct Hg as (x & Hx & Hxg). exists x. split; auto.
    apply filter_In. rewrite <- in_tree_descendants. split; auto. eapply register_field; eauto. }
  rewrite Hm, N.lor_0_l, mask_all_bit, existsb_exists. split.
  - intros (x & Hx & Hk). rewrite !filter_In in Hx. destruct Hx as [[Hx Hal] Hxg]. apply in_register_spec in Hxg. unfold register_of in Hxg. unfold mask_for in Hk.
    destruct (i_enable (info_of x)) as [f|] eqn:Ef; [|discriminate]. injection Hxg as Hxg. exists x, f. rewrite in_tree_descendants. auto.
  - intros (x & f & X1 & X2 & X3 & X4 & X5). exists x. rewrite !filter_In, <- in_tree_descendants, in_register_spec. unfold register_of, mask_for. rewrite X3. cbn. rewrite X4. auto.
Qed.
Theorem C37_exact : forall h r, forall o s s', perform h r o s = Some s' -> forall g, enable_register h r g ->
  (registers s' g = shadow s' g <->
   (exists v w, writes s' = (w ++ writes s)%list /\ In (g, v) w) \/
   match o with Init _ already => fits_already h r already (registers s g) g | _ => registers s g = shadow s g end).
Proof.
  intros h r o s s' H g Hg. destruct o as [v p i ts|v i ns|a| |a al].
  5:{ cbn [perform] in H. injection H as <-. unfold init. rewrite update_right. cbn [registers shadow writes].
      set (m := N.lor _ _). assert (M : forall k, N.testbit m k = true <-> exists x f, in_tree r x /\ al x = true /\ i_enable (info_of x) = Some f /\ reg_of h f = g /\ N.testbit (mask_of h f) k = true) by (intros k; apply marked_bits, Hg).
      assert (E : registers s g = m <-> fits_already h r al (registers s g) g); [|split; (intros [X|X]; [left; exact X|right; apply E; exact X])]. split.
      - intros E k. rewrite E. apply M.
      - intros F. apply N.bits_inj. intros k. apply eq_true_iff_eq. rewrite (F k). symmetry. apply M. }
  all: (eapply perform_update in H as (s1 & -> & S & R & W & _); [|intros []]); rewrite update_right, S, R, W; apply iff_refl.
Qed.
(** And init writes a register exactly if an interrupt in it that is not already enabled is to be on. *)
Theorem C37_init_writes : forall h r, layout_ok h r -> forall active already s g, enable_register h r g ->
  let s' := init h r active already s in
  (exists v w, writes s' = (w ++ writes s)%list /\ In (g, v) w) <->
  exists x f, in_tree r x /\ already x = false /\ i_enable (info_of x) = Some f /\ reg_of h f = g /\ should_be_on (enables s') x.
Proof.
  intros h r Hl active already s g Hg. cbn zeta. unfold init. set (pot := filter has_enable_field (descendants r)). set (xs := filter (fun x => negb (already x)) pot).
  set (s1 := {| enables := _; shadow := _; registers := _; writes := _ |}).
  assert (Sub : forall y, In y xs -> in_tree r y). { intros y Hy. apply filter_In in Hy as [Hy _]. apply filter_In in Hy. apply in_tree_descendants. tauto. }
  assert (M : forall k, N.testbit (shadow s1 g) k = true <-> exists x f, in_tree r x /\ already x = true /\ i_enable (info_of x) = Some f /\ reg_of h f = g /\ N.testbit (mask_of h f) k = true) by (intros k; apply marked_bits, Hg).
  destruct (update_spec h false xs s1) as [UE _ _ (w & W1 & _ & W3)]. rewrite UE. change (writes s) with (writes s1). split.
  - intros (v & w' & E & I). rewrite W1 in E. apply app_inv_tail in E as <-. apply W3 in I as (Hi & -> & [D|D]); [discriminate|].
    destruct (existsb (fun x => in_register h g x && is_on (enables s1) x)%bool xs) eqn:X.
    + apply existsb_exists in X as (x & Hx & B). apply andb_prop in B as [B1 B2]. apply in_register_spec in B1. pose proof (Sub x Hx) as Ht. apply filter_In in Hx as [_ Hx].
      unfold register_of in B1. destruct (i_enable (info_of x)) as [f|] eqn:Ef; [|discriminate]. injection B1 as B1. exists x, f. split; [exact Ht|]. split; [destruct (already x); [discriminate|reflexivity]|]. split; [exact Ef|]. split; [exact B1|]. apply is_on_spec, B2.
    + exfalso. apply D. apply N.bits_inj. intros k. unfold computed.
      assert (Z : mask_all h (filter (is_on (enables s1)) (filter (in_register h g) xs)) = 0%N).
      { apply N.bits_inj. intros j. rewrite N.bits_0, mask_all_bit. apply not_true_iff_false. intros Y. apply existsb_exists in Y as (x & Hx & _). rewrite !filter_In in Hx. destruct Hx as [[Hx1 Hx2] Hx3].
        assert (T : existsb (fun x => in_register h g x && is_on (enables s1) x)%bool xs = true) by (apply existsb_exists; exists x; split; [exact Hx1|]; rewrite Hx2, Hx3; reflexivity). congruence. }
      rewrite Z, N.lor_0_r, N.ldiff_spec, mask_all_bit. destruct (existsb _ (filter (in_register h g) xs)) eqn:Y; [|apply andb_true_r].
      rewrite andb_false_r. symmetry. apply not_true_iff_false. intros B. apply M in B as (x & f & X1 & X2 & X3 & X4 & X5). apply existsb_exists in Y as (y & Hy & Yk). apply filter_In in Hy as [Hy1 Hy2]. apply in_register_spec in Hy2.
      assert (x = y). { apply (bit_owner h r Hl x y g k); auto; unfold register_of, mask_for; rewrite X3; cbn; congruence. } subst y. apply filter_In in Hy1 as [_ Hy1]. rewrite X2 in Hy1. discriminate.
  - intros (x & f & X1 & X2 & X3 & X4 & X5). eexists _, w. split; [exact W1|]. apply W3.
    assert (Hx : In x xs). { unfold xs, pot. rewrite !filter_In, X2. unfold has_enable_field. rewrite X3. split; [split; [apply in_tree_descendants, X1|reflexivity]|reflexivity]. }
    assert (Rx : register_of h x = Some g) by (unfold register_of; rewrite X3; cbn; congruence).
    split; [apply registers_of_spec; eauto|]. split; [reflexivity|]. right. intros E.
    destruct (Hl x x f f X1 X1 X3 X3) as [Nz _]. assert (K : exists k, N.testbit (mask_of h f) k = true). { exists (N.log2 (mask_of h f)). apply N.bit_log2, Nz. } destruct K as (k & K).
    assert (Km : N.testbit (mask_for h x) k = true) by (unfold mask_for; rewrite X3; exact K).
    pose proof (computed_own h r Hl xs (enables s1) (shadow s1 g) g x k Sub Hx Rx Km) as C. apply is_on_spec in X5. rewrite E, X5 in C. apply M in C as (y & f' & Y1 & Y2 & Y3 & Y4 & Y5).
    assert (y = x). { apply (bit_owner h r Hl y x g k); auto; unfold register_of, mask_for; rewrite Y3; cbn; congruence. } congruence.
Qed.
(** In the second init of C37_refuted nothing is to be on, so that nothing is written. *)
Example C37_exact_case : exists s, perform_all one_reg sys [Init all_on none_already] blank = Some s /\ enable_register one_reg sys 0 /\
  ~ fits_already one_reg sys none_already (registers s 0) 0 /\ fits_already one_reg sys none_already (registers blank 0) 0.
Proof.
  eexists. split; [reflexivity|]. split; [exists grand, 0; split; [apply sys_tree; auto|auto]|]. split.
  - intros F. destruct (proj1 (F 0%N) eq_refl) as (x & f & _ & D & _). discriminate.
  - intros k. cbn [registers blank]. rewrite N.bits_0. split; [discriminate|]. intros (x & f & _ & D & _). discriminate.
Qed.
Print Assumptions C37_exact.
Print Assumptions C37_init_writes.
Print Assumptions C37_frame.
Print Assumptions C37_partial.
Print Assumptions C37_refuted.

(** ** C38 *)
Theorem C38_restore : forall h r, layout_ok h r -> forall o1 o2 s s1 s2,
  (exists p i ts, o1 = Switch true p i ts /\ o2 = Switch false p i ts /\ forall t, In t ts -> enables s t = false) \/
  (exists i ns, o1 = SwitchNames true i ns /\ o2 = SwitchNames false i ns /\ forall n, In n ns -> enables s (Name n) = false) ->
  perform h r o1 s = Some s1 -> perform h r o2 s1 = Some s2 ->
  (forall t, enables s2 t = enables s t) /\
  (synced h r s -> (forall x, touched r o1 x -> agrees h s x) ->
   (forall g, registers s2 g = registers s g) /\ forall g, enable_register h r g -> shadow s2 g = shadow s g).
Proof.
  intros h r Hl o1 o2 s s1 s2 Ho P1 P2.
  assert (He : forall t, enables s2 t = enables s t).
  { destruct Ho as [(p & i & ts & -> & -> & Hoff)|(i & ns & -> & -> & Hoff)].
    - apply (switch_back h r p i ts s s1 s2); auto.
    - apply (switch_names_back h r i ns s s1 s2); auto. }
  split; auto. intros Hs Ha. apply (there_and_back h r Hl o1 o2 s s1 s2); auto.
  - destruct Ho as [(p & i & ts & -> & _)|(i & ns & -> & _)]; intros [].
  - destruct Ho as [(p & i & ts & _ & -> & _)|(i & ns & _ & -> & _)]; intros [].
  - destruct Ho as [(p & i & ts & -> & -> & _)|(i & ns & -> & -> & _)]; reflexivity.
Qed.
(** In particular from any state reached by operations that recompute everything. *)
Theorem C38_reachable : forall h r, layout_ok h r -> forall active s0 os s p i ts s1 s2, before_init h r (fun _ => false) s0 ->
  (forall o, In o os -> reaches_all r o) -> perform_all h r (Init active (fun _ => false) :: os) s0 = Some s ->
  (forall t, In t ts -> enables s t = false) ->
  perform h r (Switch true p i ts) s = Some s1 -> perform h r (Switch false p i ts) s1 = Some s2 ->
  (forall t, enables s2 t = enables s t) /\ (forall g, registers s2 g = registers s g) /\ forall g, enable_register h r g -> shadow s2 g = shadow s g.
Proof.
  intros h r Hl active s0 os s p i ts s1 s2 Hb Ho H Hoff P1 P2. destruct (C36_partial h r Hl active s0 os s Hb Ho H) as [Hs Ha].
  destruct (C38_restore h r Hl (Switch true p i ts) (Switch false p i ts) s s1 s2) as [R1 R2]; auto; [left; exists p, i, ts; auto|].
  split; auto. apply R2; auto. intros x Hx. apply Ha. apply Hx.
Qed.
Definition no_seven : item -> bool := fun t => match t with Resource 7 => false | _ => true end.
Example C38_case : exists s s1 s2, perform_all one_reg sys [Init no_seven none_already] blank = Some s /\
  enables s (Resource 7) = false /\ perform one_reg sys (Switch true true false [Resource 7]) s = Some s1 /\
  perform one_reg sys (Switch false true false [Resource 7]) s1 = Some s2 /\
  registers s 0 = 11%N /\ registers s1 0 = 15%N /\ registers s2 0 = 11%N.
Proof. eexists. eexists. eexists. repeat split; reflexivity. Qed.
Print Assumptions C38_restore.
Print Assumptions C38_reachable.

(** ** C39 *)
(** Whatever the hardware and the flows do: a flow runs only after the enable and
    status fields of its interrupt and of all its ancestors read true, and only
    if each has an active flow. *)
Theorem C39_guarded : forall (Env : Type) (read : nat -> Env -> bool * Env) clear serve service_active nexi x e t1 n f t2,
  well_formed x = true ->
  snd (run read clear serve service_active nexi x e) = (t1 ++ Serve n f :: t2)%list ->
  exists y p, path x y p /\ In f (i_flows (info_of y)) /\ In n nexi /\
    forall z, In z p -> has_active service_active nexi z /\ (forall g, i_enable (info_of z) = Some g -> In (Read g true) t1) /\
      (forall g, i_status (info_of z) = Some g -> In (Read g true) t1).
Proof.
  intros Env read clear serve sa nexi x e t1 n f t2 Hw H. apply run_guarded in H. destruct H as (y & p & P1 & P2 & P3 & P4).
  exists y, p. split; [auto|]. split; [auto|]. split; [auto|]. intros z Hz. destruct (P4 z Hz) as (Q1 & Q2 & Q3). split; [|auto].
  apply active_spec; auto. clear -Hw P1 Hz. revert Hw Hz. induction P1 as [x|i cs c y p Hc P IH]; intros Hw Hz.
  - destruct Hz as [<-|[]]. auto.
  - destruct Hz as [<-|Hz]; auto. apply IH; auto. eapply wf_children; eauto.
Qed.
(** On hardware that changes only by clearing, the flows that run, in order, are
    exactly those of the interrupts that are ready together with all their
    ancestors; exactly their status fields are cleared, once each, unless the
    policy says not to; and nothing else changes. *)
Theorem C39_exact : forall (Env : Type) (read : nat -> Env -> bool * Env) clear serve service_active nexi bit x e,
  plain_hardware read clear serve bit -> well_formed x = true -> NoDup (all_fields x) ->
  let res := run read clear serve service_active nexi x e in
  exists ys, subseq ys (preorder x) /\ (forall y, In y ys <-> serviced service_active nexi (bit e) x y) /\
    served (snd res) = flat_map (own_services nexi) ys /\ Permutation (cleared (snd res)) (flat_map own_clears ys) /\
    forall g, bit (fst res) g = true <-> bit e g = true /\ ~ In g (cleared (snd res)).
Proof.
  intros Env read clear serve sa nexi bit x e Hp Hw Hn res. exists (serviced_list sa nexi (bit e) x).
  assert (Hn' : NoDup (tree_fields x)) by (apply (Permutation_NoDup (Permutation_sym (tree_fields_perm x))); auto).
  destruct (run_does read clear serve sa nexi bit Hp x Hw Hn' e) as [D1 D2 D3]. fold res in D1, D2, D3.
  split; [apply serviced_list_subseq|]. split; [intros; apply (serviced_list_spec read clear serve); auto|]. split; [auto|]. split; [auto|].
  intros g. rewrite D3, andb_true_iff, negb_true_iff. split; intros [H1 H2]; split; auto.
  - intros Hi. assert (Ht : existsb (Nat.eqb g) (cleared (snd res)) = true) by (apply existsb_exists; exists g; split; auto; apply Nat.eqb_refl). congruence.
  - destruct (existsb _ _) eqn:E; auto. apply existsb_exists in E. destruct E as (g' & Hg' & Heq). apply Nat.eqb_eq in Heq. subst. tauto.
Qed.
(** When a run services anything, the clear comes before or after all of it,
    according to the policy, or not at all. Holds for the run of every interrupt
    in the tree. *)
Theorem C39_clear_place : forall (Env : Type) (read : nat -> Env -> bool * Env) clear serve service_active nexi x e,
  let t := snd (run read clear serve service_active nexi x e) in
  served t <> [] -> exists rd rest,
  (forall ev, In ev rd -> exists f, ev = Read f true) /\
  match i_policy (info_of x), i_status (info_of x) with
  | ClearFirst, Some f => t = (rd ++ Clear f :: rest)%list
  | ClearLast, Some f => t = (rd ++ rest ++ [Clear f])%list
  | _, _ => t = (rd ++ rest)%list
  end /\
  match x with
  | Irq i [] => rest = map (fun p => Serve (fst p) (snd p)) (own_services nexi x)
  | Irq i cs => exists e0, rest = snd (fold_right (fun c k => chain (run read clear serve service_active nexi c) k) nothing cs e0)
  end.
Proof. intros. apply clear_place. auto. Qed.
(** manager::run runs the interrupt of that number and nothing otherwise; max_irq
    is the largest number. *)
Theorem C39_manager : forall (Env : Type) (read : nat -> Env -> bool * Env) clear serve service_active nexi tops number e,
  (~ In number (map fst tops) -> manager_run read clear serve service_active nexi tops number e = (e, [])) /\
  (NoDup (map fst tops) -> forall x, In (number, x) tops ->
     manager_run read clear serve service_active nexi tops number e = run read clear serve service_active nexi x e) /\
  (tops <> [] -> In (max_irq tops) (map fst tops) /\ forall m, In m (map fst tops) -> m <= max_irq tops).
Proof.
  intros Env read clear serve sa nexi tops number e. unfold manager_run. split; [|split].
  - intros H. destruct (find _ tops) as [[m x]|] eqn:E; auto. apply find_some in E. destruct E as [E1 E2]. apply Nat.eqb_eq in E2. cbn in E2. subst.
    destruct H. apply in_map_iff. exists (number, x). auto.
  - intros Hn x Hx. assert (E : find (fun t => Nat.eqb (fst t) number) tops = Some (number, x)); [|rewrite E; auto].
    induction tops as [|[m y] tops IH]; [destruct Hx|]. cbn. cbn in Hn. inversion_clear Hn. destruct Hx as [[= -> ->]|Hx]; [rewrite Nat.eqb_refl; auto|].
    destruct (Nat.eqb m number) eqn:Em; [|auto]. apply Nat.eqb_eq in Em. subst. destruct H. apply in_map_iff. exists (number, x). auto.
  - unfold max_irq. clear. induction tops as [|[m x] tops IH]; [congruence|]. intros _. cbn [map fst fold_right In].
    destruct tops as [|t tops]; [cbn; split; [left; lia|intros k [<-|[]]; lia]|]. destruct IH as [IH1 IH2]; [discriminate|].
    set (k := fold_right Nat.max 0 (map fst (t :: tops))) in *. split.
    + destruct (Nat.max_spec m k) as [[_ ->]|[_ ->]]; auto.
    + intros j [<-|Hj]; [lia|]. specialize (IH2 j Hj). lia.
Qed.
(** Hardware that is its bits; a and b pending, only b enabled. *)
Definition plain_read (f : nat) (e : nat -> bool) := (e f, e).
Definition plain_clear (f : nat) (e : nat -> bool) := fun g => if Nat.eqb g f then false else e g.
Definition plain_serve (n f : nat) (e : nat -> bool) := e.
Example C39_case : plain_hardware plain_read plain_clear plain_serve (fun e => e) /\ well_formed grand = true /\ NoDup (all_fields grand) /\
  snd (run plain_read plain_clear plain_serve (fun _ _ => true) [0] grand (fun f => memb f [0; 1; 3; 11; 12; 13])) =
    [Read 0 true; Read 1 true; Read 11 true; Clear 11; Read 2 false; Read 3 true; Read 13 true; Clear 13; Serve 0 2].
Proof.
  split; [split; intros; cbn; auto|]. split; [reflexivity|]. split; [|reflexivity].
  cbn. repeat (constructor; [cbn; intuition discriminate|]). constructor.
Qed.
Print Assumptions C39_guarded.
Print Assumptions C39_exact.
Print Assumptions C39_clear_place.
Print Assumptions C39_manager.

(** ** C58 *)
(** Turning a resource off turns off every interrupt with an enable field that
    needs it, and it stays off until the resource is turned on again. *)
Theorem C58_partial : forall h r, layout_ok h r -> forall n p i ts os s s' x f,
  in_tree r x -> In n (i_resources (info_of x)) -> i_enable (info_of x) = Some f -> synced h r s ->
  In (Resource n) ts -> (forall o, In o os -> ~ turns_on o (Resource n)) ->
  perform_all h r (Switch false p i ts :: os) s = Some s' ->
  field_off h (registers s') f.
Proof.
  intros h r Hl n p i ts os s s' x f Hx Hn Hf Hs Hts Hos H. cbn [perform_all] in H.
  destruct (perform h r (Switch false p i ts) s) as [s1|] eqn:P; [|discriminate].
  assert (Hsh : enables s1 (Resource n) = false /\ shows h (registers s1) x false).
  { assert (He : enables s1 (Resource n) = false).
    { rewrite (fun F => perform_enables h r _ _ _ F P) by (intros []). destruct (in_dec _ _ ts); [|tauto].
      assert (Hk : known r (Resource n) = true) by (apply (depends_known r x); auto; exists x; split; [constructor|auto]). rewrite Hk. auto. }
    split; auto. rewrite <- (resource_off_not_on (enables s1) x n); auto. apply agrees_shows.
    apply (perform_touched h r Hl (Switch false p i ts) s s1 x); auto. split; auto. exists (Resource n), x. auto. }
  destruct Hsh as [He Hsh].
  destruct (stays_off h r Hl x n Hx Hn os s1 s') as [_ Hoff]; auto.
  { apply (perform_synced h r (Switch false p i ts) s s1); auto. }
  apply (proj1 (shows_field h (registers s') x false)) with (f := f) in Hoff; auto.
Qed.
(** In terms of what is run: with hardware that reads the enable fields in the registers,
    after the resource is turned off an interrupt is serviced only on a way on which every
    interrupt that needs the resource has no enable field; so one that has one is not
    serviced, nor is what is below it. *)
Lemma serviced_path sa nexi bit x y : serviced sa nexi bit x y -> exists p, path x y p /\ forall z, In z p -> ready sa nexi bit z.
Proof.
  induction 1 as [x R|i cs c y R Hc _ (p & P & A)]. exists [x]. split; [constructor|]. intros z [<-|[]]; auto.
  exists (Irq i cs :: p). split; [econstructor; eauto|]. intros z [<-|Hz]; auto.
Qed.
Lemma path_below x y p : path x y p -> forall z, In z p -> below x z.
Proof. induction 1 as [x|i cs c y p Hc _ IH]; intros z [<-|Hz]; try constructor; try contradiction. econstructor; eauto. Qed.
Theorem C58_exact : forall (Env : Type) (read : nat -> Env -> bool * Env) clear serve sa nexi bit e h r, layout_ok h r -> forall n p i ts os s s' top,
  synced h r s -> In (Resource n) ts -> (forall o, In o os -> ~ turns_on o (Resource n)) ->
  perform_all h r (Switch false p i ts :: os) s = Some s' ->
  plain_hardware read clear serve bit -> (forall f, field_off h (registers s') f -> bit e f = false) ->
  In top r -> well_formed top = true -> NoDup (all_fields top) ->
  exists ys, served (snd (run read clear serve sa nexi top e)) = flat_map (own_services nexi) ys /\
    forall y, In y ys <-> exists w, path top y w /\ (forall z, In z w -> ready sa nexi (bit e) z) /\
                                   forall z, In z w -> In n (i_resources (info_of z)) -> i_enable (info_of z) = None.
Proof.
  intros Env read clear serve sa nexi bit e h r Hl n p i ts os s s' top Hs Hts Hos H Hp Hb Htop Hw Hn.
  destruct (C39_exact Env read clear serve sa nexi bit top e Hp Hw Hn) as (ys & _ & Hys & Hsv & _). exists ys. split; auto. intros y. rewrite Hys. split.
  - intros S. destruct (serviced_path _ _ _ _ _ S) as (w & P & A). exists w. split; auto. split; auto. intros z Hz Hres. destruct (i_enable (info_of z)) as [f|] eqn:E; auto.
    assert (T : in_tree r z) by (exists top; split; auto; apply (path_below _ _ _ P); auto).
    pose proof (C58_partial h r Hl n p i ts os s s' z f T Hres E Hs Hts Hos H) as Off. apply Hb in Off. destruct (A z Hz) as (_ & R & _). specialize (R f E). congruence.
  - intros (w & P & A & _). clear -P A. induction P as [x|j cs c y w Hc _ IH]. constructor. apply A. left. auto.
    apply serviced_below with c; auto. apply A. left. auto. apply IH. intros z Hz. apply A. right. auto.
Qed.
(** An interrupt without an enable field still runs its flows when its resource is
    off. *)
Definition bare := Irq (node "i" None None [7] [1]) [].
Theorem C58_refuted : exists r s, perform_all one_reg r [Init all_on none_already; Switch false true false [Resource 7]] blank = Some s /\
  enables s (Resource 7) = false /\ In bare r /\ In 7 (i_resources (info_of bare)) /\
  served (snd (run plain_read plain_clear plain_serve (fun _ _ => true) [0] bare (fun f => N.testbit (registers s 0) (N.of_nat f)))) = [(0, 1)].
Proof. exists [bare]. eexists. split; [reflexivity|]. repeat split; cbn; auto. Qed.
Example C58_case : exists s, perform_all one_reg sys [Init all_on none_already; Switch false false false [Resource 7]; Switch true true false [Flow 1]; Refresh true] blank = Some s /\
  registers s 0 = 11%N /\ served (snd (run plain_read plain_clear plain_serve (fun _ _ => true) [0] grand (fun f => Nat.ltb 10 f || N.testbit (registers s 0) (N.of_nat f)))) = [(0, 2)].
Proof. eexists. split; [reflexivity|]. split; reflexivity. Qed.
Print Assumptions C58_partial.
Print Assumptions C58_exact.
Print Assumptions C58_refuted.

(** ** C59 *)
(** manager::init: the MCU enables a top-level interrupt iff it has an active
    flow; and when no top-level interrupt has an enable field, every other
    interrupt is enabled iff an active flow can be reached from it through
    interrupts that need no resources. *)
Theorem C59_partial : forall h service_active nexi tops, let r := map snd tops in layout_ok h r ->
  (forall t, In t tops -> well_formed (snd t) = true) ->
  forall already, (forall x, already x = true <-> In x r) ->
  (forall t, In t tops -> i_enable (info_of (snd t)) = None) ->
  forall s, (forall g, enable_register h r g -> registers s g = 0%N) ->
  let s' := init h r (default_active service_active nexi tops) already s in
  (forall n b, In (IrqInit n b) (init_mcu service_active nexi tops) <-> exists x, In (n, x) tops /\ (b = true <-> has_active service_active nexi x)) /\
  synced h r s' /\
  forall x f, in_tree r x -> i_enable (info_of x) = Some f ->
    (open_to (fun fl => exists n, In n nexi /\ service_active n fl = true) x -> field_on h (registers s') f) /\
    (~ open_to (fun fl => exists n, In n nexi /\ service_active n fl = true) x -> field_off h (registers s') f).
Proof.
  intros h sa nexi tops r Hl Hw already Hal Hnone s Hz s'.
  assert (Htop : forall x, already x = true -> i_enable (info_of x) = None).
  { intros x Hx. apply Hal in Hx. apply in_map_iff in Hx. destruct Hx as (t & <- & Ht). auto. }
  assert (Hb : before_init h r already s).
  { intros g Hg k. rewrite (Hz g Hg), N.bits_0. split; [discriminate|]. intros (x & f & _ & Hx & Hf & _). rewrite (Htop x Hx) in Hf. discriminate. }
  destruct (init_spec h r Hl (default_active sa nexi tops) already s Hb) as (I1 & I2 & _ & I4). fold s' in I1, I2, I4.
  split; [|split; auto].
  - intros n b. unfold init_mcu. cbn [In]. rewrite in_map_iff. split.
    + intros [H|([m x] & [= <- <-] & Ht)]; [discriminate|]. exists x. split; auto. cbn. specialize (Hw _ Ht). cbn in Hw.
      rewrite <- (active_spec sa nexi x Hw). reflexivity.
    + intros (x & Ht & Hx). right. exists (n, x). split; auto. cbn. f_equal. specialize (Hw _ Ht). cbn in Hw.
      assert (Ha := active_spec sa nexi x Hw). rewrite <- Ha in Hx.
      destruct b, (active sa nexi x); auto; [apply Hx; auto|symmetry; apply Hx; auto].
  - intros x f Hx Hf. assert (Hx' : already x = false) by (destruct (already x) eqn:E; auto; rewrite (Htop x E) in Hf; discriminate).
    destruct (I2 x Hx Hx' f Hf) as [A1 A2]. assert (Hon := default_on sa nexi tops (enables s') Hw I4 x Hx). unfold flow_runs in Hon.
    split; intros H; [apply A1|apply A2]; rewrite Hon; auto.
Qed.
(** Exactly, whatever the registers held: a register with the field of an interrupt
    below the top level that can run something is written, with the fields of these
    and of all top-level interrupts; every other register stays as it was. *)
Lemma init_registers h r : layout_ok h r -> forall active already s g, enable_register h r g ->
  let s' := init h r active already s in
  let todo := fun y => in_tree r y /\ already y = false /\ register_of h y = Some g /\ is_on (enables s') y = true in
  ((exists y, todo y) -> forall k, N.testbit (registers s' g) k = true <->
     exists x, in_tree r x /\ register_of h x = Some g /\ N.testbit (mask_for h x) k = true /\ (already x = true \/ is_on (enables s') x = true)) /\
  (~ (exists y, todo y) -> registers s' g = registers s g).
Proof.
  intros Hl active already s g Hg. cbn zeta. unfold init. set (pot := filter has_enable_field (descendants r)).
  set (s1 := {| enables := _; shadow := _; registers := _; writes := _ |}).
  set (xs := filter (fun x => negb (already x)) pot).
  assert (Hxs : forall y, In y xs <-> in_tree r y /\ already y = false /\ has_enable_field y = true).
  { intros y. unfold xs, pot. rewrite !filter_In, negb_true_iff, in_tree_descendants. tauto. }
  assert (Hsub : forall y, In y xs -> in_tree r y) by (intros y Hy; apply Hxs; auto).
  destruct (update_spec h false xs s1) as [UE _ UR _]. specialize (UR g).
  change (registers s1) with (registers s) in UR. rewrite UE. clear UE. set (e := enables s1) in *.
  assert (Hsh : forall k, N.testbit (shadow s1 g) k = true <-> exists x, in_tree r x /\ register_of h x = Some g /\ N.testbit (mask_for h x) k = true /\ already x = true).
  { intros k. cbn [shadow s1]. assert (Hm : memb g (registers_of h pot) = true).
    { apply memb_spec, registers_of_spec. apply enable_register_spec in Hg. destruct Hg as (x & Hx & Hxg). exists x. split; auto.
      apply filter_In. rewrite <- in_tree_descendants. split; auto. eapply register_field; eauto. }
    rewrite Hm, N.lor_0_l, mask_all_bit, existsb_exists. split.
    - intros (x & Hx & Hk). rewrite !filter_In, in_register_spec, <- in_tree_descendants in Hx. exists x. tauto.
    - intros (x & H1 & H2 & H3 & H4). exists x. rewrite !filter_In, in_register_spec, <- in_tree_descendants. tauto. }
  assert (Hin : forall y, in_tree r y -> already y = false -> register_of h y = Some g -> In y xs).
  { intros y H1 H2 H3. apply Hxs. repeat split; auto. eapply register_field; eauto. }
  assert (Hown : forall x k, In x xs -> register_of h x = Some g -> N.testbit (mask_for h x) k = true -> N.testbit (shadow s1 g) k = false).
  { intros x k Hx Hxg Hk. destruct (N.testbit (shadow s1 g) k) eqn:E; auto. apply Hsh in E as (y & Y1 & Y2 & Y3 & Y4).
    assert (x = y) by (apply (bit_owner h r Hl x y g k); auto). subst y. apply Hxs in Hx as (_ & Hx & _). congruence. }
  assert (Hno : forall k, ~ (exists x, In x xs /\ register_of h x = Some g /\ N.testbit (mask_for h x) k = true) ->
    N.testbit (computed h xs e (shadow s1 g) g) k = N.testbit (shadow s1 g) k).
  { intros k H. apply computed_other. intros x Hx Hxg. destruct (N.testbit (mask_for h x) k) eqn:E; auto. destruct H. eauto. }
  assert (Hdec : forall k, (exists x, In x xs /\ register_of h x = Some g /\ N.testbit (mask_for h x) k = true) \/
                           ~ (exists x, In x xs /\ register_of h x = Some g /\ N.testbit (mask_for h x) k = true)).
  { intros k. destruct (existsb (fun x => in_register h g x && N.testbit (mask_for h x) k) xs) eqn:E.
    - left. apply existsb_exists in E as (x & Hx & E). apply andb_true_iff in E as [E1 E2]. apply in_register_spec in E1. eauto.
    - right. intros (x & Hx & H1 & H2). assert (F : existsb (fun x => in_register h g x && N.testbit (mask_for h x) k) xs = true); [|congruence].
      apply existsb_exists. exists x. apply in_register_spec in H1. rewrite H1, H2. auto. }
  split.
  - intros (y & Y1 & Y2 & Y3 & Y4) k. assert (Hy := Hin y Y1 Y2 Y3).
    assert (Hgx : In g (registers_of h xs)) by (apply registers_of_spec; eauto).
    destruct (in_dec Nat.eq_dec g (registers_of h xs)) as [_|]; [|tauto].
    assert (Hne : computed h xs e (shadow s1 g) g <> shadow s1 g).
    { intros E. unfold register_of in Y3. destruct (i_enable (info_of y)) as [f|] eqn:Ef; [|discriminate].
      assert (Hm := mask_nonzero h r Hl y f Y1 Ef). assert (Hb : exists b, N.testbit (mask_of h f) b = true).
      { exists (N.log2 (mask_of h f)). apply N.bit_log2. auto. }
      destruct Hb as (b & Hb). assert (Hyg : register_of h y = Some g) by (unfold register_of; rewrite Ef; auto).
      assert (Hyb : N.testbit (mask_for h y) b = true) by (unfold mask_for; rewrite Ef; auto).
      assert (C := computed_own h r Hl xs e (shadow s1 g) g y b Hsub Hy Hyg Hyb). rewrite E, (Hown y b Hy Hyg Hyb), Y4 in C. discriminate. }
    apply N.eqb_neq in Hne. rewrite Hne in UR. cbn [orb negb] in UR. rewrite UR.
    destruct (Hdec k) as [(x & Hx & Hxg & Hk)|Hn].
    + rewrite (computed_own h r Hl xs e _ g x k Hsub Hx Hxg Hk). split.
      * intros Hon. exists x. repeat split; auto.
      * intros (z & Z1 & Z2 & Z3 & Z4). assert (x = z) by (apply (bit_owner h r Hl x z g k); auto). subst z. destruct Z4; auto.
        apply Hxs in Hx as (_ & Hx & _). congruence.
    + rewrite (Hno k Hn), Hsh. split.
      * intros (x & X1 & X2 & X3 & X4). exists x. auto.
      * intros (x & X1 & X2 & X3 & X4). exists x. repeat split; auto. destruct (already x) eqn:Ea; auto. exfalso. apply Hn. exists x. auto.
  - intros Hnone. rewrite UR. destruct (in_dec _ _ _) as [_|]; auto.
    assert (E : computed h xs e (shadow s1 g) g = shadow s1 g).
    { apply N.bits_inj. intros k. destruct (Hdec k) as [(x & Hx & Hxg & Hk)|Hn]; [|auto].
      rewrite (computed_own h r Hl xs e _ g x k Hsub Hx Hxg Hk), (Hown x k Hx Hxg Hk). apply not_true_iff_false. intros Hon. apply Hnone.
      exists x. apply Hxs in Hx as (X1 & X2 & _). auto. }
    rewrite E, N.eqb_refl. reflexivity.
Qed.
Theorem C59_exact : forall h service_active nexi tops, let r := map snd tops in layout_ok h r ->
  (forall t, In t tops -> well_formed (snd t) = true) ->
  forall already, (forall x, already x = true <-> In x r) ->
  forall s g, enable_register h r g ->
  let regs := registers (init h r (default_active service_active nexi tops) already s) in
  let can_run := open_to (fun fl => exists n, In n nexi /\ service_active n fl = true) in
  let written := exists y f, in_tree r y /\ ~ In y r /\ i_enable (info_of y) = Some f /\ reg_of h f = g /\ can_run y in
  (written -> forall k, N.testbit (regs g) k = true <->
     exists x f, in_tree r x /\ i_enable (info_of x) = Some f /\ reg_of h f = g /\ N.testbit (mask_of h f) k = true /\ (In x r \/ can_run x)) /\
  (~ written -> regs g = registers s g).
Proof.
  intros h sa nexi tops r Hl Hw already Hal s g Hg regs can_run written.
  destruct (init_registers h r Hl (default_active sa nexi tops) already s g Hg) as [A B].
  assert (He : forall t, enables (init h r (default_active sa nexi tops) already s) t = known r t && match t with Name _ => true | _ => default_active sa nexi tops t end).
  { intros t. unfold init. rewrite update_enables. reflexivity. }
  assert (Hon : forall x, in_tree r x -> is_on (enables (init h r (default_active sa nexi tops) already s)) x = true <-> can_run x).
  { intros x Hx. rewrite is_on_spec. apply (default_on sa nexi tops _ Hw He x Hx). }
  assert (Hr : forall x, register_of h x = Some g <-> exists f, i_enable (info_of x) = Some f /\ reg_of h f = g).
  { intros x. unfold register_of. destruct (i_enable (info_of x)) as [f|]; cbn; split.
    - intros E. injection E as E. eauto.
    - intros (f' & E & <-). injection E as <-. auto.
    - discriminate.
    - intros (f & E & _). discriminate. }
  assert (Hwr : written <-> exists y, in_tree r y /\ already y = false /\ register_of h y = Some g /\ is_on (enables (init h r (default_active sa nexi tops) already s)) y = true).
  { split.
    - intros (y & f & H1 & H2 & H3 & H4 & H5). exists y. split; auto. split; [|split].
      + rewrite <- Hal in H2. destruct (already y); auto. tauto.
      + apply Hr. eauto.
      + apply Hon; auto.
    - intros (y & H1 & H2 & H3 & H4). apply Hr in H3 as (f & H3 & H3'). exists y, f. repeat split; auto.
      + intros H. apply Hal in H. congruence.
      + apply Hon; auto. }
  rewrite Hwr. split; [|exact B]. intros W k. unfold regs. rewrite (A W k). split.
  - intros (x & X1 & X2 & X3 & X4). apply Hr in X2 as (f & X2 & X2'). exists x, f. unfold mask_for in X3. rewrite X2 in X3. repeat split; auto.
    destruct X4; [left; apply Hal|right; apply Hon]; auto.
  - intros (x & f & X1 & X2 & X3 & X4 & X5). exists x. repeat split; auto.
    + apply Hr; eauto.
    + unfold mask_for. rewrite X2. auto.
    + destruct X5; [left; apply Hal|right; apply Hon]; auto.
Qed.
Print Assumptions C59_exact.
(** An inactive top-level interrupt with an enable field in a shared register is
    marked as already enabled, and initialisation writes its bit on. *)
Definition idle := Irq (node "idle" (Some 0) None [] [5]) [].
Definition busy := Irq (node "busy" None None [] []) [Irq (node "sub" (Some 1) None [] [6]) []].
Definition only_six (n f : nat) : bool := Nat.eqb f 6.
Theorem C59_refuted : exists tops already, let r := map snd tops in
  layout_ok one_reg r /\ (forall x, In x (descendants r) -> already x = true <-> In x r) /\ In (3, idle) tops /\
  In (IrqInit 3 false) (init_mcu only_six [0] tops) /\ registers blank 0 = 0%N /\
  field_on one_reg (registers (init one_reg r (default_active only_six [0] tops) already blank)) 0.
Proof.
  exists [(3, idle); (4, busy)], (fun x => String.eqb (name_of x) "idle" || String.eqb (name_of x) "busy"). cbn zeta.
  split; [|split; [|split; [cbn; auto|split; [cbn; auto|split; reflexivity]]]].
  - intros x y f g Hx Hy Hf Hg. apply in_tree_descendants in Hx, Hy. cbn in Hx, Hy.
    destruct Hx as [<-|[<-|[<-|[]]]], Hy as [<-|[<-|[<-|[]]]]; cbn in Hf, Hg; try discriminate; injection Hf as <-; injection Hg as <-; split; try (vm_compute; discriminate); auto; right; right; reflexivity.
  - cbn. intros x [<-|[<-|[<-|[]]]]; cbn; split; intros H; auto; try discriminate. destruct H as [|[|[]]]; discriminate.
Qed.
Example C59_case : let top := Irq (node "top" None None [] []) [leaf_a; leaf_b; Irq (node "c" (Some 4) (Some 14) [] [3]) []] in
  let sa := fun n f => Nat.ltb f 3 in
  init_mcu sa [0] [(9, top)] = [HalInit; IrqInit 9 true] /\
  registers (init one_reg [top] (default_active sa [0] [(9, top)]) (fun x => String.eqb (name_of x) "top") blank) 0 = 8%N.
Proof. split; reflexivity. Qed.
Print Assumptions C59_partial.
Print Assumptions C59_refuted.

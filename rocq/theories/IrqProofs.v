(** Proofs about the dynamic controller: the tree, the rule, and one update. *)
From Coq Require Import String Bool Arith List NArith Lia.
From Verif Require Import IrqModel IrqSpec.
Import ListNotations.
Local Open Scope nat_scope.

Definition irq_induction (P : irq -> Prop) (H : forall i cs, (forall c, In c cs -> P c) -> P (Irq i cs)) : forall x, P x :=
  fix go (x : irq) : P x :=
    match x with
    | Irq i cs => H i cs ((fix all (l : list irq) : forall c, In c l -> P c :=
        match l with
        | [] => fun c (h : In c []) => match h with end
        | d :: r => fun c (h : In c (d :: r)) => match h with or_introl e => eq_ind d P (go d) c e | or_intror h' => all r c h' end
        end) cs)
    end.

(** ** The tree *)
Lemma below_descendants x y : below x y <-> y = x \/ In y (descendants_of x).
Proof.
  revert y. induction x as [i cs IH] using irq_induction. intros y. cbn [descendants_of]. rewrite in_app_iff, in_flat_map. split.
  - intros H. inversion H as [|? ? c ? Hc Hb]; subst; auto. right. apply IH in Hb; auto. destruct Hb as [->|Hb]; eauto.
  - intros [->|[H|(c & Hc & H)]]; [constructor|..].
    + apply below_child with y; auto. constructor.
    + apply below_child with c; auto. apply IH; auto.
Qed.
Lemma in_tree_descendants r y : in_tree r y <-> In y (descendants r).
Proof.
  unfold in_tree, descendants. rewrite in_app_iff, in_flat_map. split.
  - intros (x & Hx & H). apply below_descendants in H. destruct H as [->|H]; eauto.
  - intros [H|(x & Hx & H)]; [exists y|exists x]; (split; [auto|]); [constructor|]. apply below_descendants. auto.
Qed.
Lemma below_trans x y z : below x y -> below y z -> below x z.
Proof. induction 1; auto. intros H1. eapply below_child; eauto. Qed.
Lemma in_tree_below r x y : in_tree r x -> below x y -> in_tree r y.
Proof. intros (a & Ha & H) H'. exists a. split; auto. eapply below_trans; eauto. Qed.
Lemma memb_spec n l : memb n l = true <-> In n l.
Proof.
  unfold memb. rewrite existsb_exists. split; [intros (x & H & E); apply Nat.eqb_eq in E; subst; auto|].
  intros H. exists n. rewrite Nat.eqb_refl. auto.
Qed.
Lemma all_flows_spec x f : In f (all_flows_of x) <-> exists y, below x y /\ In f (i_flows (info_of y)).
Proof.
  induction x as [i cs IH] using irq_induction. cbn [all_flows_of]. rewrite in_app_iff, in_flat_map. split.
  - intros [H|(c & Hc & H)]; [exists (Irq i cs); split; [constructor|auto]|]. apply IH in H; auto.
    destruct H as (y & H1 & H2). exists y. split; auto. eapply below_child; eauto.
  - intros (y & H1 & H2). inversion H1 as [|? ? c ? Hc Hb]; subst; auto. right. exists c. split; auto. apply IH; eauto.
Qed.
Lemma known_spec r t : known r t = true <-> exists y, in_tree r y /\ mentions y t.
Proof.
  destruct t as [n|f|s]; cbn [known mentions].
  - rewrite memb_spec, in_flat_map. split; intros (y & H1 & H2); exists y; rewrite in_tree_descendants in *; auto.
  - rewrite memb_spec, in_flat_map. split; intros (y & H1 & H2); exists y; rewrite in_tree_descendants in *; auto.
  - rewrite existsb_exists. split; intros (y & H1 & H2); exists y; rewrite in_tree_descendants in *; [apply String.eqb_eq in H2|apply String.eqb_eq in H2]; auto.
Qed.
Lemma depends_known r x t : in_tree r x -> depends_on x t -> known r t = true.
Proof. intros H (y & H1 & H2). apply known_spec. exists y. split; auto. eapply in_tree_below; eauto. Qed.

(** ** The rule *)
Lemma forallb_ext_in {A} (f g : A -> bool) l : (forall x, In x l -> f x = g x) -> forallb f l = forallb g l.
Proof. induction l as [|x l IH]; intros H; cbn; auto. rewrite (H x), IH; cbn; auto. intros y Hy. apply H. cbn. auto. Qed.
Lemma existsb_ext_in {A} (f g : A -> bool) l : (forall x, In x l -> f x = g x) -> existsb f l = existsb g l.
Proof. induction l as [|x l IH]; intros H; cbn; auto. rewrite (H x), IH; cbn; auto. intros y Hy. apply H. cbn. auto. Qed.
Lemma is_on_spec e x : is_on e x = true <-> should_be_on e x.
Proof.
  induction x as [i cs IH] using irq_induction. cbn [is_on]. rewrite !andb_true_iff, orb_true_iff, forallb_forall, !existsb_exists. split.
  - intros [[H1 H2] [(f & H3 & H4)|(c & H3 & H4)]]; [eapply on_by_flow; eauto|]. apply IH in H4; auto. eapply on_by_child; eauto.
  - intros H. inversion H as [? ? f H1 H2 H3 H4|? ? c H1 H2 H3 H4]; subst; (split; [split; auto|]); [eauto|]. right. exists c. split; auto. apply IH; auto.
Qed.
Lemma is_on_false e x : is_on e x = false <-> ~ should_be_on e x.
Proof. rewrite <- is_on_spec. destruct (is_on e x); intuition congruence. Qed.
Lemma is_on_ext e e' x : (forall t, depends_on x t -> e t = e' t) -> is_on e x = is_on e' x.
Proof.
  induction x as [i cs IH] using irq_induction. intros H.
  assert (Hs : forall t, mentions (Irq i cs) t -> e t = e' t) by (intros t Ht; apply H; exists (Irq i cs); split; [constructor|auto]).
  cbn [is_on]. rewrite (Hs (Name (i_name i))) by reflexivity. f_equal; [f_equal|f_equal].
  - apply forallb_ext_in. intros n Hn. apply Hs. exact Hn.
  - apply existsb_ext_in. intros n Hn. apply Hs. exact Hn.
  - apply existsb_ext_in. intros c Hc. apply IH; auto. intros t (y & H1 & H2). apply H. exists y. split; auto. eapply below_child; eauto.
Qed.

(** ** Masks *)
Section Update.
Variable h : hal.
Lemma mask_all_bit xs k : N.testbit (mask_all h xs) k = existsb (fun x => N.testbit (mask_for h x) k) xs.
Proof. unfold mask_all. induction xs as [|x xs IH]; cbn [fold_right existsb]; [apply N.bits_0|]. rewrite N.lor_spec, IH. reflexivity. Qed.
Lemma registers_of_spec xs g : In g (registers_of h xs) <-> exists x, In x xs /\ register_of h x = Some g.
Proof.
  unfold registers_of. rewrite nodup_In, in_flat_map. split; intros (x & H1 & H2); exists x; (split; [auto|]).
  - destruct (register_of h x); [destruct H2 as [->|[]]; auto|destruct H2].
  - rewrite H2. cbn. auto.
Qed.
Lemma in_register_spec g x : in_register h g x = true <-> register_of h x = Some g.
Proof.
  unfold in_register. destruct (register_of h x) as [r|]; [rewrite Nat.eqb_eq|]; split; congruence.
Qed.
(** The value update computes for a register. *)
Definition computed (xs : list irq) (e : item -> bool) (old : N) (g : nat) : N :=
  N.lor (N.ldiff old (mask_all h (filter (in_register h g) xs))) (mask_all h (filter (is_on e) (filter (in_register h g) xs))).
Lemma set_reg_same f r v : set_reg f r v r = v.
Proof. unfold set_reg. rewrite Nat.eqb_refl. reflexivity. Qed.
Lemma set_reg_other f r v g : g <> r -> set_reg f r v g = f g.
Proof. intros H. unfold set_reg. apply Nat.eqb_neq in H. rewrite H. reflexivity. Qed.

Record updated (force : bool) (xs : list irq) (rs : list nat) (s s' : state) : Prop := {
  u_enables : enables s' = enables s;
  u_shadow : forall g, shadow s' g = if in_dec Nat.eq_dec g rs then computed xs (enables s) (shadow s g) g else shadow s g;
  u_registers : forall g, registers s' g = if in_dec Nat.eq_dec g rs then
      (if force || negb (N.eqb (computed xs (enables s) (shadow s g) g) (shadow s g)) then computed xs (enables s) (shadow s g) g else registers s g)
      else registers s g;
  u_writes : exists w, writes s' = (w ++ writes s)%list /\ NoDup (map fst w) /\
      forall g v, In (g, v) w <-> In g rs /\ v = computed xs (enables s) (shadow s g) g /\ (force = true \/ v <> shadow s g);
}.
Lemma update_registers_spec force xs rs : NoDup rs -> forall s, updated force xs rs s (fold_left (update_register h force xs) rs s).
Proof.
  induction rs as [|r rs IH]; intros Hn s; cbn [fold_left].
  - constructor; auto. exists []. split; [auto|]. split; [constructor|]. intros g v. split; [intros []|intros [[] _]].
  - inversion Hn as [|? ? Hr Hrs]; subst. specialize (IH Hrs (update_register h force xs s r)).
    set (s1 := update_register h force xs s r) in *.
    assert (E1 : enables s1 = enables s). { unfold s1, update_register. destruct (_ || _); reflexivity. }
    assert (S1 : forall g, shadow s1 g = if Nat.eq_dec g r then computed xs (enables s) (shadow s g) g else shadow s g).
    { intros g. unfold s1, update_register, computed. destruct (Nat.eq_dec g r) as [->|Hg]; destruct (_ || _); cbn [shadow];
        rewrite ?set_reg_same, ?set_reg_other; auto. }
    assert (R1 : forall g, registers s1 g = if Nat.eq_dec g r then
       (if force || negb (N.eqb (computed xs (enables s) (shadow s g) g) (shadow s g)) then computed xs (enables s) (shadow s g) g else registers s g) else registers s g).
    { intros g. unfold s1, update_register. fold (computed xs (enables s) (shadow s r) r). destruct (Nat.eq_dec g r) as [->|Hg];
        destruct (_ || _); cbn [registers]; rewrite ?set_reg_same, ?set_reg_other; auto. }
    assert (W1 : exists w, writes s1 = (w ++ writes s)%list /\ NoDup (map fst w) /\
      forall g v, In (g, v) w <-> g = r /\ v = computed xs (enables s) (shadow s g) g /\ (force = true \/ v <> shadow s g)).
    { unfold s1, update_register. fold (computed xs (enables s) (shadow s r) r).
      destruct (force || negb (N.eqb (computed xs (enables s) (shadow s r) r) (shadow s r))) eqn:Hc; cbn [writes].
      - exists [(r, computed xs (enables s) (shadow s r) r)]. split; [auto|]. split; [repeat constructor; auto|]. intros g v. split.
        + intros [[= <- <-]|[]]. split; auto. split; auto. apply orb_true_iff in Hc. destruct Hc as [Hc|Hc]; auto.
          right. apply negb_true_iff, N.eqb_neq in Hc. auto.
        + intros (-> & -> & _). left. reflexivity.
      - exists []. split; [auto|]. split; [constructor|]. intros g v. split; [intros []|]. apply orb_false_iff in Hc. destruct Hc as [Hc1 Hc2].
        apply negb_false_iff, N.eqb_eq in Hc2. intros (-> & -> & [H|H]); congruence. }
    destruct IH as [IE IS IR (w & W2 & W3 & W4)]. destruct W1 as (w1 & V2 & V3 & V4).
    assert (Hother : forall g, In g rs -> shadow s1 g = shadow s g /\ registers s1 g = registers s g).
    { intros g Hg. rewrite S1, R1. destruct (Nat.eq_dec g r); [congruence|auto]. }
    constructor.
    + congruence.
    + intros g. rewrite IS, E1. destruct (in_dec Nat.eq_dec g rs) as [Hi|Hi].
      * rewrite (proj1 (Hother g Hi)). destruct (in_dec Nat.eq_dec g (r :: rs)) as [|Hx]; [auto|destruct Hx; cbn; auto].
      * rewrite S1. destruct (Nat.eq_dec g r) as [->|Hg].
        -- destruct (in_dec Nat.eq_dec r (r :: rs)) as [|Hx]; [auto|destruct Hx; cbn; auto].
        -- destruct (in_dec Nat.eq_dec g (r :: rs)) as [[<-|]|]; congruence.
    + intros g. rewrite IR, E1. destruct (in_dec Nat.eq_dec g rs) as [Hi|Hi].
      * rewrite (proj1 (Hother g Hi)), (proj2 (Hother g Hi)). destruct (in_dec Nat.eq_dec g (r :: rs)) as [|Hx]; [auto|destruct Hx; cbn; auto].
      * rewrite R1. destruct (Nat.eq_dec g r) as [->|Hg].
        -- destruct (in_dec Nat.eq_dec r (r :: rs)) as [|Hx]; [auto|destruct Hx; cbn; auto].
        -- destruct (in_dec Nat.eq_dec g (r :: rs)) as [[<-|]|]; congruence.
    + exists (w ++ w1)%list. split; [rewrite W2, V2, app_assoc; auto|]. split.
      * rewrite map_app. clear -W3 V3 W4 V4 Hr. induction w as [|[g v] w IH]; cbn; auto. cbn in W3. inversion_clear W3. constructor.
        -- rewrite in_app_iff. intros [|Hi]; auto. apply in_map_iff in Hi. destruct Hi as ([g' v'] & Hg & Hi). cbn in Hg. subst g'.
           apply V4 in Hi. destruct Hi as [-> _]. destruct (W4 r v) as [Hw _]. destruct Hw as [Hw _]; cbn; auto.
        -- assert (Hsub : forall g v, In (g, v) w -> In g rs) by (intros g' v' Hi; destruct (W4 g' v') as [Hw _]; apply Hw; cbn; auto).
           clear -H0 V3 V4 Hsub Hr. revert H0 Hsub. induction w as [|[a b] w IH]; cbn; auto. intros H0 Hsub. inversion_clear H0. constructor.
           ++ rewrite in_app_iff. intros [|Hi]; auto. apply in_map_iff in Hi. destruct Hi as ([g' v'] & Hg & Hi). cbn in Hg. subst g'.
              apply V4 in Hi. destruct Hi as [-> _]. apply Hr. apply (Hsub r b). auto.
           ++ apply IH; auto. intros; eapply Hsub; eauto.
      * intros g v. rewrite in_app_iff, W4, V4, E1. split.
        -- intros [(H1 & H2 & H3)|(-> & H2 & H3)].
           ++ rewrite (proj1 (Hother g H1)) in H2, H3. cbn. auto.
           ++ cbn. auto.
        -- intros ([<-|H1] & H2 & H3); [auto|]. left. rewrite (proj1 (Hother g H1)). auto.
Qed.
Lemma update_spec force xs s : updated force xs (registers_of h xs) s (update h force xs s).
Proof. apply update_registers_spec. apply NoDup_nodup. Qed.

(** ** One update, bit by bit *)
Variable r : root.
Hypothesis Hlayout : layout_ok h r.

Lemma mask_for_bit x k : N.testbit (mask_for h x) k = true -> exists f, i_enable (info_of x) = Some f /\ N.testbit (mask_of h f) k = true.
Proof. unfold mask_for. destruct (i_enable (info_of x)) as [f|]; [eauto|]. rewrite N.bits_0. discriminate. Qed.
Lemma bit_owner x y g k : in_tree r x -> in_tree r y -> register_of h x = Some g -> register_of h y = Some g ->
  N.testbit (mask_for h x) k = true -> N.testbit (mask_for h y) k = true -> x = y.
Proof.
  unfold register_of, mask_for. intros Hx Hy. destruct (i_enable (info_of x)) as [f|] eqn:Ef; [|discriminate].
  destruct (i_enable (info_of y)) as [f'|] eqn:Ef'; [|discriminate]. cbn. intros [= E1] [= E2] B1 B2.
  destruct (Hlayout x y f f' Hx Hy Ef Ef') as [_ [|[H|H]]]; auto; [congruence|].
  exfalso. assert (Hb : N.testbit (N.land (mask_of h f) (mask_of h f')) k = true) by (rewrite N.land_spec, B1, B2; auto).
  rewrite H, N.bits_0 in Hb. discriminate.
Qed.
(** In the computed value, a bit of an updated interrupt says whether it is on,
    and every other bit is as before. *)
Lemma computed_own xs e old g x k : (forall y, In y xs -> in_tree r y) -> In x xs -> register_of h x = Some g ->
  N.testbit (mask_for h x) k = true -> N.testbit (computed xs e old g) k = is_on e x.
Proof.
  intros Hsub Hx Hg Hk. unfold computed. rewrite N.lor_spec, N.ldiff_spec, !mask_all_bit.
  assert (Hin : existsb (fun y => N.testbit (mask_for h y) k) (filter (in_register h g) xs) = true).
  { apply existsb_exists. exists x. split; auto. apply filter_In. split; auto. apply in_register_spec; auto. }
  rewrite Hin, andb_false_r. cbn. destruct (is_on e x) eqn:Hon.
  - apply existsb_exists. exists x. split; auto. apply filter_In. split; auto. apply filter_In. split; auto. apply in_register_spec; auto.
  - destruct (existsb _ (filter (is_on e) _)) eqn:Hex; auto. apply existsb_exists in Hex. destruct Hex as (y & Hy & Hyk).
    rewrite !filter_In in Hy. destruct Hy as [[Hy Hyg] Hyon]. apply in_register_spec in Hyg.
    assert (x = y) by (apply (bit_owner x y g k); auto). congruence.
Qed.
Lemma computed_other xs e old g k : (forall x, In x xs -> register_of h x = Some g -> N.testbit (mask_for h x) k = false) ->
  N.testbit (computed xs e old g) k = N.testbit old k.
Proof.
  intros H. unfold computed. rewrite N.lor_spec, N.ldiff_spec, !mask_all_bit.
  assert (Hno : existsb (fun y => N.testbit (mask_for h y) k) (filter (in_register h g) xs) = false).
  { destruct (existsb _ _) eqn:Hex; auto. apply existsb_exists in Hex. destruct Hex as (y & Hy & Hyk). apply filter_In in Hy.
    destruct Hy as [Hy Hyg]. apply in_register_spec in Hyg. rewrite H in Hyk; auto. }
  assert (Hno' : existsb (fun y => N.testbit (mask_for h y) k) (filter (is_on e) (filter (in_register h g) xs)) = false).
  { destruct (existsb _ (filter (is_on e) _)) eqn:Hex; auto. apply existsb_exists in Hex. destruct Hex as (y & Hy & Hyk). apply filter_In in Hy.
    destruct Hy as [Hy _]. rewrite <- Hno. symmetry. apply existsb_exists. eauto. }
  rewrite Hno, Hno'. cbn. rewrite andb_true_r, orb_false_r. reflexivity.
Qed.
End Update.

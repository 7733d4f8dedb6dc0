(** Proofs about projects: running. *)
From Coq Require Import String Bool Arith List Permutation Lia.
From Verif Require Import FlowModel FlowSpec FlowProofs NexusModel NexusSpec NexusProofs NexusProofs2 ProjectModel ProjectSpec ProjectProofs.
Import ListNotations.

Section Impl.
Variables (pops : nat -> list node -> option (node * list node)) (enum : nat -> list node -> list node).
Hypotheses (Hp : pops_some pops) (He : enumerates enum).
Lemma services_find x l s i : services pops enum x = Some l -> option_map snd (find (fun p => svc_eqb s (fst p)) l) = Some i ->
  exists bs items, builders element_when x = Some bs /\ builder_of bs s = Some items /\ build_service pops enum s items = Some i.
Proof.
  unfold services. destruct (builders element_when x) as [bs|]; [|discriminate]. intros H F. apply all_some_Forall2 in H.
  exists bs. revert l H F. unfold builder_of. induction bs as [|[s1 it] bs IH]; intros [|[s2 i2] l]; cbn [map]; try discriminate.
  intros [= H1 H2]. cbn [fst snd] in H1. destruct (build_service pops enum s1 it) as [i1|] eqn:B; [|discriminate]. injection H1 as -> ->.
  cbn [find fst]. destruct (svc_eqb s s2) eqn:Es.
  - cbn [option_map snd]. intros [= ->]. apply svc_eqb_eq in Es. subst. exists it. auto.
  - intros F. destruct (IH l H2 F) as (items & _ & I1 & I2). exists items. auto.
Qed.
Lemma impl_builder x s i : impl_of pops enum x s = Some i ->
  exists bs items, builders element_when x = Some bs /\ builder_of bs s = Some items /\ build_service pops enum s items = Some i.
Proof. unfold impl_of. destruct (services pops enum x) as [l|] eqn:E; [|discriminate]. apply services_find, E. Qed.
Lemma builder_exported {A} (iw : cond -> A -> option A) x bs s items : builders iw x = Some bs -> builder_of bs s = Some items -> exported s x.
Proof.
  intros E H. destruct (builders_services iw x bs E) as [_ B]. apply exported_exports, B. unfold builder_of in H.
  destruct (find (fun p => svc_eqb s (fst p)) bs) as [[s' it]|] eqn:F; [|discriminate]. apply find_some in F as [F1 F2]. cbn [fst] in F2. apply svc_eqb_eq in F2. subst.
  apply (in_map fst) in F1. exact F1.
Qed.
Lemma impl_spec x s i : impl_of pops enum x s = Some i -> exported s x /\
  match i with
  | FlowImpl name o => s_name s = Some name /\ exists ds, Forall2 stands_for o ds /\ lawful x s ds
  | CallbackImpl fs => s_name s = None /\ callbacks x s fs
  end.
Proof.
  intros H. destruct (impl_builder x s i H) as (bs & items & E & B & S). split; [apply (builder_exported _ _ _ _ _ E B)|]. unfold build_service in S.
  destruct (s_name s) as [name|].
  - destruct (fragments items) as [b|] eqn:F; [|discriminate]. destruct (build pops enum b) as [ | | | | |o] eqn:Bd; try discriminate. injection S as <-.
    split; auto. apply (built_lawful pops enum x bs s items b o); auto.
  - destruct (functions items) as [fs|] eqn:F; [|discriminate]. injection S as <-. split; auto. apply functions_in in F.
    destruct (builders_items element_when x bs s items E B) as (l & Hl & ->). exists l. auto.
Qed.
Lemma impl_all x l s : services pops enum x = Some l -> exported s x -> impl_of pops enum x s <> None.
Proof.
  intros H Hs. unfold impl_of. rewrite H. unfold services in H. destruct (builders element_when x) as [bs|] eqn:E; [|discriminate].
  destruct (builders_services element_when x bs E) as [_ B]. apply exported_exports, B in Hs. apply all_some_Forall2 in H.
  revert l H Hs. clear. induction bs as [|[s1 it] bs IH]; intros l; cbn [map]; [intros _ []|]. destruct l as [|[s2 i2] l]; [discriminate|].
  intros [= H1 H2]. cbn [fst snd] in *. destruct (build_service pops enum s1 it) as [i1|] eqn:Bd; [|discriminate]. injection H1 as -> ->.
  cbn [find fst]. intros [->|Hs]; [replace (svc_eqb s s) with true by (symmetry; apply svc_eqb_refl); discriminate|].
  destruct (svc_eqb s s2); [discriminate|]. apply (IH l H2 Hs).
Qed.

Context {W : Type} (pred : nat -> W -> bool) (act : nat -> W -> W) (body : nat -> list op) (nexus : nat -> config element).
Notation does := (does pred act body nexus).
Definition sees (x : @sys W) (m : @moment W) : Prop :=
  (forall s, by_type (ptrs x) s = serving nexus m s) /\ (forall k, by_name_ret (ptrs x) k 0 = serving_name nexus m k) /\
  world x = now m /\ panicked x = over m.
Definition refines (f : sys -> result) (k : task) : Prop :=
  forall x t y m, f x = Some (t, y) -> panicked x = false -> sees x m -> exists m', does k m t m' /\ sees y m'.
Lemma refines_seq fs ks : Forall2 refines fs ks -> refines (all_of fs) (TSeq ks).
Proof.
  induction 1 as [|f k fs ks H F IH]; intros x t y m R Hx S; cbn [all_of fold_right] in R.
  - injection R as <- <-. exists m. split; [constructor|auto].
  - unfold and_then in R. destruct (f x) as [[t1 x1]|] eqn:E; [|discriminate]. destruct (H x t1 x1 m E Hx S) as (m1 & D1 & S1).
    destruct (panicked x1) eqn:P.
    + injection R as <- <-. exists m1. split; auto. apply does_stop; auto. destruct S1 as (_ & _ & _ & <-). exact P.
    + change (match all_of fs x1 with None => None | Some (t', z) => Some (t1 ++ t', z) end = Some (t, y)) in R. destruct (all_of fs x1) as [[t2 x2]|] eqn:E2; [|discriminate]. injection R as <- <-.
      destruct (IH x1 t2 x2 m1 E2 P S1) as (m2 & D2 & S2). exists m2. split; auto. apply does_next with (m1 := m1); auto.
      destruct S1 as (_ & _ & _ & <-). exact P.
Qed.
Lemma refines_say lg s : refines (says lg s) (TSay lg s).
Proof. intros x t y m R _ S. unfold says in R. injection R as <- <-. exists m. split; auto. destruct lg; constructor. Qed.
Lemma refines_two f g k l : refines f k -> refines g l -> refines (and_then f g) (TSeq [k; l]).
Proof.
  intros H1 H2 x t y m R Hx S. unfold and_then in R. destruct (f x) as [[t1 x1]|] eqn:E; [|discriminate]. destruct (H1 x t1 x1 m E Hx S) as (m1 & D1 & S1).
  assert (O : panicked x1 = over m1) by (destruct S1 as (_ & _ & _ & <-); auto).
  destruct (panicked x1) eqn:P; [injection R as <- <-; exists m1; split; auto; apply does_stop; auto|].
  destruct (g x1) as [[t2 x2]|] eqn:E2; [|discriminate]. injection R as <- <-. destruct (H2 x1 t2 x2 m1 E2 P S1) as (m2 & D2 & S2). exists m2. split; auto.
  apply does_next with (m1 := m1); auto. destruct (over m2) eqn:O2; [apply does_stop; auto|].
  rewrite <- (app_nil_r t2). apply does_next with (m1 := m2); auto. constructor.
Qed.
Lemma last_init_snoc p h n : last_init p (map Init (h ++ [n])) = if p n then Some n else last_init p (map Init h).
Proof.
  induction h as [|k h IH]; cbn [app map last_init]; [destruct (p n); auto|]. rewrite IH. destruct (p n); auto.
Qed.
Lemma sees_start x m n : builders element_when (nexus n) <> None -> sees x m ->
  sees {| ptrs := init element_when nexus n (ptrs x); world := world x; panicked := panicked x |} (with_nexus n m).
Proof.
  intros B (S1 & S2 & S3 & S4). destruct (init_spec element_when (fun _ => nexus n) (fun _ => B) n (ptrs x)) as [I1 I2].
  change (init element_when (fun _ => nexus n) n (ptrs x)) with (init element_when nexus n (ptrs x)) in *.
  split; [|split; [|split; auto]].
  - intros s. cbn [ptrs]. rewrite I1. unfold serving. cbn [with_nexus started]. rewrite last_init_snoc. change (exportsb (fun _ => nexus n) n s) with (exportsb nexus n s).
    destruct (exportsb nexus n s); auto. apply S1.
  - intros k. cbn [ptrs]. rewrite I2. unfold serving_name. cbn [with_nexus started]. rewrite last_init_snoc. change (names_returning (fun _ => nexus n) k 0 n) with (names_returning nexus k 0 n).
    destruct (names_returning nexus k 0 n); auto. apply S2.
Qed.
Lemma refines_op run own o : (forall n s, refines (run n s) (TService n s)) -> refines (run_op pops enum act nexus run own o) (TOp own o).
Proof.
  intros H x t y m R Hx S. pose proof S as (S1 & S2 & S3 & S4). destruct o as [a|s|k|s|n]; cbn [run_op] in R.
  - injection R as <- <-. exists (acted act a m). split; [constructor|]. split; [exact S1|]. split; [exact S2|]. cbn. split; congruence.
  - destruct (by_type (ptrs x) s) as [n|] eqn:E; rewrite S1 in E.
    + destruct (H n s x t y m R Hx S) as (m' & D & S'). exists m'. split; auto. eapply does_run; eauto.
    + injection R as <- <-. exists (stop m). split; [constructor; auto|]. split; [exact S1|]. split; [exact S2|]. cbn. split; auto.
  - destruct (by_name_ret (ptrs x) k 0) as [n|] eqn:E; rewrite S2 in E.
    + destruct (by_name (nexus n) k) as [s|] eqn:B; [|discriminate]. destruct (H n s x t y m R Hx S) as (m' & D & S'). exists m'. split; auto. eapply does_run_name; eauto.
      apply locate_means. exact B.
    + injection R as <- <-. exists (stop m). split; [constructor; auto|]. split; [exact S1|]. split; [exact S2|]. cbn. split; auto.
  - destruct (H own s x t y m R Hx S) as (m' & D & S'). exists m'. split; auto. constructor. exact D.
  - destruct (services pops enum (nexus n)) as [l|] eqn:E; [|discriminate]. injection R as <- <-. exists (with_nexus n m). split; [constructor|]. apply sees_start; auto.
    unfold services in E. destruct (builders element_when (nexus n)); [discriminate|discriminate].
Qed.
Lemma Forall2_map_same {A B C} (R : B -> C -> Prop) (f : A -> B) (g : A -> C) l : (forall a, In a l -> R (f a) (g a)) -> Forall2 R (map f l) (map g l).
Proof. induction l; intros H; constructor; [apply H; left; auto|apply IHl; intros; apply H; right; auto]. Qed.
Lemma refines_ops run own l : (forall n s, refines (run n s) (TService n s)) -> refines (run_ops pops enum act nexus run own l) (ops_task own l).
Proof. intros H. apply refines_seq, Forall2_map_same. intros o _. apply refines_op, H. Qed.
Lemma refines_step run own lg n d : (forall n s, refines (run n s) (TService n s)) -> stands_for n d ->
  refines (run_step pops enum pred act body nexus run own lg n) (TStep own lg d).
Proof.
  intros H (N1 & N2 & N3 & N4) x t y m R Hx S. unfold run_step in R. rewrite N4 in R. pose proof S as (_ & _ & Hw & _). rewrite Hw in R.
  destruct (wanted (fun p => pred p (now m)) d) eqn:Wd.
  - rewrite N1, N2, N3 in R.
    destruct (refines_two _ _ _ _ (refines_say lg ("flow." ++ type_text (n_type (st_node d)) ++ "(" ++ st_name d ++ ")")) (refines_ops run own (body (n_func (st_node d))) H) x t y m R Hx S) as (m' & D & S').
    exists m'. split; auto. apply does_step; auto.
  - injection R as <- <-. exists m. split; auto. apply does_skip, Wd.
Qed.
Lemma refines_service fuel : forall n s, refines (run_service pops enum pred act body nexus fuel n s) (TService n s).
Proof.
  induction fuel as [|k IH]; intros n s x t y m R Hx S; cbn [run_service] in R; [discriminate|].
  destruct (impl_of pops enum (nexus n) s) as [i|] eqn:E; [|discriminate]. destruct (impl_spec _ _ _ E) as (Ex & I). destruct i as [name o|fs].
  - destruct I as (Hn & ds & F & L). cbn [run_impl] in R.
    assert (Q : refines (all_of (says (negb (String.eqb name "")) ("flow.start(" ++ name ++ ")") :: map (run_step pops enum pred act body nexus (run_service pops enum pred act body nexus k) n (negb (String.eqb name ""))) o ++ [says (negb (String.eqb name "")) ("flow.end(" ++ name ++ ")")]))
      (TSeq (TSay (negb (String.eqb name "")) ("flow.start(" ++ name ++ ")") :: map (TStep n (negb (String.eqb name ""))) ds ++ [TSay (negb (String.eqb name "")) ("flow.end(" ++ name ++ ")")]))).
    { apply refines_seq. constructor; [apply refines_say|]. apply Forall2_app; [|constructor; [apply refines_say|constructor]].
      clear - F IH Hp He. induction F; cbn [map]; constructor; auto. apply refines_step; auto. }
    destruct (Q x t y m R Hx S) as (m' & D & S'). exists m'. split; auto. eapply does_flow; eauto.
  - destruct I as (Hn & C). cbn [run_impl] in R.
    assert (Q : refines (all_of (map (fun f => run_ops pops enum act nexus (run_service pops enum pred act body nexus k) n (body f)) fs)) (TSeq (map (fun f => ops_task n (body f)) fs))).
    { apply refines_seq, Forall2_map_same. intros f _. apply refines_ops, IH. }
    destruct (Q x t y m R Hx S) as (m' & D & S'). exists m'. split; auto. eapply does_callbacks; eauto.
Qed.
Lemma sees_initial w : sees (initial w) (at_first w).
Proof. repeat split; auto. Qed.
Lemma refines_program fuel l w t y : run_program pops enum pred act body nexus fuel l w = Some (t, y) ->
  exists m', does (ops_task 0 l) (at_first w) t m' /\ sees y m'.
Proof. intros H. apply (refines_ops (run_service pops enum pred act body nexus fuel) 0 l (refines_service fuel) (initial w) t y (at_first w) H eq_refl (sees_initial w)). Qed.
(** ** Running to the end *)
Definition works (f : @sys W -> @result W) : Prop := forall x m, panicked x = false -> sees x m -> f x <> None.
Lemma works_seq fs ks : Forall2 (fun f k => refines f k /\ works f) fs ks -> works (all_of fs).
Proof.
  induction 1 as [|f k fs ks [R H] F IH]; intros x m Hx S; cbn [all_of fold_right]; [discriminate|]. unfold and_then.
  specialize (H x m Hx S). destruct (f x) as [[t1 x1]|] eqn:E; [|congruence]. destruct (R x t1 x1 m E Hx S) as (m1 & _ & S1).
  destruct (panicked x1) eqn:P; [discriminate|]. change (match all_of fs x1 with None => None | Some (t', z) => Some (t1 ++ t', z) end <> None).
  specialize (IH x1 m1 P S1). destruct (all_of fs x1) as [[t2 x2]|]; [discriminate|congruence].
Qed.
Lemma Forall2_both {A B} (R : A -> B -> Prop) (P : A -> Prop) l l' : Forall2 R l l' -> (forall a, In a l -> P a) -> Forall2 (fun a b => R a b /\ P a) l l'.
Proof. induction 1; intros H'; constructor; [split; auto; apply H'; left; auto|apply IHForall2; intros; apply H'; right; auto]. Qed.
Section Ranked.
Variable rank : svc -> nat.
Hypothesis ranks : ranked rank nexus body.
Hypothesis compiles : forall n, services pops enum (nexus n) <> None.
Lemma serving_exported (m : @moment W) s n : serving nexus m s = Some n -> exported s (nexus n).
Proof.
  intros H. apply last_init_spec in H as [H _]. unfold exportsb in H. apply existsb_exists in H as (t & Ht & E). apply svc_eqb_eq in E as <-. apply exported_exports, Ht.
Qed.
Lemma works_op run own k o : (forall n s, refines (run n s) (TService n s)) -> (forall n s, exported s (nexus n) -> rank s < k -> works (run n s)) ->
  runs_below rank nexus own k o -> works (run_op pops enum act nexus run own o).
Proof.
  intros Hr Hw B x m Hx S. pose proof S as (S1 & S2 & S3 & S4). destruct o as [a|s|nm|s|n]; cbn [run_op runs_below] in *; [discriminate| | | |].
  - destruct (by_type (ptrs x) s) as [n|] eqn:E; [|discriminate]. rewrite S1 in E. apply (Hw n s (serving_exported _ _ _ E) B x m Hx S).
  - destruct (by_name_ret (ptrs x) nm 0) as [n|] eqn:E; [|discriminate]. rewrite S2 in E. apply last_init_spec in E as [E _].
    destruct (by_name_found nexus nm 0 n E) as (s & Hs & Ht & Hn). rewrite Hs.
    assert (M : means (exports (nexus n)) (ByName nm) s) by (apply locate_means; exact Hs).
    apply (Hw n s (proj1 (exported_exports _ _) (means_in _ _ _ M)) (B n s M) x m Hx S).
  - destruct B as [B1 B2]. apply (Hw own s B1 B2 x m Hx S).
  - specialize (compiles n). destruct (services pops enum (nexus n)); [discriminate|congruence].
Qed.
Lemma works_ops run own k l : (forall n s, refines (run n s) (TService n s)) -> (forall n s, exported s (nexus n) -> rank s < k -> works (run n s)) ->
  (forall o, In o l -> runs_below rank nexus own k o) -> works (run_ops pops enum act nexus run own l).
Proof.
  intros Hr Hw B. apply (works_seq _ (map (TOp own) l)). apply Forall2_both; [apply Forall2_map_same; intros; apply refines_op, Hr|].
  intros f Hf. apply in_map_iff in Hf as (o & <- & Ho). apply (works_op run own k o Hr Hw (B o Ho)).
Qed.
Lemma works_service k : forall n s, exported s (nexus n) -> rank s < k -> works (run_service pops enum pred act body nexus k n s).
Proof.
  induction k as [|k IH]; intros n s Hs Hk x m Hx S; [lia|]. cbn [run_service]. assert (I := compiles n). destruct (services pops enum (nexus n)) as [l|] eqn:E; [clear I|congruence].
  assert (I := impl_all (nexus n) l s E Hs). destruct (impl_of pops enum (nexus n) s) as [i|] eqn:Ei; [clear I|congruence].
  assert (Hw : forall n s', exported s' (nexus n) -> rank s' < rank s -> works (run_service pops enum pred act body nexus k n s')) by (intros; apply IH; auto; lia).
  destruct (impl_spec _ _ _ Ei) as (_ & I). destruct i as [name o|fs]; cbn [run_impl]; revert Hx S.
  - destruct I as (Hn & ds & F & L).
    apply (works_seq _ (TSay (negb (String.eqb name "")) ("flow.start(" ++ name ++ ")") :: map (TStep n (negb (String.eqb name ""))) ds ++ [TSay (negb (String.eqb name "")) ("flow.end(" ++ name ++ ")")])).
    constructor; [split; [apply refines_say|intros ? ? _ _; discriminate]|]. apply Forall2_app; [|constructor; [split; [apply refines_say|intros ? ? _ _; discriminate]|constructor]].
    assert (F' : Forall2 (fun m d => stands_for m d /\ adds_step (nexus n) s d) o ds).
    { revert F. assert (A := lf_added _ _ _ L). clear - A. induction 1; constructor; [split; auto; apply A; left; auto|apply IHF; intros; apply A; right; auto]. }
    clear - F' Hw Hp He Hs ranks compiles. induction F' as [|nd d o ds [S A] F IH]; cbn [map]; constructor; auto. split; [apply refines_step; auto; intros; apply refines_service|].
    intros x m Hx Sx. unfold run_step. destruct (holds (fun p => pred p (world x)) (n_cond nd)); [|discriminate].
    unfold and_then, says. rewrite Hx. assert (Wk : works (run_ops pops enum act nexus (run_service pops enum pred act body nexus k) n (body (n_func nd)))).
    { apply (works_ops _ n (rank s)); [intros; apply refines_service|exact Hw|]. intros p Hp'. apply (ranks n s (n_func nd) p Hs); auto. left. exists d. split; auto. destruct S as (_ & -> & _). reflexivity. }
    specialize (Wk x m Hx Sx). destruct (run_ops _ _ _ _ _ _ _ x) as [[t2 x2]|]; [discriminate|congruence].
  - destruct I as (Hn & C). apply (works_seq _ (map (fun f => ops_task n (body f)) fs)). apply Forall2_both; [apply Forall2_map_same; intros; apply refines_ops, refines_service|].
    intros g Hg. apply in_map_iff in Hg as (f & <- & Hf). apply (works_ops _ n (rank s)); [apply refines_service|exact Hw|]. intros p Hp'. apply (ranks n s f p Hs); auto. right.
    destruct C as (l' & Hl & Hc). apply (in_map Function) in Hf. rewrite Hc in Hf.
    assert (P : In (Function f) (concat l')). { apply in_concat in Hf as (y & Hy & H). apply in_concat. exists y. split; auto. apply in_rev, Hy. }
    apply (contributions_in _ _ _ _ _ Hl) in P as (t & cs & a & e & P1 & P2 & P3 & P4). destruct (when_all_kind _ _ _ P4) as [(g1 & g2 & _ & H & _)|(f' & -> & [= <-] & ->)]; [discriminate|].
    exists [], t, a. auto.
Qed.
End Ranked.
End Impl.

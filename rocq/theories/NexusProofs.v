(** Proofs about configurations. *)
From Coq Require Import String Bool Arith List Lia Permutation.
From Verif Require Import FlowModel NexusModel NexusSpec.
Import ListNotations.

Lemma svc_eqb_eq a b : svc_eqb a b = true <-> a = b.
Proof. unfold svc_eqb. destruct (svc_eq_dec a b); split; congruence. Qed.
Lemma svc_eqb_refl a : svc_eqb a a = true. Proof. apply svc_eqb_eq. reflexivity. Qed.
Lemma has_name_eq n s : has_name n s = true <-> s_name s = Some n.
Proof. unfold has_name. destruct (s_name s) as [m|]; [|split; discriminate]. rewrite String.eqb_eq. split; congruence. Qed.
Lemma all_some_Forall2 {X} (l : list (option X)) r : all_some l = Some r <-> l = map Some r.
Proof.
  revert r. induction l as [|[x|] l IH]; intros r; cbn [all_some].
  - split; [intros [= <-]; reflexivity|]. destruct r; [reflexivity|discriminate].
  - destruct (all_some l) as [q|] eqn:E; cbn [option_map].
    + destruct (IH q) as [I1 _]. split; [intros [= <-]; cbn; f_equal; auto|]. destruct r as [|y r]; [discriminate|]. cbn. intros [= -> E2]. apply IH in E2. congruence.
    + split; [discriminate|]. destruct r as [|y r]; [discriminate|]. cbn. intros [= -> E2]. apply IH in E2. congruence.
  - split; [discriminate|]. destruct r; discriminate.
Qed.

Section Config.
Context {A : Type} (item_when : cond -> A -> option A).
Notation config := (config A).
Lemma config_ind' (P : config -> Prop) :
  (forall l, P (Exports l)) -> (forall t a, P (Extend t a)) -> (forall l, Forall P l -> P (Many l)) ->
  (forall b l, Forall P l -> P (IfConst b l)) -> (forall c l, Forall P l -> P (When c l)) -> forall x, P x.
Proof.
  intros H1 H2 H3 H4 H5. fix IH 1.
  assert (L : forall l, Forall P l) by (fix IHl 1; destruct l; constructor; [apply IH|apply IHl]).
  destruct x; [apply H1|apply H2|apply H3, L|apply H4, L|apply H5, L].
Qed.

(** Extensions with the empty ones of exports. *)
Fixpoint offers_all (cs : list cond) (x : config) : list (target * list cond * list A) :=
  match x with
  | Exports l => map (fun s => (ByType s, cs, [])) l
  | Extend t a => [(t, cs, a)]
  | Many l => flat_map (offers_all cs) l
  | IfConst b l => if b then flat_map (offers_all cs) l else []
  | NexusModel.When c l => flat_map (offers_all (c :: cs)) l
  end.
Fixpoint ext_when_all (cs : list cond) (e : extension) : option extension :=
  match cs with [] => Some e | c :: r => match extension_when item_when c e with Some e' => ext_when_all r e' | None => None end end.
Definition under (o : target * list cond * list A) (e : extension) : Prop := ext_when_all (snd (fst o)) (fst (fst o), snd o) = Some e.
Definition P (x : config) : Prop := forall cs es', Forall2 under (offers_all cs x) es' <->
  exists es, extends item_when x = Some es /\ Forall2 (fun e e' => ext_when_all cs e = Some e') es es'.
Lemma list_P l : Forall P l -> forall cs es', Forall2 under (flat_map (offers_all cs) l) es' <->
  exists ess, all_some (map (extends item_when) l) = Some ess /\ Forall2 (fun e e' => ext_when_all cs e = Some e') (concat ess) es'.
Proof.
  induction 1 as [|x l Hx _ IH]; intros cs es'; cbn [flat_map map all_some].
  - split; [intros HH; inversion HH; exists []; split; [reflexivity|constructor]|]. intros (ess & [= <-] & HH). inversion HH. constructor.
  - split.
    + intros H. apply Forall2_app_inv_l in H as (e1 & e2 & H1 & H2 & ->). apply Hx in H1 as (es & E & H1). apply IH in H2 as (ess & E2 & H2).
      exists (es :: ess). rewrite E, E2. split; auto. cbn [concat]. apply Forall2_app; auto.
    + intros (ess & E & H). destruct (extends item_when x) as [es|] eqn:Ex; [|discriminate]. destruct (all_some (map (extends item_when) l)) as [ess'|] eqn:El; [|discriminate].
      cbn in E. injection E as <-. cbn [concat] in H. apply Forall2_app_inv_l in H as (e1 & e2 & H1 & H2 & ->). apply Forall2_app.
      * apply Hx. exists es. auto.
      * apply IH. exists ess'. auto.
Qed.
Lemma mid_lemma c cs es : forall es', Forall2 (fun e e' => ext_when_all (c :: cs) e = Some e') es es' <->
  exists mid, all_some (map (extension_when item_when c) es) = Some mid /\ Forall2 (fun e e' => ext_when_all cs e = Some e') mid es'.
Proof.
  induction es as [|e es IH]; intros es'.
  - cbn. split; [intros HH; inversion HH; exists []; auto|]. intros (mid & [= <-] & HH). inversion HH. constructor.
  - split.
    + intros H. inversion_clear H as [|? e' ? es2 He Hs]. apply IH in Hs as (mid & E & Hs). cbn [ext_when_all] in He. cbn [map all_some]. destruct (extension_when item_when c e) as [m|]; [|discriminate].
      rewrite E. exists (m :: mid). split; auto.
    + intros (mid & E & H). cbn [map all_some] in E. destruct (extension_when item_when c e) as [m|] eqn:Em; [|discriminate].
      destruct (all_some (map (extension_when item_when c) es)) as [mid'|] eqn:El; [|discriminate]. cbn in E. injection E as <-. inversion_clear H as [|? e' ? es2 He Hs].
      constructor; [cbn [ext_when_all]; rewrite Em; auto|]. apply IH. exists mid'. auto.
Qed.
Lemma extends_P x : P x.
Proof.
  induction x using config_ind'; intros cs es'.
  - cbn [offers_all extends]. split.
    + intros H. eexists. split; [reflexivity|]. revert es' H. induction l as [|s l IH]; cbn [map]; intros es' H; inversion_clear H; constructor; auto.
    + intros (es & [= <-] & HH). revert es' HH. induction l as [|s l IH]; cbn [map]; intros es' HH; inversion_clear HH; constructor; auto.
  - cbn [offers_all extends]. split.
    + intros H. exists [(t, a)]. split; auto. inversion_clear H as [|? e ? es2 He Hs]. inversion_clear Hs. constructor; auto.
    + intros (es & [= <-] & HH). inversion_clear HH as [|? e ? es2 He Hs]. inversion_clear Hs. constructor; auto.
  - cbn [offers_all extends]. rewrite list_P by auto. destruct (all_some (map (extends item_when) l)) as [ess|]; cbn [option_map].
    + split; [intros (e & [= <-] & H2)|intros (e & [= <-] & H2)]; eauto.
    + split; intros (e & H' & _); discriminate.
  - cbn [offers_all extends]. destruct b.
    + rewrite list_P by auto. destruct (all_some (map (extends item_when) l)) as [ess|]; cbn [option_map].
      * split; [intros (e & [= <-] & H2)|intros (e & [= <-] & H2)]; eauto.
      * split; intros (e & H' & _); discriminate.
    + split; [intros H2; inversion H2; exists []; auto|]. intros (es & [= <-] & H2). inversion H2. constructor.
  - cbn [offers_all extends]. rewrite list_P by auto. destruct (all_some (map (extends item_when) l)) as [ess|].
    + split.
      * intros (e & [= <-] & H2). apply mid_lemma in H2. exact H2.
      * intros H2. exists ess. split; auto. apply mid_lemma. exact H2.
    + split; intros (e & H' & _); discriminate.
Qed.
Lemma extends_offers x es : extends item_when x = Some es <-> Forall2 under (offers_all [] x) es.
Proof.
  rewrite (extends_P x [] es). split.
  - intros H. exists es. split; auto. clear. induction es; constructor; auto.
  - intros (es' & E & H). cbn [ext_when_all] in H. rewrite E. f_equal. clear E. induction H; f_equal; congruence.
Qed.

(** One extension under conditions. *)
Lemma ext_when_all_type cs s a : ext_when_all cs (ByType s, a) = option_map (fun a' => (ByType s, a')) (all_some (map (when_all item_when cs) a)).
Proof.
  revert a. induction cs as [|c cs IH]; intros a; cbn [ext_when_all when_all].
  - replace (all_some (map _ a)) with (Some a); auto. symmetry. apply all_some_Forall2. reflexivity.
  - unfold extension_when. cbn [fst snd]. destruct (all_some (map (item_when c) a)) as [a'|] eqn:E; cbn [option_map].
    + rewrite IH. apply all_some_Forall2 in E. f_equal. f_equal. clear IH. revert a' E. induction a as [|i a IHa]; intros [|j a'] E; cbn [map] in *; try discriminate; auto.
      injection E as E1 E2. rewrite E1. f_equal; auto.
    + symmetry. clear IH. induction a as [|i a IHa]; cbn [map all_some] in *; [discriminate|]. destruct (item_when c i) as [j|]; [|reflexivity].
      destruct (when_all item_when cs j); [|reflexivity]. destruct (all_some (map (item_when c) a)); [discriminate|]. specialize (IHa eq_refl). destruct (all_some _); [discriminate|reflexivity].
Qed.
Lemma ext_when_all_name c cs n a : ext_when_all (c :: cs) (ByName n, a) = None.
Proof. reflexivity. Qed.
Lemma under_spec t cs a e : under (t, cs, a) e <-> fst e = t /\ (cs <> [] -> exists s, t = ByType s) /\ map (when_all item_when cs) a = map Some (snd e).
Proof.
  unfold under. cbn [fst snd]. destruct t as [s|n].
  - rewrite ext_when_all_type. destruct (all_some (map (when_all item_when cs) a)) as [a'|] eqn:E; cbn [option_map].
    + apply all_some_Forall2 in E. split; [intros [= <-]; cbn; eauto|]. destruct e as [t a2]. cbn [fst snd]. intros (-> & _ & H). rewrite E in H.
      assert (a' = a2) as ->; auto. clear - H. revert a2 H. induction a'; intros [|? ?]; cbn; try discriminate; auto. intros [= -> H]. f_equal; auto.
    + split; [discriminate|]. intros (_ & _ & H). apply all_some_Forall2 in H. congruence.
  - destruct cs as [|c cs].
    + cbn [ext_when_all]. split.
      * intros [= <-]. cbn [fst snd]. split; auto. split; [congruence|]. induction a; cbn; f_equal; auto.
      * destruct e as [t a2]. cbn [fst snd]. intros (-> & _ & H). f_equal. f_equal. revert a2 H. induction a; intros [|? ?]; cbn; try discriminate; auto. intros [= -> H]. f_equal; auto.
    + split; [discriminate|]. intros (_ & H & _). destruct H as [s [=]]. discriminate.
Qed.

(** ** Locating *)
Lemma locate_means ex t s : locate ex t = Some s <-> means ex t s.
Proof.
  destruct t as [u|n]; cbn [locate].
  - split.
    + intros H. apply find_some in H as [H1 H2]. apply svc_eqb_eq in H2 as <-. constructor. auto.
    + intros H. inversion_clear H as [? Hi|]. induction ex as [|x ex IH]; [destruct Hi|]. cbn [find]. destruct (svc_eqb s x) eqn:E; [apply svc_eqb_eq in E; congruence|].
      destruct Hi as [->|Hi]; [rewrite svc_eqb_refl in E; discriminate|auto].
  - split.
    + induction ex as [|x ex IH]; [discriminate|]. cbn [find]. destruct (has_name n x) eqn:E.
      * intros [= <-]. apply has_name_eq in E. apply (means_name _ n x [] ex); [reflexivity|exact E|intros ? []].
      * intros H. specialize (IH H). inversion IH as [|? ? pre post -> E1 E2]; subst. apply (means_name _ n s (x :: pre) post); auto.
        intros s' [<-|Hs]; auto. intros E3. apply has_name_eq in E3. congruence.
    + intros H. inversion_clear H as [|? ? pre post -> E1 E2]. induction pre as [|x pre IH]; cbn [app find].
      * apply has_name_eq in E1. rewrite E1. reflexivity.
      * destruct (has_name n x) eqn:E; [apply has_name_eq in E; exfalso; apply (E2 x); [left|]; auto|]. apply IH. intros s' Hs. apply E2. right. auto.
Qed.
Lemma means_unique ex t s s' : means ex t s -> means ex t s' -> s = s'.
Proof. rewrite <- !locate_means. congruence. Qed.
Lemma means_in ex t s : means ex t s -> In s ex.
Proof. intros H. inversion_clear H; subst; auto. apply in_app_iff. right. left. auto. Qed.

Lemma exported_exports s (x : config) : In s (exports x) <-> exported s x.
Proof.
  induction x using config_ind'; cbn [exports].
  - split; [apply exported_here|intros E; inversion_clear E; auto].
  - split; [intros []|intros E; inversion_clear E].
  - rewrite Forall_forall in H. rewrite in_concat. split.
    + intros (l' & Hl & Hs). apply in_map_iff in Hl as (y & <- & Hy). apply (exported_many s y); auto. apply H; auto.
    + intros E. inversion_clear E as [|y ? Hy Hs| |]. exists (exports y). split; [apply in_map, Hy|]. apply H; auto.
  - rewrite Forall_forall in H. destruct b.
    + rewrite in_concat. split.
      * intros (l' & Hl & Hs). apply in_map_iff in Hl as (y & <- & Hy). apply (exported_if s y); auto. apply H; auto.
      * intros E. inversion_clear E as [| |y ? Hy Hs|]. exists (exports y). split; [apply in_map, Hy|]. apply H; auto.
    + split; [intros []|intros E; inversion_clear E].
  - rewrite Forall_forall in H. rewrite in_concat. split.
    + intros (l' & Hl & Hs). apply in_map_iff in Hl as (y & <- & Hy). apply (exported_when s c y); auto. apply H; auto.
    + intros E. inversion_clear E as [| | |? y ? Hy Hs]. exists (exports y). split; [apply in_map, Hy|]. apply H; auto.
Qed.

(** offers_all is offers with an empty extension for each exported service. *)
Lemma offers_all_in (x : config) : forall cs t c a, In (t, c, a) (offers_all cs x) -> In (t, c, a) (offers cs x) \/ exists s, In s (exports x) /\ t = ByType s /\ a = [].
Proof.
  induction x using config_ind'; intros cs t' c' a'; cbn [offers_all offers exports].
  - intros H. apply in_map_iff in H as (s & [= <- <- <-] & Hs). right. eauto.
  - auto.
  - rewrite !in_flat_map. intros (y & Hy & Hi). rewrite Forall_forall in H. destruct (H y Hy _ _ _ _ Hi) as [D|(s & Hs & E1 & E2)]; [left; eauto|].
    right. exists s. split; auto. apply in_concat. exists (exports y). split; auto. apply in_map, Hy.
  - destruct b; [|auto]. rewrite !in_flat_map. intros (y & Hy & Hi). rewrite Forall_forall in H. destruct (H y Hy _ _ _ _ Hi) as [D|(s & Hs & E1 & E2)]; [left; eauto|].
    right. exists s. split; auto. apply in_concat. exists (exports y). split; auto. apply in_map, Hy.
  - rewrite !in_flat_map. intros (y & Hy & Hi). rewrite Forall_forall in H. destruct (H y Hy _ _ _ _ Hi) as [D|(s & Hs & E1 & E2)]; [left; eauto|].
    right. exists s. split; auto. apply in_concat. exists (exports y). split; auto. apply in_map, Hy.
Qed.
Lemma offers_in_all (x : config) : forall cs o, In o (offers cs x) -> In o (offers_all cs x).
Proof.
  induction x using config_ind'; intros cs o; cbn [offers_all offers]; auto.
  - intros [].
  - rewrite !in_flat_map. intros (y & Hy & Hi). rewrite Forall_forall in H. eauto.
  - destruct b; [|auto]. rewrite !in_flat_map. intros (y & Hy & Hi). rewrite Forall_forall in H. eauto.
  - rewrite !in_flat_map. intros (y & Hy & Hi). rewrite Forall_forall in H. eauto.
Qed.
Lemma exports_in_all (x : config) : forall cs s, In s (exports x) -> exists c, In (ByType s, c, []) (offers_all cs x).
Proof.
  induction x using config_ind'; intros cs s; cbn [offers_all exports].
  - intros Hs. exists cs. apply in_map_iff. eauto.
  - intros [].
  - rewrite in_concat. intros (l' & Hl & Hs). apply in_map_iff in Hl as (y & <- & Hy). rewrite Forall_forall in H. destruct (H y Hy cs s Hs) as (c & Hc). exists c. apply in_flat_map. eauto.
  - destruct b; [|intros []]. rewrite in_concat. intros (l' & Hl & Hs). apply in_map_iff in Hl as (y & <- & Hy). rewrite Forall_forall in H. destruct (H y Hy cs s Hs) as (c & Hc). exists c. apply in_flat_map. eauto.
  - rewrite in_concat. intros (l' & Hl & Hs). apply in_map_iff in Hl as (y & <- & Hy). rewrite Forall_forall in H. destruct (H y Hy (c :: cs) s Hs) as (c' & Hc). exists c'. apply in_flat_map. eauto.
Qed.
(** Dropping the empty ones does not change what a service is given. *)
Inductive thinned : list (target * list cond * list A) -> list (target * list cond * list A) -> Prop :=
| thinned_nil : thinned [] []
| thinned_keep o a b : thinned a b -> thinned (o :: a) (o :: b)
| thinned_drop s c a b : thinned a b -> thinned ((ByType s, c, []) :: a) b.
Lemma thinned_app a b a' b' : thinned a b -> thinned a' b' -> thinned (a ++ a') (b ++ b').
Proof. intros H H'. induction H; cbn [app]; auto; constructor; auto. Qed.
Lemma offers_thinned (x : config) : forall cs, thinned (offers_all cs x) (offers cs x).
Proof.
  assert (L : forall l, Forall (fun x => forall cs, thinned (offers_all cs x) (offers cs x)) l -> forall cs, thinned (flat_map (offers_all cs) l) (flat_map (offers cs) l)).
  { induction 1; intros cs; cbn [flat_map]; [constructor|apply thinned_app; auto]. }
  induction x using config_ind'; intros cs; cbn [offers_all offers].
  - induction l; cbn [map]; constructor; auto.
  - repeat constructor.
  - apply L; auto.
  - destruct b; [apply L; auto|constructor].
  - apply L; auto.
Qed.

(** ** The builders *)
Lemma build_items_rev exts : @build_items A exts = concat (rev exts).
Proof.
  induction exts as [|a exts IH]; cbn [build_items fold_right rev]; auto. unfold build_items in IH. rewrite IH. rewrite concat_app. cbn [concat]. rewrite app_nil_r. reflexivity.
Qed.
Lemma located_spec ex es l : located ex es = Some l <-> Forall2 (fun (e : @extension A) p => means ex (fst e) (fst p) /\ snd p = snd e) es l.
Proof.
  unfold located. rewrite all_some_Forall2. revert l. induction es as [|e es IH]; intros l.
  - cbn. split; [destruct l; [constructor|discriminate]|intros H; inversion H; reflexivity].
  - cbn [map]. split.
    + destruct l as [|p l]; [discriminate|]. cbn [map]. intros [= E1 E2]. apply IH in E2. constructor; auto.
      destruct (locate ex (fst e)) as [s|] eqn:E; [|discriminate]. cbn in E1. injection E1 as <-. cbn [fst snd]. apply locate_means in E. auto.
    + intros H. inversion_clear H as [|? p ? l' [H1 H2] Hl]. cbn [map]. apply IH in Hl. rewrite Hl. apply locate_means in H1. rewrite H1. cbn. destruct p. cbn in *. congruence.
Qed.
Lemma builders_sensible x : builders item_when x <> None <-> sensible item_when x.
Proof.
  unfold builders. split.
  - intros H t cs a Ho. destruct (extends item_when x) as [es|] eqn:E in H; [|congruence]. apply extends_offers in E.
    destruct (located (exports x) es) as [l|] eqn:El in H; [|cbn in H; congruence]. apply located_spec in El. apply offers_in_all in Ho.
    apply in_split in Ho as (o1 & o2 & Ho). rewrite Ho in E. apply Forall2_app_inv_l in E as (e1 & e2 & _ & E & ->). inversion E as [|? e ? e2' Hu]; subst.
    apply Forall2_app_inv_l in El as (l1 & l2 & _ & El & _). inversion_clear El as [|? p ? l2' [Hm Hm2] Hm3]. apply under_spec in Hu as (Ht & Hc & Hi). rewrite Ht in Hm.
    split; [eauto|]. split; auto. intros i Hi'. apply in_map with (f := when_all item_when cs) in Hi'. rewrite Hi in Hi'. apply in_map_iff in Hi' as (j & <- & _). discriminate.
  - intros H. assert (Hall : forall t cs a, In (t, cs, a) (offers_all [] x) -> (exists s, means (exports x) t s) /\ exists e, under (t, cs, a) e).
    { intros t cs a Ho. apply offers_all_in in Ho as [Ho|(s & Hs & -> & ->)].
      - destruct (H t cs a Ho) as (H1 & H2 & H3). split; auto. assert (D : exists a', map (when_all item_when cs) a = map Some a').
        { clear - H3. induction a as [|i a IH]; [exists []; auto|]. destruct IH as [a' E]; [intros j Hj; apply H3; right; auto|]. specialize (H3 i (or_introl eq_refl)).
          destruct (when_all item_when cs i) as [i'|] eqn:Ei; [|congruence]. exists (i' :: a'). cbn [map]. congruence. }
        destruct D as [a' D]. exists (t, a'). apply under_spec. cbn [fst snd]. auto.
      - split; [exists s; constructor; auto|]. exists (ByType s, []). apply under_spec. cbn. eauto. }
    assert (E : exists es, Forall2 under (offers_all [] x) es /\ Forall (fun e : @extension A => exists s, means (exports x) (fst e) s) es).
    { revert Hall. generalize (offers_all [] x) as os. induction os as [|[[t cs] a] os IH]; intros Hall; [exists []; auto|].
      destruct IH as (es & E1 & E2); [intros; apply Hall; right; auto|]. destruct (Hall t cs a (or_introl eq_refl)) as (Hm & e & He). exists (e :: es). split; constructor; auto.
      apply under_spec in He as (-> & _). auto. }
    destruct E as (es & E & F). apply extends_offers in E. rewrite E.
    assert (L : exists l, located (exports x) es = Some l).
    { clear - F. induction F as [|e es [s Hs] _ [l IH]]; [exists []; reflexivity|]. exists ((s, snd e) :: l). apply located_spec. constructor; [auto|]. apply located_spec. auto. }
    destruct L as (l & ->). discriminate.
Qed.
Lemma builders_services x bs : builders item_when x = Some bs -> NoDup (map fst bs) /\ forall s, In s (map fst bs) <-> In s (exports x).
Proof.
  unfold builders. destruct (extends item_when x) as [es|] eqn:E; [|discriminate]. apply extends_offers in E. destruct (located (exports x) es) as [l|] eqn:El; [|discriminate].
  apply located_spec in El. cbn. intros [= <-]. rewrite map_map. cbn [fst]. rewrite map_id. split; [apply NoDup_nodup|]. intros s. rewrite nodup_In. split.
  - intros Hs. apply in_map_iff in Hs as (p & <- & Hp). apply in_split in Hp as (l1 & l2 & ->). apply Forall2_app_inv_r in El as (e1 & e2 & _ & El & _). inversion_clear El as [|e ? ? ? [H1 H12] H13].
    apply means_in in H1. auto.
  - intros Hs. destruct (exports_in_all x [] s Hs) as (c & Hc). apply in_split in Hc as (o1 & o2 & Ho). rewrite Ho in E. apply Forall2_app_inv_l in E as (e1 & e2 & _ & E & ->).
    inversion E as [|? e ? e2' Hu]; subst. apply under_spec in Hu as (Ht & _). apply Forall2_app_inv_l in El as (l1 & l2 & _ & El & ->). inversion_clear El as [|? p ? l2' [Hm Hm2] Hm3].
    rewrite Ht in Hm. rewrite map_app. apply in_app_iff. right. left. apply (means_unique (exports x) (ByType s)); auto. constructor. auto.
Qed.
Lemma group_contributions ex s os es l : Forall2 under os es -> Forall2 (fun (e : @extension A) p => means ex (fst e) (fst p) /\ snd p = snd e) es l ->
  contributions item_when ex s os (group s l).
Proof.
  intros H. revert l. induction H as [|[[t cs] a] e os es Hu _ IH]; intros l Hl; inversion_clear Hl as [|? p ? l' [Hm Hp] Hl']; [constructor|].
  apply under_spec in Hu as (Ht & _ & Hi). rewrite Ht in Hm. unfold group. cbn [filter]. destruct (svc_eqb s (fst p)) eqn:E.
  - apply svc_eqb_eq in E. subst s. cbn [map]. rewrite Hp. apply contributions_own; auto. apply IH; auto.
  - apply contributions_other with (s' := fst p); auto; [intros E'; rewrite E', svc_eqb_refl in E; discriminate|]. apply IH; auto.
Qed.
Lemma contributions_thinned ex s a b l : thinned a b -> contributions item_when ex s a l -> exists l', contributions item_when ex s b l' /\ concat (rev l') = concat (rev l).
Proof.
  intros H. revert l. induction H as [|o a b _ IH|u c a b _ IH]; intros l Hl.
  - exists l. auto.
  - inversion Hl as [|t cs x x' o' l' H1 H2 H3|t cs x s' o' l' H1 H2 H3]; subst.
    + destruct (IH _ H3) as (m & M1 & M2). exists (x' :: m). split; [constructor; auto|]. cbn [rev]. rewrite !concat_app, M2. reflexivity.
    + destruct (IH _ H3) as (m & M1 & M2). exists m. split; auto. econstructor; eauto.
  - inversion Hl as [|t cs x x' o' l' H1 H2 H3|t cs x s' o' l' H1 H2 H3]; subst.
    + destruct (IH _ H3) as (m & M1 & M2). exists m. split; auto. cbn [rev]. rewrite concat_app, M2. destruct x' as [|? ?]; [|discriminate]. cbn. rewrite app_nil_r. reflexivity.
    + apply IH; auto.
Qed.
Lemma builders_items x bs s items : builders item_when x = Some bs -> builder_of bs s = Some items ->
  exists l, contributions item_when (exports x) s (offers [] x) l /\ items = concat (rev l).
Proof.
  unfold builders. destruct (extends item_when x) as [es|] eqn:E; [|discriminate]. apply extends_offers in E. destruct (located (exports x) es) as [l|] eqn:El; [|discriminate].
  apply located_spec in El. cbn. intros [= <-] Hb. assert (items = build_items (group s l)) as ->.
  { unfold builder_of in Hb. revert Hb. generalize (nodup svc_eq_dec (map fst l)) as ss. induction ss as [|s' ss IH]; [discriminate|]. cbn [map find fst]. destruct (svc_eqb s s') eqn:Es; auto.
    apply svc_eqb_eq in Es as <-. cbn. congruence. }
  pose proof (group_contributions (exports x) s _ _ _ E El) as G. destruct (contributions_thinned _ _ _ _ _ (offers_thinned x []) G) as (l' & L1 & L2).
  exists l'. split; auto. rewrite build_items_rev. auto.
Qed.
Lemma builder_of_some (bs : list (svc * list A)) s : In s (map fst bs) -> exists items, builder_of bs s = Some items.
Proof.
  unfold builder_of. induction bs as [|[s' i] bs IH]; [intros []|]. cbn [map fst find In]. destruct (svc_eqb s s') eqn:E; [intros _; exists i; reflexivity|]. intros [->|H]; auto. rewrite svc_eqb_refl in E. congruence.
Qed.
Lemma contributions_fun ex s os l l' : contributions item_when ex s os l -> contributions item_when ex s os l' -> l = l'.
Proof.
  intros H. revert l'. induction H as [|t cs a a' o l H1 H2 H3 IH|t cs a s' o l H1 H2 H3 IH]; intros l2 Hl; inversion Hl as [|? ? ? b ? m G1 G2 G3|? ? ? u ? m G1 G2 G3]; subst; auto.
  - f_equal; auto. rewrite H2 in G2. clear - G2. revert b G2. induction a'; intros [|? ?]; cbn; try discriminate; auto. intros [= -> H]. f_equal; auto.
  - exfalso. apply G2. apply (means_unique ex t); auto.
  - exfalso. apply H2. apply (means_unique ex t); auto.
Qed.
End Config.

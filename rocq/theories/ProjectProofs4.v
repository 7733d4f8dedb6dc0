(** Proofs about projects: the order of steps and of components. *)
From Coq Require Import String Bool Arith List Permutation Relations Lia.
From Verif Require Import FlowModel FlowSpec FlowProofs FlowProofs3 NexusModel NexusSpec NexusProofs ProjectModel ProjectSpec ProjectProofs.
Import ListNotations.

(** ** Orders of independent things *)
Section Fold.
Context {A S : Type} (f : A -> S -> S).
Definition all (l : list A) (s : S) : S := fold_left (fun s a => f a s) l s.
Definition commute (a b : A) : Prop := forall s, f a (f b s) = f b (f a s).
Lemma all_app l l' s : all (l ++ l') s = all l' (all l s). Proof. apply fold_left_app. Qed.
Lemma past x p : (forall y, In y p -> commute x y) -> forall s, f x (all p s) = all p (f x s).
Proof.
  induction p as [|y p IH]; intros H s; auto. cbn. fold (all p). rewrite IH by (intros; apply H; right; auto). unfold all. f_equal. apply H. left. auto.
Qed.
Lemma before_tail (l : list A) x a b : before l a b -> before (x :: l) a b.
Proof. intros (l1 & l2 & l3 & ->). exists (x :: l1), l2, l3. reflexivity. Qed.
Lemma before_insert (p : list A) x q a b : before (p ++ q) a b -> before (p ++ x :: q) a b.
Proof.
  intros (l1 & l2 & l3 & E). revert l1 E. induction p as [|y p IH]; intros l1 E; cbn [app] in *.
  - exists (x :: l1), l2, l3. rewrite E. reflexivity.
  - destruct l1 as [|z l1]; cbn [app] in E; injection E as -> E.
    + exists []. assert (In b (p ++ x :: q)).
      { assert (In b (p ++ q)) by (rewrite E; apply in_app_iff; right; left; auto). apply in_app_iff in H as [H|H]; apply in_app_iff; [left|right; right]; auto. }
      apply in_split in H as (u & v & ->). exists u, v. reflexivity.
    + apply before_tail. apply (IH l1 E).
Qed.
Lemma same_result l : forall l', NoDup l -> Permutation l l' -> (forall a b, before l a b -> before l' b a -> commute a b) -> forall s, all l s = all l' s.
Proof.
  induction l as [|x l IH]; intros l' N P H s.
  - apply Permutation_nil in P as ->. reflexivity.
  - assert (I : In x l') by (eapply Permutation_in; [exact P|left; auto]). apply in_split in I as (p & q & ->).
    inversion N as [|? ? Nx Nl]; subst. assert (P' : Permutation l (p ++ q)) by (apply Permutation_cons_app_inv with x; exact P).
    rewrite all_app. cbn [all fold_left]. fold (all q (f x (all p s))). rewrite past.
    + rewrite <- all_app. fold (all l (f x s)). apply IH; auto. intros a b B1 B2. apply H; [apply before_tail, B1|apply before_insert, B2].
    + intros y Hy. assert (Hl : In y l) by (eapply Permutation_in; [symmetry; exact P'|apply in_app_iff; auto]).
      apply H.
      * apply in_split in Hl as (u & v & ->). exists [], u, v. reflexivity.
      * apply in_split in Hy as (u & v & ->). exists u, v, q. rewrite <- app_assoc. reflexivity.
Qed.
End Fold.
Lemma before_both {A} (l : list A) a b : NoDup l -> before l a b -> before l b a -> False.
Proof. intros N B1 B2. apply (before_irrefl l a N). eapply before_trans_nodup; eauto. Qed.
Lemma before_clos {A} (l : list A) (R : A -> A -> Prop) : NoDup l -> (forall a b, R a b -> before l a b) -> forall a b, clos_trans A R a b -> before l a b.
Proof. intros N H a b. induction 1; auto. eapply before_trans_nodup; eauto. Qed.

(** ** Rearranging *)
Section Rearranged.
Context {A : Type} (item_when : cond -> A -> option A).
Definition flat (os : list (target * list cond * list A)) : list (target * list cond * A) :=
  flat_map (fun o => map (fun e => (fst o, e)) (snd o)) os.
Lemma flat_app a b : flat (a ++ b) = flat a ++ flat b. Proof. apply flat_map_app. Qed.
Definition targets (os : list (target * list cond * list A)) (o : target * list cond) : Prop := In o (map fst os).
Lemma offers_many cs (l : list (config A)) : offers cs (Many l) = flat_map (offers cs) l. Proof. reflexivity. Qed.
Lemma flat_flat_map {B} (f : B -> _) l : flat (flat_map f l) = flat_map (fun b => flat (f b)) l.
Proof. induction l; auto. cbn [flat_map]. rewrite flat_app, IHl. reflexivity. Qed.
Record same_parts (x y : config A) : Prop := {
  sp_flat : forall cs, Permutation (flat (offers cs x)) (flat (offers cs y));
  sp_targets : forall cs o, targets (offers cs x) o <-> targets (offers cs y) o;
  sp_exports : Permutation (exports x) (exports y) }.
Lemma targets_app a b o : targets (a ++ b) o <-> targets a o \/ targets b o.
Proof. unfold targets. rewrite map_app. apply in_app_iff. Qed.
Lemma targets_flat_map {B} (f : B -> _) l o : targets (flat_map f l) o <-> exists b, In b l /\ targets (f b) o.
Proof.
  induction l as [|b l IH]; cbn [flat_map]; [split; [intros []|intros (b & [] & _)]|]. rewrite targets_app, IH. split.
  - intros [H|(c & Hc & H)]; [exists b; split; [left|]; auto|exists c; split; [right|]; auto].
  - intros (c & [->|Hc] & H); [left|right; exists c]; auto.
Qed.
Lemma rearranged_same (x y : config A) : rearranged x y -> same_parts x y.
Proof.
  induction 1 as [x|x y H IH|x y z H1 IH1 H2 IH2|l l' P|x y l r H IH|l m r|x|l|l|c l|c x y H IH|t a b|l m].
  - split; [reflexivity|reflexivity|reflexivity].
  - destruct IH as [I1 I2 I3]. split; [intros; symmetry; auto|intros; symmetry; auto|symmetry; auto].
  - destruct IH1 as [I1 I2 I3], IH2 as [J1 J2 J3]. split; [intros; etransitivity; eauto|intros; rewrite I2; auto|etransitivity; eauto].
  - split.
    + intros cs. rewrite !offers_many, !flat_flat_map. apply Permutation_flat_map, P.
    + intros cs o. rewrite !offers_many, !targets_flat_map. split; intros (b & Hb & Ht); exists b; (split; [|auto]); eapply Permutation_in; [exact P| |symmetry; exact P|]; auto.
    + cbn [exports]. rewrite <- !flat_map_concat_map. apply Permutation_flat_map, P.
  - destruct IH as [I1 I2 I3]. split.
    + intros cs. rewrite !offers_many, !flat_map_app, !flat_app. cbn [flat_map]. rewrite !flat_app. apply Permutation_app_head, Permutation_app_tail, I1.
    + intros cs o. rewrite !offers_many, !flat_map_app. cbn [flat_map]. rewrite !targets_app, I2. reflexivity.
    + cbn [exports]. rewrite !map_app, !concat_app. cbn [map concat]. apply Permutation_app_head, Permutation_app_tail, I3.
  - split.
    + intros cs. rewrite !offers_many, !flat_map_app. cbn [flat_map offers]. reflexivity.
    + intros cs o. rewrite !offers_many, !flat_map_app. cbn [flat_map offers]. reflexivity.
    + cbn [exports]. rewrite !map_app, !concat_app. cbn [map concat exports]. rewrite ?concat_app. reflexivity.
  - split; [intros cs; rewrite offers_many; cbn [flat_map]; rewrite app_nil_r; reflexivity|intros cs o; rewrite offers_many; cbn [flat_map]; rewrite app_nil_r; reflexivity|].
    cbn. rewrite app_nil_r. reflexivity.
  - split; [reflexivity|reflexivity|reflexivity].
  - split; [reflexivity|reflexivity|reflexivity].
  - split.
    + intros cs. rewrite offers_many. cbn [offers]. rewrite !flat_map_concat_map, map_map. rewrite (map_ext (fun x => offers cs (When c [x])) (offers (c :: cs))); [reflexivity|]. intros x. cbn [offers flat_map]. apply app_nil_r.
    + intros cs o. rewrite offers_many. cbn [offers]. rewrite !flat_map_concat_map, map_map. rewrite (map_ext (fun x => offers cs (When c [x])) (offers (c :: cs))); [reflexivity|]. intros x. cbn [offers flat_map]. apply app_nil_r.
    + cbn [exports]. rewrite map_map. rewrite (map_ext (fun x => exports (When c [x])) exports); [reflexivity|]. intros x. cbn [exports map concat]. apply app_nil_r.
  - destruct IH as [I1 I2 I3]. split.
    + intros cs. cbn [offers flat_map]. rewrite !app_nil_r. apply I1.
    + intros cs o. cbn [offers flat_map]. rewrite !app_nil_r. apply I2.
    + cbn [exports map concat]. rewrite !app_nil_r. exact I3.
  - split; [|intros cs o; cbn; tauto|reflexivity]. intros cs. cbn. rewrite !app_nil_r, map_app. reflexivity.
  - split; [reflexivity|intros; reflexivity|]. cbn. rewrite app_nil_r. reflexivity.
Qed.
Lemma clear_perm x y t : @same_parts x y -> clear_target (exports x) t -> clear_target (exports y) t.
Proof. intros [_ _ P]. destruct t as [s|n]; cbn; auto. intros U s t Hs Ht. apply U; (eapply Permutation_in; [symmetry; exact P|auto]). Qed.
Lemma means_set ex t s : clear_target ex t -> means ex t s <-> In s ex /\ (t = ByType s \/ exists n, t = ByName n /\ s_name s = Some n).
Proof.
  intros U. split.
  - intros M. split; [apply (means_in _ _ _ M)|]. inversion M; subst; eauto.
  - intros (I & [->|(n & -> & Hn)]); [constructor; auto|]. apply locate_means. cbn [locate]. destruct (find (has_name n) ex) as [s'|] eqn:F.
    + apply find_some in F as [F1 F2]. apply has_name_eq in F2. f_equal. apply (U s' s); auto.
    + pose proof (find_none _ _ F s I) as H. apply has_name_eq in Hn. congruence.
Qed.
Lemma means_same x y t s : @same_parts x y -> clear_target (exports x) t -> means (exports x) t s <-> means (exports y) t s.
Proof.
  intros P U. rewrite (means_set _ t s U), (means_set _ t s (clear_perm x y t P U)). destruct P as [_ _ P].
  split; intros [I H]; (split; [|exact H]); (eapply Permutation_in; [|exact I]); [exact P|symmetry; exact P].
Qed.
Lemma in_flat os t cs e : In (t, cs, e) (flat os) <-> exists a, In (t, cs, a) os /\ In e a.
Proof.
  unfold flat. rewrite in_flat_map. split.
  - intros ([tc a] & H & I). cbn [fst snd] in I. apply in_map_iff in I as (e' & [= -> ->] & I). eauto.
  - intros (a & H & I). exists (t, cs, a). split; auto. cbn [fst snd]. apply in_map_iff. eauto.
Qed.
Lemma sensible_same x y : @same_parts x y -> clear_names x -> sensible item_when x -> sensible item_when y.
Proof.
  intros P U S t cs a H. assert (T : targets (offers [] x) (t, cs)) by (apply (sp_targets _ _ P); unfold targets; apply in_map_iff; exists (t, cs, a); auto).
  unfold targets in T. apply in_map_iff in T as ([[t1 c1] a1] & [= -> ->] & T). destruct (S t cs a1 T) as ((s & Hs) & S2 & _).
  split; [exists s; apply (means_same x y); auto; apply (U _ _ _ T)|]. split; auto. intros e He. assert (F : In (t, cs, e) (flat (offers [] x))).
  { eapply Permutation_in; [symmetry; apply (sp_flat _ _ P)|]. apply in_flat. eauto. }
  apply in_flat in F as (a2 & F1 & F2). apply (S t cs a2 F1). exact F2.
Qed.
(** What a service gets, from the flat list. *)
Definition own (ex : list svc) (s : svc) (o : target * list cond * A) : list A :=
  match locate ex (fst (fst o)) with
  | Some s' => if svc_eqb s s' then match when_all item_when (snd (fst o)) (snd o) with Some e => [e] | None => [] end else []
  | None => []
  end.
Lemma contributions_own ex s os l : contributions item_when ex s os l -> concat l = flat_map (own ex s) (flat os).
Proof.
  induction 1 as [|t cs a a' o l Hm Ha Hc IH|t cs a s' o l Hm Hn Hc IH]; auto; cbn [flat flat_map]; fold (flat o); rewrite flat_map_app.
  - cbn [concat fst snd]. rewrite IH. f_equal. clear - Ha Hm. apply locate_means in Hm. revert a' Ha.
    induction a as [|e a IHa]; intros [|e' a']; cbn [map]; try discriminate; auto. intros [= H1 H2]. cbn [flat_map]. unfold own at 1. cbn [fst snd]. rewrite Hm, svc_eqb_refl, H1. cbn [app]. f_equal. auto.
  - rewrite IH. symmetry.
    cbn [fst snd]. apply locate_means in Hm. replace (flat_map (own ex s) (map (fun e => (t, cs, e)) a)) with (@nil A); auto.
    induction a as [|e a IHa]; auto. cbn [map flat_map]. unfold own at 1. cbn [fst snd]. rewrite Hm. destruct (svc_eqb s s') eqn:E; [apply svc_eqb_eq in E; congruence|]. exact IHa.
Qed.
Lemma locate_same x y t : @same_parts x y -> clear_target (exports x) t -> locate (exports x) t = locate (exports y) t.
Proof.
  intros P U. destruct (locate (exports x) t) as [s|] eqn:E.
  - apply locate_means in E. apply (means_same x y t s P U) in E. apply locate_means in E. auto.
  - destruct (locate (exports y) t) as [s|] eqn:F; auto. apply locate_means in F. apply (means_same x y t s P U) in F. apply locate_means in F. congruence.
Qed.
Lemma items_same x y bs bs' s items items' : @same_parts x y -> clear_names x -> builders item_when x = Some bs -> builders item_when y = Some bs' ->
  builder_of bs s = Some items -> builder_of bs' s = Some items' -> Permutation items items'.
Proof.
  intros P U E E' B B'. destruct (builders_items item_when x bs s items E B) as (l & Hl & ->), (builders_items item_when y bs' s items' E' B') as (l' & Hl' & ->).
  assert (R : forall k : list (list A), Permutation (concat (rev k)) (concat k)).
  { induction k as [|a k IH]; [constructor|]. cbn [rev concat]. rewrite concat_app. cbn [concat]. rewrite app_nil_r. etransitivity; [apply Permutation_app_comm|]. apply Permutation_app_head, IH. }
  rewrite (R l), (R l'), (contributions_own _ _ _ _ Hl), (contributions_own _ _ _ _ Hl').
  transitivity (flat_map (own (exports y) s) (flat (offers [] x))); [|apply Permutation_flat_map, (sp_flat _ _ P)].
  replace (flat_map (own (exports x) s) (flat (offers [] x))) with (flat_map (own (exports y) s) (flat (offers [] x))); [reflexivity|].
  rewrite !flat_map_concat_map. f_equal. apply map_ext_in. intros [[t cs] e] Ho. apply in_flat in Ho as (a & Ho & _). unfold own. cbn [fst snd]. rewrite (locate_same x y t P (U _ _ _ Ho)). reflexivity.
Qed.
Lemma given_target x t cs : targets (offers [] x) (t, cs) -> clear_names x -> clear_target (@exports A x) t.
Proof. unfold targets. intros T U. apply in_map_iff in T as ([[t1 c1] a1] & [= -> ->] & T). apply (U _ _ _ T). Qed.
Lemma clear_same x y : @same_parts x y -> clear_names x -> clear_names y.
Proof. intros P U t cs a H. apply (clear_perm x y t P). apply (given_target x t cs); auto. apply (sp_targets _ _ P). unfold targets. apply in_map_iff. exists (t, cs, a). auto. Qed.
End Rearranged.
Lemma given_same x y s cs e : same_parts x y -> clear_names x -> given x s cs e -> given y s cs e.
Proof.
  intros P U (t & a & H1 & H2 & H3). assert (F : In (t, cs, e) (flat (offers [] y))). { eapply Permutation_in; [apply (sp_flat _ _ P)|]. apply in_flat. eauto. }
  apply in_flat in F as (a2 & F1 & F2). exists t, a2. split; auto. split; auto. apply (means_same x y); auto. apply (U _ _ _ H1).
Qed.
Lemma same_parts_sym {A} (x y : config A) : same_parts x y -> same_parts y x.
Proof. intros [I1 I2 I3]. split; [intros; symmetry; auto|intros; symmetry; auto|symmetry; auto]. Qed.
Lemma lawful_same x y s o : same_parts x y -> clear_names x -> lawful x s o -> lawful y s o.
Proof.
  intros P U [L1 L2 L3 L4]. assert (Q := same_parts_sym x y P). assert (V := clear_same x y P U).
  assert (Ad : forall d, adds_step x s d <-> adds_step y s d) by (intros d; split; intros (g & G & H); exists g; (split; [|auto]); eapply given_same; eauto). split; auto.
  - intros d Hd. apply Ad. auto.
  - intros d Hd. apply L3, Ad, Hd.
  - intros p q (cs & g & c & a & b & G & H). apply L4. exists cs, g, c, a, b. split; auto. eapply given_same; eauto.
Qed.


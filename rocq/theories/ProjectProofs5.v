(** Proofs about projects: steps in any order. *)
From Coq Require Import String Bool Arith List Permutation Relations Lia.
From Verif Require Import FlowModel FlowSpec FlowProofs FlowProofs3 NexusModel NexusSpec NexusProofs ProjectModel ProjectSpec ProjectProofs ProjectProofs4.
Import ListNotations.

Lemma NoDup_map_in {A B} (f : A -> B) l a b : NoDup (map f l) -> In a l -> In b l -> f a = f b -> a = b.
Proof.
  induction l as [|x l IH]; cbn [map]; intros N; [intros []|]. inversion N as [|? ? Nx Nl]; subst. intros [->|Ha] [->|Hb] E; auto.
  - exfalso. apply Nx. rewrite E. apply in_map, Hb.
  - exfalso. apply Nx. rewrite <- E. apply in_map, Ha.
Qed.
Lemma NoDup_map_nodup {A B} (f : A -> B) l : NoDup (map f l) -> NoDup l.
Proof. induction l as [|x l IH]; cbn [map]; intros N; constructor; inversion N; subst; auto. intros H. apply H1, in_map, H. Qed.
Lemma before_map {A B} (f : A -> B) l a b : before l a b -> before (map f l) (f a) (f b).
Proof. intros (u & v & w & ->). exists (map f u), (map f v), (map f w). rewrite !map_app. cbn [map]. rewrite map_app. reflexivity. Qed.

Lemma Forall2_impl {A B} (R Q : A -> B -> Prop) l l' : (forall a b, R a b -> Q a b) -> Forall2 R l l' -> Forall2 Q l l'.
Proof. intros H. induction 1; constructor; auto. Qed.

Section Orders.
Context {W : Type} (pred : nat -> W -> bool) (effect : nat -> W -> W).
Notation performs := (performs pred effect).
(** A number for each step performed, added up. *)
Fixpoint tally (g : step -> nat) (o : list step) (w : W) : nat :=
  match o with [] => 0 | d :: r => (if wanted (fun p => pred p w) d then g d else 0) + tally g r (performs d w) end.
Lemma times_tally f o : forall w, times_called pred effect f o w = tally (fun d => if n_func (st_node d) =? f then 1 else 0) o w.
Proof. induction o as [|d o IH]; intros w; cbn [times_called tally]; auto. rewrite IH. destruct (wanted _ d); cbn [andb]; reflexivity. Qed.
Definition counted (g : step -> nat) (d : step) (a : W * nat) : W * nat :=
  (performs d (fst a), (if wanted (fun p => pred p (fst a)) d then g d else 0) + snd a).
Lemma all_counted g o : forall w n, all (counted g) o (w, n) = (follow pred effect o w, tally g o w + n).
Proof.
  induction o as [|d o IH]; intros w n; [reflexivity|]. change (all (counted g) (d :: o) (w, n)) with (all (counted g) o (counted g d (w, n))). unfold counted at 2. cbn [fst snd].
  rewrite IH. cbn [follow tally]. f_equal. lia.
Qed.
Lemma alike_performs d d' w : alike d d' -> performs d w = performs d' w.
Proof. intros (_ & F & _ & H). unfold performs. rewrite H, F. reflexivity. Qed.
Lemma alike_follow o o' : Forall2 alike o o' -> forall w, follow pred effect o w = follow pred effect o' w.
Proof. induction 1 as [|d d' o o' H F IH]; intros w; cbn [follow]; auto. rewrite (alike_performs d d' w H). apply IH. Qed.
Lemma alike_tally g o o' : (forall d d', alike d d' -> g d = g d') -> Forall2 alike o o' -> forall w, tally g o w = tally g o' w.
Proof.
  intros G. induction 1 as [|d d' o o' H F IH]; intros w; cbn [tally]; auto. rewrite (alike_performs d d' w H), IH, (G d d' H).
  destruct H as (_ & _ & _ & H). rewrite H. reflexivity.
Qed.
Lemma matched x s o o' : lawful x s o -> lawful x s o' -> exists o'', Forall2 alike o' o'' /\ Permutation o o''.
Proof.
  intros L L'. destruct (choose (fun d' d => alike d' d /\ In d o) o') as (o'' & F).
  { intros d' Hd. destruct (lf_all _ _ _ L d' (lf_added _ _ _ L' d' Hd)) as (d & H1 & H2). exists d. auto. }
  assert (F1 : Forall2 alike o' o'') by (eapply Forall2_impl; [|exact F]; cbn; tauto). exists o''. split; auto.
  assert (N : map st_name o' = map st_name o'') by (apply Forall2_map_eq; eapply Forall2_impl; [|exact F1]; intros ? ? (H & _); exact H).
  apply NoDup_Permutation.
  - apply (NoDup_map_nodup st_name), (lf_once _ _ _ L).
  - apply (NoDup_map_nodup st_name). rewrite <- N. apply (lf_once _ _ _ L').
  - intros d. split.
    + intros Hd. destruct (lf_all _ _ _ L' d (lf_added _ _ _ L d Hd)) as (d' & H1 & H2). destruct (Forall2_in_l _ _ _ d' F H1) as (d2 & H3 & H4 & H5).
      replace d with d2; auto. apply (NoDup_map_in st_name o); auto; [apply (lf_once _ _ _ L)|]. destruct H2 as (H2 & _), H4 as (H4 & _). unfold st_name. congruence.
    + intros Hd. destruct (Forall2_in_r _ _ _ d F Hd) as (d' & _ & _ & H). exact H.
Qed.
Lemma orders_same x s o o' g : lawful x s o -> lawful x s o' -> unordered_independent pred effect x s -> (forall d d', alike d d' -> g d = g d') ->
  forall w, follow pred effect o w = follow pred effect o' w /\ tally g o w = tally g o' w.
Proof.
  intros L L' I G w. destruct (matched x s o o' L L') as (o'' & F & P). rewrite (alike_follow _ _ F), (alike_tally g _ _ G F).
  assert (N : map st_name o' = map st_name o'') by (apply Forall2_map_eq; eapply Forall2_impl; [|exact F]; intros ? ? (H & _); exact H).
  assert (E : all (counted g) o (w, 0) = all (counted g) o'' (w, 0)).
  { apply same_result; auto; [apply (NoDup_map_nodup st_name), (lf_once _ _ _ L)|]. intros a b B1 B2 [v n].
    assert (Ia : In a o) by (destruct B1 as (u1 & u2 & u3 & ->); apply in_app_iff; right; left; auto).
    assert (Ib : In b o) by (destruct B1 as (u1 & u2 & u3 & ->); apply in_app_iff; right; right; apply in_app_iff; right; left; auto).
    assert (C1 := before_map st_name _ _ _ B1). assert (C2 := before_map st_name _ _ _ B2). rewrite <- N in C2.
    assert (No := lf_once _ _ _ L). assert (No' := lf_once _ _ _ L').
    assert (U : unordered x s a b).
    { split; [|split].
      - intros Eab. rewrite Eab in C1. apply (before_irrefl _ _ No C1).
      - intros T. apply (before_both _ _ _ No' C2). apply (before_clos _ _ No' (lf_order _ _ _ L') _ _ T).
      - intros T. apply (before_both _ _ _ No C1). apply (before_clos _ _ No (lf_order _ _ _ L) _ _ T). }
    destruct (I a b (lf_added _ _ _ L a Ia) (lf_added _ _ _ L b Ib) U v) as (H1 & H2 & H3). unfold counted. cbn [fst snd]. rewrite H1, H2, H3. f_equal. lia. }
  rewrite !all_counted in E. apply pair_equal_spec in E as [E1 E2]. rewrite !Nat.add_0_r in E2. auto.
Qed.
End Orders.

(** ** Functions that only act *)
Section Acting.
Context {W : Type} (pred : nat -> W -> bool) (act : nat -> W -> W) (body : nat -> list op) (nexus : nat -> config element).
Notation does := (does pred act body nexus).
Hypothesis simple : acts_only body.
Definition did (o : op) : list happening := match o with Do a => [Did a] | _ => [] end.
Lemma does_acts own l : (forall o, In o l -> exists a, o = Do a) -> forall m t m', over m = false -> does (TSeq (map (TOp own) l)) m t m' ->
  t = flat_map did l /\ now m' = fold_left (fun w o => match o with Do a => act a w | _ => w end) l (now m) /\ over m' = false /\ started m' = started m.
Proof.
  induction l as [|o l IH]; intros A m t m' O D; cbn [map] in D.
  - inversion D; subst. auto.
  - destruct (A o (or_introl eq_refl)) as (a & ->). inversion D as [| | |k l' m0 t1 m1 t2 m2 D1 O1 D2|k l' m0 t1 m1 D1 O1| | | | | | | | | | |]; subst; inversion D1; subst.
    + destruct (IH (fun o H => A o (or_intror H)) _ _ _ O1 D2) as (-> & H2 & H3 & H4). cbn [flat_map did fold_left]. auto.
    + cbn in O1. congruence.
Qed.
Definition shown (lg : bool) (d : step) : list happening :=
  (if lg then [Said ("flow." ++ type_text (n_type (st_node d)) ++ "(" ++ st_name d ++ ")")] else []) ++ flat_map did (body (n_func (st_node d))).
Fixpoint shows (lg : bool) (o : list step) (w : W) : list happening :=
  match o with [] => [] | d :: r => (if wanted (fun p => pred p w) d then shown lg d else []) ++ shows lg r (performs pred (effect_of act body) d w) end.
Lemma does_one own lg d m t m' : over m = false -> does (TStep own lg d) m t m' ->
  t = (if wanted (fun p => pred p (now m)) d then shown lg d else []) /\ now m' = performs pred (effect_of act body) d (now m) /\ over m' = false /\ started m' = started m.
Proof.
  intros O D. inversion D as [| | | | | | | | | | | |own' lg' d' m1 t1 m2 H1 D1|own' lg' d' m1 H1| |]; subst; unfold performs; rewrite H1; [|auto].
  inversion D1 as [| | |k l' m0 t1 m1 t2 m2 D2 O1 D3|k l' m0 t1 m1 D2 O1| | | | | | | | | | |]; subst; [|inversion D2; subst; congruence].
  assert (E : m1 = m /\ t1 = (if lg then [Said ("flow." ++ type_text (n_type (st_node d)) ++ "(" ++ st_name d ++ ")")] else [])) by (inversion D2; subst; auto). destruct E as [-> ->].
  inversion D3 as [| | |k l' m0 t1 m1 t3 m2 D4 O4 D5|k l' m0 t1 m1 D4 O4| | | | | | | | | | |]; subst; apply does_acts in D4 as (-> & H2 & H3 & H4); try (intros; eapply simple; eauto); auto; try congruence.
  inversion D5; subst. rewrite app_nil_r. auto.
Qed.
Lemma does_flow_acts n lg e o : forall m t m', over m = false -> does (TSeq (map (TStep n lg) o ++ [TSay lg e])) m t m' ->
  t = shows lg o (now m) ++ (if lg then [Said e] else []) /\ now m' = follow pred (effect_of act body) o (now m) /\ over m' = false /\ started m' = started m.
Proof.
  induction o as [|d o IH]; intros m t m' O D; cbn [map app] in D; inversion D as [| | |k l' m0 t1 m1 t2 m2 D1 O1 D2|k l' m0 t1 m1 D1 O1| | | | | | | | | | |]; subst.
  - inversion D2; subst. inversion D1; subst; cbn [shows follow app]; rewrite ?app_nil_r; auto.
  - inversion D1; subst; congruence.
  - apply does_one in D1 as (-> & H1 & _ & H2); auto. destruct (IH _ _ _ O1 D2) as (-> & H3 & H4 & H5). cbn [shows follow]. rewrite <- H1, app_assoc. repeat split; auto. congruence.
  - apply does_one in D1 as (_ & _ & H & _); auto. congruence.
Qed.
Lemma does_service_acts n s name m t m' : s_name s = Some name -> over m = false -> does (TService n s) m t m' ->
  exists o, lawful (nexus n) s o /\ let lg := negb (String.eqb name "") in
  t = (if lg then [Said ("flow.start(" ++ name ++ ")")] else []) ++ shows lg o (now m) ++ (if lg then [Said ("flow.end(" ++ name ++ ")")] else []) /\
  now m' = follow pred (effect_of act body) o (now m) /\ over m' = false /\ started m' = started m.
Proof.
  intros Hn O D. inversion D as [| | | | | | | | | | | | | |n' s' name' o m1 t1 m2 E1 E2 L lg D1|n' s' fs m1 t1 m2 E1 E2]; subst; [|congruence].
  rewrite Hn in E2. injection E2 as <-. exists o. split; auto. cbn zeta. fold lg.
  inversion D1 as [| | |k l' m0 t1 m1 t2 m2 D2 O1 D3|k l' m0 t1 m1 D2 O1| | | | | | | | | | |]; subst; [|inversion D2; subst; congruence].
  assert (E : m1 = m /\ t1 = (if lg then [Said ("flow.start(" ++ name ++ ")")] else [])) by (inversion D2; subst; auto). destruct E as [-> ->].
  apply does_flow_acts in D3 as (-> & H); auto.
Qed.
Lemma happening_dec : forall a b : happening, {a = b} + {a <> b}. Proof. decide equality; [apply Nat.eq_dec|apply string_dec]. Qed.
Lemma shows_tally lg h o : forall w, count_occ happening_dec (shows lg o w) h = tally pred (effect_of act body) (fun d => count_occ happening_dec (shown lg d) h) o w.
Proof. induction o as [|d o IH]; intros w; cbn [shows tally]; auto. rewrite count_occ_app, IH. destruct (wanted _ d); reflexivity. Qed.
Lemma shows_same x s o o' lg w : lawful x s o -> lawful x s o' -> unordered_independent pred (effect_of act body) x s -> Permutation (shows lg o w) (shows lg o' w).
Proof.
  intros L L' I. apply (Permutation_count_occ happening_dec). intros h. rewrite !shows_tally. apply (orders_same pred (effect_of act body) x s); auto.
  intros d d' (A1 & A2 & A3 & _). unfold shown, st_name. rewrite A1, A2, A3. reflexivity.
Qed.
End Acting.

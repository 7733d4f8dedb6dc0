(** Proofs about field definitions made step by step. *)
From Coq Require Import List NArith Bool Arith Permutation Lia ZifyBool ZifyN ZifyNat.
From Verif Require Import MatchModel FieldModel FieldSpec FieldProofs2 MessageModel MessageSpec MessageProofs MessageProofs2 MessageProofs3 AccessProofs5 FieldOpsModel FieldOpsSpec.
Import ListNotations.
Local Open Scope N_scope.

(** ** What a definition makes *)
Definition agrees (m : option (mfield * constraint)) (b : option (nat * list at_ * constraint)) : Prop :=
  match m, b with
  | None, None => True
  | Some (g, k), Some (n, l, k') => f_name g = n /\ f_ats g = l /\ k = k' /\ field_valid g = true
  | _, _ => False
  end.
Lemma frun_spec os : forall c c' b, frun os c = Some c' -> field_valid (c_field c) = true -> agrees (c_matcher c) b ->
  f_name (c_field c') = name_asked (f_name (c_field c)) os /\
  f_bytes (c_field c') = bytes_asked (f_bytes (c_field c)) os /\
  f_default (c_field c') = default_asked (f_default (c_field c)) os /\
  f_ats (c_field c') = places_asked (f_ats (c_field c)) os /\
  field_valid (c_field c') = true /\
  agrees (c_matcher c') (constrained_at (f_name (c_field c)) (f_ats (c_field c)) b os).
Proof.
  induction os as [|o os IH]; intros c c' b H Hv Ha.
  { cbn in H. injection H as <-. cbn. repeat split; auto. }
  cbn [frun] in H. destruct (fstep o c) as [c1|] eqn:E; [|discriminate].
  destruct o; cbn [fstep] in E;
    repeat match type of E with (if ?b then _ else _) = _ => destruct b eqn:?; [|discriminate] end;
    injection E as <-.
  1,2,3,5: specialize (IH _ _ b H); cbn in *; apply IH; auto.
  - specialize (IH _ _ None H). cbn in *. apply IH; auto.
  - specialize (IH _ _ (Some (f_name (c_field c), f_ats (c_field c), k)) H). cbn in *. apply IH; auto.
  - specialize (IH _ _ (Some (f_name (c_field c), f_ats (c_field c), KEq v)) H). cbn in *. apply IH; auto.
Qed.
Lemma asked_at os : forall n l b, asked (option_map snd b) os = option_map snd (constrained_at n l b os).
Proof.
  induction os as [|o os IH]; intros n l b; cbn; auto.
  destruct o; auto.
  - apply (IH n l None).
  - apply (IH n l (Some (n, l, k))).
  - apply (IH n l (Some (n, l, KEq v))).
Qed.
Lemma kept_place os : forall n l b ok, place_kept ok os = true ->
  (ok = true -> match b with Some (_, p, _) => p = l | None => True end) ->
  match constrained_at n l b os with Some (_, p, _) => p = places_asked l os | None => True end.
Proof.
  induction os as [|o os IH]; intros n l b ok Hk Hb; cbn in *.
  - specialize (Hb Hk). destruct b as [[[? ?] ?]|]; auto.
  - destruct o; try (apply (IH _ _ _ _ Hk); auto; discriminate); cbn; eauto.
    all: apply (IH _ _ _ _ Hk); auto.
Qed.
Lemma kept_name os : forall n l b ok, name_kept ok os = true ->
  (ok = true -> match b with Some (p, _, _) => p = n | None => True end) ->
  match constrained_at n l b os with Some (p, _, _) => p = name_asked n os | None => True end.
Proof.
  induction os as [|o os IH]; intros n l b ok Hk Hb; cbn in *.
  - specialize (Hb Hk). destruct b as [[[? ?] ?]|]; auto.
  - destruct o; try (apply (IH _ _ _ _ Hk); auto; discriminate); cbn; eauto.
    all: apply (IH _ _ _ _ Hk); auto.
Qed.

Lemma fresh_valid n b : b <= 8 -> field_valid (c_field (fresh n b)) = true.
Proof. intros H. unfold field_valid, fresh. cbn. lia. Qed.
Lemma meets_spec k x : meets k x = true <-> satisfies x k.
Proof.
  destruct k; cbn; try lia. rewrite existsb_exists. split.
  - intros (v & Hv & E). apply N.eqb_eq in E. subst. auto.
  - intros H. exists x. split; auto. apply N.eqb_refl.
Qed.

(** ** Conditions *)
Section Condition.
Variable es : N.
Lemma all_meet_spec fs qs st (value : mfield -> N) :
  (forall g k, In (g, k) qs -> read_field es fs g st = Some (Done (value g))) ->
  exists r, all_meet es fs qs st = Done r /\ (r = true <-> forall g k, In (g, k) qs -> satisfies (value g) k).
Proof.
  induction qs as [|[g k] qs IH]; intros H.
  - exists true. split; auto. split; auto. intros _ g k [].
  - destruct IH as (r & E & Hr). { intros g' k' Hi. apply (H g' k'). right; auto. }
    cbn [all_meet]. rewrite (H g k) by (left; auto). cbn [bind].
    destruct (meets k (value g)) eqn:M.
    + exists r. split; auto. rewrite Hr. apply meets_spec in M. split.
      * intros Hq g' k' [Hi|Hi]; [injection Hi as <- <-; auto | eauto].
      * intros Hq g' k' Hi. apply Hq. right; auto.
    + exists false. split; auto. split; [discriminate|]. intros Hq.
      assert (satisfies (value g) k) by (apply Hq; left; auto). apply meets_spec in H0. congruence.
Qed.
Lemma matchers_in m q : In q (matchers m) <-> exists c, In c m /\ c_matcher c = Some q.
Proof.
  unfold matchers. rewrite in_flat_map. split.
  - intros (c & Hc & Hq). exists c. split; auto. destruct (c_matcher c); cbn in Hq; intuition congruence.
  - intros (c & Hc & E). exists c. split; auto. rewrite E. left; auto.
Qed.
End Condition.

(** ** Definitions of a message *)
Definition small (d : definition) : Prop := d_bytes d <= 8.
Lemma defines_spec d c : small d -> defines d c ->
  f_name (c_field c) = name_asked (d_name d) (d_ops d) /\
  f_bytes (c_field c) = bytes_asked (d_bytes d) (d_ops d) /\
  f_default (c_field c) = default_asked (DDefault 0) (d_ops d) /\
  f_ats (c_field c) = places_asked [] (d_ops d) /\
  field_valid (c_field c) = true /\
  agrees (c_matcher c) (constrained_at (d_name d) [] None (d_ops d)).
Proof.
  intros Hs H. apply (frun_spec _ _ _ None H); cbn; auto. apply fresh_valid; auto.
Qed.
Lemma f2_left {A B} (R : A -> B -> Prop) l m a : Forall2 R l m -> In a l -> exists b, In b m /\ R a b.
Proof.
  induction 1; intros Hi; [destruct Hi|]. destruct Hi as [->|Hi]; [exists y; split; [left|]; auto|].
  destruct (IHForall2 Hi) as (b & Hb & E). exists b; split; [right|]; auto.
Qed.
Lemma f2_right {A B} (R : A -> B -> Prop) l m b : Forall2 R l m -> In b m -> exists a, In a l /\ R a b.
Proof.
  induction 1; intros Hi; [destruct Hi|]. destruct Hi as [->|Hi]; [exists x; split; [left|]; auto|].
  destruct (IHForall2 Hi) as (a & Ha & E). exists a; split; [right|]; auto.
Qed.
Lemma find_named (l : list definition) d : NoDup (map final_name l) -> In d l -> find (fun d' => Nat.eqb (final_name d') (final_name d)) l = Some d.
Proof.
  induction l as [|a l IH]; intros Hnd Hd; [destruct Hd|]. cbn in *. inversion Hnd; subst.
  destruct Hd as [->|Hd]; [rewrite Nat.eqb_refl; auto|].
  destruct (Nat.eqb_spec (final_name a) (final_name d)) as [E|E]; auto. exfalso. apply H1. rewrite E. apply in_map; auto.
Qed.
Lemma not_forallb {A} (p : A -> bool) l : forallb p l = false -> exists a, In a l /\ p a = false.
Proof.
  induction l as [|a l IH]; cbn; [discriminate|]. destruct (p a) eqn:E; cbn.
  - intros H. destruct (IH H) as (b & Hb & Eb). eauto.
  - intros _. eauto.
Qed.
Lemma names_made ds cs : Forall small ds -> Forall2 defines ds cs -> map f_name (map c_field cs) = map final_name ds.
Proof.
  intros Hsm Hds. induction Hds; cbn; auto. inversion Hsm; subst.
  destruct (defines_spec _ _ H2 H) as (-> & _). f_equal; auto.
Qed.
Section Message.
Variable es : N.
Hypothesis He : narrow es.
Variable ds : list definition.
Variable cs : list cfield.
Hypothesis Hsm : Forall small ds.
Hypothesis Hds : Forall2 defines ds cs.
Variable st : list N.
Hypothesis Hst : storage_ok es st.

Lemma is_small d : In d ds -> small d.
Proof. rewrite Forall_forall in Hsm. auto. Qed.
Lemma matcher_from g k : In (g, k) (matchers cs) ->
  exists d, In d ds /\ constraint_of d = Some (f_name g, f_ats g, k) /\ field_valid g = true.
Proof.
  intros H. apply matchers_in in H as (c & Hc & E).
  destruct (f2_right _ _ _ _ Hds Hc) as (d & Hd & Hdc). exists d. split; auto.
  destruct (defines_spec _ _ (is_small d Hd) Hdc) as (_ & _ & _ & _ & _ & Ha).
  rewrite E in Ha. unfold constraint_of. cbn in Ha. destruct (constrained_at _ _ _ _) as [[[n l] k']|]; [|destruct Ha].
  destruct Ha as (<- & <- & <- & Hv). auto.
Qed.
Lemma matcher_to d n l k : In d ds -> constraint_of d = Some (n, l, k) ->
  exists g, In (g, k) (matchers cs) /\ f_name g = n /\ f_ats g = l.
Proof.
  intros Hd E. destruct (f2_left _ _ _ _ Hds Hd) as (c & Hc & Hdc).
  destruct (defines_spec _ _ (is_small d Hd) Hdc) as (_ & _ & _ & _ & _ & Ha).
  unfold constraint_of in E. rewrite E in Ha. cbn in Ha. destruct (c_matcher c) as [[g k']|] eqn:Em; [|destruct Ha].
  destruct Ha as (Hn & Hl & -> & _). exists g. repeat split; auto. apply matchers_in. exists c; auto.
Qed.

Lemma raw_spec : (forall d n l k, In d ds -> constraint_of d = Some (n, l, k) -> fits (nbits es st) (map at_loc l)) ->
  exists r, message_matches es true cs st = Some (Done r) /\
    (r = true <-> forall d n l k, In d ds -> constraint_of d = Some (n, l, k) -> satisfies (value_at es st l) k).
Proof.
  intros Hf.
  assert (Hr : forall g k, In (g, k) (matchers cs) -> read_field es None g st = Some (Done (value_in es st g))).
  { intros g k Hg. destruct (matcher_from _ _ Hg) as (d & Hd & E & Hv). cbn. f_equal.
    apply extract_value; auto. eapply Hf; eauto. }
  destruct (all_meet_spec es None (matchers cs) st (value_in es st) Hr) as (r & E & Hq).
  exists r. split.
  - unfold message_matches. cbn [read_field]. 
    replace (forallb _ _) with true; [congruence|]. symmetry. apply forallb_forall. auto.
  - rewrite Hq. split.
    + intros H d n l k Hd E'. destruct (matcher_to _ _ _ _ Hd E') as (g & Hg & _ & <-). apply (H g k Hg).
    + intros H g k Hg. destruct (matcher_from _ _ Hg) as (d & Hd & E' & _). apply (H _ _ _ _ Hd E').
Qed.

Hypothesis Hnd : NoDup (map final_name ds).
Hypothesis Hfit : fields_fit (nbits es st) (map c_field cs).
Lemma final_names : map f_name (map c_field cs) = map final_name ds.
Proof. apply names_made; auto. Qed.
Lemma own_field d : In d ds -> exists c, In c cs /\ f_name (c_field c) = final_name d /\ f_ats (c_field c) = final_places d /\
  find_field (final_name d) (map c_field cs) = Some (c_field c).
Proof.
  intros Hd. destruct (f2_left _ _ _ _ Hds Hd) as (c & Hc & Hdc). exists c.
  destruct (defines_spec _ _ (is_small d Hd) Hdc) as (Hn & _ & _ & Hl & _).
  repeat split; auto. unfold final_name. rewrite <- Hn. apply find_field_in; [rewrite final_names; auto | apply in_map; auto].
Qed.
Lemma read_of d : In d ds -> m_get es (map c_field cs) (final_name d) st = Some (Done (value_at es st (final_places d))).
Proof.
  intros Hd. destruct (own_field d Hd) as (c & Hc & Hn & Hl & E). unfold m_get. rewrite E.
  assert (Hf : fits (nbits es st) (f_locs (c_field c))) by (apply Hfit, in_map; auto).
  assert (Hff := fits_checks _ _ Hf). unfold nbits in Hff. rewrite Hff. f_equal.
  rewrite extract_value; auto.
  - unfold value_in, value_at, f_locs. rewrite Hl. auto.
  - destruct (f2_right _ _ _ _ Hds Hc) as (d' & Hd' & Hdc').
    destruct (defines_spec _ _ (is_small d' Hd') Hdc') as (_ & _ & _ & _ & Hv & _). auto.
Qed.
(** The definition that has a name. *)
Definition named (n : nat) : option definition := find (fun d => Nat.eqb (final_name d) n) ds.
Lemma named_some n d : named n = Some d <-> In d ds /\ final_name d = n.
Proof.
  unfold named. split.
  - intros H. apply find_some in H as [H1 H2]. split; auto. apply Nat.eqb_eq; auto.
  - intros (Hd & <-). apply find_named; auto.
Qed.
Lemma read_absent n : ~ In n (map final_name ds) -> m_get es (map c_field cs) n st = None.
Proof.
  intros H. unfold m_get. rewrite <- final_names in H. apply find_field_none in H. rewrite H. auto.
Qed.
Lemma view_spec :
  (forall d n l k, In d ds -> constraint_of d = Some (n, l, k) -> In n (map final_name ds)) ->
  exists r, message_matches es false cs st = Some (Done r) /\
    (r = true <-> forall d n l k d', In d ds -> constraint_of d = Some (n, l, k) -> In d' ds -> final_name d' = n ->
       satisfies (value_at es st (final_places d')) k).
Proof.
  intros Hin.
  set (value := fun g => match named (f_name g) with Some d => value_at es st (final_places d) | None => 0 end).
  assert (Hr : forall g k, In (g, k) (matchers cs) -> read_field es (Some (map c_field cs)) g st = Some (Done (value g))).
  { intros g k Hg. destruct (matcher_from _ _ Hg) as (d & Hd & E & Hv). cbn. specialize (Hin _ _ _ _ Hd E).
    apply in_map_iff in Hin as (d' & Hn & Hd'). unfold value. rewrite <- Hn.
    replace (named (final_name d')) with (Some d') by (symmetry; apply named_some; auto). apply read_of; auto. }
  destruct (all_meet_spec es _ (matchers cs) st value Hr) as (r & E & Hq).
  exists r. split.
  - unfold message_matches. rewrite E. replace (forallb _ _) with true; auto. symmetry. apply forallb_forall.
    intros [g k] Hg. cbn [fst]. rewrite (Hr g k Hg). auto.
  - rewrite Hq. unfold value. split.
    + intros H d n l k d' Hd E' Hd' Hn. destruct (matcher_to _ _ _ _ Hd E') as (g & Hg & Hgn & _). specialize (H g k Hg).
      replace (named (f_name g)) with (Some d') in H by (symmetry; apply named_some; split; congruence). auto.
    + intros H g k Hg. destruct (matcher_from _ _ Hg) as (d & Hd & E' & _). specialize (Hin _ _ _ _ Hd E').
      apply in_map_iff in Hin as (d' & Hn & Hd'). rewrite <- Hn.
      replace (named (final_name d')) with (Some d') by (symmetry; apply named_some; auto). apply (H _ _ _ _ d' Hd E'); auto.
Qed.
Lemma view_none : message_matches es false cs st = None <->
  exists d n l k, In d ds /\ constraint_of d = Some (n, l, k) /\ ~ In n (map final_name ds).
Proof.
  split.
  - intros H. destruct (forallb (fun d => match constraint_of d with Some (n, _, _) => if in_dec Nat.eq_dec n (map final_name ds) then true else false | None => true end) ds) eqn:F.
    + exfalso. rewrite forallb_forall in F. destruct view_spec as (r & E & _); [|congruence].
      intros d n l k Hd E. specialize (F d Hd). rewrite E in F. destruct (in_dec _ _ _); auto; discriminate.
    + apply not_forallb in F as (d & Hd & E). destruct (constraint_of d) as [[[n l] k]|] eqn:Ec; [|discriminate].
      destruct (in_dec _ _ _) as [|Hn]; [discriminate|]. exists d, n, l, k. auto.
  - intros (d & n & l & k & Hd & E & Hn). unfold message_matches. destruct (matcher_to _ _ _ _ Hd E) as (g & Hg & Hgn & _).
    replace (forallb _ _) with false; auto. symmetry. apply Bool.not_true_iff_false. rewrite forallb_forall.
    intros H. specialize (H _ Hg). cbn [fst read_field] in H. rewrite Hgn, read_absent in H; auto. discriminate.
Qed.
End Message.

(** ** What comes after a constraint *)
Definition later (o : fop) : bool := match o with Located _ | Shifted _ | Named _ | Defaulted _ => true | _ => false end.
Lemma later_keeps os : forall c c', forallb later os = true -> frun os c = Some c' -> c_matcher c' = c_matcher c.
Proof.
  induction os as [|o os IH]; intros c c' Hl H; cbn in *; [congruence|].
  apply andb_true_iff in Hl as [Ho Hl]. destruct (fstep o c) as [c1|] eqn:E; [|discriminate].
  rewrite (IH _ _ Hl H). destruct o; try discriminate; cbn [fstep] in E;
    repeat match type of E with (if ?b then _ else _) = _ => destruct b eqn:?; [|discriminate] end;
    injection E as <-; auto.
Qed.
Definition reworked (cs cs' : list cfield) : Prop := Forall2 (fun c c' => exists os, forallb later os = true /\ frun os c = Some c') cs cs'.
Lemma reworked_matchers cs cs' : reworked cs cs' -> matchers cs' = matchers cs.
Proof.
  induction 1 as [|c c' l l' (os & Hl & E) _ IH]; auto. unfold matchers in *. cbn [flat_map]. rewrite (later_keeps _ _ _ Hl E), IH. auto.
Qed.
Lemma reworked_raw es cs cs' st : reworked cs cs' -> message_matches es true cs' st = message_matches es true cs st.
Proof. intros H. unfold message_matches. rewrite (reworked_matchers _ _ H). auto. Qed.

(** ** Which definitions are accepted *)
Lemma valid_room f : field_valid f = true <-> room (f_bytes f) (f_ats f).
Proof.
  unfold field_valid, room. rewrite !andb_true_iff, forallb_forall, !N.leb_le.
  assert (S : (forall a, In a (f_ats f) -> a_lsb a <= a_msb a) ->
    fold_right (fun a n => at_size a + n) 0 (f_ats f) = fold_right N.add 0 (map (fun a => a_msb a + 1 - a_lsb a) (f_ats f))).
  { induction (f_ats f) as [|a l IH]; intros H; cbn; auto. rewrite IH by (intros; apply H; right; auto).
    assert (a_lsb a <= a_msb a) by (apply H; left; auto). unfold at_size. lia. }
  split.
  - intros [[H1 H2] H3].
    assert (H : forall a, In a (f_ats f) -> a_lsb a <= a_msb a /\ a_msb a < a_lsb a + 64).
    { intros a Ha. specialize (H1 a Ha). unfold at_valid, at_size in H1. lia. }
    rewrite <- S by (intros a Ha; apply H; auto). auto.
  - intros (H3 & H & H2). rewrite S by (intros a Ha; apply H; auto). repeat split; auto.
    intros a Ha. specialize (H a Ha). unfold at_valid, at_size. lia.
Qed.
Lemma compatible_allows d v : compatible d v = true <-> allows d v.
Proof.
  unfold compatible, allows. destruct d; try (split; [intros _ x E; discriminate | auto]).
  rewrite N.eqb_eq. split; [intros -> x E; congruence | auto].
Qed.
Lemma constraint_ok_spec f k : constraint_ok f k = true <-> sensible (f_bytes f) (f_default f) (f_ats f) (Constrained k).
Proof.
  destruct k; cbn; unfold holds; rewrite ?andb_true_iff, ?N.ltb_lt, ?compatible_allows; try tauto.
  rewrite forallb_forall, existsb_exists, Forall_forall, Exists_exists.
  split; intros (H1 & v & Hv & H2); (split; [intros x Hx; specialize (H1 x Hx); cbv beta in *; apply N.ltb_lt; auto | exists v; split; auto; apply compatible_allows; auto]).
Qed.
Lemma like_valid f n d : field_valid f = true -> field_valid (like f n (f_bytes f) d (f_ats f)) = true.
Proof. auto. Qed.
Lemma ltb_some {A} v b (x : A) : (if v <? b then Some x else None) <> None <-> v < b.
Proof. destruct (N.ltb_spec v b) as [L|L]; split; intros H; auto; try congruence. exfalso. apply (N.lt_irrefl v). eapply N.lt_le_trans; eauto. Qed.
Lemma fstep_some o c : field_valid (c_field c) = true ->
  (fstep o c <> None <-> sensible (f_bytes (c_field c)) (f_default (c_field c)) (f_ats (c_field c)) o).
Proof.
  intros Hv. set (f := c_field c) in *. destruct o; cbn [fstep]; fold f.
  - cbn [sensible]. change (room (f_bytes f) ats) with (room (f_bytes (like f (f_name f) (f_bytes f) (f_default f) ats)) (f_ats (like f (f_name f) (f_bytes f) (f_default f) ats))).
    rewrite <- valid_room. destruct (field_valid (like _ _ _ _ _)); split; intros; congruence.
  - change (like f (f_name f) (f_bytes f) (f_default f) (map (at_shift n) (f_ats f))) with (shift_field n f).
    rewrite shift_field_valid, Hv. cbn. split; [auto|discriminate].
  - rewrite like_valid by auto. cbn. split; [auto|discriminate].
  - cbn [sensible]. change (room b (f_ats f)) with (room (f_bytes (like f (f_name f) b (DDefault 0) (f_ats f))) (f_ats (like f (f_name f) b (DDefault 0) (f_ats f)))).
    rewrite <- valid_room. destruct (field_valid (like _ _ _ _ _)); split; intros; congruence.
  - rewrite like_valid by auto. destruct d; cbn [default_ok sensible]; unfold holds; try apply ltb_some; split; intros; auto; discriminate.
  - rewrite <- constraint_ok_spec, Hv. destruct (constraint_ok f k); split; congruence.
  - rewrite like_valid by auto. apply ltb_some.
Qed.
Lemma accepted_from os : forall c, field_valid (c_field c) = true ->
  (frun os c <> None <-> forall pre o post, os = pre ++ o :: post ->
     sensible (bytes_asked (f_bytes (c_field c)) pre) (default_asked (f_default (c_field c)) pre) (places_asked (f_ats (c_field c)) pre) o).
Proof.
  induction os as [|o os IH]; intros c Hv.
  - cbn. split; [|discriminate]. intros _ pre o post E. destruct pre; discriminate.
  - cbn [frun]. assert (Hs := fstep_some o c Hv). destruct (fstep o c) as [c1|] eqn:E1.
    + assert (K : f_bytes (c_field c1) = bytes_asked (f_bytes (c_field c)) [o] /\ f_default (c_field c1) = default_asked (f_default (c_field c)) [o] /\
                  f_ats (c_field c1) = places_asked (f_ats (c_field c)) [o] /\ field_valid (c_field c1) = true).
      { clear - E1 Hv. destruct o; cbn [fstep] in E1;
          repeat match type of E1 with (if ?b then _ else _) = _ => destruct b eqn:?; [|discriminate] end;
          injection E1 as <-; cbn; auto. }
      destruct K as (Kb & Kd & Ka & Kv). rewrite (IH c1 Kv). split.
      * intros H [|o' pre] x post E; cbn [app] in E; injection E as <- E.
        -- cbn. apply Hs. discriminate.
        -- specialize (H pre x post E). rewrite Kb, Kd, Ka in H. destruct o; exact H.
      * intros H pre x post ->. specialize (H (o :: pre) x post eq_refl). rewrite Kb, Kd, Ka. destruct o; exact H.
    + split; [congruence|]. intros H. exfalso. apply (proj2 Hs); auto. apply (H [] o os). auto.
Qed.

(** ** The functions that make messages of fields *)
Lemma shift_is_step n f q : field_valid f = true ->
  fstep (Shifted n) {| c_field := f; c_matcher := q |} = Some {| c_field := shift_field n f; c_matcher := q |}.
Proof.
  intros H. cbn [fstep c_field c_matcher]. change (like f (f_name f) (f_bytes f) (f_default f) (map (at_shift n) (f_ats f))) with (shift_field n f).
  rewrite shift_field_valid, H. auto.
Qed.
Lemma message_valid l m f : message l = Some m -> In f m -> field_valid f = true.
Proof.
  intros H Hf. apply message_spec in H as (_ & _ & Hv & _ & Hp). rewrite forallb_forall in Hv. apply Hv.
  eapply Permutation_in; eauto.
Qed.
Lemma pack_steps A ms m f : elem_width A -> pack A ms = Some m -> In f m ->
  exists i mi g, nth_error ms i = Some mi /\ In g mi /\
    forall q, fstep (Shifted (pack_offset A ms i * A)) {| c_field := g; c_matcher := q |} = Some {| c_field := f; c_matcher := q |}.
Proof.
  intros HA H Hf. destruct (pack_spec _ _ _ HA H) as (Hin & _). destruct (proj1 (Hin f) Hf) as (i & mi & g & Hi & Hg & ->).
  exists i, mi, g. repeat split; auto. intros q. apply shift_is_step. rewrite <- (shift_field_valid (pack_offset A ms i * A)).
  unfold pack, overlay in H. eapply message_valid; eauto.
Qed.
Lemma relaxed_steps l m f : relaxed_message l = Some m -> In f l -> locatable f = false ->
  exists o g, In g m /\ forall q,
    frun [Located [{| a_msb := 8 * f_bytes f - 1; a_lsb := 0 |}]; Shifted o] {| c_field := f; c_matcher := q |} = Some {| c_field := g; c_matcher := q |}.
Proof.
  intros H Hf Hl. destruct (relaxed_spec _ _ H) as (_ & _ & _ & Ha & _). destruct (Ha f Hf Hl) as (o & Hi & _).
  exists (8 * o), (auto_at o f). split; auto. intros q.
  assert (Hv : field_valid (auto_at o f) = true).
  { unfold relaxed_message in H. destruct (message _) as [lm|]; [|discriminate]. unfold pack, overlay in H. eapply message_valid; eauto. }
  unfold auto_at in Hv. rewrite shift_field_valid in Hv.
  cbn [frun]. assert (E : fstep (Located [{| a_msb := 8 * f_bytes f - 1; a_lsb := 0 |}]) {| c_field := f; c_matcher := q |} = Some {| c_field := default_located f; c_matcher := q |}).
  { cbn [fstep c_field c_matcher]. change (like _ _ _ _ _) with (default_located f). rewrite Hv. auto. }
  rewrite E, shift_is_step; auto.
Qed.
Lemma rename_steps m old new m' : NoDup (map f_name m) -> Forall (fun f => field_valid f = true) m -> rename_field m old new = Some m' ->
  exists f g, find_field old m = Some f /\ find_field new m' = Some g /\
    forall q, fstep (Named new) {| c_field := f; c_matcher := q |} = Some {| c_field := g; c_matcher := q |}.
Proof.
  intros Hn Hv H. destruct (rename_spec _ _ _ _ Hn H) as (f & Hf & Hg & _).
  exists f. eexists. split; [exact Hf|]. split; [exact Hg|]. intros q. cbn [fstep c_field c_matcher].
  rewrite like_valid; auto. apply find_field_spec in Hf as [Hf _]. rewrite Forall_forall in Hv. auto.
Qed.

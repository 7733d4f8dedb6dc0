From Coq Require Import String Bool Arith List Lia.
From Verif Require Import ReleaseModel ReleaseSpec.
Import ListNotations.

Lemma mem_In x l : mem x l = true <-> In x l.
Proof.
  unfold mem. rewrite existsb_exists. split.
  - intros (y & I & E). apply String.eqb_eq in E. now subst.
  - intros I. exists x. split; [exact I|apply String.eqb_refl].
Qed.
Lemma add_In x h l : In x (add h l) <-> x = h \/ In x l.
Proof.
  unfold add. destruct (mem h l) eqn:E.
  - apply mem_In in E. split; [auto|]. intros [->|]; auto.
  - rewrite in_app_iff. cbn. intuition.
Qed.

(** The inner loop by itself. *)
Section Process.
Variable fs : files.
Section Lines.
Variable rec : string -> state -> option state.
Fixpoint lines (ls : list line) (s : state) : option state :=
  match ls with
  | [] => Some s
  | Include t w :: r =>
    let s := note_include s in
    if exists_ fs t then match rec t s with Some s' => lines r s' | None => None end
    else lines r (add_system w s)
  | Once :: r => lines r s
  | l :: r => lines r (emit l s)
  end.
End Lines.
Lemma process_step k p s : process fs (S k) p s =
  if mem p (visited s) then Some s else match file fs p with None => None | Some ls => lines (process fs k) ls (visit p s) end.
Proof. reflexivity. Qed.

Lemma exists_spec p : exists_ fs p = true <-> exists ls, file fs p = Some ls.
Proof. unfold exists_. destruct (file fs p); split; eauto; try discriminate. intros [? H]; discriminate. Qed.

(** ** Termination *)
Definition left_ (s : state) : nat := List.length (filter (fun q => negb (mem q (visited s))) (map fst fs)).
Lemma left_le s s' : incl (visited s) (visited s') -> left_ s' <= left_ s.
Proof.
  intros I. unfold left_. induction (map fst fs) as [|q l IH]; cbn; [lia|].
  destruct (mem q (visited s)) eqn:E; cbn.
  - apply mem_In, I, mem_In in E. now rewrite E.
  - destruct (mem q (visited s')); cbn; lia.
Qed.
Lemma left_visit p s : exists_ fs p = true -> mem p (visited s) = false -> left_ (visit p s) < left_ s.
Proof.
  intros X M. assert (I : In p (map fst fs)).
  { apply exists_spec in X as (ls & F). clear - F. induction fs as [|[q l] r IH]; [discriminate|]. cbn in *.
    destruct (String.eqb_spec q p); auto. }
  unfold left_. cbn [visited visit].
  assert (G : forall l, List.length (filter (fun q => negb (mem q (p :: visited s))) l) <= List.length (filter (fun q => negb (mem q (visited s))) l)).
  { induction l as [|q l IH]; [cbn; lia|]. cbn [filter]. change (mem q (p :: visited s)) with (String.eqb q p || mem q (visited s)).
    destruct (String.eqb q p), (mem q (visited s)); cbn [orb negb List.length]; lia. }
  induction (map fst fs) as [|q l IH]; [destruct I|]. destruct I as [->|I].
  - cbn [filter]. rewrite M. replace (mem p (p :: visited s)) with true by (symmetry; apply mem_In; now left). cbn [negb List.length]. specialize (G l). lia.
  - specialize (IH I). specialize (G l). cbn [filter]. destruct (mem q (visited s)) eqn:E.
    + replace (mem q (p :: visited s)) with true by (symmetry; apply mem_In; right; now apply mem_In). cbn [negb]. exact IH.
    + destruct (mem q (p :: visited s)); cbn [negb List.length]; lia.
Qed.
Lemma left_bound s : left_ s <= List.length fs.
Proof.
  unfold left_. rewrite <- (map_length fst fs). induction (map fst fs) as [|q l IH]; cbn [filter List.length]; [lia|].
  destruct (negb (mem q (visited s))); cbn [List.length]; lia.
Qed.
Lemma process_total k : forall p s, exists_ fs p = true -> left_ s < k -> exists s', process fs k p s = Some s' /\ incl (visited s) (visited s').
Proof.
  induction k as [|k IH]; intros p s X L; [lia|]. rewrite process_step. destruct (mem p (visited s)) eqn:M.
  - exists s. split; [reflexivity|apply incl_refl].
  - destruct (file fs p) as [ls|] eqn:F; [|unfold exists_ in X; rewrite F in X; discriminate].
    assert (V := left_visit p s X M).
    cut (forall ls s0, left_ s0 < k -> exists s', lines (process fs k) ls s0 = Some s' /\ incl (visited s0) (visited s')).
    { intros G. destruct (G ls (visit p s)) as (s' & E & I); [lia|]. exists s'. split; [exact E|]. intros x Hx. apply I. now right. }
    clear - IH. induction ls as [|l ls IHl]; intros s0 L; [exists s0; split; [reflexivity|apply incl_refl]|].
    destruct l; cbn [lines].
    1,2,3,4: match goal with |- exists s', lines _ _ ?x = _ /\ _ => destruct (IHl x L) as (s' & E & I); eauto end.
    + destruct (IHl s0 L) as (s' & E & I); eauto.
    + destruct (exists_ fs target) eqn:X.
      * destruct (IH target (note_include s0) X L) as (s1 & E1 & I1). rewrite E1.
        destruct (IHl s1) as (s' & E & I); [assert (H := left_le _ _ I1); change (left_ (note_include s0)) with (left_ s0) in H; lia|].
        exists s'. split; [exact E|]. eapply incl_tran; [exact I1|exact I].
      * destruct (IHl (add_system whole (note_include s0)) L) as (s' & E & I); eauto.
Qed.

(** ** What the lines do *)
Lemma sees_app f h seen st a o1 seen1 st1 : sees f h seen st a o1 seen1 st1 ->
  forall b o2 seen2 st2, sees f h seen1 st1 b o2 seen2 st2 -> sees f h seen st (a ++ b) (o1 ++ o2) seen2 st2.
Proof.
  induction 1; intros bb ob seenb stb HB; cbn [app]; rewrite <- ?app_assoc; try (econstructor; eauto; fail).
  exact HB.
Qed.
Lemma code_app a b : code (a ++ b) = code a ++ code b. Proof. apply flat_map_app. Qed.

Hypothesis all_tidy : forall p ls, file fs p = Some ls -> tidy fs 0 ls = true.
Definition strict := forall p ls, file fs p = Some ls -> includes_outside 0 ls = true.
Definition related (s s' : state) (d : nat) (seen : list string) (ls : list line) : Prop :=
  exists tr, content s' = content s ++ tr /\ existsb is_include tr = false /\ incl (system s) (system s') /\
  forall holds st, List.length st = d ->
  exists out out2, sees fs holds seen st ls out (visited s') [] /\ sees [] holds [] st tr out2 [] [] /\
    code out = code out2 /\ (forall h, In (System h) out -> In h (system s')) /\
    (strict -> forall h, In h (system s') -> In h (system s) \/ In (System h) out).
Lemma lines_related k :
  (forall p s s', process fs k p s = Some s' -> if mem p (visited s) then s' = s else
     exists ls, file fs p = Some ls /\ related s s' 0 (p :: visited s) ls) ->
  forall ls s s' d, lines (process fs k) ls s = Some s' -> tidy fs d ls = true -> (strict -> includes_outside d ls = true) -> related s s' d (visited s) ls.
Proof.
  intros IH. induction ls as [|l ls IHl]; intros s s' d E T O.
  - injection E as <-. cbn in T. apply Nat.eqb_eq in T as ->. exists []. rewrite app_nil_r. repeat split; auto using incl_refl.
    intros holds st L. destruct st; [|discriminate]. exists [], []. repeat split; try constructor; auto. intros h [].
  - destruct l as [t|c| | | |t w]; cbn [lines tidy includes_outside] in E, T, O.
    + destruct (IHl _ _ _ E T O) as (tr & C & N & I & H). exists (Text t :: tr). cbn [content emit] in C. rewrite <- app_assoc in C. cbn in C.
      repeat split; auto. intros holds st L. destruct (H holds st L) as (o & o2 & S1 & S2 & CC & Y & Z).
      eexists. eexists. split; [apply s_text; exact S1|]. split; [apply s_text; exact S2|]. split; [|split].
      * rewrite !code_app. now rewrite CC.
      * intros h X. apply in_app_or in X as [X|X]; [destruct (active st); [destruct X as [X|[]]; discriminate|destruct X]|auto].
      * intros F h X. destruct (Z F h X); auto. right. apply in_or_app. auto.
    + destruct (IHl _ _ _ E T O) as (tr & C & N & I & H). exists (If c :: tr). cbn [content emit] in C. rewrite <- app_assoc in C. cbn in C.
      repeat split; auto. intros holds st L. destruct (H holds (holds c :: st)) as (o & o2 & S1 & S2 & CC & Y); [cbn; congruence|].
      exists o, o2. split; [now apply s_if|]. split; [now apply s_if|]. auto.
    + apply andb_prop in T as [T0 T]. destruct (IHl _ _ _ E T O) as (tr & C & N & I & H). exists (Else :: tr). cbn [content emit] in C. rewrite <- app_assoc in C. cbn in C.
      repeat split; auto. intros holds st L. destruct st as [|b st]; [subst d; discriminate|].
      destruct (H holds (negb b :: st)) as (o & o2 & S1 & S2 & CC & Y); [cbn in *; congruence|].
      exists o, o2. split; [now apply s_else|]. split; [now apply s_else|]. auto.
    + destruct d as [|d]; [discriminate|]. destruct (IHl _ _ _ E T O) as (tr & C & N & I & H). exists (Endif :: tr). cbn [content emit] in C. rewrite <- app_assoc in C. cbn in C.
      repeat split; auto. intros holds st L. destruct st as [|b st]; [discriminate|]. injection L as L.
      destruct (H holds st L) as (o & o2 & S1 & S2 & CC & Y). exists o, o2. split; [now apply s_endif|]. split; [now apply s_endif|]. auto.
    + destruct (IHl _ _ _ E T O) as (tr & C & N & I & H). exists tr. repeat split; auto. intros holds st L. destruct (H holds st L) as (o & o2 & S1 & S2 & CC & Y).
      exists o, o2. split; [now apply s_once|]. auto.
    + apply andb_prop in T as [T0 T]. assert (O' : strict -> includes_outside d ls = true) by (intros F; apply O in F; now apply andb_prop in F as [_ F]).
      destruct (exists_ fs t) eqn:X.
      * cbn in T0. apply Nat.eqb_eq in T0 as ->. destruct (process fs k t (note_include s)) as [s1|] eqn:P; [|discriminate].
        apply IH in P. cbn [visited note_include] in P. apply exists_spec in X as (ls0 & F0). destruct (mem t (visited s)) eqn:M.
        -- subst s1. destruct (IHl _ _ _ E T O') as (tr & C & N & I & H). exists tr. repeat split; auto. intros holds st L. destruct (H holds st L) as (o & o2 & S1 & S2 & CC & Y).
           exists o, o2. split; [|auto]. destruct st; [|discriminate]. eapply s_again; eauto. now apply mem_In.
        -- destruct P as (ls1 & F1 & tr1 & C1 & N1 & I1 & H1). destruct (IHl _ _ _ E T O') as (tr & C & N & I & H).
           exists (tr1 ++ tr). cbn [content note_include system] in C1, I1. rewrite C, C1, <- app_assoc. split; [reflexivity|]. split; [rewrite existsb_app, N1, N; reflexivity|].
           split; [eapply incl_tran; eauto|]. intros holds st L. destruct st; [|discriminate].
           destruct (H1 holds []) as (oa & oa2 & A1 & A2 & A3 & A4 & A5); [reflexivity|]. destruct (H holds []) as (o & o2 & S1 & S2 & CC & Y & Z); [reflexivity|].
           exists (oa ++ o), (oa2 ++ o2). split; [eapply s_include; eauto; intros J; apply mem_In in J; congruence|].
           split; [eapply sees_app; eassumption|]. split; [rewrite !code_app; congruence|]. split.
           ++ intros h J. apply in_app_or in J as [J|J]; auto.
           ++ intros F h J. destruct (Z F h J) as [J'|J']; [destruct (A5 F h J'); [now left|]|]; right; apply in_or_app; auto.
      * destruct (IHl _ _ _ E T O') as (tr & C & N & I & H). exists tr. cbn [content system add_system note_include] in C, I. repeat split; auto.
        { intros x Hx. apply I. apply add_In. now right. }
        intros holds st L. destruct (H holds st L) as (o & o2 & S1 & S2 & CC & Y & Z). cbn [visited add_system note_include] in S1.
        assert (F : file fs t = None) by (unfold exists_ in X; destruct (file fs t); [discriminate|reflexivity]).
        destruct (active st) eqn:A.
        -- exists (System w :: o), o2. split; [now apply s_system|]. split; [exact S2|]. split; [exact CC|]. split.
           ++ intros h [[= <-]|J]; [|auto]. apply I. apply add_In. now left.
           ++ intros G h J. destruct (Z G h J) as [J'|J']; [|right; now right]. cbn [system add_system note_include] in J'. apply add_In in J' as [->|J']; [right; now left|now left].
        -- exists o, o2. split; [now apply s_inactive|]. split; [exact S2|]. split; [exact CC|]. split; [exact Y|].
           intros G. apply O in G. apply andb_prop in G as [G _]. apply Nat.eqb_eq in G. subst d. destruct st; discriminate.
Qed.
Lemma process_related k : forall p s s', process fs k p s = Some s' -> if mem p (visited s) then s' = s else
     exists ls, file fs p = Some ls /\ related s s' 0 (p :: visited s) ls.
Proof.
  induction k as [|k IH]; intros p s s' E; [discriminate|]. rewrite process_step in E. destruct (mem p (visited s)).
  - now injection E as <-.
  - destruct (file fs p) as [ls|] eqn:F; [|discriminate]. exists ls. split; [reflexivity|].
    exact (lines_related k IH ls (visit p s) s' 0 E (all_tidy p ls F) (fun G => G p ls F)).
Qed.

(** The place for the system headers, once it is not 0, stays. *)
Lemma insert_keeps k : forall p s s' n, process fs k p s = Some s' -> insert_at s = Some (S n) -> insert_at s' = Some (S n).
Proof.
  induction k as [|k IH]; intros p s s' n E I; [discriminate|]. rewrite process_step in E. destruct (mem p (visited s)); [now injection E as <-|].
  destruct (file fs p) as [ls|]; [|discriminate].
  assert (G : forall ls s s', lines (process fs k) ls s = Some s' -> insert_at s = Some (S n) -> insert_at s' = Some (S n)).
  { clear - IH. induction ls as [|l ls IHl]; intros s s' E I; [now injection E as <-|]. destruct l; cbn [lines] in E; try (eapply IHl; [exact E|exact I]).
    assert (J : insert_at (note_include s) = Some (S n)) by (cbn; now rewrite I).
    destruct (exists_ fs target).
    - destruct (process fs k target (note_include s)) as [s1|] eqn:P; [|discriminate]. eapply IHl; [exact E|]. eapply IH; eauto.
    - eapply IHl; [exact E|exact J]. }
  eapply G; [exact E|exact I].
Qed.
Lemma lines_insert_keeps k ls : forall s s' n, lines (process fs k) ls s = Some s' -> insert_at s = Some (S n) -> insert_at s' = Some (S n).
Proof.
  induction ls as [|l ls IHl]; intros s s' n E I; [now injection E as <-|]. destruct l; cbn [lines] in E; try (eapply IHl; [exact E|exact I]).
  assert (J : insert_at (note_include s) = Some (S n)) by (cbn; now rewrite I).
  destruct (exists_ fs target).
  - destruct (process fs k target (note_include s)) as [s1|] eqn:P; [|discriminate]. eapply IHl; [exact E|]. eapply insert_keeps; eauto.
  - eapply IHl; [exact E|exact J].
Qed.
Lemma lines_app rec a b : forall s, lines rec (a ++ b) s = match lines rec a s with Some s' => lines rec b s' | None => None end.
Proof.
  induction a as [|l a IH]; intros s; [reflexivity|]. destruct l; cbn [app lines]; auto.
  destruct (exists_ fs target); [destruct (rec target (note_include s))|]; auto.
Qed.
Lemma lines_text rec pre : existsb is_include pre = false -> forall s,
  lines rec pre s = Some {| visited := visited s; content := content s ++ filter is_content pre; system := system s; insert_at := insert_at s |}.
Proof.
  induction pre as [|l pre IH]; intros N s.
  - cbn. rewrite app_nil_r. now destruct s.
  - cbn in N. apply orb_false_elim in N as [N1 N2]. destruct l; try discriminate; cbn [lines filter is_content]; rewrite (IH N2); cbn [visited content system insert_at emit]; rewrite <- ?app_assoc; reflexivity.
Qed.
Lemma tidy_app a b : forall d, tidy fs d a = true -> tidy fs d (a ++ b) = tidy fs 0 b.
Proof.
  induction a as [|l a IH]; intros d T.
  - cbn in T. apply Nat.eqb_eq in T as ->. reflexivity.
  - destruct l; cbn [tidy app] in *; auto.
    + apply andb_prop in T as [-> T]. now rewrite (IH _ T).
    + destruct d; [discriminate|auto].
    + apply andb_prop in T as [-> T]. now rewrite (IH _ T).
Qed.
(** Text alone is seen the same in both places. *)
Lemma outside_app a b : forall d, tidy fs d a = true -> includes_outside d (a ++ b) = true -> includes_outside 0 b = true.
Proof.
  induction a as [|l a IH]; intros d T O.
  - cbn in T. apply Nat.eqb_eq in T as ->. exact O.
  - destruct l; cbn [tidy app includes_outside] in *; eauto.
    + apply andb_prop in T as [_ T]. eauto.
    + destruct d; [discriminate|eauto].
    + apply andb_prop in T as [_ T]. apply andb_prop in O as [_ O]. eauto.
Qed.
Lemma text_sees pre : existsb is_include pre = false -> forall d, tidy fs d pre = true -> forall holds seen st, List.length st = d ->
  exists out, sees fs holds seen st pre out seen [] /\ sees [] holds [] st (filter is_content pre) out [] [] /\ forall h, ~ In (System h) out.
Proof.
  induction pre as [|l pre IH]; intros N d T holds seen st L.
  - cbn in T. apply Nat.eqb_eq in T as ->. destruct st; [|discriminate]. exists []. repeat split; try constructor. intros h [].
  - cbn in N. apply orb_false_elim in N as [N1 N2]. destruct l; try discriminate; cbn [tidy filter is_content] in *.
    + destruct (IH N2 d T holds seen st L) as (out & A & B & C). eexists. split; [apply s_text; exact A|]. split; [apply s_text; exact B|].
      intros h X. apply in_app_or in X as [X|X]; [destruct (active st); [destruct X as [X|[]]; discriminate|destruct X]|]. now apply C in X.
    + destruct (IH N2 _ T holds seen (holds c :: st)) as (out & A & B & C); [cbn; congruence|]. exists out. split; [now apply s_if|]. split; [now apply s_if|]. exact C.
    + apply andb_prop in T as [T0 T]. destruct st as [|b st]; [subst d; discriminate|]. destruct (IH N2 _ T holds seen (negb b :: st)) as (out & A & B & C); [exact L|].
      exists out. split; [now apply s_else|]. split; [now apply s_else|]. exact C.
    + destruct d as [|d]; [discriminate|]. destruct st as [|b st]; [discriminate|]. injection L as L. destruct (IH N2 _ T holds seen st L) as (out & A & B & C).
      exists out. split; [now apply s_endif|]. split; [now apply s_endif|]. exact C.
    + destruct (IH N2 d T holds seen st L) as (out & A & B & C). exists out. split; [now apply s_once|]. auto.
Qed.
Lemma heads_see holds l : sees [] holds [] [] (map (fun h => Include h h) l) (map System l) [] [].
Proof. induction l as [|h l IH]; cbn; [constructor|]. apply s_system; auto. Qed.

Lemma flat_no_system holds st tr out v st' : existsb is_include tr = false -> sees [] holds v st tr out [] st' -> forall h, ~ In (System h) out.
Proof.
  intros N S h. induction S; cbn [existsb is_include] in N; try discriminate; auto.
  intros J. apply in_app_or in J as [J|J]; [destruct (active st); [destruct J as [J|[]]; discriminate|destruct J]|]. now apply IHS in J.
Qed.
Lemma release_good root ls k : file fs root = Some ls -> text_first fs ls -> List.length fs < k ->
  exists text, release fs k root = Some text /\ forall holds, exists out out2,
    translation fs holds root out /\ alone holds text out2 /\ code out2 = code out /\ (forall n h, after out n h -> after out2 n h) /\
    (strict -> forall h, In (System h) out2 -> In (System h) out).
Proof.
  intros F (pre & t & w & post & -> & N & C & T) K.
  assert (X : exists_ fs root = true) by (apply exists_spec; eauto).
  assert (L0 : left_ start < k).
  { assert (B := left_bound start). lia. }
  destruct (process_total k root start X L0) as (s' & E & _).
  destruct k as [|k]; [lia|]. assert (E' := E). rewrite process_step in E'. cbn [mem existsb visited start] in E'. rewrite F in E'.
  rewrite lines_app, lines_text in E' by exact N. cbn [visited visit content system insert_at start app] in E'.
  set (s1 := {| visited := [root]; content := filter is_content pre; system := []; insert_at := None |}) in *.
  assert (TP : tidy fs 0 (Include t w :: post) = true) by (rewrite <- (tidy_app pre _ 0 T); exact (all_tidy root _ F)).
  assert (OP : strict -> includes_outside 0 (Include t w :: post) = true) by (intros G; exact (outside_app pre _ 0 T (G root _ F))).
  destruct (lines_related k (process_related k) _ s1 s' 0 E' TP OP) as (tr & CT & NI & I & H).
  assert (exists n, List.length (filter is_content pre) = S n) as (n0 & LN).
  { clear - C. induction pre as [|l pre IH]; [discriminate|]. cbn in *. destruct (is_content l); cbn; eauto. }
  assert (IN : insert_at s' = Some (S n0)).
  { cbn [lines] in E'. assert (J : insert_at (note_include s1) = Some (S n0)) by (cbn; now rewrite LN).
    destruct (exists_ fs t).
    - destruct (process fs k t (note_include s1)) as [s2|] eqn:P; [|discriminate]. eapply lines_insert_keeps; [exact E'|]. eapply insert_keeps; eauto.
    - eapply lines_insert_keeps; [exact E'|exact J]. }
  unfold release. rewrite E, IN. eexists. split; [reflexivity|]. cbn [content s1] in CT.
  assert (FN : firstn (S n0) (content s') = filter is_content pre).
  { rewrite CT, <- LN, firstn_app, Nat.sub_diag. cbn. now rewrite firstn_all, app_nil_r. }
  assert (SN : skipn (S n0) (content s') = tr).
  { rewrite CT, <- LN, skipn_app, skipn_all, Nat.sub_diag. reflexivity. }
  rewrite FN, SN. intros holds.
  destruct (text_sees pre N 0 T holds [root] []) as (op & A1 & A2 & A3); [reflexivity|].
  destruct (H holds []) as (o & o2 & S1 & S2 & CC & Y & Z); [reflexivity|].
  exists (op ++ o), (op ++ map System (system s') ++ o2). split; [|split; [|split; [|split]]].
  - exists (pre ++ Include t w :: post), (visited s'). split; [exact F|]. eapply sees_app; [exact A1|exact S1].
  - exists []. eapply sees_app; [exact A2|]. eapply sees_app; [apply heads_see|exact S2].
  - rewrite !code_app, <- CC. f_equal. replace (code (map System (system s'))) with (@nil string); [reflexivity|].
    clear. induction (system s') as [|h l IH]; [reflexivity|exact IH].
  - intros n h (p & q & EQ & IS & LE). 
    destruct (List.app_eq_app _ _ _ _ EQ) as (z & [[E1 E2]|[E1 E2]]).
    + exfalso. subst op. apply (A3 h). apply in_or_app. now left.
    + exists (op ++ map System (system s')), o2. split; [now rewrite app_assoc|]. split.
      * apply in_or_app. right. apply in_map. rewrite E1 in IS. apply in_app_or in IS as [IS|IS]; [now apply A3 in IS|].
        apply Y. rewrite E2. apply in_or_app. now left.
      * rewrite E1, code_app, app_length in LE. rewrite code_app, app_length.
        replace (List.length (code (map System (system s')))) with 0; [lia|]. clear. induction (system s') as [|x l IH]; [reflexivity|exact IH].
  - intros G h J. apply in_or_app. apply in_app_or in J as [J|J]; [now left|]. right. apply in_app_or in J as [J|J].
    + apply in_map_iff in J as (x & [= ->] & J). destruct (Z G h J) as [[]|J']. exact J'.
    + exfalso. exact (flat_no_system _ _ _ _ _ _ NI S2 h J).
Qed.
End Process.
Lemma process_fuel fs k p s : exists_ fs p = true -> List.length fs < k -> exists s', process fs k p s = Some s'.
Proof.
  intros X K. destruct (process_total fs k p s X) as (s' & E & _); [|eauto].
  assert (B := left_bound fs s). lia.
Qed.

(** Preprocessing has one result. *)
Lemma sees_fun f holds seen st ls o1 v1 t1 : sees f holds seen st ls o1 v1 t1 -> forall o2 v2 t2, sees f holds seen st ls o2 v2 t2 -> o1 = o2 /\ v1 = v2 /\ t1 = t2.
Proof.
  induction 1 as [| | | | | | | | |sn sx t w fl r oa sa ob sb sc A1 A2 A3 B1 IH1 B2 IH2]; intros oy vy ty HY; inversion HY; subst; try congruence; auto; try contradiction;
    try (match goal with I : forall _ _ _, sees _ _ _ _ ?r _ _ _ -> _, S : sees _ _ _ _ ?r _ _ _ |- _ => apply I in S as (-> & -> & ->) end; auto; fail).
  match goal with F : file f t = Some ?x, S : sees _ _ _ [] ?x _ _ _ |- _ => assert (EQ : x = fl) by congruence; rewrite EQ in S; apply IH1 in S as (-> & -> & _) end.
  match goal with S : sees _ _ _ _ r _ _ ty |- _ => apply IH2 in S as (-> & -> & ->) end. auto.
Qed.

(** ** Every line at most once *)
Section Once.
Variable fs : files.
Variable t : string.
Fixpoint rest (v : list string) (l : files) : nat :=
  match l with [] => 0 | (q, ls) :: r => (if mem q v then 0 else times t ls) + rest v r end.
Lemma rest_le p v l : rest (p :: v) l <= rest v l.
Proof.
  induction l as [|[q ls] r IH]; cbn [rest]; [lia|]. change (mem q (p :: v)) with (String.eqb q p || mem q v).
  destruct (String.eqb q p), (mem q v); cbn [orb]; lia.
Qed.
Lemma rest_visit p v ls : forall l, file l p = Some ls -> mem p v = false -> rest (p :: v) l + times t ls <= rest v l.
Proof.
  induction l as [|[q x] r IH]; intros F M; [discriminate|]. cbn [file rest] in *. destruct (String.eqb_spec q p) as [->|N].
  - injection F as ->. rewrite M. replace (mem p (p :: v)) with true by (symmetry; apply mem_In; now left). assert (H := rest_le p v r). lia.
  - specialize (IH F M). change (mem q (p :: v)) with (String.eqb q p || mem q v). destruct (String.eqb q p), (mem q v); cbn [orb]; lia.
Qed.
Lemma times_app a b : times t (a ++ b) = times t a + times t b.
Proof. induction a as [|l a IH]; [reflexivity|]. destruct l; cbn [times app]; rewrite ?IH; lia. Qed.
Lemma process_times k : forall p s s', process fs k p s = Some s' ->
  times t (content s') + rest (visited s') fs <= times t (content s) + rest (visited s) fs.
Proof.
  induction k as [|k IH]; intros p s s' E; [discriminate|]. rewrite process_step in E. destruct (mem p (visited s)) eqn:M; [injection E as <-; lia|].
  destruct (file fs p) as [ls|] eqn:F; [|discriminate].
  assert (G : forall ls s s', lines fs (process fs k) ls s = Some s' ->
    times t (content s') + rest (visited s') fs <= times t (content s) + rest (visited s) fs + times t ls).
  { clear - IH. induction ls as [|l ls IHl]; intros s s' E; [injection E as <-; cbn; lia|].
    destruct l; cbn [lines times] in *; try (apply IHl in E; cbn [content visited emit] in E; rewrite ?times_app in E; cbn [times] in E; lia).
    destruct (exists_ fs target).
    - destruct (process fs k target (note_include s)) as [s1|] eqn:P; [|discriminate]. apply IH in P. apply IHl in E. cbn [content visited note_include] in P. lia.
    - apply IHl in E. exact E. }
  apply G in E. cbn [content visited visit] in E. assert (H := rest_visit p (visited s) ls fs F M). lia.
Qed.
Lemma rest_nil l : rest [] l = times_in t l.
Proof. induction l as [|[q x] r IH]; [reflexivity|]. cbn [rest times_in mem existsb]. now rewrite IH. Qed.
End Once.
Lemma insert_some fs k : forall p s s', process fs k p s = Some s' -> insert_at s <> None -> insert_at s' <> None.
Proof.
  induction k as [|k IH]; intros p s s' E I; [discriminate|]. rewrite process_step in E. destruct (mem p (visited s)); [now injection E as <-|].
  destruct (file fs p) as [ls|]; [|discriminate]. change (insert_at (visit p s) <> None) in I. revert E I. generalize (visit p s). clear - IH.
  induction ls as [|l ls IHl]; intros s E I; [now injection E as <-|]. destruct l; cbn [lines] in E; try (eapply IHl; [exact E|exact I]).
  destruct (exists_ fs target).
  - destruct (process fs k target (note_include s)) as [s1|] eqn:P; [|discriminate]. eapply IHl; [exact E|]. eapply IH; [exact P|].
    cbn. destruct (insert_at s) as [[|]|]; discriminate.
  - eapply IHl; [exact E|]. cbn. destruct (insert_at s) as [[|]|]; discriminate.
Qed.
Lemma release_times fs root ls k t : file fs root = Some ls -> existsb is_include ls = true -> List.length fs < k ->
  exists text, release fs k root = Some text /\ times t text <= times_in t fs.
Proof.
  intros F I K. assert (X : exists_ fs root = true) by (unfold exists_; now rewrite F).
  destruct (process_fuel fs k root start X K) as (s' & E). unfold release. rewrite E. eexists. split; [reflexivity|].
  assert (T := process_times fs t k root start s' E). cbn [content visited start times] in T. rewrite rest_nil in T.
  assert (N : insert_at s' <> None).
  { destruct k as [|k]; [discriminate|]. rewrite process_step in E. cbn [mem existsb visited start] in E. rewrite F in E. revert E I. generalize (visit root start). clear.
    induction ls as [|l ls IHl]; intros s E I; [discriminate|]. destruct l; cbn [lines existsb is_include orb] in E, I; try (eapply IHl; [exact E|exact I]).
    assert (G : forall ls s, lines fs (process fs k) ls s = Some s' -> insert_at s <> None -> insert_at s' <> None).
    { clear. induction ls as [|l ls IHl]; intros s E I; [now injection E as <-|]. destruct l; cbn [lines] in E; try (eapply IHl; [exact E|exact I]).
      destruct (exists_ fs target).
      - destruct (process fs k target (note_include s)) as [s1|] eqn:P; [|discriminate]. eapply IHl; [exact E|]. eapply insert_some; [exact P|].
        cbn. destruct (insert_at s) as [[|]|]; discriminate.
      - eapply IHl; [exact E|]. cbn. destruct (insert_at s) as [[|]|]; discriminate. }
    assert (J : insert_at (note_include s) <> None) by (cbn; destruct (insert_at s) as [[|]|]; discriminate).
    destruct (exists_ fs target).
    - destruct (process fs k target (note_include s)) as [s1|] eqn:P; [|discriminate]. eapply G; [exact E|]. eapply insert_some; eauto.
    - eapply G; [exact E|exact J]. }
  destruct (insert_at s') as [n|]; [|contradiction]. rewrite !times_app.
  assert (H : times t (map (fun h => Include h h) (system s')) = 0) by (clear; induction (system s') as [|h l IH]; [reflexivity|exact IH]).
  assert (S := times_app t (firstn n (content s')) (skipn n (content s'))). rewrite firstn_skipn in S. lia.
Qed.

(** Theorems C113 to C115: projects with message services. *)
From Coq Require Import String Bool Arith ZArith NArith List Lia.
From Verif Require Import MatchModel MatchSpec FieldMatchersModel FieldMatchersSpec FieldModel FieldSpec FieldProofs2 MessageModel MessageSpec MessageProofs MessageProps AccessModel AccessSpec AccessProofs4 HandlerModel HandlerSpec FlowModel NexusModel NexusSpec NexusProofs NexusProofs2 DispatchModel DispatchSpec DispatchProofs DispatchProofs2 DispatchProofs3 DispatchProofs4.
Import ListNotations.
Local Open Scope string_scope.
Local Open Scope list_scope.
Local Notation Leaf := MatchModel.Leaf.

(** ** C113: messages reach the callbacks the components declare *)
(** Every run of a program: a message sent to a service goes to the callbacks that
    the components give to that service in the nexus asked, each called exactly if its
    matcher, the fields of its message type and the conditions around it hold when its
    turn comes; the result tells whether one was called; and so on inside them. *)
Theorem C113_runs : forall M W ftype cond_no kind_of (fld : nat -> M -> Z) (psem : nat -> M * W -> bool) pred act body nexus fuel p w t y,
  clear_project ftype fld psem pred cond_no kind_of nexus ->
  run_main ftype cond_no kind_of fld psem act body nexus fuel p w = Some (t, y) ->
  exists o, does fld psem pred act body nexus kind_of p (at_first w) t o /\ now o = world y /\ over o = halted y.
Proof.
  intros M W ftype cond_no kind_of fld psem pred act body nexus fuel p w t y CP H.
  destruct (main_sound ftype cond_no kind_of fld psem pred act body nexus CP fuel p w t y H) as (o & D & E1 & E2 & _). exists o. auto.
Qed.
Print Assumptions C113_runs.
(** If callables send only lower ranked messages, every program ends. *)
Theorem C113_ends : forall M W ftype cond_no kind_of (fld : nat -> M -> Z) (psem : nat -> M * W -> bool) pred act body nexus rank fuel p w,
  clear_project ftype fld psem pred cond_no kind_of nexus -> (forall n, builders item_when (nexus n) <> None) ->
  ranked rank nexus body -> below rank nexus fuel p ->
  run_main ftype cond_no kind_of fld psem act body nexus fuel p w <> None.
Proof. intros. eapply main_ends; eauto. Qed.
Print Assumptions C113_ends.
(** Two services; a callback sends the message on and changes the world so that the
    condition around the next holds. *)
Definition cmds : svc := {| s_id := 1; s_name := None; s_ret := 0 |}.
Definition logs : svc := {| s_id := 2; s_name := None; s_ret := 0 |}.
Definition armed : cond := {| c_name := "armed"; c_preds := [1] |}.
Definition reacts (name : nat) (x : option fexpr) (c : callable) : item := {| i_name := name; i_user := x; i_fields := []; i_conds := []; i_call := c |}.
Definition is_three : fexpr := Leaf (Rel 0 REq 3%Z).
Definition demo : nat -> config item := fun n =>
  match n with
  | O => Many [Exports [cmds; logs]; When armed [NexusModel.Extend (ByType cmds) [reacts 2 (Some is_three) (Stateless 2)]];
               NexusModel.Extend (ByType cmds) [reacts 1 (Some (And is_three (Leaf (Rel 1 RLt 9%Z)))) (Stateful 1)]; NexusModel.Extend (ByType logs) [reacts 3 None (Stateless 3)]]
  | _ => Many [Exports [logs]; NexusModel.Extend (ByType logs) [reacts 4 None (Pointer (Some 4))]]
  end.
Definition d_types (f : nat) : cty := CInt 8 false.
Definition d_fld (f : nat) (m : nat * nat) : Z := (Z.of_nat (match f with O => fst m | _ => snd m end) mod 256)%Z.
Definition d_pred (p w : nat) : bool := Nat.leb p w.
Definition d_psem (p : nat) (e : (nat * nat) * nat) : bool := d_pred p (snd e).
Definition d_no (c : cond) : nat := hd 0 (c_preds c).
Definition d_body (f n : nat) (m : nat * nat) : @prog (nat * nat) nat :=
  match f with
  | 1 => Do 1 (Send Current logs m (fun _ => End))
  | 2 => Do 10 End
  | 3 => Do 100 End
  | _ => Do 1000 End
  end.
Definition plain (s : svc) : kind := Plain.
Definition by_index (s : svc) : kind := if svc_eqb s cmds then Indexed [0] else Plain.
Definition d_run k p := option_map (fun r => (fst r, world (snd r), halted (snd r))) (run_main d_types d_no k d_fld d_psem Nat.add d_body demo 3 p 0).
Definition send1 (m : nat * nat) (k : @prog (nat * nat) nat) : @prog (nat * nat) nat := Send Current cmds m (fun _ => k).
Lemma demo_listens n s a : listens (demo n) s a ->
  (s = cmds /\ (a = {| l_item := reacts 2 (Some is_three) (Stateless 2); l_conds := [armed] |} \/ a = {| l_item := reacts 1 (Some (And is_three (Leaf (Rel 1 RLt 9%Z)))) (Stateful 1); l_conds := [] |})) \/
  (s = logs /\ (a = {| l_item := reacts 3 None (Stateless 3); l_conds := [] |} \/ a = {| l_item := reacts 4 None (Pointer (Some 4)); l_conds := [] |})).
Proof.
  intros (t & l & H & M & I). apply locate_means in M. destruct a as [i cs]. cbn [l_conds l_item] in *.
  destruct n as [|n]; vm_compute in H; repeat (destruct H as [[= <- <- <-]|H]; [vm_compute in M; injection M as <-; destruct I as [<-|[]]; tauto|]); destruct H.
Qed.
Lemma demo_cmds n l : listeners (demo n) cmds l -> Forall (fun a => listens (demo n) cmds a) l /\
  (l = [] \/ l = [ {| l_item := reacts 1 (Some (And is_three (Leaf (Rel 1 RLt 9%Z)))) (Stateful 1); l_conds := [] |}; {| l_item := reacts 2 (Some is_three) (Stateless 2); l_conds := [armed] |}]).
Proof.
  intros L. split; [apply Forall_forall; intros a; apply listeners_listen; auto|]. destruct L as (g & G & ->). destruct n as [|n].
  - right. assert (E : g = [[{| l_item := reacts 2 (Some is_three) (Stateless 2); l_conds := [armed] |}]; [{| l_item := reacts 1 (Some (And is_three (Leaf (Rel 1 RLt 9%Z)))) (Stateful 1); l_conds := [] |}]]); [|subst; reflexivity].
    eapply gathered_fun; [exact G|]. change (offers [] (demo 0)) with [(ByType cmds, [armed], [reacts 2 (Some is_three) (Stateless 2)]); (ByType cmds, [], [reacts 1 (Some (And is_three (Leaf (Rel 1 RLt 9%Z)))) (Stateful 1)]); (ByType logs, [], [reacts 3 None (Stateless 3)])].
    apply gathered_own; [apply locate_means; reflexivity|]. apply gathered_own; [apply locate_means; reflexivity|]. apply gathered_other with (s' := logs); [apply locate_means; reflexivity|discriminate|constructor].
  - left. assert (E : g = []); [|subst; reflexivity]. eapply gathered_fun; [exact G|]. change (offers [] (demo (S n))) with [(ByType logs, @nil cond, [reacts 4 None (Pointer (Some 4))])].
    apply gathered_other with (s' := logs); [apply locate_means; reflexivity|discriminate|constructor].
Qed.
Lemma demo_clear k : k = plain \/ k = by_index -> clear_project d_types d_fld d_psem d_pred d_no k demo.
Proof.
  intros K. constructor.
  - intros f. unfold cty_ok, d_types. lia.
  - intros f m. unfold in_range, d_types, d_fld, cmin, cmax. pose proof (Z.mod_pos_bound (Z.of_nat match f with O => fst m | _ => snd m end) 256). lia.
  - intros n s a _ L. apply demo_listens in L. decompose [and or] L; subst; (split; [split; cbn; auto|]); (split; [|left; split]); try (split; cbn; intros; try congruence; auto).
    all: cbn; try (intros l [<-|[]]; cbn; unfold in_range; cbn; lia || exact I); try (intros l [<-|[<-|[]]]; cbn; unfold in_range; cbn; lia || exact I); try (intros l []).
    all: try (match goal with H : Some _ = Some _ |- _ => injection H as <- end; cbn; auto).
  - intros n s a c _ L Hc m w. apply demo_listens in L. decompose [and or] L; subst; cbn in Hc; try tauto. destruct Hc as [<-|[]]. cbn. rewrite andb_true_r. reflexivity.
  - intros n s fs l _ Hk L. destruct K as [-> | ->]; [discriminate|]. unfold by_index in Hk. destruct (svc_eqb s cmds) eqn:E; [|discriminate]. injection Hk as <-.
    apply svc_eqb_eq in E. subst s. apply demo_cmds in L as [_ [-> | ->]].
    + split; [discriminate|]. split; [constructor|]. repeat split; try (intros; contradiction). intros f i j a b v _ H. destruct i; discriminate.
    + split; [discriminate|]. split.
      { repeat constructor; cbn; intros m [= <-]; cbn; auto. }
      repeat split.
      * intros f a v w _ [<-|[<-|[]]]; cbn; intuition congruence.
      * intros f a v w _ [<-|[<-|[]]]; cbn; intuition congruence.
      * intros f a v w _ [<-|[<-|[]]]; cbn; intuition congruence.
      * intros f i j a b v _ Hi Hj. destruct i as [|[|i]]; [injection Hi as <-|injection Hi as <-|destruct i; discriminate]; cbn; intuition congruence.
Qed.
Definition d_main : @prog (nat * nat) nat := Start 0 (send1 (3, 5) (send1 (3, 9) (send1 (4, 5) (Start 1 (Send (Of 0) logs (0, 0) (fun _ => send1 (3, 5) End)))))).
Definition d_rank (s : svc) (m : nat * nat) : nat := if svc_eqb s cmds then 1 else 0.
Example C113_case : clear_project d_types d_fld d_psem d_pred d_no plain demo /\ (forall n, builders item_when (demo n) <> None) /\ ranked d_rank demo d_body /\
  below d_rank demo 3 d_main /\
  d_run plain d_main = Some ([Matched 1; Did 1; Matched 3; Did 100; Matched 2; Did 10; Matched 2; Did 10; Unclaimed; Mismatch 1; Mismatch 2;
    Matched 3; Did 100; Matched 1; Did 1; Matched 4; Did 1000; Matched 2; Did 10], 1232, false) /\
  d_run plain (Ask Current cmds (3, 5) (fun b => if b then Do 5 End else send1 (3, 5) (Do 6 End))) = Some ([Panicked], 0, true).
Proof.
  split; [apply demo_clear; auto|]. split; [intros [|n]; vm_compute; discriminate|]. split.
  - intros n s a f m _ L. apply demo_listens in L. decompose [and or] L; subst; cbn; intros [= <-]; cbn; auto.
  - split; [|split; vm_compute; reflexivity]. cbn. repeat split; try lia; auto. apply exported_exports. cbn. auto.
Qed.
(** Needed: a callable that is a pointer under a condition is lost; a matcher the
    library simplifies wrongly is not that written. *)
Definition lost : nat -> config item := fun _ =>
  Many [Exports [logs]; When armed [NexusModel.Extend (ByType logs) [reacts 4 None (Pointer (Some 4))]]].
Definition lossy : nat -> config item := fun _ =>
  Many [Exports [logs]; NexusModel.Extend (ByType logs) [reacts 5 (Some (And (Leaf (Rel 0 RNe 3%Z)) (Leaf (Rel 0 RNe 5%Z)))) (Stateless 2)]].
Example C113_needed :
  option_map fst (run_main d_types d_no plain d_fld d_psem Nat.add d_body lost 3 (Start 0 (Send Current logs (0, 0) (fun _ => End))) 1) = Some [Matched 4; Null] /\
  (exists t, option_map fst (run_main d_types d_no plain d_fld d_psem Nat.add d_body lossy 3 (Start 0 (Send Current logs (5, 0) (fun _ => End))) 1) = Some t /\
     t = [Matched 5; Did 10] /\ wants d_fld d_psem d_pred {| l_item := reacts 5 (Some (And (Leaf (Rel 0 RNe 3%Z)) (Leaf (Rel 0 RNe 5%Z)))) (Stateless 2); l_conds := [] |} (5, 0) 1 = false).
Proof. split; [vm_compute; reflexivity|]. eexists. vm_compute. auto. Qed.

(** ** C114: indexing makes no difference *)
(** Whichever of the services are indexed and over whatever fields, a program shows
    and leads to the same, but for the reasons logged for unclaimed messages, if it
    does not ask whether there is a match. *)
Theorem C114_indexing : forall M W ftype cond_no k1 k2 (fld : nat -> M -> Z) (psem : nat -> M * W -> bool) pred act body nexus fuel1 fuel2 p w t1 y1 t2 y2,
  clear_project ftype fld psem pred cond_no k1 nexus -> clear_project ftype fld psem pred cond_no k2 nexus ->
  asks_nothing p -> (forall f n m, asks_nothing (body f n m)) ->
  run_main ftype cond_no k1 fld psem act body nexus fuel1 p w = Some (t1, y1) ->
  run_main ftype cond_no k2 fld psem act body nexus fuel2 p w = Some (t2, y2) ->
  without_reasons t1 = without_reasons t2 /\ world y1 = world y2 /\ halted y1 = halted y2.
Proof.
  intros M W ftype cond_no k1 k2 fld psem pred act body nexus fuel1 fuel2 p w t1 y1 t2 y2 C1 C2 Ap Ab R1 R2.
  destruct (C113_runs _ _ _ _ _ _ _ _ _ _ _ _ _ _ _ _ C1 R1) as (o1 & D1 & E1 & E1'). destruct (C113_runs _ _ _ _ _ _ _ _ _ _ _ _ _ _ _ _ C2 R2) as (o2 & D2 & E2 & E2').
  destruct (same fld psem pred act body nexus k1 k2 Ab p (at_first w) t1 o1 D1 Ap t2 o2 D2) as [T ->]. split; auto. split; congruence.
Qed.
Print Assumptions C114_indexing.
Example C114_case : clear_project d_types d_fld d_psem d_pred d_no by_index demo /\ asks_nothing d_main /\ (forall f n m, asks_nothing (d_body f n m)) /\
  d_run by_index d_main = Some ([Matched 1; Did 1; Matched 3; Did 100; Matched 2; Did 10; Matched 2; Did 10; Unclaimed;
    Matched 3; Did 100; Matched 1; Did 1; Matched 4; Did 1000; Matched 2; Did 10], 1232, false).
Proof.
  split; [apply demo_clear; auto|]. split; [cbn; auto|]. split; [|vm_compute; reflexivity]. intros f n m. do 4 (destruct f as [|f]; [cbn; auto|]). cbn; auto.
Qed.
(** Needed: is_match of an indexed service may say yes where a plain one says no. *)
Example C114_needed :
  let p := Start 0 (Ask Current cmds (3, 9) (fun b => Do (if b then 1 else 2) End)) in
  d_run plain p = Some ([Did 2], 2, false) /\ d_run by_index p = Some ([Did 1], 1, false).
Proof. vm_compute. auto. Qed.

(** ** C115: from the values given to the callbacks called *)
(** A program over messages in storage, constructed field by field, does what the
    program over the values given does: the callbacks called are those whose
    declarations hold of the values given, or the defaults, as the bits of the fields
    keep them. *)
Theorem C115_values : forall W ftab ftype es size ids cond_no kind_of (psem1 : nat -> list (nat * N) * W -> bool) (psem2 : nat -> buffer es size * W -> bool)
  pred act body1 body2 nexus fuel p1 p2 w t y,
  narrow es -> (forall i, field_valid (ftab i) = true /\ type_fits (ftype i) (ftab i)) -> names_apart ftab ids -> msg_good (map ftab ids) ->
  fields_fit (es * N.of_nat size) (map ftab ids) ->
  clear_project ftype (read_from ftab ftype es size ids) psem2 pred cond_no kind_of nexus ->
  (forall n s a, exported s (nexus n) -> listens (nexus n) s a -> asks_own ids a) ->
  (forall i vs b (w : W), constructed ftab es size ids vs b -> psem1 i (vs, w) = psem2 i (b, w)) ->
  (forall f n vs b, constructed ftab es size ids vs b -> retold (constructed ftab es size ids) (body1 f n vs) (body2 f n b)) ->
  retold (constructed ftab es size ids) p1 p2 ->
  run_main ftype cond_no kind_of (read_from ftab ftype es size ids) psem2 act body2 nexus fuel p2 w = Some (t, y) ->
  exists o, does (given ftab ftype) psem1 pred act body1 nexus kind_of p1 (at_first w) t o /\ now o = world y /\ over o = halted y.
Proof.
  intros W ftab ftype es size ids cond_no kind_of psem1 psem2 pred act body1 body2 nexus fuel p1 p2 w t y He Hft Hn Hg Hfit CP Own Hp Hb R H.
  destruct (C113_runs _ _ _ _ _ _ _ _ _ _ _ _ _ _ _ _ CP H) as (o & D & E). exists o. split; auto.
  eapply (retold_does (constructed ftab es size ids) (given ftab ftype) (read_from ftab ftype es size ids) psem1 psem2 pred act body1 body2 nexus kind_of); eauto.
  intros n s a vs b w' X L C. apply wants_on_leaves; [|intros q; apply Hp; auto]. intros f r v I. symmetry. eapply read_given; eauto. eapply Own; eauto.
Qed.
Print Assumptions C115_values.
(** An int8 in the low byte, a uint8 with a default above it; a callback for negative
    values passes the message on with another value. *)
Local Open Scope N_scope.
Definition e_tab (i : nat) : mfield :=
  {| f_name := i; f_bytes := 1; f_default := match i with O => DWithout | _ => DDefault 7 end; f_match := Always; f_ats := [match i with O => loc_ 7 0 | _ => loc_ 15 8 end] |}.
Definition e_types (i : nat) : cty := match i with O => CInt 8 true | _ => CInt 8 false end.
Definition e_ids : list nat := [0; 1]%nat.
Lemma e_ok v : length [v mod 2 ^ 16] = 1%nat /\ storage_ok 16 [v mod 2 ^ 16].
Proof. split; auto. repeat constructor. apply N.mod_lt. discriminate. Qed.
Definition e_owner (vs : list (nat * N)) : buffer 16 1 :=
  exist _ [match construct 16 1 (map e_tab e_ids) vs with Some (Done [v]) => v | _ => 0 end mod 2 ^ 16] (e_ok _).
Definition e_nexus : nat -> config item := fun _ =>
  Many [Exports [logs]; NexusModel.Extend (ByType logs) [reacts 1 (Some (Leaf (Rel 0 RLt 0%Z))) (Stateless 1); reacts 2 (Some (And (Leaf (Rel 0 RGe 0%Z)) (Leaf (Rel 1 REq 7%Z)))) (Stateless 2)]].
Definition e_loud (x : Z) : nat := Z.to_nat (Z.abs x).
Definition e_body1 (f n : nat) (vs : list (nat * N)) : @prog (list (nat * N)) nat :=
  match f with 1%nat => Do (e_loud (given e_tab e_types 0 vs)) (Send Current logs [(0%nat, 4)] (fun _ => End)) | _ => Do 50 End end.
Definition e_body2 (f n : nat) (b : buffer 16 1) : @prog (buffer 16 1) nat :=
  match f with 1%nat => Do (e_loud (read_from e_tab e_types 16 1 e_ids 0 b)) (Send Current logs (e_owner [(0%nat, 4)]) (fun _ => End)) | _ => Do 50 End end.
Definition e_main1 : @prog (list (nat * N)) nat := Start 0 (Send Current logs [(0%nat, 0x1FE)] (fun _ => Send Current logs [(1%nat, 8); (0%nat, 1)] (fun b => Do (if b then 1 else 2) End))).
Definition e_main2 : @prog (buffer 16 1) nat := Start 0 (Send Current logs (e_owner [(0%nat, 0x1FE)]) (fun _ => Send Current logs (e_owner [(1%nat, 8); (0%nat, 1)]) (fun b => Do (if b then 1 else 2) End))).
Lemma e_narrow : narrow 16. Proof. unfold narrow. auto. Qed.
Lemma e_valid i : field_valid (e_tab i) = true /\ type_fits (e_types i) (e_tab i).
Proof. destruct i; split; vm_compute; auto. Qed.
Lemma e_apart : names_apart e_tab e_ids. Proof. intros i j _ H. exact H. Qed.
Lemma e_good : msg_good (map e_tab e_ids).
Proof.
  split; [cbn; repeat constructor; cbn; intuition congruence|]. split.
  - assert (H1 : forall l, disjoint_locs [l]) by (intros l; split; [intros k _ (x & [] & _)|exact I]).
    repeat apply Forall_cons; [| |apply Forall_nil]; (split; [reflexivity|]; split; [apply H1|cbn; intros v E; try discriminate; injection E as <-; reflexivity]).
  - intros f g Hf Hg Hne k H1 H2.
    destruct Hf as [<-|[<-|[]]], Hg as [<-|[<-|[]]]; try (cbn in Hne; congruence);
    covers_at H1; covers_at H2; destruct H1 as (a & Ha & H1), H2 as (b & Hb & H2);
    repeat match goal with H : _ \/ _ |- _ => destruct H | H : False |- _ => destruct H end; subst; cbn in H1, H2; lia.
Qed.
Lemma e_fit : fields_fit (16 * N.of_nat 1) (map e_tab e_ids).
Proof. intros f [<-|[<-|[]]] l [<-|[]]; vm_compute; discriminate. Qed.
Lemma e_listens n s a : listens (e_nexus n) s a ->
  a = {| l_item := reacts 1 (Some (Leaf (Rel 0 RLt 0%Z))) (Stateless 1); l_conds := [] |} \/
  a = {| l_item := reacts 2 (Some (And (Leaf (Rel 0 RGe 0%Z)) (Leaf (Rel 1 REq 7%Z)))) (Stateless 2); l_conds := [] |}.
Proof.
  intros (t & l & H & M & I). destruct a as [i cs]. cbn [l_conds l_item] in *. vm_compute in H. destruct H as [[= <- <- <-]|[]]. destruct I as [<-|[<-|[]]]; auto.
Qed.
Lemma e_clear : clear_project e_types (read_from e_tab e_types 16 1 e_ids) (fun p (e : buffer 16 1 * nat) => true) d_pred d_no plain e_nexus.
Proof.
  constructor.
  - intros [|f]; unfold cty_ok, e_types; lia.
  - intros f b. apply read_in_range; [exact e_narrow|exact e_valid|exact e_apart|exact e_fit].
  - intros n s a _ L. apply e_listens in L. destruct L as [-> | ->]; (split; [split; cbn; auto|]); (split; [|left; split]).
    all: cbn; try (intros l [<-|[]]; cbn; unfold in_range; cbn; lia || exact I); try (intros l [<-|[<-|[]]]; cbn; unfold in_range; cbn; lia || exact I).
    all: (split; cbn; [intros m [= <-]; cbn; auto|auto]).
  - intros n s a c _ L Hc. apply e_listens in L. destruct L as [-> | ->]; destruct Hc.
  - intros n s fs l _ Hk. discriminate.
Qed.
Example C115_case :
  clear_project e_types (read_from e_tab e_types 16 1 e_ids) (fun p (e : buffer 16 1 * nat) => true) d_pred d_no plain e_nexus /\
  (forall n s a, exported s (e_nexus n) -> listens (e_nexus n) s a -> asks_own e_ids a) /\
  (forall f n vs b, constructed e_tab 16 1 e_ids vs b -> retold (constructed e_tab 16 1 e_ids) (e_body1 f n vs) (e_body2 f n b)) /\
  retold (constructed e_tab 16 1 e_ids) e_main1 e_main2 /\
  option_map fst (run_main e_types d_no plain (read_from e_tab e_types 16 1 e_ids) (fun p e => true) Nat.add e_body2 e_nexus 3%nat e_main2 0%nat) =
    Some [Matched 1; Did 2; Matched 2; Did 50; Unclaimed; Mismatch 1; Mismatch 2; Did 2].
Proof.
  split; [exact e_clear|]. split. { intros n s a _ L. apply e_listens in L. destruct L as [-> | ->]; intros f o v; cbn; intuition (try congruence); inversion H0; subst; cbn; auto; inversion H; subst; cbn; auto. }
  split. { intros f n vs b C. do 2 (destruct f as [|f]; [try (repeat constructor; fail)|]); [|repeat constructor]. unfold e_body1, e_body2.
    rewrite (read_given e_tab e_types 16 1 e_ids e_narrow e_valid e_apart e_good e_fit vs b 0%nat C) by (cbn; auto). constructor. constructor; [vm_compute; reflexivity|intros; constructor]. }
  split; [|vm_compute; reflexivity].
  unfold e_main1, e_main2. constructor. constructor; [vm_compute; reflexivity|]. intros _. constructor; [vm_compute; reflexivity|]. intros b. repeat constructor.
Qed.

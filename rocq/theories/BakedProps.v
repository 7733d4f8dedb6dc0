(** Property theorems for the tables of indexed services (C122, C123, C125) and for selection
    in lookups (C124). *)
From Coq Require Import List Bool Arith ZArith NArith Lia ZifyBool ZifyN ZifyNat Permutation.
From Verif Require Import MatchModel MatchSpec MatchProofs FieldMatchersModel FieldMatchersSpec FieldMatchersProofs HandlerModel HandlerSpec IndexedProofs HandlerProps
  BakedModel BakedSpec BakedProofs BakedProofs2 BakedProofs3.
From Verif Require FieldModel LookupModel LookupSpec LookupProps.
Import ListNotations.
Local Open Scope Z_scope.

Definition constants_in_range (ftype : nat -> cty) (fs : list nat) (cbs : list (callback leaf)) : Prop :=
  forall c f o v, In c cbs -> In f fs -> In (Rel f o v) (leaves (cb_matcher c)) -> in_range (ftype f) v.
Lemma ranges_of ftype fs cbs : constants_in_range ftype fs cbs -> forall f, In f fs -> in_ranges ftype (map cb_matcher cbs) f.
Proof. intros H f I m k Im C. apply in_map_iff in Im. destruct Im as (c & <- & Ic). apply compares_leaf in C. destruct C as [o C]. eauto. Qed.

(** ** C122 *)
(** Whatever tables the build makes, the service built with them does, for every message, what
    the maps they were made from say. *)
Theorem C122_tables_are_exact :
  forall (E : Type) (srt : (N -> N) -> list (LookupModel.entry bits) -> list (LookupModel.entry bits)) (ftype : nat -> cty)
    (fld : nat -> E -> Z) (psem : nat -> E -> bool) (v : validator) (fs : list nat) (cbs : list (callback leaf)) ls (e : E),
  LookupSpec.sorts srt -> (forall f, field_type (ftype f)) -> constants_in_range ftype fs cbs ->
  (forall f, In f fs -> in_range (ftype f) (fld f e)) ->
  bake srt ftype v fs cbs = Some ls ->
  baked_handle ftype fld psem ls fs cbs e = Some (indexed_handle ftype fld psem fs cbs e) /\
  baked_is_match ftype fld ls fs e = Some (indexed_is_match fld fs cbs e).
Proof. intros E srt ftype fld psem v fs cbs ls e Hs Ht Hc. apply (bake_refines srt Hs ftype Ht fld psem cbs v). apply ranges_of. auto. Qed.
Print Assumptions C122_tables_are_exact.
(** So with callbacks that are single conjunctions (of ==, <, <=, >, >= and predicates, at most one
    == per indexed field) a built service runs the callbacks that accept the message, in order. *)
Theorem C122_built_service_dispatches :
  forall (E : Type) (srt : (N -> N) -> list (LookupModel.entry bits) -> list (LookupModel.entry bits)) (ftype : nat -> cty)
    (fld : nat -> E -> Z) (psem : nat -> E -> bool) (v : validator) (fs : list nat) (orig : list (callback leaf)) ls (e : E),
  LookupSpec.sorts srt -> (forall f, field_type (ftype f)) -> (forall f e, in_range (ftype f) (fld f e)) -> fs <> [] ->
  (forall c, In c orig -> positive (Upos ftype) (cb_matcher c)) ->
  (forall c, In c orig -> length (separate_sum_terms leaf_eqb (leaf_implies ftype) leaf_neg c) = 1%nat) ->
  (forall c t f v w, In c orig -> In t (separate_sum_terms leaf_eqb (leaf_implies ftype) leaf_neg c) -> In f fs ->
     In (Rel f REq v) (leaves (cb_matcher t)) -> In (Rel f REq w) (leaves (cb_matcher t)) -> v = w) ->
  bake srt ftype v fs (indexed_add ftype [] orig) = Some ls ->
  exists evs ok, baked_handle ftype fld psem ls fs (indexed_add ftype [] orig) e = Some (evs, ok) /\
    ran evs = map cb_id (filter (fun c => eval (leaf_sem fld psem) (cb_matcher c) e) orig) /\
    ok = existsb (fun c => eval (leaf_sem fld psem) (cb_matcher c) e) orig /\
    errors evs = (if ok then 0 else 1)%nat.
Proof.
  intros E srt ftype fld psem v fs orig ls e Hs Ht Hf Hne Hp H1 Ho Hb.
  assert (Hty : forall f, cty_ok (ftype f)) by (intros f; specialize (Ht f); unfold field_type, cty_ok in *; destruct (ftype f); auto; lia).
  assert (Hc : constants_in_range ftype fs (indexed_add ftype [] orig)).
  { intros t f o x It _ Il. unfold indexed_add in It. cbn [app] in It. apply in_flat_map in It. destruct It as (c & Ic & It).
    destruct (terms_positive ftype fld psem Hty Hf c (Hp c Ic)) as [T _]. destruct (T t It) as [_ P]. exact (proj1 (positive_leaf ftype _ _ P Il)). }
  destruct (C122_tables_are_exact E srt ftype fld psem v fs _ ls e Hs Ht Hc (fun f _ => Hf f e) Hb) as [R _].
  destruct (C20_positive_partial E ftype fld psem Hty Hf fs orig e Hne Hp Ho) as (_ & _ & S2 & S3 & S4).
  destruct (HandlerProofs.handle_spec (leaf_sem fld psem) orig e) as (K1 & K2 & K3 & _).
  destruct (indexed_handle ftype fld psem fs (indexed_add ftype [] orig) e) as [evs ok]. cbn [fst snd] in *. exists evs, ok.
  split; auto. split; [rewrite S4; auto|]. split; [rewrite S2; auto|]. rewrite S3, K3, S2, K2. destruct (existsb _ orig); auto.
Qed.
Print Assumptions C122_built_service_dispatches.

Definition sorter : (N -> N) -> list (LookupModel.entry bits) -> list (LookupModel.entry bits) := LookupProps.sort_by.
Definition int8s : nat -> cty := fun f => if Nat.eqb f 0 then CInt 8 true else CInt 16 false.
Definition signed_fields : nat -> Z * Z -> Z := fun f e => if Nat.eqb f 0 then fst e else snd e.
Definition six : list (callback leaf) :=
  [ cbk 1 (And (feq 0 (-3)) (Leaf (Rel 1 RLt 10))); cbk 2 (fne 0 7); cbk 3 (feq 1 1000); cbk 4 (feq 0 100); cbk 5 (feq 0 (-128)); cbk 6 (And (feq 0 5) (feq 1 2)) ].
(** Five constants on a signed field make a table, two on the other a list; the negative keys are found. *)
Example C122_case :
  constants_in_range int8s [0; 1]%nat six /\
  exists l1 l2, bake sorter int8s NullValidator [0; 1]%nat six = Some [l1; l2] /\
    (exists w m d ib n t st, l1 = LookupModel.Indirect w m d ib n t st) /\ (exists i, l2 = LookupModel.Linear i) /\
    map (fun e => option_map (fun r => (ran (fst r), snd r)) (baked_handle int8s signed_fields yes2 [l1; l2] [0; 1]%nat six e)) [(-3, 4); (-3, 1000); (7, 1000); (-128, 1); (5, 2); (7, 0)]
    = [Some ([1; 2], true); Some ([2; 3], true); Some ([3], true); Some ([2; 5], true); Some ([2; 6], true); Some ([], false)]%nat.
Proof.
  split.
  - intros c f o v Hc Hf Hl. cbn in Hc. unfold in_range, cmin, cmax, int8s. repeat destruct Hc as [<-|Hc]; try contradiction; cbn in Hl;
      repeat (destruct Hl as [[= <- <- <-]|Hl]; [cbn; lia|]); contradiction.
  - eexists _, _. split; [vm_compute; reflexivity|]. split; [eexists _, _, _, _, _, _, _; reflexivity|]. split; [eexists; reflexivity|]. vm_compute. reflexivity.
Qed.

(** ** C123
    Full statement: a service with at most 256 callbacks and at most 512 constants per index can be built. *)
Theorem C123_when_it_builds :
  forall (srt : (N -> N) -> list (LookupModel.entry bits) -> list (LookupModel.entry bits)) (ftype : nat -> cty)
    (v : validator) (fs : list nat) (cbs : list (callback leaf)) (ks : nat -> list Z),
  LookupSpec.sorts srt -> (forall f, field_type (ftype f)) -> constants_in_range ftype fs cbs ->
  (forall f, constants f (map cb_matcher cbs) (ks f)) ->
  (exists ls, bake srt ftype v fs cbs = Some ls) <->
  (fs <> [] -> (length cbs <= 256)%nat) /\
  (forall c, In c cbs -> v = NeverValidator -> remove_terms ftype fs (cb_matcher c) <> Never) /\
  (forall f, In f fs -> (length (ks f) <= 512)%nat /\
     (LookupModel.popcount (width_of (ftype f)) (fst (LookupModel.calc_mask (width_of (ftype f)) 2 (map (raw (ftype f)) (ks f)))) <= 30)%N).
Proof. intros srt ftype v fs cbs ks Hs Ht Hc Hk. apply (bake_compiles srt Hs ftype Ht cbs v fs ks); auto. apply ranges_of. auto. Qed.
Print Assumptions C123_when_it_builds.
(** It is so if each indexed field has at most 16 bits or at most three constants. Missing: wider
    fields with more constants, where the hash may need more than 30 bits. *)
Theorem C123_builds_partial :
  forall (srt : (N -> N) -> list (LookupModel.entry bits) -> list (LookupModel.entry bits)) (ftype : nat -> cty)
    (fs : list nat) (cbs : list (callback leaf)) (ks : nat -> list Z),
  LookupSpec.sorts srt -> (forall f, field_type (ftype f)) -> constants_in_range ftype fs cbs ->
  (forall f, constants f (map cb_matcher cbs) (ks f)) ->
  (length cbs <= 256)%nat -> (forall f, In f fs -> (length (ks f) <= 512)%nat) ->
  (forall f, In f fs -> (width_of (ftype f) <= 16)%N \/ (length (ks f) <= 3)%nat) ->
  exists ls, bake srt ftype NullValidator fs cbs = Some ls.
Proof.
  intros srt ftype fs cbs ks Hs Ht Hc Hk H256 H512 Hn. apply (C123_when_it_builds srt ftype NullValidator fs cbs ks); auto. split; [auto|]. split; [discriminate|].
  intros f If. split; auto. destruct (Hn f If) as [H|H]; [apply pop_narrow; lia|]. etransitivity; [apply calc_few; rewrite map_length; auto|]. lia.
Qed.
Print Assumptions C123_builds_partial.
Definition u64 : nat -> cty := fun _ => CInt 64 false.
Definition u32 : nat -> cty := fun _ => CInt 32 false.
Definition equals (ks : list Z) : list (callback leaf) := map (fun k => cbk 1 (feq 0 k)) ks.
Lemma equals_constants ks : NoDup ks -> constants 0%nat (map cb_matcher (equals ks)) ks.
Proof.
  intros Hn. split; auto. intros k. unfold equals. rewrite map_map. split.
  - intros I. exists (feq 0 k). split; [apply in_map_iff; exists k; auto|constructor].
  - intros (m & I & C). apply in_map_iff in I. destruct I as (k' & <- & I). cbn in C. inversion C; subst; auto.
Qed.
(** 34 callbacks for the single bits of a 64-bit field; and 66 constants of a 32-bit field. *)
Definition one_hot (n : nat) : list Z := map (fun i => Z.shiftl 1 (Z.of_nat i)) (seq 0 n).
Definition star (b : Z) : list Z := b :: map (fun i => Z.lxor b (Z.shiftl 1 (Z.of_nat i))) (seq 2 30).
Definition stars : list Z := star 2863311530 ++ star 429496729 ++ [1717986916; 1717986917; 1717986918; 1717986919].
Lemma nodup_z (l : list Z) : (fix ok (l : list Z) := match l with [] => true | x :: r => negb (existsb (Z.eqb x) r) && ok r end) l = true -> NoDup l.
Proof.
  induction l as [|x l IH]; intros H; [constructor|]. apply andb_true_iff in H. destruct H as [H1 H2]. constructor; auto.
  intros I. apply negb_true_iff in H1. assert (Q : existsb (Z.eqb x) l = true) by (apply existsb_exists; exists x; split; auto; apply Z.eqb_refl). congruence.
Qed.
Theorem C123_builds_refuted :
  (constants 0%nat (map cb_matcher (equals (one_hot 34))) (one_hot 34) /\ length (one_hot 34) = 34%nat /\ Forall (in_range (CInt 64 false)) (one_hot 34) /\
   bake sorter u64 NullValidator [0%nat] (equals (one_hot 34)) = None) /\
  (constants 0%nat (map cb_matcher (equals stars)) stars /\ length stars = 66%nat /\ Forall (in_range (CInt 32 false)) stars /\
   bake sorter u32 NullValidator [0%nat] (equals stars) = None).
Proof.
  split; (split; [apply equals_constants, nodup_z; vm_compute; reflexivity|]; split; [reflexivity|]; split;
    [apply Forall_forall; intros x Hx; vm_compute in Hx; repeat destruct Hx as [<-|Hx]; try contradiction; vm_compute; split; discriminate|vm_compute; reflexivity]).
Qed.
Print Assumptions C123_builds_refuted.
(** Three 64-bit constants build; 257 callbacks and 513 constants do not. *)
Example C123_case :
  (exists ls, bake sorter u64 NeverValidator [0%nat] (equals [1; 2 ^ 40; 2 ^ 63]) = Some ls) /\
  bake sorter u64 NullValidator [0%nat] (repeat (cbk 1 (feq 0 3)) 257) = None /\
  (exists ls, bake sorter u64 NullValidator [0%nat] (repeat (cbk 1 (feq 0 3)) 256) = Some ls) /\
  (exists ls, bake sorter u64 NullValidator [] (repeat (cbk 1 (feq 0 3)) 257) = Some ls) /\
  bake sorter int8s NullValidator [1%nat] [cbk 1 (fold_right (fun i m => And (feq 1 (Z.of_nat i)) m) Always (seq 0 513))] = None.
Proof. repeat split; try (eexists; vm_compute; reflexivity); vm_compute; reflexivity. Qed.

(** ** C124 *)
(** A list of at most a few entries answers as the association does, on every processor and both
    at compile time and at run time. *)
Theorem C124_linear :
  forall (A : Type) (arc constant_evaluated : bool) (t : cty) (value_bytes : Z) (d : A) (entries : list (Z * A)) (key : Z),
  field_type t -> in_range t key -> Forall (fun kv => in_range t (fst kv)) entries -> NoDup (map fst entries) ->
  value_of d entries key (linear_lookup arc constant_evaluated (bytes_of t) value_bytes d entries key).
Proof. intros A arc ce t vb d entries key Ht Hk Hf Hn. apply linear_spec; auto. Qed.
Print Assumptions C124_linear.
(** The two selections are the same everywhere for equality ... *)
Theorem C124_select :
  forall (A : Type) (arc constant_evaluated : bool) (t : cty) (value_bytes lhs rhs : Z) (first second : A),
  field_type t -> in_range t lhs -> in_range t rhs ->
  (lhs = rhs -> select arc constant_evaluated (bytes_of t) value_bytes lhs rhs first second = first) /\
  (lhs <> rhs -> select arc constant_evaluated (bytes_of t) value_bytes lhs rhs first second = second).
Proof. intros A arc ce t vb lhs rhs x y Ht Hl Hr. rewrite select_right by auto. destruct (Z.eqb_spec lhs rhs); split; congruence. Qed.
Print Assumptions C124_select.
(** ... and for the order if the keys have the same sign. Missing: a negative and a non-negative key
    at run time on ARC, which are compared as unsigned. *)
Theorem C124_select_lt_partial :
  forall (A : Type) (arc constant_evaluated : bool) (t : cty) (value_bytes lhs rhs : Z) (first second : A),
  field_type t -> in_range t lhs -> in_range t rhs -> (0 <= lhs <-> 0 <= rhs) ->
  (lhs < rhs -> select_lt arc constant_evaluated (bytes_of t) value_bytes lhs rhs first second = first) /\
  (rhs <= lhs -> select_lt arc constant_evaluated (bytes_of t) value_bytes lhs rhs first second = second).
Proof. intros A arc ce t vb lhs rhs x y Ht Hl Hr Hs. rewrite select_lt_right by auto. destruct (Z.ltb_spec lhs rhs); split; auto; lia. Qed.
Print Assumptions C124_select_lt_partial.
Theorem C124_select_lt_refuted :
  forall (A : Type) (first second : A),
  in_range (CInt 32 true) (-1) /\ in_range (CInt 32 true) 1 /\
  select_lt true true (bytes_of (CInt 32 true)) 4 (-1) 1 first second = first /\
  select_lt true false (bytes_of (CInt 32 true)) 4 (-1) 1 first second = second.
Proof. intros A x y. split; [vm_compute; split; discriminate|]. split; [vm_compute; split; discriminate|]. split; reflexivity. Qed.
Print Assumptions C124_select_lt_refuted.
Example C124_case :
  let es := [(-5, 1%nat); (300, 2%nat); (-32768, 3%nat)] in
  map (linear_lookup true false (bytes_of (CInt 16 true)) 4 9%nat es) [-5; 300; -32768; 65531 - 65536; 5] = [1; 2; 3; 1; 9]%nat /\
  map (linear_lookup true false (bytes_of (CInt 64 false)) 4 9%nat [(2 ^ 32, 1%nat); (0, 2%nat)]) [0; 2 ^ 32; 2 ^ 33] = [2; 1; 9]%nat.
Proof. vm_compute. auto. Qed.

(** ** C125
    Full statement: with never_matcher_validator, the services that cannot be built because of it
    are those with a callback that accepts no message. *)
(** What it rejects has a product term that accepts no message. Missing: matchers with != or [not],
    and callbacks with several product terms, of which the others may accept. *)
Theorem C125_rejected_partial :
  forall (E : Type) (srt : (N -> N) -> list (LookupModel.entry bits) -> list (LookupModel.entry bits)) (ftype : nat -> cty)
    (fld : nat -> E -> Z) (psem : nat -> E -> bool) (fs : list nat) (orig : list (callback leaf)),
  LookupSpec.sorts srt -> (forall f, field_type (ftype f)) -> (forall f e, in_range (ftype f) (fld f e)) ->
  (forall c, In c orig -> positive (Upos ftype) (cb_matcher c)) ->
  (exists ls, bake srt ftype NullValidator fs (indexed_add ftype [] orig) = Some ls) ->
  bake srt ftype NeverValidator fs (indexed_add ftype [] orig) = None ->
  exists c t, In c orig /\ In t (separate_sum_terms leaf_eqb (leaf_implies ftype) leaf_neg c) /\ (forall e, eval (leaf_sem fld psem) (cb_matcher t) e = false) /\
    (length (separate_sum_terms leaf_eqb (leaf_implies ftype) leaf_neg c) = 1%nat -> forall e, eval (leaf_sem fld psem) (cb_matcher c) e = false).
Proof.
  intros E srt ftype fld psem fs orig Hs Ht Hf Hp [ls Hb] Hn.
  assert (Hty : forall f, cty_ok (ftype f)) by (intros f; specialize (Ht f); unfold field_type, cty_ok in *; destruct (ftype f); auto; lia).
  unfold bake in Hb, Hn. destruct (match fs with [] => true | _ => _ end); [|discriminate].
  replace (forallb (fun c => validate NullValidator (remove_terms ftype fs (cb_matcher c))) (indexed_add ftype [] orig)) with true in Hb
    by (symmetry; apply forallb_forall; auto).
  destruct (forallb (fun c => validate NeverValidator (remove_terms ftype fs (cb_matcher c))) (indexed_add ftype [] orig)) eqn:F; [congruence|].
  assert (X : exists t, In t (indexed_add ftype [] orig) /\ validate NeverValidator (remove_terms ftype fs (cb_matcher t)) = false).
  { clear - F. induction (indexed_add ftype [] orig) as [|t l IH]; [discriminate|]. cbn [forallb] in F. apply andb_false_iff in F. destruct F as [F|F].
    - exists t. split; auto. left; auto.
    - destruct IH as (t' & A & B); auto. exists t'. split; auto. right; auto. }
  destruct X as (t & It & V). assert (R : remove_terms ftype fs (cb_matcher t) = Never) by (destruct (remove_terms ftype fs (cb_matcher t)); auto; discriminate).
  unfold indexed_add in It. cbn [app] in It. apply in_flat_map in It. destruct It as (c & Ic & It).
  destruct (terms_positive ftype fld psem Hty Hf c (Hp c Ic)) as [T T']. destruct (T t It) as [P1 P2].
  assert (Q : forall e, eval (leaf_sem fld psem) (cb_matcher t) e = false) by (apply (collapsed_never ftype fld psem Hty Hf fs); auto).
  exists c, t. split; auto. split; auto. split; auto. intros L e. rewrite <- T'. destruct (separate_sum_terms _ _ _ c) as [|t0 [|]]; try discriminate.
  destruct It as [<-|[]]. cbn. rewrite Q. auto.
Qed.
Print Assumptions C125_rejected_partial.
(** (1) A callback that accepts no message is let through. (2) One that accepts a message, by another
    product term, is rejected. (3) One that accepts a message is rejected because != is misjudged. *)
Theorem C125_rejected_refuted :
  (exists c : callback leaf, (forall e : Z, 0 <= e -> eval (leaf_sem byte0 yes) (cb_matcher c) e = false) /\
     exists ls, bake sorter u8 NeverValidator [1%nat] (indexed_add u8 [] [c]) = Some ls) /\
  (exists (c : callback leaf) (e : Z * Z), eval (leaf_sem two_bytes yes2) (cb_matcher c) e = true /\ positive (Upos u8) (cb_matcher c) /\
     (exists ls, bake sorter u8 NullValidator [0%nat] (indexed_add u8 [] [c]) = Some ls) /\
     bake sorter u8 NeverValidator [0%nat] (indexed_add u8 [] [c]) = None) /\
  (exists (c : callback leaf) (e : Z * Z), eval (leaf_sem two_bytes yes2) (cb_matcher c) e = true /\
     length (separate_sum_terms leaf_eqb (leaf_implies u8) leaf_neg c) = 1%nat /\
     (exists ls, bake sorter u8 NullValidator [0%nat] (indexed_add u8 [] [c]) = Some ls) /\
     bake sorter u8 NeverValidator [0%nat] (indexed_add u8 [] [c]) = None).
Proof.
  split; [|split].
  - exists (cbk 1 (Leaf (Rel 0 RLt 0))). split; [intros e He; cbn; unfold byte0; lia|]. eexists. vm_compute. reflexivity.
  - exists (cbk 1 (And (Or (Leaf (Rel 1 RLt 3)) (feq 0 1)) (Or (Leaf (Rel 1 RGt 5)) (pred 0)))), (1, 9).
    split; [reflexivity|]. split; [cbn; unfold Upos, in_range; cbn; unfold in_range; cbn; repeat split; auto; lia|]. split; [eexists|]; vm_compute; reflexivity.
  - exists (cbk 1 (And (And (fne 1 3) (feq 0 1)) (feq 1 5))), (1, 5). split; [reflexivity|]. split; [vm_compute; reflexivity|]. split; [eexists|]; vm_compute; reflexivity.
Qed.
Print Assumptions C125_rejected_refuted.
Example C125_case :
  positive (Upos u8) (And (feq 0 1) (And (Leaf (Rel 1 RLt 3)) (Leaf (Rel 1 RGt 5)))) /\
  (exists ls, bake sorter u8 NullValidator [0%nat] (indexed_add u8 [] [cbk 1 (And (feq 0 1) (And (Leaf (Rel 1 RLt 3)) (Leaf (Rel 1 RGt 5))))]) = Some ls) /\
  bake sorter u8 NeverValidator [0%nat] (indexed_add u8 [] [cbk 1 (And (feq 0 1) (And (Leaf (Rel 1 RLt 3)) (Leaf (Rel 1 RGt 5))))]) = None /\
  (exists ls, bake sorter u8 NeverValidator [0%nat] (indexed_add u8 [] six) = Some ls).
Proof. split; [cbn; unfold Upos, in_range; cbn; unfold in_range; cbn; repeat split; auto; lia|]. split; [eexists; vm_compute; reflexivity|]. split; [vm_compute; reflexivity|]. eexists. vm_compute. reflexivity. Qed.

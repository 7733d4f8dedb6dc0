(** Property theorems for the plain handler (C19) and the indexed handler
    (C20, C21). *)
From Coq Require Import List Bool Arith ZArith Lia.
From Verif Require Import MatchModel MatchSpec MatchProofs FieldMatchersModel FieldMatchersSpec FieldMatchersProofs
  HandlerModel HandlerSpec HandlerProofs IndexedProofs HandlerProofs2.
Import ListNotations.
Local Open Scope Z_scope.

(** ** C19 *)
(** For every leaf vocabulary whose implications and negations tell the truth. *)
Theorem C19_handle :
  forall (L E : Type) (sem : L -> E -> bool) leqb limpl lneg U,
  truthful sem leqb limpl lneg U ->
  forall ds, Forall (decl_leaves U) ds -> forall e,
  let cbs := map (build leqb limpl lneg) ds in
  let r := handle sem cbs e in
  ran (fst r) = map d_id (filter (fun d => accepts sem d e) ds) /\
  snd r = existsb (fun d => accepts sem d e) ds /\
  errors (fst r) = (if existsb (fun d => accepts sem d e) ds then 0 else 1)%nat /\
  is_match sem cbs e = snd r.
Proof. exact (fun L E sem leqb limpl lneg U T ds H e => handle_declared sem leqb limpl lneg U T ds H e). Qed.
Print Assumptions C19_handle.

(** Over field matchers the vocabulary is not truthful (C02), and the property
    fails: a callback for [f != 3] on a message that itself requires [f != 5]
    runs for f = 5. *)
Definition u8 : nat -> cty := fun _ => CInt 8 false.
Definition byte0 : nat -> Z -> Z := fun _ e => e.
Definition yes : nat -> Z -> bool := fun _ _ => true.
Definition feq f v : fexpr := Leaf (Rel f REq v).
Definition fne f v : fexpr := Leaf (Rel f RNe v).
Definition pred p : fexpr := Leaf (Pred p).
Theorem C19_field_refuted :
  exists (d : declaration leaf) (e : Z),
    accepts (leaf_sem byte0 yes) d e = false /\
    ran (fst (handle (leaf_sem byte0 yes) [build leaf_eqb (leaf_implies u8) leaf_neg d] e)) = [d_id d].
Proof.
  exists {| d_id := 7; d_user := Some (fne 0 3); d_fields := [fne 0 5]; d_conds := [] |}, 5.
  vm_compute. auto.
Qed.
Print Assumptions C19_field_refuted.

(** It holds for field matchers when each field is compared by == and != with
    one constant only ... *)
Theorem C19_field_one_constant_partial :
  forall (E : Type) (ftype : nat -> cty) (fld : nat -> E -> Z) (psem : nat -> E -> bool),
  (forall f, cty_ok (ftype f)) -> (forall f e, in_range (ftype f) (fld f e)) ->
  forall (c : nat -> Z) ds,
  Forall (decl_leaves (fun l => leaf_in_range ftype l /\ one_eq_constant c l)) ds -> forall e,
  let cbs := map (build leaf_eqb (leaf_implies ftype) leaf_neg) ds in
  let r := handle (leaf_sem fld psem) cbs e in
  ran (fst r) = map d_id (filter (fun d => accepts (leaf_sem fld psem) d e) ds) /\
  snd r = existsb (fun d => accepts (leaf_sem fld psem) d e) ds /\
  errors (fst r) = (if existsb (fun d => accepts (leaf_sem fld psem) d e) ds then 0 else 1)%nat /\
  is_match (leaf_sem fld psem) cbs e = snd r.
Proof.
  exact (fun E ftype fld psem Ht Hf c ds H e =>
    handle_declared _ _ _ _ _ (truthful_one ftype fld psem Ht Hf c) ds H e).
Qed.
Print Assumptions C19_field_one_constant_partial.

(** ... and for matchers without [not] and != (any constants).  Missing: several
    != constants on one field, which the library merges wrongly. *)
Theorem C19_field_positive_partial :
  forall (E : Type) (ftype : nat -> cty) (fld : nat -> E -> Z) (psem : nat -> E -> bool),
  (forall f, cty_ok (ftype f)) -> (forall f e, in_range (ftype f) (fld f e)) ->
  forall ds, Forall (decl_positive ftype) ds -> forall e,
  let cbs := map (build leaf_eqb (leaf_implies ftype) leaf_neg) ds in
  let r := handle (leaf_sem fld psem) cbs e in
  ran (fst r) = map d_id (filter (fun d => accepts (leaf_sem fld psem) d e) ds) /\
  snd r = existsb (fun d => accepts (leaf_sem fld psem) d e) ds /\
  errors (fst r) = (if existsb (fun d => accepts (leaf_sem fld psem) d e) ds then 0 else 1)%nat /\
  is_match (leaf_sem fld psem) cbs e = snd r.
Proof. exact (@handle_positive). Qed.
Print Assumptions C19_field_positive_partial.

(** Adding callbacks to a builder appends their effects. *)
Theorem C19_builder_add :
  forall (L E : Type) (sem : L -> E -> bool) (a b : list (callback L)) e,
  ran (fst (handle sem (builder_add a b) e)) = ran (fst (handle sem a e)) ++ ran (fst (handle sem b e)) /\
  snd (handle sem (builder_add a b) e) = snd (handle sem a e) || snd (handle sem b e).
Proof. exact (@builder_add_handle). Qed.
Print Assumptions C19_builder_add.

(** Three declared callbacks: f==1 or f==2 under a true condition; f>4; no matcher on a message with f<200. *)
Definition ex_decls : list (declaration leaf) :=
  [ {| d_id := 10; d_user := Some (Or (feq 0 1) (feq 0 2)); d_fields := []; d_conds := [Pred 0] |};
    {| d_id := 11; d_user := Some (Leaf (Rel 0 RGt 4)); d_fields := [Leaf (Rel 0 RLt 9)]; d_conds := [] |};
    {| d_id := 12; d_user := None; d_fields := [Leaf (Rel 0 RLt 200)]; d_conds := [] |} ].
Example C19_case :
  Forall (decl_positive u8) ex_decls /\
  map (fun e => ran (fst (handle (leaf_sem byte0 yes) (map (build leaf_eqb (leaf_implies u8) leaf_neg) ex_decls) e)))
      [2; 5; 100; 200] = [[10; 12]; [11; 12]; [12]; []]%nat /\
  snd (handle (leaf_sem byte0 yes) (map (build leaf_eqb (leaf_implies u8) leaf_neg) ex_decls) 200) = false.
Proof.
  split; [|vm_compute; auto].
  repeat constructor; cbn; unfold in_range; cbn; lia.
Qed.

(** ** C20
    Full statement: for all callbacks, index fields and messages,
    [ran (indexed_handle fs (indexed_add [] orig) e) = ran (handle orig e)].
    It fails in each of the following ways. *)
Definition cbk i m : callback leaf := {| cb_id := i; cb_matcher := m |}.
Notation idx_ran fs orig psem e :=
  (ran (fst (indexed_handle u8 byte0 psem fs (indexed_add u8 [] orig) e))).
Notation plain_ran orig psem e := (ran (fst (handle (leaf_sem byte0 psem) orig e))).

(** (1) A callback with an [or] runs once per matching product term. *)
Theorem C20_sum_runs_twice_refuted :
  exists (orig : list (callback leaf)) (psem : nat -> Z -> bool) e,
    plain_ran orig psem e = [1%nat] /\ idx_ran [0%nat] orig psem e = [1; 1]%nat.
Proof. exists [cbk 1 (Or (feq 0 3) (pred 0))], yes, 3. vm_compute. auto. Qed.
Print Assumptions C20_sum_runs_twice_refuted.

(** (2) A negated predicate loses its negation: the callback runs when the
    predicate is true and not when it is false. *)
Theorem C20_negation_dropped_refuted :
  exists (orig : list (callback leaf)) (psem : nat -> Z -> bool) e,
    plain_ran orig psem e = [] /\ idx_ran [0%nat] orig psem e = [1%nat] /\
    plain_ran orig (fun _ _ => false) e = [1%nat] /\ idx_ran [0%nat] orig (fun _ _ => false) e = [].
Proof. exists [cbk 1 (And (feq 0 3) (Not (pred 0)))], yes, 3. vm_compute. auto. Qed.
Print Assumptions C20_negation_dropped_refuted.

(** (3) Two callbacks for [f != 3]: the first runs for f = 3. *)
Theorem C20_shared_negative_refuted :
  exists (orig : list (callback leaf)) (psem : nat -> Z -> bool) e,
    plain_ran orig psem e = [] /\ idx_ran [0%nat] orig psem e = [1%nat].
Proof. exists [cbk 1 (fne 0 3); cbk 2 (fne 0 3)], yes, 3. vm_compute. auto. Qed.
Print Assumptions C20_shared_negative_refuted.

(** (4) A product term with two different == on one indexed field (produced by
    distribution) runs for either value. *)
Theorem C20_two_equals_refuted :
  exists (orig : list (callback leaf)) (psem : nat -> Z -> bool) e,
    plain_ran orig psem e = [] /\ idx_ran [0%nat] orig psem e = [1%nat].
Proof.
  exists [cbk 1 (And (Or (feq 0 3) (pred 0)) (Or (feq 0 4) (pred 1)))], (fun _ _ => false), 3. vm_compute. auto.
Qed.
Print Assumptions C20_two_equals_refuted.

(** (5) Without index fields nothing is ever dispatched. *)
Theorem C20_no_index_refuted :
  exists (orig : list (callback leaf)) (psem : nat -> Z -> bool) e,
    plain_ran orig psem e = [1%nat] /\ idx_ran [] orig psem e = [].
Proof. exists [cbk 1 (feq 0 3)], yes, 3. vm_compute. auto. Qed.
Print Assumptions C20_no_index_refuted.

(** Outside those cases it holds.  First, matchers built with [and] and [or]
    from ==, <, <=, >, >= and predicates (missing: [not], !=, and callbacks whose
    product terms compare an indexed field with two constants): each callback
    runs once per product term that holds, so exactly the matching callbacks
    run, and the handlers agree completely when every matcher is a single
    product. *)
Theorem C20_positive_partial :
  forall (E : Type) (ftype : nat -> cty) (fld : nat -> E -> Z) (psem : nat -> E -> bool),
  (forall f, cty_ok (ftype f)) -> (forall f e, in_range (ftype f) (fld f e)) ->
  forall fs orig e,
  fs <> [] ->
  (forall c, In c orig -> positive (Upos ftype) (cb_matcher c)) ->
  (forall c t f v w, In c orig -> In t (separate_sum_terms leaf_eqb (leaf_implies ftype) leaf_neg c) -> In f fs ->
     In (Rel f REq v) (leaves (cb_matcher t)) -> In (Rel f REq w) (leaves (cb_matcher t)) -> v = w) ->
  let r := indexed_handle ftype fld psem fs (indexed_add ftype [] orig) e in
  ran (fst r) = flat_map (fun c => repeat (cb_id c) (hits ftype fld psem c e)) orig /\
  (forall c, In c orig -> (hits ftype fld psem c e = 0)%nat <-> eval (leaf_sem fld psem) (cb_matcher c) e = false) /\
  snd r = snd (handle (leaf_sem fld psem) orig e) /\
  errors (fst r) = errors (fst (handle (leaf_sem fld psem) orig e)) /\
  ((forall c, In c orig -> length (separate_sum_terms leaf_eqb (leaf_implies ftype) leaf_neg c) = 1%nat) ->
   ran (fst r) = ran (fst (handle (leaf_sem fld psem) orig e))).
Proof. exact (@indexed_positive). Qed.
Print Assumptions C20_positive_partial.

(** Second, matchers that may use [not] and != on relational matchers: product
    terms free of negated predicates, and clean indices (one == or one != per
    term and indexed field, no != shared between terms). *)
Theorem C20_clean_partial :
  forall (E : Type) (ftype : nat -> cty) (fld : nat -> E -> Z) (psem : nat -> E -> bool),
  (forall f, cty_ok (ftype f)) -> (forall f e, in_range (ftype f) (fld f e)) ->
  forall (c0 : nat -> Z) fs orig e,
  fs <> [] ->
  (forall c, In c orig -> all_leaves (Uone ftype c0) (cb_matcher c)) ->
  (forall c t, In c orig -> In t (separate_sum_terms leaf_eqb (leaf_implies ftype) leaf_neg c) ->
     conj_of_leaves (cb_matcher t)) ->
  (forall f, In f fs -> index_clean f (map cb_matcher (indexed_add ftype [] orig))) ->
  let r := indexed_handle ftype fld psem fs (indexed_add ftype [] orig) e in
  ran (fst r) = flat_map (fun c => repeat (cb_id c) (hits ftype fld psem c e)) orig /\
  (forall c, In c orig -> (hits ftype fld psem c e = 0)%nat <-> eval (leaf_sem fld psem) (cb_matcher c) e = false) /\
  snd r = snd (handle (leaf_sem fld psem) orig e) /\
  errors (fst r) = errors (fst (handle (leaf_sem fld psem) orig e)) /\
  ((forall c, In c orig -> length (separate_sum_terms leaf_eqb (leaf_implies ftype) leaf_neg c) = 1%nat) ->
   ran (fst r) = ran (fst (handle (leaf_sem fld psem) orig e))).
Proof. exact (@indexed_general). Qed.
Print Assumptions C20_clean_partial.

(** The index itself, for any number of terms and any mix of == and !=: a term
    that accepts the message is always a candidate ... *)
Theorem C20_index_complete :
  forall (E : Type) (fld : nat -> E -> Z) (psem : nat -> E -> bool) fs cbs e i c,
  fs <> [] -> Forall (fun c => conj_of_literals (cb_matcher c)) cbs ->
  nth_error cbs i = Some c -> eval (leaf_sem fld psem) (cb_matcher c) e = true ->
  candidates fld fs cbs e i = true.
Proof. exact (fun E => @candidates_complete E u8). Qed.
Print Assumptions C20_index_complete.
(** ... and on a clean index no other is. *)
Theorem C20_index_exact :
  forall f ms v i m,
  Forall conj_of_literals ms -> index_clean f ms -> nth_error ms i = Some m ->
  index_lookup (build_index f ms) v i = true ->
  (forall k, In (Rel f REq k) (leaves m) -> k = v) /\
  (forall k, In (Rel f RNe k) (leaves m) -> k <> v).
Proof. exact build_index_exact. Qed.
Print Assumptions C20_index_exact.

(** Callbacks on fields 0 (indexed) and 1: mixed ==, !=, <. *)
Definition two_bytes : nat -> Z * Z -> Z := fun f e => if Nat.eqb f 0 then Z.modulo (fst e) 256 else Z.modulo (snd e) 256.
Definition yes2 : nat -> Z * Z -> bool := fun _ _ => true.
Definition ex_indexed : list (callback leaf) :=
  [ cbk 1 (And (feq 0 3) (Leaf (Rel 1 RLt 10))); cbk 2 (fne 0 3); cbk 3 (Leaf (Rel 1 RGt 5)); cbk 4 (feq 0 3) ].
Example C20_case :
  (forall c, In c ex_indexed -> all_leaves (Uone u8 (fun _ => 3)) (cb_matcher c)) /\
  (forall f, In f [0%nat] -> index_clean f (map cb_matcher (indexed_add u8 [] ex_indexed))) /\
  map (fun e => ran (fst (indexed_handle u8 two_bytes yes2 [0%nat] (indexed_add u8 [] ex_indexed) e)))
      [(3, 4); (3, 20); (7, 1); (8, 9)] = [[1; 4]; [3; 4]; [2]; [2; 3]]%nat.
Proof.
  split; [|split; [|vm_compute; auto]].
  - intros c Hc. cbn in Hc. repeat destruct Hc as [<-|Hc]; try contradiction;
      cbn; unfold Uone, in_range; cbn; unfold in_range; cbn; repeat split; auto; lia.
  - intros f [<-|[]].
    replace (map cb_matcher (indexed_add u8 [] ex_indexed))
      with [And (feq 0 3) (Leaf (Rel 1 RLt 10)); fne 0 3; Leaf (Rel 1 RGt 5); feq 0 3] by (vm_compute; reflexivity).
    split.
    + intros m v w Hm. cbn in Hm. repeat destruct Hm as [<-|Hm]; try contradiction; cbn; intuition congruence.
    + intros m v w Hm. cbn in Hm. repeat destruct Hm as [<-|Hm]; try contradiction; cbn; intuition congruence.
    + intros m v w Hm. cbn in Hm. repeat destruct Hm as [<-|Hm]; try contradiction; cbn; intuition congruence.
    + assert (H : forall i m v, nth_error [And (feq 0 3) (Leaf (Rel 1 RLt 10)); fne 0 3; Leaf (Rel 1 RGt 5); feq 0 3] i = Some m ->
        In (Rel 0 RNe v) (leaves m) -> i = 1%nat).
      { intros [|[|[|[|i]]]] m v; cbn; try (intros [= <-]; cbn; intuition congruence). destruct i; discriminate. }
      intros i j m m' v Hi Hj Hv Hw. rewrite (H i m v), (H j m' v); auto.
Qed.

(** ** C21 *)
Theorem C21_is_match_never_misses :
  forall (E : Type) (ftype : nat -> cty) (fld : nat -> E -> Z) (psem : nat -> E -> bool) fs cbs e,
  snd (indexed_handle ftype fld psem fs cbs e) = true -> indexed_is_match fld fs cbs e = true.
Proof. exact (@handled_is_match). Qed.
Print Assumptions C21_is_match_never_misses.
(** Nor does it miss a message that a callback's own matcher accepts. *)
Theorem C21_is_match_complete :
  forall (E : Type) (fld : nat -> E -> Z) (psem : nat -> E -> bool) fs cbs e c,
  fs <> [] -> Forall (fun c => conj_of_literals (cb_matcher c)) cbs ->
  In c cbs -> eval (leaf_sem fld psem) (cb_matcher c) e = true ->
  indexed_is_match fld fs cbs e = true.
Proof. exact (fun E => @is_match_complete E u8). Qed.
Print Assumptions C21_is_match_complete.
Example C21_case :
  indexed_is_match two_bytes [0%nat] (indexed_add u8 [] ex_indexed) (3, 4) = true /\
  snd (indexed_handle u8 two_bytes yes2 [0%nat] (indexed_add u8 [] ex_indexed) (3, 4)) = true /\
  indexed_is_match two_bytes [0%nat] (indexed_add u8 [] [cbk 1 (feq 0 3)]) (4, 4) = false.
Proof. vm_compute. auto. Qed.

(** Theorems C126 to C130: what a service is given, and what conditions and callables
    get to see of it. *)
From Coq Require Import List NArith ZArith Bool Arith Lia ZifyBool ZifyN ZifyNat.
From Verif Require Import FieldModel FieldSpec FieldProofs2 MatchModel MatchSpec MatchProofs FieldMatchersModel FieldMatchersSpec FieldMatchersProofs MessageModel MessageSpec MessageProofs MessageProps AccessModel AccessSpec AccessProofs AccessProofs2 AccessProofs3 AccessProofs4 HandlerModel HandlerSpec IndexedProofs HandlerProps CallModel CallSpec CallProofs CallProofs2 CallProofs3.
Import ListNotations.
Local Open Scope N_scope.

Lemma tables_names es ftab ftype dtab : tables_good es ftab ftype dtab -> forall d, NoDup (map f_name (fields_of ftab dtab d)).
Proof. intros (_ & _ & H) d. apply (H d). Qed.

(** ** C126: conditions are about the fields of the message *)
(** However the data comes (array, owner, const or mutable view), whatever the
    predicates in it take, the condition of a callback is evaluated without going out
    of bounds, and is the condition on the values of the fields in the storage. *)
Theorem C126_conditions : forall es ftab ftype dtab pkind psem d m t st r,
  tables_good es ftab ftype dtab -> suits es ftab dtab d t st -> about es ftab dtab pkind psem d m ->
  test es ftab ftype dtab pkind psem d m t st = Some r -> r = Done (holds_on es ftab ftype psem m st).
Proof.
  intros es ftab ftype dtab pkind psem d m t st r HT Hs Ha Ht. pose proof HT as (He & Hft & _).
  eapply test_holds; eauto. eapply tables_names; eauto.
Qed.
Print Assumptions C126_conditions.
(** A condition on fields alone, asked of an owner of a message: it compiles exactly if the message
    has a field of the name of each, that fits the storage. *)
Theorem C126_fields : forall es ftab ftype dtab pkind psem d d' n m st, preds m = [] -> length st = n ->
  test es ftab ftype dtab pkind psem d m (TOwner d' n) st <> None <->
  forall f, In f (rels m) -> exists g, find (fun g => Nat.eqb (f_name g) (f_name (ftab f))) (map ftab (dtab d')) = Some g /\
    field_fits (es * N.of_nat n) (f_locs g) = true.
Proof.
  intros es ftab ftype dtab pkind psem d d' n m st Hp Hn.
  unfold test, way. cbn [find type_as]. unfold matcher_takes at 1. rewrite Hp. cbn [forallb pass type_as given event_of vars].
  unfold span_of. cbn [heap h_store nth_error option_map h_extent given]. unfold given. cbv beta iota delta [option_map]. rewrite firstn_all2 by lia. rewrite andb_true_r.
  destruct (forallb (readable es ftab (Message (dtab d') st)) (rels m)) eqn:E.
  - split; [intros _ f Hf|intros _; discriminate]. rewrite forallb_forall in E. specialize (E f Hf). cbn [readable] in E.
    unfold m_get, find_field in E. unfold has_name in E. destruct (find _ (map ftab (dtab d'))) as [g|] eqn:G; [|discriminate].
    rewrite Hn in E. exists g. split; [first [exact G|reflexivity]|]. destruct (field_fits _ _); [reflexivity|discriminate].
  - split; [congruence|]. intros H. exfalso. assert (X : forallb (readable es ftab (Message (dtab d') st)) (rels m) = true); [|congruence].
    apply forallb_forall. intros f Hf. destruct (H f Hf) as (g & G & F). cbn [readable]. unfold m_get, find_field, has_name. rewrite G, Hn, F. reflexivity.
Qed.
Print Assumptions C126_fields.

(** Field 0 and its copy 2 at another place have the same name; message 0 has fields
    0 and 1, message 1 has fields 2 and 1. *)
Definition ex_ftab (i : nat) : mfield :=
  match i with
  | 1%nat => {| f_name := 1; f_bytes := 2; f_default := DDefault 0; f_match := Always; f_ats := [at_dword 0 31 16] |}
  | 2%nat => {| f_name := 0; f_bytes := 1; f_default := DDefault 0; f_match := Always; f_ats := [at_dword 0 15 8] |}
  | _ => {| f_name := 0; f_bytes := 1; f_default := DDefault 0; f_match := Always; f_ats := [at_dword 0 7 0] |}
  end.
Definition ex_ftype (i : nat) : cty := match i with 1%nat => CInt 16 false | _ => CInt 8 false end.
Definition ex_dtab (d : nat) : list nat := match d with O => [0%nat; 1%nat] | 1%nat => [2%nat; 1%nat] | _ => [] end.
(** Predicate 0 takes a view of message 0, predicate 1 an owner of it, predicate 2
    anything; they say whether the fields are equal, field 1 is even, field 1 is odd. *)
Definition ex_pkind (p : nat) : param := match p with O => PView 0 1 false | 1%nat => POwner 0 1 | _ => PAny end.
Definition ex_psem (p : nat) (v : nat -> Z) : bool :=
  match p with O => Z.eqb (v 0%nat) (v 1%nat) | 1%nat => Z.even (v 1%nat) | _ => Z.odd (v 1%nat) end.
Lemma ex_good : tables_good 32 ex_ftab ex_ftype ex_dtab.
Proof.
  split; [auto|]. split.
  - intros [|[|[|i]]]; (split; [reflexivity|split; [reflexivity|reflexivity]]).
  - assert (H1 : forall l, disjoint_locs [l]) by (intros l; split; [intros k _ (x & [] & _)|exact I]).
    assert (HF : forall i, field_good (ex_ftab i)).
    { intros [|[|[|i]]]; (split; [reflexivity|]; split; [apply H1|cbn; intros v E; injection E as <-; reflexivity]). }
    intros [|[|d]].
    + split; [cbn; repeat constructor; cbn; intuition congruence|]. split; [apply Forall_forall; intros f Hf; apply in_map_iff in Hf as (i & <- & _); apply HF|].
      intros f g [<-|[<-|[]]] [<-|[<-|[]]] Hne k Hk1 Hk2; try (cbn in Hne; congruence);
        covers_at Hk1; covers_at Hk2; destruct Hk1 as (a & Ha & H3), Hk2 as (b & Hb & H4);
        repeat match goal with H : _ \/ _ |- _ => destruct H | H : False |- _ => destruct H end; subst; cbn in H3, H4; lia.
    + split; [cbn; repeat constructor; cbn; intuition congruence|]. split; [apply Forall_forall; intros f Hf; apply in_map_iff in Hf as (i & <- & _); apply HF|].
      intros f g [<-|[<-|[]]] [<-|[<-|[]]] Hne k Hk1 Hk2; try (cbn in Hne; congruence);
        covers_at Hk1; covers_at Hk2; destruct Hk1 as (a & Ha & H3), Hk2 as (b & Hb & H4);
        repeat match goal with H : _ \/ _ |- _ => destruct H | H : False |- _ => destruct H end; subst; cbn in H3, H4; lia.
    + split; [constructor|]. split; [constructor|]. intros f g [].
Qed.
Lemma ex_fit d n : (1 <= n)%nat -> fields_fit (32 * N.of_nat n) (fields_of ex_ftab ex_dtab d).
Proof.
  intros Hn f Hf l Hl. assert (Hb : 32 <= 32 * N.of_nat n) by lia. eapply N.le_trans; [|exact Hb]. clear Hb Hn. destruct d as [|[|d]]; cbn in Hf; [| |contradiction];
    destruct Hf as [<-|[<-|[]]]; cbn in Hl; destruct Hl as [<-|[]]; vm_compute; discriminate.
Qed.
(** Message 1 has field 0 by its name, message 2 has none; in no elements nothing fits. *)
Example C126_fields_case : let m := And (Leaf (Rel 0 REq 5%Z)) (Not (Leaf (Rel 1 RLt 5%Z))) in
  test 32 ex_ftab ex_ftype ex_dtab ex_pkind ex_psem 0 m (TOwner 1 1) [0x60500] = Some (Done true) /\
  test 32 ex_ftab ex_ftype ex_dtab ex_pkind ex_psem 0 m (TOwner 2 1) [0x60500] = None /\
  test 32 ex_ftab ex_ftype ex_dtab ex_pkind ex_psem 0 m (TOwner 1 0) [] = None.
Proof. vm_compute. auto. Qed.
Definition ex_cond : fexpr := And (Leaf (Rel 0 REq 5%Z)) (And (Leaf (Pred 1)) (Not (Leaf (Pred 2)))).
Definition ex_test := test 32 ex_ftab ex_ftype ex_dtab ex_pkind ex_psem.
(** A predicate that takes an owner makes the whole condition get an owner, copied
    from the array; one that takes a view, a view. *)
Example C126_case :
  suits 32 ex_ftab ex_dtab 0 (TArray 1) [0x20005] /\ about 32 ex_ftab ex_dtab ex_pkind ex_psem 0 ex_cond /\
  way 32 ex_ftab ex_dtab 0 (matcher_takes ex_pkind ex_cond) (TArray 1) = Some AsOwner /\
  ex_test 0%nat ex_cond (TArray 1) [0x20005] = Some (Done true) /\ ex_test 0%nat ex_cond (TArray 1) [0x30005] = Some (Done false) /\
  way 32 ex_ftab ex_dtab 0 (matcher_takes ex_pkind (Leaf (Pred 0))) (TOwner 0 2) = Some AsIs /\
  way 32 ex_ftab ex_dtab 0 (matcher_takes ex_pkind (Leaf (Pred 0))) (TArray 2) = Some AsIs /\
  ex_test 0%nat (Leaf (Pred 0)) (TArray 2) [0x70007; 1] = Some (Done true) /\
  (* an owner of the view, of which a view is taken *)
  ex_test 0%nat (And (Leaf (Pred 1)) (Leaf (Pred 0))) (TView 0 1 false) [0x80008] = Some (Done true).
Proof.
  split; [split; [constructor; [reflexivity|constructor]|split; [reflexivity|apply ex_fit; lia]]|]. split.
  { split.
    - intros f Hf. cbn in Hf. destruct Hf as [<-|[]]. left. auto.
    - intros p Hp. cbn in Hp. destruct Hp as [<-|[<-|[]]]; cbn.
      + split; [split; [reflexivity|apply (ex_fit 0 1); lia]|]. intros v w H. cbn. rewrite (H 1%nat); auto. right. left. auto.
      + split; [exact I|]. intros v w H. cbn. rewrite (H 1%nat); auto. right. left. auto. }
  vm_compute. auto 10.
Qed.
(** The fields must be the message's own: field 0 is not message 1's, which has its
    name for another.  What is compared then depends on how the data comes. *)
Example C126_needed :
  ex_test 1%nat (Leaf (Rel 0 REq 5%Z)) (TArray 1) [0x0705] = Some (Done true) /\
  ex_test 1%nat (Leaf (Rel 0 REq 5%Z)) (TView 1 1 false) [0x0705] = Some (Done false).
Proof. vm_compute. auto. Qed.

(** ** C127: callables see the fields of their message *)
(** A callable whose parameter is a message - a view or an owner of any sufficient
    size, [auto], [viewlike auto], [owninglike auto], of operator() or of its template -
    reads from it the values in the storage. *)
Theorem C127_sees : forall es ftab ftype dtab d c t st saw st' templ p w u is_ k,
  tables_good es ftab ftype dtab -> suits es ftab dtab d t st ->
  choose es ftab dtab d c t = Some (templ, p, w) -> type_as es ftab dtab d w t = Some u -> param_for es ftab dtab d p ->
  (forall n, param_type p u <> TArray n) -> (forall i, In i is_ -> In i (dtab d)) ->
  c_body c templ = reading (map (fun i => f_name (ftab i)) is_) k ->
  call es ftab dtab d c t st = Some (Done (saw, st')) ->
  exists rest, saw = map (fun i => Value (value_in es st (ftab i))) is_ ++ rest.
Proof.
  intros es ftab ftype dtab d c t st saw st' templ p w u is_ k HT. pose proof HT as (He & Hft & _).
  eapply (call_sees es ftab ftype dtab (fun _ => PAny) (fun _ _ => true)); eauto. eapply tables_names; eauto.
Qed.
Print Assumptions C127_sees.
(** One that takes the array it is given as [auto] has a copy of the data. *)
Theorem C127_array : forall es ftab ftype dtab d c t st saw st' templ p w n is_ k,
  tables_good es ftab ftype dtab -> suits es ftab dtab d t st ->
  choose es ftab dtab d c t = Some (templ, p, w) -> type_as es ftab dtab d w t = Some (TArray n) -> p = PAny ->
  (forall i, In i is_ -> In i (dtab d)) ->
  c_body c templ = Then (View (fields_of ftab dtab d) n false (FromArray 1) []) (fun _ => reading (map (fun i => f_name (ftab i)) is_) k) ->
  call es ftab dtab d c t st = Some (Done (saw, st')) ->
  exists rest, saw = map (fun i => Value (value_in es st (ftab i))) is_ ++ rest.
Proof.
  intros es ftab ftype dtab d c t st saw st' templ p w n is_ k HT. pose proof HT as (He & Hft & _).
  eapply (call_array es ftab ftype dtab (fun _ => PAny) (fun _ _ => true)); eauto. eapply tables_names; eauto.
Qed.
Print Assumptions C127_array.
(** Which way of handing the data over is taken, or that none is. *)
Theorem C127_way : forall es ftab dtab d t st p, suits es ftab dtab d t st ->
  way es ftab dtab d (accepts p) t = offered d (N.to_nat (storage_size es (fields_of ftab dtab d))) t p.
Proof.
  intros es ftab dtab d t st p [_ Hs]. unfold way, type_as, view_type, owner_type, def, fields_of. cbn [find].
  assert (Sy : forall a b, Nat.eqb a b = Nat.eqb b a) by (intros; apply Nat.eqb_sym).
  destruct t as [n|d' n m|d' n]; [|destruct Hs as [-> _]|destruct Hs as [-> _]]; rewrite ?Nat.eqb_refl; destruct p as [k|e k m'|e k| | |]; cbn [accepts offered]; try reflexivity.
  all: try (destruct (Nat.eqb e d) eqn:Ed; cbn [andb]; try reflexivity).
  all: try (destruct (Nat.eqb k n) eqn:E; try reflexivity).
  all: try destruct m; try destruct m'; cbn [andb orb negb Bool.eqb]; try reflexivity.
  all: try (apply Nat.eqb_eq in E; subst; rewrite ?Nat.leb_refl; reflexivity).
  all: try (destruct (Nat.leb k n); reflexivity).
  all: try (destruct (Nat.eqb k _); reflexivity).
Qed.
Print Assumptions C127_way.
(** Getting there never goes out of bounds. *)
Theorem C127_enters : forall es ftab ftype dtab d p w t st o,
  tables_good es ftab ftype dtab -> suits es ftab dtab d t st -> param_for es ftab dtab d p ->
  way es ftab dtab d (accepts p) t = Some w -> entered es ftab dtab d p w t st = Some o -> exists s, o = Done s.
Proof.
  intros es ftab ftype dtab d p w t st o HT Hs Hp Hw He'. pose proof HT as (He & Hft & _).
  destruct (entered_good es He ftab ftype Hft dtab (fun _ => PAny) (fun _ _ => true) d p w t st o Hs Hp Hw He') as (s & u & -> & _). eauto.
Qed.
Print Assumptions C127_enters.
Definition reads_both (p : option param) (q : option param) : callable :=
  {| c_plain := p; c_templ := q; c_body := fun templ => reading (if templ then [1; 0] else [0; 1])%nat (fun _ => Stop) |}.
Definition ex_call := call 32 ex_ftab ex_dtab.
Example C127_case :
  (* a view of an array; an owner of a view; the template, when the other does not take it *)
  choose 32 ex_ftab ex_dtab 0 (reads_both (Some (PView 0 1 false)) None) (TArray 2) = Some (false, PView 0 1 false, AsIs) /\
  ex_call 0%nat (reads_both (Some (PView 0 1 false)) None) (TArray 2) [0xABCD12; 9] = Some (Done ([Value 0x12; Value 0xAB], [0xABCD12; 9])) /\
  choose 32 ex_ftab ex_dtab 0 (reads_both (Some PAnyOwner) None) (TView 0 2 false) = Some (false, PAnyOwner, AsOwner) /\
  ex_call 0%nat (reads_both (Some PAnyOwner) None) (TView 0 2 false) [0xABCD12; 9] = Some (Done ([Value 0x12; Value 0xAB], [0xABCD12; 9])) /\
  choose 32 ex_ftab ex_dtab 0 (reads_both (Some (POwner 0 3)) (Some PAnyView)) (TArray 2) = Some (true, PAnyView, AsView) /\
  ex_call 0%nat (reads_both (Some (POwner 0 3)) (Some PAnyView)) (TArray 2) [0xABCD12; 9] = Some (Done ([Value 0xAB; Value 0x12], [0xABCD12; 9])) /\
  (* an owner larger than the one made from the array: none fits *)
  ex_call 0%nat (reads_both (Some (POwner 0 3)) None) (TArray 2) [0xABCD12; 9] = None.
Proof. vm_compute. repeat split. Qed.

(** ** C128: const data stays as it is *)
Lemma const_writable t : given_const t -> writable t = false.
Proof. destruct t as [|? ? []|]; cbn; congruence. Qed.
(** A service given an array, an owner or a const view: whatever the callables do with
    their parameters (copies of their own, owners, views), what was given is the same
    at the end, and each callable is called once if its condition holds of it. *)
Theorem C128_plain : forall es ftab ftype dtab pkind psem t ks st evs st' b,
  tables_good es ftab ftype dtab -> given_const t ->
  (forall k, In k ks -> suits es ftab dtab (k_msg k) t st /\ about es ftab dtab pkind psem (k_msg k) (k_matcher k)) ->
  serve es ftab ftype dtab pkind psem t ks st = Some (Done (evs, st', b)) ->
  st' = st /\ called evs = map k_id (filter (fun k => holds_on es ftab ftype psem (k_matcher k) st) ks) /\
  b = existsb (fun k => holds_on es ftab ftype psem (k_matcher k) st) ks /\ complaints evs = (if b then 0 else 1)%nat /\
  forall i saw, In (Called i saw) evs -> exists k, In k ks /\ k_id k = i /\ holds_on es ftab ftype psem (k_matcher k) st = true /\
    call es ftab dtab (k_msg k) (k_call k) t st = Some (Done (saw, st)).
Proof.
  intros es ftab ftype dtab pkind psem t ks st evs st' b HT Hw Hks E. pose proof HT as (He & Hft & _).
  exact (serve_const es ftab ftype dtab pkind psem He Hft (tables_names _ _ _ _ HT) t ks st evs st' b (const_writable _ Hw) Hks E).
Qed.
Print Assumptions C128_plain.
(** The same of each call alone: no conditions on definitions, fields or parameters. *)
Theorem C128_call : forall es ftab dtab d c t st saw st', given_const t ->
  call es ftab dtab d c t st = Some (Done (saw, st')) -> st' = st.
Proof. intros es ftab dtab d c t st saw st' Hw E. exact (call_const es ftab (fun _ => CBool) dtab d c t st saw st' (const_writable _ Hw) E). Qed.
Print Assumptions C128_call.
Theorem C128_indexed : forall es ftab ftype dtab pkind psem fs t ks st evs st' b,
  tables_good es ftab ftype dtab -> given_const t -> (forall f, In f fs -> within es ftab t f) ->
  (forall k, In k ks -> suits es ftab dtab (k_msg k) t st /\ about es ftab dtab pkind psem (k_msg k) (k_matcher k)) ->
  serve_indexed es ftab ftype dtab pkind psem fs t ks st = Some (Done (evs, st', b)) -> st' = st.
Proof.
  intros es ftab ftype dtab pkind psem fs t ks st evs st' b HT Hw Hf Hks E. pose proof HT as (He & Hft & _).
  eapply (indexed_const es ftab ftype dtab pkind psem He Hft (tables_names _ _ _ _ HT) fs t _ st evs st' b (const_writable _ Hw) Hf); [|exact E].
  intros k Hk. apply in_flat_map in Hk as (k0 & Hk0 & Hk). destruct (Hks k0 Hk0) as [Hs Ha].
  destruct (split_about es ftab ftype dtab pkind psem k0 k Ha Hk) as [-> Ha']. auto.
Qed.
Print Assumptions C128_indexed.
(** A callable that sets fields of the owner it has, through a view of it. *)
Definition scribbles (p : param) : callable :=
  {| c_plain := Some p; c_templ := None; c_body := fun _ => Then (Set_ 0 [(0%nat, 0xEE)]) (fun _ => reading [0%nat] (fun _ => Stop)) |}.
Definition entry_of (id : nat) (m : fexpr) (c : callable) : entry := {| k_id := id; k_msg := 0; k_matcher := m; k_call := c |}.
Definition ex_serve := serve 32 ex_ftab ex_ftype ex_dtab ex_pkind ex_psem.
Example C128_case :
  ex_serve (TArray 1) [entry_of 1 (Leaf (Rel 0 REq 5%Z)) (scribbles PAnyOwner); entry_of 2 (Leaf (Rel 0 REq 6%Z)) (scribbles PAnyOwner);
    entry_of 3 (Leaf (Rel 0 REq 5%Z)) (reads_both (Some PAnyView) None)] [0x20005] =
  Some (Done ([Called 1 [Value 0xEE]; Called 3 [Value 5; Value 2]], [0x20005], true)) /\
  (* a const view cannot be set *)
  ex_serve (TArray 1) [entry_of 1 (Leaf (Rel 0 REq 5%Z)) (scribbles PAnyView)] [0x20005] = None /\
  ex_serve (TArray 1) [entry_of 1 (Leaf (Rel 0 REq 6%Z)) (scribbles PAnyOwner)] [0x20005] = Some (Done ([Unclaimed; Mismatch 1], [0x20005], false)).
Proof. vm_compute. auto. Qed.
(** Given a mutable view, a callable does change what was given. *)
Example C128_needed :
  ex_serve (TView 0 1 true) [entry_of 1 (Leaf (Rel 0 REq 5%Z)) (scribbles PAnyView)] [0x20005] = Some (Done ([Called 1 [Value 0xEE]], [0x200EE], true)).
Proof. vm_compute. auto. Qed.

(** ** C129: callables run on messages that satisfy their conditions *)
(** Given anything - a mutable view too: the callables of a plain service in turn,
    each called exactly if its condition holds of what those before it left. *)
Theorem C129_plain_partial : forall es ftab ftype dtab pkind psem t ks st evs st' b,
  tables_good es ftab ftype dtab -> storage_ok es st ->
  (forall k, In k ks -> entry_for es ftab dtab pkind psem t st k) ->
  serve es ftab ftype dtab pkind psem t ks st = Some (Done (evs, st', b)) ->
  exists evs0, turns es ftab ftype psem (fun k x saw y => call es ftab dtab (k_msg k) (k_call k) t x = Some (Done (saw, y))) ks st evs0 st' /\
    b = (match called evs0 with [] => false | _ => true end) /\
    evs = evs0 ++ (if b then [] else Unclaimed :: map (fun k => Mismatch (k_id k)) ks).
Proof.
  intros es ftab ftype dtab pkind psem t ks st evs st' b HT Ho Hks E. pose proof HT as (He & Hft & Hg).
  exact (serve_turns es ftab ftype dtab pkind psem He Hft (tables_names _ _ _ _ HT) t ks st evs st' b Hg Hks Ho E).
Qed.
Print Assumptions C129_plain_partial.
(** An indexed service finds the candidates once and drops the indexed conditions: the
    second callable runs on a message whose field is 6, not 5. *)
Definition sets_six : callable :=
  {| c_plain := Some (PView 0 1 true); c_templ := None; c_body := fun _ => Then (Set_ 0 [(0%nat, 6)]) (fun _ => Stop) |}.
Definition two_fives : list entry :=
  [entry_of 1 (Leaf (Rel 0 REq 5%Z)) sets_six; entry_of 2 (Leaf (Rel 0 REq 5%Z)) (reads_both (Some PAnyView) None)].
Lemma turns_inv es ftab ftype psem what k r st evs st' : turns es ftab ftype psem what (k :: r) st evs st' ->
  holds_on es ftab ftype psem (k_matcher k) st = false /\ turns es ftab ftype psem what r st evs st' \/
  holds_on es ftab ftype psem (k_matcher k) st = true /\ exists saw st1 evs1, evs = Called (k_id k) saw :: evs1 /\ what k st saw st1 /\ turns es ftab ftype psem what r st1 evs1 st'.
Proof. intros H. inversion H; subst; [left; auto|right]. split; auto. eexists _, _, _. split; [reflexivity|]. eauto. Qed.
Theorem C129_indexed_refuted : exists fs t ks st evs st' b,
  serve_indexed 32 ex_ftab ex_ftype ex_dtab ex_pkind ex_psem fs t ks st = Some (Done (evs, st', b)) /\
  (forall k, In k ks -> entry_for 32 ex_ftab ex_dtab ex_pkind ex_psem t st k) /\
  ~ exists evs0, turns 32 ex_ftab ex_ftype ex_psem (fun k x saw y => call 32 ex_ftab ex_dtab (k_msg k) (k_call k) t x = Some (Done (saw, y))) ks st evs0 st' /\
    called evs0 = called evs.
Proof.
  exists [0%nat], (TView 0 1 true), two_fives, [0x20005], [Called 1 []; Called 2 [Value 6; Value 2]], [0x20006], true.
  split; [vm_compute; reflexivity|]. split.
  - assert (Hs : suits 32 ex_ftab ex_dtab 0 (TView 0 1 true) [0x20005]).
    { split; [constructor; [reflexivity|constructor]|]. split; [reflexivity|]. split; [cbn; lia|apply ex_fit; lia]. }
    assert (Ha : about 32 ex_ftab ex_dtab ex_pkind ex_psem 0 (Leaf (Rel 0 REq 5%Z))).
    { split; [intros f [<-|[]]; left; auto|intros p []]. }
    intros k [<-|[<-|[]]]; (split; [exact Hs|]; split; [exact Ha|]).
    + split; [intros p [Q|Q]; [injection Q as <-; split; [reflexivity|apply (ex_fit 0 1); lia]|discriminate]|].
      intros []; (constructor; [exact I|intros; constructor]).
    + split; [intros p [Q|Q]; [injection Q as <-; exact I|discriminate]|].
      intros []; cbn; repeat (constructor; [exact I|intros]); constructor.
  - intros (evs0 & HT & HC). apply turns_inv in HT as [[H _]|(_ & saw & st1 & evs1 & -> & Hd & HT)]; [vm_compute in H; discriminate|].
    vm_compute in Hd. injection Hd as <- <-.
    apply turns_inv in HT as [[_ HT]|(H & _)]; [|vm_compute in H; discriminate].
    inversion HT; subst. vm_compute in HC. discriminate.
Qed.
Print Assumptions C129_indexed_refuted.
Example C129_case : (* the plain service does not *)
  ex_serve (TView 0 1 true) two_fives [0x20005] = Some (Done ([Called 1 []], [0x20006], true)).
Proof. vm_compute. auto. Qed.

(** ** C130: indexed services agree with plain ones *)
(** Given const data, and the indices being on fields of the messages: an indexed
    service is the handler of C20 on the values in the storage, so the same callables
    are called as by a plain one, under the conditions of C20. *)
Theorem C130_indexed_partial : forall es ftab ftype dtab pkind psem fs t ks st evs st' b,
  tables_good es ftab ftype dtab -> given_const t -> fs <> [] -> (forall f, In f fs -> within es ftab t f) ->
  (forall k, In k ks -> suits es ftab dtab (k_msg k) t st /\ about es ftab dtab pkind psem (k_msg k) (k_matcher k) /\ positive (Upos ftype) (k_matcher k)) ->
  (forall k c f v w, In k ks -> In c (split_entry ftype k) -> In f fs ->
     In (Rel f REq v) (leaves (k_matcher c)) -> In (Rel f REq w) (leaves (k_matcher c)) -> v = w) ->
  serve_indexed es ftab ftype dtab pkind psem fs t ks st = Some (Done (evs, st', b)) ->
  let held k := length (filter (fun c => holds_on es ftab ftype psem (k_matcher c) st) (split_entry ftype k)) in
  st' = st /\ b = existsb (fun k => holds_on es ftab ftype psem (k_matcher k) st) ks /\ complaints evs = (if b then 0 else 1)%nat /\
  called evs = flat_map (fun k => repeat (k_id k) (held k)) ks /\
  (forall k, In k ks -> held k = O <-> holds_on es ftab ftype psem (k_matcher k) st = false) /\
  ((forall k, In k ks -> length (split_entry ftype k) = 1%nat) ->
   called evs = map k_id (filter (fun k => holds_on es ftab ftype psem (k_matcher k) st) ks)).
Proof.
  intros es ftab ftype dtab pkind psem fs t ks st evs st' b HT Hw Hne Hf Hks Hone E. pose proof HT as (He & Hft & _). cbn zeta.
  pose proof (indexed_const es ftab ftype dtab pkind psem He Hft (tables_names _ _ _ _ HT) fs t (flat_map (split_entry ftype) ks) st evs st' b (const_writable _ Hw) Hf) as HI.
  destruct HI as (-> & HC & HB & HE).
  { intros k Hk. apply in_flat_map in Hk as (k0 & Hk0 & Hk). destruct (Hks k0 Hk0) as (Hs & Ha & _).
    destruct (split_about es ftab ftype dtab pkind psem k0 k Ha Hk) as [-> Ha']. auto. }
  { exact E. }
  rewrite split_cbs in HC, HB, HE.
  destruct (C20_positive_partial (list N) ftype (stored es ftab ftype) (asked es ftab ftype psem)
    (type_ok ftab ftype Hft) (stored_range es ftab ftype Hft) fs (map cb_of ks) st Hne) as (C1 & C2 & C3 & C4 & C5).
  { intros c Hc. apply in_map_iff in Hc as (k & <- & Hk). apply Hks; auto. }
  { intros c t0 f v w Hc Ht Hff Hv Hw'. apply in_map_iff in Hc as (k & <- & Hk).
    apply (Hone k {| k_id := cb_id t0; k_msg := k_msg k; k_matcher := cb_matcher t0; k_call := k_call k |} f v w Hk); auto.
    unfold split_entry. apply in_map_iff. exists t0. auto. }
  destruct (HandlerProofs.handle_spec (leaf_sem (stored es ftab ftype) (asked es ftab ftype psem)) (map cb_of ks) st) as (P1 & P2 & P3 & _).
  rewrite P2 in C3. rewrite P3 in C4. rewrite P1 in C5. clear P1 P2 P3.
  assert (Hheld : forall k, hits ftype (stored es ftab ftype) (asked es ftab ftype psem) (cb_of k) st =
    length (filter (fun c => holds_on es ftab ftype psem (k_matcher c) st) (split_entry ftype k))).
  { intros k. unfold hits, split_entry. generalize (separate_sum_terms leaf_eqb (leaf_implies ftype) leaf_neg (cb_of k)).
    induction l as [|c l IH]; cbn [filter map]; auto. cbn [k_matcher]. rewrite eval_stored. destruct (holds_on _ _ _ _ (cb_matcher c) st); cbn [length]; auto. }
  assert (Hex : existsb (fun c => eval (leaf_sem (stored es ftab ftype) (asked es ftab ftype psem)) (cb_matcher c) st) (map cb_of ks) =
    existsb (fun k => holds_on es ftab ftype psem (k_matcher k) st) ks).
  { clear. induction ks as [|k l IH]; cbn [map existsb]; auto. rewrite IH. cbn [cb_of cb_matcher]. rewrite eval_stored. auto. }
  rewrite Hex in C3, C4. rewrite C3 in HB. rewrite C4, <- HB in HE.
  split; auto. split; auto. split; auto. split; [|split].
  - rewrite HC, C1. clear -Hheld. induction ks as [|k l IH]; cbn [map flat_map]; auto. rewrite IH, Hheld. auto.
  - intros k Hk. rewrite <- Hheld. rewrite C2 by (apply in_map; auto). cbn [cb_of cb_matcher]. rewrite eval_stored. tauto.
  - intros Hlen. rewrite HC, C5.
    + clear. induction ks as [|k l IH]; cbn [map filter]; auto. cbn [cb_of cb_matcher]. rewrite eval_stored.
      destruct (holds_on es ftab ftype psem (k_matcher k) st); cbn [map]; rewrite IH; auto.
    + intros c Hc. apply in_map_iff in Hc as (k & <- & Hk). specialize (Hlen k Hk). unfold split_entry in Hlen. rewrite map_length in Hlen. auto.
Qed.
Print Assumptions C130_indexed_partial.
Definition ex_indexed := serve_indexed 32 ex_ftab ex_ftype ex_dtab ex_pkind ex_psem.
Definition some_entries : list entry :=
  [entry_of 1 (And (Leaf (Rel 0 REq 5%Z)) (Leaf (Pred 1))) (reads_both (Some PAnyView) None);
   entry_of 2 (Leaf (Rel 0 REq 6%Z)) (reads_both (Some PAnyOwner) None);
   entry_of 3 (Or (Leaf (Rel 0 REq 6%Z)) (Leaf (Rel 1 RLt 3%Z))) (reads_both None (Some PAnyView))].
Example C130_case :
  ex_indexed [0%nat] (TArray 1) some_entries [0x20005] = Some (Done ([Called 1 [Value 5; Value 2]; Called 3 [Value 2; Value 5]], [0x20005], true)) /\
  ex_serve (TArray 1) some_entries [0x20005] = Some (Done ([Called 1 [Value 5; Value 2]; Called 3 [Value 2; Value 5]], [0x20005], true)) /\
  (* both terms of 3 hold *)
  ex_indexed [0%nat] (TOwner 0 1) some_entries [0x20006] = Some (Done ([Called 2 [Value 6; Value 2]; Called 3 [Value 2; Value 6]; Called 3 [Value 2; Value 6]], [0x20006], true)) /\
  ex_indexed [0%nat] (TView 0 1 false) some_entries [0x70007] = Some (Done ([Unclaimed], [0x70007], false)).
Proof. vm_compute. auto. Qed.
Example C130_case_meets : (* the hypotheses, of the first two *)
  forall k, In k (firstn 2 some_entries) ->
  suits 32 ex_ftab ex_dtab (k_msg k) (TArray 1) [0x20005] /\ about 32 ex_ftab ex_dtab ex_pkind ex_psem (k_msg k) (k_matcher k) /\
  positive (Upos ex_ftype) (k_matcher k) /\ length (split_entry ex_ftype k) = 1%nat.
Proof.
  assert (Hs : suits 32 ex_ftab ex_dtab 0 (TArray 1) [0x20005]) by (split; [constructor; [reflexivity|constructor]|split; [reflexivity|apply ex_fit; lia]]).
  intros k [<-|[<-|[]]]; (split; [exact Hs|]; split; [|split; [|vm_compute; reflexivity]]).
  - split; [intros f [<-|[]]; left; auto|]. intros p [<-|[]]. cbn. split; [split; [reflexivity|apply (ex_fit 0 1); lia]|].
    intros v w H. cbn. rewrite (H 1%nat); auto. right. left. auto.
  - cbn. unfold Upos. cbn. repeat split; vm_compute; first [discriminate|exact I].
  - split; [intros f [<-|[]]; left; auto|]. intros p [].
  - cbn. unfold Upos. cbn. repeat split; vm_compute; first [discriminate|exact I].
Qed.
(** Messages whose field was moved (msg::pack, relax): a condition written on the field
    type it had before reads, of a message, the field of that name, but the index
    reads its old place. *)
Definition moved_entries : list entry :=
  [{| k_id := 1; k_msg := 1; k_matcher := Leaf (Rel 0 REq 5%Z); k_call := reads_both (Some PAnyView) None |}].
Theorem C130_moved_refuted : exists fs ks t st,
  ex_serve t ks st = Some (Done ([Called 1 [Value 5; Value 0]], st, true)) /\
  ex_indexed fs t ks st = Some (Done ([Unclaimed], st, false)) /\
  given_const t /\ (forall k, In k ks -> suits 32 ex_ftab ex_dtab (k_msg k) t st /\ rels (k_matcher k) = fs /\ forall f, In f fs -> In (f_name (ex_ftab f)) (map f_name (fields_of ex_ftab ex_dtab (k_msg k)))).
Proof.
  exists [0%nat], moved_entries, (TOwner 1 1), [0x0507]. split; [vm_compute; reflexivity|]. split; [vm_compute; reflexivity|]. split; [exact I|].
  intros k [<-|[]]. split; [split; [constructor; [reflexivity|constructor]|split; [reflexivity|split; [reflexivity|apply ex_fit; lia]]]|].
  split; [reflexivity|]. intros f [<-|[]]. left. reflexivity.
Qed.
Print Assumptions C130_moved_refuted.

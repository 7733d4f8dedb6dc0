(** Property theorems for messages (C13 - C18, C55). *)
From Coq Require Import List NArith Bool ZArith Lia ZifyBool ZifyN ZifyNat Permutation.
From Verif Require Import FieldModel FieldSpec FieldProofs FieldProofs2 FieldProofs3 MatchModel FieldMatchersModel.
From Verif Require Import MessageModel MessageSpec MessageProofs MessageProofs2 MessageProofs3.
Import ListNotations.
Local Open Scope N_scope.

(** ** C13 *)
Theorem C13_construct :
  forall es n fs vs o,
  narrow es -> msg_good fs -> fields_fit (es * N.of_nat n) fs ->
  construct es n fs vs = Some o ->
  exists st, o = Done st /\ length st = n /\ storage_ok es st /\
    (forall f, In f fs -> value_in es st f = expected vs f) /\
    (forall k, ~ covered fs k -> N.testbit (image es st) k = false).
Proof. exact construct_spec. Qed.
Print Assumptions C13_construct.

(** What a user then reads with get(). *)
Lemma construct_get es n fs vs st f :
  narrow es -> msg_good fs -> fields_fit (es * N.of_nat n) fs ->
  construct es n fs vs = Some (Done st) -> In f fs ->
  m_get es fs (f_name f) st = Some (Done (expected vs f)).
Proof.
  intros He Hg Hf Hc Hin. destruct (construct_spec es n fs vs (Done st)) as (s & E & Hl & Hst & Hv & _); auto.
  injection E as <-. unfold m_get. destruct Hg as (Hnd & Hfg & _). rewrite find_field_in by auto.
  rewrite Forall_forall in Hfg. destruct (Hfg f Hin) as (Hval & _).
  rewrite <- Hv by auto.
  assert (Hff : field_fits (es * N.of_nat (length st)) (f_locs f) = true).
  { unfold field_fits. apply forallb_forall. intros l Hll. specialize (Hf f Hin l Hll). rewrite Hl.
    apply loc_fits_spec; [|lia]. destruct (field_valid_wf f Hval) as ((_ & Hw & _) & _). rewrite Forall_forall in Hw. apply Hw. auto. }
  rewrite Hff. f_equal. apply extract_value; auto. unfold nbits. rewrite Hl. auto.
Qed.
Theorem C13_construct_then_get :
  forall es n fs vs st f,
  narrow es -> msg_good fs -> fields_fit (es * N.of_nat n) fs ->
  construct es n fs vs = Some (Done st) -> In f fs ->
  m_get es fs (f_name f) st = Some (Done (expected vs f)).
Proof. exact construct_get. Qed.
Print Assumptions C13_construct_then_get.

(** Construction is refused exactly when a field would be left uninitialized,
    a value names no field or a field with a required value, or the storage is
    refused. *)
Lemma construct_accepts es n fs vs : NoDup (map f_name fs) -> fits_inside es (N.of_nat n) fs = true ->
  ((exists o, construct es n fs vs = Some o) <->
   (forall f, In f fs -> f_default f = DWithout -> exists v, In (f_name f, v) vs) /\
   (forall nm v, In (nm, v) vs -> exists f, In f fs /\ f_name f = nm /\
      forall d, f_default f <> DConst d /\ f_default f <> DUninit)).
Proof.
  intros Hnd Hfits. unfold construct. rewrite Hfits. cbn [andb].
  assert (H1 : all_initialized fs vs = true <-> forall f, In f fs -> f_default f = DWithout -> exists v, In (f_name f, v) vs).
  { unfold all_initialized. rewrite forallb_forall. split.
    - intros H f Hf Hd. specialize (H f Hf). rewrite Hd in H. cbn in H. apply existsb_exists in H as ([m v] & Hin & E).
      apply Nat.eqb_eq in E. cbn in E. subst. eauto.
    - intros H f Hf. destruct (f_default f) eqn:Ed; cbn; auto. destruct (H f Hf Ed) as (v & Hv).
      apply existsb_exists. exists (f_name f, v). split; auto. apply Nat.eqb_refl. }
  assert (H2 : forallb (settable es fs (N.of_nat n)) vs = true <->
     (forall nm v, In (nm, v) vs -> exists f, In f fs /\ f_name f = nm /\ forall d, f_default f <> DConst d /\ f_default f <> DUninit)).
  { rewrite forallb_forall. split.
    - intros H nm v Hin. specialize (H _ Hin). unfold settable in H. cbn [fst] in H.
      destruct (find_field nm fs) as [f|] eqn:Ef; [|discriminate]. apply find_field_spec in Ef as [Ef <-].
      exists f. split; auto. split; auto. rewrite andb_true_iff in H. destruct H as [H _].
      intros d. split; intros E; rewrite E in H; discriminate.
    - intros H [nm v] Hin. destruct (H nm v Hin) as (f & Hf & <- & Hd). unfold settable. cbn [fst].
      rewrite find_field_in by auto. unfold fits_inside in Hfits. rewrite forallb_forall in Hfits. rewrite (Hfits f Hf), andb_true_r.
      destruct (f_default f) eqn:E; auto.
      + exfalso. destruct (Hd v0). congruence.
      + exfalso. destruct (Hd 0). congruence. }
  rewrite <- H1, <- H2. destruct (all_initialized fs vs), (forallb (settable es fs (N.of_nat n)) vs); cbn; split;
    try (intros [? ?]; congruence); try (intros _; split; auto); eauto; intros [? E]; discriminate.
Qed.
Theorem C13_acceptance :
  forall es n fs vs, NoDup (map f_name fs) -> fits_inside es (N.of_nat n) fs = true ->
  ((exists o, construct es n fs vs = Some o) <->
   (forall f, In f fs -> f_default f = DWithout -> exists v, In (f_name f, v) vs) /\
   (forall nm v, In (nm, v) vs -> exists f, In f fs /\ f_name f = nm /\
      forall d, f_default f <> DConst d /\ f_default f <> DUninit)).
Proof. exact construct_accepts. Qed.
Print Assumptions C13_acceptance.

(** Setting values through a view or owner. *)
Theorem C13_set :
  forall es fs vs st o,
  narrow es -> msg_good fs -> storage_ok es st -> fields_fit (nbits es st) fs ->
  m_set es fs vs st = Some o ->
  exists st', o = Done st' /\ length st' = length st /\ storage_ok es st' /\
    (forall f, In f fs -> value_in es st' f = updated es st vs f) /\
    (forall k, ~ covered fs k -> N.testbit (image es st') k = N.testbit (image es st) k).
Proof. exact set_spec. Qed.
Print Assumptions C13_set.

(** Constructing from existing storage (of a possibly different size) keeps
    every field not supplied. *)
Theorem C13_construct_from_storage :
  forall es n fs s vs o,
  narrow es -> msg_good fs -> storage_ok es s -> fields_fit (es * N.of_nat n) fs ->
  fields_fit (nbits es s) fs ->
  construct_from es n fs s vs = Some o ->
  exists st, o = Done st /\ length st = n /\ storage_ok es st /\
    (forall f, In f fs -> value_in es st f = updated es s vs f).
Proof. exact construct_from_spec. Qed.
Print Assumptions C13_construct_from_storage.

(** The storage the library allocates by default is large enough. *)
Lemma default_storage_fits es fs n : narrow es -> storage_size es fs <= n -> fields_fit (es * n) fs.
Proof.
  intros He Hn f Hf l Hl.
  assert (H1 : loc_start l + l_size l <= es * field_extent es (f_locs f)).
  { apply field_extent_ok; auto. apply narrow_ew; auto. }
  assert (H2 : field_extent es (f_locs f) <= storage_size es fs).
  { unfold storage_size. apply fold_max_ge. apply in_map_iff. eauto. }
  apply N.le_trans with (es * field_extent es (f_locs f)); auto. apply N.mul_le_mono_l. lia.
Qed.
Theorem C13_default_storage_fits :
  forall es fs n, narrow es -> storage_size es fs <= n -> fields_fit (es * n) fs.
Proof. exact default_storage_fits. Qed.
Print Assumptions C13_default_storage_fits.

(** A message: id (required 0x42) in bits 7:0, a 12-bit field split over two
    places, a field without default, an uninitialized field. *)
Definition fld (nm : nat) (b : N) (d : fdefault) (ats : list at_) : mfield :=
  {| f_name := nm; f_bytes := b; f_default := d; f_match := Always; f_ats := ats |}.
Definition loc_ (m l : N) : at_ := {| a_msb := m; a_lsb := l |}.
Definition ex_msg : list mfield :=
  [ fld 0 1 (DConst 0x42) [loc_ 7 0];
    fld 1 2 (DDefault 0xABC) [at_dword 1 3 0; loc_ 15 8];
    fld 2 4 DWithout [loc_ 31 16];
    fld 3 1 DUninit [at_dword 1 9 6] ].
Ltac covers_at H := apply fcovers_ats in H; [|reflexivity]; cbn in H.
Lemma ex_msg_good : msg_good ex_msg.
Proof.
  split; [cbn; repeat constructor; cbn; intuition congruence|]. split.
  - assert (H1 : forall l, disjoint_locs [l]) by (intros l; split; [intros k _ (x & [] & _)|exact I]).
    repeat apply Forall_cons; [| | | |apply Forall_nil]; (split; [reflexivity|]; split; [|cbn; intros v E; try discriminate; injection E as <-; reflexivity]); try apply H1.
    split; [|apply H1]. intros k H (x & [<-|[]] & Hk). apply at_loc_covers in H; auto. apply at_loc_covers in Hk; auto. cbn in H, Hk. lia.
  - intros f g Hf Hg Hne k H1 H2.
    destruct Hf as [<-|[<-|[<-|[<-|[]]]]], Hg as [<-|[<-|[<-|[<-|[]]]]]; try (cbn in Hne; congruence);
    covers_at H1; covers_at H2; destruct H1 as (a & Ha & H1), H2 as (b & Hb & H2);
    repeat match goal with H : _ \/ _ |- _ => destruct H | H : False |- _ => destruct H end; subst; cbn in H1, H2; lia.
Qed.
Example C13_case : exists st, construct 32 2 ex_msg [(2%nat, 0x12345)] = Some (Done st) /\
  map (fun f => value_in 32 st f) ex_msg = [0x42; 0xABC; 0x2345; 0] /\ st = [0x2345BC42; 0xA].
Proof. eexists. vm_compute. auto. Qed.
Example C13_case_rejected : construct 32 2 ex_msg [] = None /\ construct 32 2 ex_msg [(2%nat, 1); (0%nat, 0x42)] = None.
Proof. vm_compute. auto. Qed.

(** ** C14 *)
Theorem C14_equivalent_iff :
  forall es fs a b,
  narrow es -> Forall (fun f => field_valid f = true) fs ->
  storage_ok es a -> storage_ok es b -> fields_fit (nbits es a) fs -> fields_fit (nbits es b) fs ->
  exists r, equiv es fs a b = Done r /\ (r = true <-> forall f, In f fs -> value_in es a f = value_in es b f).
Proof. exact equiv_spec. Qed.
Print Assumptions C14_equivalent_iff.

Definition usable es fs (a : list N) : Prop := storage_ok es a /\ fields_fit (nbits es a) fs.
Lemma equiv_true es fs a b : narrow es -> Forall (fun f => field_valid f = true) fs -> usable es fs a -> usable es fs b ->
  (equiv es fs a b = Done true <-> forall f, In f fs -> value_in es a f = value_in es b f).
Proof.
  intros He Hv [H1 H2] [H3 H4]. destruct (equiv_spec es fs a b) as (r & Hr & Hiff); auto. rewrite Hr, <- Hiff.
  split; congruence.
Qed.
Lemma equiv_equivalence es fs : narrow es -> Forall (fun f => field_valid f = true) fs ->
  (forall a, usable es fs a -> equiv es fs a a = Done true) /\
  (forall a b, usable es fs a -> usable es fs b -> equiv es fs a b = equiv es fs b a) /\
  (forall a b c, usable es fs a -> usable es fs b -> usable es fs c ->
     equiv es fs a b = Done true -> equiv es fs b c = Done true -> equiv es fs a c = Done true).
Proof.
  intros He Hv. split; [|split].
  - intros a Ha. apply equiv_true; auto.
  - intros a b [H1 H2] [H3 H4]. destruct (equiv_spec es fs a b) as (r & Hr & Hiff); auto.
    destruct (equiv_spec es fs b a) as (r' & Hr' & Hiff'); auto. rewrite Hr, Hr'. f_equal.
    destruct r, r'; auto.
    + symmetry. apply Hiff'. intros. symmetry. apply Hiff; auto.
    + apply Hiff. intros. symmetry. apply Hiff'; auto.
  - intros a b c Ha Hb Hc H1 H2. rewrite equiv_true in H1, H2 by auto. apply equiv_true; auto.
    intros. rewrite H1, H2; auto.
Qed.
Theorem C14_equivalence_relation :
  forall es fs, narrow es -> Forall (fun f => field_valid f = true) fs ->
  (forall a, usable es fs a -> equiv es fs a a = Done true) /\
  (forall a b, usable es fs a -> usable es fs b -> equiv es fs a b = equiv es fs b a) /\
  (forall a b c, usable es fs a -> usable es fs b -> usable es fs c ->
     equiv es fs a b = Done true -> equiv es fs b c = Done true -> equiv es fs a c = Done true).
Proof. exact equiv_equivalence. Qed.
Print Assumptions C14_equivalence_relation.
Lemma equiv_outside es fs a b : narrow es -> Forall (fun f => field_valid f = true) fs -> usable es fs a -> usable es fs b ->
  (forall k, covered fs k -> N.testbit (image es a) k = N.testbit (image es b) k) ->
  equiv es fs a b = Done true.
Proof.
  intros He Hv Ha Hb H. apply equiv_true; auto. intros f Hf. apply concat_ext. intros k Hk. apply H. exists f. auto.
Qed.
Theorem C14_ignores_other_bits :
  forall es fs a b, narrow es -> Forall (fun f => field_valid f = true) fs -> usable es fs a -> usable es fs b ->
  (forall k, covered fs k -> N.testbit (image es a) k = N.testbit (image es b) k) ->
  equiv es fs a b = Done true.
Proof. exact equiv_outside. Qed.
Print Assumptions C14_ignores_other_bits.
Example C14_case : equiv 32 ex_msg [0x2345BC42; 0xA] [0x2345BC42; 0xFFFF003A] = Done true /\
                   equiv 32 ex_msg [0x2345BC42; 0xA] [0x2345BC42; 0xB] = Done false.
Proof. vm_compute. auto. Qed.

(** ** C15
    Full statement: Permutation l l' implies message l = message l'.  False
    when two fields start at the same bit. *)
Theorem C15_order_refuted :
  exists l l' m m', Permutation l l' /\ message l = Some m /\ message l' = Some m' /\ m <> m'.
Proof.
  set (a := fld 0 1 (DDefault 0) [loc_ 3 0]). set (b := fld 1 1 (DDefault 0) [loc_ 7 0]).
  exists [a; b], [b; a], [a; b], [b; a]. split; [apply perm_swap|]. split; [reflexivity|]. split; [reflexivity|].
  intros H. injection H. discriminate.
Qed.
Print Assumptions C15_order_refuted.
(** True when the fields start at distinct bits (missing: overlays with fields
    starting at the same bit) ... *)
Lemma order_partial l l' : Permutation l l' -> NoDup (map key_of l) -> message l = message l'.
Proof.
  intros Hp Hn. pose proof (message_perm l l' Hp) as H. destruct (message l), (message l'); auto; try contradiction.
  f_equal. apply H. auto.
Qed.
Theorem C15_order_partial :
  forall l l', Permutation l l' -> NoDup (map key_of l) -> message l = message l'.
Proof. exact order_partial. Qed.
Print Assumptions C15_order_partial.
(** ... and in every case acceptance, the fields found by name, and the storage
    size do not depend on the order. *)
Lemma order_observations l l' : Permutation l l' ->
  match message l, message l' with
  | Some m, Some m' => Permutation m m' /\ (forall n, find_field n m = find_field n m') /\ (forall es, storage_size es m = storage_size es m')
  | None, None => True
  | _, _ => False
  end.
Proof.
  intros Hp. pose proof (message_perm l l' Hp) as H. destruct (message l) as [m|] eqn:E, (message l') as [m'|]; auto.
  destruct H as [H _]. split; auto. split.
  - intros n. apply find_perm; auto. apply message_spec in E as (Hn & _ & _ & _ & P).
    eapply Permutation_NoDup; [|exact Hn]. apply Permutation_map. symmetry. auto.
  - intros. apply storage_size_perm. auto.
Qed.
Theorem C15_observations :
  forall l l', Permutation l l' ->
  match message l, message l' with
  | Some m, Some m' => Permutation m m' /\ (forall n, find_field n m = find_field n m') /\ (forall es, storage_size es m = storage_size es m')
  | None, None => True
  | _, _ => False
  end.
Proof. exact order_observations. Qed.
Print Assumptions C15_observations.
Example C15_case : message (rev ex_msg) = message ex_msg /\ exists m, message ex_msg = Some m /\ map f_name m = [0; 1; 2; 3]%nat.
Proof. split; [|eexists; split]; reflexivity. Qed.

(** ** C16
    Full statement: the extension's fields are the new fields and those base
    fields whose name is not among the new ones.  False when the new field
    starts at a higher bit than the one it should replace. *)
Theorem C16_override_refuted :
  exists news base m f g, extension news base = Some m /\ In f news /\ In g base /\ f_name f = f_name g /\
    In g m /\ ~ In f m.
Proof.
  set (f := fld 0 1 (DDefault 0) [loc_ 15 8]). set (g := fld 0 1 (DDefault 0) [loc_ 7 0]).
  exists [f], [g], [g], f, g. split; [reflexivity|]. repeat split; auto using in_eq.
  intros [H|[]]. discriminate.
Qed.
Print Assumptions C16_override_refuted.
(** True when no new field starts above the one it replaces (missing: the rest) ... *)
Theorem C16_override_partial :
  forall news base m, extension news base = Some m -> forallb locatable base = true ->
  NoDup (map f_name news) -> NoDup (map f_name base) ->
  (forall f g, In f news -> In g base -> f_name g = f_name f -> key_of f <= key_of g) ->
  forall f, In f m <-> In f news \/ (In f base /\ ~ In (f_name f) (map f_name news)).
Proof. exact extension_override. Qed.
Print Assumptions C16_override_partial.
(** ... and exactly, in every case: for each name the field starting lowest
    wins, a new field winning ties; names are unique and none is lost. *)
Theorem C16_exact :
  forall news base m, extension news base = Some m -> forallb locatable base = true ->
  NoDup (map f_name news) -> NoDup (map f_name base) ->
  NoDup (map f_name m) /\
  (forall n, In n (map f_name m) <-> In n (map f_name news) \/ In n (map f_name base)) /\
  (forall f, In f m <->
     (In f news /\ forall g, In g base -> f_name g = f_name f -> key_of f <= key_of g) \/
     (In f base /\ forall g, In g news -> f_name g = f_name f -> key_of f < key_of g)).
Proof. exact extension_spec. Qed.
Print Assumptions C16_exact.
Example C16_case : exists m, extension [fld 1 2 (DConst 7) [loc_ 15 8]; fld 9 1 DWithout [at_dword 2 7 0]] ex_msg = Some m /\
  map f_name m = [0; 1; 2; 3; 9]%nat /\ option_map f_default (find_field 1 m) = Some (DConst 7).
Proof. eexists. vm_compute. auto. Qed.

(** ** C17 *)
Theorem C17_pack :
  forall A ms m, elem_width A -> pack A ms = Some m ->
  (forall f, In f m <-> exists i mi g, nth_error ms i = Some mi /\ In g mi /\ f = shift_field (pack_offset A ms i * A) g) /\
  (forall i j mi mj g h k k', (i < j)%nat -> nth_error ms i = Some mi -> nth_error ms j = Some mj ->
     In g mi -> In h mj ->
     fcovers (shift_field (pack_offset A ms i * A) g) k ->
     fcovers (shift_field (pack_offset A ms j * A) h) k' -> k < k') /\
  Permutation (map f_name m) (map f_name (concat ms)).
Proof. exact pack_spec. Qed.
Print Assumptions C17_pack.
(** A packed field reads what the field reads in its own message, taken at the
    message's offset. *)
Theorem C17_pack_value :
  forall es st n f, field_valid f = true ->
  concat_value (image es st) (f_locs (shift_field n f)) = concat_value (N.shiftr (image es st) n) (f_locs f).
Proof. exact shift_value. Qed.
Print Assumptions C17_pack_value.
Example C17_case : exists m, pack 16 [[fld 0 1 (DDefault 0) [loc_ 2 0]]; [fld 1 4 (DDefault 0) [loc_ 16 0]]; [fld 2 1 (DDefault 0) [loc_ 7 4]]] = Some m /\
  map (fun f => (f_name f, f_ats f)) m = [(0%nat, [loc_ 2 0]); (1%nat, [loc_ 32 16]); (2%nat, [loc_ 55 52])].
Proof. eexists. vm_compute. auto. Qed.

(** ** C18 *)
Theorem C18_relaxed :
  forall l m, relaxed_message l = Some m ->
  NoDup (map f_name l) /\ Permutation (map f_name m) (map f_name l) /\
  (forall f, In f l -> locatable f = true -> In f m) /\
  (forall f, In f l -> locatable f = false -> exists o, In (auto_at o f) m /\
     (forall g k k', In g l -> locatable g = true -> fcovers g k -> fcovers (auto_at o f) k' -> k < k')) /\
  (forall f g, In f m -> In g m -> f_name f <> f_name g ->
     (In f l -> In g l -> fields_disjoint f g) -> fields_disjoint f g).
Proof. exact relaxed_spec. Qed.
Print Assumptions C18_relaxed.
(** The unlocated fields follow the located ones, larger before smaller, those of one
    size in the order given, each in its own whole bytes with no gap between. *)
Theorem C18_layout :
  forall l m, relaxed_message l = Some m -> (forall f, In f l -> 0 < f_bytes f) ->
  exists autos, Permutation autos (filter (fun f => negb (locatable f)) l) /\
    Sorted.StronglySorted (fun a b => f_bytes b <= f_bytes a) autos /\
    (forall b, filter (fun f => f_bytes f =? b) autos = filter (fun f => f_bytes f =? b) (filter (fun f => negb (locatable f)) l)) /\
    forall pre f post, autos = pre ++ f :: post ->
      let o := 8 * (storage_size 8 (filter locatable l) + bytes_of pre) in
      In {| f_name := f_name f; f_bytes := f_bytes f; f_default := f_default f; f_match := f_match f;
            f_ats := [ {| a_lsb := o; a_msb := o + 8 * f_bytes f - 1 |} ] |} m.
Proof. exact relaxed_layout. Qed.
Print Assumptions C18_layout.
Example C18_case : exists m, relaxed_message [fld 5 1 (DDefault 0) []; fld 0 1 (DDefault 0) [loc_ 10 3]; fld 6 4 (DDefault 0) []] = Some m /\
  map (fun f => (f_name f, f_ats f)) m = [(0%nat, [loc_ 10 3]); (6%nat, [loc_ 47 16]); (5%nat, [loc_ 55 48])].
Proof. eexists. vm_compute. auto. Qed.

(** ** C55 *)
Theorem C55_rename :
  forall m old new m', NoDup (map f_name m) -> rename_field m old new = Some m' ->
  exists f, find_field old m = Some f /\
    find_field new m' = Some {| f_name := new; f_bytes := f_bytes f; f_default := f_default f; f_match := f_match f; f_ats := f_ats f |} /\
    (old <> new -> find_field old m' = None) /\
    (forall n, n <> old -> n <> new -> find_field n m' = find_field n m) /\
    (forall es, storage_size es m' = storage_size es m).
Proof. exact rename_spec. Qed.
Print Assumptions C55_rename.
(** Renaming is accepted exactly when the field exists and no other has the new name. *)
Theorem C55_accepts :
  forall m old new, NoDup (map f_name m) -> forallb locatable m = true -> forallb field_valid m = true ->
  ((exists m', rename_field m old new = Some m') <->
   In old (map f_name m) /\ (forall f, In f m -> f_name f = new -> old = new)).
Proof. exact rename_accepts. Qed.
Print Assumptions C55_accepts.
Example C55_case : exists m, rename_field ex_msg 1 8 = Some m /\ map f_name m = [0; 8; 2; 3]%nat.
Proof. eexists. vm_compute. auto. Qed.
Example C55_case_rejected : rename_field ex_msg 1 2 = None /\ rename_field ex_msg 7 9 = None.
Proof. vm_compute. auto. Qed.

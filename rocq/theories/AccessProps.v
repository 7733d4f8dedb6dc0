(** Property theorems for owners, views, typed values, single integers, structured
    bindings and conditions by name (C97-C102). *)
From Coq Require Import List NArith ZArith Bool Arith Lia Permutation Sorted.
From Verif Require Import FieldModel FieldSpec FieldProofs2 FieldProofs3 MatchModel MatchSpec FieldMatchersModel FieldMatchersSpec MessageModel MessageSpec MessageProofs MessageProofs2 MessageProps HandlerModel HandlerSpec HandlerProofs AccessModel AccessSpec AccessProofs AccessProofs2 AccessProofs3 AccessProofs4 AccessProofs5.
Import ListNotations.
Local Open Scope N_scope.

(** ** C97: programs with owners and views *)
(** Every accepted program over elements of at most 32 bits runs to its end, shows
    what the storages hold as bits, and leaves the storages as described. *)
Lemma programs_refine es p o : narrow es -> Forall (command_good es) p -> all_alike es p empty -> run es p start = Some o ->
  exists s obs, o = Done (s, obs) /\ all_shown es p empty obs /\ vars s = names (effects es p empty) /\
    Forall2 (fun st a => length st = fst a /\ forall k, N.testbit (image es st) k = snd a k) (heap s) (stores (effects es p empty)).
Proof.
  intros He Hg Ha Hr.
  destruct (run_inv es He p start empty o (conj eq_refl (conj (Forall2_nil _) (Forall_nil _))) Hg Ha Hr) as (s & obs & -> & (Hn & HR & _) & Hs).
  exists s, obs. repeat split; auto. clear -HR. induction HR as [|st a l m (H1 & _ & H2) H IH]; constructor; auto.
Qed.
Theorem C97_refines :
  forall es p o, narrow es -> Forall (command_good es) p -> all_alike es p empty -> run es p start = Some o ->
  exists s obs, o = Done (s, obs) /\ all_shown es p empty obs /\ vars s = names (effects es p empty) /\
    Forall2 (fun st a => length st = fst a /\ forall k, N.testbit (image es st) k = snd a k) (heap s) (stores (effects es p empty)).
Proof. exact programs_refine. Qed.
Print Assumptions C97_refines.
(** A command is accepted exactly when what it names is there, what it sets may be
    set, and it does not write through a const view. *)
Lemma accepts_iff es p s obs c : narrow es -> Forall (command_good es) p -> all_alike es p empty -> run es p start = Some (Done (s, obs)) ->
  command_good es c -> (step es c s <> None <-> allowed es s c).
Proof.
  intros He Hg Ha Hr Hc. destruct (reached es He p s obs (conj Hg Ha) Hr) as (a & Hi & _). eapply step_allowed; eauto.
Qed.
Theorem C97_accepts :
  forall es p s obs c, narrow es -> Forall (command_good es) p -> all_alike es p empty -> run es p start = Some (Done (s, obs)) ->
  command_good es c -> (step es c s <> None <-> allowed es s c).
Proof. exact accepts_iff. Qed.
Print Assumptions C97_accepts.
(** What is set through one handle is read through every other on the same storage
    that has the field. *)
Lemma shared es p s obs v w vs h g f x o : narrow es -> Forall (command_good es) p -> all_alike es p empty ->
  run es p start = Some (Done (s, obs)) ->
  nth_error (vars s) v = Some h -> nth_error (vars s) w = Some g -> h_store h = h_store g ->
  In f (h_def h) -> In f (h_def g) -> supplied vs (f_name f) = Some x ->
  run es (p ++ [Set_ v vs; Get w (f_name f)]) start = Some o ->
  exists s', o = Done (s', obs ++ [Value (x mod 2 ^ width f)]).
Proof. intros He Hg Ha Hr H1 H2 H3 H4 H5 H6 H7. exact (set_then_get es He p s obs v w vs (f_name f) h g f x o (conj Hg Ha) Hr H1 H2 H3 H4 H5 eq_refl H6 H7). Qed.
Theorem C97_shared :
  forall es p s obs v w vs h g f x o, narrow es -> Forall (command_good es) p -> all_alike es p empty ->
  run es p start = Some (Done (s, obs)) ->
  nth_error (vars s) v = Some h -> nth_error (vars s) w = Some g -> h_store h = h_store g ->
  In f (h_def h) -> In f (h_def g) -> supplied vs (f_name f) = Some x ->
  run es (p ++ [Set_ v vs; Get w (f_name f)]) start = Some o ->
  exists s', o = Done (s', obs ++ [Value (x mod 2 ^ width f)]).
Proof. exact shared. Qed.
Print Assumptions C97_shared.
(** What the fields set do not overlap reads the same before and after, through
    every handle, whatever its definition and storage. *)
Lemma unaffected es p s obs v w vs h g f o : narrow es -> Forall (command_good es) p -> all_alike es p empty ->
  run es p start = Some (Done (s, obs)) ->
  nth_error (vars s) v = Some h -> nth_error (vars s) w = Some g -> In f (h_def g) ->
  (h_store h = h_store g -> forall f' u, In f' (h_def h) -> In (f_name f', u) vs -> fields_disjoint f f') ->
  run es (p ++ [Get w (f_name f); Set_ v vs; Get w (f_name f)]) start = Some o ->
  exists s' x, o = Done (s', obs ++ [Value x; Value x]).
Proof.
  intros He Hg Ha Hr H1 H2 H3 H4 H5. refine (set_elsewhere es He p s obs v w vs (f_name f) h g f o (conj Hg Ha) Hr H1 H2 H3 eq_refl _ H5).
  intros Q f' m u Hf Hin <-. eauto.
Qed.
Theorem C97_unaffected :
  forall es p s obs v w vs h g f o, narrow es -> Forall (command_good es) p -> all_alike es p empty ->
  run es p start = Some (Done (s, obs)) ->
  nth_error (vars s) v = Some h -> nth_error (vars s) w = Some g -> In f (h_def g) ->
  (h_store h = h_store g -> forall f' u, In f' (h_def h) -> In (f_name f', u) vs -> fields_disjoint f f') ->
  run es (p ++ [Get w (f_name f); Set_ v vs; Get w (f_name f)]) start = Some o ->
  exists s' x, o = Done (s', obs ++ [Value x; Value x]).
Proof. exact unaffected. Qed.
Print Assumptions C97_unaffected.
Definition ex_prog : list command :=
  [ Array [0xFFFFFFFF; 0xFFFFFFFF];
    View ex_msg 2 true (FromArray 0) [(2%nat, 5)];
    View ex_msg 2 false (FromHandle 0) [];
    Set_ 0 [(1%nat, 0x123)];
    Get 1 1; Get 1 2;
    OwnerFrom ex_msg 2 (FromHandle 1) [];
    Equivalent 0 2;
    Set_ 2 [(2%nat, 9)];
    Get 0 2; Get 2 2;
    Equivalent 0 2;
    Poke 0 0 0;
    Get 1 0 ].
Example C97_case :
  Forall (command_good 32) ex_prog /\ all_alike 32 ex_prog empty /\
  exists s, run 32 ex_prog start = Some (Done (s, [Value 0x123; Value 5; Same true; Value 5; Value 9; Same false; Value 0])).
Proof.
  assert (H : command_good 32 (Owner ex_msg 2 [])).
  { split; [apply ex_msg_good|]. intros f Hf l Hl.
    destruct Hf as [<-|[<-|[<-|[<-|[]]]]]; cbn in Hl; repeat (destruct Hl as [<-|Hl]; [vm_compute; discriminate|]); destruct Hl. }
  split; [repeat (apply Forall_cons; [first [exact I|exact H]|]); apply Forall_nil|].
  split; [vm_compute; repeat split|]. eexists. vm_compute. reflexivity.
Qed.
Example C97_case_rejected : (* a const view cannot be set, nor made mutable *)
  run 32 (firstn 3 ex_prog ++ [Set_ 1 [(2%nat, 7)]]) start = None /\
  run 32 (firstn 3 ex_prog ++ [View ex_msg 2 true (FromHandle 1) []]) start = None.
Proof. vm_compute. auto. Qed.

(** ** C98: separate storages *)
(** A program never changes a storage it does not write to: no conditions on the
    definitions, any element type. *)
Lemma untouched es p s s' obs i : run es p s = Some (Done (s', obs)) -> (i < length (heap s))%nat -> never_writes es p s i ->
  nth_error (heap s') i = nth_error (heap s) i.
Proof. apply run_other. Qed.
Theorem C98_untouched :
  forall es p s s' obs i, run es p s = Some (Done (s', obs)) -> (i < length (heap s))%nat -> never_writes es p s i ->
  nth_error (heap s') i = nth_error (heap s) i.
Proof. exact untouched. Qed.
Print Assumptions C98_untouched.
(** A new owner has a storage of its own: no owner, view or array declared before
    it has it. *)
Lemma own_storage es p s obs c s' o d n vs src : run es p start = Some (Done (s, obs)) ->
  c = Owner d n vs \/ c = OwnerFrom d n src vs -> step es c s = Some (Done (s', o)) ->
  exists h, vars s' = vars s ++ [h] /\ h_def h = d /\ h_extent h = n /\ h_mut h = true /\
    Forall (fun g => h_store g <> h_store h) (vars s) /\ nth_error (heap s) (h_store h) = None /\ o = [].
Proof.
  intros Hr Hc Hs. eapply owner_fresh; eauto. eapply run_refers; eauto. constructor.
Qed.
Theorem C98_own_storage :
  forall es p s obs c s' o d n vs src, run es p start = Some (Done (s, obs)) ->
  c = Owner d n vs \/ c = OwnerFrom d n src vs -> step es c s = Some (Done (s', o)) ->
  exists h, vars s' = vars s ++ [h] /\ h_def h = d /\ h_extent h = n /\ h_mut h = true /\
    Forall (fun g => h_store g <> h_store h) (vars s) /\ nth_error (heap s) (h_store h) = None /\ o = [].
Proof. exact own_storage. Qed.
Print Assumptions C98_own_storage.
(** Const views cannot be written through, and no mutable view is made from one. *)
Theorem C98_const :
  forall es s v h, nth_error (vars s) v = Some h -> h_mut h = false ->
  (forall vs, step es (Set_ v vs) s = None) /\ (forall d n vs, step es (View d n true (FromHandle v) vs) s = None).
Proof. intros es s v h E Hm. split; intros; [eapply const_set|eapply const_source]; eauto. Qed.
Print Assumptions C98_const.
(** The declared variables stay as declared. *)
Theorem C98_names :
  forall es c s s' o, step es c s = Some (Done (s', o)) ->
  (length (heap s) <= length (heap s'))%nat /\ exists l, vars s' = vars s ++ l.
Proof. exact step_grows. Qed.
Print Assumptions C98_names.
Example C98_case :
  let p := [OwnerFrom ex_msg 2 (FromHandle 1) [(2%nat, 9)]; Set_ 2 [(1%nat, 1)]; Get 2 1] in
  exists s obs s', run 32 (firstn 3 ex_prog) start = Some (Done (s, obs)) /\ run 32 p s = Some (Done (s', [Value 1])) /\
    never_writes 32 p s 0 /\ nth_error (heap s') 0 = Some [0x5FFFF; 0xFFFFFFFF] /\ nth_error (heap s') 1 <> nth_error (heap s') 0.
Proof.
  eexists _, _, _. split; [vm_compute; reflexivity|]. split; [vm_compute; reflexivity|].
  split; [|vm_compute; split; [reflexivity|discriminate]].
  cbn [never_writes]. split; [exact (fun H => H)|]. intros s1 o1 E1. vm_compute in E1. injection E1 as <- <-.
  split. { intros (h & H1 & H2). vm_compute in H1. injection H1 as <-. discriminate H2. }
  intros s2 o2 E2. vm_compute in E2. injection E2 as <- <-. split; [exact (fun H => H)|]. auto.
Qed.

(** ** C99: typed values *)
(** At full strength: a value of the field's type that fits its bits reads back.
    False for signed types narrower in the message than in memory: the sign is
    not extended. *)
Definition nibble : mfield := {| f_name := 0; f_bytes := 1; f_default := DDefault 0; f_match := Always; f_ats := [loc_ 3 0] |}.
Theorem C99_signed_refuted :
  exists v st, field_valid nibble = true /\ (- 2 ^ 3 <= v < 2 ^ 3)%Z /\ insert_value 8 nibble v [0] = Done st /\
    extract_value_of 8 true nibble st = Done 15%Z /\ v = (-1)%Z.
Proof. exists (-1)%Z, [15]. vm_compute. repeat split; discriminate. Qed.
Print Assumptions C99_signed_refuted.
(** What is read back, in every case ... *)
Theorem C99_reads :
  forall es s f v st, narrow es -> field_valid f = true -> disjoint_locs (f_locs f) -> 0 < f_bytes f ->
  storage_ok es st -> fits (nbits es st) (f_locs f) ->
  exists st', insert_value es f v st = Done st' /\ storage_ok es st' /\ length st' = length st /\
    extract_value_of es s f st' = Done (typed s (f_bytes f) (to_raw (f_bytes f) v mod 2 ^ width f)).
Proof. exact typed_read. Qed.
Print Assumptions C99_reads.
(** ... and exactly which values read back: the non-negative ones that fit the
    field's bits, and all if the field is as wide as its type (missing: negative
    values in narrower fields). *)
Lemma reads_back es s f v st : narrow es -> field_valid f = true -> disjoint_locs (f_locs f) -> 0 < f_bytes f ->
  storage_ok es st -> fits (nbits es st) (f_locs f) -> of_type s (f_bytes f) v ->
  ((exists st', insert_value es f v st = Done st' /\ extract_value_of es s f st' = Done v) <->
   (0 <= v < 2 ^ Z.of_N (width f))%Z \/ width f = 8 * f_bytes f).
Proof.
  intros He Hf Hd Hb Hs Hfit Hv. rewrite <- (typed_back s f v Hf Hb Hv).
  destruct (typed_read es s f v st He Hf Hd Hb Hs Hfit) as (st' & E & _ & _ & E2). split.
  - intros (st2 & Q & Q2). rewrite E in Q. injection Q as <-. rewrite E2 in Q2. congruence.
  - intros Q. exists st'. rewrite E2, Q. auto.
Qed.
Theorem C99_reads_back_partial :
  forall es s f v st, narrow es -> field_valid f = true -> disjoint_locs (f_locs f) -> 0 < f_bytes f ->
  storage_ok es st -> fits (nbits es st) (f_locs f) -> of_type s (f_bytes f) v ->
  ((exists st', insert_value es f v st = Done st' /\ extract_value_of es s f st' = Done v) <->
   (0 <= v < 2 ^ Z.of_N (width f))%Z \/ width f = 8 * f_bytes f).
Proof. exact reads_back. Qed.
Print Assumptions C99_reads_back_partial.
(** can_hold tells exactly which unsigned values read back. *)
Lemma can_hold_reads es f v st : narrow es -> field_valid f = true -> disjoint_locs (f_locs f) -> 0 < f_bytes f ->
  storage_ok es st -> fits (nbits es st) (f_locs f) -> v < 2 ^ (8 * f_bytes f) ->
  (can_hold f v = true <-> exists st', insert_value es f (Z.of_N v) st = Done st' /\ extract_value_of es false f st' = Done (Z.of_N v)).
Proof.
  intros He Hf Hd Hb Hs Hfit Hv.
  assert (Ht : of_type false (f_bytes f) (Z.of_N v)).
  { unfold of_type. replace (8 * Z.of_N (f_bytes f))%Z with (Z.of_N (8 * f_bytes f)) by lia. rewrite <- pow_N. lia. }
  rewrite (reads_back es false f (Z.of_N v) st He Hf Hd Hb Hs Hfit Ht). rewrite can_hold_spec, <- pow_N. split; [lia|].
  intros [H|H]; [lia|]. rewrite H. auto.
Qed.
Theorem C99_can_hold :
  forall es f v st, narrow es -> field_valid f = true -> disjoint_locs (f_locs f) -> 0 < f_bytes f ->
  storage_ok es st -> fits (nbits es st) (f_locs f) -> v < 2 ^ (8 * f_bytes f) ->
  (can_hold f v = true <-> exists st', insert_value es f (Z.of_N v) st = Done st' /\ extract_value_of es false f st' = Done (Z.of_N v)).
Proof. exact can_hold_reads. Qed.
Print Assumptions C99_can_hold.
Definition sbyte : mfield := {| f_name := 0; f_bytes := 1; f_default := DDefault 0; f_match := Always; f_ats := [loc_ 15 12; loc_ 3 0] |}.
Example C99_case : field_valid sbyte = true /\ of_type true 1 (-2)%Z /\ insert_value 16 sbyte (-2)%Z [0] = Done [0xF00E] /\
  extract_value_of 16 true sbyte [0xF00E] = Done (-2)%Z /\ can_hold sbyte 255 = true /\ can_hold nibble 16 = false.
Proof. vm_compute. repeat split; discriminate. Qed.

(** ** C100: fields of one integer *)
(** At full strength: also for 64-bit integers. False there. *)
Definition high_byte : mfield := {| f_name := 0; f_bytes := 1; f_default := DDefault 0; f_match := Always; f_ats := [at_dword 1 7 0] |}.
Theorem C100_wide_refuted :
  exists u, u < 2 ^ 64 /\ field_valid high_byte = true /\ in_integer 64 high_byte = true /\
    extract_int 64 high_byte u = Some (Done 0x11) /\ concat_value u (f_locs high_byte) = 0x22.
Proof. exists 0x2200000011. vm_compute. auto. Qed.
Print Assumptions C100_wide_refuted.
(** True for integers of 8, 16 and 32 bits: a field is read exactly when it lies
    within the integer (missing: 64 bits) ... *)
Lemma read_int w f u : narrow w -> field_valid f = true -> u < 2 ^ w ->
  (fits w (f_locs f) -> extract_int w f u = Some (Done (concat_value u (f_locs f)))) /\
  (~ fits w (f_locs f) -> extract_int w f u = None).
Proof.
  intros Hw Hf Hu. rewrite extract_int_spec by auto. pose proof (in_integer_spec w f (narrow_pos w Hw) Hf) as H.
  destruct (in_integer w f); split; intros Q; auto.
  - exfalso. apply Q, H. auto.
  - apply H in Q. discriminate.
Qed.
Theorem C100_read_partial :
  forall w f u, narrow w -> field_valid f = true -> u < 2 ^ w ->
  (fits w (f_locs f) -> extract_int w f u = Some (Done (concat_value u (f_locs f)))) /\
  (~ fits w (f_locs f) -> extract_int w f u = None).
Proof. exact read_int. Qed.
Print Assumptions C100_read_partial.
(** ... and written exactly when it lies within and may be set, changing its bits only. *)
Lemma write_int w f v u : narrow w -> field_valid f = true -> disjoint_locs (f_locs f) -> u < 2 ^ w -> v < 2 ^ f_ew f ->
  (insert_int w f v u <> None <-> fits w (f_locs f) /\ match f_default f with DDefault _ | DWithout => True | _ => False end) /\
  forall o, insert_int w f v u = Some o ->
  exists u', o = Done u' /\ u' < 2 ^ w /\
    (forall k, N.testbit u' k = match place (f_locs f) v k with Some b => b | None => N.testbit u k end) /\
    concat_value u' (f_locs f) = v mod 2 ^ width f.
Proof.
  intros Hw Hf Hd Hu Hv. split; [|intros o; apply insert_int_spec; auto].
  unfold insert_int. pose proof (in_integer_spec w f (narrow_pos w Hw) Hf) as H. destruct (in_integer w f); cbn [andb].
  - destruct (f_default f); cbn [mutable_]; split; intros Q; try congruence; try tauto; split; auto; apply H; auto.
  - split; [congruence|]. intros [Q _]. apply H in Q. discriminate.
Qed.
Theorem C100_write_partial :
  forall w f v u, narrow w -> field_valid f = true -> disjoint_locs (f_locs f) -> u < 2 ^ w -> v < 2 ^ f_ew f ->
  (insert_int w f v u <> None <-> fits w (f_locs f) /\ match f_default f with DDefault _ | DWithout => True | _ => False end) /\
  forall o, insert_int w f v u = Some o ->
  exists u', o = Done u' /\ u' < 2 ^ w /\
    (forall k, N.testbit u' k = match place (f_locs f) v k with Some b => b | None => N.testbit u k end) /\
    concat_value u' (f_locs f) = v mod 2 ^ width f.
Proof. exact write_int. Qed.
Print Assumptions C100_write_partial.
Example C100_case : insert_int 16 sbyte 0xA5 0xFFFF = Some (Done 0xAFF5) /\ extract_int 16 sbyte 0xAFF5 = Some (Done 0xA5) /\
  extract_int 8 sbyte 0xA5 = None.
Proof. vm_compute. auto. Qed.

(** ** C101: structured bindings *)
(** At full strength: the names bound take the values of the fields in the order
    in which the message declares them. False: they follow the order in which
    the fields start in the message. *)
Definition low_byte : mfield := {| f_name := 1; f_bytes := 1; f_default := DDefault 0; f_match := Always; f_ats := [loc_ 7 0] |}.
Definition second_byte : mfield := {| f_name := 2; f_bytes := 1; f_default := DDefault 0; f_match := Always; f_ats := [loc_ 15 8] |}.
Theorem C101_declared_order_refuted :
  exists l d st, message l = Some d /\ bindings 8 d st = [Some (Done 1); Some (Done 2)] /\
    map (value_in 8 st) l = [2; 1].
Proof. exists [second_byte; low_byte], [low_byte; second_byte], [1; 2]. vm_compute. auto. Qed.
Print Assumptions C101_declared_order_refuted.
(** Exactly: one name for each field, in ascending order of first bit, with its
    value (missing: the order of declaration). *)
Theorem C101_values_partial :
  forall es l d st, narrow es -> message l = Some d -> storage_ok es st -> fields_fit (nbits es st) d ->
  bindings es d st = map (fun f => Some (Done (value_in es st f))) d /\ Permutation d l /\
  StronglySorted (fun a b => key_of a <= key_of b) d.
Proof. exact bindings_spec. Qed.
Print Assumptions C101_values_partial.
(** In particular in the order of declaration for messages declared in that order. *)
Lemma declared_order es l d st : narrow es -> message l = Some d -> storage_ok es st -> fields_fit (nbits es st) d ->
  NoDup (map key_of l) -> StronglySorted (fun a b => key_of a <= key_of b) l ->
  bindings es d st = map (fun f => Some (Done (value_in es st f))) l.
Proof.
  intros He Hm Hs Hf Hnd Hl. destruct (bindings_spec es l d st He Hm Hs Hf) as (-> & Hp & Hd). f_equal.
  apply (sorted_unique key_of); auto. eapply Permutation_NoDup; [|exact Hnd]. apply Permutation_map. symmetry. auto.
Qed.
Theorem C101_declared_order_partial :
  forall es l d st, narrow es -> message l = Some d -> storage_ok es st -> fields_fit (nbits es st) d ->
  NoDup (map key_of l) -> StronglySorted (fun a b => key_of a <= key_of b) l ->
  bindings es d st = map (fun f => Some (Done (value_in es st f))) l.
Proof. exact declared_order. Qed.
Print Assumptions C101_declared_order_partial.
(** And in no other case: the fields that are bound are the declared ones in the order of declaration exactly
    if those start in ascending order; so one that starts before another is always bound before it. *)
Theorem C101_exact :
  forall l d, message l = Some d -> NoDup (map key_of l) ->
  (d = l <-> StronglySorted (fun a b => key_of a <= key_of b) l) /\
  forall a b, In a l -> In b l -> (key_of a < key_of b <-> exists l1 l2 l3, d = l1 ++ a :: l2 ++ b :: l3).
Proof.
  intros l d Hm Hnd. destruct (message_spec l d Hm) as (_ & _ & _ & Ed & Hp). assert (Hd : StronglySorted (fun a b => key_of a <= key_of b) d) by (rewrite Ed; apply sort_sorted). clear Ed. assert (Nd : NoDup (map key_of d)) by (eapply Permutation_NoDup; [|exact Hnd]; apply Permutation_map; symmetry; exact Hp). split; [split|].
  - intros <-. exact Hd.
  - intros Hl. apply (sorted_unique key_of); auto.
  - intros a b Ia Ib. apply (Permutation_in _ (Permutation_sym Hp)) in Ia, Ib. clear - Ia Ib Hd Nd. split.
    + intros Hlt. induction d as [|x d IH]; [destruct Ia|]. inversion_clear Hd as [|? ? Hd' Hx]. inversion_clear Nd as [|? ? Hn Nd']. rewrite Forall_forall in Hx. destruct Ia as [->|Ia].
      * destruct Ib as [->|Ib]; [lia|]. apply in_split in Ib as (l2 & l3 & ->). exists [], l2, l3. reflexivity.
      * destruct Ib as [->|Ib]; [specialize (Hx a Ia); lia|]. destruct (IH Hd' Nd' Ia Ib) as (l1 & l2 & l3 & ->). exists (x :: l1), l2, l3. reflexivity.
    + intros (l1 & l2 & l3 & ->). clear Ia Ib. induction l1 as [|x l1 IH]; cbn [app] in *; inversion_clear Hd as [|? ? Hd' Hx]; inversion_clear Nd as [|? ? Hn Nd']; [|apply IH; assumption].
      rewrite Forall_forall in Hx. assert (Ib : In b (l2 ++ b :: l3)) by (apply in_elt). specialize (Hx b Ib).
      assert (key_of a <> key_of b); [|lia]. intros E. apply Hn. rewrite E. apply in_map, Ib.
Qed.
Print Assumptions C101_exact.
Example C101_case : message [low_byte; second_byte] = Some [low_byte; second_byte] /\
  NoDup (map key_of [low_byte; second_byte]) /\ StronglySorted (fun a b => key_of a <= key_of b) [low_byte; second_byte] /\
  bindings 16 [low_byte; second_byte] [0x0201] = [Some (Done 1); Some (Done 2)].
Proof.
  split; [reflexivity|]. split; [repeat constructor; cbn; intuition congruence|].
  split; [repeat constructor; cbn; discriminate|]. vm_compute. reflexivity.
Qed.

(** ** C102: conditions on fields given by name *)
(** A condition compiles for a message exactly when the message has all its names
    and no list of values is empty. *)
Theorem C102_compiles :
  forall ftab ftype ids m,
  make_matcher ftab ftype ids m <> None <->
  incl (names_in m) (map (fun i => f_name (ftab i)) ids) /\ no_empty_in m.
Proof. exact make_compiles. Qed.
Print Assumptions C102_compiles.
(** At full strength: the matcher accepts exactly the messages in which the
    condition holds. False, by the answer of C02 on != against !=. *)
Definition ex_tab (i : nat) : mfield := {| f_name := i; f_bytes := 1; f_default := DDefault 0; f_match := Always; f_ats := [loc_ 7 0] |}.
Theorem C102_meaning_refuted :
  exists m x st,
    make_matcher ex_tab (fun _ => CInt 8 false) [0%nat] m = Some x /\
    eval (leaf_sem (extract_field ex_tab (fun _ => CInt 8 false) 8) (fun _ _ => true)) x (Message [0%nat] st) = true /\
    ~ condition (value_of ex_tab (fun _ => CInt 8 false) 8 [0%nat] st) (fun _ => True) m.
Proof.
  exists (MAnd (MNot (ByName 0 REq 3%Z)) (ByName 0 RNe 5%Z)), (Leaf (Rel 0 RNe 3%Z)), [5].
  split; [reflexivity|]. split; [vm_compute; reflexivity|]. cbn. intros [_ H]. apply H. vm_compute. reflexivity.
Qed.
Print Assumptions C102_meaning_refuted.
(** True, on messages and on raw data, when each field is compared by == and !=
    against one constant only (missing: several constants under negation or with !=) ... *)
Lemma meaning_one ftab ftype es psem ids e c m x : narrow es ->
  (forall i, field_valid (ftab i) = true /\ type_fits (ftype i) (ftab i)) -> names_apart ftab ids -> carries ftab es ids e ->
  constants (consts_one ftab ftype ids c) m -> wrapped (class_one ftab ftype c) m -> make_matcher ftab ftype ids m = Some x ->
  (eval (leaf_sem (extract_field ftab ftype es) psem) x e = true <->
   condition (value_of ftab ftype es ids (storage_of e)) (fun y => eval (leaf_sem (extract_field ftab ftype es) psem) y e = true) m).
Proof. intros. eapply one_constant; eauto. Qed.
Theorem C102_one_constant_partial :
  forall ftab ftype es psem ids e c m x, narrow es ->
  (forall i, field_valid (ftab i) = true /\ type_fits (ftype i) (ftab i)) -> names_apart ftab ids -> carries ftab es ids e ->
  constants (consts_one ftab ftype ids c) m -> wrapped (class_one ftab ftype c) m -> make_matcher ftab ftype ids m = Some x ->
  (eval (leaf_sem (extract_field ftab ftype es) psem) x e = true <->
   condition (value_of ftab ftype es ids (storage_of e)) (fun y => eval (leaf_sem (extract_field ftab ftype es) psem) y e = true) m).
Proof. exact meaning_one. Qed.
Print Assumptions C102_one_constant_partial.
(** ... and for all conditions without negation and !=, with any number of
    constants, lists of values among them. *)
Lemma meaning_plain ftab ftype es psem ids e m x : narrow es ->
  (forall i, field_valid (ftab i) = true /\ type_fits (ftype i) (ftab i)) -> names_apart ftab ids -> carries ftab es ids e ->
  plain m -> constants (consts_in_range ftab ftype ids) m -> wrapped (class_plain ftype) m -> make_matcher ftab ftype ids m = Some x ->
  (eval (leaf_sem (extract_field ftab ftype es) psem) x e = true <->
   condition (value_of ftab ftype es ids (storage_of e)) (fun y => eval (leaf_sem (extract_field ftab ftype es) psem) y e = true) m).
Proof. intros. eapply plain_condition; eauto. Qed.
Theorem C102_plain_partial :
  forall ftab ftype es psem ids e m x, narrow es ->
  (forall i, field_valid (ftab i) = true /\ type_fits (ftype i) (ftab i)) -> names_apart ftab ids -> carries ftab es ids e ->
  plain m -> constants (consts_in_range ftab ftype ids) m -> wrapped (class_plain ftype) m -> make_matcher ftab ftype ids m = Some x ->
  (eval (leaf_sem (extract_field ftab ftype es) psem) x e = true <->
   condition (value_of ftab ftype es ids (storage_of e)) (fun y => eval (leaf_sem (extract_field ftab ftype es) psem) y e = true) m).
Proof. exact meaning_plain. Qed.
Print Assumptions C102_plain_partial.
(** A handler of callbacks with such conditions runs exactly those whose condition
    and whose message's field constraints hold. *)
Theorem C102_callbacks_partial :
  forall ftab ftype es, narrow es ->
  (forall i, field_valid (ftab i) = true /\ type_fits (ftype i) (ftab i)) ->
  forall psem ids e, names_apart ftab ids -> carries ftab es ids e ->
  forall c ms (ds : list (declaration leaf)),
  Forall2 (fun m d => d_id d = fst (fst m) /\ d_user d <> None /\ d_user d = make_matcher ftab ftype ids (snd (fst m)) /\ d_fields d = snd m /\ d_conds d = []) ms ds ->
  Forall (fun m => constants (consts_one ftab ftype ids c) (snd (fst m)) /\ wrapped (class_one ftab ftype c) (snd (fst m)) /\ Forall (class_one ftab ftype c) (snd m)) ms ->
  let sem := leaf_sem (extract_field ftab ftype es) psem in
  forall id, In id (ran (fst (HandlerModel.handle sem (map (build leaf_eqb (leaf_implies ftype) leaf_neg) ds) e))) <->
    exists m fs, In (id, m, fs) ms /\ condition (value_of ftab ftype es ids (storage_of e)) (fun y => eval sem y e = true) m /\
      Forall (fun f => eval sem f e = true) fs.
Proof. exact callbacks_run. Qed.
Print Assumptions C102_callbacks_partial.
(** A condition by name on a table of two fields: an int8 in the low byte and a
    uint8 above it. *)
Definition two_tab (i : nat) : mfield :=
  {| f_name := i; f_bytes := 1; f_default := DDefault 0; f_match := Always; f_ats := [match i with O => loc_ 7 0 | _ => loc_ 15 8 end] |}.
Definition two_types (i : nat) : cty := match i with O => CInt 8 true | _ => CInt 8 false end.
Definition ex_cond : maker := MAnd (MNot (ByName 0 REq (-2)%Z)) (MOr (ByName 1 RGe 10%Z) (ByName 0 RLt 0%Z)).
Example C102_case :
  (forall i, field_valid (two_tab i) = true /\ type_fits (two_types i) (two_tab i)) /\ names_apart two_tab [0; 1]%nat /\
  carries two_tab 16 [0; 1]%nat (Message [0; 1]%nat [0x0AFF]) /\
  constants (consts_one two_tab two_types [0; 1]%nat (fun _ => (-2)%Z)) ex_cond /\
  exists x, make_matcher two_tab two_types [0; 1]%nat ex_cond = Some x /\
    eval (leaf_sem (extract_field two_tab two_types 16) (fun _ _ => true)) x (Message [0; 1]%nat [0x0AFF]) = true /\
    eval (leaf_sem (extract_field two_tab two_types 16) (fun _ _ => true)) x (Message [0; 1]%nat [0x0AFE]) = false.
Proof.
  split. { intros [|i]; split; vm_compute; auto. }
  split. { intros i j _ H. exact H. }
  split. { split; [repeat constructor|]. split; [|reflexivity]. intros f [<-|[<-|[]]] l [<-|[]]; vm_compute; discriminate. }
  split.
  { unfold ex_cond. cbn [constants]. unfold consts_one, in_range.
    repeat split; try (intros Q; first [discriminate Q|reflexivity]); destruct H as [<-|[<-|[]]]; vm_compute in *; congruence. }
  eexists. split; [vm_compute; reflexivity|]. vm_compute. auto.
Qed.
Example C102_case_in : exists x, make_matcher two_tab two_types [0; 1]%nat (MIn 1 [3; 5; 7]%Z) = Some x /\
  make_matcher two_tab two_types [0; 1]%nat (MIn 1 []) = None /\ make_matcher two_tab two_types [0]%nat (MIn 1 [3]%Z) = None /\
  eval (leaf_sem (extract_field two_tab two_types 16) (fun _ _ => true)) x (Raw [0x0700]) = true.
Proof. eexists. vm_compute. auto. Qed.

(** ** More computed cases: whole states, and programs that do not compile *)
Definition bytes2 : list mfield := [low_byte; second_byte].
Definition far_byte : mfield := {| f_name := 3; f_bytes := 1; f_default := DDefault 0; f_match := Always; f_ats := [at_dword 1 7 0] |}.
(** A view of the first element of two; owners copied from it; elements assigned. *)
Example C97_case_states :
  run 32 [Array [0xFFFFFFFF; 0xEEEEEEEE]; View bytes2 1 true (FromArray 0) [(1%nat, 1); (1%nat, 2)]; Set_ 0 [(2%nat, 7)]; Get 0 2;
          OwnerFrom bytes2 2 (FromHandle 0) [(1%nat, 3)]; Owner bytes2 1 [(2%nat, 9)]; Poke 0 1 0x180000001; Get 2 2] start =
  Some (Done ({| heap := [[0xFFFF0702; 0x80000001]; [0xFFFF0703; 0]; [0x0900]];
                 vars := [{| h_def := bytes2; h_store := 0; h_extent := 1; h_mut := true |};
                          {| h_def := bytes2; h_store := 1; h_extent := 2; h_mut := true |};
                          {| h_def := bytes2; h_store := 2; h_extent := 1; h_mut := true |}] |}, [Value 7; Value 9])).
Proof. vm_compute. reflexivity. Qed.
(** What does not compile: an element too large, an element beyond the array, a
    view longer than its source, a field beyond the view, values for a const view. *)
Example C97_case_refused :
  run 32 [Array [2 ^ 32]] start = None /\ run 32 [Array [0; 0]; Poke 0 2 1] start = None /\
  run 32 [Array [0; 0]; View bytes2 3 true (FromArray 0) []] start = None /\
  run 32 [Array [0; 0]; View [far_byte] 1 true (FromArray 0) []] start = None /\
  run 32 [Array [0; 0]; View bytes2 1 false (FromArray 0) [(1%nat, 1)]] start = None.
Proof. vm_compute. auto. Qed.
Example C99_case_least : extract_value_of 8 true low_byte [0x80] = Done (-128)%Z.
Proof. vm_compute. reflexivity. Qed.
Definition const_byte : mfield := {| f_name := 4; f_bytes := 1; f_default := DConst 5; f_match := Always; f_ats := [loc_ 7 0] |}.
Definition nine_bits : mfield := {| f_name := 5; f_bytes := 2; f_default := DDefault 0; f_match := Always; f_ats := [loc_ 8 0] |}.
Example C100_case_refused : extract_int 8 nine_bits 0 = None /\ extract_int 8 second_byte 0 = None /\
  extract_int 8 const_byte 0xFF = Some (Done 0xFF) /\ insert_int 8 const_byte 1 0 = None.
Proof. vm_compute. auto. Qed.
(** Names that are not places in the table: field 0 has the name 1 and field 1 the
    name 0. A condition on the name 0 reads the high byte. *)
Definition swapped_tab (i : nat) : mfield :=
  {| f_name := match i with O => 1 | _ => 0 end; f_bytes := 1; f_default := DDefault 0; f_match := Always; f_ats := [match i with O => loc_ 7 0 | _ => loc_ 15 8 end] |}.
Example C102_case_names : option_map (fun x => map (eval (leaf_sem (extract_field swapped_tab two_types 16) (fun _ _ => true)) x)
    [Message [0; 1]%nat [0x0302]; Message [0; 1]%nat [0x0203]]) (make_matcher swapped_tab two_types [0; 1]%nat (ByName 0 REq 3%Z)) = Some [true; false].
Proof. vm_compute. reflexivity. Qed.
(** Two fields of one name: the first is meant. *)
Definition same_tab (i : nat) : mfield :=
  {| f_name := 0; f_bytes := 1; f_default := DDefault 0; f_match := Always; f_ats := [match i with O => loc_ 7 0 | _ => loc_ 15 8 end] |}.
Example C102_case_first : option_map (fun x => map (eval (leaf_sem (extract_field same_tab two_types 16) (fun _ _ => true)) x)
    [Raw [0x0203]; Raw [0x0302]]) (make_matcher same_tab two_types [0; 1]%nat (ByName 0 REq 3%Z)) = Some [true; false].
Proof. vm_compute. reflexivity. Qed.

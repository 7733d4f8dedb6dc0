(** Exact characterisations where a property holds only in part: C02, C15, C62,
    C72, C73, C75, C100, C117 and C124. *)
From Coq Require Import String Ascii List NArith ZArith Bool Lia ZifyBool ZifyN ZifyNat Permutation Sorted.
From Verif Require FieldModel FieldSpec FieldProofs2 FieldProofs3 WideSpec WideProofs.
From Verif Require MatchModel FieldMatchersModel FieldMatchersSpec FieldMatchersProofs FieldMatchersProps.
From Verif Require MessageModel MessageSpec MessageProofs MessageProofs2 AccessModel AccessProofs4 MessageProps OutputProofs.
From Verif Require CatalogModel CatalogSpec LogModel LogProps BakedModel BakedSpec BakedProofs OutputModel OutputSpec OutputProofs4 OutputProps GenModel GenSpec.
From Verif Require Import ExactSpec.
Import ListNotations.

(** ** C02 *)
Section C02.
Import FieldMatchersModel FieldMatchersSpec FieldMatchersProofs FieldMatchersProps.
Local Open Scope Z_scope.
(** Of the implications the library claims, the false ones are those from != to another !=. *)
Theorem C02_exact :
  forall t o1 x o2 y,
  cty_ok t -> in_range t x -> in_range t y -> rel_implies t o1 x o2 y = Some true ->
  ((forall v, in_range t v -> rel_holds o1 v x -> rel_holds o2 v y) <-> ~ (o1 = RNe /\ o2 = RNe /\ x <> y)).
Proof.
  intros t o1 x o2 y Ht Hx Hy H. split.
  - intros A (-> & -> & Hn). specialize (A y Hy). cbn in A. apply A; auto.
  - intros A v Hv. apply (C02_implication_partial t o1 x o2 y v); auto.
    intros -> ->. destruct (Z.eq_dec x y); auto. exfalso. auto.
Qed.
Print Assumptions C02_exact.
Example C02_exact_case : rel_implies (CInt 8 false) RNe 3 RNe 5 = Some true /\ rel_implies (CInt 8 false) RLt 3 RLt 5 = Some true.
Proof. split; reflexivity. Qed.
End C02.

(** ** C15 *)
Section C15.
Import MessageModel MessageSpec MessageProofs2.
Local Open Scope N_scope.
(** Sorted lists with the same elements at every key are the same. *)
Lemma sorted_same {A} (key : A -> N) l : forall l', sorted key l -> sorted key l' ->
  (forall k, filter (with_key key k) l = filter (with_key key k) l') -> l = l'.
Proof.
  assert (M : forall a r b s, sorted key (a :: r) -> sorted key (b :: s) -> (forall k, filter (with_key key k) (a :: r) = filter (with_key key k) (b :: s)) -> key a <= key b).
  { intros a r b s Ha _ H. specialize (H (key b)).
    assert (I : In b (filter (with_key key (key b)) (a :: r))).
    { rewrite H. apply filter_In. split; [left; auto|]. unfold with_key. apply N.eqb_refl. }
    apply filter_In in I as [I _]. inversion Ha as [|? ? _ F]; subst. destruct I as [->|I]; [lia|]. rewrite Forall_forall in F. apply F. auto. }
  induction l as [|a l IH]; intros l' S1 S2 H.
  - destruct l' as [|b l']; auto. specialize (H (key b)). cbn [filter] in H. unfold with_key in H at 1. rewrite N.eqb_refl in H. discriminate.
  - destruct l' as [|b l'].
    + specialize (H (key a)). cbn [filter] in H. unfold with_key in H at 1. rewrite N.eqb_refl in H. discriminate.
    + assert (E : key a = key b).
      { apply N.le_antisymm; [eapply M; eauto|]. apply (M b l' a l); auto. }
      assert (Eab : a = b).
      { specialize (H (key a)). cbn [filter] in H. unfold with_key in H. rewrite <- E, N.eqb_refl in H. congruence. }
      subst b. f_equal. inversion S1; inversion S2; subst. apply IH; auto.
      intros k. specialize (H k). cbn [filter] in H. destruct (with_key key k a); congruence.
Qed.
(** Reordering the declaration gives the same message type exactly if fields that start at the
    same bit stay in the same order. *)
Theorem C15_exact :
  forall l l' m, Permutation l l' -> message l = Some m ->
  (message l = message l' <-> forall k, starting_at k l = starting_at k l').
Proof.
  intros l l' m Hp E. assert (E' : exists m', message l' = Some m').
  { pose proof (message_perm l l' Hp) as H. rewrite E in H. destruct (message l'); [eauto|contradiction]. }
  destruct E' as [m' E'].
  assert (G : forall l m, message l = Some m -> m = mp_sort (by_key key_of) l).
  { clear. intros l m E. pose proof E as E0. apply message_spec in E0 as (Hn & _). unfold message in E.
    destruct (names_distinct l && forallb locatable l && forallb field_valid l) eqn:B; [|discriminate]. injection E as <-.
    apply andb_prop in B as [B _]. apply andb_prop in B as [_ B]. unfold unique_by_name. rewrite <- (sort_key_lt l B).
    apply unique_id; [|intros f _ []]. eapply Permutation_NoDup; [|exact Hn]. apply Permutation_map. symmetry. apply sort_perm. }
  pose proof (G l m E). pose proof (G l' m' E'). subst m m'.
  rewrite E, E'. unfold starting_at. split.
  - intros Q k. injection Q as Q. pose proof (sort_stable key_of k l) as A. pose proof (sort_stable key_of k l') as B. rewrite Q in A. unfold with_key in A, B. congruence.
  - intros Q. f_equal. apply (sorted_same key_of); try apply sort_sorted.
    intros k. rewrite !sort_stable. apply Q.
Qed.
Print Assumptions C15_exact.
(** Two fields from the same bit and one from another: only the two must keep their order. *)
Example C15_exact_case :
  let a := MessageProps.fld 0 1 (DDefault 0) [MessageProps.loc_ 3 0] in let b := MessageProps.fld 1 1 (DDefault 0) [MessageProps.loc_ 7 0] in let c := MessageProps.fld 2 1 (DDefault 0) [MessageProps.loc_ 9 8] in
  message [a; b; c] = message [c; a; b] /\ message [a; b; c] <> message [c; b; a] /\ message [a; b; c] <> None.
Proof. vm_compute. repeat split; discriminate. Qed.
End C15.

(** ** C62 *)
Section C62.
Import CatalogModel.
Local Open Scope Z_scope.
Lemma utf8_low c : code_point c -> c < 128 -> utf8_bytes c = [c].
Proof. intros H L. unfold utf8_bytes. destruct (Z.ltb_spec c 128); [auto|lia]. Qed.
Lemma utf8_high c : code_point c -> 128 <= c -> Forall (fun b => 128 <= b < 256) (utf8_bytes c) /\ exists a b r, utf8_bytes c = a :: b :: r.
Proof.
  unfold code_point. intros H L. unfold utf8_bytes. destruct (Z.ltb_spec c 128); [lia|].
  assert (M : forall x, 0 <= x mod 64 < 64) by (intros; apply Z.mod_pos_bound; lia).
  pose proof (M c). pose proof (M (c / 64)). pose proof (M (c / 4096)).
  assert (0 <= c / 64 /\ 0 <= c / 4096 /\ 0 <= c / 262144) by (repeat split; apply Z.div_pos; lia).
  destruct (Z.ltb_spec c 2048); [|destruct (Z.ltb_spec c 65536)].
  - assert (c / 64 < 32) by (apply Z.div_lt_upper_bound; lia). split; [|eauto]. repeat constructor; lia.
  - assert (c / 4096 < 16) by (apply Z.div_lt_upper_bound; lia). split; [|eauto]. repeat constructor; lia.
  - assert (c / 262144 < 5) by (apply Z.div_lt_upper_bound; lia). split; [|eauto]. repeat constructor; lia.
Qed.
Lemma utf8_length l : Forall code_point l -> (length l <= length (flat_map utf8_bytes l))%nat /\ (length (flat_map utf8_bytes l) = length l -> Forall (fun c => c < 128) l).
Proof.
  induction 1 as [|c l Hc _ [IH1 IH2]]; [split; auto; constructor|]. cbn [flat_map]. rewrite app_length. cbn [length].
  destruct (Z_lt_ge_dec c 128) as [L|L].
  - rewrite utf8_low by auto. cbn [length]. split; [lia|]. intros E. constructor; [auto|]. apply IH2. lia.
  - destruct (utf8_high c Hc) as [_ (a & b & r & E)]; [lia|]. rewrite E. cbn [length]. split; lia.
Qed.
Lemma utf8_range l : Forall code_point l -> Forall (fun b => 0 <= b < 256) (flat_map utf8_bytes l).
Proof.
  induction 1 as [|c l Hc _ IH]; cbn [flat_map]; [constructor|]. apply Forall_app. split; auto.
  destruct (Z_lt_ge_dec c 128) as [L|L].
  - rewrite utf8_low by auto. unfold code_point in Hc. repeat constructor; lia.
  - destruct (utf8_high c Hc) as [F _]; [lia|]. eapply Forall_impl; [|exact F]. cbn. lia.
Qed.
Lemma flat_ascii l : Forall code_point l -> Forall (fun c => c < 128) l -> flat_map utf8_bytes l = l.
Proof. induction 1 as [|c l Hc _ IH]; intros F; auto. inversion F; subst. cbn [flat_map]. rewrite utf8_low, IH; auto. Qed.
Lemma flat_nonempty l : Forall code_point l -> l <> [] -> flat_map utf8_bytes l <> [].
Proof. intros H N E. apply utf8_length in H as [H _]. rewrite E in H. destruct l; [congruence|]. cbn in H. lia. Qed.
Lemma codes_unsigned l : map (char_code false) l = l.
Proof. induction l as [|b l IH]; auto. cbn [map]. rewrite IH. reflexivity. Qed.
Lemma text_some l : l <> [] -> Forall (fun c => 0 <= c) l -> message_text l = Some l.
Proof.
  intros N F. unfold message_text. destruct l; [congruence|]. replace (forallb _ _) with true; auto. symmetry. apply forallb_forall.
  intros x Hx. rewrite Forall_forall in F. specialize (F x Hx). lia.
Qed.
(** With an unsigned char, the catalog has one character for each byte of the UTF-8 of the text. *)
Theorem C62_unsigned_exact :
  forall source, source <> [] -> Forall code_point source ->
  message_text (map (char_code false) (flat_map utf8_bytes source)) = Some (flat_map utf8_bytes source).
Proof.
  intros s N H. rewrite codes_unsigned. apply text_some; [apply flat_nonempty; auto|]. eapply Forall_impl; [|apply utf8_range; eauto]. cbn. lia.
Qed.
Print Assumptions C62_unsigned_exact.
(** With a signed one, texts with other characters than ASCII fail. *)
Theorem C62_signed_exact :
  forall source, source <> [] -> Forall code_point source ->
  (Forall (fun c => c < 128) source -> message_text (map (char_code true) (flat_map utf8_bytes source)) = Some source) /\
  (~ Forall (fun c => c < 128) source -> message_text (map (char_code true) (flat_map utf8_bytes source)) = None).
Proof.
  intros s N H. split; intros A.
  - rewrite flat_ascii by auto. replace (map (char_code true) s) with s; [apply text_some; auto; eapply Forall_impl; [|exact H]; unfold code_point; cbn; lia|].
    clear N H. induction A as [|c s L _ IH]; auto. cbn [map]. rewrite <- IH. f_equal. unfold char_code. destruct (Z.leb_spec 128 c); [lia|]. reflexivity.
  - assert (X : exists c, In c s /\ 128 <= c).
    { clear N H. induction s as [|c s IH]; [exfalso; apply A; constructor|]. destruct (Z_lt_ge_dec c 128) as [L|L].
      - destruct IH as (d & I & K); [intros F; apply A; constructor; auto|]. exists d. split; [right|]; auto.
      - exists c. split; [left; auto|lia]. }
    destruct X as (c & I & L). rewrite Forall_forall in H. specialize (H c I). destruct (utf8_high c H L) as [F (a & b & r & E)].
    rewrite E in F. inversion F; subst. assert (J : In (a - 256) (map (char_code true) (flat_map utf8_bytes s))).
    { apply in_map_iff. exists a. split; [unfold char_code; destruct (Z.leb_spec 128 a); [reflexivity|lia]|]. apply in_flat_map. exists c. split; auto. rewrite E. left. auto. }
    unfold message_text. destruct (map _ _) as [|x l]; auto. destruct (forallb _ (x :: l)) eqn:Q; auto. rewrite forallb_forall in Q. specialize (Q _ J). lia.
Qed.
Print Assumptions C62_signed_exact.
(** So the text comes back exactly if it is ASCII, whatever char is. *)
Theorem C62_exact :
  forall char_signed source, source <> [] -> Forall code_point source ->
  (message_text (map (char_code char_signed) (flat_map utf8_bytes source)) = Some source <-> Forall (fun c => c < 128) source).
Proof.
  intros cs s N H. destruct cs.
  - destruct (C62_signed_exact s N H) as [A B]. split; auto. intros E. apply Forall_forall. intros c I.
    destruct (Z_lt_ge_dec c 128); auto. rewrite B in E; [discriminate|]. intros F. rewrite Forall_forall in F. specialize (F c I). lia.
  - rewrite C62_unsigned_exact by auto. split.
    + intros E. injection E as E. apply utf8_length; auto. rewrite E. auto.
    + intros F. rewrite flat_ascii; auto.
Qed.
Print Assumptions C62_exact.
Example C62_exact_case : utf8_bytes 8364 = [226; 130; 172] /\ utf8_bytes 128512 = [240; 159; 152; 128] /\
  message_text (map (char_code false) (flat_map utf8_bytes [104; 8364])) = Some [104; 226; 130; 172] /\ message_text (map (char_code true) (flat_map utf8_bytes [104; 8364])) = None.
Proof. repeat split; reflexivity. Qed.
End C62.
(** The two encodings agree where the first is defined. *)
Theorem C62_same_encoding : forall c, (0 <= c < 2048)%Z -> CatalogSpec.utf8 c = utf8_bytes c.
Proof. intros c H. unfold CatalogSpec.utf8, utf8_bytes. destruct (Z.ltb_spec c 128); auto. destruct (Z.ltb_spec c 2048); [auto|lia]. Qed.
Print Assumptions C62_same_encoding.

(** ** C72, C73, C75 *)
Section Logs.
Import LogModel.
(** An assertion with any text: its braces are places for arguments. *)
Theorem C72_assert_exact :
  forall config (arg val : Type) (F : string -> list arg -> string * list val) e text holds args,
  let fmt := ("Assertion failure: " ++ text)%string in
  cib_assert config F e text holds args =
  if specifiers text <=? length args then
    Some (if holds then [] else
      log config (extend e [(k_level, fatal)]) (F fmt (firstn (specifiers text) args)) ++ [Panicked (F fmt (firstn (specifiers text) args)) (skipn (specifiers text) args)])
  else None.
Proof.
  intros config arg val F e text holds args fmt. unfold cib_assert, cib_fatal, panic.
  change (specifiers ("Assertion failure: " ++ text)) with (specifiers text). destruct (specifiers text <=? length args)%nat; reflexivity.
Qed.
Print Assumptions C72_assert_exact.
(** A logger with a log_version gets the environment of the call, any other one the level MAX and
    nothing else, whatever the call's environment is. *)
Theorem C73_exact :
  forall config (arg val : Type) has_version version e f,
  @cib_log_v config arg val has_version version e f =
  match (if f =? default_flavor then config None else config (Some f)) with
  | None => []
  | Some g => if has_version g then [VersionLogged g (extend e [(k_flavor, f)])] else [Logged g [(k_level, level_max)] version]
  end.
Proof.
  intros config arg val hv version e f. unfold cib_log_v, log_version, get_config, flavor, extend. cbn [app]. unfold query. cbn [find fst snd option_map k_flavor Nat.eqb].
  destruct (f =? default_flavor)%nat; [destruct (config None)|destruct (config (Some f))]; reflexivity.
Qed.
Print Assumptions C73_exact.
(** The first of the settings that count. *)
Theorem C75_exact :
  forall (E : Type) (dec : forall a b : E, {a = b} + {a <> b}) dflt set step flow,
  get_log_env dec dflt set step flow = LogProps.first_set dflt (really_set dec dflt set) step flow.
Proof.
  intros E dec dflt set step flow. unfold get_log_env, get_log_env1, log_env, LogProps.first_set, really_set.
  destruct (set step) as [e|].
  - destruct (dec e dflt) as [->|]; [|reflexivity]. destruct (string_dec flow "default") as [->|_].
    + destruct (set "default"%string) as [d|]; [destruct (dec d dflt); subst|]; reflexivity.
    + destruct (set flow) as [d|]; [destruct (dec d dflt) as [->|]; [|reflexivity]|destruct (dec dflt dflt); [|congruence]];
      (destruct (set "default"%string) as [g|]; [destruct (dec g dflt); subst|]; reflexivity).
  - destruct (dec dflt dflt) as [_|]; [|congruence]. destruct (string_dec flow "default") as [->|_].
    + destruct (set "default"%string) as [d|]; [destruct (dec d dflt); subst|]; reflexivity.
    + destruct (set flow) as [d|]; [destruct (dec d dflt) as [->|]; [|reflexivity]|destruct (dec dflt dflt); [|congruence]];
      (destruct (set "default"%string) as [g|]; [destruct (dec g dflt); subst|]; reflexivity).
Qed.
Print Assumptions C75_exact.
Example C73_exact_case : @cib_log_v (fun _ => Some 0) nat nat (fun _ => false) ("v"%string, []) [(k_module, 5)] 8 = [Logged 0 [(k_level, 0)] ("v"%string, [])]. Proof. reflexivity. Qed.
Example C75_exact_case : get_log_env Nat.eq_dec 7 (fun n => if string_dec n "step" then Some 7 else if string_dec n "default" then Some 4 else None) "step" "flow" = 4. Proof. reflexivity. Qed.
Example C72_exact_case : specifiers "a {} b {{" = 1 /\ cib_assert (fun _ => None) (fun s (l : list nat) => (s, l)) [] "T{}" false [1; 2] = Some [Panicked ("Assertion failure: T{}"%string, [1]) [2]].
Proof. split; reflexivity. Qed.
End Logs.

(** ** C100 *)
Section C100.
Import FieldModel FieldSpec FieldProofs2 WideSpec WideProofs MessageModel MessageSpec MessageProofs AccessModel AccessProofs4.
Local Open Scope N_scope.
Lemma image_one w u : image w [u] = u.
Proof. cbn [image]. lia. Qed.
Lemma nbits_one w u : nbits w [u] = w.
Proof. unfold nbits. cbn [length]. lia. Qed.
Lemma width_pos w : elem_width w -> 0 < w.
Proof. unfold elem_width. lia. Qed.
(** Reading an integer of any width, 64 bits included: the bits at the seats of the locations. *)
Theorem C100_read_exact :
  forall w f u, elem_width w -> field_valid f = true -> u < 2 ^ w ->
  (fits w (f_locs f) -> extract_int w f u = Some (Done (concat_value u (map (seat w) (f_locs f))))) /\
  (~ fits w (f_locs f) -> extract_int w f u = None).
Proof.
  intros w f u Hw Hf Hu. pose proof (in_integer_spec w f (width_pos w Hw) Hf) as H. unfold extract_int. destruct (in_integer w f); split; intros Q; auto.
  - rewrite read_exact; auto.
    + rewrite image_one. auto.
    + apply field_valid_wf; auto.
    + repeat constructor; auto.
    + rewrite nbits_one. apply fits_seat; auto.
  - exfalso. apply Q, H. auto.
  - apply H in Q. discriminate.
Qed.
Print Assumptions C100_read_exact.
(** Writing one. *)
Theorem C100_write_exact :
  forall w f v u, elem_width w -> field_valid f = true -> u < 2 ^ w -> v < 2 ^ f_ew f ->
  (insert_int w f v u <> None <-> fits w (f_locs f) /\ match f_default f with DDefault _ | DWithout => True | _ => False end) /\
  forall o, insert_int w f v u = Some o ->
  exists u', o = Done u' /\ u' < 2 ^ w /\ forall k, N.testbit u' k = stored w (f_ew f) (f_locs f) v (N.testbit u) k.
Proof.
  intros w f v u Hw Hf Hu Hv. pose proof (in_integer_spec w f (width_pos w Hw) Hf) as H. unfold insert_int.
  destruct (in_integer w f); cbn [andb].
  2:{ split; [|discriminate]. split; [congruence|]. intros [Q _]. apply H in Q. discriminate. }
  assert (Q : fits w (f_locs f)) by (apply H; auto). split.
  - destruct (f_default f); cbn [mutable_]; split; intros X; try congruence; tauto.
  - intros o E. destruct (mutable_ (f_default f)); [|discriminate]. injection E as <-.
    destruct (write_exact w (f_ew f) (f_locs f) v [u]) as (st' & E & L & S' & B); auto.
    + apply field_valid_wf; auto.
    + repeat constructor; auto.
    + rewrite nbits_one. apply fits_seat; auto.
    + rewrite E. cbn [bind]. destruct st' as [|u' [|? ?]]; try discriminate. exists u'. split; auto. inversion S'; subst. split; auto.
      intros k. specialize (B k). rewrite !image_one in B. auto.
Qed.
Print Assumptions C100_write_exact.
(** In 64 bits, a field in the upper dword is read from and written to the lower one. *)
Example C100_exact_case :
  let f := MessageProps.fld 0 1 (DDefault 0) [MessageProps.loc_ 39 32] in
  field_valid f = true /\ extract_int 64 f 0x1234567890 = Some (Done 0x90) /\ insert_int 64 f 0xff 0x1234567800 = Some (Done 0x12345678ff).
Proof. vm_compute. auto. Qed.
End C100.

(** ** C117 *)
Section C117.
Import GenModel GenSpec OutputModel OutputSpec OutputProofs4 OutputProps.
(** The masked id selects. *)
Definition same_masked (id : Z) (m : xml_message) : bool := Z.eqb (Z.of_N (x_id m) mod 2 ^ 28) (id mod 2 ^ 28).
Lemma masked_mod id m : masked id m = same_masked id m.
Proof. unfold masked, same_masked. change 268435455%Z with (Z.ones 28). rewrite !Z.land_ones by lia. reflexivity. Qed.
(** What a host finds for any id: the texts of all messages with the same low 28 bits, those
    without arguments first. *)
Theorem C117_exact :
  forall c y id,
  Forall legal (labels c) -> Forall (fun t => legal t /\ closed t /\ ~ has_cr t /\ no_amp t) (texts c) -> reads (write_xml c) y ->
  look_up y id = map (fun m => printf_format (x_text m) (x_args m))
    (filter (same_masked id) (filter without_args (c_messages c)) ++ filter (same_masked id) (filter (fun m => negb (without_args m)) (c_messages c)))%list.
Proof.
  intros c y id L T R. destruct (C116_collateral_reads_back_partial c L T) as (y0 & R0 & W & U). rewrite (U y R). clear U.
  rewrite <- look_up_layout, W. unfold means. rewrite look_up_document. f_equal. rewrite filter_app. f_equal; apply filter_ext; apply masked_mod.
Qed.
Print Assumptions C117_exact.
(** So a message is found alone exactly if no other has the same low 28 bits. *)
Theorem C117_alone_exact :
  forall c y m,
  Forall legal (labels c) -> Forall (fun t => legal t /\ closed t /\ ~ has_cr t /\ no_amp t) (texts c) -> reads (write_xml c) y ->
  In m (c_messages c) -> NoDup (c_messages c) ->
  (length (look_up y (Z.of_N (x_id m))) = 1 <-> forall m', In m' (c_messages c) -> (x_id m' mod 2 ^ 28 = x_id m mod 2 ^ 28)%N -> m' = m).
Proof.
  intros c y m L T R I N. rewrite (C117_exact c y _ L T R), map_length, <- filter_app.
  set (l := (filter without_args (c_messages c) ++ filter (fun m => negb (without_args m)) (c_messages c))%list).
  assert (P : Permutation l (c_messages c)).
  { unfold l. clear. induction (c_messages c) as [|x r IH]; auto. cbn [filter]. destruct (without_args x); cbn [negb].
    - cbn. constructor. exact IH.
    - symmetry. apply Permutation_cons_app. symmetry. exact IH. }
  assert (Nl : NoDup l) by (eapply Permutation_NoDup; [symmetry; exact P|auto]).
  assert (Il : In m l) by (eapply Permutation_in; [symmetry; exact P|auto]).
  assert (X : forall m', In m' (c_messages c) <-> In m' l) by (intros m'; split; apply Permutation_in; [symmetry|]; exact P).
  assert (Y : forall m', same_masked (Z.of_N (x_id m)) m' = true <-> (x_id m' mod 2 ^ 28 = x_id m mod 2 ^ 28)%N).
  { intros m'. unfold same_masked. rewrite Z.eqb_eq. change (2 ^ 28)%Z with (Z.of_N (2 ^ 28)). rewrite <- !N2Z.inj_mod. apply N2Z.inj_iff. }
  assert (F : In m (filter (same_masked (Z.of_N (x_id m))) l)) by (apply filter_In; split; auto; apply Y; auto).
  assert (NF := NoDup_filter (same_masked (Z.of_N (x_id m))) Nl). split.
  - intros E m' I' Em. assert (F' : In m' (filter (same_masked (Z.of_N (x_id m))) l)) by (apply filter_In; split; [apply X; auto|apply Y; auto]).
    destruct (filter _ l) as [|a [|? ?]]; try discriminate. destruct F as [F|[]], F' as [F'|[]]. congruence.
  - intros A. destruct (filter (same_masked (Z.of_N (x_id m))) l) as [|a [|b r]] eqn:E; [destruct F|reflexivity|]. exfalso.
    assert (Q : forall z, In z (a :: b :: r) -> z = m) by (intros z Hz; rewrite <- E in Hz; apply filter_In in Hz as [Hz1 Hz2]; apply A; [apply X; auto|apply Y; auto]).
    pose proof (Q a (or_introl eq_refl)). pose proof (Q b (or_intror (or_introl eq_refl))). subst. inversion NF as [|? ? Z _]; subst. apply Z. left. auto.
Qed.
Print Assumptions C117_alone_exact.
Example C117_exact_case : option_map (fun y => (look_up y 5, look_up y 268435461, look_up y 6)%Z) (the_reading (write_xml wide_case)) = Some (["five"; "wide"], ["five"; "wide"], [])%string.
Proof. vm_compute. reflexivity. Qed.
End C117.

(** ** C124 *)
Section C124.
Import FieldMatchersModel FieldMatchersSpec BakedModel BakedSpec BakedProofs.
Local Open Scope Z_scope.
(** The order is right exactly if the selection is made at compile time, or not by the ARC
    instructions, or the keys have the same sign. *)
Theorem C124_select_lt_exact :
  forall (A : Type) (arc constant_evaluated : bool) (t : cty) (value_bytes lhs rhs : Z) (first second : A),
  field_type t -> in_range t lhs -> in_range t rhs -> first <> second ->
  (((lhs < rhs -> select_lt arc constant_evaluated (bytes_of t) value_bytes lhs rhs first second = first) /\
    (rhs <= lhs -> select_lt arc constant_evaluated (bytes_of t) value_bytes lhs rhs first second = second)) <->
   constant_evaluated = true \/ arc = false \/ 4 < bytes_of t \/ 4 < value_bytes \/ (0 <= lhs <-> 0 <= rhs)).
Proof.
  intros A arc ce t vb lhs rhs x y Ht Hl Hr Hn. split.
  - intros [H1 H2]. destruct ce; auto. destruct arc; auto. destruct (Z_lt_ge_dec 4 (bytes_of t)) as [|K]; auto. destruct (Z_lt_ge_dec 4 vb) as [|V]; auto.
    right. right. right. right. unfold select_lt, optimized in H1, H2. cbn [andb] in H1, H2.
    destruct (Z.leb_spec vb 4); [|lia]. destruct (Z.leb_spec (bytes_of t) 4) as [K'|]; [|lia]. cbn [andb] in H1, H2.
    unfold arc_select_lt, mov, cmp in H1, H2. cbn [carry] in H1, H2.
    assert (W := bytes_4 t Ht (proj2 (Z.leb_le _ _) K')).
    assert (B : (0 <= lhs < 2 ^ 32 /\ 0 <= rhs < 2 ^ 32) \/ (- 2 ^ 31 <= lhs < 2 ^ 31 /\ - 2 ^ 31 <= rhs < 2 ^ 31)).
    { clear - Ht Hl Hr W. unfold field_type, in_range, cmin, cmax, width_of in *. destruct t as [w s| |w s]; [|lia|];
        destruct Ht as [-> | [-> | [-> | ->]]]; destruct s; cbn in *; lia. }
    destruct B as [B|[B1 B2]]; [tauto|].
    assert (U : forall v, - 2 ^ 31 <= v < 2 ^ 31 -> to_u32 v = if v <? 0 then v + 2 ^ 32 else v).
    { intros v Hv. unfold to_u32. destruct (Z.ltb_spec v 0).
      - rewrite <- (Z_mod_plus_full v 1). rewrite Z.mod_small by lia. lia.
      - apply Z.mod_small. lia. }
    rewrite !U in H1, H2 by auto. destruct (Z.ltb_spec lhs 0), (Z.ltb_spec rhs 0); try lia.
    + destruct (Z.ltb_spec (lhs + 2 ^ 32) rhs) in H1; [lia|]. exfalso. apply Hn. symmetry. apply H1. lia.
    + destruct (Z.ltb_spec lhs (rhs + 2 ^ 32)) in H2; [|lia]. exfalso. apply Hn. apply H2. lia.
  - intros H. assert (E : select_lt arc ce (bytes_of t) vb lhs rhs x y = if lhs <? rhs then x else y).
    { destruct H as [-> | [-> | [H | [H | H]]]].
      - reflexivity.
      - unfold select_lt, optimized. destruct ce; reflexivity.
      - unfold select_lt, optimized. destruct (Z.leb_spec (bytes_of t) 4); [lia|]. rewrite !andb_false_r. destruct ce; reflexivity.
      - unfold select_lt, optimized. destruct (Z.leb_spec vb 4); [lia|]. cbn [andb]. rewrite andb_false_r. destruct ce; reflexivity.
      - apply select_lt_right; auto. }
    rewrite E. destruct (Z.ltb_spec lhs rhs); split; auto; lia.
Qed.
Print Assumptions C124_select_lt_exact.
Example C124_exact_case : select_lt true false (bytes_of (CInt 32 true)) 8 (-1) 1 1%nat 2%nat = 1%nat /\ select_lt true false (bytes_of (CInt 64 true)) 4 (-1) 1 1%nat 2%nat = 1%nat /\
  select_lt true false (bytes_of (CInt 16 true)) 2 (-1) 1 1%nat 2%nat = 2%nat.
Proof. vm_compute. auto. Qed.
End C124.

(** Theorem C153. *)
From Coq Require Import String Ascii Bool Arith List ZArith Lia.
From Verif Require Import GenModel SymbolModel JsonModel JsonSpec JsonProofs JsonProofs2 JsonProofs3.
Import ListNotations.
Local Open Scope Z_scope.

(** ** C153: a JSON file reads back as what was written *)
(** A value without surrogates and with different texts as keys reads back as it is,
    whatever ends the lines of the file. *)
Theorem C153_partial crlf v : plain v -> load (save crlf v) = Some v.
Proof.
  intros H. unfold load, save. pose proof (plain_ok v H) as O. rewrite from_to_file by (now apply dump_printable). rewrite loads_dump by auto. now rewrite plain_seen.
Qed.
Print Assumptions C153_partial.
(** Any value reads back with its surrogates joined, the keys as texts, and of the keys
    that are then equal the last value. *)
Theorem C153_exact crlf v : value_ok v -> load (save crlf v) = Some (seen v).
Proof. intros O. unfold load, save. rewrite from_to_file by (now apply dump_printable). now apply loads_dump. Qed.
Print Assumptions C153_exact.
(** What was read reads back as it is. *)
Theorem C153_again c1 c2 v w : value_ok v -> load (save c1 v) = Some w -> load (save c2 w) = Some w.
Proof. intros O H. rewrite C153_exact in H by auto. injection H as <-. rewrite C153_exact by (now apply seen_ok). now rewrite seen_seen. Qed.
Print Assumptions C153_again.
(** Different plain values have different files. *)
Theorem C153_differ c v w : plain v -> plain w -> save c v = save c w -> v = w.
Proof. intros A B E. apply (C153_partial c) in A, B. congruence. Qed.
Print Assumptions C153_differ.
(** The text has printable ASCII characters and newlines only: it does not matter how the
    file is encoded. *)
Theorem C153_ascii v : value_ok v -> Forall (fun c => 32 <= c <= 126 \/ c = 10) (save false v).
Proof.
  intros O. unfold save, to_file. cbn [andb]. assert (E : forall t : text, flat_map (fun c => [c]) t = t) by (induction t; cbn; congruence). rewrite E. apply (dump_printable v O).
Qed.
Print Assumptions C153_ascii.
(** A text with the two halves of a character reads back as the character. *)
Theorem C153_refuted : exists v, value_ok v /\ load (save false v) = Some (VText [128512]) /\ v = VText [55357; 56832].
Proof. exists (VText [55357; 56832]). split; [|split; reflexivity]. cbn. repeat constructor; unfold char_ok; lia. Qed.
Print Assumptions C153_refuted.
(** A number and its text as keys of one dict: the later is read for both. *)
Theorem C153_keys_refuted : exists d, value_ok (VDict d) /\ length d = 2%nat /\ load (save false (VDict d)) = Some (VDict [(KText (lit "1"), VText (lit "b"))]).
Proof. exists [(KNum 1, VText (lit "a")); (KText (lit "1"), VText (lit "b"))]. split; [|split; reflexivity]. cbn. repeat split; repeat constructor; unfold char_ok; lia. Qed.
Print Assumptions C153_keys_refuted.

(** Messages and modules. *)
Theorem C153_message crlf m : message_ok m -> exists v, load (save crlf (of_message m)) = Some v /\ to_message v = Some m.
Proof. intros H. exists (of_message m). split. apply C153_partial, of_message_plain, H. apply to_of_message. apply H. Qed.
Print Assumptions C153_message.
Theorem C153_module crlf m : module_ok m -> exists v, load (save crlf (of_module m)) = Some v /\ to_module v = Some m.
Proof. intros H. exists (of_module m). split. apply C153_partial, of_module_plain, H. apply to_of_module. Qed.
Print Assumptions C153_module.
(** The catalog: read as a stable catalog it has the messages and modules that were
    written, in order, and the decoder finds for every value of an enumeration the name
    that was given to it last. *)
Theorem C153_catalog crlf ms ds enums : Forall message_ok ms -> Forall module_ok ds -> enums_ok enums -> NoDup (map fst enums) ->
  exists v, load (save crlf (catalog ms ds enums)) = Some v /\ stable_of v = Some (ms, ds) /\
    forall E es z, In (E, es) enums -> enumerator v E z = last_name z es.
Proof.
  intros Hm Hd He N. rewrite C153_exact by (now apply catalog_ok). eexists. split; [reflexivity|]. rewrite seen_catalog by auto.
  set (es := VDict (merged (map shown (enums_dict enums)))).
  set (v := VDict [(KText (lit "messages"), VList (map of_message ms)); (KText (lit "modules"), VList (map of_module ds)); (KText (lit "enums"), es)]).
  assert (V1 : item "messages" v = Some (VList (map of_message ms))) by reflexivity.
  assert (V2 : item "modules" v = Some (VList (map of_module ds))) by reflexivity.
  assert (V3 : item "enums" v = Some es) by reflexivity. split.
  - unfold stable_of. rewrite V1, V2. cbn [bind each]. rewrite (all_some_map of_message to_message).
    + rewrite (all_some_map of_module to_module); auto. intros; apply to_of_module.
    + intros m I. apply to_of_message. rewrite Forall_forall in Hm. apply (Hm m I).
  - intros E xs z I. unfold enumerator. rewrite V3. cbn [bind]. unfold es. rewrite (seen_enum enums E xs) by auto. cbn [bind].
    rewrite seen_name. destruct (last_name z xs); reflexivity.
    unfold enums_ok in He. rewrite Forall_forall in He. apply (He _ I).
Qed.
Print Assumptions C153_catalog.
(** What the compiler's symbols give is such: characters of one byte, and named arguments
    that have a place or end just before they begin. *)
Theorem C153_symbols m : let byte t := Forall (fun c => 0 <= c < 256) t in
  byte (sm_text m) -> Forall (fun a => byte (sn_name a) /\ 0 <= sn_begin a /\ (sn_begin a <= sn_end a \/ sn_end a = sn_begin a - 1)) (sm_named m) ->
  Forall (fun t => byte (st_name t) /\ byte (st_value t)) (sm_tags m) -> message_ok (of_symbol m).
Proof.
  intros byte A B C. assert (P : forall t, byte t -> plain_text t). { intros t. apply Forall_impl. intros c H. unfold char_ok, surrogate. lia. }
  unfold message_ok, of_symbol. cbn [g_text g_args g_named g_tags]. repeat apply conj; auto.
  - apply Forall_forall. intros x H. apply in_map_iff in H. destruct H as (s & <- & _). apply lit_plain_all.
  - apply Forall_forall. intros x H. apply in_map_iff in H. destruct H as (s & <- & I). rewrite Forall_forall in B. destruct (B _ I) as (B1 & B2 & B3). repeat split; cbn; auto.
  - apply Forall_forall. intros x H. apply in_map_iff in H. destruct H as (s & <- & I). rewrite Forall_forall in C. destruct (C _ I). split; cbn; auto.
Qed.
Print Assumptions C153_symbols.
(** A named argument that ends further before its begin comes back changed. *)
Theorem C153_named_refuted : exists m m', load (save false (of_message m)) = Some (of_message m) /\ to_message (of_message m) = Some m' /\ m <> m' /\
  g_named m = [{| n_name := lit "x"; n_begin := 5; n_end := 1 |}] /\ g_named m' = [{| n_name := lit "x"; n_begin := 5; n_end := 4 |}].
Proof.
  exists {| g_text := lit "t"; g_args := []; g_id := 0; g_named := [{| n_name := lit "x"; n_begin := 5; n_end := 1 |}]; g_tags := [] |}.
  eexists. split; [vm_compute; reflexivity|]. split; [vm_compute; reflexivity|]. split; [vm_compute; discriminate|]. split; reflexivity.
Qed.
Print Assumptions C153_named_refuted.

(** A catalog with a quote, a backslash, a newline and a character of two bytes. *)
Definition case_message : message :=
  {| g_text := lit "say " ++ [34; 92; 10; 195; 169]; g_args := [lit "encode_32<int>"]; g_id := 7;
     g_named := [{| n_name := lit "x"; n_begin := 4; n_end := 6 |}; {| n_name := lit "y"; n_begin := 1; n_end := 0 |}]; g_tags := [{| t_name := lit "a"; t_value := [] |}] |}.
Example C153_case_text : save false (of_module {| d_text := lit "say " ++ [34; 92; 10; 195; 169]; d_id := -1 |}) =
  lit "{" ++ [10] ++ lit "    ""string"": ""say \""\\\n\u00c3\u00a9""," ++ [10] ++ lit "    ""id"": -1" ++ [10] ++ lit "}".
Proof. vm_compute. reflexivity. Qed.
Example C153_case : Forall message_ok [case_message] /\
  let v := catalog [case_message] [{| d_text := lit "m"; d_id := 3 |}] [(lit "E", [(lit "a", 0); (lit "b", 1); (lit "c", 0)])] in
  exists w, load (save true v) = Some w /\ stable_of w = Some ([case_message], [{| d_text := lit "m"; d_id := 3 |}]) /\ enumerator w (lit "E") 0 = Some (lit "c") /\ enumerator w (lit "E") 1 = Some (lit "b").
Proof.
  split.
  - constructor; [|constructor]. assert (P : forall s, plain_text (lit s)) by apply lit_plain_all.
    split; [|split; [|split]].
    + apply plain_app; [apply P|]. apply Forall_forall. intros c H. cbn in H. unfold char_ok, surrogate. lia.
    + apply Forall_cons; [apply P|constructor].
    + apply Forall_cons; [|apply Forall_cons; [|constructor]]; (split; [apply P|cbn; lia]).
    + apply Forall_cons; [|constructor]. split; [apply P|constructor].
  - eexists. split; [vm_compute; reflexivity|]. vm_compute. auto.
Qed.

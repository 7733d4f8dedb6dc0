(** C116, C117: the XML collateral. *)
From Coq Require Import String Ascii Bool Arith ZArith NArith List Lia.
From Verif Require Import GenModel GenSpec OutputModel OutputSpec OutputProofs OutputProofs2 OutputProofs3 OutputProofs4.
Import ListNotations.
Local Open Scope list_scope.
Local Open Scope string_scope.

(** ** C116 *)
(** The file reads as one document, and that says what the collateral is: the client,
    its guid, the enumerations, the modules, the messages with and without arguments.
    Missing: texts with &, ]]> or a carriage return. *)
Theorem C116_collateral_reads_back_partial c :
  Forall legal (labels c) -> Forall (fun t => legal t /\ closed t /\ ~ has_cr t /\ no_amp t) (texts c) ->
  exists y, reads (write_xml c) y /\ without_layout y = means c /\ forall y', reads (write_xml c) y' -> y' = y.
Proof.
  intros L T. assert (T1 : good_texts c) by (eapply Forall_impl; [|exact T]; cbn; tauto).
  destruct (written_reads c L T1) as (y & R & W). exists y. split; [exact R|]. split.
  - rewrite W. apply document_eq. intros t I. rewrite Forall_forall in T. apply no_amp_amp. apply (T t I).
  - intros y' R'. exact (reads_unique _ _ _ R' R).
Qed.
Print Assumptions C116_collateral_reads_back_partial.
(** Of the texts without ]]> and carriage returns it is those without & that come back. *)
Theorem C116_exact c : Forall legal (labels c) -> Forall (fun t => legal t /\ closed t /\ ~ has_cr t) (texts c) ->
  exists y, reads (write_xml c) y /\ without_layout y = document amp c /\ (without_layout y = means c <-> Forall no_amp (texts c)).
Proof.
  intros L T. assert (T1 : good_texts c) by (eapply Forall_impl; [|exact T]; cbn; tauto).
  destruct (written_reads c L T1) as (y & R & W). exists y. split; [exact R|]. split; [exact W|].
  rewrite W. unfold means. rewrite document_eq, Forall_forall. split; intros H t I; [apply amp_same|apply no_amp_amp]; auto.
Qed.
Print Assumptions C116_exact.
Lemma not_in_text c t : all_chars (fun a => negb (Ascii.eqb a c)) t = true -> ~ char_in c t.
Proof. intros H I. pose proof (char_in_all _ _ _ H I) as E. cbn in E. rewrite Ascii.eqb_refl in E. discriminate. Qed.
Lemma closed_without t : all_chars (fun a => negb (Ascii.eqb a ">")) t = true -> closed t.
Proof.
  intros H (u & v & ->). assert (I : char_in ">" (u ++ "]]>" ++ v)) by (exists (u ++ "]]"), v; rewrite app_assoc_s; reflexivity).
  pose proof (char_in_all _ _ _ H I) as E. discriminate.
Qed.
Definition amp_case : collateral :=
  {| client_name := "c"; version := "1"; guid_id := "g"; guid_mask := "m"; c_enums := []; c_modules := [(0%Z, "drivers & ports")]; c_messages := [] |}.
Theorem C116_ampersand_refuted :
  exists c, Forall legal (labels c) /\ Forall (fun t => legal t /\ closed t /\ ~ has_cr t) (texts c) /\ exists y, reads (write_xml c) y /\ without_layout y <> means c.
Proof.
  exists amp_case. assert (T : Forall (fun t => legal t /\ closed t /\ ~ has_cr t) (texts amp_case)).
  { constructor; [|constructor]. split; [reflexivity|]. split; [apply closed_without; reflexivity|apply not_in_text; reflexivity]. }
  assert (L : Forall legal (labels amp_case)) by (repeat constructor).
  split; [exact L|]. split; [exact T|].
  destruct (C116_exact amp_case L T) as (y & R & _ & I). exists y. split; [exact R|]. rewrite I. intros F. inversion F as [|? ? A _]; subst.
  apply A. exists "drivers ", " ports". reflexivity.
Qed.
Print Assumptions C116_ampersand_refuted.
(** A catalog with every kind of entry, read back by computing. *)
Definition whole_case : collateral :=
  {| client_name := "a ""quoted"" <client> & co"; version := "1.2"; guid_id := "01-02"; guid_mask := "ff";
     c_enums := [("ns::E", (1%Z, [("A", 0%Z); ("B", (-2)%Z)])); ("F", (2%Z, []))];
     c_modules := [(0%Z, "default"); (7%Z, "i < j")];
     c_messages := [ {| x_id := 17%N; x_lookup := None; x_args := []; x_text := "hello" |};
                     {| x_id := 3000000%N; x_lookup := Some (1, 1)%Z; x_args := [Enc "encode_32" "int"; Enc "encode_u32" "unsigned int"]; x_text := "x {} y {}" |};
                     {| x_id := 18%N; x_lookup := None; x_args := []; x_text := "" |} ] |}.
Definition the_reading (file : string) : option xml :=
  match after "<?xml" (line_ends file) with
  | Some d => match until "?>" d with Some (_, String _ b) => match read_element 3000 b with Some (e, EmptyString) => Some e | _ => None end | _ => None end
  | None => None
  end.
Example C116_case : option_map without_layout (the_reading (write_xml whole_case)) = Some (means whole_case).
Proof. vm_compute. reflexivity. Qed.
Example C116_hypotheses : Forall legal (labels whole_case) /\ Forall (fun t => legal t /\ closed t /\ ~ has_cr t /\ no_amp t) (texts whole_case).
Proof.
  split; repeat (constructor; [first [reflexivity | split; [reflexivity|]; split; [apply closed_without; reflexivity|]; split; apply not_in_text; reflexivity]|]); constructor.
Qed.
(** A carriage return comes back as a line feed; ]]> ends the section early. *)
Definition odd_case (t : string) : collateral :=
  {| client_name := "c"; version := "1"; guid_id := "g"; guid_mask := "m"; c_enums := []; c_modules := [(0%Z, t)]; c_messages := [] |}.
Example C116_needed_cr : exists y, the_reading (write_xml (odd_case (String (ascii_of_nat 13) "x"))) = Some y /\ without_layout y = means (odd_case (String (ascii_of_nat 10) "x")).
Proof. eexists. split; vm_compute; reflexivity. Qed.
Example C116_needed_closed : exists y, the_reading (write_xml (odd_case "a]]>b<![CDATA[c")) = Some y /\ without_layout y = means (odd_case "abc").
Proof. eexists. split; vm_compute; reflexivity. Qed.

(** ** C117 *)
(** A host that looks an id up in the file, under the mask, finds the text of the message
    with this id and of no other; and nothing for an id that is not in the catalog.
    Missing: ids of 2^28 and more. *)
Theorem C117_messages_are_found_by_id_partial c y :
  Forall legal (labels c) -> Forall (fun t => legal t /\ closed t /\ ~ has_cr t /\ no_amp t) (texts c) ->
  NoDup (map x_id (c_messages c)) -> (forall m, In m (c_messages c) -> (x_id m < 2 ^ 28)%N) -> reads (write_xml c) y ->
  (forall m, In m (c_messages c) -> look_up y (Z.of_N (x_id m)) = [printf_format (x_text m) (x_args m)]) /\
  (forall id, (0 <= id < 2 ^ 28)%Z -> (forall m, In m (c_messages c) -> Z.of_N (x_id m) <> id) -> look_up y id = []).
Proof.
  intros L T N S R. destruct (C116_collateral_reads_back_partial c L T) as (y0 & R0 & W & U). rewrite (U y R). clear U.
  split.
  - intros m I. rewrite <- look_up_layout, W. unfold means. rewrite (look_up_one (fun t => t) c m N S I). reflexivity.
  - intros id H Ni. rewrite <- look_up_layout, W. apply look_up_none; assumption.
Qed.
Print Assumptions C117_messages_are_found_by_id_partial.
Definition wide_case : collateral :=
  {| client_name := "c"; version := "1"; guid_id := "g"; guid_mask := "m"; c_enums := []; c_modules := [];
     c_messages := [ {| x_id := 5%N; x_lookup := None; x_args := []; x_text := "five" |}; {| x_id := 268435461%N; x_lookup := None; x_args := []; x_text := "wide" |} ] |}.
Theorem C117_wide_ids_refuted :
  exists c y m, Forall legal (labels c) /\ Forall (fun t => legal t /\ closed t /\ ~ has_cr t /\ no_amp t) (texts c) /\
    NoDup (map x_id (c_messages c)) /\ reads (write_xml c) y /\ In m (c_messages c) /\ look_up y (Z.of_N (x_id m)) <> [printf_format (x_text m) (x_args m)].
Proof.
  assert (T : Forall (fun t => legal t /\ closed t /\ ~ has_cr t /\ no_amp t) (texts wide_case)).
  { repeat (constructor; [split; [reflexivity|]; split; [apply closed_without; reflexivity|]; split; apply not_in_text; reflexivity|]); constructor. }
  assert (L : Forall legal (labels wide_case)) by (repeat constructor).
  destruct (C116_collateral_reads_back_partial wide_case L T) as (y & R & W & _).
  exists wide_case, y, {| x_id := 5%N; x_lookup := None; x_args := []; x_text := "five" |}.
  split; [exact L|]. split; [exact T|]. split; [cbn; repeat constructor; cbn; intuition discriminate|]. split; [exact R|]. split; [left; reflexivity|].
  rewrite <- look_up_layout, W. vm_compute. discriminate.
Qed.
Print Assumptions C117_wide_ids_refuted.
Example C117_case : option_map (fun y => (look_up y 17, look_up y 3000000, look_up y 19)%Z) (the_reading (write_xml whole_case)) = Some (["hello"], ["x %d y %u"], []).
Proof. vm_compute. reflexivity. Qed.

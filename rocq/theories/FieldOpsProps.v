(** Property theorems for field definitions made step by step (C150). *)
From Coq Require Import List NArith Bool Arith Lia.
From Verif Require Import MatchModel FieldModel FieldSpec FieldProofs2 MessageModel MessageSpec MessageProofs MessageProofs3 FieldOpsModel FieldOpsSpec FieldOpsProofs.
Import ListNotations.
Local Open Scope N_scope.

(** ** C150: a constraint goes with its field *)
(** At full strength: whatever else is done with a field before or after it is given
    a constraint, the condition of a message is that each of its fields has a value
    that its definition asks for, both of raw data and of a message.  False of raw
    data when the field is located after it is constrained: no place is read, and the
    condition is about 0. *)
Definition wf (es : N) (ds : list definition) (cs : list cfield) (st : list N) : Prop :=
  narrow es /\ Forall small ds /\ Forall2 defines ds cs /\ NoDup (map final_name ds) /\
  storage_ok es st /\ fields_fit (nbits es st) (map c_field cs).
Definition byte_at (n : N) : at_ := {| a_msb := 8 * n + 7; a_lsb := 8 * n |}.
Definition made (d : definition) : cfield :=
  match frun (d_ops d) (fresh (d_name d) (d_bytes d)) with Some c => c | None => fresh 0 0 end.
Lemma wf_check es ds st : narrow es -> Forall small ds -> Forall (fun d => frun (d_ops d) (fresh (d_name d) (d_bytes d)) <> None) ds ->
  NoDup (map final_name ds) -> storage_ok es st -> forallb (fun c => forallb (fun l => loc_start l + l_size l <=? nbits es st) (f_locs (c_field c))) (map made ds) = true ->
  wf es ds (map made ds) st.
Proof.
  intros H1 H2 H3 H4 H5 H6. repeat split; auto.
  - clear - H3. induction H3 as [|d l H _ IH]; cbn; constructor; auto. unfold defines, made. destruct (frun _ _); congruence.
  - intros f Hf. apply in_map_iff in Hf as (c & <- & Hc). rewrite forallb_forall in H6. specialize (H6 c Hc).
    intros l Hl. rewrite forallb_forall in H6. apply N.leb_le, H6; auto.
Qed.
Ltac wf_case := apply wf_check; [left; reflexivity | repeat constructor; unfold small; cbn; lia | repeat constructor; vm_compute; discriminate
  | repeat constructor; cbn; intuition discriminate | repeat constructor; vm_compute; auto | vm_compute; reflexivity].

Theorem C150_refuted :
  exists es ds cs st, wf es ds cs st /\ (forall d, In d ds -> obeys es st d) /\ message_matches es true cs st = Some (Done false).
Proof.
  exists 8, [ {| d_name := 0; d_bytes := 1; d_ops := [Required 5; Located [byte_at 0]] |} ].
  eexists. exists [5]. split; [wf_case|]. split.
  - intros d [<-|[]] k E. injection E as <-. vm_compute. auto.
  - vm_compute. auto.
Qed.
Print Assumptions C150_refuted.
(** ... so data that no field of the message may have is taken for the message ... *)
Theorem C150_accepts_refuted :
  exists es ds cs st, wf es ds cs st /\ ~ (forall d, In d ds -> obeys es st d) /\ message_matches es true cs st = Some (Done true).
Proof.
  exists 8, [ {| d_name := 0; d_bytes := 1; d_ops := [Constrained (KLe 3); Located [byte_at 0]] |} ].
  eexists. exists [5]. split; [wf_case|]. split.
  - intros H. specialize (H _ (or_introl eq_refl) (KLe 3) eq_refl). vm_compute in H. auto.
  - vm_compute. auto.
Qed.
Print Assumptions C150_accepts_refuted.
(** ... a field that is moved is looked for where it was, which may be outside the data ... *)
Theorem C150_outside_refuted :
  exists es ds cs st, wf es ds cs st /\ (forall d, In d ds -> obeys es st d) /\ message_matches es true cs st = Some OutOfBounds.
Proof.
  exists 8, [ {| d_name := 0; d_bytes := 1; d_ops := [Located [byte_at 1]; Required 5; Located [byte_at 0]] |} ].
  eexists. exists [5]. split; [wf_case|]. split.
  - intros d [<-|[]] k E. injection E as <-. vm_compute. auto.
  - vm_compute. auto.
Qed.
Print Assumptions C150_outside_refuted.
(** ... and a field that is renamed is looked for under its old name: the condition does
    not compile, or is about the field that has the name now. *)
Theorem C150_renamed_refuted :
  exists es ds cs st, wf es ds cs st /\ (forall d, In d ds -> obeys es st d) /\ message_matches es false cs st = None.
Proof.
  exists 8, [ {| d_name := 0; d_bytes := 1; d_ops := [Located [byte_at 0]; Required 5; Named 1] |} ].
  eexists. exists [5]. split; [wf_case|]. split.
  - intros d [<-|[]] k E. injection E as <-. vm_compute. auto.
  - vm_compute. auto.
Qed.
Print Assumptions C150_renamed_refuted.
Definition swapped : list definition :=
  [ {| d_name := 0; d_bytes := 1; d_ops := [Located [byte_at 0]; Required 5; Named 1] |};
    {| d_name := 1; d_bytes := 1; d_ops := [Located [byte_at 1]; Named 0] |} ].
Theorem C150_swapped_refuted :
  exists es ds cs st st', wf es ds cs st /\ wf es ds cs st' /\
    (forall d, In d ds -> obeys es st d) /\ message_matches es false cs st = Some (Done false) /\
    ~ (forall d, In d ds -> obeys es st' d) /\ message_matches es false cs st' = Some (Done true).
Proof.
  exists 8, swapped. eexists. exists [5; 7], [7; 5]. split; [wf_case|]. split; [wf_case|]. split; [|split; [|split]].
  - intros d [<-|[<-|[]]] k E; [|discriminate]. injection E as <-. vm_compute. auto.
  - vm_compute. auto.
  - intros H. specialize (H _ (or_introl eq_refl) (KEq 5) eq_refl). vm_compute in H. discriminate.
  - vm_compute. auto.
Qed.
Print Assumptions C150_swapped_refuted.

(** Exactly: of raw data, each constraint is about the places that the field had when
    the constraint was given (which must be inside the data). *)
Theorem C150_raw_exact es ds cs st :
  wf es ds cs st ->
  (forall d n l k, In d ds -> constraint_of d = Some (n, l, k) -> fits (nbits es st) (map at_loc l)) ->
  exists r, message_matches es true cs st = Some (Done r) /\
    (r = true <-> forall d n l k, In d ds -> constraint_of d = Some (n, l, k) -> satisfies (value_at es st l) k).
Proof. intros (H1 & H2 & H3 & _ & H5 & _). apply raw_spec; auto. Qed.
Print Assumptions C150_raw_exact.
(** Of a message, it is about the field that has the name that the field had when the
    constraint was given; without such a field the condition does not compile. *)
Theorem C150_exact es ds cs st :
  wf es ds cs st ->
  (message_matches es false cs st = None <->
     exists d n l k, In d ds /\ constraint_of d = Some (n, l, k) /\ ~ In n (map final_name ds)) /\
  ((forall d n l k, In d ds -> constraint_of d = Some (n, l, k) -> In n (map final_name ds)) ->
   exists r, message_matches es false cs st = Some (Done r) /\
    (r = true <-> forall d n l k d', In d ds -> constraint_of d = Some (n, l, k) -> In d' ds -> final_name d' = n ->
       satisfies (value_at es st (final_places d')) k)).
Proof.
  intros (H1 & H2 & H3 & H4 & H5 & H6). split.
  - apply view_none; auto.
  - apply view_spec; auto.
Qed.
Print Assumptions C150_exact.

(** So the property holds where no field moves (of raw data) or changes name (of a
    message) after it is last constrained. *)
Theorem C150_partial es (raw : bool) ds cs st :
  wf es ds cs st ->
  Forall (fun d => (if raw then place_kept else name_kept) true (d_ops d) = true) ds ->
  exists r, message_matches es raw cs st = Some (Done r) /\ (r = true <-> forall d, In d ds -> obeys es st d).
Proof.
  intros Hwf Hk. rewrite Forall_forall in Hk. pose proof Hwf as (H1 & H2 & H3 & H4 & H5 & H6).
  assert (Ha : forall d : definition, asked None (d_ops d) = option_map snd (constraint_of d)) by (intros d; apply (asked_at (d_ops d) (d_name d) [] None)).
  destruct raw.
  - assert (Hp : forall d n l k, In d ds -> constraint_of d = Some (n, l, k) -> l = final_places d).
    { intros d n l k Hd E. pose proof (kept_place (d_ops d) (d_name d) [] None true (Hk d Hd) (fun _ : true = true => I)) as P.
      unfold constraint_of in E. rewrite E in P. auto. }
    destruct (C150_raw_exact es ds cs st Hwf) as (r & E & Hr).
    + intros d n l k Hd E. rewrite (Hp _ _ _ _ Hd E). destruct (own_field ds cs H2 H3 H4 d Hd) as (c & Hc & _ & Hl & _).
      rewrite <- Hl. apply H6, in_map; auto.
    + exists r. split; auto. rewrite Hr. unfold obeys. split.
      * intros H d Hd k Ek. rewrite Ha in Ek. destruct (constraint_of d) as [[[n l] k']|] eqn:Ec; [|discriminate].
        injection Ek as <-. rewrite <- (Hp _ _ _ _ Hd Ec). eapply H; eauto.
      * intros H d n l k Hd Ec. rewrite (Hp _ _ _ _ Hd Ec). apply H; auto. rewrite Ha, Ec. auto.
  - assert (Hp : forall d n l k, In d ds -> constraint_of d = Some (n, l, k) -> n = final_name d).
    { intros d n l k Hd E. pose proof (kept_name (d_ops d) (d_name d) [] None true (Hk d Hd) (fun _ : true = true => I)) as P.
      unfold constraint_of in E. rewrite E in P. auto. }
    destruct (C150_exact es ds cs st Hwf) as (_ & Hv). destruct Hv as (r & E & Hr).
    + intros d n l k Hd E. rewrite (Hp _ _ _ _ Hd E). apply in_map; auto.
    + exists r. split; auto. rewrite Hr. unfold obeys. split.
      * intros H d Hd k Ek. rewrite Ha in Ek. destruct (constraint_of d) as [[[n l] k']|] eqn:Ec; [|discriminate].
        injection Ek as <-. apply (H d n l k' d Hd Ec Hd). symmetry. eapply Hp; eauto.
      * intros H d n l k d' Hd Ec Hd' Hn. rewrite (Hp _ _ _ _ Hd Ec) in Hn.
        assert (d' = d) as ->; [|apply H; auto; rewrite Ha, Ec; auto].
        clear - H4 Hd Hd' Hn. assert (F := find_named ds d H4 Hd). assert (F' := find_named ds d' H4 Hd'). rewrite Hn in F'. congruence.
Qed.
Print Assumptions C150_partial.

(** What is done with the fields afterwards changes nothing of the condition of raw
    data, though the fields move. *)
Theorem C150_later es cs cs' st : reworked cs cs' -> message_matches es true cs' st = message_matches es true cs st.
Proof. apply reworked_raw. Qed.
Print Assumptions C150_later.
(** This is what pack, relaxed_message and rename_field do: they shift, locate and
    rename fields, whatever their matchers. *)
Theorem C150_pack A ms m f : elem_width A -> pack A ms = Some m -> In f m ->
  exists i mi g, nth_error ms i = Some mi /\ In g mi /\
    forall q, fstep (Shifted (pack_offset A ms i * A)) {| c_field := g; c_matcher := q |} = Some {| c_field := f; c_matcher := q |}.
Proof. apply pack_steps. Qed.
Print Assumptions C150_pack.
Theorem C150_relaxed l m f : relaxed_message l = Some m -> In f l -> locatable f = false ->
  exists o g, In g m /\ forall q,
    frun [Located [{| a_msb := 8 * f_bytes f - 1; a_lsb := 0 |}]; Shifted o] {| c_field := f; c_matcher := q |} = Some {| c_field := g; c_matcher := q |}.
Proof. apply relaxed_steps. Qed.
Print Assumptions C150_relaxed.
Theorem C150_rename m old new m' :
  NoDup (map f_name m) -> Forall (fun f => field_valid f = true) m -> rename_field m old new = Some m' ->
  exists f g, find_field old m = Some f /\ find_field new m' = Some g /\
    forall q, fstep (Named new) {| c_field := f; c_matcher := q |} = Some {| c_field := g; c_matcher := q |}.
Proof. apply rename_steps. Qed.
Print Assumptions C150_rename.

(** The name, type, default and places of the field are those asked for last. *)
Theorem C150_made d c : small d -> defines d c ->
  f_name (c_field c) = final_name d /\ f_bytes (c_field c) = bytes_asked (d_bytes d) (d_ops d) /\
  f_default (c_field c) = default_asked (DDefault 0) (d_ops d) /\ f_ats (c_field c) = final_places d /\
  (c_matcher c = None <-> asked None (d_ops d) = None).
Proof.
  intros Hs H. destruct (defines_spec d c Hs H) as (H1 & H2 & H3 & H4 & _ & H6). repeat split; auto.
  all: pose proof (asked_at (d_ops d) (d_name d) [] None) as Ha; cbn in Ha; rewrite Ha; destruct (c_matcher c) as [[g k]|], (constrained_at _ _ _ _) as [[[n l] k']|]; cbn in *; auto; try tauto; discriminate.
Qed.
Print Assumptions C150_made.
(** And the definition compiles exactly if each of its steps makes sense for the field
    as it is then. *)
Theorem C150_accepted d : small d ->
  ((exists c, defines d c) <-> forall pre o post, d_ops d = pre ++ o :: post ->
     sensible (bytes_asked (d_bytes d) pre) (default_asked (DDefault 0) pre) (places_asked [] pre) o).
Proof.
  intros Hs. rewrite <- (accepted_from (d_ops d) (fresh (d_name d) (d_bytes d)) (fresh_valid _ _ Hs)). unfold defines.
  destruct (frun _ _) as [c|]; split; intros H; try congruence; eauto. destruct H; discriminate.
Qed.
Print Assumptions C150_accepted.

(** Three fields: an id located and then required, a length with a range, and a tag
    constrained twice and renamed. *)
Definition ex_defs : list definition :=
  [ {| d_name := 0; d_bytes := 1; d_ops := [Located [byte_at 0]; Required 128] |};
    {| d_name := 1; d_bytes := 2; d_ops := [Constrained (KLe 3); Located [byte_at 2; byte_at 1]; Defaulted (DDefault 9); Constrained (KGe 256)] |};
    {| d_name := 2; d_bytes := 4; d_ops := [Typed 1; Constrained (KEq 7); Located [byte_at 0]; Shifted 24; Constrained (KIn [1; 2]); Named 5] |} ].
Example C150_case : wf 8 ex_defs (map made ex_defs) [128; 0; 1; 2] /\
  Forall (fun d => place_kept true (d_ops d) = true) ex_defs /\
  message_matches 8 true (map made ex_defs) [128; 0; 1; 2] = Some (Done true) /\
  message_matches 8 true (map made ex_defs) [128; 255; 0; 2] = Some (Done false) /\
  message_matches 8 true (map made ex_defs) [128; 0; 1; 7] = Some (Done false) /\
  message_matches 8 true (map made ex_defs) [129; 0; 1; 2] = Some (Done false) /\
  message_matches 8 false (map made ex_defs) [128; 0; 1; 2] = None.
Proof. split; [wf_case|]. split; [repeat constructor|]. repeat split; vm_compute; auto. Qed.
(** The example of docs/message.adoc, with the constraint given to the payload before
    packing: its place is that of the type. *)
Example C150_case_pack :
  let data := {| d_name := 1; d_bytes := 4; d_ops := [Located [byte_at 0]; Required 3] |} in
  let moved := {| d_name := 1; d_bytes := 4; d_ops := d_ops data ++ [Shifted 8] |} in
  reworked [made data] [made moved] /\
  message_matches 8 true [made moved] [1; 3] = Some (Done false) /\
  message_matches 8 true [made moved] [3; 1] = Some (Done true) /\
  message_matches 8 false [made moved] [1; 3] = Some (Done true).
Proof.
  cbv zeta. split; [|repeat split; vm_compute; auto]. constructor; [|constructor]. exists [Shifted 8]. split; reflexivity.
Qed.
Example C150_case_accepted :
  frun [Defaulted (DConst 4); Constrained (KEq 5)] (fresh 0 1) = None /\
  frun [Constrained (KEq 5); Defaulted (DConst 4)] (fresh 0 1) <> None /\
  frun [Constrained (KIn [])] (fresh 0 1) = None /\
  frun [Defaulted (DConst 4); Constrained (KIn [5; 4])] (fresh 0 1) <> None /\
  frun [Located [byte_at 1; byte_at 0]] (fresh 0 1) = None /\
  frun [Located [byte_at 1; byte_at 0]; Typed 1] (fresh 0 2) = None.
Proof. repeat split; vm_compute; congruence. Qed.

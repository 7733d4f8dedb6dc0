(** Theorems about the description of a message: C133, C134. *)
From Coq Require Import String Ascii Bool List ZArith NArith Lia ZifyBool ZifyN ZifyNat Sorting.Sorted Sorting.Permutation.
From Verif Require Import FieldModel FieldSpec FieldProofs FieldProofs2 MessageModel MessageSpec MessageProofs MessageProofs2 SummaryModel SummarySpec SummaryProofs SummaryProofs2.
From Verif Require MatchModel MipiModel MipiSpec MipiProofs2 MipiProps DescribeModel.
Import ListNotations.
Local Open Scope string_scope.

(** Texts around the description, and names, without braces. *)
Definition plain_texts (label : nat -> string) (fs : list mfield) (before name after : string) : Prop :=
  braceless before /\ braceless name /\ braceless after /\ forall f, In f fs -> braceless (label (f_name f)).
(** A message of 8-, 16- or 32-bit elements whose fields lie inside. *)
Definition holds (es : N) (fs : list mfield) (st : list N) : Prop :=
  narrow es /\ storage_ok es st /\ fields_fit (nbits es st) fs.
Lemma message_fields l fs : message l = Some fs -> NoDup (map f_name fs) /\ (forall f, In f fs -> field_valid f = true).
Proof.
  intros H. destruct (message_spec _ _ H) as (H1 & _ & H3 & _ & H5). split.
  - eapply Permutation_NoDup; [|exact H1]. apply Permutation_map. symmetry. exact H5.
  - intros f Hf. rewrite forallb_forall in H3. apply H3. eapply Permutation_in; [exact H5|exact Hf].
Qed.
Lemma typed_lt p t f es st : field_valid f = true -> typed p t f -> MipiSpec.arg_ok p (t, value_in es st f).
Proof.
  intros Hv [H1 H2]. destruct (field_valid_wf f Hv) as (_ & Hw & _). unfold MipiSpec.arg_ok. cbn [fst snd].
  assert (L := concat_lt (image es st) (f_locs f)). fold (value_in es st f) in L. fold (width f) in L. split.
  - eapply N.lt_le_trans; [exact L|]. apply N.pow_le_mono_r; lia.
  - intros Hb. specialize (H2 Hb). eapply N.lt_le_trans; [exact L|]. change 2%N with (2 ^ 1)%N at 2. apply N.pow_le_mono_r; lia.
Qed.

Lemma fits_checks n ls : fits n ls -> field_fits n ls = true.
Proof.
  intros H. unfold field_fits. apply forallb_forall. intros l Hl. unfold loc_fits, l_msb. specialize (H l Hl). unfold loc_start in H. lia.
Qed.

Lemma done_eq {A} (a b : A) : Done a = Done b -> b = a.
Proof. congruence. Qed.

(** ** C133 *)
(** The line: the name of the message and, in the order of the fields of the
    message, the name of every field and in hexadecimal the number get would give. *)
Theorem C133_text : forall p label ctype l fs es st before name after,
  message l = Some fs -> holds es fs st -> plain_texts label fs before name after ->
  (forall f, In f fs -> MipiSpec.integral (MipiModel.underlying (ctype (f_name f)))) ->
  exists d s (got : mfield -> N), describe label ctype es name fs st = Done d /\
    text_line p before after d = Some (before ++ name ++ "(" ++ s ++ ")" ++ after) /\
    lists (map (fun f => (label (f_name f), number_of p (ctype (f_name f)) (got f))) fs) s /\
    (forall f, In f fs -> m_get es fs (f_name f) st = Some (Done (got f)) /\ got f = value_in es st f) /\
    Permutation fs l /\ StronglySorted (fun f g => (key_of f <= key_of g)%N) fs.
Proof.
  intros p label ctype l fs es st before name after Hm (He & Hs & Hf) (Hb & Hn & Ha & Hl) Ht.
  destruct (message_fields _ _ Hm) as (Hnd & Hv). destruct (message_spec _ _ Hm) as (_ & _ & _ & Hsort & Hp).
  eexists. exists (joined (map (piece label) (combine fs (map (fun f => DescribeModel.hex (number_of p (ctype (f_name f)) (value_in es st f))) fs)))), (value_in es st).
  split; [apply describe_spec; auto|]. split; [|split; [apply (pieces_list label (fun f => number_of p (ctype (f_name f)) (value_in es st f)))|split; [|split; [exact Hp|]]]].
  - unfold text_line. cbn [fst snd]. rewrite line_format; auto; [|now rewrite map_length].
    rewrite (all_shown_map _ _ (fun f => DescribeModel.hex (number_of p (ctype (f_name f)) (value_in es st f)))); [reflexivity|].
    intros f Hin. apply text_shows_spec. auto.
  - intros f Hin. split; [|reflexivity]. unfold m_get. rewrite find_field_in by auto.
    replace (field_fits (es * N.of_nat (List.length st)) (f_locs f)) with true.
    + f_equal. apply extract_value; auto.
    + symmetry. apply fits_checks. exact (Hf f Hin).
  - rewrite Hsort. apply sort_sorted.
Qed.
Print Assumptions C133_text.
(** Two messages give the same line exactly when all their fields agree. *)
Theorem C133_distinct : forall p label ctype l fs es st st' before name after d d',
  message l = Some fs -> holds es fs st -> holds es fs st' -> plain_texts label fs before name after ->
  (forall f, In f fs -> MipiSpec.integral (MipiModel.underlying (ctype (f_name f))) /\ typed p (ctype (f_name f)) f) ->
  describe label ctype es name fs st = Done d -> describe label ctype es name fs st' = Done d' ->
  (text_line p before after d = text_line p before after d' <-> forall f, In f fs -> value_in es st f = value_in es st' f).
Proof.
  intros p label ctype l fs es st st' before name after d d' Hm H H' Hpl Ht Hd Hd'.
  assert (Hi : forall f, In f fs -> MipiSpec.integral (MipiModel.underlying (ctype (f_name f)))) by (intros f Hf; now apply Ht).
  destruct (message_fields _ _ Hm) as (_ & Hv). split.
  - destruct (C133_text p label ctype l fs es st before name after Hm H Hpl Hi) as (e & s & got & E & L & S & G & _).
    destruct (C133_text p label ctype l fs es st' before name after Hm H' Hpl Hi) as (e' & s' & got' & E' & L' & S' & G' & _).
    rewrite Hd in E. injection E as <-. rewrite Hd' in E'. injection E' as <-. rewrite L, L'. intros X. injection X as X.
    apply app_inj_s, app_inj_s in X. injection X as X. apply app_inj_r_s in X. subst s'.
    intros f Hf. assert (N := lists_read _ _ _ _ _ S S' f Hf). cbn beta in N. destruct (G f Hf) as [_ Eg], (G' f Hf) as [_ Eg']. rewrite Eg, Eg' in N.
    destruct (Ht f Hf) as [_ T]. apply (number_of_inj p (ctype (f_name f))); auto; apply typed_lt; auto.
  - intros X. destruct H as (He & Hs & Hf), H' as (_ & Hs' & Hf'). rewrite describe_spec in Hd, Hd' by auto. injection Hd as <-. injection Hd' as <-.
    f_equal. f_equal. apply map_ext_in. intros f Hin. now rewrite X.
Qed.
Print Assumptions C133_distinct.
(** A field of a floating-point type makes the line be refused. *)
Theorem C133_floating : forall p label ctype l fs es st before name after d f,
  message l = Some fs -> holds es fs st -> plain_texts label fs before name after ->
  describe label ctype es name fs st = Done d -> In f fs -> ~ MipiSpec.integral (MipiModel.underlying (ctype (f_name f))) ->
  text_line p before after d = None.
Proof.
  intros p label ctype l fs es st before name after d f Hm (He & Hs & Hf) (Hb & Hn & Ha & Hl) Hd Hin Ht.
  destruct (message_fields _ _ Hm) as (_ & Hv). rewrite describe_spec in Hd by auto. apply done_eq in Hd. subst d.
  unfold text_line. cbn [fst snd]. rewrite line_format; auto; [|now rewrite map_length].
  rewrite (all_shown_none _ _ (ctype (f_name f), value_in es st f)); [reflexivity| |apply text_refuses; auto].
  apply (in_map (fun f => (ctype (f_name f), value_in es st f))). exact Hin.
Qed.
Print Assumptions C133_floating.

(** A message with a number, a signed number and an enumeration. *)
Definition x64 : MipiModel.platform := {| MipiModel.long8 := true; MipiModel.char_signed := true |}.
Definition fld_ (n : nat) (b : N) (m l : N) : mfield :=
  {| f_name := n; f_bytes := b; f_default := DDefault 0; f_match := MatchModel.Always; f_ats := [{| a_msb := m; a_lsb := l |}] |}.
Definition names_ (n : nat) : string := match n with 0 => "count" | 1 => "delta" | _ => "mode" end%nat.
Definition types_ (n : nat) : MipiModel.argty :=
  match n with 0 => MipiModel.Plain MipiModel.UInt | 1 => MipiModel.Plain MipiModel.SChar | _ => MipiModel.Scoped "Mode" MipiModel.UChar end%nat.
Definition listed_ : list mfield := [fld_ 2 1 31 30; fld_ 0 4 11 0; fld_ 1 1 23 16].
Definition fields_ : list mfield := [fld_ 0 4 11 0; fld_ 1 1 23 16; fld_ 2 1 31 30].
Definition st_ : list N := [0x80F902AA%N].
Lemma setup : message listed_ = Some fields_ /\ holds 32 fields_ st_ /\ plain_texts names_ fields_ "got " "status" "!" /\
  (forall f, In f fields_ -> MipiSpec.integral (MipiModel.underlying (types_ (f_name f))) /\ typed x64 (types_ (f_name f)) f).
Proof.
  split; [vm_compute; reflexivity|]. split; [split; [right; right; reflexivity|split]|split; [split; [|split; [|split]]|]].
  - repeat constructor.
  - intros f Hf x Hx. repeat (destruct Hf as [<-|Hf]; [destruct Hx as [<-|[]]; vm_compute; discriminate|]). destruct Hf.
  - repeat split; discriminate.
  - repeat split; discriminate.
  - repeat split; discriminate.
  - intros f Hf. repeat (destruct Hf as [<-|Hf]; [repeat split; discriminate|]). destruct Hf.
  - intros f Hf. repeat (destruct Hf as [<-|Hf]; [repeat split; discriminate|]). destruct Hf.
Qed.
Example C133_case : exists d, describe names_ types_ 32 "status" fields_ st_ = Done d /\
  fst d = "status(count: 0x{:x}, delta: 0x{:x}, mode: 0x{:x})" /\
  text_line x64 "got " "!" d = Some "got status(count: 0x2aa, delta: 0x-7, mode: 0x2)!".
Proof. eexists. split; [vm_compute; reflexivity|]. vm_compute. auto. Qed.
(** With a brace in a name the line is another, or refused. *)
Example C133_needed : exists d, describe (fun n => if Nat.eqb n 0 then "{:x}" else names_ n) types_ 32 "status" fields_ st_ = Done d /\
  text_line x64 "got " "!" d = None.
Proof. eexists. split; [vm_compute; reflexivity|]. vm_compute. reflexivity. Qed.

(** ** C134 *)
Section Decoded.
Import MipiModel MipiSpec MipiProps.
(** The call that logs a description. *)
Definition logged (level unit module id : N) (d : string * list (argty * N)) : call :=
  {| c_level := level; c_module := module; c_unit := unit; c_id := id; c_args := snd d |}.
Definition type_good (t : argty) : Prop := type_ok t /\ name_ok t.
Lemma decoder_shows_spec p db t raw : type_good t -> arg_ok p (t, raw) ->
  decoder_shows (MipiProofs2.displayed p db t raw) = option_map DescribeModel.hex (decoder_number p t raw).
Proof.
  intros Ht [Hr _]. cbn [fst snd] in Hr. assert (X := text_shows_spec p t raw).
  destruct t as [b|n b|n b]; cbn [MipiProofs2.displayed decoder_number underlying] in *.
  - unfold text_shows in X. cbn [fst snd underlying] in X. unfold MipiProofs2.displayed_base, numeric, arg_bytes in *. cbn [underlying] in *.
    destruct b; cbn [decoder_shows option_map]; auto; first [reflexivity|apply X; split; discriminate].
  - unfold enum_lookup. destruct (MipiProofs2.displayed_base p b raw); try reflexivity. destruct (db_enums db n z); reflexivity.
  - unfold enum_lookup. destruct (db_enums db n _); reflexivity.
Qed.
Lemma all_shown_comp {V W} (show : V -> option string) (g : W -> V) l : all_shown show (map g l) = all_shown (fun w => show (g w)) l.
Proof. induction l as [|x l IH]; [reflexivity|]. cbn [map all_shown]. now rewrite IH. Qed.
Lemma all_shown_map_none {V W} (show : V -> option string) (g : W -> V) l x : In x l -> show (g x) = None -> all_shown show (map g l) = None.
Proof. intros H E. eapply all_shown_none; [apply in_map; exact H|exact E]. Qed.
(** What the decoder prints, exactly: the line with the numbers it shows, if it
    shows them all; otherwise it raises an exception. *)
Theorem C134_exact : forall p db label ctype l fs es st before name after d level unit module id,
  message l = Some fs -> fs <> [] -> holds es fs st -> plain_texts label fs before name after ->
  (forall f, In f fs -> type_good (ctype (f_name f)) /\ typed p (ctype (f_name f)) f) ->
  describe label ctype es name fs st = Done d -> (id < 2 ^ 32)%N -> (module < 2 ^ 7)%N -> in_catalog p db (logged level unit module id d) ->
  exists bs, packet_of p (logged level unit module id d) bs /\ forall rest,
    (forall z, (forall f, In f fs -> decoder_number p (ctype (f_name f)) (value_in es st f) = Some (z f)) ->
       exists s, lists (map (fun f => (label (f_name f), z f)) fs) s /\
         decoder_line db (before ++ fst d ++ after) (bs ++ rest) = Some (before ++ name ++ "(" ++ s ++ ")" ++ after)) /\
    (forall f, In f fs -> decoder_number p (ctype (f_name f)) (value_in es st f) = None ->
       decoder_line db (before ++ fst d ++ after) (bs ++ rest) = None).
Proof.
  intros p db label ctype l fs es st before name after d level unit module id Hm Hne (He & Hs & Hf) (Hb & Hn & Ha & Hl) Ht Hd Hid Hmod Hcat.
  destruct (message_fields _ _ Hm) as (_ & Hv). rewrite describe_spec in Hd by auto. apply done_eq in Hd. subst d.
  set (args := map (fun f => (ctype (f_name f), value_in es st f)) fs) in *.
  assert (G : Forall (good_arg p) args).
  { apply Forall_forall. intros a Hin. unfold args in Hin. apply in_map_iff in Hin as (f & <- & Hin). destruct (Ht f Hin) as [[T1 T2] T3].
    split; [exact T1|]. split; [exact T2|]. apply typed_lt; auto. }
  destruct (C40_exact p db (logged level unit module id (name ++ "(" ++ joined (map (field_format label) fs) ++ ")", args))) as (bs & Hp & H); auto.
  { cbn [logged c_args snd]. unfold args. destruct fs; [congruence|discriminate]. }
  exists bs. split; [exact Hp|]. intros rest. unfold decoder_line. rewrite H. cbn [logged c_args fst snd].
  set (vs := map (fun a : argty * N => MipiProofs2.displayed p db (fst a) (snd a)) args).
  assert (E : vs = map (fun f => MipiProofs2.displayed p db (ctype (f_name f)) (value_in es st f)) fs).
  { unfold vs, args. rewrite map_map. reflexivity. }
  assert (S : forall f, In f fs -> decoder_shows (MipiProofs2.displayed p db (ctype (f_name f)) (value_in es st f)) =
     option_map DescribeModel.hex (decoder_number p (ctype (f_name f)) (value_in es st f))).
  { intros f Hin. destruct (Ht f Hin). apply decoder_shows_spec; auto. apply typed_lt; auto. }
  rewrite line_format; auto; [|rewrite E; now rewrite map_length]. rewrite E. split.
  - intros z Hz. rewrite (all_shown_map _ _ (fun f => DescribeModel.hex (z f))).
    + cbn [option_map]. eexists. split; [apply (pieces_list label z)|reflexivity].
    + intros f Hin. rewrite S, Hz by auto. reflexivity.
  - intros f Hin Hz. rewrite (all_shown_map_none _ _ _ f Hin); [reflexivity|]. rewrite S, Hz by auto. reflexivity.
Qed.
Print Assumptions C134_exact.
(** The same line as the text logger, for plain integral types other than char,
    and no bool that is true. *)
Theorem C134_partial : forall p db label ctype l fs es st before name after d level unit module id,
  message l = Some fs -> fs <> [] -> holds es fs st -> plain_texts label fs before name after ->
  (forall f, In f fs -> typed p (ctype (f_name f)) f /\ exists b, ctype (f_name f) = Plain b /\ integral b /\ b <> Char /\ (b = Bool -> value_in es st f = 0%N)) ->
  describe label ctype es name fs st = Done d -> (id < 2 ^ 32)%N -> (module < 2 ^ 7)%N -> in_catalog p db (logged level unit module id d) ->
  exists bs line, packet_of p (logged level unit module id d) bs /\ text_line p before after d = Some line /\
    forall rest, decoder_line db (before ++ fst d ++ after) (bs ++ rest) = Some line.
Proof.
  intros p db label ctype l fs es st before name after d level unit module id Hm Hne H Hpl Ht Hd Hid Hmod Hcat.
  assert (T : forall f, In f fs -> type_good (ctype (f_name f)) /\ typed p (ctype (f_name f)) f).
  { intros f Hin. destruct (Ht f Hin) as (T & b & E & _). split; [|exact T]. rewrite E. split; exact I. }
  assert (I : forall f, In f fs -> integral (underlying (ctype (f_name f)))).
  { intros f Hin. destruct (Ht f Hin) as (_ & b & -> & I & _). exact I. }
  destruct (C134_exact p db label ctype l fs es st before name after d level unit module id) as (bs & Hp & R); auto.
  destruct (C133_text p label ctype l fs es st before name after Hm H Hpl I) as (e & s & got & E & L & Ls & Gt & _). rewrite Hd in E. injection E as <-.
  exists bs, (before ++ name ++ "(" ++ s ++ ")" ++ after). split; [exact Hp|]. split; [exact L|]. intros rest.
  destruct (R rest) as [R1 _]. destruct (R1 (fun f => number_of p (ctype (f_name f)) (value_in es st f))) as (s' & Ls' & E').
  - intros f Hin. destruct (Ht f Hin) as (_ & b & -> & [I1 I2] & Nc & Hb). unfold decoder_number, number_of. cbn [underlying].
    destruct b; try congruence; try reflexivity. rewrite (Hb eq_refl). reflexivity.
  - rewrite E'. do 5 f_equal. revert Ls Ls'. replace (map (fun f => (label (f_name f), number_of p (ctype (f_name f)) (got f))) fs)
      with (map (fun f => (label (f_name f), number_of p (ctype (f_name f)) (value_in es st f))) fs).
    + intros A B. symmetry. exact (lists_unique _ _ A _ B).
    + apply map_ext_in. intros f Hin. destruct (Gt f Hin) as [_ ->]. reflexivity.
Qed.
Print Assumptions C134_partial.

(** A database with the types of a description at id 99. *)
Definition db_ (ts : list argty) : database :=
  {| db_messages := fun i => if N.eqb i 99 then Some (map (encode_text x64) ts) else None;
     db_modules := fun _ => Some "m"; db_enums := fun _ _ => None |}.
Definition packet_ (c : call) : list N :=
  match build x64 (c_level c) (c_id c) (c_module c) (c_unit c) (c_args c) with Some (Done ws) => wire (Dwords ws) | _ => [] end.
(** With an enumeration among the fields, as the text logger takes, the decoder
    raises an exception. *)
Theorem C134_refuted : exists p db label ctype l fs es st before name after d level unit module id bs line,
  message l = Some fs /\ fs <> [] /\ holds es fs st /\ plain_texts label fs before name after /\
  (forall f, In f fs -> integral (underlying (ctype (f_name f))) /\ typed p (ctype (f_name f)) f) /\
  (forall f, In f fs -> type_good (ctype (f_name f))) /\
  describe label ctype es name fs st = Done d /\ fits_wire (logged level unit module id d) /\ in_catalog p db (logged level unit module id d) /\
  packet_of p (logged level unit module id d) bs /\
  text_line p before after d = Some line /\ decoder_line db (before ++ fst d ++ after) bs = None.
Proof.
  destruct setup as (S1 & S2 & S3 & S4).
  exists x64, (db_ [Plain UInt; Plain SChar; Scoped "Mode" UChar]), names_, types_, listed_, fields_, 32%N, st_, "got ", "status", "!".
  eexists. exists 1%N, 0%N, 5%N, 99%N. eexists. eexists.
  split; [exact S1|]. split; [discriminate|]. split; [exact S2|]. split; [exact S3|]. split; [exact S4|].
  split. { intros f Hf. repeat (destruct Hf as [<-|Hf]; [vm_compute; repeat split; try discriminate; intros X; intuition discriminate|]). destruct Hf. }
  split; [vm_compute; reflexivity|]. split; [repeat split|]. split; [split; [vm_compute; reflexivity|exists "m"; reflexivity]|].
  split; [eexists; split; [vm_compute; reflexivity|reflexivity]|]. split; [vm_compute; reflexivity|]. vm_compute. reflexivity.
Qed.
Print Assumptions C134_refuted.
(** A bool that is true is printed as -1. *)
Theorem C134_bool_refuted : exists d bs db,
  describe (fun _ => "ready") (fun _ => Plain Bool) 8 "status" [fld_ 0 1 3 3] [8%N] = Done d /\
  holds 8 [fld_ 0 1 3 3] [8%N] /\ typed x64 (Plain Bool) (fld_ 0 1 3 3) /\
  in_catalog x64 db (logged 1 0 5 99 d) /\ packet_of x64 (logged 1 0 5 99 d) bs /\
  text_line x64 "" "" d = Some "status(ready: 0x1)" /\ decoder_line db (fst d) bs = Some "status(ready: 0x-1)".
Proof.
  eexists. eexists. exists (db_ [Plain Bool]). split; [vm_compute; reflexivity|].
  split. { split; [left; reflexivity|split; [repeat constructor|]]. intros f [<-|[]] x [<-|[]]. vm_compute. discriminate. }
  split; [split; [reflexivity|vm_compute; discriminate]|]. split; [split; [vm_compute; reflexivity|exists "m"; reflexivity]|].
  split; [eexists; split; [vm_compute; reflexivity|reflexivity]|]. split; [vm_compute; reflexivity|]. vm_compute. reflexivity.
Qed.
Print Assumptions C134_bool_refuted.
(** Numbers come through. *)
Example C134_case :
  let t n := match n with 0%nat => Plain UInt | 1%nat => Plain SChar | _ => Plain UChar end in
  exists d, describe names_ t 32 "status" fields_ st_ = Done d /\ in_catalog x64 (db_ [Plain UInt; Plain SChar; Plain UChar]) (logged 1 0 5 99 d) /\
  (forall f, In f fields_ -> typed x64 (t (f_name f)) f) /\
  decoder_line (db_ [Plain UInt; Plain SChar; Plain UChar]) ("got " ++ fst d ++ "!") (packet_ (logged 1 0 5 99 d)) =
    Some "got status(count: 0x2aa, delta: 0x-7, mode: 0x2)!".
Proof.
  cbn zeta. eexists. split; [vm_compute; reflexivity|]. split; [split; [vm_compute; reflexivity|exists "m"; reflexivity]|].
  split. { intros f Hf. repeat (destruct Hf as [<-|Hf]; [repeat split; discriminate|]). destruct Hf. }
  vm_compute. reflexivity.
Qed.
(** A message without fields. *)
Theorem C134_empty : forall p db label ctype es st before name after d level unit module id,
  plain_texts label [] before name after -> describe label ctype es name [] st = Done d ->
  (id < 2 ^ 28)%N -> in_catalog p db (logged level unit module id d) ->
  exists bs, packet_of p (logged level unit module id d) bs /\ forall rest,
    decoder_line db (before ++ fst d ++ after) (bs ++ rest) = Some (before ++ name ++ "()" ++ after) /\
    text_line p before after d = Some (before ++ name ++ "()" ++ after).
Proof.
  intros p db label ctype es st before name after d level unit module id (Hb & Hn & Ha & Hl) Hd Hid [Hc _].
  apply done_eq in Hd. subst d. destruct (C40_short p db (logged level unit module id (name ++ "()", []))) as (bs & Hp & H); [reflexivity|].
  exists bs. split; [exact Hp|]. intros rest. cbn [logged c_id fst] in *. rewrite N.mod_small in H by auto. rewrite Hc in H. split.
  - unfold decoder_line. rewrite H. cbn [fst snd]. now rewrite !app_assoc_s.
  - assert (X := line_format (text_shows p) label before name after [] [] Hb Hn Ha Hl eq_refl). exact X.
Qed.
Print Assumptions C134_empty.
End Decoded.

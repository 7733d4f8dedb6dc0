(** Properties of the way of a log call from the program to the printed line. *)
From Coq Require Import String Ascii Bool Arith List NArith ZArith Lia.
From Verif Require Import FieldModel MessageModel CatalogModel CatalogSpec CatalogProofs CatalogProofs2 CatalogProps GenModel GenSpec GenProofs SymbolModel SymbolSpec SymbolProofs SymbolProofs2 SymbolProofs4 SymbolProofs3 SymbolProps MipiModel MipiSpec MipiProofs MipiProofs2 MipiProofs3 MipiProps.
From Verif Require Import ChainModel ChainSpec ChainProofs ChainProofs2 ChainProofs3.
Import ListNotations.
Local Open Scope Z_scope.

(** ** C103: what a program logs is what the decoder prints *)
(** A program is built: its symbols are listed, the catalog is generated and linked
    in. Whatever calls it makes then, the decoder with the generated JSON prints
    one line per call, in order: the line of the call, except that of a call
    without arguments only the text is shown, as it is written. *)
Theorem C103_exact ft turns p o j lines is g cs : good_generate o j lines is g -> consistent j -> good_symbols is -> ids_fit g ->
  Forall (fun cp => good_call p (fst cp) (snd cp) /\ In (IMessage (l_message (fst cp))) is /\ In (IModule (l_module (fst cp))) is) cs ->
  exists bytes ls, program p g (map fst cs) = Some bytes /\ decode ft turns (g_json g) bytes = (ls, false) /\
    Forall2 (fun cp l => match l_args (fst cp) with [] => l = format_text (snd cp) | _ => call_line p (o_enums o) (fst cp) (snd cp) l end) cs ls.
Proof.
  intros G C S F H. destruct (generate_enums _ _ _ _ _ G) as [N E].
  apply (decode_known ft turns p g (g_json g) (o_enums o) cs); auto; [apply (generate_consistent o j lines is g G C)|].
  eapply Forall_impl; [|exact H]. intros [c ps] (H1 & H2 & H3). cbn [fst snd] in *. split; [apply S, H3|]. split; auto. apply (call_known p o j lines is g); auto.
Qed.
Print Assumptions C103_exact.
Theorem C103_partial ft turns p o j lines is g cs : good_generate o j lines is g -> consistent j -> good_symbols is -> ids_fit g ->
  Forall (fun cp => good_call p (fst cp) (snd cp) /\ In (IMessage (l_message (fst cp))) is /\ In (IModule (l_module (fst cp))) is) cs ->
  (forall cp, In cp cs -> l_args (fst cp) <> []) ->
  exists bytes ls, program p g (map fst cs) = Some bytes /\ decode ft turns (g_json g) bytes = (ls, false) /\
    Forall2 (fun cp l => call_line p (o_enums o) (fst cp) (snd cp) l) cs ls.
Proof.
  intros G C S F H A. destruct (C103_exact ft turns p o j lines is g cs G C S F H) as (bytes & ls & H1 & H2 & H3). exists bytes, ls. split; auto. split; auto.
  clear - A H3. induction H3 as [|[c ps] l cs ls H _ IH]; constructor.
  - specialize (A (c, ps) (or_introl eq_refl)). cbn [fst snd] in *. destruct (l_args c); [congruence|exact H].
  - apply IH. intros cp Hc. apply A. right. exact Hc.
Qed.
Print Assumptions C103_partial.
(** The line of a call is determined by the call, so two different lines cannot
    both be right (enumerators with one value apart). *)
Lemma fills_fun ps ws s s' : fills ps ws s -> fills ps ws s' -> s = s'.
Proof. intros H. revert s'. induction H; intros s' H'; inversion H'; subst; auto; f_equal; auto. Qed.

(** A program with two messages with arguments, one without, and a module. *)
Fixpoint codes (s : string) : list Z := match s with EmptyString => [] | String a r => Z.of_nat (nat_of_ascii a) :: codes r end.
Definition msg (t : string) (args : list string) (i : Z) : sym_message := {| sm_text := codes t; sm_args := args; sm_id := i; sm_suffix := ""; sm_named := []; sm_tags := [] |}.
Definition mod_ (t : string) : sym_module := {| so_text := codes t; so_id := -1; so_suffix := "" |}.
Definition m_at := msg "at {{{}}}" ["encode_32<int>"%string] (-1).
Definition m_state := msg "state {} after {}" ["encode_enum<E, unsigned int, 4>"; "encode_u64<unsigned long long>"]%string 7.
Definition m_hello := msg "hello {{}}" [] (-1).
Definition o_boot := mod_ "boot".
Definition o_net := mod_ "net".
Definition symbols := [IMessage m_state; IModule o_net; IMessage m_at; IMessage m_hello; IModule o_boot].
Definition listed := ("         U operator new(unsigned long)" :: map (line_of true) symbols)%string.
Definition opts := {| o_hash := num; o_extra := fun _ => 0%N; o_reserved := [(0, 2)]; o_forget := false; o_module_max := 127;
  o_enums := [("E", [("idle", 0); ("busy", 1)])]%string; o_extra_enums := [] |}.
Definition nothing := {| j_messages := []; j_modules := []; j_enums := [] |}.
Definition made (o : options) (j : json_file) (ls : list string) : generated :=
  match generate o [j] ls with Some g => g | None => {| g_messages := []; g_modules := []; g_json := nothing |} end.
Definition first_build := made opts nothing listed.
Definition calls : list (log_call * list part) :=
  [({| l_level := 4; l_module := o_boot; l_unit := 3; l_message := m_state; l_args := [(Scoped "E" UInt, 1%N); (MipiModel.Plain ULongLong, 99%N)] |},
    [Chars "state "; Hole; Chars " after "; Hole]);
   ({| l_level := 1; l_module := o_net; l_unit := 0; l_message := m_at; l_args := [(MipiModel.Plain Int, 4294967293%N)] |},
    [Chars "at "; OpenBrace; Hole; CloseBrace]);
   ({| l_level := 4; l_module := o_boot; l_unit := 3; l_message := m_state; l_args := [(Scoped "E" UInt, 6%N); (MipiModel.Plain ULongLong, 100%N)] |},
    [Chars "state "; Hole; Chars " after "; Hole])]%string.
Definition silent : log_call * list part := ({| l_level := 1; l_module := o_net; l_unit := 0; l_message := m_hello; l_args := [] |}, [Chars "hello "; OpenBrace; CloseBrace]%string).

(** The listing is one, and the build is good. *)
Lemma unmarked_b l : forallb (fun p => negb (occursb p l)) markers = true -> unmarked l.
Proof. intros H p Hp O. rewrite forallb_forall in H. specialize (H p Hp). apply occurs_b in O. rewrite O in H. discriminate. Qed.
Lemma inside_plain t : all_chars (fun a => negb (Ascii.eqb a "<" || Ascii.eqb a ">")) t = true -> inside t.
Proof.
  induction t as [|a t IH]; cbn [all_chars]; intros H; [constructor|]. apply andb_prop in H as [H1 H2]. apply negb_true_iff, orb_false_iff in H1 as [H1 H3].
  apply inside_char; auto; intros ->; discriminate.
Qed.
Lemma arg_plain tag t : (count "<" tag = 0 /\ count ">" tag = 0 /\ count "," tag = 0)%nat -> all_chars (fun a => negb (Ascii.eqb a "<" || Ascii.eqb a ">")) t = true ->
  (match tag with EmptyString => True | String a _ => is_space a = false end) -> all_chars dot (tag ++ String "<" (t ++ ">"))%string = true ->
  forallb (fun p => negb (occursb p (tag ++ String "<" (t ++ ">"))%string)) markers = true -> SymbolSpec.arg_ok (tag ++ String "<" (t ++ ">")).
Proof.
  intros (C1 & C2 & C3) I F D U. split; [|split; [|split]].
  - apply nested_app; [apply plain_nested; auto|]. apply (nested_angle t ""); [apply inside_plain, I|constructor].
  - split; [destruct tag; discriminate|]. split.
    + intros a r E. destruct tag as [|b tag]; cbn [append] in E; injection E as <- _; [reflexivity|exact F].
    + intros a r E. replace (tag ++ String "<" (t ++ ">"))%string with ((tag ++ String "<" t) ++ ">")%string in E.
      * apply app_len_eq in E; [|reflexivity]. destruct E as [_ E]. injection E as <-. reflexivity.
      * rewrite sapp_assoc. reflexivity.
  - apply one_line_dots, D.
  - apply unmarked_b, U.
Qed.
Ltac sym i := apply (l_symbol true "         U " "int" "" i); [apply one_line_dots; reflexivity|cbn; auto|exact I| |].
Lemma listed_ok : listing true listed symbols.
Proof.
  apply l_other; [apply unmarked_b; reflexivity|]. cbn [map symbols]. sym (IMessage m_state).
  { split; [|reflexivity]. constructor; [|constructor; [|constructor]]; [apply (arg_plain "encode_enum" "E, unsigned int, 4")|apply (arg_plain "encode_u64" "unsigned long long")]; repeat split; reflexivity. }
  sym (IModule o_net); [reflexivity|]. sym (IMessage m_at).
  { split; [|reflexivity]. constructor; [|constructor]. apply (arg_plain "encode_32" "int"); repeat split; reflexivity. }
  sym (IMessage m_hello); [split; [constructor|reflexivity]|]. sym (IModule o_boot); [reflexivity|]. constructor.
Qed.
Lemma nothing_consistent : consistent nothing.
Proof. split; split; intros *; intros (m & [] & _). Qed.
Lemma build_ok : good_generate opts nothing listed symbols first_build.
Proof.
  split; [exists true; apply listed_ok|]. split; [reflexivity|]. split; [|split; [|split; [reflexivity|]]].
  - split; [|split; [|split]].
    + intros a b Ha Hb. cbn in Ha, Hb. all_cases; vm_compute; intros; congruence.
    + intros m Hm Hi. split; [intros s i (x & [] & _)|]. intros m' Hm' Hi'. cbn in Hm, Hm'. all_cases; vm_compute in Hi, Hi' |- *; try congruence; tauto.
    + intros a b Ha Hb. cbn in Ha, Hb. all_cases; vm_compute; intros; congruence.
    + intros m Hm Hi. cbn in Hm. all_cases; vm_compute in Hi; congruence.
  - constructor; [intros []|constructor].
  - unfold first_build, made. destruct (generate opts [nothing] listed) eqn:E; [reflexivity|]. vm_compute in E. discriminate.
Qed.
Lemma symbols_ok : good_symbols symbols.
Proof.
  split; [|split; [|split]].
  - intros m H. cbn in H. repeat destruct H as [H|H]; try discriminate H; try contradiction; injection H as <-; repeat constructor; vm_compute; congruence.
  - intros m H. cbn in H. repeat destruct H as [H|H]; try discriminate H; try contradiction; injection H as <-; repeat constructor; vm_compute; congruence.
  - intros m n H H'. cbn in H, H'. repeat destruct H as [H|H]; try discriminate H; try contradiction; repeat destruct H' as [H'|H']; try discriminate H'; try contradiction;
    injection H as <-; injection H' as <-; vm_compute; intros; congruence.
  - intros m n H H'. cbn in H, H'. repeat destruct H as [H|H]; try discriminate H; try contradiction; repeat destruct H' as [H'|H']; try discriminate H'; try contradiction;
    injection H as <-; injection H' as <-; vm_compute; intros; congruence.
Qed.
Lemma built : map snd (g_messages first_build) = [7; 3; 4] /\ map snd (g_modules first_build) = [1; 0].
Proof. vm_compute. auto. Qed.
Lemma ids_ok : ids_fit first_build.
Proof.
  destruct built as [B1 B2]. split; intros d Hd; apply (in_map snd) in Hd; [rewrite B1 in Hd|rewrite B2 in Hd]; cbn [In] in Hd; lia.
Qed.
Lemma unmentioned s : occursb "("%string s = false -> ~ mentions_enum s.
Proof. intros H (a & ty & v & b & -> & _). assert (O : occurs "("%string (a ++ String "(" (ty ++ String ")" (v ++ b)))%string) by (exists a, (ty ++ String ")" (v ++ b))%string; reflexivity). apply occurs_b in O. congruence. Qed.
Lemma braceless_b s : occursb "{"%string s = false -> occursb "}"%string s = false -> braceless s.
Proof. intros H1 H2. split; intros O; apply occurs_b in O; congruence. Qed.
Lemma plain_name_b n : occursb "<"%string n = false -> occursb ","%string n = false -> format_table n = None -> plain_name n.
Proof.
  assert (M : forall c s, mentions c s -> occursb (String c EmptyString) s = true).
  { intros c s H. apply occurs_b. induction s as [|a s IH]; [destruct H|]. destruct H as [->|H]; [exists EmptyString, s; reflexivity|]. destruct (IH H) as (x & y & ->). exists (String a x), y. reflexivity. }
  intros H1 H2 H3. split; [|split; [|exact H3]]; intros H; apply M in H; congruence.
Qed.
Ltac call_ok := split; [reflexivity|]; split; [reflexivity|]; split; [repeat constructor; apply braceless_b; reflexivity|]; split; [reflexivity|]; split; [reflexivity|]; split; [apply unmentioned; reflexivity|]; split; [reflexivity|].
Lemma calls_ok : Forall (fun cp => good_call x64 (fst cp) (snd cp) /\ In (IMessage (l_message (fst cp))) symbols /\ In (IModule (l_module (fst cp))) symbols) calls.
Proof.
  assert (A : forall z w, (z < 2 ^ 32)%N -> (w < 2 ^ 64)%N -> Forall (fun a => type_ok (fst a) /\ name_ok (fst a) /\ MipiSpec.arg_ok x64 a /\ number_or_enum (fst a) /\ shows_right x64 a) [(Scoped "E"%string UInt, z); (MipiModel.Plain ULongLong, w)]).
  { intros z w Hz Hw. constructor; [|constructor; [|constructor]].
    - split; [split; discriminate|]. split; [apply plain_name_b; reflexivity|]. split; [split; [exact Hz|discriminate]|]. split; [exact I|split; discriminate].
    - split; [exact I|]. split; [exact I|]. split; [split; [exact Hw|discriminate]|]. split; [repeat split; discriminate|exact I]. }
  constructor; [|constructor; [|constructor; [|constructor]]]; (split; [call_ok|split; cbn; auto 10]).
  - apply A; reflexivity.
  - constructor; [|constructor]. split; [exact I|]. split; [exact I|]. split; [split; [reflexivity|discriminate]|]. split; [repeat split; discriminate|exact I].
  - apply A; reflexivity.
Qed.
Definition sent_bytes (g : generated) (cs : list log_call) : list N := match program x64 g cs with Some b => b | None => [] end.
(** From the listing to the printed lines. *)
Example C103_case : good_generate opts nothing listed symbols first_build /\ consistent nothing /\ good_symbols symbols /\ ids_fit first_build /\
  Forall (fun cp => good_call x64 (fst cp) (snd cp) /\ In (IMessage (l_message (fst cp))) symbols /\ In (IModule (l_module (fst cp))) symbols) calls /\
  decode (fun _ => EmptyString) 0 (g_json first_build) (sent_bytes first_build (map fst calls)) =
    (["INFO [boot] state busy after 99"; "FATAL [net] at {-3}"; "INFO [boot] state static_cast<E>(6) after 100"], false)%string.
Proof.
  split; [apply build_ok|]. split; [apply nothing_consistent|]. split; [apply symbols_ok|]. split; [apply ids_ok|]. split; [apply calls_ok|]. vm_compute. reflexivity.
Qed.
(** Not so for a call without arguments: the level and the module are missing, and
    the braces stay doubled. *)
Theorem C103_refuted : exists p o j lines is g c ps bytes l, good_generate o j lines is g /\ consistent j /\ good_symbols is /\ ids_fit g /\
  good_call p c ps /\ In (IMessage (l_message c)) is /\ In (IModule (l_module c)) is /\ program p g [c] = Some bytes /\
  (forall ft turns, decode ft turns (g_json g) bytes = ([l], false)) /\ ~ call_line p (o_enums o) c ps l /\ l = "hello {{}}"%string.
Proof.
  exists x64, opts, nothing, listed, symbols, first_build, (fst silent), (snd silent), (sent_bytes first_build [fst silent]), "hello {{}}"%string.
  split; [apply build_ok|]. split; [apply nothing_consistent|]. split; [apply symbols_ok|]. split; [apply ids_ok|]. split.
  { call_ok. constructor. }
  split; [cbn; auto 10|]. split; [cbn; auto 10|]. split; [vm_compute; reflexivity|]. split; [intros ft [|n]; vm_compute; reflexivity|]. split; [|reflexivity].
  intros (lv & m & ws & b & H1 & _ & _ & _ & E). cbn in H1. injection H1 as <-. discriminate E.
Qed.
Print Assumptions C103_refuted.

(** Nor when two messages differ in a tag only: one of them has no definition. *)
Definition m_tagged : sym_message := {| sm_text := codes "at {}"; sm_args := ["encode_32<int>"%string]; sm_id := -1; sm_suffix := ""; sm_named := []; sm_tags := [{| st_name := codes "a"; st_value := codes "b" |}] |}.
Definition m_untagged := msg "at {}" ["encode_32<int>"%string] (-1).
Definition twins := [IMessage m_tagged; IMessage m_untagged; IModule o_boot].
Definition twin_call : log_call := {| l_level := 1; l_module := o_boot; l_unit := 0; l_message := m_tagged; l_args := [(MipiModel.Plain Int, 5%N)] |}.
Theorem C103_link_refuted : exists p o j lines is g c ps, good_generate o j lines is g /\ consistent j /\ ids_fit g /\
  good_call p c ps /\ In (IMessage (l_message c)) is /\ In (IModule (l_module c)) is /\ program p g [c] = None.
Proof.
  exists x64, opts, nothing, (map (line_of true) twins), twins, (made opts nothing (map (line_of true) twins)), twin_call, [Chars "at "; Hole]%string.
  assert (A : SymbolSpec.arg_ok "encode_32<int>") by (apply (arg_plain "encode_32" "int"); repeat split; reflexivity).
  split; [split; [exists true|split; [reflexivity|split; [|split; [constructor; [intros []|constructor]|split; [reflexivity|]]]]]|].
  - cbn [map twins]. sym (IMessage m_tagged); [split; [constructor; [exact A|constructor]|reflexivity]|]. sym (IMessage m_untagged); [split; [constructor; [exact A|constructor]|reflexivity]|].
    sym (IModule o_boot); [reflexivity|]. constructor.
  - split; [|split; [|split]].
    + intros a b Ha Hb. cbn in Ha, Hb. all_cases; vm_compute; intros; congruence.
    + intros m Hm Hi. cbn in Hm. all_cases; vm_compute in Hi; congruence.
    + intros a b Ha Hb. cbn in Ha, Hb. all_cases; vm_compute; intros; congruence.
    + intros m Hm Hi. cbn in Hm. all_cases; vm_compute in Hi; congruence.
  - unfold made. destruct (generate opts [nothing] (map (line_of true) twins)) eqn:E; [reflexivity|]. vm_compute in E. discriminate.
  - split; [apply nothing_consistent|]. split.
    { assert (B : map snd (g_messages (made opts nothing (map (line_of true) twins))) = [3] /\ map snd (g_modules (made opts nothing (map (line_of true) twins))) = [0]) by (vm_compute; auto).
      destruct B as [B1 B2]. split; intros d Hd; apply (in_map snd) in Hd; [rewrite B1 in Hd|rewrite B2 in Hd]; cbn [In] in Hd; lia. }
    split.
    { call_ok. constructor; [|constructor]. split; [exact I|]. split; [exact I|]. split; [split; [reflexivity|discriminate]|]. split; [repeat split; discriminate|exact I]. }
    split; [cbn; auto|]. split; [cbn; auto|]. vm_compute. reflexivity.
Qed.
Print Assumptions C103_link_refuted.

(** *** Explicit ids *)
(** A message or module that asks for an id gets it. *)
Theorem C103_explicit o j lines is g : good_generate o j lines is g -> consistent j -> good_symbols is ->
  (forall m, In (IMessage m) is -> sm_id m <> -1 -> In (m, sm_id m) (g_messages g) /\ holds (j_messages (g_json g)) (text_of_codes (sm_text m), sm_args m) (sm_id m)) /\
  (forall m, In (IModule m) is -> so_id m <> -1 -> In (m, so_id m) (g_modules g) /\ holds (j_modules (g_json g)) (text_of_codes (so_text m), []) (so_id m)).
Proof.
  intros G C S. pose proof (generate_consistent o j lines is g G C) as [N1 N2]. split; intros m Hm Hi.
  - destruct (generate_messages o j lines is g m G C S Hm) as (i & H1 & H2 & _). enough (i = sm_id m) by (subst i; auto).
    apply (proj1 N1 (text_of_codes (sm_text m), sm_args m)); [exact H1|]. destruct (generate_parts o j lines is g G) as (_ & _ & E1 & _). rewrite E1. apply fst_holds. rewrite fst_run.
    destruct G as (_ & _ & (F1 & F2 & _) & _). destruct C as [C _]. destruct S as (S1 & _ & S3 & _).
    apply (pinned_kept (entry_of_message (o_extra o)) (msg_key (o_hash o)) (o_reserved o) (j_messages j) (messages_of is) (key_respects _) F1 C F2) with (m := m); auto; [|apply in_messages, Hm].
    intros a b Ha Hb [= Et Ea]. apply in_messages in Ha, Hb. apply S3; auto. apply text_inj; auto.
  - destruct (generate_modules o j lines is g m G C S Hm) as (i & H1 & H2 & _). enough (i = so_id m) by (subst i; auto).
    apply (proj1 N2 (text_of_codes (so_text m), [])); [exact H1|]. destruct (generate_parts o j lines is g G) as (_ & _ & _ & E1 & _). rewrite E1. apply fst_holds. rewrite fst_run.
    destruct G as (_ & _ & (_ & _ & F1 & F2) & _). destruct C as [_ C]. destruct S as (_ & S1 & _ & S3).
    apply (pinned_kept entry_of_module (module_key (o_hash o)) [] (j_modules j) (modules_of is) (module_respects _) F1 C F2) with (m := m); auto; [|apply in_modules, Hm].
    intros a b Ha Hb [= Et]. apply in_modules in Ha, Hb. apply S3; auto. apply text_inj; auto.
Qed.
Print Assumptions C103_explicit.
(** The first build asks for id 7. A build of modules with explicit ids: *)
Definition symbols4 := [IModule {| so_text := codes "usb"; so_id := 9; so_suffix := "" |}; IModule (mod_ "boot")].
Example C103_explicit_case : In (IMessage m_state) symbols /\ sm_id m_state = 7 /\ map snd (g_modules (made opts nothing (map (line_of true) symbols4))) = [9; 0].
Proof. split; [cbn; auto|]. split; [reflexivity|vm_compute; reflexivity]. Qed.

(** *** Compile-time enumerators *)
(** A text into which an enumerator was formatted at compile time, (E)1, is shown
    with its name. *)
Theorem C103_compile_time ft turns p o j lines is g c p0 ty v q z : good_generate o j lines is g -> consistent j -> good_symbols is -> ids_fit g ->
  In (IMessage (l_message c)) is -> In (IModule (l_module c)) is -> l_args c = [] -> sm_args (l_message c) = [] ->
  spells (sm_text (l_message c)) (p0 ++ String "(" (ty ++ String ")" (v ++ q))) -> no_paren p0 -> plain_mention (ty, v, q) -> prints (GenModel.VInt z) v ->
  (forall e n k, enumerator (o_enums o) e n k -> identifier n) ->
  exists bytes name, program p g [c] = Some bytes /\ decode ft (S turns) (g_json g) bytes = ([p0 ++ name ++ q]%string, false) /\
    (enumerator (o_enums o) ty name z \/ (forall n, ~ enumerator (o_enums o) ty n z) /\ name = ("static_cast<" ++ ty ++ ">(" ++ v ++ ")")%string).
Proof.
  intros G C S F Hm Ho Ha Hs T P0 PM Z I. destruct (generate_enums _ _ _ _ _ G) as [Nd Ee].
  destruct (call_known p o j lines is g c G C S F Hm Ho) as (id & m & [S1 S2] & K1 & K2 & K3 & K4). pose proof (generate_consistent o j lines is g G C) as [O1 O2].
  destruct (C41_packets p [numbered c id m]) as (bs0 & HB). inversion HB as [|? bs ? l P Q]; subst. inversion Q; subst. clear HB Q.
  destruct (by_id_holds _ _ _ O1 K1) as (e & E1 & Se). injection Se as Se1 Se2. destruct (by_id_holds _ _ _ O2 K2) as (e' & E2 & Se').
  exists bs, (lookup_name (enum_named (j_enums (g_json g))) ty v). split; [|split].
  - cbn [program]. unfold send. rewrite S1, S2. destruct P as (ws & E & ->). cbn [numbered c_level c_id c_module c_unit c_args] in E. rewrite E, app_nil_r. reflexivity.
  - assert (D : decodes (database_of (g_json g)) bs (decoded_call p (database_of (g_json g)) (numbered c id m))).
    { apply loggable_decodes; [|exact P]. unfold loggable, in_catalog. cbn [numbered c_id c_args c_module database_of db_messages db_modules]. rewrite Ha, E1, E2. cbn [option_map map].
      split; [split; [congruence|eauto]|]. split; [constructor|]. auto. }
    destruct D as [D0 D]. specialize (D []). rewrite app_nil_r in D. unfold decode, read_logs. destruct bs as [|x bs]; [congruence|]. cbn [length read_logs_from]. rewrite D.
    destruct (length bs); cbn [read_logs_from]; cbn [lines_of]; unfold decoded_call; cbn [numbered c_args c_id]; rewrite Ha; unfold line; rewrite ?(N.mod_small id) by exact K3; rewrite E1, Se1, (spells_text _ _ T);
      (pose proof (C46_partial (enum_named (j_enums (g_json g))) p0 [(ty, v, q)] turns) as R; cbn [written named] in R; rewrite !CatalogProofs3.sapp_nil in R; rewrite R; [reflexivity| |exact P0|repeat constructor; apply PM|]).
    all: try (intros a b d a' b' d' [[= <- <- <-]|[]] [[= <- <- <-]|[]]; reflexivity).
    all: intros a b d H; rewrite Ee in H; apply enum_named_own in H as (z' & _ & H); [eapply I; exact H|exact Nd].
  - rewrite Ee. apply (enum_lookup (o_enums o) ty z v Nd Z).
Qed.
Print Assumptions C103_compile_time.
Definition m_now := msg "now (E)1." [] (-1).
Definition m_then := msg "then (E)5." [] (-1).
Definition symbols5 := [IMessage m_now; IMessage m_then; IModule o_boot].
Definition say (m : sym_message) : log_call := {| l_level := 1; l_module := o_boot; l_unit := 0; l_message := m; l_args := [] |}.
Example C103_compile_time_case : spells (sm_text m_now) ("now " ++ String "(" ("E" ++ String ")" ("1" ++ "."))) /\ no_paren "now " /\ plain_mention ("E", "1", ".")%string /\ prints (GenModel.VInt 1) "1" /\
  enumerator (o_enums opts) "E" "busy" 1 /\
  let g := made opts nothing (map (line_of true) symbols5) in decode (fun _ => EmptyString) 3 (g_json g) (sent_bytes g [say m_now; say m_then]) = (["now busy."; "then static_cast<E>(5)."], false)%string.
Proof.
  split; [reflexivity|]. split; [reflexivity|]. split; [repeat split; discriminate|]. split; [|split; [|vm_compute; reflexivity]].
  - split; [|right; intros (r & E); discriminate]. apply (writes_one 10 1). lia.
  - eexists. split; [left; reflexivity|right; left; reflexivity].
Qed.

(** ** C104: logs stay readable with the catalogs of later builds *)
(** The log of a program, decoded with the catalog of any later build that was
    given the earlier catalog and did not forget it: the same lines, with the
    names of the later build's enumerations. *)
Theorem C104_readable ft turns p o j lines is g cs j' es : good_generate o j lines is g -> consistent j -> good_symbols is -> ids_fit g ->
  Forall (fun cp => good_call p (fst cp) (snd cp) /\ In (IMessage (l_message (fst cp))) is /\ In (IModule (l_module (fst cp))) is) cs ->
  later (g_json g) j' es ->
  exists bytes ls, program p g (map fst cs) = Some bytes /\ decode ft turns j' bytes = (ls, false) /\
    Forall2 (fun cp l => match l_args (fst cp) with [] => l = format_text (snd cp) | _ => call_line p es (fst cp) (snd cp) l end) cs ls.
Proof.
  intros G C S F H L. destruct (later_keeps _ _ _ L (generate_consistent o j lines is g G C)) as (L1 & L2 & L3 & L4 & L5).
  apply (decode_known ft turns p g j' es cs); auto.
  eapply Forall_impl; [|exact H]. intros [c ps] (H1 & H2 & H3). cbn [fst snd] in *. split; [apply S, H3|]. split; auto.
  destruct (call_known p o j lines is g c G C S F H2 H3) as (id & m & K1 & K2 & K3 & K4 & K5). exists id, m. split; auto. split; auto.
Qed.
Print Assumptions C104_readable.
(** A later build without the old messages, with a new one that sorts first; E
    has got another enumerator. *)
Definition m_a := msg "a new {}" ["encode_32<int>"%string] (-1).
Definition symbols2 := [IMessage m_a; IModule (mod_ "app")].
Definition opts2 := {| o_hash := fun s => num s * 3 + 1; o_extra := fun _ => 0%N; o_reserved := [(0, 2)]; o_forget := false; o_module_max := 127;
  o_enums := [("E", [("idle", 0); ("running", 1); ("failed", 6)])]%string; o_extra_enums := [] |}.
Definition second_build := made opts2 (g_json first_build) (map (line_of true) symbols2).
Lemma catalog1 : j_messages (g_json first_build) = [mk "at {{{}}}" ["encode_32<int>"] 3; mk "hello {{}}" [] 4; mk "state {} after {}" ["encode_enum<E, unsigned int, 4>"; "encode_u64<unsigned long long>"] 7]%string.
Proof. vm_compute. reflexivity. Qed.
Lemma catalog1' : j_modules (g_json first_build) = [mk "boot" [] 0; mk "net" [] 1]%string.
Proof. vm_compute. reflexivity. Qed.
Lemma later_ok : later (g_json first_build) (g_json second_build) (o_enums opts2).
Proof.
  apply (later_one _ opts2 (map (line_of true) symbols2) symbols2); [reflexivity|].
  split; [exists true|split; [reflexivity|split; [|split; [constructor; [intros []|constructor]|split; [reflexivity|]]]]].
  - cbn [map symbols2]. sym (IMessage m_a); [split; [|reflexivity]|].
    + constructor; [|constructor]. apply (arg_plain "encode_32" "int"); repeat split; reflexivity.
    + sym (IModule (mod_ "app")); [reflexivity|]. constructor.
  - split; [|split; [|split]].
    + rewrite catalog1. intros a b Ha Hb. cbn in Ha, Hb. all_cases; vm_compute; intros; congruence.
    + intros m Hm Hi. cbn in Hm. all_cases; vm_compute in Hi; congruence.
    + rewrite catalog1'. intros a b Ha Hb. cbn in Ha, Hb. all_cases; vm_compute; intros; congruence.
    + intros m Hm Hi. cbn in Hm. all_cases; vm_compute in Hi; congruence.
  - unfold second_build, made. destruct (generate opts2 [g_json first_build] (map (line_of true) symbols2)) eqn:E; [reflexivity|]. vm_compute in E. discriminate.
Qed.
Example C104_case : later (g_json first_build) (g_json second_build) (o_enums opts2) /\ map snd (g_messages second_build) = [5] /\
  decode (fun _ => EmptyString) 0 (g_json second_build) (sent_bytes first_build (map fst calls)) =
    (["INFO [boot] state running after 99"; "FATAL [net] at {-3}"; "INFO [boot] state failed after 100"], false)%string.
Proof. split; [apply later_ok|]. split; vm_compute; reflexivity. Qed.
(** The hypothesis that the later build does not forget is needed: a build from
    scratch gives the old ids to other messages, and an old log shows those. *)
Definition forgetting := {| o_hash := num; o_extra := fun _ => 0%N; o_reserved := [(0, 2)]; o_forget := true; o_module_max := 127; o_enums := []; o_extra_enums := [] |}.
Definition symbols3 := [IMessage m_a; IModule o_net; IModule o_boot].
Example C104_forgotten :
  decode (fun _ => EmptyString) 0 (g_json (made forgetting nothing (map (line_of true) symbols3))) (sent_bytes first_build [fst (nth 1 calls silent)]) =
    (["FATAL [net] a new -3"], false)%string.
Proof. vm_compute. reflexivity. Qed.

(** *** Older catalogs *)
(** The log of a program, decoded with the catalog its build started from: the
    calls that catalog knows are shown, and at the first message that it does not
    have the decoder stops. It never shows one message for another. *)
Theorem C104_older ft turns p o j es lines is g cs c rest bytes : good_generate o j lines is g -> consistent j -> o_forget o = false -> good_symbols is -> ids_fit g ->
  NoDup (map fst es) -> j_enums j = write_enums es [] ->
  Forall (fun cp => good_call p (fst cp) (snd cp) /\ In (IMessage (l_message (fst cp))) is /\ In (IModule (l_module (fst cp))) is /\
    (exists i, holds (j_messages j) (text_of_codes (sm_text (l_message (fst cp))), sm_args (l_message (fst cp))) i) /\ exists i, holds (j_modules j) (text_of_codes (so_text (l_module (fst cp))), []) i) cs ->
  In (IMessage (l_message c)) is -> In (IModule (l_module c)) is ->
  (forall i, ~ holds (j_messages j) (text_of_codes (sm_text (l_message c)), sm_args (l_message c)) i) ->
  program p g (map fst cs ++ c :: rest) = Some bytes ->
  exists ls, decode ft turns j bytes = (ls, true) /\
    Forall2 (fun cp l => match l_args (fst cp) with [] => l = format_text (snd cp) | _ => call_line p es (fst cp) (snd cp) l end) cs ls.
Proof.
  intros G C Hf S F Nd Ee H Hm Ho Hn P. destruct (generate_keeps o j lines is g G C Hf) as [W1 W2]. pose proof (generate_consistent o j lines is g G C) as [O1 O2].
  destruct (call_known p o j lines is g c G C S F Hm Ho) as (id & m & K0 & K1 & K2 & K3 & K4).
  apply (decode_stops ft turns p g j es cs c rest bytes id m); auto.
  - eapply Forall_impl; [|exact H]. intros [c' ps] (H1 & H2 & H3 & (i & H4) & (i' & H5)). cbn [fst snd] in *. split; [apply S, H3|]. split; auto.
    destruct (call_known p o j lines is g c' G C S F H2 H3) as (id' & m' & L0 & L1 & L2 & L3 & L4). exists id', m'. split; auto.
    assert (i = Z.of_N id') by (apply (proj1 O1 _ _ _ (W1 _ _ H4) L1)). assert (i' = Z.of_N m') by (apply (proj1 O2 _ _ _ (W2 _ _ H5) L2)). subst. split; auto.
  - left. destruct (by_id (j_messages j) (Z.of_N id)) as [e|] eqn:E; [|reflexivity]. exfalso. apply by_id_some in E as [He Ei].
    assert (X : holds (j_messages j) (sid e) (Z.of_N id)) by (exists e; auto). assert (sid e = sid_of c) by (apply (proj2 O1 _ _ (Z.of_N id)); auto). apply (Hn (Z.of_N id)). rewrite H0 in X. exact X.
Qed.
Print Assumptions C104_older.
(** A program with an old message, then a new one, then the old one. *)
Definition symbols6 := [IMessage m_a; IMessage m_state; IModule o_boot].
Definition third_build := made opts2 (g_json first_build) (map (line_of true) symbols6).
Definition news : log_call := {| l_level := 1; l_module := o_boot; l_unit := 0; l_message := m_a; l_args := [(MipiModel.Plain Int, 5%N)] |}.
Example C104_older_case : (forall i, ~ holds (j_messages (g_json first_build)) (text_of_codes (sm_text m_a), sm_args m_a) i) /\
  let f := fst (nth 0 calls silent) in
  decode (fun _ => EmptyString) 0 (g_json first_build) (sent_bytes third_build [f; news; f]) = (["INFO [boot] state busy after 99"], true)%string /\
  decode (fun _ => EmptyString) 0 (g_json third_build) (sent_bytes third_build [f; news; f]) = (["INFO [boot] state running after 99"; "FATAL [boot] a new 5"; "INFO [boot] state running after 99"], false)%string.
Proof.
  split; [|split; vm_compute; reflexivity]. rewrite catalog1. intros i (x & Hx & E & _). cbn in Hx. all_cases; discriminate.
Qed.

(** *** Edited catalogs *)
(** A text edited in the catalog so that it has more places than the call has
    arguments: the decoder stops there, after the lines of the calls before. *)
Theorem C104_edited ft turns p g j es cs c rest bytes id m e ps : NoDup (map fst es) -> j_enums j = write_enums es [] -> consistent j ->
  Forall (fun cp => ascii_text (so_text (l_module (fst cp))) /\ good_call p (fst cp) (snd cp) /\ exists id m, sent_as p g (fst cp) id m /\ known j (fst cp) id m) cs ->
  sent_as p g c id m -> (id < 2 ^ 28)%N -> (m < 2 ^ 7)%N -> l_args c <> [] -> (l_level c < 8)%N -> (l_unit c < 16)%N ->
  Forall (fun a => type_ok (fst a) /\ name_ok (fst a) /\ MipiSpec.arg_ok p a) (l_args c) ->
  In e (j_messages j) -> m_id e = Z.of_N id -> m_args e = map (fun a => encode_text p (fst a)) (l_args c) ->
  m_text e = format_text ps -> Forall braces_ok ps -> ~ mentions_enum (format_text ps) -> (length (l_args c) < length (filter is_hole ps))%nat ->
  program p g (map fst cs ++ c :: rest) = Some bytes ->
  exists ls, decode ft turns j bytes = (ls, true) /\
    Forall2 (fun cp l => match l_args (fst cp) with [] => l = format_text (snd cp) | _ => call_line p es (fst cp) (snd cp) l end) cs ls.
Proof. apply decode_edited. Qed.
Print Assumptions C104_edited.
Definition edited : json_file := {| j_messages := [mk "at {{{}}} of {}" ["encode_32<int>"] 3; mk "state {} after {}" ["encode_enum<E, unsigned int, 4>"; "encode_u64<unsigned long long>"] 7]%string;
  j_modules := j_modules (g_json first_build); j_enums := j_enums (g_json first_build) |}.
Example C104_edited_case : decode (fun _ => EmptyString) 0 edited (sent_bytes first_build (map fst calls)) = (["INFO [boot] state busy after 99"], true)%string.
Proof. vm_compute. reflexivity. Qed.

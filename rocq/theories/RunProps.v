(** Properties of the runs of the catalog generator. *)
From Coq Require Import String Ascii Bool Arith ZArith NArith List Lia Permutation.
From Verif Require Import CatalogModel CatalogSpec CatalogProofs CatalogProofs2 CatalogProps GenModel GenSpec SymbolModel SymbolSpec ChainModel ChainSpec ChainProofs ChainProofs2 ChainProps OutputModel OutputSpec RunModel RunSpec RunProofs RunProofs2 RunProofs3.
From Verif Require Import SymbolProofs SymbolProps.
From Verif Require OutputProps GenProps.
Import ListNotations.
Local Open Scope string_scope.
Local Open Scope list_scope.

(** ** C118: enumerations are found *)
Theorem C118_enums_are_found u :
  NoDup (map fst (extract_enums u)) /\ (forall q, In q (map fst (extract_enums u)) <-> exists node, an_enum u node q) /\
  forall q d, In (q, d) (extract_enums u) -> NoDup (map fst d) /\ (forall n, In n (map fst d) <-> exists v, declares u q n v) /\ (forall n v, In (n, v) d -> declares u q n v) /\
    (unambiguous u -> forall n v, In (n, v) d <-> declares u q n v).
Proof.
  destruct (extract_found u) as (N & K & V). split; [exact N|]. split.
  - intros q. rewrite K. unfold an_enum. split.
    + intros (node & I & E). apply filter_In in I as [I J]. exists node. rewrite <- walk_inside, <- fq_qualified. apply is_kind_iff in J. auto.
    + intros (node & I & J & E). exists node. rewrite fq_qualified. split; [|exact E]. apply filter_In. rewrite walk_inside. split; [exact I|apply is_kind_iff; exact J].
  - intros q d I. destruct (V q d I) as (V1 & V2 & V3).
    assert (W2 : forall n, In n (map fst d) <-> exists v, declares u q n v) by (intros n; rewrite V2; split; intros (v & D); exists v; apply declared_iff; exact D).
    assert (W3 : forall n v, In (n, v) d -> declares u q n v) by (intros n v J; apply declared_iff; apply V3; exact J).
    split; [exact V1|]. split; [exact W2|]. split; [exact W3|]. intros U n v. split; [apply W3|]. intros D.
    assert (In n (map fst d)) as M by (apply W2; eauto). apply in_map_iff in M as ([n' v'] & E & M). cbn in E. subst n'. rewrite (U q n v v' D (W3 n v' M)). exact M.
Qed.
Print Assumptions C118_enums_are_found.
(** Every enumerator is found with its value exactly if no enumeration name has an enumerator name with two values. *)
Theorem C118_exact u : (forall q d n v, In (q, d) (extract_enums u) -> (In (n, v) d <-> declares u q n v)) <-> unambiguous u.
Proof.
  destruct (C118_enums_are_found u) as (N & K & V). split.
  - intros H q n v v' D D'. assert (Iq : In q (map fst (extract_enums u))) by (apply K; destruct D as (node & _ & E & _); exists node; exact E).
    apply in_map_iff in Iq as ([q' d] & E & I). cbn in E. subst q'. apply (H q d n v I) in D. apply (H q d n v' I) in D'. destruct (V q d I) as (Nd & _).
    clear - Nd D D'. induction d as [|[a b] d IH]; [destruct D|]. cbn [map fst] in Nd. inversion Nd as [|? ? Na Nd']; subst. destruct D as [D|D], D' as [D'|D'].
    + congruence.
    + destruct Na. injection D as -> ->. exact (in_map fst _ _ D').
    + destruct Na. injection D' as -> ->. exact (in_map fst _ _ D).
    + exact (IH D D' Nd').
  - intros U q d n v I. exact (proj2 (proj2 (proj2 (V q d I))) U n v).
Qed.
Print Assumptions C118_exact.
(** Two enumerations of one name (here unnamed ones) are one in the catalog; of two
    enumerators of one name only the later value is kept. *)
Theorem C118_distinct_enums_refuted : exists u n1 n2 v1 v2 q, an_enum u n1 q /\ an_enum u n2 q /\ n1 <> n2 /\ declares u q "A" v1 /\ declares u q "A" v2 /\ v1 <> v2 /\
  extract_enums u = [(q, [("A", v2); ("B", 2%Z)])].
Proof.
  set (e1 := Cursor EnumDecl "f::E" [] 0 [Cursor EnumConstant "A" ["f"] 1 []; Cursor EnumConstant "B" ["f"] 2 []]).
  set (e2 := Cursor EnumDecl "f::E" [] 0 [Cursor EnumConstant "A" ["f"] 3 []]).
  exists (Cursor OtherDecl "" [] 0 [e1; e2]), e1, e2, 1%Z, 3%Z, "f::E".
  assert (I1 : an_enum (Cursor OtherDecl "" [] 0 [e1; e2]) e1 "f::E"). { split; [|split; reflexivity]. eapply inside_child; [left; reflexivity|constructor]. }
  assert (I2 : an_enum (Cursor OtherDecl "" [] 0 [e1; e2]) e2 "f::E"). { split; [|split; reflexivity]. eapply inside_child; [right; left; reflexivity|constructor]. }
  split; [exact I1|]. split; [exact I2|]. split; [discriminate|]. split.
  { exists e1. eexists. split; [exact I1|]. split; [eapply inside_child; [left; reflexivity|constructor]|]. repeat split; reflexivity. }
  split.
  { exists e2. eexists. split; [exact I2|]. split; [eapply inside_child; [left; reflexivity|constructor]|]. repeat split; reflexivity. }
  split; [discriminate|]. vm_compute. reflexivity.
Qed.
Print Assumptions C118_distinct_enums_refuted.
(** An enumeration declared, then defined inside a namespace and a class, beside others. *)
Definition some_unit : cursor :=
  Cursor OtherDecl "unit" [] 0 [
    Cursor OtherDecl "ns" [] 0 [Cursor EnumDecl "E" ["ns"] 0 []; Cursor EnumDecl "E" ["ns"] 0 [Cursor EnumConstant "A" ["ns"; "E"] 5 []; Cursor EnumConstant "B" ["ns"; "E"] (-2) [Cursor OtherDecl "" [] 0 []]]];
    Cursor OtherDecl "g" [] 0 [Cursor OtherDecl "h" ["ns"] 0 [Cursor EnumDecl "F" ["ns"; "h"] 0 [Cursor EnumConstant "A" ["ns"; "h"; "F"] 0 []]]]].
Example C118_case : extract_enums some_unit = [("ns::E", [("A", 5); ("B", -2)]); ("ns::h::F", [("A", 0)])]%Z /\ declares some_unit "ns::E" "B" (-2).
Proof.
  split; [vm_compute; reflexivity|]. exists (Cursor EnumDecl "E" ["ns"] 0 [Cursor EnumConstant "A" ["ns"; "E"] 5 []; Cursor EnumConstant "B" ["ns"; "E"] (-2) [Cursor OtherDecl "" [] 0 []]]),
    (Cursor EnumConstant "B" ["ns"; "E"] (-2) [Cursor OtherDecl "" [] 0 []]). split; [split; [|split; reflexivity]|].
  - eapply inside_child; [left; reflexivity|]. eapply inside_child; [right; left; reflexivity|constructor].
  - split; [eapply inside_child; [right; left; reflexivity|constructor]|]. repeat split; reflexivity.
Qed.

(** ** C119: the C++ file *)
Theorem C119_source_defines_each_once_partial st j lines is fs fs' cpp :
  main st [j] lines fs = (fs', true) -> s_cpp st = Some cpp -> s_json st <> Some cpp -> s_xml st <> Some cpp -> read_file lines = Some is ->
  fits_catalog (s_options st) j is -> good_symbols is -> one_line (s_argv st) -> one_line (s_date st) -> Forall one_line (s_headers st) ->
  (forall m, In (IMessage m) is -> one_line (text_of_codes (sm_text m)) /\ Forall one_line (sm_args m) /\ one_line (message_type m)) ->
  (forall o, In (IModule o) is -> one_line (text_of_codes (so_text o)) /\ one_line (module_type o)) ->
  exists text decls ms os, file cpp fs' = Some (Plain text) /\ enum_decls (map fst ms) = Some decls /\
    program_lines text = includes (s_headers st) ++ flat_map program_lines decls ++ flat_map (fun m => returns "catalog" "string_id" (message_type (fst m)) (snd m)) ms ++
                         flat_map (fun o => returns "module" "module_id" (module_type (fst o)) (snd o)) os /\
    NoDup (map fst ms) /\ (forall m, In m (map fst ms) <-> In (IMessage m) is) /\ NoDup (map fst os) /\ (forall o, In o (map fst os) <-> In (IModule o) is).
Proof.
  intros H C J X R (S1 & S2 & S3 & S4) (Y1 & Y2 & Y3 & Y4) A D Hd Hm Ho. destruct (main_cpp _ _ _ _ _ _ H C J X) as (is' & decls & R' & E & F). rewrite R in R'. injection R' as <-.
  assert (M1 : forall m, In m (map fst (msg_objects st [j] is)) <-> In (IMessage m) is).
  { intros m. split.
    - intros I. apply in_map_iff in I as ([m' i] & <- & I). apply in_objects in I as (I & _). apply in_messages. exact I.
    - intros I.
      destruct (objects_all (entry_of_message (o_extra (s_options st))) (msg_key (o_hash (s_options st))) (o_forget (s_options st)) (o_reserved (s_options st)) (j_messages j) (messages_of is) (key_respects _) S1) with (m := m) as (e & Ie & Es & Io).
      { intros a b Ha Hb [= Et Ea]. apply in_messages in Ha, Hb. apply Y3; auto. apply text_inj; auto. }
      { apply in_messages. exact I. }
      apply in_map_iff. exists (m, m_id e). split; [reflexivity|exact Io]. }
  assert (M2 : forall o, In o (map fst (module_objects st [j] is)) <-> In (IModule o) is).
  { intros m. split.
    - intros I. apply in_map_iff in I as ([m' i] & <- & I). apply in_objects in I as (I & _). apply in_modules. exact I.
    - intros I.
      destruct (objects_all entry_of_module (module_key (o_hash (s_options st))) (o_forget (s_options st)) [] (j_modules j) (modules_of is) (module_respects _) S3) with (m := m) as (e & Ie & Es & Io).
      { intros a b Ha Hb [= Et]. apply in_modules in Ha, Hb. apply Y4; auto. apply text_inj; auto. }
      { apply in_modules. exact I. }
      apply in_map_iff. exists (m, m_id e). split; [reflexivity|exact Io]. }
  eexists. exists decls, (msg_objects st [j] is), (module_objects st [j] is). split; [exact F|]. split; [exact E|]. split; [|split; [|split; [exact M1|split; [|exact M2]]]].
  - rewrite program_file, program_disclaimer by assumption. cbn [app]. unfold includes. rewrite <- app_assoc. f_equal.
    + rewrite flat_map_map. clear - Hd. induction Hd as [|h l O _ IH]; [reflexivity|]. cbn [flat_map map]. rewrite IH, program_line; [reflexivity|]. split; [|split; [reflexivity|discriminate]].
      apply one_line_app; [apply one_line_const; reflexivity|]. apply one_line_app; [exact O|apply one_line_const; reflexivity].
    + cbn [app]. do 3 f_equal. unfold catalog_defns, module_defns. rewrite !flat_map_map. f_equal; apply flat_ext; intros [m i] I; cbn [fst snd].
      * assert (In (IMessage m) is) as I' by (apply M1; apply in_map_iff; exists (m, i); auto). destruct (Hm m I') as (O1 & O2 & O3). apply program_catalog; [exact O1|apply one_line_repr; exact O2|exact O3].
      * assert (In (IModule m) is) as I' by (apply M2; apply in_map_iff; exists (m, i); auto). destruct (Ho m I') as (O1 & O2). apply program_module; assumption.
  - apply objects_nodup. apply run_keys; [apply key_respects].
  - apply objects_nodup. apply run_keys; [apply module_respects].
Qed.
Print Assumptions C119_source_defines_each_once_partial.

(** A run on the listing of C103; clang finds the enumeration in the C++ file. *)
Definition some_settings : settings :=
  {| s_options := opts; s_cpp := Some "strings.cpp"; s_json := Some "strings.json"; s_xml := Some "strings.xml"; s_headers := ["a.hpp"]; s_argv := "gen_str_catalog.py"; s_date := "today";
     s_client := "client"; s_version := "1"; s_guid_id := "01"; s_guid_mask := "ff";
     s_clang := fun text => Some (Cursor OtherDecl "unit" [] 0 [Cursor EnumDecl "E" [] 0 [Cursor EnumConstant "busy" ["E"] 2 []]]) |}.
Definition before : files := [("strings.json", Json nothing); ("notes", Plain "x")].
Definition some_run : files * bool := main some_settings [nothing] listed before.
Definition plain_of (c : option content) : string := match c with Some (Plain s) => s | _ => "" end.
Lemma some_run_ends : exists fs', some_run = (fs', true).
Proof. eexists. vm_compute. reflexivity. Qed.
Lemma fits_nothing : fits_catalog (s_options some_settings) nothing symbols.
Proof. apply build_ok. Qed.
Ltac each_item H := cbn in H; repeat destruct H as [H|H]; try discriminate H; try contradiction; injection H as <-.
Lemma one_line_messages m : In (IMessage m) symbols -> one_line (text_of_codes (sm_text m)) /\ Forall one_line (sm_args m) /\ one_line (message_type m).
Proof. intros H. each_item H; (split; [apply one_line_const; vm_compute; reflexivity|]); (split; [repeat constructor; apply one_line_const; reflexivity|apply one_line_const; vm_compute; reflexivity]). Qed.
Lemma one_line_modules o : In (IModule o) symbols -> one_line (text_of_codes (so_text o)) /\ one_line (module_type o).
Proof. intros H. each_item H; (split; apply one_line_const; vm_compute; reflexivity). Qed.
Example C119_case : fits_catalog (s_options some_settings) nothing symbols /\ good_symbols symbols /\ read_file listed = Some symbols /\ snd some_run = true /\
  (forall m, In (IMessage m) symbols -> one_line (text_of_codes (sm_text m)) /\ Forall one_line (sm_args m) /\ one_line (message_type m)) /\
  map (substring 0 28) (program_lines (plain_of (file "strings.cpp" (fst some_run)))) =
  ["#include ""a.hpp"""; "#include <log_binary/catalog"; "#include <log_binary/catalog"; "enum struct E : unsigned int";
   "template<> auto catalog<sc::"; "    return 3;"; "}"; "template<> auto catalog<sc::"; "    return 4;"; "}"; "template<> auto catalog<sc::"; "    return 7;"; "}";
   "template<> auto module<sc::m"; "    return 0;"; "}"; "template<> auto module<sc::m"; "    return 1;"; "}"].
Proof.
  split; [apply fits_nothing|]. split; [apply symbols_ok|]. split; [vm_compute; reflexivity|]. split; [vm_compute; reflexivity|]. split; [apply one_line_messages|]. vm_compute. reflexivity.
Qed.
(** A text with a line feed puts its second line into the program. *)
Definition two_lines : list item := [IModule (mod_ ("first" ++ newline ++ "#error here")%string)].
Theorem C119_line_feed_refuted : exists st lines fs fs' text, main st [nothing] lines fs = (fs', true) /\ read_file lines = Some two_lines /\ fits_catalog (s_options st) nothing two_lines /\ file "strings.cpp" fs' = Some (Plain text) /\ In "#error here""" (program_lines text).
Proof.
  exists some_settings, (map (line_of true) two_lines), []. eexists. eexists. split; [vm_compute; reflexivity|]. split; [vm_compute; reflexivity|]. split; [|split].
  - split; [|split; [|split]].
    + intros a b [].
    + intros m [].
    + intros a b Ha Hb. cbn in Ha, Hb. destruct Ha as [<-|[]]. destruct Hb as [<-|[]]. reflexivity.
    + intros m Hm Hi. cbn in Hm. destruct Hm as [<-|[]]. vm_compute in Hi. congruence.
  - vm_compute. reflexivity.
  - vm_compute. auto 20.
Qed.
Print Assumptions C119_line_feed_refuted.

(** What texts with line feeds add to the program: their lines after the first
    that are no comments and not empty, the last one with the closing quote, each
    before the definition it belongs to; nothing else changes. *)
Definition spilled (text : string) : list string := filter (fun l => negb (l =? "")) (filter (fun l => negb (is_comment l)) (tl (GenSpec.lines (text ++ """")))).
Lemma spilled_catalog text args type id : one_line args -> one_line type -> program_lines (catalog_defn text args type id) = spilled text ++ returns "catalog" "string_id" type id.
Proof. intros B C. unfold program_lines. rewrite (proj1 (GenProps.C82_exact text args type id B C)), filter_app. reflexivity. Qed.
Lemma spilled_module text type id : one_line type -> program_lines (module_defn text type id) = spilled text ++ returns "module" "module_id" type id.
Proof. intros C. unfold program_lines. rewrite (proj2 (GenProps.C82_exact text "" type id ltac:(apply one_line_const; reflexivity) C)), filter_app. reflexivity. Qed.
Theorem C119_exact st j lines is fs fs' cpp :
  main st [j] lines fs = (fs', true) -> s_cpp st = Some cpp -> s_json st <> Some cpp -> s_xml st <> Some cpp -> read_file lines = Some is ->
  fits_catalog (s_options st) j is -> good_symbols is -> one_line (s_argv st) -> one_line (s_date st) -> Forall one_line (s_headers st) ->
  (forall m, In (IMessage m) is -> Forall one_line (sm_args m) /\ one_line (message_type m)) -> (forall o, In (IModule o) is -> one_line (module_type o)) ->
  exists text decls ms os, file cpp fs' = Some (Plain text) /\ enum_decls (map fst ms) = Some decls /\
    program_lines text = includes (s_headers st) ++ flat_map program_lines decls ++
      flat_map (fun m => spilled (text_of_codes (sm_text (fst m))) ++ returns "catalog" "string_id" (message_type (fst m)) (snd m)) ms ++
      flat_map (fun o => spilled (text_of_codes (so_text (fst o))) ++ returns "module" "module_id" (module_type (fst o)) (snd o)) os /\
    NoDup (map fst ms) /\ (forall m, In m (map fst ms) <-> In (IMessage m) is) /\ NoDup (map fst os) /\ (forall o, In o (map fst os) <-> In (IModule o) is).
Proof.
  intros H C J X R (S1 & S2 & S3 & S4) (Y1 & Y2 & Y3 & Y4) A D Hd Hm Ho. destruct (main_cpp _ _ _ _ _ _ H C J X) as (is' & decls & R' & E & F). rewrite R in R'. injection R' as <-.
  assert (M1 : forall m, In m (map fst (msg_objects st [j] is)) <-> In (IMessage m) is).
  { intros m. split.
    - intros I. apply in_map_iff in I as ([m' i] & <- & I). apply in_objects in I as (I & _). apply in_messages. exact I.
    - intros I.
      destruct (objects_all (entry_of_message (o_extra (s_options st))) (msg_key (o_hash (s_options st))) (o_forget (s_options st)) (o_reserved (s_options st)) (j_messages j) (messages_of is) (key_respects _) S1) with (m := m) as (e & Ie & Es & Io).
      { intros a b Ha Hb [= Et Ea]. apply in_messages in Ha, Hb. apply Y3; auto. apply text_inj; auto. }
      { apply in_messages. exact I. }
      apply in_map_iff. exists (m, m_id e). split; [reflexivity|exact Io]. }
  assert (M2 : forall o, In o (map fst (module_objects st [j] is)) <-> In (IModule o) is).
  { intros m. split.
    - intros I. apply in_map_iff in I as ([m' i] & <- & I). apply in_objects in I as (I & _). apply in_modules. exact I.
    - intros I.
      destruct (objects_all entry_of_module (module_key (o_hash (s_options st))) (o_forget (s_options st)) [] (j_modules j) (modules_of is) (module_respects _) S3) with (m := m) as (e & Ie & Es & Io).
      { intros a b Ha Hb [= Et]. apply in_modules in Ha, Hb. apply Y4; auto. apply text_inj; auto. }
      { apply in_modules. exact I. }
      apply in_map_iff. exists (m, m_id e). split; [reflexivity|exact Io]. }
  eexists. exists decls, (msg_objects st [j] is), (module_objects st [j] is). split; [exact F|]. split; [exact E|]. split; [|split; [|split; [exact M1|split; [|exact M2]]]].
  - rewrite program_file, program_disclaimer by assumption. cbn [app]. unfold includes. rewrite <- app_assoc. f_equal.
    + rewrite flat_map_map. clear - Hd. induction Hd as [|h l O _ IH]; [reflexivity|]. cbn [flat_map map]. rewrite IH, program_line; [reflexivity|]. split; [|split; [reflexivity|discriminate]].
      apply one_line_app; [apply one_line_const; reflexivity|]. apply one_line_app; [exact O|apply one_line_const; reflexivity].
    + cbn [app]. do 3 f_equal. unfold catalog_defns, module_defns. rewrite !flat_map_map. f_equal; apply flat_ext; intros [m i] I; cbn [fst snd].
      * assert (In (IMessage m) is) as I' by (apply M1; apply in_map_iff; exists (m, i); auto). destruct (Hm m I') as (O2 & O3). apply spilled_catalog; [apply one_line_repr; exact O2|exact O3].
      * assert (In (IModule m) is) as I' by (apply M2; apply in_map_iff; exists (m, i); auto). apply spilled_module, Ho, I'.
  - apply objects_nodup. apply run_keys; [apply key_respects].
  - apply objects_nodup. apply run_keys; [apply module_respects].
Qed.
Print Assumptions C119_exact.
Example C119_exact_case : spilled ("first" ++ newline ++ "// note" ++ newline ++ newline ++ "#error here") = ["#error here"""] /\ spilled "one line" = [] /\
  exists fs', main some_settings [nothing] (map (line_of true) two_lines) [] = (fs', true) /\
    program_lines (plain_of (file "strings.cpp" fs')) = ["#include ""a.hpp"""; "#include <log_binary/catalog/arguments.hpp>"; "#include <log_binary/catalog/catalog.hpp>"; "#error here"""] ++
      returns "module" "module_id" (module_type (mod_ ("first" ++ newline ++ "#error here")%string)) 0.
Proof. split; [reflexivity|]. split; [reflexivity|]. eexists. split; vm_compute; reflexivity. Qed.

(** ** C120: the files of a run agree *)
Theorem C120_files_agree_partial st j lines is fs fs' cpp json xml :
  main st [j] lines fs = (fs', true) -> s_cpp st = Some cpp -> s_json st = Some json -> s_xml st = Some xml -> cpp <> json /\ cpp <> xml /\ json <> xml ->
  read_file lines = Some is -> fits_catalog (s_options st) j is -> consistent j -> good_symbols is ->
  exists text jf x, file cpp fs' = Some (Plain text) /\ file json fs' = Some (Json jf) /\ file xml fs' = Some (Plain x) /\
    (forall p, p <> cpp -> p <> json -> p <> xml -> file p fs' = file p fs) /\ j_enums jf = write_enums (enums_seen st text) (o_extra_enums (s_options st)) /\
    ((forall s i, holds (j_messages jf) s i -> 0 <= i < 2 ^ 28)%Z ->
     Forall legal [s_client st; s_version st; s_guid_id st; s_guid_mask st] -> (forall q d, In (q, d) (enums_seen st text) -> legal q /\ Forall legal (map fst d)) ->
     (forall m, In (IModule m) is -> good_text (text_of_codes (so_text m))) ->
     (forall m args, In (IMessage m) is -> Forall2 (fun a t => arg_of a = Some t) (sm_args m) args -> good_text (printf_format (text_of_codes (sm_text m)) args)) ->
     exists y, reads x y /\
     forall m, In (IMessage m) is -> exists i args, Forall2 (fun a t => arg_of a = Some t) (sm_args m) args /\
       (one_line (text_of_codes (sm_text m)) -> Forall one_line (sm_args m) -> one_line (message_type m) ->
        exists pre post, program_lines text = pre ++ returns "catalog" "string_id" (message_type m) i ++ post) /\
       holds (j_messages jf) (text_of_codes (sm_text m), sm_args m) i /\
       look_up y i = [printf_format (text_of_codes (sm_text m)) args]).
Proof.
  intros H C J X P R F Co S. destruct (run_files st j lines fs fs' cpp json xml H C J X P) as (text & jf & x & F1 & F2 & F3 & F4 & F5).
  exists text, jf, x. split; [exact F1|]. split; [exact F2|]. split; [exact F3|]. split; [exact F4|]. split; [exact F5|].
  intros Ids Lab En Gm Gs. eapply run_messages; eassumption.
Qed.
Print Assumptions C120_files_agree_partial.
(** Whatever the ampersands: the C++ and JSON files agree, and the XML file gives a message the same text exactly if its text has no ampersand. *)
Theorem C120_exact st j lines is fs fs' cpp json xml :
  main st [j] lines fs = (fs', true) -> s_cpp st = Some cpp -> s_json st = Some json -> s_xml st = Some xml -> cpp <> json /\ cpp <> xml /\ json <> xml ->
  read_file lines = Some is -> fits_catalog (s_options st) j is -> consistent j -> good_symbols is ->
  exists text jf x, file cpp fs' = Some (Plain text) /\ file json fs' = Some (Json jf) /\ file xml fs' = Some (Plain x) /\
    (forall p, p <> cpp -> p <> json -> p <> xml -> file p fs' = file p fs) /\ j_enums jf = write_enums (enums_seen st text) (o_extra_enums (s_options st)) /\
    ((forall s i, holds (j_messages jf) s i -> 0 <= i < 2 ^ 28)%Z ->
     Forall legal [s_client st; s_version st; s_guid_id st; s_guid_mask st] -> (forall q d, In (q, d) (enums_seen st text) -> legal q /\ Forall legal (map fst d)) ->
     (forall m, In (IModule m) is -> carried (text_of_codes (so_text m))) ->
     (forall m args, In (IMessage m) is -> Forall2 (fun a t => arg_of a = Some t) (sm_args m) args -> carried (printf_format (text_of_codes (sm_text m)) args)) ->
     exists y, reads x y /\
     forall m, In (IMessage m) is -> exists i args, Forall2 (fun a t => arg_of a = Some t) (sm_args m) args /\
       (one_line (text_of_codes (sm_text m)) -> Forall one_line (sm_args m) -> one_line (message_type m) ->
        exists pre post, program_lines text = pre ++ returns "catalog" "string_id" (message_type m) i ++ post) /\
       holds (j_messages jf) (text_of_codes (sm_text m), sm_args m) i /\
       (look_up y i = [printf_format (text_of_codes (sm_text m)) args] <-> no_amp (printf_format (text_of_codes (sm_text m)) args))).
Proof.
  intros H C J X P R F Co S. destruct (run_files st j lines fs fs' cpp json xml H C J X P) as (text & jf & x & F1 & F2 & F3 & F4 & F5).
  exists text, jf, x. split; [exact F1|]. split; [exact F2|]. split; [exact F3|]. split; [exact F4|]. split; [exact F5|].
  intros Ids Lab En Gm Gs.
  assert (A : exists y, reads x y /\
     forall m, In (IMessage m) is -> exists i args, Forall2 (fun a t => arg_of a = Some t) (sm_args m) args /\
       (one_line (text_of_codes (sm_text m)) -> Forall one_line (sm_args m) -> one_line (message_type m) ->
        exists pre post, program_lines text = pre ++ returns "catalog" "string_id" (message_type m) i ++ post) /\
       holds (j_messages jf) (text_of_codes (sm_text m), sm_args m) i /\
       look_up y i = [amp (printf_format (text_of_codes (sm_text m)) args)]) by (eapply run_messages_amp; eassumption).
  destruct A as (y & Ry & A). exists y. split; [exact Ry|]. intros m I. destruct (A m I) as (i & args & A1 & A2 & A3 & A4).
  exists i, args. split; [exact A1|]. split; [exact A2|]. split; [exact A3|]. rewrite A4. split.
  - intros E. apply OutputProofs4.amp_same. congruence.
  - intros E. f_equal. now apply OutputProofs4.no_amp_amp.
Qed.
Print Assumptions C120_exact.
(** The types of arguments above are those written in the symbols. *)
Theorem C120_arguments : forall a, encoding_ok a -> exists t, arg_of (encoding_text a) = Some t /\
  match a, t with Enc tag ty, Enc tag' ty' => tag' = tag /\ ty' = ty | EncEnum e ut _, EncEnum e' ut' _ => e' = e /\ ut' = ut | _, _ => False end.
Proof.
  intros a Ha. destruct (C95_reads a Ha) as [s E]. unfold arg_of. rewrite E. eexists. split; [reflexivity|].
  destruct a as [tag ty|e ut size]; cbn [arg_enc arg_ut arg_enum].
  - destruct Ha as [Ht _]. assert (X : (tag =? "encode_enum")%string = false).
    { cbn in Ht. repeat (destruct Ht as [<-|Ht]; [reflexivity|]). destruct Ht. }
    rewrite X. auto.
  - cbn. auto.
Qed.
Print Assumptions C120_arguments.
Example C120_arguments_case : encoding_ok (EncEnum "ns::E" "unsigned char" "4") /\ encoding_ok (Enc "encode_u32" "ns::F") /\
  arg_of (encoding_text (EncEnum "ns::E" "unsigned char" "4")) = Some (EncEnum "ns::E" "unsigned char" "4").
Proof.
  assert (L : forall s, forallb (fun a => negb (Ascii.eqb a (ascii_of_nat 10))) (list_ascii_of_string s) = true -> one_line s).
  { intros s H (u & v & E). subst s. revert H.
    assert (A : forall u0 w, list_ascii_of_string (u0 ++ w) = (list_ascii_of_string u0 ++ list_ascii_of_string w)%list) by (induction u0; cbn; intros; f_equal; auto).
    rewrite !A, !forallb_app. cbn. rewrite andb_false_r. discriminate. }
  split; [|split; [|vm_compute; reflexivity]].
  - cbn. repeat split; try (apply L; reflexivity); try discriminate. intros (u & v & E).
    apply (f_equal (fun s => existsb (Ascii.eqb ",") (list_ascii_of_string s))) in E. revert E.
    assert (A : forall u0 w, list_ascii_of_string (u0 ++ w) = (list_ascii_of_string u0 ++ list_ascii_of_string w)%list) by (induction u0; cbn; intros; f_equal; auto).
    rewrite A, existsb_app. cbn. rewrite orb_true_r. discriminate.
  - split; [cbn; auto|apply L; reflexivity].
Qed.

(** A text with an ampersand is another in the XML file than in the two others. *)
Definition ampersand : list item := [IMessage (msg "drivers & ports" [] (-1))].
Theorem C120_refuted : exists st lines fs fs' jf x y i,
  main st [nothing] lines fs = (fs', true) /\ s_cpp st = Some "strings.cpp" /\ s_json st = Some "strings.json" /\ s_xml st = Some "strings.xml" /\
  read_file lines = Some ampersand /\ fits_catalog (s_options st) nothing ampersand /\ good_symbols ampersand /\
  file "strings.json" fs' = Some (Json jf) /\ holds (j_messages jf) ("drivers & ports", []) i /\ (0 <= i < 2 ^ 28)%Z /\
  file "strings.xml" fs' = Some (Plain x) /\ reads x y /\ look_up y i = ["drivers &amp; ports"].
Proof.
  exists some_settings, (map (line_of true) ampersand), []. eexists. eexists. eexists. eexists. exists 3%Z.
  split; [vm_compute; reflexivity|]. split; [reflexivity|]. split; [reflexivity|]. split; [reflexivity|].
  split; [vm_compute; reflexivity|]. split; [|split].
  - split; [|split; [|split]].
    + intros a b Ha Hb. cbn in Ha, Hb. destruct Ha as [<-|[]]. destruct Hb as [<-|[]]. reflexivity.
    + intros m Hm Hi. cbn in Hm. destruct Hm as [<-|[]]. vm_compute in Hi. congruence.
    + intros a b [].
    + intros m [].
  - split; [|split; [|split]].
    + intros m [H|[]]. injection H as <-. repeat constructor; vm_compute; congruence.
    + intros o [H|[]]. discriminate H.
    + intros m n [H|[]] [H'|[]] _ _. congruence.
    + intros m n [H|[]]. discriminate H.
  - split; [vm_compute; reflexivity|]. split; [eexists; split; [left; reflexivity|]; split; reflexivity|]. split; [lia|].
    split; [vm_compute; reflexivity|]. split.
    + split; [vm_compute; reflexivity|]. exists 300%nat. eexists. eexists. split; [vm_compute; reflexivity|]. split; [vm_compute; reflexivity|]. vm_compute. reflexivity.
    + vm_compute. reflexivity.
Qed.
Print Assumptions C120_refuted.

(** The enumerations in the XML file are those of the C++ file, each with a number of its own, and
    the lookup of a message gives the position and number of the last of its arguments that is
    one of them. *)
Lemma numbered_spec {A} (l : list (string * A)) : forall i, map (fun e => (fst e, snd (snd e))) (numbered i l) = l /\ NoDup (map (fun e => fst (snd e)) (numbered i l)) /\ (forall e, In e (numbered i l) -> i <= fst (snd e))%Z.
Proof.
  induction l as [|[n v] l IH]; intros i; cbn [numbered map fst snd]; [split; [reflexivity|]; split; [constructor|intros e []]|].
  destruct (IH (i + 1)%Z) as (E & N & B). rewrite E. split; [reflexivity|]. split.
  - constructor; [|exact N]. intros I. apply in_map_iff in I as (e & <- & I). specialize (B e I). lia.
  - intros e [<-|I]; [cbn; lia|]. specialize (B e I). lia.
Qed.
Lemma assoc_in {A} (l : list (string * A)) q v : NoDup (map fst l) -> (assoc q l = Some v <-> In (q, v) l).
Proof.
  induction l as [|[k w] l IH]; intros N; cbn [assoc]; [split; [discriminate|intros []]|]. inversion N as [|? ? Ni N']; subst. cbn [fst] in Ni.
  destruct (String.eqb_spec k q) as [->|D].
  - split; [intros E; injection E as ->; left; reflexivity|]. intros [E|I]; [injection E as ->; reflexivity|]. exfalso. apply Ni. apply (in_map fst) in I. exact I.
  - rewrite IH by auto. split; [right; auto|]. intros [E|I]; [congruence|auto].
Qed.
Lemma assoc_not {A} (l : list (string * A)) q : assoc q l = None <-> ~ In q (map fst l).
Proof.
  induction l as [|[k w] l IH]; cbn [assoc map fst]; [split; [intros _ []|reflexivity]|]. destruct (String.eqb_spec k q) as [->|D].
  - split; [discriminate|]. intros H. exfalso. apply H. left. reflexivity.
  - rewrite IH. split; [intros H [E|I]; auto|intros H I; apply H; right; exact I].
Qed.
Theorem C120_enumerations st j lines is fs fs' cpp json xml :
  main st [j] lines fs = (fs', true) -> s_cpp st = Some cpp -> s_json st = Some json -> s_xml st = Some xml -> cpp <> json /\ cpp <> xml /\ json <> xml ->
  read_file lines = Some is ->
  exists text c, file cpp fs' = Some (Plain text) /\ file xml fs' = Some (Plain (write_xml c)) /\
    map (fun e => (fst e, snd (snd e))) (c_enums c) = enums_seen st text /\ NoDup (map (fun e => fst (snd e)) (c_enums c)) /\
    forall m k n, In m (c_messages c) -> (x_lookup m = Some (k, n) <->
      exists pre a post d, x_args m = pre ++ a :: post /\ k = (Z.of_nat (List.length pre) + 1)%Z /\ In (arg_enum a, (n, d)) (c_enums c) /\
        Forall (fun b => ~ In (arg_enum b) (map fst (c_enums c))) post).
Proof.
  intros H C J X (P1 & P2 & P3) R. destruct (main_success _ _ _ _ _ _ _ _ H C J X) as (is' & decls & text & xms & R' & T & A & ->).
  exists text. eexists. rewrite !file_write. destruct (String.eqb_spec xml cpp) as [Q|_]; [congruence|]. destruct (String.eqb_spec json cpp) as [Q|_]; [congruence|]. rewrite !String.eqb_refl.
  split; [reflexivity|]. split; [reflexivity|]. cbn [c_enums c_messages].
  set (es := numbered 0 (enums_seen st text)) in *. destruct (numbered_spec (enums_seen st text) 0) as (E & N & _). fold es in E, N.
  split; [exact E|]. split; [exact N|]. intros m k n I.
  assert (Nk : NoDup (map fst (map (fun e => (fst e, fst (snd e))) es))).
  { rewrite map_map. cbn [fst]. replace (map (fun x => fst x) es) with (map fst (enums_seen st text)); [|rewrite <- E, map_map; reflexivity].
    unfold enums_seen. destruct (s_clang st text) as [u|]; [apply C118_enums_are_found|constructor]. }
  assert (L : x_lookup m = enum_lookup (map (fun e => (fst e, fst (snd e))) es) (x_args m)).
  { pose proof (all_some_forall _ _ _ A) as F. clear -F I. induction F as [|e x l xs Ex _ IH]; [contradiction|]. destruct I as [->|I]; [|auto].
    unfold xml_message_of in Ex. destruct (SymbolModel.all_some (map arg_of (m_args e))); [|discriminate]. injection Ex as <-. reflexivity. }
  rewrite L, GenProps.C83_exact. split.
  - intros (pre & a & post & Ea & Ek & En & F). apply assoc_in in En; [|exact Nk]. apply in_map_iff in En as ([q [i d]] & Eq & Iq). cbn [fst snd] in Eq. injection Eq as -> ->.
    exists pre, a, post, d. split; [exact Ea|]. split; [exact Ek|]. split; [exact Iq|]. eapply Forall_impl; [|exact F]. intros b Eb. apply assoc_not in Eb. rewrite map_map in Eb. exact Eb.
  - intros (pre & a & post & d & Ea & Ek & In_ & F). exists pre, a, post. split; [exact Ea|]. split; [exact Ek|]. split.
    + apply assoc_in; [exact Nk|]. apply in_map_iff. exists (arg_enum a, (n, d)). auto.
    + eapply Forall_impl; [|exact F]. intros b Hb. apply assoc_not. rewrite map_map. exact Hb.
Qed.
Print Assumptions C120_enumerations.

Example C120_case : exists text jf x, file "strings.cpp" (fst some_run) = Some (Plain text) /\ file "strings.json" (fst some_run) = Some (Json jf) /\ file "strings.xml" (fst some_run) = Some (Plain x) /\
  (forall s i, holds (j_messages jf) s i -> 0 <= i < 2 ^ 28)%Z /\ Forall legal [s_client some_settings; s_version some_settings; s_guid_id some_settings; s_guid_mask some_settings] /\
  (forall q d, In (q, d) (enums_seen some_settings text) -> legal q /\ Forall legal (map fst d)) /\
  (forall m, In (IModule m) symbols -> good_text (text_of_codes (so_text m))) /\
  (forall m args, In (IMessage m) symbols -> Forall2 (fun a t => arg_of a = Some t) (sm_args m) args -> good_text (printf_format (text_of_codes (sm_text m)) args)) /\
  holds (j_messages jf) ("state {} after {}", ["encode_enum<E, unsigned int, 4>"; "encode_u64<unsigned long long>"]) 7 /\
  option_map (fun y => look_up y 7) (OutputProps.the_reading x) = Some ["state %u after %llu"].
Proof.
  assert (G : forall t, legal t -> occursb "]]>" t = false -> occursb "&" t = false -> occursb (String (ascii_of_nat 13) "") t = false -> good_text t).
  { intros t L C A R. split; [exact L|]. split; [|split]; intros O; apply occurs_b in O; congruence. }
  eexists. eexists. eexists. split; [vm_compute; reflexivity|]. split; [vm_compute; reflexivity|]. split; [vm_compute; reflexivity|]. split; [|split; [|split; [|split; [|split; [|split]]]]].
  - intros s i (m & I & _ & <-). cbn in I. destruct I as [<-|[<-|[<-|[]]]]; cbn; lia.
  - repeat constructor.
  - intros q d I. cbn in I. destruct I as [I|[]]. injection I as <- <-. split; [reflexivity|]. constructor; [reflexivity|constructor].
  - intros m H. each_item H; apply G; vm_compute; reflexivity.
  - intros m args H F.
    assert (SymbolModel.all_some (map arg_of (sm_args m)) = Some args) as A.
    { clear H. induction F as [|a t l ts E F IH]; [reflexivity|]. cbn. rewrite E, IH. reflexivity. }
    each_item H; vm_compute in A; injection A as <-; apply G; vm_compute; reflexivity.
  - eexists. split; [right; right; left; reflexivity|]. split; reflexivity.
  - vm_compute. reflexivity.
Qed.

(** ** C121: runs that fail *)
Theorem C121_failing_runs_partial st stable lines fs fs' p : main st stable lines fs = (fs', false) -> file p fs' <> file p fs -> s_cpp st = Some p \/ s_json st = Some p.
Proof. apply failed_run. Qed.
Print Assumptions C121_failing_runs_partial.

(** A run that fails may have replaced the C++ file (a module id over the limit) or emptied it
    (an enumeration in an anonymous namespace). *)
Definition limited : settings :=
  {| s_options := {| o_hash := o_hash opts; o_extra := o_extra opts; o_reserved := o_reserved opts; o_forget := o_forget opts; o_module_max := 0; o_enums := o_enums opts; o_extra_enums := o_extra_enums opts |};
     s_cpp := Some "strings.cpp"; s_json := Some "strings.json"; s_xml := Some "strings.xml"; s_headers := []; s_argv := "gen_str_catalog.py"; s_date := "today";
     s_client := "client"; s_version := "1"; s_guid_id := "01"; s_guid_mask := "ff"; s_clang := fun _ => None |}.
Definition hidden_enum : list string := [line_of true (IMessage (msg "at {}" ["encode_enum<(anonymous namespace)::E, int, 4>"] (-1)))].
Theorem C121_failing_runs_refuted :
  (exists st lines fs fs' text, main st [nothing] lines fs = (fs', false) /\ file "strings.cpp" fs = Some (Plain "old") /\ file "strings.cpp" fs' = Some (Plain text) /\ text <> "old") /\ (exists st lines fs fs', main st [nothing] lines fs = (fs', false) /\ file "strings.cpp" fs = Some (Plain "old") /\ file "strings.cpp" fs' = Some (Plain "")).
Proof.
  split.
  - exists limited, listed, [("strings.cpp", Plain "old")]. eexists. eexists. split; [vm_compute; reflexivity|]. split; [reflexivity|]. split; [vm_compute; reflexivity|discriminate].
  - exists some_settings, hidden_enum, [("strings.cpp", Plain "old")]. eexists. split; [vm_compute; reflexivity|]. split; reflexivity.
Qed.
Print Assumptions C121_failing_runs_refuted.
Lemma limit_high max os : exists limit, (max < limit)%Z /\ check_limit limit os = true.
Proof.
  induction os as [|e os (l & H1 & H2)]; [exists (max + 1)%Z; split; [lia|reflexivity]|].
  exists (Z.max l (m_id e)). split; [lia|]. unfold check_limit in *. cbn [forallb]. apply andb_true_iff. split; [apply Z.leb_le; lia|].
  rewrite forallb_forall in *. intros x Hx. specialize (H2 x Hx). apply Z.leb_le in H2. apply Z.leb_le. lia.
Qed.
(** Exactly: a run that fails leaves all files as they were; or empties the C++ file and
    leaves the rest; or has done what a run with a higher limit for the ids of modules
    does that is asked for the C++ file only; or what a run does that is not asked for
    the XML file. *)
Definition asked_less (st : settings) (limit : Z) (json : option string) : settings :=
  let o := s_options st in
  {| s_options := {| o_hash := o_hash o; o_extra := o_extra o; o_reserved := o_reserved o; o_forget := o_forget o; o_module_max := limit; o_enums := o_enums o; o_extra_enums := o_extra_enums o |};
     s_cpp := s_cpp st; s_json := json; s_xml := None; s_headers := s_headers st; s_argv := s_argv st; s_date := s_date st;
     s_client := s_client st; s_version := s_version st; s_guid_id := s_guid_id st; s_guid_mask := s_guid_mask st; s_clang := s_clang st |}.
Theorem C121_exact st stable lines fs fs' : main st stable lines fs = (fs', false) ->
  fs' = fs \/
  (exists path, s_cpp st = Some path /\ fs' = write path (Plain "") fs) \/
  (exists limit, (o_module_max (s_options st) < limit)%Z /\ main (asked_less st limit None) stable lines fs = (fs', true)) \/
  (s_xml st <> None /\ main (asked_less st (o_module_max (s_options st)) (s_json st)) stable lines fs = (fs', true)).
Proof.
  unfold main. cbn [asked_less s_options s_cpp s_json s_xml s_headers s_argv s_date s_clang o_hash o_extra o_reserved o_forget o_module_max o_extra_enums].
  destruct (read_file lines) as [is|]; [|intros H; injection H as <-; auto].
  destruct (run _ _ _ _ (map (entry_of_message _) _)) as [ms mj]. destruct (run _ _ _ _ (map entry_of_module _)) as [os oj].
  match goal with |- context [match ?x with Some _ => _ | None => (fs, false) end] => destruct x as [[[fs1 cpp] ok]|] eqn:Ecpp end;
    [|intros H; injection H as <-; auto].
  destruct ok.
  - destruct (check_limit (o_module_max (s_options st)) os) eqn:El.
    + intros H. right. right. right. destruct (s_xml st) as [path|]; [|discriminate]. split; [discriminate|].
      destruct (SymbolModel.all_some _) as [xms|] in H; [discriminate|]. injection H as <-. auto.
    + intros H. injection H as <-. right. right. left. destruct (limit_high (o_module_max (s_options st)) os) as (limit & Hl & E). exists limit. split; auto. rewrite E. auto.
  - intros H. injection H as <-. destruct (s_cpp st) as [path|]; [|discriminate].
    destruct (collect_enums _ _) as [d|] in Ecpp; [|discriminate]. destruct (SymbolModel.all_some _) as [decls|] in Ecpp; [discriminate|].
    injection Ecpp as <- _. right. left. exists path. auto.
Qed.
Print Assumptions C121_exact.
(** The JSON file too: without a C++ file an argument that is not understood is met only when
    the XML file is written. *)
Definition odd_arg : list string := [line_of true (IMessage (msg "at {}" ["int"] (-1)))].
Definition no_source : settings :=
  {| s_options := opts; s_cpp := None; s_json := Some "strings.json"; s_xml := Some "strings.xml"; s_headers := []; s_argv := ""; s_date := "";
     s_client := ""; s_version := ""; s_guid_id := ""; s_guid_mask := ""; s_clang := fun _ => None |}.
Example C121_case : exists fs' j, main no_source [nothing] odd_arg [("strings.json", Json nothing); ("strings.xml", Plain "old")] = (fs', false) /\ file "strings.json" fs' = Some (Json j) /\ map m_text (j_messages j) = ["at {}"] /\ file "strings.xml" fs' = Some (Plain "old").
Proof. eexists. eexists. split; [vm_compute; reflexivity|]. split; [vm_compute; reflexivity|]. split; vm_compute; reflexivity. Qed.

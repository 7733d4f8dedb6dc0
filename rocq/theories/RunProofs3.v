(** Proofs: the files of a run. *)
From Coq Require Import String Ascii Bool Arith ZArith NArith List Lia Permutation.
From Verif Require Import CatalogModel CatalogSpec CatalogProofs CatalogProofs2 CatalogProps GenModel GenSpec SymbolModel SymbolSpec ChainModel ChainSpec ChainProofs ChainProofs2 OutputModel OutputSpec OutputProofs2 OutputProofs3 OutputProofs4 RunModel RunSpec RunProofs RunProofs2.
From Verif Require OutputProofs OutputProps SymbolProps.
Import ListNotations.
Local Open Scope string_scope.
Local Open Scope list_scope.

Definition msg_run (st : settings) (stable : list json_file) (is : list item) :=
  run (msg_key (o_hash (s_options st))) (o_forget (s_options st)) (o_reserved (s_options st)) (map (fun j => Some (j_messages j)) stable) (map (entry_of_message (o_extra (s_options st))) (messages_of is)).
Definition module_run (st : settings) (stable : list json_file) (is : list item) :=
  run (module_key (o_hash (s_options st))) (o_forget (s_options st)) [] (map (fun j => Some (j_modules j)) stable) (map entry_of_module (modules_of is)).
Definition msg_objects st stable is := objects (msg_key (o_hash (s_options st))) (entry_of_message (o_extra (s_options st))) (fst (msg_run st stable is)) (messages_of is).
Definition module_objects st stable is := objects (module_key (o_hash (s_options st))) entry_of_module (fst (module_run st stable is)) (modules_of is).
Lemma numbered_drop {A} (l : list (string * A)) : forall i, map (fun e => (fst e, snd (snd e))) (numbered i l) = l.
Proof. induction l as [|[n v] l IH]; intros i; cbn; [reflexivity|]. rewrite IH. reflexivity. Qed.
(** The parts of a run that ends well. *)
Lemma main_success st stable lines fs fs' cpp json xml : main st stable lines fs = (fs', true) ->
  s_cpp st = Some cpp -> s_json st = Some json -> s_xml st = Some xml ->
  exists is decls text xms, read_file lines = Some is /\
    text = cpp_file (s_argv st) (s_date st) (s_headers st) decls (catalog_defns (msg_objects st stable is)) (module_defns (module_objects st stable is)) /\
    let enums := numbered 0 (enums_seen st text) in
    SymbolModel.all_some (map (xml_message_of (map (fun e => (fst e, fst (snd e))) enums)) (fst (msg_run st stable is))) = Some xms /\
    fs' = write xml (Plain (write_xml {| client_name := s_client st; version := s_version st; guid_id := s_guid_id st; guid_mask := s_guid_mask st;
                       c_enums := enums; c_modules := map (fun m => (m_id m, m_text m)) (fst (module_run st stable is)); c_messages := xms |}))
          (write json (Json {| j_messages := snd (msg_run st stable is); j_modules := snd (module_run st stable is); j_enums := write_enums (enums_seen st text) (o_extra_enums (s_options st)) |})
          (write cpp (Plain text) fs)).
Proof.
  intros H C J X. unfold main in H. destruct (read_file lines) as [is|]; [|discriminate]. exists is. cbv zeta in H.
  fold (msg_run st stable is) in H. fold (module_run st stable is) in H.
  unfold msg_objects, module_objects. destruct (msg_run st stable is) as [ms mj]. destruct (module_run st stable is) as [os oj]. cbn [fst snd].
  rewrite C, J, X in H.
  destruct (collect_enums _ _) as [d|]; [|discriminate]. destruct (SymbolModel.all_some (map (fun kv => enum_decl (fst kv) (snd kv)) d)) as [decls|]; [|discriminate].
  destruct (check_limit _ _); [|discriminate].
  match type of H with context [s_clang st ?t] => set (text := t) in * end.
  exists decls, text.
  assert (E : match s_clang st text with Some unit => numbered 0 (extract_enums unit) | None => [] end = numbered 0 (enums_seen st text)).
  { unfold enums_seen. destruct (s_clang st text); reflexivity. }
  rewrite E, numbered_drop in H.
  destruct (SymbolModel.all_some _) as [xms|] eqn:A in H; [|discriminate]. exists xms.
  split; [reflexivity|]. split; [reflexivity|]. cbv zeta. split; [exact A|]. injection H as <-. reflexivity.
Qed.
Lemma all_some_forall {A B} (f : A -> option B) l xs : SymbolModel.all_some (map f l) = Some xs -> Forall2 (fun a x => f a = Some x) l xs.
Proof.
  revert xs. induction l as [|a l IH]; intros xs H; cbn in H; [injection H as <-; constructor|].
  destruct (f a) as [x|] eqn:E; [|discriminate]. destruct (SymbolModel.all_some (map f l)) as [r|]; [|discriminate]. injection H as <-. constructor; auto.
Qed.
Lemma forall2_in {A B} (P : A -> B -> Prop) l xs a : Forall2 P l xs -> In a l -> exists x, In x xs /\ P a x.
Proof. induction 1 as [|a' x' l xs H _ IH]; intros I; [contradiction|]. destruct I as [<-|I]; [exists x'; cbn; auto|]. destruct (IH I) as (x & J & K). exists x. cbn. auto. Qed.
Lemma forall2_in' {A B} (P : A -> B -> Prop) l xs x : Forall2 P l xs -> In x xs -> exists a, In a l /\ P a x.
Proof. induction 1 as [|a' x' l xs H _ IH]; intros I; [contradiction|]. destruct I as [<-|I]; [exists a'; cbn; auto|]. destruct (IH I) as (a & J & K). exists a. cbn. auto. Qed.
Lemma xml_ids enums ms xms : Forall2 (fun e x => xml_message_of enums e = Some x) ms xms -> map x_id xms = map (fun e => Z.to_N (m_id e)) ms.
Proof.
  induction 1 as [|e x ms xms H _ IH]; [reflexivity|]. cbn [map]. rewrite IH. f_equal. unfold xml_message_of in H. destruct (SymbolModel.all_some _); [|discriminate]. injection H as <-. reflexivity.
Qed.
Lemma nodup_to_n l : NoDup (map m_id l) -> (forall e, In e l -> 0 <= m_id e)%Z -> NoDup (map (fun e => Z.to_N (m_id e)) l).
Proof.
  induction l as [|x l IH]; intros N P; [constructor|]. cbn [map] in *. inversion N as [|? ? N1 N2]; subst. constructor.
  - intros I. apply in_map_iff in I as (y & E & I). apply N1. apply in_map_iff. exists y. split; [|exact I].
    pose proof (P x (or_introl eq_refl)). pose proof (P y (or_intror I)). lia.
  - apply IH; [exact N2|]. intros e I. apply P. right. exact I.
Qed.
Lemma split_lines {A} (f : A -> string) (g : A -> list string) l x : In x l -> program_lines (f x) = g x ->
  exists pre post, flat_map program_lines (map f l) = pre ++ g x ++ post.
Proof.
  intros I E. apply in_split in I as (a & b & ->). exists (flat_map program_lines (map f a)), (flat_map program_lines (map f b)).
  rewrite map_app, flat_map_app. cbn [map flat_map]. rewrite E. reflexivity.
Qed.

Lemma between (a b c d pre x post e : list string) : exists p q, a ++ b ++ c ++ d ++ (pre ++ x ++ post) ++ e = p ++ x ++ q.
Proof. exists (a ++ b ++ c ++ d ++ pre), (post ++ e). rewrite <- !app_assoc. reflexivity. Qed.
Lemma plain_inj a b : Some (Plain a) = Some (Plain b) -> a = b.
Proof. congruence. Qed.
Lemma json_inj a b : Some (Json a) = Some (Json b) -> a = b.
Proof. congruence. Qed.

Section Run.
Variables (st : settings) (j : json_file) (lines : list string) (is : list item) (fs fs' : files) (cpp json xml : string).
Hypothesis Hmain : main st [j] lines fs = (fs', true).
Hypothesis Hcpp : s_cpp st = Some cpp.
Hypothesis Hjson : s_json st = Some json.
Hypothesis Hxml : s_xml st = Some xml.
Hypothesis Hread : read_file lines = Some is.
Hypothesis Hfits : fits_catalog (s_options st) j is.
Hypothesis Hcons : consistent j.
Hypothesis Hsyms : good_symbols is.
Hypothesis Hpaths : cpp <> json /\ cpp <> xml /\ json <> xml.
Lemma run_files : exists text jf x, file cpp fs' = Some (Plain text) /\ file json fs' = Some (Json jf) /\ file xml fs' = Some (Plain x) /\
  (forall p, p <> cpp -> p <> json -> p <> xml -> file p fs' = file p fs) /\ j_enums jf = write_enums (enums_seen st text) (o_extra_enums (s_options st)).
Proof.
  destruct (main_success _ _ _ _ _ _ _ _ Hmain Hcpp Hjson Hxml) as (is' & decls & text & xms & R & T & A & ->). destruct Hpaths as (P1 & P2 & P3).
  exists text. eexists. eexists. rewrite !file_write. 
  destruct (String.eqb_spec xml cpp); [congruence|]. destruct (String.eqb_spec json cpp); [congruence|]. destruct (String.eqb_spec cpp cpp); [|congruence].
  destruct (String.eqb_spec xml json); [congruence|]. destruct (String.eqb_spec json json); [|congruence]. destruct (String.eqb_spec xml xml); [|congruence].
  split; [reflexivity|]. split; [reflexivity|]. split; [reflexivity|]. split; [|reflexivity].
  intros p Q1 Q2 Q3. rewrite !file_write. destruct (String.eqb_spec xml p); [congruence|]. destruct (String.eqb_spec json p); [congruence|]. destruct (String.eqb_spec cpp p); [congruence|]. reflexivity.
Qed.
Theorem run_messages_amp text jf x : file cpp fs' = Some (Plain text) -> file json fs' = Some (Json jf) -> file xml fs' = Some (Plain x) ->
  (forall s i, holds (j_messages jf) s i -> 0 <= i < 2 ^ 28)%Z ->
  Forall legal [s_client st; s_version st; s_guid_id st; s_guid_mask st] ->
  (forall q d, In (q, d) (enums_seen st text) -> legal q /\ Forall legal (map fst d)) ->
  (forall m, In (IModule m) is -> carried (text_of_codes (so_text m))) ->
  (forall m args, In (IMessage m) is -> Forall2 (fun a t => arg_of a = Some t) (sm_args m) args -> carried (printf_format (text_of_codes (sm_text m)) args)) ->
  exists y, reads x y /\
  forall m, In (IMessage m) is -> exists i args, Forall2 (fun a t => arg_of a = Some t) (sm_args m) args /\
    (one_line (text_of_codes (sm_text m)) -> Forall one_line (sm_args m) -> one_line (message_type m) ->
     exists pre post, program_lines text = pre ++ returns "catalog" "string_id" (message_type m) i ++ post) /\
    holds (j_messages jf) (text_of_codes (sm_text m), sm_args m) i /\
    look_up y i = [amp (printf_format (text_of_codes (sm_text m)) args)].
Proof.
  intros Fc Fj Fx Ids Lab En Gm Gs.
  destruct (main_success _ _ _ _ _ _ _ _ Hmain Hcpp Hjson Hxml) as (is' & decls & text' & xms & R & T & A & E). rewrite Hread in R. injection R as <-.
  destruct Hpaths as (P1 & P2 & P3). rewrite E in Fc, Fj, Fx. rewrite !file_write in Fc, Fj, Fx.
  destruct (String.eqb_spec xml cpp) as [C|_] in Fc; [congruence|]. destruct (String.eqb_spec json cpp) as [C|_] in Fc; [congruence|]. rewrite String.eqb_refl in Fc.
  destruct (String.eqb_spec xml json) as [C|_] in Fj; [congruence|]. rewrite String.eqb_refl in Fj. rewrite String.eqb_refl in Fx.
  apply plain_inj in Fc. subst text'. apply json_inj in Fj. subst jf. apply plain_inj in Fx. subst x. cbn [j_messages] in Ids |- *.
  set (numbers := map (fun e => (fst e, fst (snd e))) (numbered 0 (enums_seen st text))) in *.
  pose proof (all_some_forall _ _ _ A) as F2.
  destruct Hfits as (S1 & S2 & S3 & S4). destruct Hcons as (O1 & O2). destruct Hsyms as (Y1 & Y2 & Y3 & Y4).
  assert (One : one_to_one (snd (msg_run st [j] is))) by (apply run_one; [apply key_respects|exact S1|exact O1|exact S2]).
  assert (Ft : forall s i, holds (fst (msg_run st [j] is)) s i -> holds (snd (msg_run st [j] is)) s i) by (apply fst_holds).
  assert (Ones : one_to_one (fst (msg_run st [j] is))) by (destruct One as [U V]; split; [intros s a b HA HB; apply (U s); auto|intros s t a HA HB; apply (V s t a); auto]).
  assert (Keys : NoDup (map (msg_key (o_hash (s_options st))) (fst (msg_run st [j] is)))) by (apply run_keys; apply key_respects).
  assert (Nid := distinct_ids _ _ (key_respects _) Keys Ones).
  assert (Rng : forall e, In e (fst (msg_run st [j] is)) -> (0 <= m_id e < 2 ^ 28)%Z) by (intros e I; apply (Ids (sid e)); apply Ft; exists e; auto).
  assert (From : forall e, In e (fst (msg_run st [j] is)) -> exists m, In (IMessage m) is /\ sid e = (text_of_codes (sm_text m), sm_args m)).
  { intros e I. assert (In (sid e) (map sid (map (entry_of_message (o_extra (s_options st))) (messages_of is)))) as K.
    { apply (ms_sids (msg_key (o_hash (s_options st))) (o_reserved (s_options st)) (j_messages j)); [exact S1|]. apply (in_map sid) in I. exact I. }
    apply in_map_iff in K as (e' & <- & K). apply in_map_iff in K as (m & <- & K). exists m. split; [apply in_messages; exact K|reflexivity]. }
  assert (FromO : forall e, In e (fst (module_run st [j] is)) -> exists m, In (IModule m) is /\ m_text e = text_of_codes (so_text m)).
  { intros e I. assert (In (sid e) (map sid (map entry_of_module (modules_of is)))) as K.
    { apply (ms_sids (module_key (o_hash (s_options st))) [] (j_modules j)); [exact S3|]. apply (in_map sid) in I. exact I. }
    apply in_map_iff in K as (e' & K1 & K). apply in_map_iff in K as (m & <- & K). exists m. split; [apply in_modules; exact K|]. injection K1 as K1 _. auto. }
  assert (Xargs : forall e xm, xml_message_of numbers e = Some xm -> Forall2 (fun a t => arg_of a = Some t) (m_args e) (x_args xm) /\ x_text xm = m_text e /\ x_id xm = Z.to_N (m_id e)).
  { intros e xm H. unfold xml_message_of in H. destruct (SymbolModel.all_some (map arg_of (m_args e))) as [args|] eqn:B; [|discriminate]. injection H as <-. split; [apply all_some_forall; exact B|auto]. }
  set (c := {| client_name := s_client st |}) in *.
  assert (L : Forall legal (labels c)).
  { unfold labels. apply Forall_app. split; [exact Lab|]. apply Forall_concat, Forall_map. apply Forall_forall. intros [q [i d]] I. cbn [fst snd].
    assert (In (q, d) (enums_seen st text)).
    { rewrite <- (numbered_drop (enums_seen st text) 0). apply in_map_iff. exists (q, (i, d)). auto. }
    destruct (En q d H). constructor; assumption. }
  assert (G : Forall carried (texts c)).
  { unfold texts. apply Forall_app. split.
    - apply Forall_map. apply Forall_forall. intros [i t] I. cbn [snd]. cbn [c_modules c] in I. apply in_map_iff in I as (e & E1 & I). injection E1 as <- <-.
      destruct (FromO e I) as (m & I' & ->). apply Gm. exact I'.
    - apply Forall_map. apply Forall_forall. intros xm I. cbn [c_messages c] in I. destruct (forall2_in' _ _ _ _ F2 I) as (e & I' & X).
      destruct (Xargs _ _ X) as (X1 & X2 & _). destruct (From e I') as (m & I2 & X3). injection X3 as X3 X4. rewrite X2, X3. apply Gs; [exact I2|]. rewrite <- X4. exact X1. }
  destruct (OutputProps.C116_exact c L G) as (y & Ry & Wy & _). exists y. split; [exact Ry|].
  assert (Look : forall xm, In xm xms -> look_up y (Z.of_N (x_id xm)) = [amp (printf_format (x_text xm) (x_args xm))]).
  { intros xm0 I0. rewrite <- look_up_layout, Wy. apply look_up_one; [| |exact I0].
    - cbn [c_messages c]. rewrite (xml_ids _ _ _ F2). apply nodup_to_n; [exact Nid|]. intros e I. apply Rng. exact I.
    - cbn [c_messages c]. intros xm I. destruct (forall2_in' _ _ _ _ F2 I) as (e & I' & X). destruct (Xargs _ _ X) as (_ & _ & ->). pose proof (Rng e I').
      change (2 ^ 28)%Z with 268435456%Z in H. change (2 ^ 28)%N with 268435456%N. lia. }
  intros m I.
  destruct (objects_all (entry_of_message (o_extra (s_options st))) (msg_key (o_hash (s_options st))) (o_forget (s_options st)) (o_reserved (s_options st)) (j_messages j) (messages_of is) (key_respects _) S1) with (m := m) as (e & Ie & Es & Io).
  { intros a b Ha Hb [= Et Ea]. apply in_messages in Ha, Hb. apply Y3; auto. apply text_inj; auto. }
  { apply in_messages. exact I. }
  fold (msg_run st [j] is) in Ie, Io. fold (msg_objects st [j] is) in Io.
  destruct (forall2_in _ _ _ _ F2 Ie) as (xm & Ix & X). destruct (Xargs _ _ X) as (X1 & X2 & X3).
  injection Es as Es1 Es2. exists (m_id e), (x_args xm). rewrite Es2 in X1. split; [exact X1|]. split; [|split].
  - intros Ot Oa Oty. rewrite T, program_file.
    destruct (split_lines (fun mi : sym_message * Z => catalog_defn (text_of_codes (sm_text (fst mi))) (list_repr (sm_args (fst mi))) (message_type (fst mi)) (snd mi))
      (fun mi => returns "catalog" "string_id" (message_type (fst mi)) (snd mi)) (msg_objects st [j] is) (m, m_id e) Io) as (pre & post & S).
    { cbn [fst snd]. apply program_catalog; [exact Ot|apply one_line_repr; exact Oa|exact Oty]. }
    unfold catalog_defns. rewrite S. cbn [fst snd]. apply between.
  - apply Ft. exists e. split; [exact Ie|]. split; [unfold sid; rewrite Es1, Es2; reflexivity|reflexivity].
  - rewrite <- Es1, <- X2. rewrite <- (Look xm Ix), X3. f_equal. pose proof (Rng e Ie). lia.
Qed.
Theorem run_messages text jf x : file cpp fs' = Some (Plain text) -> file json fs' = Some (Json jf) -> file xml fs' = Some (Plain x) ->
  (forall s i, holds (j_messages jf) s i -> 0 <= i < 2 ^ 28)%Z ->
  Forall legal [s_client st; s_version st; s_guid_id st; s_guid_mask st] ->
  (forall q d, In (q, d) (enums_seen st text) -> legal q /\ Forall legal (map fst d)) ->
  (forall m, In (IModule m) is -> good_text (text_of_codes (so_text m))) ->
  (forall m args, In (IMessage m) is -> Forall2 (fun a t => arg_of a = Some t) (sm_args m) args -> good_text (printf_format (text_of_codes (sm_text m)) args)) ->
  exists y, reads x y /\
  forall m, In (IMessage m) is -> exists i args, Forall2 (fun a t => arg_of a = Some t) (sm_args m) args /\
    (one_line (text_of_codes (sm_text m)) -> Forall one_line (sm_args m) -> one_line (message_type m) ->
     exists pre post, program_lines text = pre ++ returns "catalog" "string_id" (message_type m) i ++ post) /\
    holds (j_messages jf) (text_of_codes (sm_text m), sm_args m) i /\
    look_up y i = [printf_format (text_of_codes (sm_text m)) args].
Proof.
  intros Fc Fj Fx Ids Lab En Gm Gs.
  destruct (run_messages_amp text jf x Fc Fj Fx Ids Lab En) as (y & R & A).
  { intros m I. destruct (Gm m I) as (G1 & G2 & G3 & _). repeat split; assumption. }
  { intros m args I F. destruct (Gs m args I F) as (G1 & G2 & G3 & _). repeat split; assumption. }
  exists y. split; [exact R|]. intros m I. destruct (A m I) as (i & args & F & P & H & L). exists i, args. split; [exact F|]. split; [exact P|]. split; [exact H|].
  rewrite L. f_equal. apply no_amp_amp. apply (Gs m args I F).
Qed.
End Run.

(** ** Runs that fail *)
Theorem failed_run st stable lines fs fs' p : main st stable lines fs = (fs', false) -> file p fs' <> file p fs ->
  s_cpp st = Some p \/ s_json st = Some p.
Proof.
  intros H N. unfold main in H. destruct (read_file lines) as [is|]; [|injection H as <-; congruence]. cbv zeta in H.
  fold (msg_run st stable is) in H. fold (module_run st stable is) in H.
  destruct (msg_run st stable is) as [ms mj]. destruct (module_run st stable is) as [os oj].
  assert (J : forall f c, file p match s_json st with Some q => write q c f | None => f end <> file p f -> s_json st = Some p).
  { intros f c K. destruct (s_json st) as [q|]; [|congruence]. rewrite file_write in K. destruct (String.eqb_spec q p) as [->|]; congruence. }
  assert (C : forall q c, s_cpp st = Some q -> file p (write q c fs) <> file p fs -> s_cpp st = Some p).
  { intros q c E K. rewrite file_write in K. destruct (String.eqb_spec q p) as [->|]; congruence. }
  assert (D : forall f q c c', s_cpp st = Some q -> f = match s_json st with Some r => write r c (write q c' fs) | None => write q c' fs end -> file p f <> file p fs -> s_cpp st = Some p \/ s_json st = Some p).
  { intros f q c c' E -> K. destruct (s_json st) as [r|] eqn:Ej; [|left; eauto]. rewrite file_write in K. destruct (String.eqb_spec r p) as [->|]; [auto|left; eauto]. }
  destruct (s_cpp st) as [cpp|] eqn:Ec.
  - destruct (collect_enums _ _) as [d|]; [|injection H as <-; congruence].
    destruct (SymbolModel.all_some (map (fun kv => enum_decl (fst kv) (snd kv)) d)) as [decls|].
    + destruct (check_limit _ _).
      * destruct (s_xml st) as [x|]; [|discriminate]. destruct (SymbolModel.all_some _) in H; [discriminate|]. injection H as H. eapply D; [reflexivity|symmetry; exact H|exact N].
      * injection H as <-. left. eauto.
    + injection H as <-. left. eauto.
  - destruct (check_limit _ _).
    + destruct (s_xml st) as [x|]; [|discriminate]. destruct (SymbolModel.all_some _) in H; [discriminate|]. injection H as <-. right. eauto.
    + injection H as <-. congruence.
Qed.

(** ** The C++ file of a run *)
Lemma in_objects {A} (key : entry -> Z) (entry_of : A -> entry) ms l m i : In (m, i) (objects key entry_of ms l) ->
  In m l /\ exists e, In e ms /\ m_id e = i /\ key (entry_of m) = key e.
Proof.
  intros I. unfold objects in I. apply in_flat_map in I as (e & Ie & I). destruct (find _ _) as [x|] eqn:F; [|contradiction]. destruct I as [E|[]]. injection E as -> <-.
  apply find_some in F as [F1 F2]. apply kept_in in F1. split; [exact F1|]. exists e. apply Z.eqb_eq in F2. auto.
Qed.
Lemma objects_nodup {A} (key : entry -> Z) (entry_of : A -> entry) ms l : NoDup (map key ms) -> NoDup (map fst (objects key entry_of ms l)).
Proof.
  intros N. apply (NoDup_map_inv (fun m => key (entry_of m))). rewrite map_map.
  assert (S : forall ms, NoDup (map key ms) -> NoDup (map (fun x => key (entry_of (fst x))) (objects key entry_of ms l))).
  { clear. induction ms as [|e ms IH]; intros N; [constructor|]. cbn [map] in N. inversion N as [|? ? N1 N2]; subst.
    unfold objects in *. cbn [flat_map]. rewrite map_app. destruct (find _ _) as [m|] eqn:F; [|apply IH; exact N2]. cbn [map app fst]. constructor; [|apply IH; exact N2].
    apply find_some in F as [_ F]. apply Z.eqb_eq in F. intros I. apply in_map_iff in I as ([m' i'] & E & I). cbn [fst] in E.
    apply N1. rewrite <- F, <- E. apply in_objects in I as (_ & e' & I' & _ & ->). apply in_map. exact I'. }
  apply S. exact N.
Qed.
Lemma flat_map_map {A B C} (f : A -> B) (g : B -> list C) l : flat_map g (map f l) = flat_map (fun x => g (f x)) l.
Proof. induction l; cbn; congruence. Qed.
Lemma main_cpp st stable lines fs fs' cpp : main st stable lines fs = (fs', true) -> s_cpp st = Some cpp -> s_json st <> Some cpp -> s_xml st <> Some cpp ->
  exists is decls, read_file lines = Some is /\ enum_decls (map fst (msg_objects st stable is)) = Some decls /\
  file cpp fs' = Some (Plain (cpp_file (s_argv st) (s_date st) (s_headers st) decls (catalog_defns (msg_objects st stable is)) (module_defns (module_objects st stable is)))).
Proof.
  intros H C J X. unfold main in H. destruct (read_file lines) as [is|]; [|discriminate]. exists is. cbv zeta in H.
  fold (msg_run st stable is) in H. fold (module_run st stable is) in H. unfold enum_decls. rewrite flat_map_map.
  unfold msg_objects, module_objects. destruct (msg_run st stable is) as [ms mj]. destruct (module_run st stable is) as [os oj]. cbn [fst snd].
  rewrite C in H.
  destruct (collect_enums _ _) as [d|]; [|discriminate]. destruct (SymbolModel.all_some (map (fun kv => enum_decl (fst kv) (snd kv)) d)) as [decls|]; [|discriminate].
  exists decls. split; [reflexivity|]. split; [reflexivity|].
  destruct (check_limit _ _); [|discriminate].
  match type of H with context [s_clang st ?t] => set (text := t) in * end.
  assert (W : forall c, file cpp match s_json st with Some q => write q c (write cpp (Plain text) fs) | None => write cpp (Plain text) fs end = Some (Plain text)).
  { intros c. destruct (s_json st) as [q|]; [|rewrite file_write, String.eqb_refl; reflexivity]. rewrite !file_write, String.eqb_refl. destruct (String.eqb_spec q cpp); [congruence|reflexivity]. }
  destruct (s_xml st) as [x|]; [|injection H as <-; apply W].
  destruct (SymbolModel.all_some _) in H; [|discriminate]. injection H as <-. rewrite file_write. destruct (String.eqb_spec x cpp); [congruence|]. apply W.
Qed.
Lemma flat_ext {A} (f g : A -> list string) l : (forall x, In x l -> f x = g x) -> flat_map f l = flat_map g l.
Proof. induction l as [|x l IH]; intros H; cbn; [reflexivity|]. rewrite (H x), IH; cbn; auto. intros y Hy. apply H. cbn. auto. Qed.

(** Logs that do not fit the catalog they are decoded with. *)
From Coq Require Import String Ascii Bool Arith List NArith ZArith Lia.
From Coq Require Import ZifyN ZifyNat ZifyBool.
From Verif Require Import FieldModel MessageModel CatalogModel CatalogSpec CatalogProofs CatalogProofs2 CatalogProps GenModel GenSpec GenProofs GenProofs2 GenProofs3 SymbolModel SymbolSpec MipiModel MipiSpec MipiProofs MipiProofs2 MipiProofs3 MipiProps ChainModel ChainSpec ChainProofs ChainProofs2.
Import ListNotations.
Local Open Scope Z_scope.

(** ** Packets the catalog does not know *)
Lemma construct_short db p c bs rest : c_args c = [] -> packet_of p c bs -> (c_id c < 2 ^ 28)%N -> db_messages db (c_id c) = None -> construct_msg db (bs ++ rest) = Raised.
Proof.
  intros Ha (ws & E & ->) Hi Hn. rewrite Ha in E. cbn [build] in E. destruct (decode_short_exact db (c_id c) rest) as (ws' & E' & R).
  change (build p (c_level c) (c_id c) (c_module c) (c_unit c) []) with (build_short32 (c_id c)) in E. rewrite E in E'. injection E' as <-. rewrite R, N.mod_small, Hn by exact Hi. reflexivity.
Qed.
Lemma construct_catalog db p c bs rest : c_args c <> [] -> packet_of p c bs -> (c_id c < 2 ^ 32)%N -> (c_module c < 2 ^ 7)%N ->
  db_messages db (c_id c) = None \/ db_modules db (c_module c) = None -> construct_msg db (bs ++ rest) = Raised.
Proof.
  intros Ha (ws & E & ->) Hi Hm Hn. destruct (build_catalog_spec p (c_level c) (c_id c) (c_module c) (c_unit c) (c_args c)) as (w & E' & Hw & H1 & H2 & H3 & H4 & H5 & _).
  assert (B : build p (c_level c) (c_id c) (c_module c) (c_unit c) (c_args c) = build_catalog p (c_level c) (c_id c) (c_module c) (c_unit c) (c_args c)) by (unfold build; destruct (c_args c); [congruence|reflexivity]).
  rewrite B, E' in E. injection E as <-. cbn [wire flat_map]. rewrite wire_payload, <- !app_assoc.
  set (tl := (flat_map (fun a => le_bytes (N.to_nat (pack_bytes p (fst a))) (packed p (fst a) (snd a))) (c_args c) ++ rest)%list).
  destruct (type_nibble w (le_bytes 4 (c_id c) ++ tl)) as (b & r & Eb & Hb). unfold construct_msg. rewrite Eb at 1. rewrite Hb, H1. cbn [N.eqb Pos.eqb].
  unfold decode_catalog. rewrite read_struct_le. cbn [py_bind]. change (8 * N.of_nat 4)%N with 32%N. rewrite N.mod_small by auto.
  rewrite H5, H4, (N.mod_small (c_module c)) by exact Hm. cbn [N.eqb Pos.eqb]. destruct Hn as [Hn|Hn]; [|rewrite Hn; reflexivity]. destruct (db_modules db (c_module c)); auto.
  pose proof (read_struct_le 4 (c_id c) tl) as R. unfold read_struct, islice in R. unfold islice.
  destruct (unpack 4 (firstn 4 (le_bytes 4 (c_id c) ++ tl))) as [v|]; [|discriminate R]. cbn [py_bind] in R |- *. injection R as ->.
  change (2 ^ (8 * N.of_nat 4))%N with (2 ^ 32)%N. change (N.pos (2 ^ 32)) with (2 ^ 32)%N. rewrite N.mod_small by exact Hi. rewrite Hn. reflexivity.
Qed.
Lemma construct_unknown db p c bs rest : packet_of p c bs -> (c_id c < 2 ^ 28)%N -> (c_module c < 2 ^ 7)%N ->
  db_messages db (c_id c) = None \/ c_args c <> [] /\ db_modules db (c_module c) = None -> construct_msg db (bs ++ rest) = Raised.
Proof.
  intros P Hi Hm Hn. destruct (c_args c) as [|a l] eqn:Ea.
  - destruct Hn as [Hn|[Hn _]]; [|congruence]. apply (construct_short db p c); auto.
  - apply (construct_catalog db p c); auto; [congruence| |tauto]. eapply N.lt_trans; [exact Hi|reflexivity].
Qed.
(** Packets before other bytes. *)
Lemma stream_prefix db : forall pkts ds fuel more, Forall2 (decodes db) pkts ds -> (length (concat pkts ++ more) <= fuel)%nat ->
  exists fuel', (length more <= fuel')%nat /\ read_logs_from fuel db (concat pkts ++ more) = (let (ds', e) := read_logs_from fuel' db more in ((ds ++ ds')%list, e)).
Proof.
  intros pkts ds fuel more H. revert fuel. induction H as [|b d pkts ds [Hne H] _ IH]; intros fuel Hf.
  - exists fuel. cbn [concat app]. split; auto. destruct (read_logs_from fuel db more). reflexivity.
  - cbn [concat] in *. rewrite <- app_assoc in *. destruct b as [|x b]; [congruence|]. rewrite app_length in Hf. cbn [length] in Hf. destruct fuel as [|fuel]; [lia|].
    destruct (IH fuel) as (f' & L & R); [lia|]. exists f'. split; auto. cbn [read_logs_from app]. change (x :: (b ++ concat pkts ++ more))%list with ((x :: b) ++ (concat pkts ++ more))%list. rewrite H, R.
    destruct (read_logs_from f' db more). reflexivity.
Qed.
Lemma loggable_decodes p db c bs : loggable p db c -> packet_of p c bs -> decodes db bs (decoded_call p db c).
Proof.
  intros (Hcat & Ha & Hm & Hi) (ws & E & ->). unfold decoded_call, decodes. destruct (c_args c) as [|a args] eqn:Ec.
  - destruct (C40_short p db c Ec) as (bs & (ws' & E' & ->) & R). rewrite Ec in E'. rewrite E in E'. injection E' as <-. split.
    + intros N0. specialize (R []). rewrite N0 in R. cbn [app construct_msg] in R. destruct Hcat as [Hcat _]. rewrite N.mod_small, Hcat in R by auto. discriminate.
    + intros rest. rewrite R. destruct Hcat as [Hcat _]. rewrite N.mod_small, Hcat by auto. reflexivity.
  - assert (Hne : c_args c <> []) by congruence. rewrite <- Ec in Ha. destruct (C40_exact p db c Hne Ha Hi Hcat Hm) as (bs & (ws' & E' & ->) & R).
    rewrite Ec in E'. rewrite E in E'. injection E' as <-. rewrite <- Ec. split; auto.
    intros N0. specialize (R []). rewrite N0 in R. discriminate.
Qed.
Lemma lines_of_app ft turns j ds ls ds' : lines_of ft turns j ds = (ls, false) -> lines_of ft turns j (ds ++ ds') = let (ls', e) := lines_of ft turns j ds' in ((ls ++ ls')%list, e).
Proof.
  revert ls. induction ds as [|d ds IH]; intros ls H; cbn [lines_of app] in *.
  - injection H as <-. destruct (lines_of ft turns j ds'). reflexivity.
  - destruct (line ft turns j d) as [l|]; [|discriminate]. destruct (lines_of ft turns j ds) as [l0 e0]. injection H as <- ->. rewrite (IH _ eq_refl). destruct (lines_of ft turns j ds'). reflexivity.
Qed.
Lemma program_app p g cs cs' : program p g (cs ++ cs') = match program p g cs, program p g cs' with Some a, Some b => Some (a ++ b)%list | _, _ => None end.
Proof.
  induction cs as [|c cs IH]; cbn [program app]; [destruct (program p g cs'); reflexivity|]. rewrite IH. destruct (send p g c); [|reflexivity].
  destruct (program p g cs); [|reflexivity]. destruct (program p g cs'); [|reflexivity]. rewrite app_assoc. reflexivity.
Qed.
Lemma sent_packet p g c id m bs : sent_as p g c id m -> send p g c = Some bs -> packet_of p (numbered c id m) bs.
Proof.
  intros [S1 S2] H. unfold send in H. rewrite S1, S2 in H. destruct (build p (l_level c) id m (l_unit c) (l_args c)) as [[ws| | |]|] eqn:E; try discriminate. injection H as <-. exists ws. auto.
Qed.
(** The calls before are shown. *)
Lemma known_before ft turns p g j enums cs more : NoDup (map fst enums) -> j_enums j = write_enums enums [] -> consistent j ->
  Forall (fun cp => ascii_text (so_text (l_module (fst cp))) /\ good_call p (fst cp) (snd cp) /\ exists id m, sent_as p g (fst cp) id m /\ known j (fst cp) id m) cs ->
  exists bytes ls, program p g (map fst cs) = Some bytes /\ Forall2 (fun cp l => line_shown p enums (fst cp) (snd cp) l) cs ls /\
    exists fuel, (length more <= fuel)%nat /\ decode ft turns j (bytes ++ more) =
      (let (ds, e) := read_logs_from fuel (database_of j) more in let (ls', f) := lines_of ft turns j ds in ((ls ++ ls')%list, e || f)).
Proof.
  intros Nd Hj Hc H.
  assert (X : exists ns bss ls, Forall2 (decodes (database_of j)) bss (map (decoded_call p (database_of j)) ns) /\ program p g (map fst cs) = Some (concat bss) /\
    lines_of ft turns j (map (decoded_call p (database_of j)) ns) = (ls, false) /\ Forall2 (fun cp l => line_shown p enums (fst cp) (snd cp) l) cs ls).
  { induction H as [|[c ps] cs (Ha & Hg & id & m & [S1 S2] & Hk) _ (ns & bss & ls & I1 & I3 & I4 & I5)]; cbn [fst snd] in *.
    - exists [], [], []. cbn. auto.
    - destruct (C41_packets p [numbered c id m]) as (bs0 & HB). inversion HB as [|? bs ? l P Q]; subst. inversion Q; subst. clear HB Q.
      destruct (known_line ft turns p j enums c ps id m Nd Hj Ha Hc Hg Hk) as (l & L1 & L2).
      exists (numbered c id m :: ns), (bs :: bss), (l :: ls). split; [cbn [map]; constructor; auto; apply loggable_decodes; auto; apply (known_loggable p j c ps); auto|]. split; [|split; [|constructor; auto]].
      + cbn [map program concat fst]. rewrite I3. unfold send. rewrite S1, S2. destruct P as (ws & E & ->). cbn [numbered c_level c_id c_module c_unit c_args] in E. rewrite E. reflexivity.
      + cbn [map lines_of]. rewrite L1, I4. reflexivity. }
  destruct X as (ns & bss & ls & I1 & I3 & I4 & I5). exists (concat bss), ls. split; auto. split; auto.
  unfold decode, read_logs. destruct (stream_prefix (database_of j) bss _ _ more I1 (le_n _)) as (f & Lf & R). exists f. split; auto. rewrite R.
  destruct (read_logs_from f (database_of j) more) as [ds e]. rewrite (lines_of_app ft turns j _ ls ds I4). destruct (lines_of ft turns j ds). reflexivity.
Qed.
Lemma decode_stops ft turns p g j enums cs c rest bytes id m : NoDup (map fst enums) -> j_enums j = write_enums enums [] -> consistent j ->
  Forall (fun cp => ascii_text (so_text (l_module (fst cp))) /\ good_call p (fst cp) (snd cp) /\ exists id m, sent_as p g (fst cp) id m /\ known j (fst cp) id m) cs ->
  sent_as p g c id m -> (id < 2 ^ 28)%N -> (m < 2 ^ 7)%N ->
  by_id (j_messages j) (Z.of_N id) = None \/ l_args c <> [] /\ by_id (j_modules j) (Z.of_N m) = None ->
  program p g (map fst cs ++ c :: rest) = Some bytes ->
  exists ls, decode ft turns j bytes = (ls, true) /\ Forall2 (fun cp l => line_shown p enums (fst cp) (snd cp) l) cs ls.
Proof.
  intros Nd Hj Hc H S Hi Hm Hn P. rewrite program_app in P. cbn [program] in P. destruct (send p g c) as [bs|] eqn:E; [|destruct (program p g (map fst cs)); discriminate].
  destruct (program p g rest) as [tl|]; [|destruct (program p g (map fst cs)); discriminate].
  destruct (known_before ft turns p g j enums cs (bs ++ tl) Nd Hj Hc H) as (b0 & ls & P0 & F & fuel & Lf & D). rewrite P0 in P. injection P as <-. exists ls. split; auto. rewrite D.
  assert (R : construct_msg (database_of j) (bs ++ tl) = Raised).
  { apply (construct_unknown _ p (numbered c id m)); auto; [apply (sent_packet p g); auto|]. cbn [numbered c_id c_module c_args database_of db_messages db_modules].
    destruct Hn as [->|[Ha ->]]; cbn [option_map]; auto. }
  destruct (bs ++ tl)%list as [|x l] eqn:Eb; [|destruct fuel as [|fuel]].
  - exfalso. destruct (sent_packet p g c id m bs S E) as (ws & B & ->). apply app_eq_nil in Eb as [Eb _]. destruct ws as [|w ws]; [|discriminate Eb]. revert B. cbn [numbered c_level c_id c_module c_unit c_args].
    unfold build. destruct (l_args c).
    + destruct (build_short32_spec id) as (w & -> & _). discriminate.
    + match goal with |- build_catalog ?a ?b ?c ?d ?e ?f = _ -> _ => destruct (build_catalog_spec a b c d e f) as (w & -> & _) end. discriminate.
  - cbn [length] in Lf. lia.
  - cbn [read_logs_from]. rewrite R. cbn [lines_of]. rewrite app_nil_r. reflexivity.
Qed.

(** A text with more places than there are arguments cannot be filled. *)
Lemma py_format_short ps : Forall braces_ok ps -> forall vs k, (List.length vs < List.length (filter is_hole ps))%nat -> py_format k (format_text ps) vs = None.
Proof.
  induction 1 as [|p ps P _ IH]; intros vs k V.
  - cbn in V. lia.
  - change (format_text (p :: ps)) with (part_text p ++ format_text ps)%string in *. destruct p as [t| | |].
    + cbn [part_text] in *. apply braceless_nobr in P. revert k. induction t as [|a t IHt]; intros k; [exact (IH vs k V)|].
      apply nobr_neq in P as (P1 & P2 & P3). destruct k as [|k]; [reflexivity|]. cbn [append]. rewrite py_format_char by assumption. rewrite IHt by assumption. reflexivity.
    + destruct k as [|k]; [reflexivity|]. cbn [part_text append py_format]. rewrite IH by exact V. reflexivity.
    + destruct k as [|k]; [reflexivity|]. cbn [part_text append py_format]. rewrite IH by exact V. reflexivity.
    + destruct k as [|k]; [reflexivity|]. cbn [part_text append py_format]. destruct vs as [|v vs]; [reflexivity|]. cbn in V. rewrite IH by lia. reflexivity.
Qed.
Lemma decode_edited ft turns p g j enums cs c rest bytes id m e ps : NoDup (map fst enums) -> j_enums j = write_enums enums [] -> consistent j ->
  Forall (fun cp => ascii_text (so_text (l_module (fst cp))) /\ good_call p (fst cp) (snd cp) /\ exists id m, sent_as p g (fst cp) id m /\ known j (fst cp) id m) cs ->
  sent_as p g c id m -> (id < 2 ^ 28)%N -> (m < 2 ^ 7)%N -> l_args c <> [] -> (l_level c < 8)%N -> (l_unit c < 16)%N ->
  Forall (fun a => type_ok (fst a) /\ name_ok (fst a) /\ MipiSpec.arg_ok p a) (l_args c) ->
  In e (j_messages j) -> m_id e = Z.of_N id -> m_args e = map (fun a => encode_text p (fst a)) (l_args c) ->
  m_text e = format_text ps -> Forall braces_ok ps -> ~ mentions_enum (format_text ps) -> (List.length (l_args c) < List.length (filter is_hole ps))%nat ->
  program p g (map fst cs ++ c :: rest) = Some bytes ->
  exists ls, decode ft turns j bytes = (ls, true) /\ Forall2 (fun cp l => line_shown p enums (fst cp) (snd cp) l) cs ls.
Proof.
  intros Nd Hj Hc H S Hi Hm Ha Hl Hu Hargs He1 He2 He3 He4 Hb Hne Hh P.
  destruct (by_id_holds (j_messages j) (sid e) (Z.of_N id) (proj1 Hc)) as (e' & E' & Se); [exists e; auto|]. injection Se as Se1 Se2.
  destruct (by_id (j_modules j) (Z.of_N m)) as [o|] eqn:Eo; [|apply (decode_stops ft turns p g j enums cs c rest bytes id m); auto].
  rewrite program_app in P. cbn [program] in P. destruct (send p g c) as [bs|] eqn:E; [|destruct (program p g (map fst cs)); discriminate].
  destruct (program p g rest) as [tl|]; [|destruct (program p g (map fst cs)); discriminate].
  destruct (known_before ft turns p g j enums cs (bs ++ tl) Nd Hj Hc H) as (b0 & ls & P0 & F & fuel & Lf & D). rewrite P0 in P. injection P as <-. exists ls. split; auto. rewrite D.
  assert (R : decodes (database_of j) bs (decoded_call p (database_of j) (numbered c id m))).
  { apply loggable_decodes; [|apply (sent_packet p g); auto]. unfold loggable, in_catalog. cbn [numbered c_id c_args c_module database_of db_messages db_modules]. rewrite E', Eo. cbn [option_map].
    split; [split; [congruence|eauto]|]. split; auto. split; auto. destruct (l_args c); [congruence|]. eapply N.lt_trans; [exact Hi|reflexivity]. }
  destruct R as [R0 R]. specialize (R tl). destruct (bs ++ tl)%list as [|x l] eqn:Eb; [apply app_eq_nil in Eb as [-> _]; congruence|]. destruct fuel as [|fuel]; [cbn [length] in Lf; lia|].
  cbn [read_logs_from]. rewrite R. destruct (read_logs_from fuel (database_of j) tl) as [ds e0]. cbn [lines_of].
  assert (L : line ft turns j (decoded_call p (database_of j) (numbered c id m)) = None).
  { unfold decoded_call. cbn [numbered c_args c_id c_level c_unit c_module]. destruct (l_args c) as [|a args] eqn:Ea; [congruence|]. rewrite <- Ea in *. unfold line. rewrite E', Eo, Se1, He4, convert_none by exact Hne.
    destruct (nth_error severity _); [|reflexivity]. unfold catalog_line. rewrite py_format_short; [reflexivity|exact Hb|]. rewrite !map_length. exact Hh. }
  rewrite L, app_nil_r, orb_true_r. reflexivity.
Qed.

(** ** Compile-time enumerators *)
(** A number has one decimal text without leading zeros. *)
Lemma writes_zero s : writes 10 s 0 -> starts "0" s.
Proof.
  intros H. remember 0 as n eqn:E. induction H as [d Hd|s n d H IH Hd]; [subst d; exists EmptyString; reflexivity|].
  assert (0 <= n) by (apply (writes_nonneg 10 s); [lia|exact H]). assert (n = 0) by lia. destruct (IH H1) as (r & ->). exists (r ++ digit d)%string. reflexivity.
Qed.
Lemma writes_one_text s n : writes 10 s n -> forall t, writes 10 t n -> (s = digit n /\ n < 10 \/ ~ starts "0" s) -> (t = digit n /\ n < 10 \/ ~ starts "0" t) -> s = t.
Proof.
  assert (Z0 : forall s n d t k, writes 10 s n -> 0 <= d < 10 -> 10 * n + d = k -> t = (s ++ digit d)%string -> (t = digit k /\ k < 10 \/ ~ starts "0" t) -> 0 < n).
  { intros s0 n0 d t k W Hd E -> [[H1 H2]|H].
    - exfalso. assert (L : String.length (s0 ++ digit d) = String.length (digit k)) by congruence. rewrite slen_app in L.
      assert (N := writes_nonempty 10 _ _ ltac:(lia) W). destruct s0; [congruence|]. assert (0 <= n0) by (apply (writes_nonneg 10 _ _ ltac:(lia) W)). rewrite !digit_char_spec in L by lia. cbn [String.length] in L. lia.
    - assert (0 <= n0) by (apply (writes_nonneg 10 s0); [lia|exact W]). destruct (Z.eq_dec n0 0) as [->|]; [|lia]. exfalso. apply H. destruct (writes_zero _ W) as (r & ->). exists (r ++ digit d)%string. reflexivity. }
  induction 1 as [d Hd|s n d W IH Hd]; intros t Wt Hs Ht.
  - inversion Wt as [d' Hd' E1 E2|s' n' d' W' Hd' E1 E2]; subst; [reflexivity|]. assert (0 < n') by (eapply Z0; eauto). lia.
  - assert (P : 0 < n) by (eapply (Z0 s n d); eauto). inversion Wt as [d' Hd' E1 E2|s' n' d' W' Hd' E1 E2]; [exfalso; lia|subst t]. assert (P' : 0 < n') by (eapply (Z0 s' n' d'); eauto).
    assert (n' = n /\ d' = d) as [-> ->] by (change (10 * n' + d' = 10 * n + d) in E2; clear - E2 Hd Hd'; lia). f_equal. apply IH; auto.
    + right. intros (r & E). assert (Hs' : ~ starts "0" (s ++ digit d)) by (destruct Hs as [[_ Hs]|Hs]; [lia|exact Hs]). apply Hs'. exists (r ++ digit d)%string. rewrite E. reflexivity.
    + right. intros (r & E). assert (Ht' : ~ starts "0" (s' ++ digit d)) by (destruct Ht as [[_ Ht]|Ht]; [lia|exact Ht]). apply Ht'. exists (r ++ digit d)%string. rewrite E. reflexivity.
Qed.
Lemma prints_str z s : prints (GenModel.VInt z) s -> s = str z.
Proof.
  cbn [prints]. destruct (z <? 0) eqn:E.
  - intros (t & -> & W & N). destruct (str_neg z ltac:(lia)) as (t' & -> & W' & N'). f_equal. apply (writes_one_text t (- z)); auto.
  - intros [W S0]. destruct (str_writes z ltac:(lia)) as [W' N']. apply (writes_one_text s z); auto.
    + destruct S0 as [->|S0]; [|right; exact S0]. left. inversion W as [d Hd E1 E2|s' n' d' W1 Hd' E1 E2].
      * subst. split; [congruence|lia].
      * exfalso. assert (N := writes_nonempty 10 _ _ ltac:(lia) W1). destruct s'; [congruence|]. cbn [append] in E1. injection E1 as _ E1. rewrite digit_char_spec in E1 by lia. destruct s'; discriminate.
    + destruct (Z.eq_dec z 0) as [->|]; [left; split; [reflexivity|lia]|right; apply N'; lia].
Qed.
Lemma fold_put_in (l : names) : forall d v n, GenModel.get String.eqb v (fold_left (fun d kv => GenModel.put String.eqb (key_text (fst kv)) (snd kv) d) l d) = Some n ->
  (exists k, In (k, n) l /\ key_text k = v) \/ GenModel.get String.eqb v d = Some n.
Proof.
  induction l as [|[k w] l IH]; intros d v n H; cbn [fold_left fst snd] in H; [auto|]. destruct (IH _ _ _ H) as [(k' & H1 & H2)|H1]; [left; exists k'; split; [right; auto|auto]|].
  destruct (String.eqb_spec (key_text k) v) as [<-|N].
  - rewrite (get_put_same _ string_ok) in H1. injection H1 as <-. left. exists k. split; [left; reflexivity|reflexivity].
  - rewrite (get_put_other _ string_ok) in H1 by auto. auto.
Qed.
Lemma put_key_in (k : ekey) (m : string) d x : In x (GenModel.put ekey_eqb k m d) -> fst x = k \/ In x d.
Proof.
  induction d as [|[k' m'] d IH]; cbn [GenModel.put]; [intros [<-|[]]; auto|]. destruct (ekey_eqb k' k) eqn:E.
  - intros [<-|H]; [left|right; right; auto]. cbn [fst]. destruct k', k; cbn in E; try discriminate; [apply String.eqb_eq in E|apply Z.eqb_eq in E]; congruence.
  - intros [<-|H]; [right; left; auto|]. destruct (IH H); [auto|right; right; auto].
Qed.
Lemma by_value_int vs k n : In (k, n) (by_value vs) -> exists z, k = KInt z.
Proof.
  unfold by_value. assert (G : forall d, (forall k n, In (k, n) d -> exists z, k = KInt z) -> In (k, n) (fold_left (fun d nv => GenModel.put ekey_eqb (KInt (snd nv)) (fst nv) d) vs d) -> exists z, k = KInt z).
  { induction vs as [|v vs IH]; intros d Hd H; cbn [fold_left] in H; [eauto|]. revert H. apply IH. intros k' n' Hin. apply put_key_in in Hin as [E|Hin]; [cbn [fst] in E; eauto|eauto]. }
  apply G. intros k' n' [].
Qed.
(** Names are found under the numbers they have. *)
Lemma enum_named_own enums ty v n : NoDup (map fst enums) -> enum_named (write_enums enums []) ty v = Some n -> exists z, v = str z /\ enumerator enums ty n z.
Proof.
  intros N H. assert (G : exists z, v = str z).
  { unfold enum_named in H. unfold write_enums in H. rewrite write_get, extra_get in H by exact N. cbn [last_extra fold_left GenModel.get option_map] in H.
    destruct (GenModel.get String.eqb ty enums) as [vs|]; [|discriminate]. unfold load_names in H. apply fold_put_in in H as [(k & H1 & H2)|H]; [|discriminate].
    apply by_value_int in H1 as (z & ->). exists z. symmetry. exact H2. }
  destruct G as (z & ->). exists z. split; auto. change (enum_named (write_enums enums []) ty (str z)) with (enum_name (write_enums enums []) ty z) in H.
  pose proof (enum_name_own enums ty z N) as E. rewrite H in E. exact E.
Qed.
Lemma enum_lookup enums ty z v : NoDup (map fst enums) -> prints (GenModel.VInt z) v -> 
  let name := lookup_name (enum_named (write_enums enums [])) ty v in
  enumerator enums ty name z \/ (forall n, ~ enumerator enums ty n z) /\ name = ("static_cast<" ++ ty ++ ">(" ++ v ++ ")")%string.
Proof.
  intros N P. apply prints_str in P. subst v. unfold lookup_name. change (enum_named (write_enums enums []) ty (str z)) with (enum_name (write_enums enums []) ty z).
  pose proof (enum_name_own enums ty z N) as E. destruct (enum_name (write_enums enums []) ty z); auto.
Qed.

(** ** Explicit ids *)
Lemma pinned_kept {A} (entry_of : A -> entry) key reserved json (items : list A) : respects key -> separates key (json ++ map entry_of items) -> one_to_one json -> pins_ok json (map entry_of items) ->
  (forall a b, In a items -> In b items -> sid (entry_of a) = sid (entry_of b) -> a = b) ->
  forall m, In m items -> m_id (entry_of m) <> -1 -> holds (fst (run key false reserved [Some json] (map entry_of items))) (sid (entry_of m)) (m_id (entry_of m)).
Proof.
  intros R S O P I m Hm Hi. rewrite run_is. cbn [fst]. apply step_pins; auto.
  destruct (unique_spec key (map entry_of items)) as (_ & U2 & U3). destruct (U3 (entry_of m)) as (x & Hx & Ex); [apply in_map, Hm|].
  assert (Hx' := U2 x Hx). apply in_map_iff in Hx' as (y & <- & Hy). enough (y = m) by (subst y; exact Hx). apply I; auto. apply S; auto; apply in_app_iff; right; apply in_map; auto.
Qed.

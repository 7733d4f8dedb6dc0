(** Proofs about the way of a log call to the printed line. *)
From Coq Require Import String Ascii Bool Arith List NArith ZArith Lia.
From Coq Require Import ZifyN ZifyNat ZifyBool.
From Verif Require Import FieldModel MessageModel CatalogModel CatalogSpec CatalogProofs CatalogProofs2 GenModel GenSpec GenProofs GenProofs2 GenProofs3.
From Verif Require Import SymbolModel SymbolSpec SymbolProofs6 SymbolProps MipiModel MipiSpec MipiProofs2 MipiProps ChainModel ChainSpec.
Import ListNotations.
Local Open Scope Z_scope.

(** ** Texts *)
Lemma spells_text codes s : spells codes s -> text_of_codes codes = s.
Proof.
  unfold spells. intros <-. induction s as [|a s IH]; [reflexivity|]. cbn [list_ascii_of_string map text_of_codes fold_right].
  unfold text_of_codes in IH. rewrite IH, Nat2Z.id, ascii_nat_embedding. reflexivity.
Qed.
Lemma text_spells codes : ascii_text codes -> spells codes (text_of_codes codes).
Proof.
  unfold spells. induction 1 as [|c codes H _ IH]; [reflexivity|]. cbn [text_of_codes fold_right list_ascii_of_string map].
  unfold text_of_codes in IH. rewrite IH, nat_ascii_embedding by lia. f_equal. lia.
Qed.
Lemma text_inj a b : ascii_text a -> ascii_text b -> text_of_codes a = text_of_codes b -> a = b.
Proof. intros Ha Hb E. apply text_spells in Ha, Hb. unfold spells in *. rewrite <- Ha, E. exact Hb. Qed.

(** ** Compile-time enumerators *)
Lemma span_spec f s : let (p, q) := span f s in s = (p ++ q)%string /\ all_chars f p = true /\ match q with String a _ => f a = false | EmptyString => True end.
Proof.
  induction s as [|a s IH]; [cbn; auto|]. cbn [span]. destruct (f a) eqn:E; [|cbn; auto]. destruct (span f s) as [p q]. destruct IH as (-> & H2 & H3).
  cbn [append all_chars]. rewrite E, H2. auto.
Qed.
Lemma match_here_spec s ty v r : match_here s = Some (ty, v, r) -> exists b, s = String "(" (ty ++ String ")" (v ++ b)) /\ ty <> EmptyString /\ all_chars is_word ty = true /\
  v <> EmptyString /\ all_chars is_digit v = true /\ not_word_first b.
Proof.
  unfold match_here. destruct s as [|a s]; [discriminate|]. destruct (ascii_dec a "("%char) as [->|N].
  - pose proof (span_spec is_word s) as S1. destruct (span is_word s) as [t r1]. destruct S1 as (-> & A1 & _).
    destruct t as [|t0 t]; [discriminate|]. destruct r1 as [|c r2]; [discriminate|].
    destruct (ascii_dec c ")"%char) as [->|Nc].
    + pose proof (span_spec is_digit r2) as S2. destruct (span is_digit r2) as [w r3]. destruct S2 as (-> & A2 & _).
      destruct w as [|w0 w]; [discriminate|]. intros H.
      assert (E : Some (String t0 t, String w0 w, r3) = Some (ty, v, r) /\ not_word_first r3).
      { destruct r3 as [|c r3]; [split; [exact H|exact I]|]. cbn [not_word_first]. destruct (is_word c); [discriminate|]. split; [exact H|reflexivity]. }
      destruct E as [[= <- <- <-] Nw]. exists r3. repeat split; auto; discriminate.
    + intros H. exfalso. destruct c as [[] [] [] [] [] [] [] []]; try discriminate H; apply Nc; reflexivity.
  - intros H. exfalso. destruct a as [[] [] [] [] [] [] [] []]; try discriminate H; apply N; reflexivity.
Qed.
Lemma search_spec s ty v : search s = Some (ty, v) -> mentions_enum s.
Proof.
  induction s as [|a s IH]; [discriminate|]. cbn [search]. destruct (match_here (String a s)) as [[[t w] r]|] eqn:E.
  - intros _. apply match_here_spec in E as (b & E & H). exists EmptyString, t, w, b. auto.
  - intros H. destruct (IH H) as (x & ty' & v' & b & -> & H'). exists (String a x), ty', v', b. auto.
Qed.
Lemma convert_none n names s : ~ mentions_enum s -> convert_ct_enums n names s = Some s.
Proof.
  intros H. assert (E : search s = None) by (destruct (search s) as [[ty v]|] eqn:E; auto; apply search_spec in E; contradiction).
  destruct n; cbn [convert_ct_enums]; rewrite E; reflexivity.
Qed.

(** ** The catalog by id *)
Lemma by_id_app l l' i : by_id (l ++ l') i = match by_id l' i with Some m => Some m | None => by_id l i end.
Proof.
  unfold by_id. rewrite fold_left_app. generalize (fold_left (fun acc m => if m_id m =? i then Some m else acc) l None).
  induction l' as [|m l' IH] using rev_ind; intros x; [reflexivity|]. rewrite !fold_left_app. cbn [fold_left]. destruct (m_id m =? i); auto.
Qed.
Lemma by_id_some l i m : by_id l i = Some m -> In m l /\ m_id m = i.
Proof.
  induction l as [|x l IH] using rev_ind; [discriminate|]. rewrite by_id_app. change (by_id [x] i) with (if m_id x =? i then Some x else None). destruct (m_id x =? i) eqn:E.
  - intros [= <-]. split; [apply in_app_iff; right; left; reflexivity|lia].
  - intros H. destruct (IH H). split; [apply in_app_iff; auto|auto].
Qed.
Lemma by_id_in l i m : In m l -> m_id m = i -> by_id l i <> None.
Proof.
  intros H E. apply in_split in H as (a & b & ->). rewrite by_id_app. destruct (by_id (m :: b) i) eqn:X; [discriminate|].
  change (m :: b) with ([m] ++ b)%list in X. rewrite by_id_app in X. destruct (by_id b i); [discriminate|]. change (by_id [m] i) with (if m_id m =? i then Some m else None) in X.
  destruct (m_id m =? i) eqn:Y; [discriminate|lia].
Qed.
Lemma by_id_holds l s i : one_to_one l -> holds l s i -> exists m, by_id l i = Some m /\ sid m = s.
Proof.
  intros [_ O] H. destruct H as (m & Hm & Es & Ei). pose proof (by_id_in l i m Hm Ei) as N. destruct (by_id l i) as [x|] eqn:E; [|congruence].
  exists x. split; auto. apply by_id_some in E as [Hx Ex]. apply (O (sid x) s i); [exists x|exists m]; auto.
Qed.

(** ** Format strings *)
Lemma py_format_fills ps : Forall braces_ok ps -> forall vs k, (String.length (format_text ps) < k)%nat -> List.length (filter is_hole ps) = List.length vs ->
  exists s, fills ps (map py_text vs) s /\ py_format k (format_text ps) vs = Some s.
Proof.
  induction 1 as [|p ps P _ IH]; intros vs k L V.
  - destruct vs; [|discriminate]. exists EmptyString. split; [constructor|]. destruct k; [cbn in L; lia|reflexivity].
  - change (format_text (p :: ps)) with (part_text p ++ format_text ps)%string in *. rewrite slen_app in L. destruct p as [t| | |].
    + cbn [part_text] in *. apply braceless_nobr in P.
      cut (forall k, (String.length t + String.length (format_text ps) < k)%nat -> exists s, fills ps (map py_text vs) s /\ py_format k (t ++ format_text ps) vs = Some (t ++ s)%string).
      { intros C. destruct (C k L) as (s & F & E). exists (t ++ s)%string. split; [now constructor|exact E]. }
      clear k L. induction t as [|a t IHt]; intros k L.
      * exact (IH vs k L V).
      * apply nobr_neq in P as (P1 & P2 & P3). destruct k as [|k]; [cbn in L; lia|]. cbn in L.
        destruct (IHt P3 V k) as (s & F & E); [lia|]. exists s. split; [exact F|]. cbn [append]. rewrite py_format_char by assumption. now rewrite E.
    + destruct k as [|k]; [cbn in L; lia|]. cbn in L. destruct (IH vs k) as (s & F & E); [lia|exact V|]. exists ("{" ++ s)%string. split; [now constructor|].
      cbn [part_text append py_format]. now rewrite E.
    + destruct k as [|k]; [cbn in L; lia|]. cbn in L. destruct (IH vs k) as (s & F & E); [lia|exact V|]. exists ("}" ++ s)%string. split; [now constructor|].
      cbn [part_text append py_format]. now rewrite E.
    + destruct k as [|k]; [cbn in L; lia|]. cbn in L. destruct vs as [|v vs]; [discriminate|]. cbn in V.
      destruct (IH vs k) as (s & F & E); [lia|lia|]. exists (py_text v ++ s)%string. split; [cbn [map]; constructor; exact F|].
      cbn [part_text append py_format]. now rewrite E.
Qed.

(** ** Arguments *)
Lemma get_in {A} (e : string) (l : list (string * A)) v : GenModel.get String.eqb e l = Some v -> In (e, v) l.
Proof.
  induction l as [|[k w] l IH]; [discriminate|]. cbn [GenModel.get]. destruct (String.eqb_spec k e) as [->|]; [intros [= ->]; left; auto|right; auto].
Qed.
Lemma in_get {A} (e : string) (l : list (string * A)) v : NoDup (map fst l) -> In (e, v) l -> GenModel.get String.eqb e l = Some v.
Proof.
  induction l as [|[k w] l IH]; [intros _ []|]. cbn [map fst GenModel.get]. intros N H. inversion_clear N as [|? ? N1 N2]. destruct H as [[= -> ->]|H].
  - rewrite String.eqb_refl. reflexivity.
  - destruct (String.eqb_spec k e) as [->|]; [|auto]. exfalso. apply N1. apply in_map_iff. exists (e, v). auto.
Qed.
Lemma last_name_in z vs n : last_name Z.eqb z (map swap vs) = Some n -> In (n, z) vs.
Proof.
  induction vs as [|[m y] vs IH]; [discriminate|]. cbn [map swap last_name fst snd]. destruct (last_name Z.eqb z (map swap vs)) as [x|].
  - intros [= ->]. right. auto.
  - destruct (Z.eqb_spec y z) as [->|]; [intros [= ->]; left; auto|discriminate].
Qed.
Lemma last_name_none z vs n : last_name Z.eqb z (map swap vs) = None -> ~ In (n, z) vs.
Proof.
  induction vs as [|[m y] vs IH]; [intros _ []|]. cbn [map swap last_name fst snd]. destruct (last_name Z.eqb z (map swap vs)) as [x|]; [discriminate|].
  destruct (Z.eqb_spec y z) as [->|N]; [discriminate|]. intros _ [[= -> ->]|H]; [congruence|]. apply IH; auto.
Qed.
Lemma enum_name_own enums e z : NoDup (map fst enums) ->
  match enum_name (write_enums enums []) e z with Some n => enumerator enums e n z | None => forall n, ~ enumerator enums e n z end.
Proof.
  intros N. rewrite names_exact by exact N. cbn [last_extra fold_left GenModel.get]. destruct (GenModel.get String.eqb e enums) as [vs|] eqn:G.
  - destruct (last_name Z.eqb z (map swap vs)) as [n|] eqn:L; cbn [GenSpec.or_else].
    + exists vs. split; [apply get_in, G|apply last_name_in, L].
    + intros n (ws & H1 & H2). rewrite (in_get e enums ws N H1) in G. injection G as ->. apply (last_name_none z vs n L H2).
  - cbn [GenSpec.or_else]. intros n (ws & H1 & H2). rewrite (in_get e enums ws N H1) in G. discriminate.
Qed.
Lemma arg_text ft p db enums a : NoDup (map fst enums) -> (forall e z, db_enums db e z = enum_name (write_enums enums []) e z) ->
  number_or_enum (fst a) -> arg_shown p enums a (py_text (shown_val ft (wanted p db (fst a) (snd a)))).
Proof.
  intros N Hdb Hn. destruct a as [t raw]. cbn [fst snd] in *. unfold arg_shown. cbn [fst snd].
  assert (E : forall e, enumerator enums e (py_text (shown_val ft match db_enums db e (numeric p t raw) with Some s => VName s | None => VCast e (VInt (numeric p t raw)) end)) (numeric p t raw) \/
    (forall n, ~ enumerator enums e n (numeric p t raw)) /\ exists d, prints (GenModel.VInt (numeric p t raw)) d /\
      py_text (shown_val ft match db_enums db e (numeric p t raw) with Some s => VName s | None => VCast e (VInt (numeric p t raw)) end) = ("static_cast<" ++ e ++ ">(" ++ d ++ ")")%string).
  { intros e. rewrite Hdb. pose proof (enum_name_own enums e (numeric p t raw) N) as H. destruct (enum_name _ _ _) as [n|].
    - left. exact H.
    - right. split; auto. exists (str (numeric p t raw)). split; [apply str_prints|]. reflexivity. }
  destruct t as [b|e b|e b]; [|apply E|apply E].
  destruct Hn as ([H1 H2] & H3 & H4). cbn [wanted]. destruct b; try contradiction; try congruence; cbn [shown_val py_text]; apply str_prints.
Qed.

(** ** Decoding *)
(** A call together with the numbers it is sent with. *)
Definition numbered (c : log_call) (id m : N) : call := {| c_level := l_level c; c_module := m; c_unit := l_unit c; c_id := id; c_args := l_args c |}.
Definition sid_of (c : log_call) : string * list string := (text_of_codes (sm_text (l_message c)), sm_args (l_message c)).
Definition mid_of (c : log_call) : string * list string := (text_of_codes (so_text (l_module c)), []).
(** The catalog has the call under these numbers. *)
Definition known (j : json_file) (c : log_call) (id m : N) : Prop :=
  holds (j_messages j) (sid_of c) (Z.of_N id) /\ holds (j_modules j) (mid_of c) (Z.of_N m) /\ (id < 2 ^ 28)%N /\ (m < 2 ^ 7)%N.
(** What the decoder shows: the line, or for a call without arguments only the
    text as it is written. *)
Definition line_shown (p : platform) (enums : enumerations) (c : log_call) (ps : list part) (l : string) : Prop :=
  match l_args c with [] => l = format_text ps | _ => call_line p enums c ps l end.

Lemma known_loggable p j c ps id m : consistent j -> good_call p c ps -> known j c id m -> loggable p (database_of j) (numbered c id m).
Proof.
  intros [O1 O2] (G1 & G2 & G3 & G4 & G5 & G6 & G7 & G8) (K1 & K2 & K3 & K4). unfold loggable, in_catalog. cbn [numbered c_id c_args c_module database_of db_messages db_modules].
  destruct (by_id_holds _ _ _ O1 K1) as (e & E1 & S1). destruct (by_id_holds _ _ _ O2 K2) as (o & E2 & S2). rewrite E1, E2. cbn [option_map]. injection S1 as S11 S12.
  split; [split; [congruence|eexists; reflexivity]|]. split; [|split; [exact K4|]].
  - eapply Forall_impl; [|exact G8]. intros a (A1 & A2 & A3 & _). split; auto.
  - destruct (l_args c); [exact K3|]. eapply N.lt_trans; [exact K3|]. reflexivity.
Qed.
Lemma known_line ft turns p j enums c ps id m : NoDup (map fst enums) -> j_enums j = write_enums enums [] -> ascii_text (so_text (l_module c)) ->
  consistent j -> good_call p c ps -> known j c id m ->
  exists l, line ft turns j (decoded_call p (database_of j) (numbered c id m)) = Some l /\ line_shown p enums c ps l.
Proof.
  intros Nd Hj Ho [O1 O2] (G1 & G2 & G3 & G4 & G5 & G6 & G7 & G8) (K1 & K2 & K3 & K4).
  destruct (by_id_holds _ _ _ O1 K1) as (e & E1 & S1). destruct (by_id_holds _ _ _ O2 K2) as (o & E2 & S2). injection S1 as S11 S12. injection S2 as S21 S22.
  unfold decoded_call, line_shown. cbn [numbered c_args c_id c_level c_unit c_module]. rewrite (spells_text _ _ G5) in S11. destruct (l_args c) as [|a args] eqn:Ea.
  - exists (format_text ps). split; auto. unfold line. rewrite E1, S11. apply convert_none, G6.
  - rewrite <- Ea in *. clear a args Ea. rewrite !N.mod_small by assumption.
    assert (D : map (fun a => displayed p (database_of j) (fst a) (snd a)) (l_args c) = map (fun a => wanted p (database_of j) (fst a) (snd a)) (l_args c)).
    { apply map_ext_in. intros [t raw] Hin. rewrite Forall_forall in G8. destruct (G8 _ Hin) as (A1 & A2 & A3 & A4 & A5). apply displayed_wanted; auto. }
    rewrite D. unfold line. rewrite E1, E2.
    assert (L : exists lv, nth_error severity (N.to_nat (l_level c)) = Some lv).
    { destruct (nth_error severity (N.to_nat (l_level c))) eqn:X; [eauto|]. apply nth_error_None in X. cbn [severity List.length] in X. lia. }
    destruct L as (lv & L). rewrite L, S11, convert_none by exact G6. unfold catalog_line.
    destruct (py_format_fills ps G3 (map (shown_val ft) (map (fun a => wanted p (database_of j) (fst a) (snd a)) (l_args c))) (S (String.length (format_text ps)))) as (s & F & Es); [lia|rewrite !map_length; exact G4|].
    rewrite Es. cbn [option_map]. eexists. split; [reflexivity|]. exists lv, (m_text o), (map py_text (map (shown_val ft) (map (fun a => wanted p (database_of j) (fst a) (snd a)) (l_args c)))), s.
    split; [exact L|]. split; [rewrite S21; apply text_spells, Ho|]. split; [|split; [exact F|reflexivity]].
    rewrite !map_map. rewrite Forall_forall in G8. clear - Nd Hj G8. induction (l_args c) as [|a args IH]; cbn [map]; constructor.
    + apply arg_text; auto; [intros e' z'; cbn [database_of db_enums]; rewrite Hj; reflexivity|]. apply G8. left. reflexivity.
    + apply IH. intros x Hx. apply G8. right. exact Hx.
Qed.
(** Packets of known calls. *)
Definition sent_as (p : platform) (g : generated) (c : log_call) (id m : N) : Prop :=
  linked message_dec (g_messages g) (l_message c) = Some id /\ linked module_dec (g_modules g) (l_module c) = Some m.
Lemma decode_known ft turns p g j enums cs : NoDup (map fst enums) -> j_enums j = write_enums enums [] -> consistent j ->
  Forall (fun cp => ascii_text (so_text (l_module (fst cp))) /\ good_call p (fst cp) (snd cp) /\ exists id m, sent_as p g (fst cp) id m /\ known j (fst cp) id m) cs ->
  exists bytes ls, program p g (map fst cs) = Some bytes /\ decode ft turns j bytes = (ls, false) /\ Forall2 (fun cp l => line_shown p enums (fst cp) (snd cp) l) cs ls.
Proof.
  intros Nd Hj Hc H.
  assert (X : exists ns bss ls, Forall (loggable p (database_of j)) ns /\ Forall2 (packet_of p) ns bss /\ program p g (map fst cs) = Some (concat bss) /\
    lines_of ft turns j (map (decoded_call p (database_of j)) ns) = (ls, false) /\ Forall2 (fun cp l => line_shown p enums (fst cp) (snd cp) l) cs ls).
  { induction H as [|[c ps] cs (Ha & Hg & id & m & [S1 S2] & Hk) _ (ns & bss & ls & I1 & I2 & I3 & I4 & I5)]; cbn [fst snd] in *.
    - exists [], [], []. cbn. auto.
    - destruct (C41_packets p [numbered c id m]) as (bs0 & HB). inversion HB as [|? bs ? l P Q]; subst. inversion Q; subst. clear HB Q.
      destruct (known_line ft turns p j enums c ps id m Nd Hj Ha Hc Hg Hk) as (l & L1 & L2).
      exists (numbered c id m :: ns), (bs :: bss), (l :: ls). split; [constructor; auto; apply (known_loggable p j c ps); auto|]. split; [constructor; auto|]. split; [|split; [|constructor; auto]].
      + cbn [map program concat fst]. rewrite I3. unfold send. rewrite S1, S2. destruct P as (ws & E & ->). cbn [numbered c_level c_id c_module c_unit c_args] in E. rewrite E. reflexivity.
      + cbn [map lines_of]. rewrite L1, I4. reflexivity. }
  destruct X as (ns & bss & ls & I1 & I2 & I3 & I4 & I5). exists (concat bss), ls. split; auto. split; auto.
  unfold decode. rewrite (C41_partial p _ ns bss I1 I2), I4. reflexivity.
Qed.

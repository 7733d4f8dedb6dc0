(** Proofs about the symbols read: texts, tags, named arguments, messages,
    modules and files. *)
From Coq Require Import String Ascii Bool Arith List ZArith Lia.
From Verif Require Import CatalogModel CatalogSpec CatalogProofs3 GenModel GenSpec GenProofs GenProofs2 SymbolModel SymbolSpec SymbolProofs SymbolProofs2.
Import ListNotations.
Local Open Scope string_scope.

(** ** Numbers *)
Definition numch (a : ascii) : bool := is_digit a || Ascii.eqb a "-".
Lemma str_numch n : all_chars numch (str n) = true /\ exists a r, str n = String a r.
Proof.
  assert (D : forall s, all_chars is_digit s = true -> all_chars numch s = true) by (intros s; apply all_chars_imp; intros a; unfold numch; intros ->; reflexivity).
  destruct (str_shape n) as [(d & ds & -> & H1 & H2)|(d & ds & -> & H1 & H2)]; (split; [|eauto]); cbn [all_chars]; rewrite (D ds H2); unfold numch; rewrite H1; reflexivity.
Qed.
Lemma str_count c n : numch c = false -> count c (str n) = 0.
Proof. intros H. apply (count_all c numch); auto. apply str_numch. Qed.
Lemma numch_space a : numch a = true -> is_space a = false.
Proof. destruct a as [[] [] [] [] [] [] [] []]; cbv; intros; congruence. Qed.
Lemma numch_dot a : numch a = true -> dot a = true.
Proof. destruct a as [[] [] [] [] [] [] [] []]; cbv; intros; congruence. Qed.
Lemma letter_dot a : is_letter a = true -> dot a = true.
Proof. destruct a as [[] [] [] [] [] [] [] []]; cbv; intros; congruence. Qed.
Lemma str_dots n : all_chars dot (str n) = true.
Proof. eapply all_chars_imp; [apply numch_dot|]. apply str_numch. Qed.

(** ** Texts *)
Lemma substring_all s : substring 0 (String.length s) s = s.
Proof. induction s as [|a s IH]; cbn; [reflexivity|]. rewrite IH. reflexivity. Qed.
Lemma substring_skip a b : substring (String.length a) (String.length (a ++ b) - String.length a) (a ++ b) = b.
Proof.
  rewrite slength_app. replace (String.length a + String.length b - String.length a) with (String.length b) by lia.
  induction a as [|x a IH]; cbn; [apply substring_all|]. exact IH.
Qed.
Lemma remove_cons n a s : remove_from (S n) "(char)" (String a s) =
  if String.prefix "(char)" (String a s) then remove_from n "(char)" (substring 6 (String.length (String a s) - 6) (String a s)) else String a (remove_from n "(char)" s).
Proof. reflexivity. Qed.
Lemma remove_plain u s n : count "(" u = 0 -> String.length (u ++ s) < n -> exists m, String.length s < m /\ remove_from n "(char)" (u ++ s) = u ++ remove_from m "(char)" s.
Proof.
  revert n. induction u as [|a u IH]; cbn [count append]; intros n Hu Hn; [exists n; auto|].
  destruct n as [|n]; [lia|]. destruct (Ascii.eqb_spec a "("); [discriminate|]. destruct (IH n Hu) as (m & Hm & E); [cbn in Hn; lia|].
  exists m. split; auto. rewrite remove_cons. replace (String.prefix "(char)" (String a (u ++ s))) with false; [rewrite E; reflexivity|].
  cbn [String.prefix]. destruct (ascii_dec "(" a); congruence.
Qed.
Lemma remove_char s n : String.length ("(char)" ++ s) < n -> exists m, String.length s < m /\ remove_from n "(char)" ("(char)" ++ s) = remove_from m "(char)" s.
Proof.
  intros Hn. destruct n as [|n]; [lia|]. exists n. split; [rewrite slength_app in Hn; cbn in Hn; lia|].
  pose proof (substring_skip "(char)" s) as E. rewrite <- E at 2. cbn [append]. rewrite remove_cons.
  change (String "(" (String "c" (String "h" (String "a" (String "r" (String ")" s)))))) with ("(char)" ++ s). rewrite prefix_app. reflexivity.
Qed.
Definition char_atoms (text : list Z) : list string := map (fun c => "(char)" ++ str c) text.
Lemma remove_chars text : forall n, String.length (cl (char_atoms text)) < n -> remove_from n "(char)" (cl (char_atoms text)) = cl (map str text).
Proof.
  induction text as [|c text IH]; intros n Hn.
  - destruct n; reflexivity.
  - assert (Hc : count "(" (str c) = 0) by (apply str_count; reflexivity). destruct text as [|d text].
    + cbn [char_atoms map comma_list] in *. rewrite <- (sapp_nil (str c)) in Hn |- *. destruct (remove_char _ _ Hn) as (m & Hm & ->). destruct (remove_plain _ _ _ Hc Hm) as (m' & _ & ->).
      destruct m'; rewrite !sapp_nil; reflexivity.
    + cbn [char_atoms map] in *. fold (char_atoms text) in *.
      change (cl ((_ : string) :: ("(char)" ++ str d) :: char_atoms text)) with (("(char)" ++ str c) ++ ", " ++ cl (("(char)" ++ str d) :: char_atoms text)) in *.
      change (cl (str c :: str d :: map str text)) with (str c ++ ", " ++ cl (str d :: map str text)).
      rewrite sapp_assoc in *. destruct (remove_char _ _ Hn) as (m & Hm & ->). destruct (remove_plain _ _ _ Hc Hm) as (m' & Hm' & ->).
      destruct (remove_plain ", " _ m' eq_refl Hm') as (m'' & Hm'' & ->). rewrite IH by exact Hm''. reflexivity.
Qed.
Lemma comma_none a s : is_space a = false -> a <> ","%char -> comma_here (String a s) = None.
Proof.
  intros Hs Hc. apply mtch_none. intros t H. cbn [seqs leaves] in H. destruct H as (m & (u & Hu & E) & m2 & H2 & _).
  destruct u as [|b u].
  - cbn in E. subst m. apply leaves_lit in H2. cbn in H2. injection H2 as -> _. congruence.
  - cbn in E, Hu. injection E as <- _. rewrite Hs in Hu. discriminate.
Qed.
Lemma comma_some a s : is_space a = false -> comma_here (String "," (String " " (String a s))) = Some (String a s).
Proof.
  intros Ha. unfold comma_here, blanks. change (String "," (String " " (String a s))) with ("" ++ "," ++ " " ++ String a s). cbn [seqs mtch].
  apply many_greedy; [reflexivity| |].
  - rewrite m_lit. apply many_greedy; [reflexivity|reflexivity|]. intros c v w E Hc. cbn in E. injection E as <- _. congruence.
  - intros c v w E Hc. cbn in E. injection E as <- _. discriminate.
Qed.
Lemma split_piece u s : all_chars numch u = true -> forall acc n, String.length (u ++ s) < n -> exists m, String.length s < m /\ re_split_from n acc (u ++ s) = re_split_from m (acc ++ u) s.
Proof.
  induction u as [|a u IH]; intros Hu acc n Hn; cbn [append].
  - exists n. rewrite sapp_nil. auto.
  - cbn [all_chars] in Hu. apply andb_true_iff in Hu. destruct Hu as [Ha Hu]. cbn [append String.length] in Hn. destruct n as [|n]; [lia|].
    destruct (IH Hu (acc ++ String a "") n) as (m & Hm & E); [lia|]. exists m. split; auto. cbn [re_split_from].
    rewrite comma_none; [|apply numch_space, Ha|intros ->; discriminate]. rewrite E. f_equal. rewrite sapp_assoc. reflexivity.
Qed.
Lemma split_chars text : text <> [] -> forall n, String.length (cl (map str text)) < n -> re_split_from n "" (cl (map str text)) = map str text.
Proof.
  induction text as [|c text IH]; [congruence|]. intros _ n Hn. destruct (str_numch c) as [Hc _]. destruct text as [|d text].
  - cbn [map comma_list] in *. rewrite <- (sapp_nil (str c)) in Hn. destruct (split_piece _ _ Hc "" _ Hn) as (m & Hm & E). rewrite sapp_nil in E. rewrite E.
    destruct m as [|m]; [cbn in Hm; lia|]. cbn [re_split_from append]. reflexivity.
  - change (cl (map str (c :: d :: text))) with (str c ++ ", " ++ cl (map str (d :: text))) in *. destruct (split_piece _ _ Hc "" _ Hn) as (m & Hm & ->).
    destruct m as [|m]; [lia|]. cbn [re_split_from append] in *.
    assert (Hd : exists a s, cl (map str (d :: text)) = String a s /\ is_space a = false).
    { destruct (str_numch d) as [Hd (a & r & E)]. rewrite E in Hd. cbn in Hd. apply andb_true_iff in Hd. cbn [map]. rewrite E.
      destruct text as [|e text]; [exists a, r; split; [reflexivity|apply numch_space, Hd]|].
      eexists a, _. split; [reflexivity|apply numch_space, Hd]. }
    destruct Hd as (a & s & Ed & Ha). rewrite Ed. rewrite comma_some by exact Ha. rewrite <- Ed. rewrite IH; [reflexivity|discriminate|].
    cbn [String.length] in Hm. lia.
Qed.
Lemma chr_int_str c : chr_int (str c) = chr c.
Proof.
  unfold chr_int. rewrite strip_id; [rewrite str_int10; reflexivity| |].
  - destruct (str_numch c) as [_ (a & r & ->)]. discriminate.
  - rewrite all_all_chars. eapply all_chars_imp; [|apply str_numch]. intros a Ha. rewrite (numch_space a Ha). reflexivity.
Qed.
Lemma chars_read text : chars_of (cl (char_atoms text)) = if text_ok text then Some text else None.
Proof.
  unfold chars_of, remove. rewrite remove_chars by lia. unfold re_split. destruct text as [|c text]; [reflexivity|].
  rewrite split_chars; [|discriminate|lia]. unfold text_ok. cbn [negb andb]. rewrite map_map. erewrite map_ext by apply chr_int_str.
  generalize (c :: text). clear. intros l. induction l as [|c l IH]; [reflexivity|]. cbn [map forallb]. unfold chr at 1.
  destruct ((0 <=? c) && (c <? 1114112))%Z; cbn [all_some andb]; [|reflexivity]. rewrite IH. destruct (forallb _ l); reflexivity.
Qed.

(** ** What the printed types contain *)
Lemma string_print b text : print b (string_tree text) = "sc::string<" ++ cl (char_atoms text) ++ ">".
Proof.
  unfold string_tree. cbn [print]. rewrite map_map. cbn [print]. fold (char_atoms text). rewrite close_pad, pad_none; [rewrite !sapp_assoc; reflexivity|].
  rewrite !count_app. rewrite count_cl; [reflexivity|discriminate|discriminate|]. apply Forall_forall. intros s Hs. apply in_map_iff in Hs. destruct Hs as (c & <- & _).
  rewrite count_app, str_count; reflexivity.
Qed.
Lemma chars_count c text : numch c = false -> c <> ","%char -> c <> " "%char -> count c "(char)" = 0 -> count c (cl (char_atoms text)) = 0.
Proof.
  intros H1 H2 H3 H4. apply count_cl; auto. apply Forall_forall. intros s Hs. apply in_map_iff in Hs. destruct Hs as (z & <- & _). rewrite count_app, str_count, H4; auto.
Qed.
Lemma chars_dots text : all_chars dot (cl (char_atoms text)) = true.
Proof. apply all_cl; try reflexivity. apply Forall_forall. intros s Hs. apply in_map_iff in Hs. destruct Hs as (z & <- & _). rewrite all_chars_app, str_dots. reflexivity. Qed.
Lemma string_allt (N A : string -> Prop) text : N "sc::string" -> (forall c, A ("(char)" ++ str c)) -> allt N A (string_tree text).
Proof. intros HN HA. cbn [string_tree allt]. split; auto. apply fold_and, Forall_map, Forall_forall. intros c _. apply HA. Qed.
Lemma tag_allt (N A : string -> Prop) t : N "sc::string" -> N "sc::tag" -> (forall c, A ("(char)" ++ str c)) -> allt N A (tag_tree t).
Proof. intros H1 H2 H3. unfold tag_tree. cbn [allt map fold_right]. repeat split; auto; apply (string_allt N A); auto. Qed.
Lemma named_allt (N A : string -> Prop) t : N "sc::string" -> N "sc::named_arg" -> (forall c, A ("(char)" ++ str c)) -> (forall c, A (str c)) -> allt N A (named_tree t).
Proof. intros H1 H2 H3 H4. unfold named_tree. cbn [allt map fold_right]. repeat split; auto; apply (string_allt N A); auto. Qed.

(** ** The parts of a match *)
Lemma leaves_suffix r : forall s t, leaves r s t -> exists u, s = u ++ t.
Proof.
  induction r as [|p|greedy p|a IHa b IHb|a IHa b IHb|n a IHa|]; intros s t H; cbn [leaves] in H.
  - exists "". auto.
  - destruct H as (a & _ & ->). exists (String a ""). reflexivity.
  - destruct H as (u & _ & ->). eauto.
  - destruct H as (m & H1 & H2). apply IHa in H1. apply IHb in H2. destruct H1 as (u & ->), H2 as (v & ->). exists (u ++ v). rewrite sapp_assoc. reflexivity.
  - destruct H; auto.
  - auto.
  - destruct H as [-> _]. exists "". reflexivity.
Qed.
Lemma leaves_seqs r q l s t : leaves (seqs (r :: q :: l)) s t -> exists m, leaves r s m /\ leaves (seqs (q :: l)) m t.
Proof. auto. Qed.
Lemma m_seqs {R} r q l s g (k : string -> groups -> option R) : mtch (seqs (r :: q :: l)) s g k = mtch r s g (fun t h => mtch (seqs (q :: l)) t h k).
Proof. reflexivity. Qed.
Ltac parts H :=
  lazymatch type of H with
  | leaves (seqs (_ :: _ :: _)) _ _ => let m := fresh "m" in let H1 := fresh "L" in apply leaves_seqs in H; destruct H as (m & H1 & H);
      parts H1; parts H
  | leaves (seqs [lit _]) _ _ => apply leaves_lit in H
  | leaves (lit _) _ _ => apply leaves_lit in H
  | leaves _ _ _ => let u := fresh "u" in apply leaves_suffix in H; destruct H as (u & H)
  end.

Ltac norm := repeat (progress cbn [append] || rewrite !sapp_assoc).

Ltac counting c Ew :=
  pose proof Ew as Ec; apply (f_equal (count c)) in Ec; cbn [append] in Ec, Ew; injection Ew as <- _;
  repeat (progress cbn [count append Ascii.eqb Bool.eqb] in Ec || rewrite !count_app in Ec); rewrite ?str_count in Ec by reflexivity; try lia.
Lemma named_read b n : named_from (print b (named_tree n)) = if text_ok (sn_name n) then Some n else None.
Proof.
  set (A := cl (char_atoms (sn_name n))).
  assert (HA : count ">" A = 0) by (apply chars_count; try reflexivity; discriminate).
  assert (E : print b (named_tree n) = "sc::named_arg<sc::string<" ++ A ++ ">, " ++ str (sn_begin n) ++ ", " ++ str (sn_end n) ++ ">").
  { unfold named_tree. cbn [print map comma_list]. rewrite string_print. fold A. rewrite close_pad.
    replace (pad b _) with "".
    - norm. reflexivity.
    - symmetry. unfold pad. replace (ends_angle _) with false; [rewrite andb_false_r; reflexivity|]. symmetry.
      destruct (str_numch (sn_end n)) as [Hc (c & r & Hne)]. clear -Hc Hne. set (s := str (sn_end n)) in *. clearbody s.
      assert (K : forall x, ends_angle (x ++ s) = ends_angle s).
      { intros x. induction x as [|y x IH]; [reflexivity|]. cbn [append ends_angle]. rewrite IH. destruct (x ++ s) eqn:E; auto. destruct x; [cbn in E; congruence|discriminate]. }
      assert (K2 : ends_angle s = false). { destruct (ends_angle s) eqn:E; auto. apply ends_angle_count in E. rewrite (count_all ">" numch s) in E; [lia|reflexivity|exact Hc]. }
      eapply eq_trans; [|exact K2]. rewrite <- (K ("sc::named_arg<" ++ (("sc::string<" ++ A ++ ">") ++ ", " ++ str (sn_begin n) ++ ", "))). f_equal. norm. reflexivity. }
  rewrite E. clear E. unfold named_from, re_match.
  match goal with |- context [mtch named_re ?s ?g ?k] => assert (M : mtch named_re s g k = Some [(3, str (sn_end n)); (2, str (sn_begin n)); (1, A)]) end.
  { unfold named_re. rewrite m_seqs, m_lit, m_seqs. apply m_any; [apply chars_dots| |].
    + rewrite m_seqs, m_lit, m_seqs. apply m_number; [reflexivity|]. rewrite m_seqs, m_lit, m_seqs. apply m_number; [reflexivity|]. apply (m_lit ">" "").
    + intros c v w h Ew. apply mtch_none. intros t H. parts H. subst. counting ">"%char Ew. }
  rewrite M. cbn [group find fst snd Nat.eqb]. rewrite !str_int10. unfold A. rewrite chars_read. destruct (text_ok (sn_name n)); [|reflexivity]. destruct n; reflexivity.
Qed.
Lemma blank_space z : blank z <-> all_chars is_space z = true.
Proof. induction z as [|a z IH]; cbn; [tauto|]. rewrite andb_true_iff, IH. tauto. Qed.
Lemma space_count c z : is_space c = false -> blank z -> count c z = 0.
Proof. intros H Hz. apply (count_all c is_space); auto. apply blank_space, Hz. Qed.
Lemma letter_count c z : is_letter c = false -> suffix_ok z -> count c z = 0.
Proof. intros H Hz. apply (count_all c is_letter); auto. Qed.
Lemma m_blanks1 {R} z t g (k : string -> groups -> option R) x : blank z -> k (">" ++ t) g = Some x -> mtch blanks (z ++ ">" ++ t) g k = Some x.
Proof. intros Hz Hk. apply m_blanks; [apply blank_space, Hz|reflexivity|exact Hk]. Qed.
Lemma tag_read b n : tag_from (print b (tag_tree n)) = if text_ok (st_name n) && text_ok (st_value n) then Some n else None.
Proof.
  set (A := cl (char_atoms (st_name n))). set (B := cl (char_atoms (st_value n))).
  assert (HA : count ">" A = 0) by (apply chars_count; try reflexivity; discriminate).
  assert (HB : count ">" B = 0) by (apply chars_count; try reflexivity; discriminate).
  assert (E : exists z, blank z /\ print b (tag_tree n) = "sc::tag<sc::string<" ++ A ++ ">, sc::string<" ++ B ++ ">" ++ z ++ ">").
  { unfold tag_tree. cbn [print map comma_list]. rewrite !string_print. fold A. fold B. rewrite close_pad. eexists. split; [apply pad_blank|]. norm. reflexivity. }
  destruct E as (z & Hz & E). rewrite E. clear E. unfold tag_from, re_match. assert (HZ := space_count ">" z eq_refl Hz).
  match goal with |- context [mtch tag_re ?s ?g ?k] => assert (M : mtch tag_re s g k = Some [(2, B); (1, A)]) end.
  { unfold tag_re. rewrite m_seqs, m_lit, m_seqs. apply m_any; [apply chars_dots| |].
    - rewrite m_seqs, m_lit, m_seqs. apply m_any; [apply chars_dots| |].
      + rewrite m_seqs, m_lit, m_seqs. apply m_blanks1; [exact Hz|]. apply (m_lit ">" "").
      + intros c v w h Ew. apply mtch_none. intros t H. parts H. subst. counting ">"%char Ew.
    - intros c v w h Ew. apply mtch_none. intros t H. parts H. subst. counting ">"%char Ew. }
  rewrite M. cbn [group find fst snd Nat.eqb]. unfold A, B. rewrite !chars_read. destruct (text_ok (st_name n)), (text_ok (st_value n)); try reflexivity. destruct n; reflexivity.
Qed.

(** ** Messages *)
Ltac mk q := constructor; [exists q; split; reflexivity|reflexivity|reflexivity|discriminate].
Lemma mark_tags : mark "tags<". Proof. mk "tags". Qed.
Lemma mark_named : mark "named_args<". Proof. mk "named_args". Qed.
Lemma mark_string : mark "string<". Proof. mk "string". Qed.
Lemma mark_markers p : In p markers -> mark p.
Proof. intros [<-|[<-|[<-|[<-|[]]]]]; [mk "unsigned int catalog"|mk "unsigned long catalog"|mk "unsigned int module"|mk "unsigned long module"]. Qed.
Ltac absent := let H := fresh in intros H; apply occurs_b in H; vm_compute in H; discriminate H.
Lemma letter_next (z r : string) : suffix_ok z -> match z ++ String "," r with String a _ => is_digit a = false | _ => True end.
Proof.
  destruct z as [|a z]; cbn; auto. intros H. apply andb_true_iff in H. destruct H as [H _]. revert H. clear. destruct a as [[] [] [] [] [] [] [] []]; cbv; intros; congruence.
Qed.
Lemma message_match A1 i suf A4 A5 A6 z1 z2 e : all_chars dot A1 = true -> suffix_ok suf -> all_chars dot A4 = true -> count ">" A4 = 0 -> all_chars dot A5 = true -> all_chars dot A6 = true ->
  ~ occurs "tags<" A5 -> ~ occurs "tags<" A6 -> ~ occurs "named_args<" A6 -> blank z1 -> blank z2 -> blank e ->
  re_match message_re ("sc::message<sc::undefined<sc::args<" ++ A1 ++ ">, " ++ str i ++ suf ++ ", sc::string<" ++ A4 ++ ">, sc::tags<" ++ A5 ++ ">, sc::named_args<" ++ A6 ++
    ">" ++ z1 ++ ">" ++ z2 ++ ">" ++ e) = Some [(6, A6); (5, A5); (4, A4); (3, suf); (2, str i); (1, A1)].
Proof.
  intros H1 Hs H4 H4' H5 H6 Ht5 Ht6 Hn6 Hz1 Hz2 He. unfold re_match, message_re.
  assert (C1 := space_count ">" z1 eq_refl Hz1). assert (C2 := space_count ">" z2 eq_refl Hz2). assert (C3 := space_count ">" e eq_refl He). assert (C4 := letter_count ">" suf eq_refl Hs).
  assert (D1 := space_count "<" z1 eq_refl Hz1). assert (D2 := space_count "<" z2 eq_refl Hz2). assert (D3 := space_count "<" e eq_refl He).
  assert (F6 : ~ occurs "named_args<" (A6 ++ ">" ++ z1 ++ ">" ++ z2 ++ ">" ++ e)).
  { intros H. apply (occurs_tail _ _ _ mark_named) in H; auto. rewrite !count_app, D1, D2, D3. reflexivity. }
  assert (F5 : ~ occurs "tags<" (A5 ++ ">, sc::named_args<" ++ A6 ++ ">" ++ z1 ++ ">" ++ z2 ++ ">" ++ e)).
  { intros H. change (A5 ++ ">, sc::named_args<" ++ A6 ++ ">" ++ z1 ++ ">" ++ z2 ++ ">" ++ e) with (A5 ++ String ">" (", sc::named_args<" ++ A6 ++ ">" ++ z1 ++ ">" ++ z2 ++ ">" ++ e)) in H.
    apply occurs_at in H; [|reflexivity]. destruct H as [H|H]; [auto|].
    change (", sc::named_args<" ++ A6 ++ ">" ++ z1 ++ ">" ++ z2 ++ ">" ++ e) with (", sc::named_args" ++ String "<" (A6 ++ ">" ++ z1 ++ ">" ++ z2 ++ ">" ++ e)) in H.
    apply (occurs_cut _ _ _ mark_tags) in H. destruct H as [H|H]; [revert H; absent|]. apply (occurs_tail _ _ _ mark_tags) in H; auto. rewrite !count_app, D1, D2, D3. reflexivity. }
  rewrite m_seqs, m_lit, m_seqs. apply m_any; auto.
  - rewrite m_seqs, m_lit, m_seqs. apply m_number; [apply letter_next, Hs|]. rewrite m_seqs. apply m_all; [exact Hs|reflexivity|]. rewrite m_seqs, m_lit, m_seqs. apply m_any; auto.
    + rewrite m_seqs, m_lit, m_seqs. apply m_any; auto.
      * rewrite m_seqs, m_lit, m_seqs. apply m_any; auto.
        -- rewrite m_seqs, m_lit, m_seqs. apply m_blanks1; [exact Hz1|]. rewrite m_seqs, m_lit, m_seqs. apply m_blanks1; [exact Hz2|]. cbn [seqs]. rewrite m_lit. reflexivity.
        -- intros c v w h Ew. apply mtch_none. intros t H. parts H. subst. counting ">"%char Ew.
      * intros c v w h Ew. apply mtch_none. intros t H. parts H. subst.
        match type of Ew with context [_ ++ ">, sc::named_args<" ++ ?r] =>
          destruct (last_occ "named_args<" ">, sc::" (A6 ++ ">" ++ z1 ++ ">" ++ z2 ++ ">" ++ e) (String c v ++ ">, sc::") r mark_named F6 ltac:(rewrite sapp_assoc; exact Ew)) as (z & Ez) end.
        clear Ew. counting ">"%char Ez.
    + intros c v w h Ew. apply mtch_none. intros t H. parts H. subst.
      match type of Ew with context [_ ++ ">, sc::tags<" ++ ?r] =>
        destruct (last_occ "tags<" ">, sc::" _ (String c v ++ ">, sc::") r mark_tags F5 ltac:(rewrite sapp_assoc; exact Ew)) as (z & Ez) end.
      clear Ew. counting ">"%char Ez.
  - intros c v w h Ew. apply mtch_none. intros t H. parts H. subst.
    match type of Ew with _ = _ ++ _ ++ ?a ++ ?b ++ _ ++ ?d ++ _ ++ ?r =>
      pose proof (last_occ "tags<" (">, " ++ str i ++ suf ++ ", sc::string<" ++ A4 ++ ">, sc::") (A5 ++ ">, sc::named_args<" ++ A6 ++ ">" ++ z1 ++ ">" ++ z2 ++ ">" ++ e)
        (String c v ++ ">, " ++ a ++ b ++ ", sc::string<" ++ d ++ ">, sc::") r mark_tags F5) as K end.
    destruct K as (z & Ez). { revert Ew. norm. auto. }
    clear Ew. counting ">"%char Ez.
Qed.

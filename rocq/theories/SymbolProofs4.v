(** Proofs about the symbols read: messages, modules and files. *)
From Coq Require Import String Ascii Bool Arith List ZArith Lia.
From Verif Require Import CatalogModel CatalogSpec CatalogProofs3 GenModel GenSpec GenProofs GenProofs2 SymbolModel SymbolSpec SymbolProofs SymbolProofs2 SymbolProofs3.
Import ListNotations.
Local Open Scope string_scope.

Lemma all_some_map {A B} (f : A -> option B) (g : A -> B) (ok : A -> bool) l : (forall a, f a = if ok a then Some (g a) else None) -> all_some (map f l) = if forallb ok l then Some (map g l) else None.
Proof.
  intros H. induction l as [|a l IH]; [reflexivity|]. cbn [map forallb all_some]. rewrite H. destruct (ok a); cbn [andb]; [|reflexivity]. rewrite IH. destruct (forallb ok l); reflexivity.
Qed.
Lemma print_trimmed b n l a r : n = String a r -> is_space a = false -> trimmed (print b (Node n l)).
Proof.
  intros -> Ha. cbn [print]. rewrite close_pad. repeat split.
  - discriminate.
  - intros c q E. cbn in E. injection E as <- _. exact Ha.
  - intros c q E. rewrite <- sapp_assoc in E. apply app_len_eq in E; [|reflexivity]. destruct E as [_ E]. injection E as <-. reflexivity.
Qed.
Lemma nested_atom c : nested (str c).
Proof. apply plain_nested; apply str_count; reflexivity. Qed.
Lemma nested_char_atom c : nested ("(char)" ++ str c).
Proof. apply plain_nested; rewrite count_app, str_count; reflexivity. Qed.
Ltac plains := repeat split; reflexivity.
Lemma tag_piece b t : nested (print b (tag_tree t)) /\ trimmed (print b (tag_tree t)).
Proof.
  split; [|eapply print_trimmed; reflexivity]. apply nested_print, tag_allt; [plains|plains|apply nested_char_atom].
Qed.
Lemma named_piece b t : nested (print b (named_tree t)) /\ trimmed (print b (named_tree t)).
Proof.
  split; [|eapply print_trimmed; reflexivity]. apply nested_print, named_allt; [plains|plains|apply nested_char_atom|apply nested_atom].
Qed.
Lemma free_atom p c : mark p -> ~ occurs p (str c).
Proof. intros H. apply occurs_no_angle; auto. apply str_count. reflexivity. Qed.
Lemma free_char_atom p c : mark p -> ~ occurs p ("(char)" ++ str c).
Proof. intros H. apply occurs_no_angle; auto. rewrite count_app, str_count; reflexivity. Qed.
Lemma dots_char_atom c : all_chars dot ("(char)" ++ str c) = true.
Proof. rewrite all_chars_app, str_dots. reflexivity. Qed.
Lemma dots_pad b s : all_chars dot (pad b s) = true.
Proof. destruct (pad_cases b s) as [->| ->]; reflexivity. Qed.
Lemma angle_pad b s : count "<" (pad b s) = 0.
Proof. destruct (pad_cases b s) as [->| ->]; reflexivity. Qed.
Lemma Forall_all {X} (P : X -> Prop) l : (forall x, P x) -> Forall P l.
Proof. intros H. apply Forall_forall. auto. Qed.

Lemma message_print b m e : exists e1 e5 e6 z1 z2, (forall x, In x [e1; e5; e6; z1; z2] -> x = "" \/ x = " ") /\
  (sm_args m = [] -> e1 = "") /\ (sm_tags m = [] -> e5 = "") /\ (sm_named m = [] -> e6 = "") /\
  print b (message_tree m) ++ e = "sc::message<sc::undefined<sc::args<" ++ (cl (sm_args m) ++ e1) ++ ">, " ++ str (sm_id m) ++ sm_suffix m ++ ", sc::string<" ++
    cl (char_atoms (sm_text m)) ++ ">, sc::tags<" ++ (cl (map (fun t => print b (tag_tree t)) (sm_tags m)) ++ e5) ++ ">, sc::named_args<" ++
    (cl (map (fun t => print b (named_tree t)) (sm_named m)) ++ e6) ++ ">" ++ z1 ++ ">" ++ z2 ++ ">" ++ e.
Proof.
  unfold message_tree. cbn [print map]. rewrite string_print, !map_map. cbn [print]. rewrite map_id. rewrite !close_pad. cbn [comma_list].
  eexists (pad b ("sc::args<" ++ cl (sm_args m))), (pad b ("sc::tags<" ++ cl (map (fun t => print b (tag_tree t)) (sm_tags m)))),
    (pad b ("sc::named_args<" ++ cl (map (fun t => print b (named_tree t)) (sm_named m)))), _, _.
  split; [|repeat split].
  - intros x [<-|[<-|[<-|[<-|[<-|[]]]]]]; [apply pad_cases|apply pad_cases|apply pad_cases|apply (pad_cases b)|apply (pad_cases b)].
  - intros ->. apply pad_none. reflexivity.
  - intros ->. apply pad_none. reflexivity.
  - intros ->. apply pad_none. reflexivity.
  - norm. reflexivity.
Qed.
Lemma message_read b m e : item_ok (IMessage m) -> blank e -> message_from (print b (message_tree m) ++ e) = if readable (IMessage m) then Some m else None.
Proof.
  intros [Ha Hs] He. destruct (message_print b m e) as (e1 & e5 & e6 & z1 & z2 & Hb & N1 & N5 & N6 & E). rewrite E. clear E.
  assert (BB : forall x, In x [e1; e5; e6; z1; z2] -> blank x /\ all_chars dot x = true /\ count "<" x = 0) by (intros x Hx; destruct (Hb x Hx) as [->| ->]; cbn; auto).
  destruct (BB e1) as (B1 & D1 & C1); [cbn; auto|]. destruct (BB e5) as (B5 & D5 & C5); [cbn; auto|]. destruct (BB e6) as (B6 & D6 & C6); [cbn; auto|].
  destruct (BB z1) as (Z1 & _); [cbn; auto|]. destruct (BB z2) as (Z2 & _); [cbn; auto 6|]. clear Hb BB.
  set (A1 := cl (sm_args m) ++ e1). set (A5 := cl (map (fun t => print b (tag_tree t)) (sm_tags m)) ++ e5). set (A6 := cl (map (fun t => print b (named_tree t)) (sm_named m)) ++ e6).
  assert (S1 : split_args A1 = sm_args m).
  { apply split_trail; auto. eapply Forall_impl; [|exact Ha]. intros a (X1 & X2 & _). auto. }
  assert (S5 : split_args A5 = map (fun t => print b (tag_tree t)) (sm_tags m)).
  { apply split_trail; auto; [intros E; apply N5; destruct (sm_tags m); [auto|discriminate]|]. apply Forall_map, Forall_all. intros t. apply tag_piece. }
  assert (S6 : split_args A6 = map (fun t => print b (named_tree t)) (sm_named m)).
  { apply split_trail; auto; [intros E; apply N6; destruct (sm_named m); [auto|discriminate]|]. apply Forall_map, Forall_all. intros t. apply named_piece. }
  unfold message_from. rewrite message_match; auto.
  - cbn [group find fst snd Nat.eqb]. rewrite chars_read, str_int10.
    rewrite S1, S5, S6.
    rewrite !map_map. rewrite (all_some_map _ (fun x => x) _ (sm_named m) (named_read b)), (all_some_map _ (fun x => x) _ (sm_tags m) (tag_read b)), !map_id.
    unfold readable. destruct (text_ok (sm_text m)); cbn [andb]; [|reflexivity].
    destruct (forallb _ (sm_named m)), (forallb _ (sm_tags m)); cbn [andb]; try reflexivity. destruct m; reflexivity.
  - unfold A1. rewrite all_chars_app, D1, andb_true_r. apply all_cl; try reflexivity. eapply Forall_impl; [|exact Ha]. intros a (_ & _ & X & _). apply one_line_dots, X.
  - apply chars_dots.
  - apply chars_count; try reflexivity; discriminate.
  - unfold A5. rewrite all_chars_app, D5, andb_true_r. apply all_cl; try reflexivity. apply Forall_map, Forall_all. intros t. apply dots_print, tag_allt; try reflexivity. apply dots_char_atom.
  - unfold A6. rewrite all_chars_app, D6, andb_true_r. apply all_cl; try reflexivity. apply Forall_map, Forall_all. intros t. apply dots_print, named_allt; try reflexivity; [apply dots_char_atom|apply str_dots].
  - unfold A5. intros H. apply (occurs_tail _ _ _ mark_tags) in H; auto. revert H. apply free_cl; [apply mark_tags|]. apply Forall_map, Forall_all. intros t.
    apply free_print; [apply mark_tags|]. apply tag_allt; [absent|absent|]. intros c. apply free_char_atom, mark_tags.
  - unfold A6. intros H. apply (occurs_tail _ _ _ mark_tags) in H; auto. revert H. apply free_cl; [apply mark_tags|]. apply Forall_map, Forall_all. intros t.
    apply free_print; [apply mark_tags|]. apply named_allt; [absent|absent| |]; intros c; [apply free_char_atom, mark_tags|apply free_atom, mark_tags].
  - unfold A6. intros H. apply (occurs_tail _ _ _ mark_named) in H; auto. revert H. apply free_cl; [apply mark_named|]. apply Forall_map, Forall_all. intros t.
    apply free_print; [apply mark_named|]. apply named_allt; [absent|absent| |]; intros c; [apply free_char_atom, mark_named|apply free_atom, mark_named].
Qed.

(** ** Modules *)
Lemma module_read b m e : suffix_ok (so_suffix m) -> blank e -> module_from (print b (module_tree m) ++ e) = if text_ok (so_text m) then Some m else None.
Proof.
  intros Hs He. set (A4 := cl (char_atoms (so_text m))).
  assert (E : exists z1 z2, blank z1 /\ blank z2 /\ print b (module_tree m) ++ e = "sc::module_string<sc::undefined<" ++ "void" ++ ", " ++ str (so_id m) ++ so_suffix m ++ ", sc::string<" ++
    A4 ++ ">" ++ z1 ++ ">" ++ z2 ++ ">" ++ e).
  { unfold module_tree. cbn [print map comma_list]. rewrite string_print. fold A4. rewrite !close_pad. eexists _, _. split; [apply (pad_blank b)|]. split; [apply (pad_blank b)|]. norm. reflexivity. }
  destruct E as (z1 & z2 & Hz1 & Hz2 & ->). unfold module_from, re_match. set (i := so_id m). set (suf := so_suffix m) in *.
  assert (C1 := space_count ">" z1 eq_refl Hz1). assert (C2 := space_count ">" z2 eq_refl Hz2). assert (C3 := space_count ">" e eq_refl He). assert (C4 := letter_count "," suf eq_refl Hs).
  assert (D1 := space_count "<" z1 eq_refl Hz1). assert (D2 := space_count "<" z2 eq_refl Hz2). assert (D3 := space_count "<" e eq_refl He).
  assert (CA : count ">" A4 = 0) by (apply chars_count; try reflexivity; discriminate). assert (DA : count "<" A4 = 0) by (apply chars_count; try reflexivity; discriminate).
  assert (F : ~ occurs "string<" (A4 ++ ">" ++ z1 ++ ">" ++ z2 ++ ">" ++ e)) by (apply occurs_no_angle; [apply mark_string|]; rewrite !count_app, DA, D1, D2, D3; reflexivity).
  match goal with |- context [mtch module_re ?s ?g ?k] => assert (M : mtch module_re s g k = Some [(4, A4); (3, suf); (2, str i); (1, "void")]) end.
  { unfold module_re. rewrite m_seqs, m_lit, m_seqs. apply m_any; [reflexivity| |].
    - rewrite m_seqs, m_lit, m_seqs. apply m_number; [apply letter_next, Hs|]. rewrite m_seqs. apply m_all; [exact Hs|reflexivity|]. rewrite m_seqs, m_lit, m_seqs. apply m_any; [apply chars_dots| |].
      + rewrite m_seqs, m_lit, m_seqs. apply m_blanks1; [exact Hz1|]. rewrite m_seqs, m_lit, m_seqs. apply m_blanks1; [exact Hz2|]. cbn [seqs]. rewrite m_lit. reflexivity.
      + intros c v w h Ew. apply mtch_none. intros t H. parts H. subst. counting ">"%char Ew.
    - intros c v w h Ew. apply mtch_none. intros t H. parts H. subst.
      match type of Ew with _ = _ ++ _ ++ ?a ++ ?d ++ _ ++ ?r =>
        pose proof (last_occ "string<" (", " ++ str i ++ suf ++ ", sc::") (A4 ++ ">" ++ z1 ++ ">" ++ z2 ++ ">" ++ e) (String c v ++ ", " ++ a ++ d ++ ", sc::") r mark_string F) as K end.
      destruct K as (z & Ez). { revert Ew. norm. auto. }
      clear Ew. counting ","%char Ez. }
  rewrite M. cbn [group find fst snd Nat.eqb]. unfold A4. rewrite chars_read, str_int10. destruct (text_ok (so_text m)); [|reflexivity]. destruct m; reflexivity.
Qed.

(** ** Lines *)
Lemma unmarked_tail x y : count "<" y = 0 -> unmarked x -> unmarked (x ++ y).
Proof. intros Hy Hx p Hp H. apply (occurs_tail _ _ _ (mark_markers p Hp)) in H; auto. apply (Hx p Hp H). Qed.
Definition marker ty kind : string := "unsigned " ++ ty ++ " " ++ kind ++ "<".
Lemma marker_in ty kind : In ty ["int"; "long"] -> In kind ["catalog"; "module"] -> In (marker ty kind) markers.
Proof. intros [<-|[<-|[]]] [<-|[<-|[]]]; cbn; auto 6. Qed.
Lemma leaves_marker s t : leaves (seqs (List.tl [any; lit "unsigned "; Alt (lit "int") (lit "long"); lit " "; Grp 1 (Alt (lit "catalog") (lit "module"));
        lit "<"; Grp 2 (Seq (One dot) (Many false dot)); lit ">()"; Eos])) s t -> exists p r, In p markers /\ s = p ++ r.
Proof.
  cbn [List.tl]. intros H. apply leaves_seqs in H. destruct H as (m1 & H1 & H). apply leaves_lit in H1. apply leaves_seqs in H. destruct H as (m2 & H2 & H). cbn [leaves] in H2.
  apply leaves_seqs in H. destruct H as (m3 & H3 & H). apply leaves_lit in H3. apply leaves_seqs in H. destruct H as (m4 & H4 & H). cbn [leaves] in H4.
  apply leaves_seqs in H. destruct H as (m5 & H5 & H). apply leaves_lit in H5.
  assert (T : exists ty, In ty ["int"; "long"] /\ m1 = ty ++ m2) by (destruct H2 as [H2|H2]; apply leaves_lit in H2; [exists "int"|exists "long"]; cbn; auto).
  assert (K : exists kd, In kd ["catalog"; "module"] /\ m3 = kd ++ m4) by (destruct H4 as [H4|H4]; apply leaves_lit in H4; [exists "catalog"|exists "module"]; cbn; auto).
  destruct T as (ty & T & ET), K as (kd & K & EK). exists (marker ty kd), m5. split; [apply marker_in; auto|]. subst. unfold marker. norm. reflexivity.
Qed.
Lemma line_none s : unmarked s -> re_match line_re s = None.
Proof.
  intros Hu. apply mtch_none. intros t H. apply leaves_seqs in H. destruct H as (m & H1 & H). apply leaves_suffix in H1. destruct H1 as (u & ->).
  destruct (leaves_marker m t H) as (p & r & Hp & ->). apply (Hu p Hp). exists u, r. reflexivity.
Qed.
Lemma line_match pre ty kind X : all_chars dot pre = true -> In ty ["int"; "long"] -> In kind ["catalog"; "module"] -> all_chars dot X = true -> X <> "" -> unmarked X ->
  re_match line_re (pre ++ "unsigned " ++ ty ++ " " ++ kind ++ "<" ++ X ++ ">()") = Some [(2, X); (1, kind)].
Proof.
  intros Hp Hty Hk Hd Hne Hu. unfold re_match, line_re. rewrite m_seqs. unfold any. cbn [mtch]. apply many_greedy; auto.
  - rewrite m_seqs, m_lit, m_seqs.
    assert (EA : forall g (k : string -> groups -> option groups) r x, k r g = Some x -> mtch (Alt (lit "int") (lit "long")) (ty ++ r) g k = Some x).
    { intros g k r x Hx. cbn [mtch]. destruct Hty as [<-|[<-|[]]]; rewrite m_lit, Hx; [reflexivity|]. rewrite mtch_none; [reflexivity|]. intros t H. apply leaves_lit in H. discriminate. }
    apply EA. rewrite m_seqs, m_lit, m_seqs. apply m_one_of.
    { destruct Hk as [<-|[<-|[]]]; [auto|]. right. split; auto. intros r. discriminate. }
    rewrite m_seqs, m_lit, m_seqs. cbn [mtch]. destruct X as [|a X]; [congruence|]. cbn [append]. cbn [all_chars] in Hd. apply andb_true_iff in Hd. destruct Hd as [Ha Hd]. rewrite Ha.
    apply many_lazy; auto.
    + change (String a (X ++ ">()")) with (String a X ++ ">()"). rewrite between_app. reflexivity.
    + intros v c w ->. apply mtch_none. intros t H. apply leaves_seqs in H. destruct H as (m & H1 & H2). apply leaves_lit in H1. cbn [leaves seqs] in H2. destruct H2 as [_ [->| ->]].
      * apply (f_equal String.length) in H1. rewrite slength_app in H1. cbn in H1. lia.
      * cbn in H1. injection H1 as -> H1. destruct w as [|d w]; cbn in H1; [discriminate|]. apply (f_equal String.length) in H1. cbn in H1. rewrite slength_app in H1. cbn in H1. lia.
  - intros c v w Ew _. apply mtch_none. intros t H. destruct (leaves_marker _ _ H) as (p & r & Hpm & ->). clear H.
    assert (Eu : exists y, marker ty kind = String "u" (y ++ "<") /\ (forall q, In q markers -> ~ occurs q (y ++ "<"))).
    { unfold marker. destruct Hty as [<-|[<-|[]]], Hk as [<-|[<-|[]]];
        [exists "nsigned int catalog"|exists "nsigned int module"|exists "nsigned long catalog"|exists "nsigned long module"]; (split; [reflexivity|]); intros q [<-|[<-|[<-|[<-|[]]]]]; absent. }
    destruct Eu as (y & Ey & Hy). assert (Ew' : marker ty kind ++ X ++ ">()" = String c v ++ p ++ r) by (rewrite <- Ew; unfold marker; norm; reflexivity).
    rewrite Ey in Ew'. cbn in Ew'. injection Ew' as _ Ew'. rewrite sapp_assoc in Ew'. cbn in Ew'.
    assert (Ho : occurs p (y ++ String "<" (X ++ ">()"))) by (exists v, r; exact Ew'). apply (occurs_cut _ _ _ (mark_markers p Hpm)) in Ho.
    destruct Ho as [Ho|Ho]; [apply (Hy p Hpm Ho)|]. revert Ho. apply unmarked_tail; auto.
Qed.
Lemma lstrip_app pre a r : is_space a = false -> exists pre' x, pre = x ++ pre' /\ lstrip (pre ++ String a r) = pre' ++ String a r.
Proof.
  intros Ha. induction pre as [|c pre IH]; cbn [append lstrip].
  - exists "", "". rewrite Ha. auto.
  - destruct (is_space c) eqn:Ec.
    + destruct IH as (p & x & -> & ->). exists p, (String c x). auto.
    + exists (String c pre), "". auto.
Qed.
Lemma strip_infix l : exists x y, l = x ++ strip l ++ y.
Proof.
  assert (L : forall s, exists x, s = x ++ lstrip s).
  { induction s as [|a s (x & IH)]; [exists ""; auto|]. cbn. destruct (is_space a); [exists (String a x); cbn; congruence|exists ""; reflexivity]. }
  assert (R : forall s, exists y, s = rstrip s ++ y).
  { induction s as [|a s (y & IH)]; [exists ""; auto|]. cbn. destruct (rstrip s) eqn:E.
    - destruct (is_space a); [exists (String a s); reflexivity|exists s; reflexivity].
    - exists y. cbn. cbn in IH. congruence. }
  destruct (L l) as (x & Ex). destruct (R (lstrip l)) as (y & Ey). exists x, y. unfold strip. rewrite <- Ey. exact Ex.
Qed.
Lemma unmarked_strip l : unmarked l -> unmarked (strip l).
Proof. intros H p Hp Ho. apply (H p Hp). destruct (strip_infix l) as (x & y & E). rewrite E. apply occurs_app_l, occurs_app_r, Ho. Qed.

Definition kind_of (i : item) : string := match i with IMessage _ => "catalog" | IModule _ => "module" end.
Definition inner_of (i : item) : tree := match i with IMessage m => message_tree m | IModule m => module_tree m end.
Lemma item_print b i : exists e, (e = "" \/ e = " ") /\ print b (item_tree i) = kind_of i ++ "<" ++ (print b (inner_of i) ++ e) ++ ">".
Proof. destruct i; cbn [item_tree kind_of inner_of]; cbn [print map comma_list]; rewrite close_pad; eexists; (split; [apply (pad_cases b)|]); norm; reflexivity. Qed.
Lemma inner_allt (N A : string -> Prop) i : (forall n, In n ["sc::message"; "sc::undefined"; "sc::args"; "sc::string"; "sc::tags"; "sc::tag"; "sc::named_args"; "sc::named_arg"; "sc::module_string"] -> N n) ->
  (forall c, A (str c)) -> (forall c, A ("(char)" ++ str c)) -> A "void" -> (forall c s, suffix_ok s -> A (str c ++ s)) ->
  (forall m, i = IMessage m -> Forall A (sm_args m)) -> item_ok i -> allt N A (inner_of i).
Proof.
  intros HN HA HC HV HS Hargs Hok. destruct i as [m|m]; cbn [inner_of]; unfold message_tree, module_tree; cbn [allt map fold_right].
  - destruct Hok as [_ Hs]. repeat split; try (apply HN; cbn; tauto).
    + apply fold_and, Forall_map. cbn [allt]. exact (Hargs m eq_refl).
    + apply HS, Hs.
    + apply (string_allt N A); auto. apply HN; cbn; tauto.
    + apply fold_and, Forall_map, Forall_all. intros t. apply tag_allt; auto; apply HN; cbn; tauto.
    + apply fold_and, Forall_map, Forall_all. intros t. apply named_allt; auto; apply HN; cbn; tauto.
  - repeat split; try (apply HN; cbn; tauto); auto. apply (string_allt N A); auto. apply HN; cbn; tauto.
Qed.
Lemma item_read b pre ty post i : one_line pre -> In ty ["int"; "long"] -> blank post -> item_ok i ->
  exists g, re_match line_re (strip (pre ++ "unsigned " ++ ty ++ " " ++ print b (item_tree i) ++ "()" ++ post)) = Some g /\ extract g = if readable i then Some i else None.
Proof.
  intros Hpre Hty Hpost Hok. destruct (item_print b i) as (e & He & ->). set (X := print b (inner_of i) ++ e).
  assert (E : exists pre', one_line pre' /\ strip (pre ++ "unsigned " ++ ty ++ " " ++ (kind_of i ++ "<" ++ X ++ ">") ++ "()" ++ post) = pre' ++ "unsigned " ++ ty ++ " " ++ kind_of i ++ "<" ++ X ++ ">()").
  { unfold strip. destruct (lstrip_app pre "u" ("nsigned " ++ ty ++ " " ++ (kind_of i ++ "<" ++ X ++ ">") ++ "()" ++ post) eq_refl) as (pre' & x & Epre & El).
    exists pre'. split.
    - intros H. apply Hpre. rewrite Epre. apply occurs_app_l, H.
    - cbn [append] in El |- *. rewrite El. change (String "u" _) with ("unsigned " ++ ty ++ " " ++ (kind_of i ++ "<" ++ X ++ ">") ++ "()" ++ post) at 1.
      assert (E2 : pre' ++ "unsigned " ++ ty ++ " " ++ (kind_of i ++ "<" ++ X ++ ">") ++ "()" ++ post = ((pre' ++ "unsigned " ++ ty ++ " " ++ kind_of i ++ "<" ++ X ++ ">(") ++ ")") ++ post) by (norm; reflexivity).
      rewrite E2, rstrip_blank by auto. rewrite rstrip_last by reflexivity. norm. reflexivity. }
  destruct E as (pre' & Hpre' & ->).
  assert (He' : all_chars dot e = true /\ count "<" e = 0 /\ blank e) by (destruct He as [->| ->]; cbn; auto). destruct He' as (He1 & He2 & He3).
  eexists. split.
  - apply line_match; auto.
    + apply one_line_dots, Hpre'.
    + destruct i; cbn; auto.
    + unfold X. rewrite all_chars_app, He1, andb_true_r. apply dots_print, inner_allt; auto.
      * intros n Hn. repeat (destruct Hn as [<-|Hn]; [reflexivity|]). destruct Hn.
      * apply str_dots.
      * apply dots_char_atom.
      * intros c s Hs. rewrite all_chars_app, str_dots. eapply all_chars_imp; [apply letter_dot|exact Hs].
      * intros m ->. destruct Hok as [Ha _]. eapply Forall_impl; [|exact Ha]. intros a (_ & _ & H & _). apply one_line_dots, H.
    + unfold X. destruct i; cbn [inner_of]; unfold message_tree, module_tree; cbn [print]; rewrite close_pad; discriminate.
    + unfold X. apply unmarked_tail; auto. intros p Hp. assert (Hm := mark_markers p Hp). apply free_print; auto. apply inner_allt; auto.
      * intros n Hn. repeat (destruct Hn as [<-|Hn]; [destruct Hp as [<-|[<-|[<-|[<-|[]]]]]; absent|]). destruct Hn.
      * intros c. apply free_atom, Hm.
      * intros c. apply free_char_atom, Hm.
      * apply occurs_no_angle; auto.
      * intros c s Hs. apply occurs_no_angle; auto. rewrite count_app, str_count by reflexivity. apply letter_count; auto.
      * intros m ->. destruct Hok as [Ha _]. eapply Forall_impl; [|exact Ha]. intros a (_ & _ & _ & H). apply H, Hp.
  - unfold extract. cbn [group find fst snd Nat.eqb]. unfold X. destruct i as [m|m]; cbn [kind_of inner_of String.eqb Ascii.eqb Bool.eqb].
    + rewrite message_read by auto. destruct (readable (IMessage m)); reflexivity.
    + rewrite module_read by (auto; apply Hok). cbn [readable]. destruct (text_ok (so_text m)); reflexivity.
Qed.
Lemma listing_read b lines items : listing b lines items -> read_file lines = if forallb readable items then Some items else None.
Proof.
  induction 1 as [|l ls is Hl _ IH|pre ty post i ls is H1 H2 H3 H4 _ IH]; [reflexivity| |].
  - cbn [read_file]. rewrite line_none by (apply unmarked_strip, Hl). exact IH.
  - cbn [read_file forallb]. destruct (item_read b pre ty post i H1 H2 H3 H4) as (g & -> & ->). rewrite IH. destruct (readable i), (forallb readable is); reflexivity.
Qed.

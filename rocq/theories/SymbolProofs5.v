(** Proofs about the C++ written for symbols. *)
From Coq Require Import String Ascii Bool Arith List ZArith Lia.
From Verif Require Import CatalogModel CatalogSpec CatalogProofs3 GenModel GenSpec GenProofs GenProofs2 GenProofs3 SymbolModel SymbolSpec SymbolProofs SymbolProofs2 SymbolProofs3 SymbolProofs4.
Import ListNotations.
Local Open Scope string_scope.

(** ** Tokens *)
Lemma tok_cut x : forall acc c y, is_word c = false -> tokens_from acc (x ++ String c y) = (tokens_from acc x ++ tokens (String c y))%list.
Proof.
  induction x as [|a x IH]; intros acc c y Hc; cbn [append tokens_from].
  - unfold tokens. cbn [tokens_from]. rewrite Hc. reflexivity.
  - destruct (is_word a); [apply IH; auto|]. rewrite IH by auto. rewrite !app_assoc. reflexivity.
Qed.
Fixpoint last_other (s : string) : bool := match s with EmptyString => true | String a EmptyString => negb (is_word a) | String _ r => last_other r end.
Definition first_other (s : string) : bool := match s with EmptyString => true | String a _ => negb (is_word a) end.
Lemma tok_r x y : first_other y = true -> tokens (x ++ y) = (tokens x ++ tokens y)%list.
Proof.
  destruct y as [|c y]; cbn; [rewrite sapp_nil, app_nil_r; reflexivity|]. intros H. apply negb_true_iff in H. apply tok_cut, H.
Qed.
Lemma tok_l_from x y : forall acc, x <> "" -> last_other x = true -> tokens_from acc (x ++ y) = (tokens_from acc x ++ tokens y)%list.
Proof.
  induction x as [|a x IH]; intros acc Hne H; [congruence|]. destruct x as [|b x].
  - cbn in *. apply negb_true_iff in H. rewrite H. rewrite !app_assoc, app_nil_r. reflexivity.
  - cbn [append].
    change (tokens_from acc (String a (String b (x ++ y)))) with (if is_word a then tokens_from (acc ++ String a "") (String b x ++ y) else (flush acc ++ (if is_space a then [] else [String a ""]) ++ tokens_from "" (String b x ++ y))%list).
    change (tokens_from acc (String a (String b x))) with (if is_word a then tokens_from (acc ++ String a "") (String b x) else (flush acc ++ (if is_space a then [] else [String a ""]) ++ tokens_from "" (String b x))%list).
    change (String b (x ++ y)) with (String b x ++ y). destruct (is_word a); rewrite IH by (auto; discriminate); [reflexivity|]. rewrite !app_assoc. reflexivity.
Qed.
Lemma tok_l x y : last_other x = true -> tokens (x ++ y) = (tokens x ++ tokens y)%list.
Proof. destruct x as [|a x]; [reflexivity|]. intros H. apply tok_l_from; [discriminate|exact H]. Qed.
Lemma space_word a : is_space a = true -> is_word a = false.
Proof. destruct a as [[] [] [] [] [] [] [] []]; cbv; intros; congruence. Qed.
Lemma tok_blank z : blank z -> tokens z = [].
Proof. induction z as [|a z IH]; [reflexivity|]. intros [H1 H2]. unfold tokens in *. cbn [tokens_from]. rewrite (space_word a H1), H1, (IH H2). reflexivity. Qed.
Lemma blank_first z : blank z -> first_other z = true.
Proof. destruct z as [|a z]; [reflexivity|]. intros [H _]. cbn. rewrite (space_word a H). reflexivity. Qed.
Lemma blank_last z : blank z -> last_other z = true.
Proof. induction z as [|a z IH]; [reflexivity|]. intros [H Hz]. cbn [last_other]. destruct z; [rewrite (space_word a H); reflexivity|apply IH, Hz]. Qed.
Lemma tok_word_from w : forall acc, all_chars is_word w = true -> tokens_from acc w = flush (acc ++ w).
Proof.
  induction w as [|a w IH]; intros acc H; cbn [tokens_from]; [rewrite sapp_nil; reflexivity|]. cbn [all_chars] in H. apply andb_true_iff in H. destruct H as [H1 H2].
  rewrite H1, IH by auto. rewrite sapp_assoc. reflexivity.
Qed.
Lemma tok_word w : w <> "" -> all_chars is_word w = true -> tokens w = [w].
Proof. intros Hn H. unfold tokens. rewrite tok_word_from by auto. destruct w; [congruence|reflexivity]. Qed.
Lemma tok_chars (f : ascii -> bool) s : forall acc, all_chars f acc = true -> all_chars f s = true -> Forall (fun w => all_chars f w = true) (tokens_from acc s).
Proof.
  assert (FL : forall acc, all_chars f acc = true -> Forall (fun w => all_chars f w = true) (flush acc)) by (intros acc H; destruct acc; constructor; auto).
  induction s as [|a s IH]; intros acc Ha Hs; cbn [tokens_from]; [auto|]. cbn [all_chars] in Hs. apply andb_true_iff in Hs. destruct Hs as [H1 H2].
  destruct (is_word a).
  - apply IH; auto. rewrite all_chars_app, Ha. cbn. rewrite H1. reflexivity.
  - apply Forall_app. split; [auto|]. apply Forall_app. split; [|apply IH; auto]. destruct (is_space a); constructor; auto. cbn. rewrite H1. reflexivity.
Qed.

(** ** Casts *)
Definition clean (l : list string) : Prop := forall r, casts (l ++ r)%list = (casts l ++ casts r)%list.
Lemma casts_cons t l : t <> "static_cast" -> casts (t :: l) = t :: casts l.
Proof.
  intros H. destruct l as [|a [|b [|c [|d [|n [|e q]]]]]]; try reflexivity. cbn [casts]. destruct (String.eqb_spec t "static_cast"); [congruence|]. reflexivity.
Qed.
Lemma clean_none l : ~ In "static_cast" l -> clean l /\ casts l = l.
Proof.
  induction l as [|t l IH]; intros H; [split; [intros r|]; reflexivity|]. destruct IH as [I1 I2]; [intros X; apply H; right; auto|].
  assert (Ht : t <> "static_cast") by (intros ->; apply H; left; auto). split.
  - intros r. cbn [List.app]. rewrite !casts_cons by auto. cbn [List.app]. rewrite I1. reflexivity.
  - rewrite casts_cons by auto. rewrite I2. reflexivity.
Qed.
Lemma clean_app a b : clean a -> clean b -> clean (a ++ b)%list.
Proof. intros Ha Hb r. rewrite <- app_assoc, Ha, Hb, Ha, app_assoc. reflexivity. Qed.
Definition eqt (x y : string) : Prop := clean (tokens x) /\ clean (tokens y) /\ casts (tokens x) = casts (tokens y).
Lemma eqt_same x y : tokens x = tokens y -> ~ In "static_cast" (tokens x) -> eqt x y.
Proof. intros E H. unfold eqt. rewrite <- E. split; [|split]; try reflexivity; apply clean_none, H. Qed.
Lemma eqt_join x x' y y' : tokens (x ++ y) = (tokens x ++ tokens y)%list -> tokens (x' ++ y') = (tokens x' ++ tokens y')%list -> eqt x x' -> eqt y y' -> eqt (x ++ y) (x' ++ y').
Proof.
  intros E E' (A & A' & EA) (B & B' & EB). unfold eqt. rewrite E, E'. split; [apply clean_app; auto|]. split; [apply clean_app; auto|]. rewrite A, A', EA, EB. reflexivity.
Qed.
Lemma eqt_r x x' y y' : first_other y = true -> first_other y' = true -> eqt x x' -> eqt y y' -> eqt (x ++ y) (x' ++ y').
Proof. intros H H'. apply eqt_join; apply tok_r; auto. Qed.
Lemma eqt_l x y y' : last_other x = true -> ~ In "static_cast" (tokens x) -> eqt y y' -> eqt (x ++ y) (x ++ y').
Proof. intros H Hx. apply eqt_join; try (apply tok_l; auto). apply eqt_same; auto. Qed.
Lemma eqt_blank x z y : blank z -> eqt x y -> eqt x (z ++ y).
Proof. intros Hz (A & B & E). unfold eqt. rewrite tok_l by (apply blank_last, Hz). rewrite (tok_blank z Hz). cbn [List.app]. auto. Qed.
Lemma eqt_trail x y z : blank z -> eqt x y -> eqt x (y ++ z).
Proof. intros Hz (A & B & E). unfold eqt. rewrite tok_r by (apply blank_first, Hz). rewrite (tok_blank z Hz), app_nil_r. auto. Qed.
Lemma join_cl l : join_with ", " l = cl l.
Proof.
  induction l as [|a l IH]; [reflexivity|]. destruct l as [|b l]; [reflexivity|].
  change (join_with ", " (a :: b :: l)) with (a ++ ", " ++ join_with ", " (b :: l)). rewrite IH. reflexivity.
Qed.
Ltac absent_tok := let H := fresh in intros H; vm_compute in H; repeat (destruct H as [H|H]; [discriminate H|]); destruct H.
Lemma eqt_cl l l' : Forall2 eqt l l' -> eqt (cl l) (cl l').
Proof.
  induction 1 as [|a a' l l' Ha Hl IH]; [apply eqt_same; [reflexivity|absent_tok]|]. destruct Hl as [|b b' l l' Hb Hl]; [exact Ha|].
  change (cl (a :: b :: l)) with (a ++ ", " ++ cl (b :: l)). change (cl (a' :: b' :: l')) with (a' ++ ", " ++ cl (b' :: l')).
  apply eqt_r; [reflexivity|reflexivity|exact Ha|]. apply eqt_l; [reflexivity|absent_tok|exact IH].
Qed.
Lemma Forall2_map_same {X} (P : string -> string -> Prop) (f g : X -> string) l : (forall x, In x l -> P (f x) (g x)) -> Forall2 P (map f l) (map g l).
Proof. induction l as [|x l IH]; intros H; cbn; constructor; [apply H; cbn; auto|]. apply IH. intros y Hy. apply H. right. exact Hy. Qed.

(** ** Types *)
Lemma digit_word a : is_digit a = true -> is_word a = true.
Proof. unfold is_word. intros ->. reflexivity. Qed.
Lemma str_word c : (0 <= c)%Z -> str c <> "" /\ all_chars is_word (str c) = true.
Proof.
  intros H. destruct (str_writes c H) as [W _]. split; [apply (writes_nonempty 10 _ c ltac:(lia) W)|]. apply writes10_digits in W. rewrite all_all_chars in W.
  eapply all_chars_imp; [apply digit_word|exact W].
Qed.
Lemma eqt_chars text : text_ok text = true -> eqt (chars_text text) (cl (char_atoms text)).
Proof.
  intros H. unfold text_ok in H. apply andb_true_iff in H. destruct H as [_ H]. rewrite forallb_forall in H. unfold chars_text. rewrite join_cl. apply eqt_cl, Forall2_map_same.
  intros c Hc. specialize (H c Hc). apply andb_true_iff in H. destruct H as [H _]. apply Z.leb_le in H. destruct (str_word c H) as [Hn Hw].
  assert (T1 : tokens ("static_cast<char>(" ++ str c ++ ")") = ["static_cast"; "<"; "char"; ">"; "("; str c; ")"]).
  { rewrite tok_l by reflexivity. rewrite (tok_r (str c)) by reflexivity. rewrite (tok_word (str c)) by auto. reflexivity. }
  assert (T2 : tokens ("(char)" ++ str c) = ["("; "char"; ")"; str c]).
  { rewrite tok_l by reflexivity. rewrite (tok_word (str c)) by auto. reflexivity. }
  assert (C2 : ~ In "static_cast" ["("; "char"; ")"; str c]).
  { intros [X|[X|[X|[X|[]]]]]; try discriminate X. apply (f_equal (count "_"%char)) in X. rewrite str_count in X by reflexivity. discriminate X. }
  destruct (clean_none _ C2) as [C3 C4]. unfold eqt. rewrite T1, T2. split; [intros r; reflexivity|]. split; [exact C3|]. rewrite C4. reflexivity.
Qed.
Definition idch (a : ascii) : bool := numch a || is_letter a.
Lemma id_tokens i suf : suffix_ok suf -> ~ In "static_cast" (tokens (str i ++ suf)).
Proof.
  intros Hs H. assert (F : Forall (fun w => all_chars idch w = true) (tokens (str i ++ suf))).
  { apply tok_chars; [reflexivity|]. rewrite all_chars_app. apply andb_true_iff. split; [eapply all_chars_imp; [|apply str_numch]|eapply all_chars_imp; [|exact Hs]]; unfold idch; intros a ->; [reflexivity|apply orb_true_r]. }
  rewrite Forall_forall in F. specialize (F _ H). discriminate F.
Qed.
Lemma num_tokens i : ~ In "static_cast" (tokens (str i)).
Proof. rewrite <- (sapp_nil (str i)). apply id_tokens. reflexivity. Qed.
Lemma eqt_string b text : text_ok text = true -> eqt ("sc::string<" ++ chars_text text ++ ">") (print b (string_tree text)).
Proof.
  intros H. rewrite string_print. apply eqt_l; [reflexivity|absent_tok|]. apply eqt_r; [reflexivity|reflexivity|apply eqt_chars, H|]. apply eqt_same; [reflexivity|absent_tok].
Qed.
Lemma eqt_close b x y : eqt x y -> eqt (x ++ ">") (close b y).
Proof.
  intros H. rewrite close_pad. apply eqt_r; [reflexivity|destruct (pad_cases b y) as [->| ->]; reflexivity|exact H|]. apply eqt_blank; [apply pad_blank|]. apply eqt_same; [reflexivity|absent_tok].
Qed.
Lemma eqt_node b n l ls : last_other (n ++ "<") = true -> ~ In "static_cast" (tokens (n ++ "<")) -> Forall2 eqt ls (map (print b) l) -> eqt (n ++ "<" ++ cl ls ++ ">") (print b (Node n l)).
Proof.
  intros H1 H2 H3. cbn [print]. replace (n ++ "<" ++ cl ls ++ ">") with ((n ++ "<" ++ cl ls) ++ ">") by (norm; reflexivity). apply eqt_close.
  rewrite <- !(sapp_assoc n "<"). apply eqt_l; auto. apply eqt_cl, H3.
Qed.
Lemma eqt_tag b t : text_ok (st_name t) = true -> text_ok (st_value t) = true -> eqt (tag_text t) (print b (tag_tree t)).
Proof.
  intros H1 H2. unfold tag_text, tag_tree.
  replace ("sc::tag<sc::string<" ++ chars_text (st_name t) ++ ">, sc::string<" ++ chars_text (st_value t) ++ ">>")
    with ("sc::tag" ++ "<" ++ cl ["sc::string<" ++ chars_text (st_name t) ++ ">"; "sc::string<" ++ chars_text (st_value t) ++ ">"] ++ ">") by (cbn [comma_list]; norm; reflexivity).
  apply eqt_node; [reflexivity|absent_tok|]. cbn [map]. repeat (apply Forall2_cons; [apply eqt_string; auto|]). apply Forall2_nil.
Qed.
Lemma eqt_named b t : text_ok (sn_name t) = true -> eqt (named_text t) (print b (named_tree t)).
Proof.
  intros H1. unfold named_text, named_tree.
  replace ("sc::named_arg<sc::string<" ++ chars_text (sn_name t) ++ ">, " ++ str (sn_begin t) ++ ", " ++ str (sn_end t) ++ ">")
    with ("sc::named_arg" ++ "<" ++ cl ["sc::string<" ++ chars_text (sn_name t) ++ ">"; str (sn_begin t); str (sn_end t)] ++ ">") by (cbn [comma_list]; norm; reflexivity).
  apply eqt_node; [reflexivity|absent_tok|]. cbn [map print]. constructor; [apply eqt_string; auto|]. constructor; [|constructor; [|constructor]]; (apply eqt_same; [reflexivity|apply num_tokens]).
Qed.
Lemma written_same b i : item_ok i -> readable i = true -> castless i -> same_type (written_type i) (print b (symbol_type i)).
Proof.
  intros Hok Hr Hc. cut (eqt (written_type i) (print b (symbol_type i))); [intros (_ & _ & H); exact H|].
  destruct i as [m|m]; cbn [written_type symbol_type readable castless] in *.
  - destruct Hok as [Ha Hs]. apply andb_true_iff in Hr. destruct Hr as [Hr Hn]. apply andb_true_iff in Hr. destruct Hr as [Ht Hg]. rewrite forallb_forall in Hn, Hg.
    unfold message_type, message_tree. rewrite !join_cl.
    match goal with |- eqt ?x _ => replace x with ("sc::message" ++ "<" ++ cl ["sc::undefined" ++ "<" ++ cl ["sc::args" ++ "<" ++ cl (sm_args m) ++ ">"; str (sm_id m) ++ sm_suffix m;
      "sc::string<" ++ chars_text (sm_text m) ++ ">"; "sc::tags" ++ "<" ++ cl (map tag_text (sm_tags m)) ++ ">"; "sc::named_args" ++ "<" ++ cl (map named_text (sm_named m)) ++ ">"] ++ ">"] ++ ">") end.
    2: { unfold comma_list at 1 2. fold comma_list. norm. reflexivity. }
    apply eqt_node; [reflexivity|absent_tok|]. cbn [map]. constructor; [|constructor]. apply eqt_node; [reflexivity|absent_tok|]. cbn [map].
    repeat (apply Forall2_cons; [|]); try apply Forall2_nil.
    + apply eqt_node; [reflexivity|absent_tok|]. rewrite map_map. cbn [print]. rewrite <- (map_id (sm_args m)) at 1. apply Forall2_map_same. intros a Hin. apply eqt_same; [reflexivity|].
      rewrite Forall_forall in Hc. apply Hc, Hin.
    + cbn [print]. apply eqt_same; [reflexivity|apply id_tokens, Hs].
    + apply eqt_string, Ht.
    + apply eqt_node; [reflexivity|absent_tok|]. rewrite map_map. apply Forall2_map_same. intros t Hin. specialize (Hg t Hin). apply andb_true_iff in Hg. apply eqt_tag; tauto.
    + apply eqt_node; [reflexivity|absent_tok|]. rewrite map_map. apply Forall2_map_same. intros t Hin. apply eqt_named. auto.
  - unfold module_type, module_tree.
    match goal with |- eqt ?x _ => replace x with ("sc::module_string" ++ "<" ++ cl ["sc::undefined" ++ "<" ++ cl ["void"; str (so_id m) ++ so_suffix m; "sc::string<" ++ chars_text (so_text m) ++ ">"] ++ ">"] ++ ">") by (cbn [comma_list]; norm; reflexivity) end.
    apply eqt_node; [reflexivity|absent_tok|]. cbn [map]. constructor; [|constructor]. apply eqt_node; [reflexivity|absent_tok|]. cbn [map]. repeat (apply Forall2_cons; [|]); try apply Forall2_nil.
    + apply eqt_same; [reflexivity|absent_tok].
    + apply eqt_same; [reflexivity|apply id_tokens, Hok].
    + apply eqt_string, Hr.
Qed.

(** Proofs about the symbols read: printed symbols and what is read from them. *)
From Coq Require Import String Ascii Bool Arith List ZArith Lia.
From Verif Require Import CatalogModel CatalogSpec CatalogProofs3 GenModel GenSpec GenProofs GenProofs2 SymbolModel SymbolSpec SymbolProofs.
Import ListNotations.
Local Open Scope string_scope.

Notation cl := (comma_list " ").
(** ** Trees *)
Section Trees.
Variable P : tree -> Prop.
Hypothesis HA : forall s, P (Atom s).
Hypothesis HN : forall n l, Forall P l -> P (Node n l).
Fixpoint tree_ind' (t : tree) : P t :=
  match t with
  | Atom s => HA s
  | Node n l => HN n l ((fix go l := match l return Forall P l with [] => Forall_nil P | t :: r => Forall_cons t (tree_ind' t) (go r) end) l)
  end.
End Trees.
Fixpoint allt (N A : string -> Prop) (t : tree) : Prop :=
  match t with Atom s => A s | Node n l => N n /\ fold_right and True (map (allt N A) l) end.
Lemma fold_and {X} (P : X -> Prop) l : fold_right and True (map P l) <-> Forall P l.
Proof.
  induction l as [|a l IH]; cbn.
  - split; auto.
  - rewrite IH. split; [intros [? ?]; constructor; auto|]. intros H. inversion H; auto.
Qed.
Definition pad (b : bool) (s : string) : string := if b && ends_angle s then " " else "".
Lemma close_pad b s : close b s = s ++ pad b s ++ ">".
Proof. unfold close, pad. destruct (b && ends_angle s); reflexivity. Qed.
Lemma ends_angle_count s : ends_angle s = true -> 0 < count ">" s.
Proof.
  induction s as [|a s IH]; cbn; [discriminate|]. destruct s as [|b s].
  - intros ->. lia.
  - intros H. specialize (IH H). cbn in *. lia.
Qed.
Lemma pad_none b s : count ">" s = 0 -> pad b s = "".
Proof. intros H. unfold pad. destruct (ends_angle s) eqn:E; [apply ends_angle_count in E; lia|]. rewrite andb_false_r. reflexivity. Qed.
Lemma pad_cases b s : pad b s = "" \/ pad b s = " ".
Proof. unfold pad. destruct (b && ends_angle s); auto. Qed.
Lemma pad_blank b s : blank (pad b s).
Proof. destruct (pad_cases b s) as [->| ->]; cbn; auto. Qed.
Lemma pad_space b s : all_chars is_space (pad b s) = true.
Proof. destruct (pad_cases b s) as [->| ->]; reflexivity. Qed.

Lemma all_cl f l : f ","%char = true -> f " "%char = true -> Forall (fun s => all_chars f s = true) l -> all_chars f (cl l) = true.
Proof.
  intros Hc Hs H. induction H as [|a l Ha Hl IH]; [reflexivity|]. destruct l as [|b l]; [exact Ha|].
  change (cl (a :: b :: l)) with (a ++ String "," (String " " (cl (b :: l)))). rewrite all_chars_app, Ha. cbn [all_chars andb]. rewrite Hc, Hs. exact IH.
Qed.
Lemma count_cl c l : c <> ","%char -> c <> " "%char -> Forall (fun s => count c s = 0) l -> count c (cl l) = 0.
Proof.
  intros Hc Hs H. induction H as [|a l Ha Hl IH]; [reflexivity|]. destruct l as [|b l]; [exact Ha|].
  change (cl (a :: b :: l)) with (a ++ String "," (String " " (cl (b :: l)))). rewrite count_app, Ha. cbn [count].
  destruct (Ascii.eqb_spec "," c); [congruence|]. destruct (Ascii.eqb_spec " " c); [congruence|]. exact IH.
Qed.
Lemma occurs_tail p x y : mark p -> count "<" y = 0 -> occurs p (x ++ y) -> occurs p x.
Proof.
  intros [(q & -> & Hq) _ _ _] Hy (a & b & E).
  assert (E' : x ++ y = (a ++ q) ++ String "<" b) by (rewrite E, !sapp_assoc; reflexivity).
  destruct (app_split _ _ _ _ E') as [(z & _ & ->)|(c & z & -> & E2)].
  - rewrite count_app in Hy. cbn in Hy. lia.
  - cbn in E2. injection E2 as <- _. exists a, z. rewrite !sapp_assoc. reflexivity.
Qed.
Lemma free_cl p l : mark p -> Forall (fun s => ~ occurs p s) l -> ~ occurs p (cl l).
Proof.
  intros Hm H. induction H as [|a l Ha Hl IH].
  - cbn. apply occurs_no_angle; auto.
  - destruct l as [|b l]; [exact Ha|]. change (cl (a :: b :: l)) with (a ++ String "," (String " " (cl (b :: l)))).
    intros H. apply occurs_at in H; [|apply Hm]. destruct H as [H|H]; [auto|]. apply occurs_head in H; [auto|apply Hm|apply mark_ne, Hm].
Qed.
Lemma free_print p b t : mark p -> allt (fun n => ~ occurs p (n ++ "<")) (fun s => ~ occurs p s) t -> ~ occurs p (print b t).
Proof.
  intros Hm. induction t as [s|n l IH] using tree_ind'; cbn [allt print]; [auto|]. intros [Hn Hl] H. rewrite fold_and in Hl.
  rewrite close_pad in H. apply occurs_tail in H; [|auto|destruct (pad_cases b (n ++ "<" ++ cl (map (print b) l))) as [->| ->]; reflexivity].
  cbn [append] in H. apply occurs_cut in H; [|auto]. destruct H as [H|H]; [auto|]. revert H. apply free_cl; auto. apply Forall_map.
  rewrite Forall_forall in *. auto.
Qed.
Lemma dots_print b t : allt (fun n => all_chars dot n = true) (fun s => all_chars dot s = true) t -> all_chars dot (print b t) = true.
Proof.
  induction t as [s|n l IH] using tree_ind'; cbn [allt print]; [auto|]. intros [Hn Hl]. rewrite fold_and in Hl. rewrite close_pad, !all_chars_app, Hn.
  rewrite all_cl; [destruct (pad_cases b (n ++ "<" ++ cl (map (print b) l))) as [->| ->]; reflexivity|reflexivity|reflexivity|].
  apply Forall_map. rewrite Forall_forall in *. auto.
Qed.
Lemma inside_app a b : inside a -> inside b -> inside (a ++ b).
Proof. induction 1 as [|c s H1 H2 _ IH|t s Ht _ Hs IH]; intros Hb; cbn [append]; auto; [constructor; auto|]. rewrite sapp_assoc. cbn [append]. apply inside_angle; auto. Qed.
Lemma nested_app a b : nested a -> nested b -> nested (a ++ b).
Proof. induction 1 as [|c s H1 H2 H3 _ IH|t s Ht Hs IH]; intros Hb; cbn [append]; auto; [constructor; auto|]. rewrite sapp_assoc. cbn [append]. apply nested_angle; auto. Qed.
Lemma nested_inside a : nested a -> inside a.
Proof. induction 1 as [|c s H1 H2 H3 _ IH|t s Ht Hs IH]; [apply inside_nil|apply inside_char; auto|apply inside_angle; auto]. Qed.
Lemma plain_nested s : count "<" s = 0 -> count ">" s = 0 -> count "," s = 0 -> nested s.
Proof.
  induction s as [|a s IH]; cbn [count]; [constructor|]. intros H1 H2 H3.
  destruct (Ascii.eqb_spec a "<"); [discriminate|]. destruct (Ascii.eqb_spec a ">"); [discriminate|]. destruct (Ascii.eqb_spec a ","); [discriminate|]. constructor; auto.
Qed.
Definition plain (n : string) : Prop := count "<" n = 0 /\ count ">" n = 0 /\ count "," n = 0.
Lemma inside_cl l : Forall inside l -> inside (cl l).
Proof.
  intros H. induction H as [|a l Ha Hl IH]; [constructor|]. destruct l as [|b l]; [exact Ha|].
  change (cl (a :: b :: l)) with (a ++ String "," (String " " (cl (b :: l)))). apply inside_app; auto. repeat (constructor; [discriminate|discriminate|]). exact IH.
Qed.
Lemma nested_print b t : allt plain nested t -> nested (print b t).
Proof.
  induction t as [s|n l IH] using tree_ind'; cbn [allt print]; [auto|]. intros [(N1 & N2 & N3) Hl]. rewrite fold_and in Hl. rewrite close_pad.
  assert (E : forall z, (n ++ "<" ++ cl (map (print b) l)) ++ z ++ ">" = n ++ String "<" ((cl (map (print b) l) ++ z) ++ String ">" "")) by (intros z; rewrite !sapp_assoc; reflexivity).
  rewrite E. apply nested_app; [apply plain_nested; auto|]. apply nested_angle; [|constructor]. apply inside_app.
  - apply inside_cl, Forall_map. rewrite Forall_forall in *. intros t Ht. apply nested_inside. auto.
  - destruct (pad_cases b (n ++ "<" ++ cl (map (print b) l))) as [->| ->]; [constructor|]. repeat (constructor; try discriminate).
Qed.

(** ** Splitting with space at the end *)
Lemma split_strip sep args : blank sep -> Forall nested args -> forall pre fuel, blank pre -> args <> [] -> (pre ++ comma_list sep args <> "") ->
  (forall a b l, args = (a ++ b :: l)%list -> a <> [] -> sep ++ comma_list sep (b :: l) <> "") ->
  String.length (pre ++ comma_list sep args) < fuel -> split_args_from fuel (pre ++ comma_list sep args) = map strip args.
Proof.
  intros Hsep H. induction H as [|a args Hn Hr IH]; [congruence|]. intros pre fuel Hpre _ Hne Hin Hf. destruct fuel as [|fuel]; [lia|].
  assert (Hpn : nested pre). { clear - Hpre. induction pre as [|c pre IH]; [constructor|]. destruct Hpre as [Hc Hp]. apply nested_char; [| | |apply IH, Hp]; intros ->; discriminate Hc. }
  assert (Hpa : nested (pre ++ a)) by (apply nested_app; auto).
  assert (Hst : strip (pre ++ a) = strip a) by (unfold strip; rewrite lstrip_blank; auto).
  destruct args as [|b args].
  - cbn [comma_list map] in *. cbn [split_args_from].
    assert (E : find_arg_split 0 (pre ++ a) = (pre ++ a, None)). { rewrite <- (sapp_nil (pre ++ a)) at 1. rewrite find_nested by auto. cbn. rewrite sapp_nil. reflexivity. }
    rewrite E, Hst. destruct (pre ++ a) eqn:E0; [congruence|reflexivity].
  - change (comma_list sep (a :: b :: args)) with (a ++ String "," (sep ++ comma_list sep (b :: args))) in *. set (tl := comma_list sep (b :: args)) in *.
    rewrite <- sapp_assoc in *. cbn [split_args_from]. rewrite find_nested by auto. cbn [find_arg_split Ascii.eqb Bool.eqb andb Z.eqb]. rewrite sapp_nil, Hst.
    rewrite slength_app in Hf. cbn [String.length] in Hf.
    rewrite IH; auto; try discriminate; try lia.
    + destruct ((pre ++ a) ++ String "," (sep ++ tl)) eqn:E0; [congruence|reflexivity].
    + apply (Hin [a] b args eq_refl). discriminate.
    + intros x y l E Hx. apply (Hin (a :: x)%list y l); [rewrite E; reflexivity|discriminate].
Qed.
Lemma cl_last l a e : cl (l ++ [a])%list ++ e = cl (l ++ [(a ++ e)%string])%list.
Proof.
  induction l as [|x l IH]; [reflexivity|]. cbn [List.app]. destruct (l ++ [a])%list eqn:E; [destruct l; discriminate|]. destruct (l ++ [(a ++ e)%string])%list eqn:E'; [destruct l; discriminate|].
  change (cl (x :: s :: l0)) with (x ++ String "," (String " " (cl (s :: l0)))). change (cl (x :: s0 :: l1)) with (x ++ String "," (String " " (cl (s0 :: l1)))).
  rewrite sapp_assoc. cbn [append]. rewrite IH. reflexivity.
Qed.
Lemma rstrip_blank s e : blank e -> rstrip (s ++ e) = rstrip s.
Proof.
  intros He. induction s as [|a s IH]; cbn [append].
  - induction e as [|b e IH]; [reflexivity|]. destruct He as [Hb He]. cbn [rstrip]. rewrite (IH He). cbn. rewrite Hb. reflexivity.
  - cbn [rstrip]. rewrite IH. reflexivity.
Qed.
Lemma strip_trail s e : blank e -> trimmed s -> strip (s ++ e) = s.
Proof.
  intros He Hs. pose proof (strip_trimmed "" s I Hs) as H. cbn [append] in H. unfold strip in *.
  destruct Hs as (H0 & H1 & _). destruct s as [|a s]; [congruence|]. cbn [append lstrip] in *. rewrite (H1 a s eq_refl) in *. change (String a (s ++ e)) with (String a s ++ e).
  rewrite rstrip_blank by auto. exact H.
Qed.
Lemma split_trail l e : blank e -> (l = [] -> e = "") -> Forall (fun a => nested a /\ trimmed a) l -> split_args (cl l ++ e) = l.
Proof.
  intros He Hl H. destruct (List.rev l) as [|a r] eqn:E.
  - assert (l = []) by (rewrite <- (rev_involutive l), E; reflexivity). subst l. rewrite (Hl eq_refl). reflexivity.
  - assert (El : l = (List.rev r ++ [a])%list) by (rewrite <- (rev_involutive l), E; reflexivity). clear E Hl. set (q := List.rev r) in *. clearbody q. subst l. clear r.
    apply Forall_app in H. destruct H as [Hq Ha]. inversion Ha as [|? ? [Hna Hta] _]; subst. clear Ha.
    rewrite cl_last. unfold split_args.
    assert (Hne : cl (q ++ [(a ++ e)%string])%list <> "").
    { destruct q as [|x q]; cbn [List.app].
      - cbn [comma_list]. destruct Hta as [Hta _]. destruct a; [congruence|discriminate].
      - inversion Hq as [|? ? [_ [Hx _]] _]; subst. destruct (q ++ [(a ++ e)%string])%list eqn:E; [destruct q; discriminate|].
        change (cl (x :: s :: l)) with (x ++ String "," (String " " (cl (s :: l)))). destruct x; discriminate. }
    pose proof (split_strip " " (q ++ [(a ++ e)%string])%list (conj eq_refl I)) as S. cbn [append] in S.
    rewrite (S) with (pre := ""); cbn [append]; auto.
    + rewrite map_app. cbn [map]. rewrite strip_trail by auto. f_equal. clear - Hq. induction Hq as [|x q [_ Hx] _ IH]; cbn; [reflexivity|]. rewrite IH.
      rewrite (strip_trimmed "" x I Hx : strip x = x). reflexivity.
    + apply Forall_app. split; [eapply Forall_impl; [|exact Hq]; cbn; tauto|]. constructor; auto. apply nested_app; auto.
      clear - He. induction e as [|c e IH]; [constructor|]. destruct He as [Hc Hp]. apply nested_char; [| | |apply IH, Hp]; intros ->; discriminate Hc.
    + exact I.
    + destruct q; discriminate.
    + intros x y l _ _. discriminate.
Qed.

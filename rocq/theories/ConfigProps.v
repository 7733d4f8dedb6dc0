(** C132: the text of manager::config() tells the configuration. *)
From Coq Require Import String Ascii Bool List NArith.
From Verif Require Import ConfigModel ConfigSpec ConfigProofs.
Import ListNotations.
Local Open Scope string_scope.

(** Texts are the same exactly if the configurations are, up to types shown alike,
    if what is shown of each type is one item of a list and names have no quotes. *)
Theorem C132_exact xs ys :
  Forall (fun t => one_item (config_string1 t)) (flat_map types_of (xs ++ ys)) -> Forall unquoted (flat_map names_of (xs ++ ys)) ->
  (manager_text xs = manager_text ys <-> Forall2 alike xs ys).
Proof.
  intros T N. rewrite flat_map_app in T, N. apply Forall_app in T as [T1 T2], N as [N1 N2].
  apply manager_alike.
  - clear - T1 N1. induction xs as [|x xs IH]; constructor; cbn [flat_map] in *; apply Forall_app in T1 as [? ?], N1 as [? ?]; [split; assumption|auto].
  - clear - T2 N2. induction ys as [|x xs IH]; constructor; cbn [flat_map] in *; apply Forall_app in T2 as [? ?], N2 as [? ?]; [split; assumption|auto].
Qed.
Print Assumptions C132_exact.

Lemma alike_equal x : forall y, (forall a b, In a (types_of x) -> In b (types_of y) -> shown_alike a b -> a = b) -> alike x y -> x = y.
Proof.
  assert (CE : forall c c', (forall a b, In a (types_of_control c) -> In b (types_of_control c') -> shown_alike a b -> a = b) -> control_alike c c' -> c = c').
  { intros c c' H A. destruct A as [n p e e' E|e s e' s' E S]; cbn in H; [rewrite (H e e') by auto; reflexivity|]. rewrite (H e e'), (H s s') by auto. reflexivity. }
  induction x as [n c p fs|n c p xs IH] using config_ind'; intros y H A; inversion A as [? ? c' ? p' ? fs' C P L|? ? c' ? p' ? xs' C P L]; subst; cbn [types_of] in H.
  - rewrite (CE c c') by (auto; intros; apply H; auto; apply in_or_app; auto). rewrite (H p p') by (auto; apply in_or_app; right; left; reflexivity). f_equal.
    assert (K : forall a b, In a fs -> In b fs' -> shown_alike a b -> a = b) by (intros; apply H; auto; apply in_or_app; right; right; assumption).
    clear - K L. induction L as [|a b l l' E L IH]; [reflexivity|]. rewrite (K a b), IH; cbn in *; auto.
  - rewrite (CE c c') by (auto; intros; apply H; auto; apply in_or_app; auto). rewrite (H p p') by (auto; apply in_or_app; right; left; reflexivity). f_equal.
    assert (K : forall a b, In a (flat_map types_of xs) -> In b (flat_map types_of xs') -> shown_alike a b -> a = b) by (intros; apply H; auto; apply in_or_app; right; right; assumption).
    clear - K L IH. induction L as [|a b l l' E L IH2]; [reflexivity|]. inversion IH as [|? ? I1 I2]; subst. cbn [flat_map] in K.
    rewrite (I1 b), IH2; auto; intros; apply K; auto; apply in_or_app; auto.
Qed.
(** So the text tells the configuration where the texts of its types tell the types. *)
Theorem C132_partial xs ys :
  Forall (fun t => one_item (config_string1 t)) (flat_map types_of (xs ++ ys)) -> Forall unquoted (flat_map names_of (xs ++ ys)) ->
  (forall a b, In a (flat_map types_of xs) -> In b (flat_map types_of ys) -> config_string1 a = config_string1 b -> a = b) ->
  manager_text xs = manager_text ys -> xs = ys.
Proof.
  intros T N I E. apply (proj1 (C132_exact xs ys T N)) in E. clear T N.
  induction E as [|x y xs ys A E IH]; [reflexivity|]. cbn [flat_map] in I. f_equal.
  - apply alike_equal; auto. intros; apply I; auto; apply in_or_app; auto.
  - apply IH. intros; apply I; auto; apply in_or_app; auto.
Qed.
Print Assumptions C132_partial.

(** In one level of the text, each type is shown as it says. *)
Theorem C132_types : forall n i p e q flows se sq sf,
  shown e se -> shown q sq -> Forall2 shown flows sf ->
  config_text (Element n (Mcu i p e) q flows) =
    String.concat ", " (("interrupt::irq<""" ++ n ++ """") :: (number_text i ++ "_irq") :: number_text p :: se :: sq :: sf) ++ ">".
Proof.
  assert (S : forall t s, shown t s -> config_string1 t = s).
  { intros t s [x E|x E E'|E E']; unfold config_string1; rewrite E; try rewrite E'; reflexivity. }
  assert (J : forall l, join l = String.concat ", " l) by (induction l as [|a [|b l] IH]; cbn [join String.concat] in *; congruence).
  assert (A : forall a b c : string, (a ++ b) ++ c = a ++ (b ++ c)) by (induction a; intros; cbn; congruence).
  intros n i p e q flows se sq sf He Hq Hf. cbn [config_text]. unfold control_text. rewrite (S _ _ He), (S _ _ Hq).
  replace (map config_string1 flows) with sf by (induction Hf; cbn; [reflexivity|]; rewrite (S _ _ H), <- IHHf; reflexivity).
  rewrite J. set (R := String.concat ", " (se :: sq :: sf)).
  change (String.concat ", " (("interrupt::irq<""" ++ n ++ """") :: (number_text i ++ "_irq") :: number_text p :: se :: sq :: sf))
    with (("interrupt::irq<""" ++ n ++ """") ++ ", " ++ (number_text i ++ "_irq") ++ ", " ++ number_text p ++ ", " ++ R).
  unfold quote. rewrite !A. reflexivity.
Qed.
Print Assumptions C132_types.

Definition plain (s : string) : type := {| t_config := None; t_name := None; t_spelling := s |}.
Definition named (n s : string) : type := {| t_config := None; t_name := Some n; t_spelling := s |}.
Definition no_policies := plain "interrupt::policies<>".
Definition no_field := plain "interrupt::no_field_t".
(** Enable fields of the same name in two registers; a name with quotes in it, with
    which one interrupt is shown as two. *)
Theorem C132_refuted :
  (exists a b, a <> b /\ t_spelling a <> t_spelling b /\
     manager_text [Element "i" (Mcu 17 42 a) no_policies [plain "flow_1"]] = manager_text [Element "i" (Mcu 17 42 b) no_policies [plain "flow_1"]]) /\
  (exists x y z, manager_text [x] = manager_text [y; z]).
Proof.
  split.
  - exists (named "enable" "field<""enable"", reg<0>>"), (named "enable" "field<""enable"", reg<1>>"). repeat split; discriminate.
  - exists (Element "a"", 1_irq, 2, f, p>, interrupt::irq<""b" (Mcu 3 4 no_field) no_policies []),
      (Element "a" (Mcu 1 2 (plain "f")) (plain "p") []), (Element "b" (Mcu 3 4 no_field) no_policies []). reflexivity.
Qed.
Print Assumptions C132_refuted.

(** The texts of the unit tests. *)
Example C132_case :
  manager_text [Element "b" (Mcu 17 42 no_field) no_policies [plain "flow_1"; plain "flow_2"]] =
    "interrupt::root<interrupt::irq<""b"", 17_irq, 42, interrupt::no_field_t, interrupt::policies<>, flow_1, flow_2>>" /\
  config_text (Container "test_shared" (Fields (plain "void") (plain "void")) no_policies [Element "test_sub" (Fields (plain "void") (plain "void")) no_policies [plain "std::integral_constant<bool, true>"]]) =
    "interrupt::shared_sub_irq<""test_shared"", void, void, interrupt::policies<>, interrupt::sub_irq<""test_sub"", void, void, interrupt::policies<>, std::integral_constant<bool, true>>>" /\
  one_item "std::integral_constant<bool, true>" /\ ~ one_item "a, b" /\ ~ one_item "a>" /\ manager_text [] = "interrupt::root<>".
Proof.
  split; [reflexivity|]. split; [reflexivity|]. split; [apply item_scan; reflexivity|]. split; [intros H; apply item_scan in H; discriminate|].
  split; [intros H; apply item_scan in H; discriminate|reflexivity].
Qed.
(** A flow shown as two. *)
Example C132_needed : manager_text [Element "a" (Mcu 1 2 no_field) no_policies [named "f, g" "service<""f, g"">"]] =
  manager_text [Element "a" (Mcu 1 2 no_field) no_policies [plain "f"; plain "g"]].
Proof. reflexivity. Qed.

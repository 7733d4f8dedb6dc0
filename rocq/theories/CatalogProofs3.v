(** Proofs about texts: splitting, joining, enumerators. *)
From Coq Require Import String Ascii Bool Arith List NArith ZArith Lia.
From Coq Require Import ZifyNat ZifyBool.
From Verif Require Import CatalogModel CatalogSpec.
Import ListNotations.
Local Open Scope string_scope.

Lemma sapp_assoc a b c : (a ++ b) ++ c = a ++ (b ++ c).
Proof. induction a as [|x a IH]; cbn; auto. rewrite IH. reflexivity. Qed.
Lemma sapp_nil a : a ++ "" = a.
Proof. induction a as [|x a IH]; cbn; auto. rewrite IH. reflexivity. Qed.
Lemma slength_app a b : String.length (a ++ b) = (String.length a + String.length b)%nat.
Proof. induction a as [|x a IH]; cbn; auto. Qed.
Ltac ascii_cases a c := destruct (Ascii.eqb_spec a c).

(** ** Splitting *)
Lemma find_inside t : inside t -> forall k r, (0 < k)%Z -> find_arg_split k (t ++ r) = let (p, q) := find_arg_split k r in (t ++ p, q).
Proof.
  induction 1 as [|a s H1 H2 _ IH|t s _ IHt _ IHs]; intros k r Hk; cbn [append find_arg_split].
  - destruct (find_arg_split k r); reflexivity.
  - destruct (Ascii.eqb_spec a ">"); [congruence|]. destruct (Ascii.eqb_spec a "<"); [congruence|].
    replace (k =? 0)%Z with false by lia. rewrite andb_false_r, IH by auto. destruct (find_arg_split k r); reflexivity.
  - cbn [Ascii.eqb Bool.eqb]. rewrite sapp_assoc. cbn [append]. rewrite IHt by lia. cbn [find_arg_split Ascii.eqb Bool.eqb].
    replace (k + 1 - 1)%Z with k by lia. rewrite IHs by auto. destruct (find_arg_split k r) as [p q]. rewrite sapp_assoc. reflexivity.
Qed.
Lemma find_nested s : nested s -> forall r, find_arg_split 0 (s ++ r) = let (p, q) := find_arg_split 0 r in (s ++ p, q).
Proof.
  induction 1 as [|a s H1 H2 H3 _ IH|t s Ht _ IHs]; intros r; cbn [append find_arg_split].
  - destruct (find_arg_split 0 r); reflexivity.
  - destruct (Ascii.eqb_spec a ">"); [congruence|]. destruct (Ascii.eqb_spec a "<"); [congruence|]. destruct (Ascii.eqb_spec a ","); [congruence|]. cbn [andb].
    rewrite IH. destruct (find_arg_split 0 r); reflexivity.
  - cbn [Ascii.eqb Bool.eqb]. rewrite sapp_assoc. cbn [append]. rewrite find_inside by (auto; lia). cbn [find_arg_split Ascii.eqb Bool.eqb].
    change (0 + 1 - 1)%Z with 0%Z. rewrite IHs. destruct (find_arg_split 0 r) as [p q]. rewrite sapp_assoc. reflexivity.
Qed.
Lemma lstrip_blank sep s : blank sep -> lstrip (sep ++ s) = lstrip s.
Proof. induction sep as [|a sep IH]; cbn; auto. intros [-> H]. auto. Qed.
Lemma rstrip_last s a : is_space a = false -> rstrip (s ++ String a "") = s ++ String a "".
Proof.
  intros H. induction s as [|x s IH]; cbn [append rstrip]; [rewrite H; reflexivity|]. rewrite IH. destruct s; reflexivity.
Qed.
Lemma last_char s : s <> "" -> exists r a, s = r ++ String a "".
Proof.
  induction s as [|x s IH]; [congruence|]. intros _. destruct s as [|y s]; [exists "", x; reflexivity|].
  destruct IH as (r & a & E); [discriminate|]. exists (String x r), a. rewrite E. reflexivity.
Qed.
Lemma strip_trimmed sep s : blank sep -> trimmed s -> strip (sep ++ s) = s.
Proof.
  intros Hs (H0 & H1 & H2). unfold strip. rewrite lstrip_blank by auto. assert (E : lstrip s = s). { destruct s as [|a r]; auto. cbn. rewrite (H1 a r); auto. }
  rewrite E. destruct (last_char s H0) as (r & a & Es). rewrite Es. apply rstrip_last, (H2 a r), Es.
Qed.
Lemma split_from sep args : blank sep -> Forall (fun a => nested a /\ trimmed a) args -> forall pre fuel, blank pre ->
  (args <> [])%list -> (String.length (pre ++ comma_list sep args) < fuel)%nat -> split_args_from fuel (pre ++ comma_list sep args) = args.
Proof.
  intros Hsep H. induction H as [|a args [Hn Ht] Hr IH]; [congruence|]. intros pre fuel Hpre _ Hf. destruct fuel as [|fuel]; [lia|].
  assert (Hpn : nested pre). { clear - Hpre. induction pre as [|c pre IH]; [constructor|]. destruct Hpre as [Hc Hp]. apply nested_char; [| | |apply IH, Hp]; intros ->; discriminate Hc. }
  assert (Hpa : nested (pre ++ a)).
  { clear - Hn Hpn. induction Hpn; cbn [append]; [auto|apply nested_char; auto|]. rewrite sapp_assoc. cbn [append]. apply nested_angle; auto. }
  destruct args as [|b args].
  - cbn [comma_list] in *. destruct Ht as (T0 & T). cbn [split_args_from].
    assert (E : find_arg_split 0 (pre ++ a) = (pre ++ a, None)). { rewrite <- (sapp_nil (pre ++ a)) at 1. rewrite find_nested by auto. cbn. rewrite sapp_nil. reflexivity. }
    rewrite E, strip_trimmed by (try split; auto). destruct (pre ++ a) eqn:E0; [|reflexivity]. destruct pre; [destruct a; [congruence|discriminate]|discriminate].
  - change (comma_list sep (a :: b :: args)) with (a ++ String "," (sep ++ comma_list sep (b :: args))) in *. set (tl := comma_list sep (b :: args)) in *.
    rewrite <- sapp_assoc in *. cbn [split_args_from]. rewrite find_nested by auto. cbn [find_arg_split Ascii.eqb Bool.eqb andb Z.eqb]. rewrite sapp_nil, strip_trimmed by auto.
    rewrite slength_app in Hf. cbn [String.length] in Hf.
    rewrite IH by (auto; try discriminate; lia). destruct ((pre ++ a) ++ String "," (sep ++ tl)) eqn:E0; [|reflexivity].
    destruct pre; [destruct a; discriminate|discriminate].
Qed.
Lemma split_comma_list sep args : blank sep -> Forall (fun a => nested a /\ trimmed a) args -> split_args (comma_list sep args) = args.
Proof.
  intros Hs H. destruct args as [|a args]; [reflexivity|]. unfold split_args. apply (split_from sep (a :: args) Hs H "" (S (String.length (comma_list sep (a :: args)))) I); [discriminate|]. cbn [append]. lia.
Qed.

(** ** Joining: encoded arguments can be told apart *)
(** Cuts a text after the first closed outer bracket. *)
Fixpoint cut (k : Z) (s : string) : string * string :=
  match s with
  | EmptyString => (EmptyString, EmptyString)
  | String a r =>
    if Ascii.eqb a ">" then (if (k =? 1)%Z then (String a EmptyString, r) else let (p, q) := cut (k - 1) r in (String a p, q))
    else if Ascii.eqb a "<" then let (p, q) := cut (k + 1) r in (String a p, q)
    else let (p, q) := cut k r in (String a p, q)
  end.
Lemma cut_inside t : inside t -> forall k r, (0 < k)%Z -> cut k (t ++ r) = let (p, q) := cut k r in (t ++ p, q).
Proof.
  induction 1 as [|a s H1 H2 _ IH|t s _ IHt _ IHs]; intros k r Hk; cbn [append cut].
  - destruct (cut k r); reflexivity.
  - destruct (Ascii.eqb_spec a ">"); [congruence|]. destruct (Ascii.eqb_spec a "<"); [congruence|]. rewrite IH by auto. destruct (cut k r); reflexivity.
  - cbn [Ascii.eqb Bool.eqb]. rewrite sapp_assoc. cbn [append]. rewrite IHt by lia. cbn [cut Ascii.eqb Bool.eqb].
    replace (k + 1 =? 1)%Z with false by lia. replace (k + 1 - 1)%Z with k by lia. rewrite IHs by auto. destruct (cut k r). rewrite sapp_assoc. reflexivity.
Qed.
Lemma cut_encoded s r : encoded s -> cut 0 (s ++ r) = (s, r).
Proof.
  intros (tag & t & -> & Ht & Hc). rewrite sapp_assoc. cbn [append]. rewrite sapp_assoc. cbn [append].
  assert (E : cut 1 (t ++ String ">" r) = (t ++ ">", r)) by (rewrite cut_inside by (auto; lia); reflexivity).
  induction tag as [|a tag IH]; cbn [append cut].
  - cbn [Ascii.eqb Bool.eqb]. change (0 + 1)%Z with 1%Z. rewrite E. reflexivity.
  - destruct (Hc "" tag a eq_refl) as [A1 A2]. destruct (Ascii.eqb_spec a ">"); [congruence|]. destruct (Ascii.eqb_spec a "<"); [congruence|].
    rewrite IH; [reflexivity|]. intros x y c Et. apply (Hc (String a x) y c). rewrite Et. reflexivity.
Qed.
Lemma encoded_ne s : encoded s -> s <> "".
Proof. intros (tag & t & -> & _). destruct tag; discriminate. Qed.
Lemma join_inj a : Forall encoded a -> forall b, Forall encoded b -> join a = join b -> a = b.
Proof.
  induction 1 as [|x a Hx _ IH]; intros b Hb E.
  - destruct Hb as [|y b Hy Hb]; auto. exfalso. cbn in E. apply (encoded_ne y Hy). destruct y; [auto|discriminate].
  - destruct Hb as [|y b Hy Hb].
    + exfalso. cbn in E. apply (encoded_ne x Hx). destruct x; [auto|discriminate].
    + cbn [join fold_right] in E. fold (join a) in E. fold (join b) in E. assert (C := f_equal (cut 0) E). rewrite !cut_encoded in C by auto. injection C as -> C. f_equal. auto.
Qed.

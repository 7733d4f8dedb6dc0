(** Proofs about enumerators in message texts. *)
From Coq Require Import String Ascii Bool Arith List NArith ZArith Lia.
From Coq Require Import ZifyNat ZifyBool.
From Verif Require Import CatalogModel CatalogSpec CatalogProofs3.
Import ListNotations.
Local Open Scope string_scope.

Definition first_is (f : ascii -> bool) (s : string) : bool := match s with EmptyString => false | String a _ => f a end.
Lemma span_app f s r : all_chars f s = true -> first_is f r = false -> span f (s ++ r) = (s, r).
Proof.
  induction s as [|a s IH]; cbn [append all_chars span].
  - intros _ H. destruct r as [|b r]; cbn in *; [reflexivity|]. rewrite H. reflexivity.
  - intros H Hr. apply andb_prop in H as [H1 H2]. rewrite H1, IH by auto. reflexivity.
Qed.
Lemma span_spec f s p q : span f s = (p, q) -> s = p ++ q /\ all_chars f p = true /\ first_is f q = false.
Proof.
  revert p q. induction s as [|a s IH]; intros p q; cbn [span].
  - intros [= <- <-]. auto.
  - destruct (f a) eqn:E.
    + destruct (span f s) as [p' q'] eqn:Es. intros [= <- <-]. destruct (IH _ _ eq_refl) as (-> & H1 & H2). cbn. rewrite E, H1. auto.
    + intros [= <- <-]. cbn. auto.
Qed.
Lemma digit_word a : is_digit a = true -> is_word a = true.
Proof. intros H. unfold is_word. rewrite H. reflexivity. Qed.
Lemma all_chars_app f a b : all_chars f (a ++ b) = all_chars f a && all_chars f b.
Proof. induction a as [|x a IH]; cbn; auto. rewrite IH. apply andb_assoc. Qed.
Lemma word_no_paren s : all_chars is_word s = true -> no_paren s.
Proof.
  unfold no_paren. induction s as [|a s IH]; cbn; auto. intros H. apply andb_prop in H as [H1 H2]. rewrite IH by auto.
  destruct (Ascii.eqb_spec a "("); auto. subst a. discriminate H1.
Qed.
Lemma digits_words s : all_chars is_digit s = true -> all_chars is_word s = true.
Proof. induction s as [|a s IH]; cbn; auto. intros H. apply andb_prop in H as [H1 H2]. rewrite (digit_word a H1), IH by auto. reflexivity. Qed.
Lemma no_paren_app a b : no_paren (a ++ b) <-> no_paren a /\ no_paren b.
Proof. unfold no_paren. rewrite all_chars_app. apply andb_true_iff. Qed.

Lemma match_written ty v p r : plain_mention (ty, v, p) -> first_is is_word (p ++ r) = false ->
  match_here (String "(" (ty ++ String ")" (v ++ p)) ++ r) = Some (ty, v, p ++ r).
Proof.
  intros (H1 & H2 & H3 & H4 & H5 & H6) Hr. cbn [append match_here]. rewrite sapp_assoc. cbn [append]. rewrite span_app by auto. rewrite sapp_assoc.
  destruct ty as [|a ty]; [congruence|]. rewrite span_app.
  - destruct v as [|b v]; [congruence|]. destruct (p ++ r) as [|c x]; auto. cbn in Hr. rewrite Hr. reflexivity.
  - auto.
  - destruct (p ++ r) as [|c x]; cbn in *; auto. destruct (is_digit c) eqn:E; auto. rewrite (digit_word c E) in Hr. discriminate.
Qed.
Lemma match_none s : first_is (fun a => Ascii.eqb a "(") s = false -> match_here s = None.
Proof. destruct s as [|a s]; auto. cbn [first_is]. intros H. destruct (Ascii.eqb_spec a "("); [discriminate|]. destruct a as [[] [] [] [] [] [] [] []]; cbn; congruence. Qed.
Lemma search_plain p r : no_paren p -> search (p ++ r) = search r.
Proof.
  unfold no_paren. induction p as [|a p IH]; cbn [append all_chars]; auto. intros H. apply andb_prop in H as [H1 H2].
  cbn [search]. rewrite match_none by (cbn; destruct (Ascii.eqb a "("); [discriminate H1|reflexivity]). apply IH, H2.
Qed.
Lemma sub_plain f p : forall n r, no_paren p -> (String.length p <= n)%nat -> sub_from n f (p ++ r) = p ++ sub_from (n - String.length p) f r.
Proof.
  unfold no_paren. induction p as [|a p IH]; intros n r; cbn [append all_chars String.length]; [rewrite Nat.sub_0_r; auto|]. intros H Hn. apply andb_prop in H as [H1 H2].
  destruct n as [|n]; [lia|]. cbn [sub_from]. rewrite match_none by (cbn; destruct (Ascii.eqb a "("); [discriminate H1|reflexivity]).
  rewrite IH by (auto; lia). reflexivity.
Qed.
Lemma next_not_word p ms : not_word_first p -> first_is is_word (p ++ written ms) = false.
Proof.
  intros H. destruct p as [|a p]; cbn in *; auto. destruct ms as [|[[ty v] q] ms]; reflexivity.
Qed.
Lemma search_written ty v p ms : plain_mention (ty, v, p) -> search (written ((ty, v, p) :: ms)) = Some (ty, v).
Proof.
  intros H. pose proof H as (_ & _ & _ & _ & _ & H6). cbn [written]. pose proof (match_written ty v p (written ms) H (next_not_word p ms H6)) as M.
  cbn [append search] in *. rewrite M. reflexivity.
Qed.
Lemma sub_written f ms : Forall plain_mention ms -> forall n, (String.length (written ms) <= n)%nat -> sub_from n f (written ms) = named f ms.
Proof.
  induction 1 as [|[[ty v] p] ms H _ IH]; intros n Hn.
  - destruct n; reflexivity.
  - pose proof H as (_ & _ & _ & _ & H5 & H6). cbn [written named] in *. pose proof (match_written ty v p (written ms) H (next_not_word p ms H6)) as M.
    rewrite slength_app in Hn. cbn [String.length] in Hn. rewrite slength_app in Hn. cbn [String.length] in Hn. rewrite slength_app in Hn.
    destruct n as [|n]; [lia|]. cbn [append sub_from] in *. rewrite M. rewrite sub_plain, IH by (auto; lia). reflexivity.
Qed.

(** The text put in place of every mention. *)
Lemma search_none s : no_paren s -> search s = None.
Proof. intros H. rewrite <- (sapp_nil s), search_plain by auto. reflexivity. Qed.
Lemma search_cast ty v r : all_chars is_word ty = true -> v <> "" -> all_chars is_digit v = true -> first_is is_digit r = false ->
  search (("static_cast<" ++ ty ++ ">(" ++ v ++ ")") ++ r) = search r.
Proof.
  intros Ht Hne Hv Hr. replace (("static_cast<" ++ ty ++ ">(" ++ v ++ ")") ++ r) with (("static_cast<" ++ ty ++ ">") ++ String "(" (v ++ String ")" r)).
  2:{ rewrite !sapp_assoc. reflexivity. }
  rewrite search_plain by (rewrite !no_paren_app; repeat split; apply word_no_paren, Ht). cbn [search].
  assert (M : match_here (String "(" (v ++ String ")" r)) = None).
  { cbn [match_here]. rewrite span_app by (auto using digits_words). destruct v as [|a v]; [congruence|].
    change r with ("" ++ r) at 1. rewrite span_app by auto. reflexivity. }
  rewrite M. rewrite search_plain by (apply word_no_paren, digits_words, Hv). cbn [search]. rewrite match_none by reflexivity. reflexivity.
Qed.
Lemma search_named names ty v ms : good_names names -> all_chars is_word ty = true -> v <> "" -> all_chars is_digit v = true -> Forall plain_mention ms ->
  search (named (fun _ _ => lookup_name names ty v) ms) = None /\ first_is is_digit (named (fun _ _ => lookup_name names ty v) ms) = false.
Proof.
  intros Hg Ht Hne Hv. induction 1 as [|[[ty' v'] p] ms (_ & _ & _ & _ & H5 & H6) _ [IH1 IH2]]; [split; reflexivity|]. cbn [named].
  set (rest := named (fun _ _ : string => lookup_name names ty v) ms) in *.
  assert (Hd : first_is is_digit (p ++ rest) = false).
  { destruct p as [|a p]; auto. cbn in *. destruct (is_digit a) eqn:E; auto. rewrite (digit_word a E) in H6. discriminate. }
  unfold lookup_name. destruct (names ty v) as [n|] eqn:E.
  - specialize (Hg _ _ _ E). destruct n as [|a n]; [destruct Hg|]. destruct Hg as [G1 G2]. split; [|exact G1].
    rewrite search_plain, search_plain; auto. unfold no_paren. clear - G2. revert G2. generalize (String a n) as s. induction s as [|b s IH]; cbn; auto.
    intros H. apply andb_prop in H as [H1 H2]. rewrite IH by auto. destruct (Ascii.eqb b "("); auto.
  - split; [|reflexivity]. rewrite search_cast by auto. rewrite search_plain by auto. exact IH1.
Qed.
Lemma convert_exact names p0 ty v p ms n : good_names names -> no_paren p0 -> Forall plain_mention ((ty, v, p) :: ms) ->
  convert_ct_enums (S n) names (p0 ++ written ((ty, v, p) :: ms)) = Some (p0 ++ named (fun _ _ => lookup_name names ty v) ((ty, v, p) :: ms)).
Proof.
  intros Hg H0 H. set (all := (ty, v, p) :: ms) in *. pose proof H as H'. inversion H' as [|? ? Hm _]; subst. pose proof Hm as (M1 & M2 & M3 & M4 & _).
  assert (S1 : search (p0 ++ written all) = Some (ty, v)) by (rewrite search_plain by auto; apply search_written, Hm).
  cbn [convert_ct_enums]. rewrite S1. unfold sub. rewrite sub_plain by (auto; rewrite slength_app; lia).
  rewrite sub_written by (auto; rewrite slength_app; lia). destruct (search_named names ty v all Hg M2 M3 M4 H) as [S2 _].
  destruct n; cbn [convert_ct_enums]; rewrite search_plain, S2 by auto; reflexivity.
Qed.
Lemma named_ext f g ms : (forall ty v p, In (ty, v, p) ms -> f ty v = g ty v) -> named f ms = named g ms.
Proof. induction ms as [|[[ty v] p] ms IH]; cbn [named]; auto. intros H. rewrite (H ty v p) by (left; auto). rewrite IH; auto. intros a b c Hin. apply (H a b c). right. auto. Qed.

(** ** The loop ends *)
Fixpoint pairs (s : string) : nat :=
  match s with EmptyString => 0 | String a r => (if Ascii.eqb a ")" && first_is is_digit r then 1 else 0) + pairs r end.
Lemma pairs_app a b : first_is is_digit b = false -> pairs (a ++ b) = (pairs a + pairs b)%nat.
Proof.
  intros H. induction a as [|x a IH]; cbn [append pairs]; auto. rewrite IH. destruct a as [|y a]; cbn [append first_is].
  - rewrite H, andb_false_r. reflexivity.
  - destruct (Ascii.eqb x ")" && is_digit y); lia.
Qed.
Lemma pairs_app_le a b : (pairs a + pairs b <= pairs (a ++ b))%nat.
Proof.
  induction a as [|x a IH]; cbn [append pairs]; auto. destruct a as [|y a]; cbn [append first_is] in *; [|destruct (Ascii.eqb x ")" && is_digit y); lia].
  rewrite andb_false_r. cbn [pairs] in *. lia.
Qed.
Lemma match_here_spec s ty v r : match_here s = Some (ty, v, r) ->
  s = String "(" (ty ++ String ")" (v ++ r)) /\ ty <> "" /\ all_chars is_word ty = true /\ v <> "" /\ all_chars is_digit v = true /\ first_is is_word r = false.
Proof.
  unfold match_here. destruct s as [|a s]; [discriminate|]. destruct (Ascii.eqb_spec a "(") as [->|Ha].
  2:{ intros H. exfalso. assert (M : match_here (String a s) = None) by (apply match_none; cbn; destruct (Ascii.eqb_spec a "("); congruence). unfold match_here in M. rewrite M in H. discriminate. }
  destruct (span is_word s) as [t r1] eqn:E1. apply span_spec in E1 as (-> & T1 & T2). destruct t as [|t0 t]; [discriminate|].
  destruct r1 as [|c r1]; [discriminate|]. destruct (Ascii.eqb_spec c ")") as [->|Hc].
  2:{ intros H. exfalso. destruct c as [[] [] [] [] [] [] [] []]; cbn in H; try discriminate; congruence. }
  destruct (span is_digit r1) as [w r3] eqn:E2. apply span_spec in E2 as (-> & W1 & W2). destruct w as [|w0 w]; [discriminate|].
  intros H. assert (E : Some (String t0 t, String w0 w, r3) = Some (ty, v, r) /\ first_is is_word r3 = false).
  { destruct r3 as [|x r3]; [split; [exact H|reflexivity]|]. cbn [first_is]. destruct (is_word x); [discriminate|]. auto. }
  destruct E as [[= <- <- <-] Hr]. repeat split; auto; discriminate.
Qed.
Definition shrinking (t : string) : Prop := t <> "" /\ first_is is_digit t = false /\ pairs t = 0%nat.
Lemma sub_pairs t : shrinking t -> forall n s, (pairs (sub_from n (fun _ _ => t) s) <= pairs s)%nat /\
  (first_is is_digit (sub_from n (fun _ _ => t) s) = true -> first_is is_digit s = true) /\
  ((String.length s <= n)%nat -> search s <> None -> (pairs (sub_from n (fun _ _ => t) s) < pairs s)%nat).
Proof.
  intros (T0 & T1 & T2). induction n as [|n IH]; intros s; cbn [sub_from].
  - split; auto. split; auto. destruct s; cbn; [congruence|lia].
  - destruct (match_here s) as [[[ty v] r]|] eqn:E.
    + pose proof (match_here_spec _ _ _ _ E) as (Es & H1 & H2 & H3 & H4 & H5). destruct (IH r) as (I1 & I2 & _).
      assert (Hr : first_is is_digit r = false). { destruct r as [|c r]; cbn in *; auto. destruct (is_digit c) eqn:Ec; auto. rewrite (digit_word c Ec) in H5. discriminate. }
      assert (Hs : first_is is_digit (sub_from n (fun _ _ : string => t) r) = false). { destruct (first_is is_digit (sub_from _ _ r)); auto. rewrite (I2 eq_refl) in Hr. discriminate. }
      assert (P : (pairs (t ++ sub_from n (fun _ _ : string => t) r) < pairs s)%nat).
      { rewrite pairs_app, T2 by auto. subst s. change (String "(" (ty ++ String ")" (v ++ r))) with (String "(" ty ++ String ")" (v ++ r)).
        pose proof (pairs_app_le (String "(" ty) (String ")" (v ++ r))) as L. cbn [pairs Ascii.eqb Bool.eqb andb] in L.
        assert (first_is is_digit (v ++ r) = true) as F. { destruct v as [|w v]; [congruence|]. cbn in *. apply andb_prop in H4. apply H4. }
        rewrite F in L. pose proof (pairs_app_le v r). cbn [pairs] in L |- *. lia. }
      split; [lia|]. split; [|auto]. intros F. destruct t as [|c t]; [congruence|]. cbn in F, T1. congruence.
    + destruct s as [|a s]; [split; auto; split; auto; cbn; intros; congruence|]. destruct (IH s) as (I1 & I2 & I3).
      assert (L : ((if (Ascii.eqb a ")" && first_is is_digit (sub_from n (fun _ _ : string => t) s))%bool then 1 else 0) <= (if (Ascii.eqb a ")" && first_is is_digit s)%bool then 1 else 0))%nat).
      { destruct (Ascii.eqb a ")"); cbn [andb]; auto. destruct (first_is is_digit (sub_from _ _ s)); [rewrite I2 by auto; lia|]. destruct (first_is is_digit s); lia. }
      cbn [pairs first_is String.length]. split; [lia|]. split; auto. intros Hl Hs. cbn [search] in Hs. rewrite E in Hs. specialize (I3 ltac:(lia) Hs). lia.
Qed.
Lemma lookup_shrinking names ty v : good_names names -> all_chars is_word ty = true -> all_chars is_digit v = true -> shrinking (lookup_name names ty v).
Proof.
  intros Hg Ht Hv. unfold lookup_name. destruct (names ty v) as [n|] eqn:E.
  - specialize (Hg _ _ _ E). destruct n as [|a n]; [destruct Hg|]. destruct Hg as [G1 G2]. split; [discriminate|]. split; [exact G1|].
    revert G2. generalize (String a n) as s. induction s as [|b s IH]; cbn [all_chars pairs]; auto. intros H. apply andb_prop in H as [H1 H2]. rewrite IH by auto.
    destruct (Ascii.eqb b ")"); auto. rewrite orb_true_r in H1. discriminate.
  - split; [discriminate|]. split; [reflexivity|].
    assert (W : forall w r, all_chars is_word w = true -> pairs (w ++ r) = pairs r).
    { induction w as [|b w IH]; intros r; cbn [all_chars append pairs]; auto. intros H. apply andb_prop in H as [H1 H2]. rewrite IH by auto.
      destruct (Ascii.eqb_spec b ")"); auto. subst b. discriminate. }
    cbn [append]. cbn [pairs Ascii.eqb Bool.eqb andb]. rewrite W by auto. cbn [pairs Ascii.eqb Bool.eqb andb Nat.add]. rewrite W by (apply digits_words, Hv). reflexivity.
Qed.
Lemma search_spec s ty v : search s = Some (ty, v) -> all_chars is_word ty = true /\ v <> "" /\ all_chars is_digit v = true.
Proof.
  induction s as [|a s IH]; cbn [search].
  - discriminate.
  - destruct (match_here (String a s)) as [[[ty' v'] r]|] eqn:E; auto. intros [= <- <-]. apply match_here_spec in E. tauto.
Qed.
Lemma convert_ends names : good_names names -> forall turns s, (pairs s <= turns)%nat -> convert_ct_enums turns names s <> None.
Proof.
  intros Hg. induction turns as [|n IH]; intros s Hs; cbn [convert_ct_enums]; destruct (search s) as [[ty v]|] eqn:E; try discriminate.
  - destruct (search_spec _ _ _ E) as (H1 & _ & H3). destruct (sub_pairs _ (lookup_shrinking names ty v Hg H1 H3) (String.length s) s) as (_ & _ & P).
    specialize (P (le_n _)). rewrite E in P. specialize (P ltac:(discriminate)). lia.
  - apply IH. destruct (search_spec _ _ _ E) as (H1 & _ & H3). destruct (sub_pairs _ (lookup_shrinking names ty v Hg H1 H3) (String.length s) s) as (_ & _ & P).
    specialize (P (le_n _)). rewrite E in P. specialize (P ltac:(discriminate)). unfold sub. lia.
Qed.

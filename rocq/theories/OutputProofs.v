(** Proofs: the XML collateral reads as what it means. *)
From Coq Require Import String Ascii Bool Arith ZArith NArith List Lia.
From Verif Require Import GenModel GenSpec OutputModel OutputSpec.
Import ListNotations.
Local Open Scope list_scope.
Local Open Scope string_scope.

Lemma app_assoc_s (a b c : string) : (a ++ b) ++ c = a ++ (b ++ c).
Proof. induction a as [|x a IH]; cbn; congruence. Qed.
Lemma app_nil_s (a : string) : a ++ "" = a.
Proof. induction a as [|x a IH]; cbn; congruence. Qed.

(** ** More fuel reads the same *)
Lemma read_value_mono : forall k s x, read_value k s = Some x -> forall k', k <= k' -> read_value k' s = Some x.
Proof.
  induction k as [|k IH]; intros s x H k' L; [discriminate|].
  destruct k' as [|k']; [lia|]. assert (L' : k <= k') by lia. cbn [read_value] in *.
  destruct s as [|a r]; [discriminate|].
  destruct (Ascii.eqb a """"); [exact H|]. destruct (Ascii.eqb a "<"); [discriminate|].
  destruct (Ascii.eqb a "&").
  - destruct (reference r) as [[b q]|]; [|discriminate].
    destruct (read_value k q) as [p|] eqn:E; [|discriminate]. rewrite (IH _ _ E _ L'). exact H.
  - destruct (read_value k r) as [p|] eqn:E; [|discriminate]. rewrite (IH _ _ E _ L'). exact H.
Qed.
Lemma read_attrs_mono : forall k s x, read_attrs k s = Some x -> forall k', k <= k' -> read_attrs k' s = Some x.
Proof.
  induction k as [|k IH]; intros s x H k' L; [discriminate|].
  destruct k' as [|k']; [lia|]. assert (L' : k <= k') by lia. cbn [read_attrs] in *.
  destruct s as [|a r]; [discriminate|].
  destruct (white a); [exact (IH _ _ H _ L')|]. destruct (Ascii.eqb a ">"); [exact H|].
  destruct (after "/>" (String a r)); [exact H|].
  destruct (read_name (String a r)) as [n q]. destruct (after "=""" q) as [q1|]; [|discriminate].
  destruct (read_value k q1) as [[v q2]|] eqn:E; [|discriminate]. rewrite (read_value_mono _ _ _ E _ L').
  destruct (read_attrs k q2) as [[[l b] q3]|] eqn:E2; [|discriminate]. rewrite (IH _ _ E2 _ L'). exact H.
Qed.
Lemma read_mono : forall k,
  (forall s x, read_content k s = Some x -> forall k', k <= k' -> read_content k' s = Some x) /\
  (forall s x, read_element k s = Some x -> forall k', k <= k' -> read_element k' s = Some x).
Proof.
  induction k as [|k [IHc IHe]]; (split; intros s x H k' L; [|]); try discriminate;
    (destruct k' as [|k']; [lia|]); assert (L' : k <= k') by lia.
  - cbn [read_content] in *.
    destruct (after "</" s); [exact H|].
    destruct (after "<![CDATA[" s) as [r|].
    { destruct (until "]]>" r) as [[t q]|]; [|discriminate].
      destruct (read_content k q) as [p|] eqn:E; [|discriminate]. rewrite (IHc _ _ E _ L'). exact H. }
    destruct s as [|a r]; [discriminate|].
    destruct (Ascii.eqb a "<").
    { destruct (read_element k (String a r)) as [[e q]|] eqn:E; [|discriminate]. rewrite (IHe _ _ E _ L').
      destruct (read_content k q) as [p|] eqn:E2; [|discriminate]. rewrite (IHc _ _ E2 _ L'). exact H. }
    destruct (Ascii.eqb a "&").
    { destruct (reference r) as [[b q]|]; [|discriminate].
      destruct (read_content k q) as [p|] eqn:E2; [|discriminate]. rewrite (IHc _ _ E2 _ L'). exact H. }
    destruct (after "]]>" (String a r)); [discriminate|].
    destruct (read_content k r) as [p|] eqn:E2; [|discriminate]. rewrite (IHc _ _ E2 _ L'). exact H.
  - cbn [read_element] in *.
    destruct (after "<" s) as [r|]; [|discriminate]. destruct (read_name r) as [n q].
    destruct (read_attrs k q) as [[[a b] q1]|] eqn:E; [|discriminate]. rewrite (read_attrs_mono _ _ _ E _ L').
    destruct b; [exact H|].
    destruct (read_content k q1) as [[c q2]|] eqn:E2; [|discriminate]. rewrite (IHc _ _ E2 _ L'). exact H.
Qed.
Theorem reads_unique file e e' : reads file e -> reads file e' -> e = e'.
Proof.
  intros [_ (k & d & b & A & B & C)] [_ (k' & d' & b' & A' & B' & C')].
  assert (d = d') by congruence. subst d'. assert (b = b') by congruence. subst b'.
  pose proof (proj2 (read_mono k) _ _ C (max k k') ltac:(lia)) as U.
  pose proof (proj2 (read_mono k') _ _ C' (max k k') ltac:(lia)) as V. congruence.
Qed.

(** ** Reading with enough fuel *)
Definition value_at s v r := exists k, forall k', k <= k' -> read_value k' s = Some (v, r).
Definition attrs_at s l b r := exists k, forall k', k <= k' -> read_attrs k' s = Some (l, b, r).
Definition content_at s l r := exists k, forall k', k <= k' -> read_content k' s = Some (l, r).
Definition element_at s e r := exists k, forall k', k <= k' -> read_element k' s = Some (e, r).

(** ** Attribute values *)
Lemma value_step b e s v r : (forall k, read_value (S k) (e ++ s) = option_map (fun p => (String b (fst p), snd p)) (read_value k s)) ->
  value_at s v r -> value_at (e ++ s) (String b v) r.
Proof. intros E [k H]. exists (S k). intros k' L. destruct k' as [|k']; [lia|]. rewrite E, H by lia. reflexivity. Qed.
Lemma eqb_nat (a : ascii) n : Nat.eqb (nat_of_ascii a) n = true -> a = ascii_of_nat n.
Proof. intros H. apply Nat.eqb_eq in H. rewrite <- H. symmetry. apply ascii_nat_embedding. Qed.
Lemma escaped_char a s v r : value_at s v r -> value_at (escape_char a ++ s) (String a v) r.
Proof.
  apply value_step. intros k. unfold escape_char.
  destruct (Ascii.eqb a "&") eqn:E1; [apply Ascii.eqb_eq in E1; subst a; reflexivity|].
  destruct (Ascii.eqb a "<") eqn:E2; [apply Ascii.eqb_eq in E2; subst a; reflexivity|].
  destruct (Ascii.eqb a ">") eqn:E3; [apply Ascii.eqb_eq in E3; subst a; reflexivity|].
  destruct (Ascii.eqb a """") eqn:E4; [apply Ascii.eqb_eq in E4; subst a; reflexivity|].
  destruct (Nat.eqb (nat_of_ascii a) 13) eqn:E5; [apply eqb_nat in E5; subst a; reflexivity|].
  destruct (Nat.eqb (nat_of_ascii a) 10) eqn:E6; [apply eqb_nat in E6; subst a; reflexivity|].
  destruct (Nat.eqb (nat_of_ascii a) 9) eqn:E7; [apply eqb_nat in E7; subst a; reflexivity|].
  cbn [append read_value]. rewrite E4, E2, E1.
  assert (W : (if white a then " "%char else a) = a).
  { unfold white. rewrite E5, E6, E7. cbn [orb]. destruct (Nat.eqb (nat_of_ascii a) 32) eqn:E8; [|reflexivity].
    apply eqb_nat in E8. subst a. reflexivity. }
  rewrite W. reflexivity.
Qed.
Lemma escaped v : forall r, value_at (escape_attrib v ++ """" ++ r) v r.
Proof.
  induction v as [|a v IH]; intros r.
  - exists 1. intros k' L. destruct k' as [|k']; [lia|]. reflexivity.
  - cbn [escape_attrib]. rewrite app_assoc_s. apply escaped_char. apply IH.
Qed.

(** ** Names *)
Definition name_char (a : ascii) : bool := negb (ends_name a) && negb (Ascii.eqb a "!") && Nat.leb 32 (nat_of_ascii a).
Definition name (s : string) : Prop := s <> "" /\ all_chars name_char s = true.
Lemma name_read n : all_chars name_char n = true -> forall b r, ends_name b = true -> read_name (n ++ String b r) = (n, String b r).
Proof.
  induction n as [|a n IH]; cbn [all_chars]; intros N b r B.
  - cbn. rewrite B. reflexivity.
  - apply andb_true_iff in N as [Na Nn]. cbn [append read_name].
    unfold name_char in Na. destruct (ends_name a); [discriminate|]. rewrite IH by assumption. reflexivity.
Qed.
Lemma name_head n : name n -> exists a m, n = String a m /\ ends_name a = false /\ Ascii.eqb a "!" = false.
Proof.
  intros [N A]. destruct n as [|a m]; [congruence|]. exists a, m. cbn [all_chars] in A.
  apply andb_true_iff in A as [A _]. unfold name_char in A.
  destruct (ends_name a), (Ascii.eqb a "!"); try discriminate. auto.
Qed.
Lemma eqb_swap a b : Ascii.eqb a b = Ascii.eqb b a.
Proof. destruct (Ascii.eqb a b) eqn:E. - apply Ascii.eqb_eq in E. subst. symmetry. apply Ascii.eqb_refl. - symmetry. apply Ascii.eqb_neq. apply Ascii.eqb_neq in E. congruence. Qed.
Lemma ends_not a : ends_name a = false -> white a = false /\ Ascii.eqb a "=" = false /\ Ascii.eqb a "/" = false /\ Ascii.eqb a ">" = false.
Proof. unfold ends_name. intros H. do 3 (apply orb_false_iff in H as [H ?]). auto. Qed.

(** ** Attributes *)
Definition attributes (l : list (string * string)) : string := fold_right append EmptyString (map (fun kv => " " ++ fst kv ++ "=""" ++ escape_attrib (snd kv) ++ """") l).
Lemma attrs_more kv l s b r : name (fst kv) -> attrs_at s l b r ->
  attrs_at ((" " ++ fst kv ++ "=""" ++ escape_attrib (snd kv) ++ """") ++ s) (kv :: l) b r.
Proof.
  intros N [k H]. destruct kv as [n v]. cbn [fst snd] in *.
  destruct (escaped v s) as [kv Hv].
  exists (S (S (max k kv))). intros k' L. destruct k' as [|[|k']]; [lia|lia|].
  change (read_attrs (S (S k')) ((" " ++ n ++ "=""" ++ escape_attrib v ++ """") ++ s)) with (read_attrs (S k') ((n ++ "=""" ++ escape_attrib v ++ """") ++ s)).
  replace ((n ++ "=""" ++ escape_attrib v ++ """") ++ s) with (n ++ String "=" (String """" (escape_attrib v ++ """" ++ s))) by (rewrite app_assoc_s; cbn [append]; rewrite app_assoc_s; reflexivity).
  pose proof (name_read n (proj2 N) "="%char (String """" (escape_attrib v ++ """" ++ s)) eq_refl) as R.
  destruct (name_head n N) as (a & m & -> & A & _).
  destruct (ends_not a A) as (W & E1 & E2 & E3).
  cbn [read_attrs]. cbn [append] in R |- *. rewrite W, E3. cbn [after]. rewrite eqb_swap, E2. rewrite R.
  cbn [after]. cbn [append] in Hv. change (Ascii.eqb "=" "=") with true. change (Ascii.eqb """" """") with true. cbn iota.
  rewrite Hv by lia. rewrite H by lia. reflexivity.
Qed.
Lemma attrs_all l s b r : Forall (fun kv => name (fst kv)) l -> attrs_at s [] b r -> attrs_at (attributes l ++ s) l b r.
Proof.
  intros F H. induction F as [|kv l N F IH]; [exact H|].
  unfold attributes in *. cbn [map fold_right]. rewrite app_assoc_s. apply attrs_more; assumption.
Qed.
Lemma attrs_close r : attrs_at (">" ++ r) [] false r.
Proof. exists 1. intros k' L. destruct k'; [lia|]. reflexivity. Qed.
Lemma attrs_empty r : attrs_at (" />" ++ r) [] true r.
Proof. exists 2. intros k' L. destruct k' as [|[|k']]; [lia|lia|]. reflexivity. Qed.

(** ** Content *)
Definition lay_char (a : ascii) : bool := Nat.eqb (nat_of_ascii a) 10 || Nat.eqb (nat_of_ascii a) 32.
Definition lay (s : string) : Prop := all_chars lay_char s = true.
Lemma cons_cons a s l : cons_text (String a "") (cons_text s l) = cons_text (String a s) l.
Proof. destruct s as [|b s]; [reflexivity|]. destruct l as [|[t|] l]; reflexivity. Qed.
Lemma content_char a s l r : Ascii.eqb a "<" = false -> Ascii.eqb a "&" = false -> Ascii.eqb a "]" = false -> content_at s l r -> content_at (String a s) (cons_text (String a "") l) r.
Proof.
  intros A B D [k H]. exists (S k). intros k' L. destruct k' as [|k']; [lia|].
  cbn [read_content after]. rewrite (eqb_swap "<" a), A, B, (eqb_swap "]" a), D. rewrite H by lia. reflexivity.
Qed.
Lemma content_lay t : lay t -> forall s l r, content_at s l r -> content_at (t ++ s) (cons_text t l) r.
Proof.
  unfold lay. induction t as [|a t IH]; cbn [all_chars]; intros T s l r H; [exact H|].
  apply andb_true_iff in T as [Ta T]. cbn [append]. rewrite <- cons_cons. apply content_char; [| | |auto].
  - unfold lay_char in Ta. apply orb_true_iff in Ta as [Ta|Ta]; apply eqb_nat in Ta; subst a; reflexivity.
  - unfold lay_char in Ta. apply orb_true_iff in Ta as [Ta|Ta]; apply eqb_nat in Ta; subst a; reflexivity.
  - unfold lay_char in Ta. apply orb_true_iff in Ta as [Ta|Ta]; apply eqb_nat in Ta; subst a; reflexivity.
Qed.
Lemma until_none mark t : mark <> "" -> ~ occurs mark t ->
  (forall a b m, t = a ++ b -> b <> "" -> after mark (b ++ mark ++ m) = None) -> forall r, until mark (t ++ mark ++ r) = Some (t, r).
Proof.
  intros M _ P r. induction t as [|a t IH].
  - cbn [append]. assert (A : after mark (mark ++ r) = Some r).
    { clear. induction mark as [|x m IH]; [destruct r; reflexivity|]. cbn. rewrite Ascii.eqb_refl. exact IH. }
    destruct mark as [|x m]; [congruence|]. cbn [append] in *. cbn [until]. rewrite A. reflexivity.
  - change (String a t ++ mark ++ r) with (String a (t ++ mark ++ r)). cbn [until].
    pose proof (P "" (String a t) r eq_refl ltac:(discriminate)) as Q. cbn [append] in Q. rewrite Q.
    rewrite IH; [reflexivity|]. intros a' b m E N. apply (P (String a a') b m); [cbn; congruence|exact N].
Qed.
Lemma after_self p r : after p (p ++ r) = Some r.
Proof. induction p as [|x p IH]; [destruct r; reflexivity|]. cbn. rewrite Ascii.eqb_refl. exact IH. Qed.
Lemma after_some p s r : after p s = Some r -> s = p ++ r.
Proof.
  revert s. induction p as [|a p IH]; intros s H; [destruct s; cbn in *; congruence|].
  destruct s as [|b s]; [discriminate|]. cbn in H. destruct (Ascii.eqb a b) eqn:E; [|discriminate].
  apply Ascii.eqb_eq in E. subst. cbn. rewrite <- (IH _ H). reflexivity.
Qed.
Lemma section_end t : ~ occurs "]]>" t -> forall r, until "]]>" (t ++ "]]>" ++ r) = Some (t, r).
Proof.
  intros N r. apply until_none; [discriminate|exact N|]. intros a b m E B.
  destruct (after "]]>" (b ++ "]]>" ++ m)) as [q|] eqn:A; [|reflexivity]. exfalso.
  apply after_some in A. destruct b as [|b1 [|b2 [|b3 b]]]; cbn in A.
  - congruence.
  - congruence.
  - congruence.
  - injection A as -> -> -> _. apply N. exists a, b. exact E.
Qed.
Lemma content_section t s l r : ~ occurs "]]>" t -> content_at s l r -> content_at (cdata_section t ++ s) (cons_text t l) r.
Proof.
  intros N [k H]. exists (S k). intros k' L. destruct k' as [|k']; [lia|].
  unfold cdata_section. replace (("<![CDATA[" ++ t ++ "]]>") ++ s) with ("<![CDATA[" ++ (t ++ "]]>" ++ s)) by (rewrite !app_assoc_s; reflexivity).
  pose proof (section_end t N s) as U. set (u := t ++ "]]>" ++ s) in *.
  cbn [read_content]. change (after "</" ("<![CDATA[" ++ u)) with (@None string).
  rewrite after_self.
  rewrite U. rewrite H by lia. reflexivity.
Qed.
Lemma content_end r : content_at ("</" ++ r) [] r.
Proof. exists 1. intros k' L. destruct k'; [lia|]. cbn [read_content]. rewrite after_self. reflexivity. Qed.
Lemma content_element n s e q l r : name n -> element_at ("<" ++ n ++ s) e q -> content_at q l r -> content_at ("<" ++ n ++ s) (e :: l) r.
Proof.
  intros N [k1 H1] [k2 H2]. exists (S (max k1 k2)). intros k' L. destruct k' as [|k']; [lia|].
  destruct (name_head n N) as (a & m & -> & A & B). destruct (ends_not a A) as (_ & _ & S & _).
  pose proof (H1 k' ltac:(lia)) as E. cbn [append] in E |- *. cbn [read_content after].
  change (Ascii.eqb "<" "<") with true. cbn iota. rewrite (eqb_swap "/" a), S, (eqb_swap "!" a), B.
  rewrite E. rewrite H2 by lia. reflexivity.
Qed.
Lemma element_empty n l r : name n -> Forall (fun kv => name (fst kv)) l -> element_at ("<" ++ n ++ attributes l ++ " />" ++ r) (Elem n l []) r.
Proof.
  intros N F. destruct (attrs_all l (" />" ++ r) true r F (attrs_empty r)) as [k H].
  exists (S k). intros k' L. destruct k' as [|k']; [lia|]. cbn [read_element]. rewrite after_self.
  assert (R : read_name (n ++ attributes l ++ " />" ++ r) = (n, attributes l ++ " />" ++ r)).
  { destruct l as [|kv l]; cbn [attributes map fold_right append]; apply name_read; try apply N; reflexivity. }
  rewrite R, H by lia. reflexivity.
Qed.
Lemma element_full n l s c r : name n -> Forall (fun kv => name (fst kv)) l -> content_at s c (n ++ ">" ++ r) -> element_at ("<" ++ n ++ attributes l ++ ">" ++ s) (Elem n l c) r.
Proof.
  intros N F [k2 H2]. destruct (attrs_all l (">" ++ s) false s F (attrs_close s)) as [k H].
  exists (S (max k k2)). intros k' L. destruct k' as [|k']; [lia|]. cbn [read_element]. rewrite after_self.
  assert (R : read_name (n ++ attributes l ++ ">" ++ s) = (n, attributes l ++ ">" ++ s)).
  { destruct l as [|kv l]; cbn [attributes map fold_right append]; apply name_read; try apply N; reflexivity. }
  rewrite R, H by lia. rewrite H2 by lia. rewrite <- app_assoc_s, after_self. reflexivity.
Qed.

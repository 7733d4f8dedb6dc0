(** Proofs about the symbols read: matching and occurrences. *)
From Coq Require Import String Ascii Bool Arith List ZArith Lia.
From Verif Require Import CatalogModel CatalogSpec CatalogProofs3 GenModel GenSpec GenProofs GenProofs2 SymbolModel SymbolSpec.
Import ListNotations.
Local Open Scope string_scope.

(** ** Texts *)
Fixpoint count (c : ascii) (s : string) : nat := match s with EmptyString => 0 | String a r => (if Ascii.eqb a c then 1 else 0) + count c r end.
Lemma count_app c a b : count c (a ++ b) = count c a + count c b.
Proof. induction a as [|x a IH]; cbn; [reflexivity|]. rewrite IH. lia. Qed.
Lemma all_chars_app f a b : all_chars f (a ++ b) = all_chars f a && all_chars f b.
Proof. induction a as [|x a IH]; cbn; [reflexivity|]. rewrite IH, andb_assoc. reflexivity. Qed.
Lemma all_chars_imp (f g : ascii -> bool) s : (forall a, f a = true -> g a = true) -> all_chars f s = true -> all_chars g s = true.
Proof. intros H. induction s as [|a s IH]; cbn; auto. rewrite !andb_true_iff. intros [A B]; auto. Qed.
Lemma all_all_chars f s : all f s = all_chars f s.
Proof. induction s as [|a s IH]; cbn; [reflexivity|]. rewrite IH. reflexivity. Qed.
Lemma count_all c f s : f c = false -> all_chars f s = true -> count c s = 0.
Proof. intros H. induction s as [|a s IH]; cbn; auto. rewrite andb_true_iff. intros [A B]. ascii_cases a c; [subst; congruence|]. auto. Qed.
Lemma count_none_in c s : count c s = 0 -> ~ char_in c s.
Proof. intros H (a & b & ->). rewrite !count_app in H. cbn in H. rewrite Ascii.eqb_refl in H. lia. Qed.
Lemma one_line_dots s : one_line s <-> all_chars dot s = true.
Proof.
  unfold one_line, char_in. induction s as [|a s IH]; cbn.
  - split; auto. intros _ (x & y & E). destruct x; discriminate.
  - rewrite andb_true_iff, <- IH. unfold dot. rewrite negb_true_iff, Nat.eqb_neq. split.
    + intros H. split.
      * intros E. apply H. assert (Ea : a = ascii_of_nat 10) by (rewrite <- E; symmetry; apply ascii_nat_embedding). rewrite Ea. exists "", s. reflexivity.
      * intros (x & y & ->). apply H. exists (String a x), y. reflexivity.
    + intros [H1 H2] (x & y & E). destruct x as [|c x]; cbn in E; injection E; intros; subst.
      * apply H1. reflexivity.
      * apply H2. exists x, y. reflexivity.
Qed.
Lemma app_split (a b c d : string) : a ++ b = c ++ d -> (exists z, c = a ++ z /\ b = z ++ d) \/ (exists x z, a = c ++ String x z /\ d = String x z ++ b).
Proof.
  revert c. induction a as [|x a IH]; intros c E.
  - left. exists c. auto.
  - destruct c as [|y c]; cbn in E.
    + right. exists x, a. split; auto.
    + injection E as -> E. destruct (IH c E) as [(z & -> & ->)|(q & z & -> & ->)].
      * left. exists z. auto.
      * right. exists q, z. auto.
Qed.
Lemma app_len_eq (a b c d : string) : a ++ b = c ++ d -> String.length b = String.length d -> a = c /\ b = d.
Proof.
  intros E L. destruct (app_split _ _ _ _ E) as [(z & -> & ->)|(x & z & -> & ->)].
  - rewrite slength_app in L. destruct z; cbn in L; [|lia]. rewrite sapp_nil. auto.
  - rewrite slength_app in L. cbn in L. lia.
Qed.
Lemma occurs_app_l p a s : occurs p s -> occurs p (a ++ s).
Proof. intros (x & y & ->). exists (a ++ x), y. rewrite !sapp_assoc. reflexivity. Qed.
Lemma occurs_app_r p a s : occurs p a -> occurs p (a ++ s).
Proof. intros (x & y & ->). exists x, (y ++ s). rewrite !sapp_assoc. reflexivity. Qed.
Lemma occurs_len p s : occurs p s -> String.length p <= String.length s.
Proof. intros (x & y & ->). rewrite !slength_app. lia. Qed.
(** A boolean for concrete texts. *)
Fixpoint occursb (p s : string) : bool := String.prefix p s || match s with EmptyString => false | String _ r => occursb p r end.
Lemma prefix_app p s : String.prefix p (p ++ s) = true.
Proof. induction p as [|a p IH]; cbn; [destruct s; reflexivity|]. destruct (ascii_dec a a); congruence. Qed.
Lemma occursb_eq p s : occursb p s = String.prefix p s || match s with EmptyString => false | String _ r => occursb p r end.
Proof. destruct s; reflexivity. Qed.
Lemma occurs_b p s : occurs p s -> occursb p s = true.
Proof.
  intros (a & b & ->). induction a as [|x a IH]; cbn [append]; rewrite occursb_eq.
  - rewrite prefix_app. reflexivity.
  - rewrite IH. apply orb_true_r.
Qed.
(** A text whose only opening bracket is its last character, with no comma, no
    closing bracket and no space in front. *)
Record mark (p : string) : Prop := {
  mk_shape : exists q, p = q ++ "<" /\ count "<" q = 0;
  mk_comma : count "," p = 0; mk_close : count ">" p = 0;
  mk_first : forall r, p <> String " " r
}.
Lemma occurs_cut p x y : mark p -> occurs p (x ++ String "<" y) -> occurs p (x ++ "<") \/ occurs p y.
Proof.
  intros [(q & -> & Hq) _ _ _] (a & b & E).
  assert (E' : x ++ String "<" y = (a ++ q) ++ String "<" b) by (rewrite E, !sapp_assoc; reflexivity). clear E.
  destruct (app_split _ _ _ _ E') as [(z & E1 & E2)|(c & z & E1 & E2)].
  - destruct z as [|c z]; cbn in E2; injection E2 as E2.
    + left. exists a, "". rewrite sapp_nil in *. rewrite <- E1, <- sapp_assoc. reflexivity.
    + right. symmetry in E1. subst y c. destruct (app_split _ _ _ _ (eq_sym E1)) as [(w & -> & E3)|(d & w & -> & E3)].
      * exfalso. rewrite E3, count_app in Hq. cbn in Hq. lia.
      * cbn in E3. injection E3 as <- ->. exists w, b. rewrite !sapp_assoc. reflexivity.
  - left. injection E2 as <- ->. subst x. exists a, (z ++ "<"). rewrite !sapp_assoc. reflexivity.
Qed.
Lemma occurs_at p c x y : count c p = 0 -> occurs p (x ++ String c y) -> occurs p x \/ occurs p y.
Proof.
  intros Hc (a & b & E). destruct (app_split _ _ _ _ E) as [(z & -> & E2)|(d & z & -> & E2)].
  - destruct z as [|d z]; cbn in E2.
    + destruct p as [|e p]; [left; exists x, ""; rewrite !sapp_nil; reflexivity|]. cbn in E2. injection E2 as <- _. cbn in Hc. rewrite Ascii.eqb_refl in Hc. discriminate.
    + injection E2 as <- ->. right. exists z, b. reflexivity.
  - symmetry in E2. destruct (app_split _ _ _ _ E2) as [(w & E3 & E4)|(e & w & E3 & E4)].
    + left. destruct w as [|e w]; cbn in E4.
      * exists a, "". rewrite sapp_nil in *. subst p. reflexivity.
      * exfalso. injection E4 as <- _. rewrite E3, count_app in Hc. cbn [count] in Hc. rewrite Ascii.eqb_refl in Hc. lia.
    + left. exists a, (String e w). rewrite E3. reflexivity.
Qed.
Lemma occurs_head p a s : (forall r, p <> String a r) -> p <> "" -> occurs p (String a s) -> occurs p s.
Proof.
  intros H0 H1 (x & y & E). destruct x as [|b x]; cbn in E.
  - destruct p as [|b p]; [congruence|]. injection E as <- _. destruct (H0 p). reflexivity.
  - injection E as _ ->. exists x, y. reflexivity.
Qed.
Lemma mark_ne p : mark p -> p <> "".
Proof. intros [(q & -> & _) _ _ _]. destruct q; discriminate. Qed.
Lemma mark_angle p : mark p -> count "<" p = 1.
Proof. intros [(q & -> & H) _ _ _]. rewrite count_app, H. reflexivity. Qed.
Lemma occurs_no_angle p s : mark p -> count "<" s = 0 -> ~ occurs p s.
Proof. intros H Hs (a & b & ->). rewrite !count_app, (mark_angle p H) in Hs. lia. Qed.
(** Occurrences of a mark are no later than the last one. *)
Lemma last_occ p x y x' y' : mark p -> ~ occurs p y -> x ++ p ++ y = x' ++ p ++ y' -> exists z, x = x' ++ z.
Proof.
  intros Hm Hf E. destruct (app_split _ _ _ _ E) as [(z & -> & E2)|(c & z & -> & _)].
  - destruct z as [|c z]; [exists ""; rewrite !sapp_nil; reflexivity|]. exfalso.
    destruct (mk_shape p Hm) as (q & Ep & Hq).
    destruct q as [|b q].
    + rewrite Ep in E2 at 1. cbn in E2. injection E2 as _ E2. apply Hf. rewrite E2. exists z, y'. reflexivity.
    + rewrite Ep in E2 at 1. cbn in E2. injection E2 as _ E2. rewrite sapp_assoc in E2. cbn in E2.
      assert (Ho' : occurs p (q ++ String "<" y)) by (rewrite E2; exists z, y'; reflexivity).
      destruct (occurs_cut p q y Hm Ho') as [H|H]; [|auto]. apply occurs_len in H. rewrite Ep, !slength_app in H. cbn in H. lia.
  - exists (String c z). reflexivity.
Qed.
(** ** Matching *)
Fixpoint leaves (r : re) (s t : string) : Prop :=
  match r with
  | Eps => s = t
  | One p => exists a, p a = true /\ s = String a t
  | Many _ p => exists u, all_chars p u = true /\ s = u ++ t
  | Seq a b => exists m, leaves a s m /\ leaves b m t
  | Alt a b => leaves a s t \/ leaves b s t
  | Grp _ a => leaves a s t
  | Eos => s = t /\ (s = "" \/ s = String (ascii_of_nat 10) "")
  end.
Section M.
Context {R : Type}.
Implicit Types (k : string -> groups -> option R) (x : R).
Lemma many_sound greedy p (k : string -> option R) s x : many greedy p k s = Some x -> exists u t, all_chars p u = true /\ s = u ++ t /\ k t = Some x.
Proof.
  induction s as [|a s IH]; cbn [many]; intros H.
  - exists "", "". auto.
  - destruct (p a) eqn:Ep; [|exists "", (String a s); auto].
    assert (D : many greedy p k s = Some x \/ k (String a s) = Some x).
    { destruct greedy; unfold or_else in H; [destruct (many true p k s)|destruct (k (String a s))]; auto. }
    destruct D as [D|D]; [|exists "", (String a s); auto]. destruct (IH D) as (u & t & H1 & -> & H3).
    exists (String a u), t. cbn. rewrite Ep, H1. auto.
Qed.
Lemma mtch_sound r : forall s g k x, mtch r s g k = Some x -> exists t h, leaves r s t /\ k t h = Some x.
Proof.
  induction r as [|p|greedy p|a IHa b IHb|a IHa b IHb|n a IHa|]; intros s g k x H; cbn [mtch leaves] in *.
  - eauto.
  - destruct s as [|a s]; [discriminate|]. destruct (p a) eqn:E; [|discriminate]. exists s, g. split; eauto.
  - apply many_sound in H. destruct H as (u & t & H1 & H2 & H3). exists t, g. split; eauto.
  - apply IHa in H. destruct H as (m & h & H1 & H2). apply IHb in H2. destruct H2 as (t & h' & H2 & H3). exists t, h'. split; eauto.
  - unfold or_else in H. destruct (mtch a s g k) eqn:E.
    + injection H as <-. apply IHa in E. destruct E as (t & h & H1 & H2). exists t, h. auto.
    + apply IHb in H. destruct H as (t & h & H1 & H2). exists t, h. auto.
  - apply IHa in H. destruct H as (t & h & H1 & H2). eauto.
  - destruct s as [|a [|b s]].
    + exists "", g. auto.
    + destruct (Nat.eqb_spec (nat_of_ascii a) 10) as [E|E]; [|discriminate]. exists (String a ""), g. split; auto. split; auto. right. rewrite <- E, ascii_nat_embedding. reflexivity.
    + discriminate.
Qed.
Lemma mtch_none r s g k : (forall t, leaves r s t -> False) -> mtch r s g k = None.
Proof. intros H. destruct (mtch r s g k) eqn:E; auto. apply mtch_sound in E. destruct E as (t & h & H1 & _). destruct (H t H1). Qed.
Lemma many_greedy p (k : string -> option R) u t x : all_chars p u = true -> k t = Some x ->
  (forall c v w, t = String c v ++ w -> p c = true -> k w = None) -> many true p k (u ++ t) = Some x.
Proof.
  intros Hu Hk Hf. induction u as [|a u IH]; cbn [append].
  - destruct t as [|a t]; cbn [many]; auto. destruct (p a) eqn:Ep; auto.
    destruct (many true p k t) eqn:E; cbn [or_else]; auto. apply many_sound in E. destruct E as (v & w & _ & -> & E).
    specialize (Hf a v w eq_refl Ep). congruence.
  - cbn in Hu. apply andb_true_iff in Hu. destruct Hu as [H1 Hu]. cbn [many]. rewrite H1, IH by auto. reflexivity.
Qed.
Lemma many_lazy p (k : string -> option R) u t x : all_chars p u = true -> k t = Some x ->
  (forall v c w, u = v ++ String c w -> k (String c w ++ t) = None) -> many false p k (u ++ t) = Some x.
Proof.
  intros Hu Hk Hf. induction u as [|a u IH]; cbn [append].
  - destruct t as [|a t]; cbn [many]; auto. destruct (p a); auto. rewrite Hk. reflexivity.
  - cbn in Hu. apply andb_true_iff in Hu. destruct Hu as [H1 Hu]. cbn [many]. rewrite H1, (Hf "" a u eq_refl : k (String a (u ++ t)) = None). cbn [or_else].
    apply IH; auto. intros v c w ->. apply (Hf (String a v) c w eq_refl).
Qed.
Lemma m_lit l t g k : mtch (lit l) (l ++ t) g k = k t g.
Proof. induction l as [|a l IH]; cbn; auto. rewrite Ascii.eqb_refl. apply IH. Qed.
Lemma leaves_lit l s t : leaves (lit l) s t -> s = l ++ t.
Proof. revert s. induction l as [|a l IH]; cbn; intros s H; auto. destruct H as (m & (b & Hb & ->) & H). apply Ascii.eqb_eq in Hb. subst b. rewrite (IH m H). reflexivity. Qed.
Lemma between_app u t : between (u ++ t) t = u.
Proof.
  unfold between. rewrite slength_app. replace (String.length u + String.length t - String.length t) with (String.length u) by lia.
  induction u as [|a u IH]; cbn; [destruct t; reflexivity|]. rewrite IH. reflexivity.
Qed.
Lemma m_grp n a u t g k x : mtch a (u ++ t) g (fun t' h => k t' ((n, between (u ++ t) t') :: h)%list) = Some x -> mtch (Grp n a) (u ++ t) g k = Some x.
Proof. auto. Qed.
Lemma m_any n u t g k x : all_chars dot u = true -> k t ((n, u) :: g)%list = Some x ->
  (forall c v w h, t = String c v ++ w -> k w h = None) -> mtch (Grp n any) (u ++ t) g k = Some x.
Proof.
  intros Hu Hk Hf. cbn [mtch]. unfold any. cbn [mtch]. apply many_greedy; auto.
  - rewrite between_app. exact Hk.
  - intros c v w E _. eapply Hf, E.
Qed.
(** A class repeated as far as it goes. *)
Lemma m_all n p u t g k x : all_chars p u = true -> match t with String a _ => p a = false | _ => True end -> k t ((n, u) :: g)%list = Some x ->
  mtch (Grp n (Many true p)) (u ++ t) g k = Some x.
Proof.
  intros Hu Ht Hk. cbn [mtch]. apply many_greedy; auto; [rewrite between_app; exact Hk|]. intros c v w -> Hc. cbn in Ht. congruence.
Qed.
Lemma m_blanks u t g k x : all_chars is_space u = true -> match t with String a _ => is_space a = false | _ => True end -> k t g = Some x -> mtch blanks (u ++ t) g k = Some x.
Proof. intros Hu Ht Hk. unfold blanks. cbn [mtch]. apply many_greedy; auto. intros c v w -> Hc. cbn in Ht. congruence. Qed.
Lemma str_shape n : (exists d ds, str n = String d ds /\ is_digit d = true /\ all_chars is_digit ds = true) \/
  (exists d ds, str n = String "-" (String d ds) /\ is_digit d = true /\ all_chars is_digit ds = true).
Proof.
  assert (W : forall s m, writes 10 s m -> exists d ds, s = String d ds /\ is_digit d = true /\ all_chars is_digit ds = true).
  { intros s m H. pose proof (writes10_digits s m H) as A. rewrite all_all_chars in A. pose proof (writes_nonempty 10 s m ltac:(lia) H) as N.
    destruct s as [|d ds]; [congruence|]. cbn in A. apply andb_true_iff in A. exists d, ds. tauto. }
  destruct (Z_lt_le_dec n 0) as [H|H].
  - right. destruct (str_neg n H) as (t & -> & Ht & _). destruct (W _ _ Ht) as (d & ds & -> & ?). eauto.
  - left. destruct (str_writes n H) as [Ht _]. destruct (W _ _ Ht) as (d & ds & E & ?). eauto.
Qed.
Lemma m_number n m t g k x : match t with String a _ => is_digit a = false | _ => True end -> k t ((n, str m) :: g)%list = Some x ->
  mtch (Grp n number) (str m ++ t) g k = Some x.
Proof.
  intros Ht Hk. cbn [mtch]. unfold number. cbn [seqs mtch].
  assert (D : forall h d ds (k' : string -> groups -> option R), is_digit d = true -> all_chars is_digit ds = true -> k' t h = Some x ->
    (if is_digit d then many true is_digit (fun t0 => k' t0 h) (ds ++ t) else None) = Some x).
  { intros h d ds k' Hd Hds Hk'. rewrite Hd. apply many_greedy; auto. intros c v w -> Hc. cbn in Ht. congruence. }
  destruct (str_shape m) as [(d & ds & E & Hd & Hds)|(d & ds & E & Hd & Hds)]; rewrite E in *; cbn [append].
  - cbn [lit mtch]. destruct (Ascii.eqb_spec "-" d) as [<-|_]; [discriminate|]. cbn [or_else].
    apply (D g d ds (fun t' h => k t' ((n, between (String d (ds ++ t)) t') :: h)%list)); auto. cbv beta. change (String d (ds ++ t)) with (String d ds ++ t). rewrite between_app. exact Hk.
  - cbn [lit mtch]. rewrite Ascii.eqb_refl.
    rewrite (D g d ds (fun t' h => k t' ((n, between (String "-" (String d (ds ++ t))) t') :: h)%list)); auto. cbv beta. change (String "-" (String d (ds ++ t))) with (String "-" (String d ds) ++ t). rewrite between_app. exact Hk.
Qed.
Lemma m_one_of n a b u t g k x : (u = a \/ u = b /\ (forall r, u ++ t <> a ++ r)) -> k t ((n, u) :: g)%list = Some x -> mtch (Grp n (Alt (lit a) (lit b))) (u ++ t) g k = Some x.
Proof.
  intros D Hk. cbn [mtch]. destruct D as [->|[-> D]].
  - rewrite m_lit, between_app, Hk. reflexivity.
  - rewrite mtch_none; [|intros r H; apply leaves_lit in H; destruct (D r H)]. cbn [or_else]. rewrite m_lit, between_app. exact Hk.
Qed.
End M.

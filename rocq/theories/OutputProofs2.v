(** Proofs: the whole collateral. *)
From Coq Require Import String Ascii Bool Arith ZArith NArith List Lia.
From Verif Require Import GenModel GenSpec OutputModel OutputSpec OutputProofs.
From Verif Require GenProofs2.
Import ListNotations.
Local Open Scope list_scope.
Local Open Scope string_scope.

(** ** Characters of the file *)
Definition ok (a : ascii) : bool := xml_char a && negb (Nat.eqb (nat_of_ascii a) 13).
Lemma all_app p a b : all_chars p (a ++ b) = all_chars p a && all_chars p b.
Proof. induction a as [|x a IH]; cbn [append all_chars]; [reflexivity|]. rewrite IH, andb_assoc. reflexivity. Qed.
Lemma all_impl (p q : ascii -> bool) s : (forall a, p a = true -> q a = true) -> all_chars p s = true -> all_chars q s = true.
Proof. intros I. induction s as [|x s IH]; cbn [all_chars]; [auto|]. intros H. apply andb_true_iff in H as [A B]. rewrite (I _ A), IH by exact B. reflexivity. Qed.
Lemma all_char_in p s : (forall a, char_in a s -> p a = true) -> all_chars p s = true.
Proof.
  induction s as [|x s IH]; cbn [all_chars]; intros H; [reflexivity|]. rewrite (H x), IH; [reflexivity| |].
  - intros a (u & v & ->). apply H. exists (String x u), v. reflexivity.
  - exists "", s. reflexivity.
Qed.
Lemma char_in_all p s a : all_chars p s = true -> char_in a s -> p a = true.
Proof. intros H (u & v & ->). rewrite all_app in H. apply andb_true_iff in H as [_ H]. cbn [append all_chars] in H. apply andb_true_iff in H as [H _]. exact H. Qed.
Lemma ok_text t : legal t -> ~ has_cr t -> all_chars ok t = true.
Proof.
  intros L N. apply all_char_in. intros a A. unfold ok. rewrite (char_in_all _ _ _ L A).
  destruct (Nat.eqb (nat_of_ascii a) 13) eqn:E; [|reflexivity]. apply eqb_nat in E. subst a. contradiction.
Qed.
Lemma ok_escape v : legal v -> all_chars ok (escape_attrib v) = true.
Proof.
  unfold legal. induction v as [|a v IH]; cbn [all_chars escape_attrib]; [reflexivity|]. intros H. apply andb_true_iff in H as [A B].
  rewrite all_app, IH by exact B. rewrite andb_true_r. unfold escape_char.
  destruct (Ascii.eqb a "&"); [reflexivity|]. destruct (Ascii.eqb a "<"); [reflexivity|]. destruct (Ascii.eqb a ">"); [reflexivity|].
  destruct (Ascii.eqb a """"); [reflexivity|]. destruct (Nat.eqb (nat_of_ascii a) 13) eqn:E; [reflexivity|].
  destruct (Nat.eqb (nat_of_ascii a) 10); [reflexivity|]. destruct (Nat.eqb (nat_of_ascii a) 9); [reflexivity|].
  cbn [all_chars]. unfold ok. rewrite A, E. reflexivity.
Qed.
Lemma ok_name n : name n -> all_chars ok n = true.
Proof.
  intros [_ N]. revert N. apply all_impl. intros a. unfold name_char, ok, xml_char, ends_name, white.
  intros H. apply andb_true_iff in H as [H G]. apply andb_true_iff in H as [H _]. rewrite G, !orb_true_r.
  destruct (Nat.eqb (nat_of_ascii a) 13); [|reflexivity]. rewrite !orb_true_r in H. discriminate.
Qed.
Lemma ok_lay t : lay t -> all_chars ok t = true.
Proof.
  apply all_impl. intros a. unfold lay_char. intros H. apply orb_true_iff in H as [H|H]; apply eqb_nat in H; subst a; reflexivity.
Qed.
Lemma white_lay t : lay t -> all_chars white t = true.
Proof.
  apply all_impl. intros a. unfold lay_char. intros H. apply orb_true_iff in H as [H|H]; apply eqb_nat in H; subst a; reflexivity.
Qed.
Definition good_attr (kv : string * string) : Prop := name (fst kv) /\ legal (snd kv).
Lemma ok_attributes l : Forall good_attr l -> all_chars ok (attributes l) = true.
Proof.
  intros F. unfold attributes. induction F as [|kv l [N L] F IH]; [reflexivity|]. cbn [map fold_right]. rewrite all_app, IH, andb_true_r.
  rewrite !all_app, (ok_name _ N), (ok_escape _ L). reflexivity.
Qed.
Lemma line_ends_ok s : all_chars ok s = true -> line_ends s = s.
Proof.
  induction s as [|a s IH]; cbn [all_chars line_ends]; [reflexivity|]. intros H. apply andb_true_iff in H as [A B].
  unfold ok in A. destruct (Nat.eqb (nat_of_ascii a) 13); [rewrite andb_false_r in A; discriminate|]. rewrite IH by exact B. reflexivity.
Qed.
Lemma amp_none s : all_chars (fun a => negb (Ascii.eqb a "&")) s = true -> amp s = s.
Proof. induction s as [|a s IH]; cbn [all_chars amp]; [reflexivity|]. intros H. apply andb_true_iff in H as [A B]. destruct (Ascii.eqb a "&"); [discriminate|]. rewrite IH by exact B. reflexivity. Qed.
Lemma amp_lay t : lay t -> amp t = t.
Proof. intros H. apply amp_none. revert H. apply all_impl. intros a. unfold lay_char. intros H. apply orb_true_iff in H as [H|H]; apply eqb_nat in H; subst a; reflexivity. Qed.
Lemma amp_section t : amp (cdata_section t) = cdata_section (amp t).
Proof. unfold cdata_section. rewrite !GenProofs2.amp_app. reflexivity. Qed.
Lemma amp_ok t : all_chars ok t = true -> all_chars ok (amp t) = true.
Proof.
  induction t as [|a t IH]; cbn [all_chars amp]; [reflexivity|]. intros H. apply andb_true_iff in H as [A B].
  destruct (Ascii.eqb a "&"); [exact (IH B)|]. cbn [all_chars]. rewrite A. exact (IH B).
Qed.

(** ** Elements and what they show *)
Inductive shows : element -> xml -> Prop :=
| shows_empty n a : name n -> Forall good_attr a -> shows (Element n a "" [] "") (Elem n a [])
| shows_text n a t : name n -> Forall good_attr a -> closed t -> legal t -> ~ has_cr t -> shows (Element n a (cdata_section t) [] "") (Elem n a (content_of (amp t)))
| shows_parent n a c cs x xs : name n -> Forall good_attr a -> shows c x -> Forall2 shows cs xs -> shows (Element n a "" (c :: cs) "") (Elem n a (x :: xs)).
Section ShowsInd.
  Variable P : element -> xml -> Prop.
  Hypothesis H1 : forall n a, name n -> Forall good_attr a -> P (Element n a "" [] "") (Elem n a []).
  Hypothesis H2 : forall n a t, name n -> Forall good_attr a -> closed t -> legal t -> ~ has_cr t -> P (Element n a (cdata_section t) [] "") (Elem n a (content_of (amp t))).
  Hypothesis H3 : forall n a c cs x xs, name n -> Forall good_attr a -> P c x -> Forall2 P cs xs -> P (Element n a "" (c :: cs) "") (Elem n a (x :: xs)).
  Fixpoint shows_rect' e x (h : shows e x) {struct h} : P e x :=
    match h with
    | shows_empty n a N A => H1 n a N A
    | shows_text n a t N A B C D => H2 n a t N A B C D
    | shows_parent n a c cs x xs N A h hs =>
      H3 n a c cs x xs N A (shows_rect' c x h)
        ((fix go cs xs (hs : Forall2 shows cs xs) : Forall2 P cs xs :=
            match hs with Forall2_nil _ => Forall2_nil _ | Forall2_cons c x h hs => Forall2_cons c x (shows_rect' c x h) (go _ _ hs) end) cs xs hs)
    end.
End ShowsInd.

(** The file of an element, its layout and what is read. *)
Definition reads_with (t : string) (k : element) (x : xml) : Prop :=
  exists body e', lay t /\ serialize k = body ++ t /\ all_chars ok body = true /\ (exists n q, name n /\ body = "<" ++ n ++ q) /\
    is_elem e' = true /\ without_layout e' = x /\ forall rest, element_at (body ++ rest) e' rest.
Definition reads_as (k : element) (x : xml) : Prop := exists t, reads_with t k x.
Definition no_text_first (l : list xml) : Prop := match l with Text _ :: _ => False | _ => True end.
Definition all_serialized (l : list element) : string := fold_right append EmptyString (map serialize l).
Lemma filter_layout t l : lay t -> no_text_first l -> filter (fun y => negb (is_layout y)) (map without_layout (cons_text t l)) = filter (fun y => negb (is_layout y)) (map without_layout l).
Proof.
  intros T N. destruct t as [|a t]; [reflexivity|]. destruct l as [|[u|] l]; [|contradiction|];
    cbn [cons_text map without_layout filter is_layout]; rewrite (white_lay _ T); reflexivity.
Qed.
Lemma exists_elem t l : no_text_first l -> existsb is_elem (cons_text t l) = existsb is_elem l.
Proof. intros N. destruct t as [|a t]; [reflexivity|]. destruct l as [|[u|] l]; [reflexivity|contradiction|reflexivity]. Qed.
Lemma layout_elem e : is_elem e = true -> is_layout (without_layout e) = false.
Proof. destruct e; [discriminate|reflexivity]. Qed.
Lemma kids_read kids xs : Forall2 reads_as kids xs ->
  exists l, no_text_first l /\ (forall rest, content_at (all_serialized kids ++ "</" ++ rest) l rest) /\
    filter (fun y => negb (is_layout y)) (map without_layout l) = xs /\ (kids <> [] -> existsb is_elem l = true) /\ all_chars ok (all_serialized kids) = true.
Proof.
  induction 1 as [|k x kids xs (t & body & e' & T & S & O & (n & q & N & B) & E & W & R) F IH].
  - exists []. repeat split; [|congruence]. intros rest. apply content_end.
  - destruct IH as (l & L & C & Fl & _ & O2). exists (e' :: cons_text t l).
    unfold all_serialized. cbn [map fold_right]. fold (all_serialized kids). rewrite S.
    split; [destruct e'; [discriminate|exact I]|]. split; [|split; [|split]].
    + intros rest. replace (((body ++ t) ++ all_serialized kids) ++ "</" ++ rest) with (body ++ (t ++ all_serialized kids ++ "</" ++ rest)) by (rewrite !app_assoc_s; reflexivity).
      specialize (R (t ++ all_serialized kids ++ "</" ++ rest)).
      rewrite B in R |- *. rewrite !app_assoc_s in R |- *.
      eapply content_element; [exact N|exact R|]. apply content_lay; [exact T|]. apply C.
    + cbn [map filter]. rewrite (layout_elem _ E), W. cbn [negb]. rewrite filter_layout by assumption. rewrite Fl. reflexivity.
    + intros _. cbn [existsb]. rewrite E. reflexivity.
    + rewrite !all_app, O, O2, (ok_lay _ T). reflexivity.
Qed.

Lemma lay_indentation level : lay (indentation level).
Proof. unfold lay, indentation. rewrite all_app. change (all_chars lay_char (blanks level) = true). induction level as [|k IH]; [reflexivity|]. exact IH. Qed.
Lemma blank_lay t : lay t -> blank t = true.
Proof.
  unfold lay. induction t as [|a t IH]; cbn [all_chars blank]; [reflexivity|]. intros H. apply andb_true_iff in H as [A B]. rewrite IH by exact B. rewrite andb_true_r.
  unfold lay_char in A. apply orb_true_iff in A as [A|A]; apply eqb_nat in A; subst a; reflexivity.
Qed.
Lemma with_tail_twice t u e : with_tail t (with_tail u e) = with_tail t e.
Proof. destruct e; reflexivity. Qed.
Lemma tail_with t e : e_tail (with_tail t e) = t.
Proof. destruct e; reflexivity. Qed.
Lemma shows_tail e x : shows e x -> e_tail e = "".
Proof. destruct 1; reflexivity. Qed.
Definition kid_of level c k := exists t, lay t /\ k = with_tail t (indent_children (S level) c).
Lemma last_tail_kids level cs : (forall c, In c cs -> e_tail c = "") ->
  Forall2 (kid_of level) cs (last_tail level (map (fun c => with_tail (set_blank (indentation (S level)) (e_tail c)) (indent_children (S level) c)) cs)).
Proof.
  induction cs as [|c cs IH]; intros T; [constructor|].
  assert (T0 := T c (or_introl eq_refl)). assert (IH' := IH (fun c' i => T c' (or_intror i))).
  cbn [map]. destruct cs as [|c2 cs].
  - cbn [map last_tail]. constructor; [|constructor]. rewrite T0, tail_with, with_tail_twice. exists (indentation level).
    split; [apply lay_indentation|]. unfold set_blank at 1. change (set_blank (indentation (S level)) "") with (indentation (S level)).
    rewrite (blank_lay _ (lay_indentation (S level))). reflexivity.
  - cbn [map] in *. cbn [last_tail]. constructor; [|exact IH']. exists (indentation (S level)). rewrite T0. split; [apply lay_indentation|reflexivity].
Qed.

Lemma serialize_full n a text ch tail : text <> "" \/ ch <> [] ->
  serialize (Element n a text ch tail) = "<" ++ n ++ attributes a ++ (">" ++ amp text ++ all_serialized ch ++ "</" ++ n ++ ">") ++ amp tail.
Proof. intros H. cbn [serialize]. destruct text, ch; try reflexivity. destruct H; congruence. Qed.
Theorem shows_reads e x : shows e x -> e_tail e = "" /\ forall level t, lay t -> reads_with t (with_tail t (indent_children level e)) x.
Proof.
  intros Sh. induction Sh as [n a N A|n a u N A P2 L C|n a c cs x xs N A IHc IHs] using shows_rect'; (split; [reflexivity|]); intros level t T.
  - exists ("<" ++ n ++ attributes a ++ " />"), (Elem n a []).
    split; [exact T|]. split; [|split; [|split; [|split; [|split]]]].
    + cbn [indent_children with_tail serialize]. fold (attributes a). rewrite (amp_lay _ T), !app_assoc_s. reflexivity.
    + rewrite !all_app, (ok_name _ N), (ok_attributes _ A). reflexivity.
    + exists n, (attributes a ++ " />"). auto.
    + reflexivity.
    + reflexivity.
    + intros rest. rewrite !app_assoc_s. apply element_empty; [exact N|]. eapply Forall_impl; [|exact A]. intros kv [K _]. exact K.
  - exists ("<" ++ n ++ attributes a ++ ">" ++ cdata_section (amp u) ++ "</" ++ n ++ ">"), (Elem n a (content_of (amp u))).
    split; [exact T|]. split; [|split; [|split; [|split; [|split]]]].
    + cbn [indent_children with_tail]. rewrite serialize_full by (left; discriminate). rewrite (amp_lay _ T), amp_section. unfold all_serialized. cbn [map fold_right].
      rewrite !app_assoc_s. cbn [append]. reflexivity.
    + unfold cdata_section. rewrite !all_app, (ok_name _ N), (ok_attributes _ A), (amp_ok _ (ok_text _ L C)). reflexivity.
    + eexists n, _. split; [exact N|reflexivity].
    + reflexivity.
    + unfold content_of. destruct (amp u); reflexivity.
    + intros rest. rewrite !app_assoc_s. apply element_full; [exact N|eapply Forall_impl; [|exact A]; intros kv [K _]; exact K|].
      apply content_section; [intros Oc; apply P2; apply GenProofs2.amp_mark_fwd; exact Oc|]. rewrite <- (app_assoc_s n). rewrite <- app_assoc_s. apply content_end.
  - assert (Tl : forall k, In k (c :: cs) -> e_tail k = "").
    { intros k [<-|I]; [apply IHc|]. clear IHc. induction IHs as [|c' x' cs' xs' [K _] _ IH]; [contradiction|]. destruct I as [<-|I]; [exact K|auto]. }
    assert (Al : Forall2 (fun e x => forall level t, lay t -> reads_with t (with_tail t (indent_children level e)) x) (c :: cs) (x :: xs)).
    { constructor; [apply IHc|]. clear -IHs. induction IHs as [|c' x' cs' xs' [_ K] _ IH]; constructor; auto. }
    clear IHc IHs. pose proof (last_tail_kids level (c :: cs) Tl) as K.
    cbn [indent_children]. change (set_blank (indentation (S level)) "") with (indentation (S level)).
    set (kids := last_tail level _) in *.
    assert (R : Forall2 reads_as kids (x :: xs)).
    { clearbody kids. revert Al. generalize (x :: xs). clear -K. induction K as [|c' k cs' ks (u & U & ->) K IH]; intros ys Al; inversion Al; subst; constructor; [exists u; auto|auto]. }
    assert (Ne : kids <> []) by (intros E; rewrite E in R; inversion R).
    destruct (kids_read kids (x :: xs) R) as (l & Nt & Cl & Fl & Ex & Ok). specialize (Ex Ne).
    pose proof (lay_indentation (S level)) as Li.
    exists ("<" ++ n ++ attributes a ++ ">" ++ indentation (S level) ++ all_serialized kids ++ "</" ++ n ++ ">"), (Elem n a (cons_text (indentation (S level)) l)).
    split; [exact T|]. split; [|split; [|split; [|split; [|split]]]].
    + cbn [with_tail]. rewrite serialize_full by (right; exact Ne). rewrite (amp_lay _ T), (amp_lay _ Li), !app_assoc_s. cbn [append]. rewrite ?app_assoc_s. reflexivity.
    + rewrite !all_app, (ok_name _ N), (ok_attributes _ A), (ok_lay _ Li), Ok. reflexivity.
    + eexists n, _. split; [exact N|reflexivity].
    + reflexivity.
    + cbn [without_layout]. rewrite exists_elem, Ex by exact Nt. rewrite filter_layout by assumption. rewrite Fl. reflexivity.
    + intros rest. rewrite !app_assoc_s. apply element_full; [exact N|eapply Forall_impl; [|exact A]; intros kv [Kn _]; exact Kn|].
      apply content_lay; [exact Li|]. apply Cl.
Qed.

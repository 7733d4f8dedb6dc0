From Coq Require Import String Ascii Bool Arith List ZArith Lia.
From Verif Require Import CatalogModel GenModel GenSpec GenProofs.
Import ListNotations.
Local Open Scope Z_scope.

(** ** Occurrences *)
Lemma occurs_cons p a s : occurs p s -> occurs p (String a s).
Proof. intros (x & y & ->). now exists (String a x), y. Qed.
Lemma occurs_inv p a s : occurs p (String a s) -> starts p (String a s) \/ occurs p s.
Proof.
  intros ([|b x] & y & E); cbn in E.
  - left. now exists y.
  - right. injection E as _ E. now exists x, y.
Qed.
Lemma char_in_head c s : char_in c (String c s).
Proof. now exists EmptyString, s. Qed.
Lemma not_char_in c s : ~ char_in c s -> all (fun a => negb (Ascii.eqb a c)) s = true.
Proof.
  induction s as [|a s IH]; [reflexivity|]. intros H. cbn [all]. destruct (Ascii.eqb_spec a c) as [->|N].
  - destruct H. apply char_in_head.
  - cbn. apply IH. intros X. apply H. now apply occurs_cons.
Qed.
Definition nobr (s : string) : bool := all (fun a => negb (Ascii.eqb a "{" || Ascii.eqb a "}")%char) s.
Lemma braceless_nobr s : braceless s -> nobr s = true.
Proof.
  intros [A B]. apply not_char_in in A, B. unfold nobr. induction s as [|a s IH]; [reflexivity|].
  cbn [all] in *. apply andb_prop in A as [A1 A2], B as [B1 B2]. rewrite (IH A2 B2), negb_orb, A1, B1. reflexivity.
Qed.

(** ** printf *)
Definition prefix_found (p : string) (x : option (string * string * string)) : option (string * string * string) :=
  match x with Some (a, f, b) => Some ((p ++ a)%string, f, b) | None => None end.
Lemma spec_here_other a r : a <> "{"%char -> spec_here (String a r) = None.
Proof. intros H. destruct a as [[] [] [] [] [] [] [] []]; try reflexivity. now destruct H. Qed.
Lemma find_spec_unfold a r : spec_here (String a r) = None -> find_spec (String a r) = prefix_found (String a EmptyString) (find_spec r).
Proof. intros H. cbn [find_spec]. rewrite H. destruct (find_spec r) as [[[? ?] ?]|]; reflexivity. Qed.
Lemma prefix_comp p q x : prefix_found p (prefix_found q x) = prefix_found (p ++ q) x.
Proof. destruct x as [[[a f] b]|]; cbn; [|reflexivity]. now rewrite sapp_assoc. Qed.
Lemma nobr_neq a s : nobr (String a s) = true -> a <> "{"%char /\ a <> "}"%char /\ nobr s = true.
Proof.
  unfold nobr. cbn [all]. intros H. apply andb_prop in H as [H1 H2]. rewrite negb_orb in H1. apply andb_prop in H1 as [A B].
  repeat split; [intros ->; discriminate|intros ->; discriminate|exact H2].
Qed.
Lemma find_spec_lit t s : nobr t = true -> find_spec (t ++ s) = prefix_found t (find_spec s).
Proof.
  induction t as [|a t IH]; intros H.
  - cbn. destruct (find_spec s) as [[[? ?] ?]|]; reflexivity.
  - apply nobr_neq in H as (H1 & H2 & H3). cbn [append]. rewrite find_spec_unfold by now apply spec_here_other.
    rewrite IH by exact H3. apply (prefix_comp (String a "") t).
Qed.
Lemma find_spec_plain s : find_spec ("{}" ++ s) = prefix_found "{}" (find_spec s).
Proof.
  cbn [append]. rewrite find_spec_unfold by reflexivity. rewrite find_spec_unfold by now apply spec_here_other.
  apply (prefix_comp "{" "}").
Qed.
Lemma upto_brace_lit f s : nobr f = true -> upto_brace (f ++ String "}" s) = Some (f, s).
Proof.
  induction f as [|a f IH]; intros H; [reflexivity|]. apply nobr_neq in H as (H1 & H2 & H3). cbn [append upto_brace].
  destruct (Ascii.eqb_spec a "}"); [contradiction|]. now rewrite IH.
Qed.
Lemma find_spec_spec f s : nobr f = true -> f <> EmptyString -> find_spec ("{:" ++ f ++ "}" ++ s) = Some (EmptyString, f, s).
Proof.
  intros H N. cbn [append find_spec spec_here]. change ("}" ++ s)%string with (String "}" s). rewrite upto_brace_lit by exact H.
  now destruct f.
Qed.
Lemma text_of_cons p ps : text_of (p :: ps) = (piece_text p ++ text_of ps)%string. Proof. reflexivity. Qed.
Lemma text_of_app ps qs : text_of (ps ++ qs) = (text_of ps ++ text_of qs)%string.
Proof. induction ps as [|p ps IH]; [reflexivity|]. cbn [app]. now rewrite !text_of_cons, IH, sapp_assoc. Qed.
Lemma find_spec_none ps : Forall piece_ok ps -> forallb (fun p => negb (is_spec p)) ps = true ->
  forall s, find_spec (text_of ps ++ s) = prefix_found (text_of ps) (find_spec s).
Proof.
  induction 1 as [|p ps P _ IH]; intros H s.
  - cbn. destruct (find_spec s) as [[[? ?] ?]|]; reflexivity.
  - cbn in H. apply andb_prop in H as [H1 H2]. rewrite text_of_cons, sapp_assoc. destruct p as [t| |f]; [| |discriminate].
    + cbn [piece_text]. rewrite find_spec_lit, (IH H2) by now apply braceless_nobr. apply prefix_comp.
    + cbn [piece_text]. rewrite find_spec_plain, (IH H2). apply prefix_comp.
Qed.
Lemma find_spec_nil : find_spec EmptyString = None. Proof. reflexivity. Qed.
Lemma sub_plain_lit x t s : nobr t = true -> sub_plain x (t ++ s) = (t ++ sub_plain x s)%string.
Proof.
  induction t as [|a t IH]; intros H; [reflexivity|]. apply nobr_neq in H as (H1 & H2 & H3). cbn [append].
  rewrite <- (IH H3). destruct a as [[] [] [] [] [] [] [] []]; try reflexivity. now destruct H1.
Qed.
Lemma arg_spec_nobr a : nobr (arg_printf_spec a) = true.
Proof.
  assert (D : forall k s, assoc k printf_dict = Some s -> nobr s = true).
  { intros k s. unfold printf_dict. cbn [assoc].
    repeat match goal with |- context [if ?b then _ else _] => destruct b; [intros [= <-]; reflexivity|] end. discriminate. }
  unfold arg_printf_spec. destruct (assoc (arg_ut a) printf_dict) eqn:E; [eauto|].
  destruct (assoc (arg_enc a) printf_dict) eqn:E2; [eauto|reflexivity].
Qed.
Lemma nobr_braceless s : nobr s = true -> braceless s.
Proof.
  intros H. split; intros (a & b & ->); unfold nobr in H; rewrite all_app in H; cbn in H; now rewrite andb_false_r in H.
Qed.
Lemma plain_fields_spec conv ps1 f ps2 : forall l, plain_fields conv (ps1 ++ Spec f :: ps2) l = plain_fields conv (ps1 ++ Lit ("%" ++ f) :: ps2) l.
Proof.
  induction ps1 as [|[t| |g] ps1 IH]; intros l; cbn [app plain_fields].
  - now rewrite sapp_assoc.
  - now rewrite IH.
  - destruct l; now rewrite IH.
  - now rewrite IH.
Qed.
Lemma first_where {A} (f : A -> bool) l : (exists a x b, l = a ++ x :: b /\ f x = true /\ forallb (fun y => negb (f y)) a = true) \/ forallb (fun y => negb (f y)) l = true.
Proof.
  induction l as [|x l IH]; [right; reflexivity|]. destruct (f x) eqn:E.
  - left. exists [], x, l. auto.
  - destruct IH as [(a & y & b & -> & F & N)|N].
    + left. exists (x :: a), y, b. cbn. rewrite E. auto.
    + right. cbn. now rewrite E.
Qed.
Definition specs (ps : list piece) : nat := List.length (filter is_spec ps).
Lemma specs_zero ps : forallb (fun p => negb (is_spec p)) ps = true -> specs ps = O.
Proof. unfold specs. induction ps as [|p ps IH]; [reflexivity|]. cbn. intros H. apply andb_prop in H as [H1 H2]. destruct (is_spec p); [discriminate|]. auto. Qed.
Lemma specs_app a b : specs (a ++ b) = (specs a + specs b)%nat.
Proof. unfold specs. now rewrite filter_app, app_length. Qed.
Lemma specs_none ps : specs ps = O -> forallb (fun p => negb (is_spec p)) ps = true.
Proof. unfold specs. induction ps as [|p ps IH]; [reflexivity|]. cbn. destruct (is_spec p); [discriminate|]. auto. Qed.
Lemma plain_fields_none conv ps l : forallb (fun p => negb (is_spec p)) ps = true -> forallb (fun p => negb (is_plain p)) ps = true -> plain_fields conv ps l = text_of ps.
Proof.
  induction ps as [|p ps IH]; [reflexivity|]. cbn. intros H1 H2. apply andb_prop in H1 as [A B], H2 as [C D].
  destruct p; [|discriminate|discriminate]. rewrite (IH B D). reflexivity.
Qed.
Lemma plain_fields_plain conv ps1 ps2 a l : forallb (fun p => negb (is_plain p)) ps1 = true ->
  plain_fields conv (ps1 ++ Plain :: ps2) (a :: l) = plain_fields conv (ps1 ++ Lit (conv a) :: ps2) l.
Proof.
  induction ps1 as [|[t| |g] ps1 IH]; cbn [app forallb plain_fields is_plain negb andb]; intros H; try reflexivity; try discriminate; now rewrite IH.
Qed.
Lemma plain_fields_empty conv ps : forallb (fun p => negb (is_spec p)) ps = true -> plain_fields conv ps [] = text_of ps.
Proof.
  induction ps as [|p ps IH]; [reflexivity|]. cbn [forallb]. intros H. apply andb_prop in H as [A B]. destruct p; [| |discriminate]; cbn [plain_fields]; rewrite (IH B); reflexivity.
Qed.
Lemma printf_plain ps args : Forall piece_ok ps -> specs ps = O -> printf_format (text_of ps) args = plain_fields arg_printf_spec ps args.
Proof.
  revert ps. induction args as [|a l IH]; intros ps OK Z0; apply specs_none in Z0 as NS.
  - cbn. now rewrite plain_fields_empty.
  - cbn [printf_format fold_left]. unfold printf_step at 2.
    assert (F := find_spec_none ps OK NS ""). rewrite sapp_nil_r in F. rewrite F, find_spec_nil. cbn [prefix_found].
    destruct (first_where is_plain ps) as [(p1 & p & p2 & -> & P & N)|N].
    + destruct p; [discriminate| |discriminate]. rewrite plain_fields_plain by exact N.
      assert (E : sub_plain (arg_printf_spec a) (text_of (p1 ++ Plain :: p2)) = text_of (p1 ++ Lit (arg_printf_spec a) :: p2)).
      { rewrite !text_of_app, !text_of_cons. cbn [piece_text].
        apply Forall_app in OK as [O1 _]. rewrite forallb_app in NS. apply andb_prop in NS as [N1 _].
        clear - O1 N N1. induction O1 as [|p p1 O O1 IH]; [reflexivity|]. cbn [forallb] in N, N1. apply andb_prop in N as [A B], N1 as [C D].
        destruct p as [t| |]; [|discriminate|discriminate]. rewrite !text_of_cons, !sapp_assoc. cbn [piece_text].
        rewrite sub_plain_lit by now apply braceless_nobr. now rewrite (IH D B). }
      rewrite E. apply IH.
      * apply Forall_app in OK as [O1 O2]. inversion O2; subst. apply Forall_app. split; [exact O1|]. constructor; [|assumption].
        apply nobr_braceless, arg_spec_nobr.
      * rewrite specs_app in *. exact Z0.
    + assert (E : sub_plain (arg_printf_spec a) (text_of ps) = text_of ps).
      { clear - OK N NS. rewrite <- (sapp_nil_r (text_of ps)) at 1. induction OK as [|p ps O OK IH]; [reflexivity|].
        cbn [forallb] in N, NS. apply andb_prop in N as [A B], NS as [C D].
        destruct p as [t| |]; [|discriminate|discriminate]. rewrite !text_of_cons, !sapp_assoc. cbn [piece_text].
        rewrite sub_plain_lit by now apply braceless_nobr. now rewrite (IH D B). }
      rewrite E. change (fold_left printf_step l (text_of ps)) with (printf_format (text_of ps) l). rewrite IH by assumption.
      now rewrite !plain_fields_none.
Qed.
Lemma printf_exact ps : forall args, Forall piece_ok ps -> (specs ps <= List.length args)%nat ->
  printf_format (text_of ps) args = plain_fields arg_printf_spec ps (skipn (specs ps) args).
Proof.
  remember (specs ps) as k eqn:K. revert ps K. induction k as [|k IH]; intros ps K args OK L.
  - apply printf_plain; auto.
  - destruct (first_where is_spec ps) as [(p1 & p & p2 & -> & P & N)|N]; [|apply specs_zero in N; lia].
    destruct p as [| |f]; [discriminate|discriminate|]. destruct args as [|a l]; [cbn in L; lia|].
    apply Forall_app in OK as [O1 O2]. inversion O2 as [|? ? FF O3]; subst. destruct FF as [F1 F2].
    cbn [printf_format fold_left]. unfold printf_step at 2.
    rewrite text_of_app, text_of_cons. cbn [piece_text]. rewrite (find_spec_none p1 O1 N).
    rewrite !sapp_assoc. rewrite find_spec_spec by (try apply braceless_nobr; assumption). cbn [prefix_found]. rewrite sapp_nil_r.
    replace (text_of p1 ++ "%" ++ f ++ text_of p2)%string with (text_of (p1 ++ Lit ("%" ++ f) :: p2)).
    2: { rewrite text_of_app, text_of_cons. cbn [piece_text]. now rewrite sapp_assoc. }
    rewrite plain_fields_spec. cbn [skipn]. apply IH.
    + rewrite specs_app in *. cbn in K |- *. change (specs (Lit ("%" ++ f) :: p2)) with (specs p2).
      change (specs (Spec f :: p2)) with (S (specs p2)) in K. lia.
    + apply Forall_app. split; [exact O1|]. constructor; [|exact O3]. apply nobr_braceless.
      apply braceless_nobr in F1. exact F1.
    + cbn in L. lia.
Qed.
Lemma percents_none t : ~ char_in "%" t -> percents t = t.
Proof.
  intros H. apply not_char_in in H. induction t as [|a t IH]; [reflexivity|]. cbn [all percents] in *. apply andb_prop in H as [A B].
  destruct (Ascii.eqb a "%"); [discriminate|]. now rewrite IH.
Qed.
Lemma plain_then conv ps : (forall t, In (Lit t) ps -> ~ char_in "%" t) -> specs ps = O -> forall l, plain_fields conv ps l = printf_of conv ps l.
Proof.
  induction ps as [|p ps IH]; intros H Z0 l; [reflexivity|].
  assert (H' : forall t, In (Lit t) ps -> ~ char_in "%" t) by (intros; apply H; now right).
  destruct p as [t| |f]; [| |discriminate Z0]; cbn [plain_fields printf_of].
  - rewrite percents_none by (apply H; now left). rewrite IH; auto.
  - destruct l; rewrite IH; auto.
Qed.
Lemma specs_first conv ps : (forall t, In (Lit t) ps -> ~ char_in "%" t) -> (forall a b, ps = a ++ Plain :: b -> specs b = O) ->
  forall args, plain_fields conv ps (skipn (specs ps) args) = printf_of conv ps args.
Proof.
  induction ps as [|p ps IH]; intros H S0 args; [reflexivity|].
  assert (H' : forall t, In (Lit t) ps -> ~ char_in "%" t) by (intros; apply H; now right).
  assert (S1 : forall a b, ps = a ++ Plain :: b -> specs b = O) by (intros a b ->; now apply (S0 (p :: a) b)).
  destruct p as [t| |f]; cbn [plain_fields printf_of].
  - change (specs (Lit t :: ps)) with (specs ps). rewrite percents_none by (apply H; now left). now rewrite IH.
  - assert (Z0 := S0 [] ps eq_refl). change (specs (Plain :: ps)) with (specs ps). rewrite Z0. cbn [skipn].
    destruct args; rewrite plain_then; auto.
  - change (specs (Spec f :: ps)) with (S (specs ps)). rewrite <- IH by assumption. destruct args; [now rewrite !skipn_nil|reflexivity].
Qed.

(** ** CDATA *)
Lemma amp_app a b : amp (a ++ b) = (amp a ++ amp b)%string.
Proof. induction a as [|x a IH]; [reflexivity|]. cbn [append amp]. destruct (Ascii.eqb x "&"); rewrite IH; reflexivity. Qed.
Lemma amp_amped s : amped s (amp s).
Proof. induction s as [|a s IH]; cbn [amp]; [constructor|]. destruct (Ascii.eqb_spec a "&") as [->|]; now constructor. Qed.
Lemma amped_fun s t : amped s t -> t = amp s.
Proof. induction 1; cbn [amp]; [reflexivity| |]. - now rewrite IHamped. - destruct (Ascii.eqb_spec a "&"); [contradiction|]. now rewrite IHamped. Qed.
Lemma amp_first c s r : c <> "&"%char -> amp s = String c r -> exists q, s = String c q /\ r = amp q.
Proof.
  intros N. destruct s as [|a s]; cbn [amp]; [discriminate|]. destruct (Ascii.eqb_spec a "&") as [->|].
  - intros [= <- _]. now destruct N.
  - intros [= -> <-]. now exists s.
Qed.
Lemma amp_mark_fwd s : occurs "]]>" (amp s) -> occurs "]]>" s.
Proof.
  induction s as [|a s IH]; cbn [amp]; [auto|]. destruct (Ascii.eqb_spec a "&") as [->|N].
  - intros H. apply occurs_cons, IH. cbn [append] in H. do 5 (apply occurs_inv in H as [[r R]|H]; [discriminate R|]). exact H.
  - intros H. apply occurs_inv in H as [[r R]|H]; [|now apply occurs_cons, IH].
    cbn in R. injection R as -> R. apply amp_first in R as (q & -> & R); [|discriminate].
    symmetry in R. apply amp_first in R as (q' & -> & R); [|discriminate]. now exists EmptyString, q'.
Qed.
Lemma amp_mark_bwd s : occurs "]]>" s -> occurs "]]>" (amp s).
Proof. intros (a & b & ->). rewrite !amp_app. now exists (amp a), (amp b). Qed.
Lemma suffix_inj x : forall a b, (a ++ x = b ++ x)%string -> a = b.
Proof.
  assert (L : forall a b : string, String.length (a ++ b) = (String.length a + String.length b)%nat)
    by (induction a as [|y a IH]; intros b; cbn; [reflexivity|now rewrite IH]).
  induction a as [|c a IH]; intros [|d b] H; [reflexivity| | |].
  - apply (f_equal String.length) in H. cbn in H. rewrite L in H. lia.
  - apply (f_equal String.length) in H. cbn in H. rewrite L in H. lia.
  - cbn in H. injection H as -> H. f_equal. auto.
Qed.
Lemma cdata_exact t u : cdata (element_text t) u <-> amped t u /\ ~ occurs "]]>" t.
Proof.
  assert (E : element_text t = ("<![CDATA[" ++ amp t ++ "]]>")%string) by (unfold element_text; now rewrite !amp_app).
  unfold cdata. rewrite E. split.
  - intros [H N]. cbn in H. injection H as H. apply suffix_inj in H as <-. split; [apply amp_amped|]. intros X. apply N. now apply amp_mark_bwd.
  - intros [A N]. apply amped_fun in A as ->. split; [reflexivity|]. intros X. apply N. now apply amp_mark_fwd.
Qed.
Lemma amp_none t : ~ char_in "&" t -> amp t = t.
Proof.
  intros H. apply not_char_in in H. induction t as [|a t IH]; [reflexivity|]. cbn [all amp] in *. apply andb_prop in H as [A B].
  destruct (Ascii.eqb a "&"); [discriminate|]. now rewrite IH.
Qed.
Lemma amp_len t : (String.length t <= String.length (amp t))%nat.
Proof. induction t as [|a t IH]; cbn; [lia|]. destruct (Ascii.eqb a "&"); cbn; lia. Qed.
Lemma amp_same t : amp t = t -> ~ char_in "&" t.
Proof.
  intros E (a & b & ->). rewrite !amp_app in E. apply (f_equal String.length) in E.
  assert (L : forall a b : string, String.length (a ++ b) = (String.length a + String.length b)%nat)
    by (clear; induction a as [|y a IH]; intros b; cbn; [reflexivity|now rewrite IH]).
  rewrite !L in E. assert (A := amp_len a). assert (B := amp_len b). cbn in E. lia.
Qed.

(** ** Lines *)
Lemma lines_more a b : all (fun c => negb (Ascii.eqb c (ascii_of_nat 10))) a = true -> lines (a ++ newline ++ b) = a :: lines b.
Proof.
  induction a as [|c a IH]; intros H; [reflexivity|]. cbn [all] in H. apply andb_prop in H as [A B].
  cbn [append lines]. destruct (Ascii.eqb c (ascii_of_nat 10)); [discriminate|]. now rewrite (IH B).
Qed.
Lemma lines_last a : all (fun c => negb (Ascii.eqb c (ascii_of_nat 10))) a = true -> lines a = [a].
Proof.
  induction a as [|c a IH]; intros H; [reflexivity|]. cbn [all] in H. apply andb_prop in H as [A B].
  cbn [lines]. destruct (Ascii.eqb c (ascii_of_nat 10)); [discriminate|]. now rewrite (IH B).
Qed.
Definition oneline (s : string) : bool := all (fun c => negb (Ascii.eqb c (ascii_of_nat 10))) s.
Lemma oneline_app a b : oneline (a ++ b) = oneline a && oneline b. Proof. apply all_app. Qed.
Lemma oneline_str n : oneline (str n) = true.
Proof.
  assert (P : forall s n, writes 10 s n -> oneline s = true).
  { intros s m W. apply (writes_all 10 s m); [lia|exact W|]. intros a A. destruct (Ascii.eqb_spec a (ascii_of_nat 10)) as [->|]; [|reflexivity].
    exfalso. now apply A. }
  destruct (Z_lt_le_dec n 0) as [H|H].
  - destruct (str_neg n H) as (t & -> & W & _). exact (P _ _ W).
  - exact (P _ _ (proj1 (str_writes n H))).
Qed.

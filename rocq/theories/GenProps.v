(** Theorems about the texts of the catalog generator and of the decoder. *)
From Coq Require Import String Ascii Bool Arith List ZArith Lia.
From Verif Require Import CatalogModel GenModel GenSpec GenProofs GenProofs2 GenProofs3.
Import ListNotations.
Local Open Scope Z_scope.

(** ** C78: the text of the reserved ids *)
Theorem C78_reads ss ivs : Forall2 (fun s iv => reserves s (fst iv) (snd iv)) ss ivs ->
  exists l, intervals (with_commas ss) = Some l /\
    forall n, existsb (fun iv => (fst iv <=? n) && (n <=? snd iv)) l = true <-> exists s a b, In s ss /\ reserves s a b /\ a <= n <= b.
Proof.
  intros H. exists ivs. split; [now apply intervals_read|]. intros n. rewrite existsb_exists. split.
  - intros (iv & I & B). apply andb_prop in B as [B1 B2]. clear - H I B1 B2. induction H; [destruct I|].
    destruct I as [->|I].
    + exists x, (fst iv), (snd iv). split; [now left|]. split; [assumption|lia].
    + destruct (IHForall2 I) as (s & a & b & X & Y & Z). exists s, a, b. split; [now right|auto].
  - intros (s & a & b & I & R & B). clear - H I R B. induction H; [destruct I|]. destruct I as [->|I].
    + exists y. split; [now left|]. apply reserves_interval in H, R. rewrite R in H. injection H as <- <-. apply andb_true_intro. cbn. lia.
    + destruct (IHForall2 I) as (iv & X & Y). exists iv. split; [now right|exact Y].
Qed.
Print Assumptions C78_reads.
Theorem C78_written l : Forall (fun x => 0 <= fst x /\ 0 <= snd x) l -> intervals (intervals_text l) = Some l.
Proof. apply intervals_roundtrip. Qed.
Print Assumptions C78_written.
Theorem C78_text l : Forall (fun x => 0 <= fst x /\ 0 <= snd x) l ->
  exists ss, intervals_text l = with_commas ss /\ Forall2 (fun s iv => reserves s (fst iv) (snd iv)) ss l.
Proof.
  intros H. exists (map interval_text l). split; [apply join_commas|]. induction H as [|x l [A B] _ IH]; [constructor|].
  cbn. constructor; [now apply interval_text_reserves|exact IH].
Qed.
Print Assumptions C78_text.
(** A number with a leading zero is refused, unless it is zero. *)
Theorem C78_leading_zero s n : writes 10 s n -> intervals ("0" ++ s) = if n =? 0 then Some [(0, 0)] else None.
Proof. apply leading_zero. Qed.
Print Assumptions C78_leading_zero.
Example C78_case : intervals "5,0x10-0x1f,7-9" = Some [(5, 5); (16, 31); (7, 9)] /\ intervals_text [(5, 5); (16, 31); (7, 9)] = "5,16-31,7-9"%string.
Proof. split; reflexivity. Qed.

(** ** C79: named arguments in the JSON *)
Theorem C79_no_drift a : 0 <= na_begin a -> exists b, from_json (to_json a) = Some b /\ to_json b = to_json a /\
  (b = a <-> na_begin a - 1 <= na_end a).
Proof.
  intros P. unfold to_json. destruct (na_end a <? na_begin a) eqn:E.
  - apply Z.ltb_lt in E. cbn [from_json]. eexists. split; [reflexivity|]. split.
    + cbn. now replace (na_begin a - 1 <? na_begin a) with true by (symmetry; apply Z.ltb_lt; lia).
    + destruct a as [n b e]. cbn in *. split; [intros [= ?]; lia|]. intros L. f_equal. lia.
  - apply Z.ltb_ge in E. cbn [from_json]. rewrite loc_reads by lia. rewrite !str_int10. exists a. split; [now destruct a|]. split; [|split; [lia|auto]].
    now replace (na_end a <? na_begin a) with false by (symmetry; apply Z.ltb_ge; lia).
Qed.
Print Assumptions C79_no_drift.
(** Once read, an argument is the same after any number of further builds. *)
Fixpoint again (n : nat) (a : named_arg) : option named_arg :=
  match n with O => Some a | S k => match from_json (to_json a) with Some b => again k b | None => None end end.
Theorem C79_many a n : 0 <= na_begin a -> exists b, again n a = Some b /\ to_json b = to_json a /\ na_name b = na_name a /\ na_begin b = na_begin a.
Proof.
  revert a. induction n as [|n IH]; intros a P; [exists a; auto|]. cbn. destruct (C79_no_drift a P) as (b & B & J & _). rewrite B.
  assert (K : na_name b = na_name a /\ na_begin b = na_begin a).
  { unfold to_json in J. destruct (na_end a <? na_begin a) eqn:Ea, (na_end b <? na_begin b) eqn:Eb; try discriminate J.
    - injection J. auto.
    - unfold to_json in B. rewrite Ea in B. cbn [from_json] in B. rewrite loc_reads in B by lia. rewrite !str_int10 in B. injection B as <-. auto. }
  destruct K as [K1 K2]. destruct (IH b) as (c & C & C1 & C2 & C3); [lia|]. exists c. repeat split; congruence.
Qed.
Print Assumptions C79_many.
Example C79_case : to_json {| na_name := "x"; na_begin := 3; na_end := 7 |} = JLoc "x" "[3:7]" /\
  from_json (JRef "y" 2) = Some {| na_name := "y"; na_begin := 2; na_end := 1 |}.
Proof. split; reflexivity. Qed.

(** ** C80: the printf format in the XML *)
(** What the loop makes of any format string of text, {} and {:spec}: the plain
    fields get the conversions of the last arguments, as many as there are. *)
Theorem C80_exact ps args : Forall piece_ok ps -> (List.length (filter is_spec ps) <= List.length args)%nat ->
  printf_format (text_of ps) args = plain_fields arg_printf_spec ps (skipn (List.length (filter is_spec ps)) args).
Proof. apply printf_exact. Qed.
Print Assumptions C80_exact.
(** The right format when no text has a percent sign and no {:spec} comes after {}. *)
Theorem C80_partial ps args : Forall piece_ok ps -> List.length args = List.length (filter is_field ps) ->
  (forall t, In (Lit t) ps -> ~ char_in "%" t) -> (forall a b, ps = a ++ Plain :: b -> forall f, ~ In (Spec f) b) ->
  printf_format (text_of ps) args = printf_of arg_printf_spec ps args.
Proof.
  intros OK L P S. rewrite printf_exact.
  - apply specs_first; [exact P|]. intros a b E. apply specs_zero. apply forallb_forall. intros [| |f] I; try reflexivity. exfalso. exact (S a b E f I).
  - exact OK.
  - rewrite L. unfold specs. clear. induction ps as [|[| |] ps IH]; cbn; lia.
Qed.
Print Assumptions C80_partial.
Theorem C80_refuted :
  (exists ps args, Forall piece_ok ps /\ List.length args = List.length (filter is_field ps) /\ (forall t, In (Lit t) ps -> ~ char_in "%" t) /\
     printf_format (text_of ps) args <> printf_of arg_printf_spec ps args) /\
  (exists ps args, Forall piece_ok ps /\ List.length args = List.length (filter is_field ps) /\ (forall f, ~ In (Spec f) ps) /\
     printf_format (text_of ps) args <> printf_of arg_printf_spec ps args).
Proof.
  assert (B : forall s, nobr s = true -> braceless s) by apply nobr_braceless.
  split.
  - exists [Plain; Lit " "; Spec "x"], [Enc "encode_64" "long long"; Enc "encode_u32" "unsigned int"].
    split; [repeat constructor; cbn; try (apply B; reflexivity); try discriminate|]. split; [reflexivity|]. split.
    + intros t [E|[[= <-]|[E|[]]]]; try discriminate E. intros (a & b & E). destruct a as [|? [|? ?]]; discriminate.
    + vm_compute. discriminate.
  - exists [Lit "50% of "; Plain], [Enc "encode_32" "int"].
    split; [repeat constructor; apply B; reflexivity|]. split; [reflexivity|]. split.
    + intros f [E|[E|[]]]; discriminate.
    + vm_compute. discriminate.
Qed.
Print Assumptions C80_refuted.
(** The conversion of an argument. *)
Theorem C80_conversions :
  (forall a s, builtin (arg_ut a) s -> arg_printf_spec a = s) /\
  (forall tag ut s, (forall x, ~ builtin ut x) -> by_encoding tag s -> (forall x, ~ by_encoding ut x) -> arg_printf_spec (Enc tag ut) = s) /\
  (forall e ut size, (forall x, ~ builtin ut x) -> (forall x, ~ by_encoding ut x) -> arg_printf_spec (EncEnum e ut size) = "%d"%string).
Proof.
  assert (D : forall k s, assoc k printf_dict = Some s -> builtin k s \/ by_encoding k s).
  { intros k s. unfold printf_dict. cbn [assoc].
    repeat match goal with |- context [(?x =? k)%string] => destruct (String.eqb_spec x k) as [<-|]; [intros [= <-]; first [left; constructor|right; constructor]|] end.
    discriminate. }
  repeat split.
  - intros a s H. unfold arg_printf_spec. destruct H; reflexivity.
  - intros tag ut s N E N2. unfold arg_printf_spec. cbn [arg_ut arg_enc]. destruct (assoc ut printf_dict) as [x|] eqn:X.
    + apply D in X as [X|X]; [destruct (N x X)|destruct (N2 x X)].
    + destruct E; reflexivity.
  - intros e ut size N N2. unfold arg_printf_spec. cbn [arg_ut arg_enc]. destruct (assoc ut printf_dict) as [x|] eqn:X; [|reflexivity].
    apply D in X as [X|X]; [destruct (N x X)|destruct (N2 x X)].
Qed.
Print Assumptions C80_conversions.
Example C80_case : printf_format "id {:08x} took {} us" [Enc "encode_u32" "unsigned int"; Enc "encode_u64" "unsigned long long"] = "id %08x took %llu us"%string.
Proof. reflexivity. Qed.

(** ** C81: the text in the XML *)
Theorem C81_exact t u : cdata (element_text t) u <-> amped t u /\ ~ occurs "]]>" t.
Proof. apply cdata_exact. Qed.
Print Assumptions C81_exact.
(** A reader gets the text back exactly when it has neither & nor ]]>. *)
Theorem C81_partial t : cdata (element_text t) t <-> ~ char_in "&" t /\ ~ occurs "]]>" t.
Proof.
  rewrite cdata_exact. split; intros [A B]; split; auto.
  - apply amp_same. symmetry. now apply amped_fun.
  - rewrite <- (amp_none t A) at 2. apply amp_amped.
Qed.
Print Assumptions C81_partial.
Theorem C81_refuted : (exists t u, cdata (element_text t) u /\ u <> t) /\ (exists t, forall u, ~ cdata (element_text t) u).
Proof.
  split.
  - exists "a & b"%string, "a &amp; b"%string. split; [|discriminate]. apply cdata_exact. split.
    + apply (amp_amped "a & b").
    + intros (x & y & E). do 6 (destruct x as [|? x]; [discriminate|]). discriminate.
  - exists "]]>"%string. intros u H. apply cdata_exact in H as [_ H]. apply H. now exists EmptyString, EmptyString.
Qed.
Print Assumptions C81_refuted.
Example C81_case : element_text "x < y" = "<![CDATA[x < y]]>"%string. Proof. reflexivity. Qed.

(** ** C82: the generated C++ *)
(** A text of one line is all inside its comment: the code is the specialisation
    and nothing else. *)
Theorem C82_partial text args cpp id : ~ char_in (ascii_of_nat 10) text -> ~ char_in (ascii_of_nat 10) args -> ~ char_in (ascii_of_nat 10) cpp ->
  code (catalog_defn text args cpp id) = [("template<> auto catalog<" ++ cpp ++ ">() -> string_id {")%string; ("    return " ++ str id ++ ";")%string; "}"%string] /\
  code (module_defn text cpp id) = [("template<> auto module<" ++ cpp ++ ">() -> module_id {")%string; ("    return " ++ str id ++ ";")%string; "}"%string].
Proof.
  intros T A C. apply not_char_in in T, A, C. assert (I := oneline_str id). unfold oneline in I. unfold code, catalog_defn, module_defn.
  assert (R : forall x y a b, (x ++ y ++ a ++ newline ++ b)%string = ((x ++ y ++ a) ++ newline ++ b)%string) by (intros; now rewrite !sapp_assoc).
  assert (R2 : forall y a b, (y ++ a ++ newline ++ b)%string = ((y ++ a) ++ newline ++ b)%string) by (intros; now rewrite !sapp_assoc).
  split; rewrite ?(R2 "// "%string args);
  rewrite !(R _ _ """"%string), ?(R _ _ ">() -> string_id {"%string), ?(R _ _ ">() -> module_id {"%string), !(R _ _ ";"%string);
  repeat (rewrite lines_more by (rewrite !all_app, ?T, ?A, ?C, ?I; reflexivity)); reflexivity.
Qed.
Print Assumptions C82_partial.
(** What the code is for any text: the lines of the text after the first that are not
    comments themselves, then the specialisation. *)
Lemma lines_ne a : lines a <> [].
Proof. induction a as [|c a IH]; cbn; try discriminate. destruct (Ascii.eqb c _), (lines a); congruence. Qed.
Lemma lines_join a b : lines (a ++ newline ++ b) = (lines a ++ lines b)%list.
Proof.
  induction a as [|c a IH]. reflexivity. cbn [append lines]. rewrite IH. destruct (Ascii.eqb c (ascii_of_nat 10)); auto.
  pose proof (lines_ne a). destruct (lines a); [congruence|reflexivity].
Qed.
Lemma lines_prefix a b : all (fun c => negb (Ascii.eqb c (ascii_of_nat 10))) a = true -> exists l, lines (a ++ b) = ((a ++ l)%string :: tl (lines b)).
Proof.
  induction a as [|c a IH]; intros H. cbn. destruct (lines b) as [|x l] eqn:E. destruct (lines_ne b E). exists x. reflexivity.
  cbn [all] in H. apply andb_prop in H as [A B]. destruct (IH B) as [l L]. exists l. cbn [append lines]. rewrite L. destruct (Ascii.eqb c _); [discriminate|reflexivity].
Qed.
Definition not_comment (l : string) : bool := negb (is_comment l).
Lemma comment_first text : filter not_comment (lines ("// """ ++ text ++ """")) = filter not_comment (tl (lines (text ++ """"))).
Proof. destruct (lines_prefix "// """ (text ++ """") eq_refl) as [l L]. rewrite L. reflexivity. Qed.
Theorem C82_exact text args cpp id : ~ char_in (ascii_of_nat 10) args -> ~ char_in (ascii_of_nat 10) cpp ->
  let left_over := filter (fun l => negb (is_comment l)) (tl (lines (text ++ """"))) in
  code (catalog_defn text args cpp id) = (left_over ++ [("template<> auto catalog<" ++ cpp ++ ">() -> string_id {")%string; ("    return " ++ str id ++ ";")%string; "}"%string])%list /\
  code (module_defn text cpp id) = (left_over ++ [("template<> auto module<" ++ cpp ++ ">() -> module_id {")%string; ("    return " ++ str id ++ ";")%string; "}"%string])%list.
Proof.
  intros A C left_over. assert (T : ~ char_in (ascii_of_nat 10) EmptyString) by (intros (a & b & E); destruct a; discriminate).
  destruct (C82_partial EmptyString args cpp id T A C) as [E F].
  assert (R : forall u, code ("// """ ++ text ++ """" ++ newline ++ u) = (left_over ++ code ("// """ ++ EmptyString ++ """" ++ newline ++ u))%list).
  { intros u. unfold code. assert (X : forall t : string, ("// """ ++ t ++ """" ++ newline ++ u)%string = (("// """ ++ t ++ """") ++ newline ++ u)%string) by (intros; now rewrite !sapp_assoc).
    rewrite !X, !lines_join, !filter_app. fold not_comment. rewrite comment_first. reflexivity. }
  unfold catalog_defn, module_defn in *. rewrite !R, E, F. auto.
Qed.
Print Assumptions C82_exact.
(** So the specialisation is all exactly if the lines of the text after the first begin
    as comments. *)
Theorem C82_when text args cpp id : ~ char_in (ascii_of_nat 10) args -> ~ char_in (ascii_of_nat 10) cpp ->
  (code (catalog_defn text args cpp id) = [("template<> auto catalog<" ++ cpp ++ ">() -> string_id {")%string; ("    return " ++ str id ++ ";")%string; "}"%string] <->
   forall l, In l (tl (lines (text ++ """"))) -> String.prefix "//" l = true).
Proof.
  intros A C. rewrite (proj1 (C82_exact text args cpp id A C)). set (f := fun l => negb (is_comment l)). set (ls := tl _).
  assert (E : (forall l, In l ls -> String.prefix "//" l = true) <-> filter f ls = []).
  { clear. induction ls as [|x ls IH]; cbn. tauto. unfold f at 1, is_comment. destruct (String.prefix "//" x) eqn:P; cbn [negb].
    - rewrite <- IH. split; intros H; [intros l Hl; apply H; auto|]. intros l [<-|Hl]; auto.
    - split; [|discriminate]. intros H. specialize (H x (or_introl eq_refl)). congruence. }
  rewrite E. split; [|intros ->; reflexivity]. intros H. apply (f_equal (@List.length string)) in H. rewrite app_length in H. cbn in H. destruct (filter f ls); [auto|cbn in H; lia].
Qed.
Print Assumptions C82_when.
(** A text with a newline puts its second line into the program. *)
Theorem C82_refuted : exists text args cpp id, ~ char_in (ascii_of_nat 10) args /\ ~ char_in (ascii_of_nat 10) cpp /\
  In "#error here"""%string (code (catalog_defn text args cpp id)).
Proof.
  exists ("first" ++ newline ++ "#error here")%string, "[]"%string, "T"%string, 1.
  split; [intros (a & b & E); do 3 (destruct a as [|? a]; [discriminate|]); discriminate|].
  split; [intros (a & b & E); do 2 (destruct a as [|? a]; [discriminate|]); discriminate|]. vm_compute. now left.
Qed.
Print Assumptions C82_refuted.

(** ** C83: which argument of a message is an enumeration, in the XML *)
Theorem C83_exact enums args j n : enum_lookup enums args = Some (j, n) <->
  exists pre a post, args = pre ++ a :: post /\ j = Z.of_nat (List.length pre) + 1 /\ assoc (arg_enum a) enums = Some n /\
     Forall (fun b => assoc (arg_enum b) enums = None) post.
Proof. apply enum_lookup_spec. Qed.
Print Assumptions C83_exact.
(** With at most one argument of a known enumeration, that argument is named. *)
Theorem C83_partial enums args pre a post n : args = pre ++ a :: post -> assoc (arg_enum a) enums = Some n ->
  (forall b, In b (pre ++ post) -> assoc (arg_enum b) enums = None) ->
  forall j m, enum_lookup enums args = Some (j, m) <-> j = Z.of_nat (List.length pre) + 1 /\ m = n.
Proof.
  intros -> A N j m. split.
  - intros H. apply enum_lookup_spec in H as (p & b & q & E & -> & B & F).
    destruct (List.app_eq_app _ _ _ _ E) as (l & [[E1 E2]|[E1 E2]]).
    + subst. destruct l as [|x l].
      * rewrite app_nil_r in *. injection E2 as -> ->. split; [reflexivity|congruence].
      * injection E2 as -> ->. rewrite N in B; [discriminate|]. rewrite !in_app_iff. left. right. now left.
    + subst. destruct l as [|x l].
      * rewrite app_nil_r in *. injection E2 as -> ->. split; [reflexivity|congruence].
      * injection E2 as -> ->. rewrite N in B; [discriminate|]. rewrite !in_app_iff. right. right. now left.
  - intros [-> ->]. apply enum_lookup_spec. exists pre, a, post. repeat split; auto. apply Forall_forall. intros b I. apply N. apply in_or_app. now right.
Qed.
Print Assumptions C83_partial.
Theorem C83_refuted : exists enums args i a n, nth_error args i = Some a /\ assoc (arg_enum a) enums = Some n /\
  enum_lookup enums args <> Some (Z.of_nat i + 1, n).
Proof. exists [("E", 0); ("F", 1)]%string, [EncEnum "E" "int" "4"; EncEnum "F" "int" "4"], O. eexists. eexists. split; [reflexivity|]. split; [reflexivity|]. vm_compute. discriminate. Qed.
Print Assumptions C83_refuted.
Example C83_case : enum_lookup [("E", 5)]%string [Enc "encode_32" "int"; EncEnum "E" "int" "4"] = Some (2, 5). Proof. reflexivity. Qed.

(** ** C84: names of enumerators in the JSON *)
(** The name the decoder finds: the last enumerator of that value in this build, or
    else the name in the last extra input that has enumerations. *)
Theorem C84_exact enums extras E z : NoDup (map fst enums) -> enum_name (write_enums enums extras) E z =
  or_else (match get String.eqb E enums with Some vs => last_name Z.eqb z (map swap vs) | None => None end)
          (match get String.eqb E (last_extra extras) with Some d => last_name String.eqb (str z) d | None => None end).
Proof. apply names_exact. Qed.
Print Assumptions C84_exact.
(** An enumerator of this build whose value no other has is found under its name,
    whatever the extra inputs say. *)
Theorem C84_own enums extras E vs n z : NoDup (map fst enums) -> In (E, vs) enums -> In (n, z) vs -> (forall m, In (m, z) vs -> m = n) ->
  enum_name (write_enums enums extras) E z = Some n.
Proof.
  intros N I V U. rewrite names_exact by exact N.
  replace (get String.eqb E enums) with (Some vs).
  - replace (last_name Z.eqb z (map swap vs)) with (Some n); [reflexivity|]. clear - V U. induction vs as [|[m y] vs IH]; [destruct V|]. cbn.
    destruct V as [[= -> ->]|V].
    + rewrite Z.eqb_refl. clear IH. assert (C : last_name Z.eqb z (map swap vs) = None \/ last_name Z.eqb z (map swap vs) = Some n).
      { assert (U' : forall m, In (m, z) vs -> m = n) by (intros; apply U; now right). clear U. induction vs as [|[m y] vs IH]; [now left|]. cbn.
        destruct IH as [->| ->]; [intros; apply U'; now right| |now right]. destruct (Z.eqb_spec y z) as [->|]; [right|now left]. f_equal. apply U'. now left. }
      now destruct C as [-> | ->].
    + rewrite <- IH; [reflexivity|exact V|]. intros; apply U; now right.
  - clear - N I. induction enums as [|[k w] enums IH]; [destruct I|]. cbn in *. inversion N; subst. destruct I as [[= -> ->]|I]; [now rewrite String.eqb_refl|].
    destruct (String.eqb_spec k E) as [->|]; [|auto]. destruct H1. apply in_map_iff. now exists (E, vs).
Qed.
Print Assumptions C84_own.
(** With one extra input that has enumerations, its names for values this build
    does not have are kept. *)
Theorem C84_partial enums pre e post E d z : NoDup (map fst enums) -> Forall (eq None) pre -> Forall (eq None) post ->
  get String.eqb E e = Some d -> (forall vs, In (E, vs) enums -> forall n, ~ In (n, z) vs) ->
  enum_name (write_enums enums (pre ++ Some e :: post)) E z = last_name String.eqb (str z) d.
Proof.
  intros N P Q G U. rewrite names_exact by exact N. replace (last_extra (pre ++ Some e :: post)) with e.
  - rewrite G. replace (match get String.eqb E enums with Some vs => last_name Z.eqb z (map swap vs) | None => None end) with (@None string); [reflexivity|].
    symmetry. destruct (get String.eqb E enums) as [vs|] eqn:X; [|reflexivity].
    assert (I : In (E, vs) enums). { clear - X. induction enums as [|[k w] enums IH]; [discriminate|]. cbn in X. destruct (String.eqb_spec k E) as [->|]; [injection X as ->; now left|right; auto]. }
    specialize (U vs I). clear - U. induction vs as [|[m y] vs IH]; [reflexivity|]. cbn. rewrite IH by (intros n H; apply (U n); now right).
    destruct (Z.eqb_spec y z) as [->|]; [|reflexivity]. destruct (U m). now left.
  - unfold last_extra. rewrite fold_left_app. cbn [fold_left]. clear - Q. replace (fold_left _ post (Some e)) with (Some e); [reflexivity|].
    induction Q as [|x post <- _ IH]; [reflexivity|exact IH].
Qed.
Print Assumptions C84_partial.
(** With two, the names of the first are gone. *)
Theorem C84_refuted : exists (extras : list (option (list (string * list (string * string))))) x e E d z n, In x extras /\ x = Some e /\
  get String.eqb E e = Some d /\ last_name String.eqb (str z) d = Some n /\
  (forall y f, In y extras -> y = Some f -> y <> x -> get String.eqb E f = None) /\ enum_name (write_enums [] extras) E z = None.
Proof.
  exists [Some [("E", [("0", "a")])]; Some [("F", [("0", "b")])]]%string. eexists. eexists. exists "E"%string. eexists. exists 0. eexists.
  split; [now left|]. repeat (split; [reflexivity|]). split; [|reflexivity].
  intros y f [<-|[<-|[]]] [= <-] N; [now destruct N|reflexivity].
Qed.
Print Assumptions C84_refuted.
Example C84_case : (enum_name (write_enums [("E", [("A", 1)])] [Some [("E", [("1", "old"); ("2", "B")])]]) "E" 1)%string = Some "A"%string /\
  (enum_name (write_enums [("E", [("A", 1)])] [Some [("E", [("1", "old"); ("2", "B")])]]) "E" 2)%string = Some "B"%string.
Proof. split; reflexivity. Qed.

(** ** C85: the line the decoder prints *)
Theorem C85_partial ps vs severity mod_ : Forall part_ok ps ->
  List.length vs = List.length (filter (fun p => match p with Hole => true | _ => false end) ps) ->
  exists s, formats ps (map VInt vs) s /\ catalog_line severity mod_ (format_text ps) (map decoded (map VInt vs)) = Some (severity ++ " [" ++ mod_ ++ "] " ++ s)%string.
Proof. apply catalog_line_formats. Qed.
Print Assumptions C85_partial.
Theorem C85_refuted :
  (exists s, formats [Hole] [VBool true] s /\ catalog_line "INFO" "m" "{}" (map decoded [VBool true]) <> Some ("INFO [m] " ++ s)%string) /\
  (exists s, formats [Hole] [VChar "a"] s /\ catalog_line "INFO" "m" "{}" (map decoded [VChar "a"]) <> Some ("INFO [m] " ++ s)%string).
Proof.
  split.
  - exists "true"%string. split; [apply (f_hole [] (VBool true) [] "true" ""); [reflexivity|constructor]|vm_compute; discriminate].
  - exists "a"%string. split; [apply (f_hole [] (VChar "a") [] "a" ""); [reflexivity|constructor]|vm_compute; discriminate].
Qed.
Print Assumptions C85_refuted.
(** What is printed instead: -1 or 0 for a truth value, a bytes literal for a character. *)
Theorem C85_others severity mod_ :
  (forall b, catalog_line severity mod_ "{}" [decoded (VBool b)] = Some (severity ++ " [" ++ mod_ ++ "] " ++ if b then "-1" else "0")%string) /\
  (forall c, catalog_line severity mod_ "{}" [decoded (VChar c)] = Some (severity ++ " [" ++ mod_ ++ "] b'" ++ String c "'")%string).
Proof. split; [intros []|intros c]; reflexivity. Qed.
Print Assumptions C85_others.
Example C85_case : catalog_line "INFO" "boot" "{{{}}} of {}" (map decoded [VInt (-3); VInt 120]) = Some "INFO [boot] {-3} of 120"%string.
Proof. reflexivity. Qed.

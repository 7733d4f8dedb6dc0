(** Proofs about the encodings of arguments and the enumerations declared. *)
From Coq Require Import String Ascii Bool Arith List ZArith Lia.
From Verif Require Import CatalogModel CatalogSpec CatalogProofs3 GenModel GenSpec GenProofs GenProofs2 GenProofs3 SymbolModel SymbolSpec SymbolProofs SymbolProofs2 SymbolProofs3 SymbolProofs4.
Import ListNotations.
Local Open Scope string_scope.

(** ** Encodings *)
Lemma mtch_alt_r {R} a b s g (k : string -> groups -> option R) : (forall t, leaves a s t -> False) -> mtch (Alt a b) s g k = mtch b s g k.
Proof. intros H. cbn [mtch]. rewrite mtch_none by auto. reflexivity. Qed.
Lemma encoding_match x body : In x ["32"; "u32"; "64"; "u64"; "enum"] -> all_chars dot body = true ->
  re_match encoding_re ("encode_" ++ x ++ "<" ++ body ++ ">") = Some [(2, body); (1, x)].
Proof.
  intros Hx Hb. unfold re_match, encoding_re. rewrite m_seqs, m_lit, m_seqs.
  assert (G : forall (k : string -> groups -> option groups) g r y, k r ((1, x) :: g)%list = Some y ->
    mtch (Grp 1 (Alt (lit "32") (Alt (lit "u32") (Alt (lit "64") (Alt (lit "u64") (lit "enum")))))) (x ++ r) g k = Some y).
  { intros k g r y Hk. cbn [mtch]. destruct Hx as [<-|[<-|[<-|[<-|[<-|[]]]]]];
      repeat (rewrite m_lit, between_app, Hk; cbn [or_else]; try reflexivity); repeat (rewrite mtch_none by (intros t H; apply leaves_lit in H; discriminate); cbn [or_else]; rewrite ?m_lit, ?between_app, ?Hk; cbn [or_else]; try reflexivity). }
  apply G. rewrite m_seqs, m_lit, m_seqs. apply m_any; [exact Hb|apply (m_lit ">" "")|].
  intros c v w h Ew. apply mtch_none. intros t H. parts H. subst. counting ">"%char Ew.
Qed.
Lemma enum_match e ut size : one_line e -> one_line ut -> ~ occurs ", " ut -> size <> "" -> all_chars is_digit size = true ->
  re_match enum_re (e ++ ", " ++ ut ++ ", " ++ size) = Some [(3, size); (2, ut); (1, e)].
Proof.
  intros He Hu Ho Hn Hd. apply one_line_dots in He, Hu. unfold re_match, enum_re. assert (Cs : count "," size = 0) by (apply (count_all "," is_digit); auto).
  rewrite m_seqs. apply m_any; auto.
  - rewrite m_seqs, m_lit, m_seqs. apply m_any; auto.
    + rewrite m_seqs, m_lit. cbn [seqs mtch]. destruct size as [|d ds]; [congruence|]. cbn [all_chars] in Hd. apply andb_true_iff in Hd. destruct Hd as [Hd Hds]. rewrite Hd.
      rewrite <- (sapp_nil ds). apply many_greedy; auto.
      * change (String d (ds ++ "")) with (String d ds ++ ""). rewrite between_app. rewrite sapp_nil. reflexivity.
      * intros c v w E. discriminate.
    + intros c v w h Ew. apply mtch_none. intros t H. parts H. subst. counting ","%char Ew.
  - intros c v w h Ew. apply mtch_none. intros t H. parts H. subst.
    match type of Ew with _ = String c v ++ ", " ++ ?x ++ ", " ++ ?y => 
      assert (E : (", " ++ ut) ++ ", " ++ size = (String c v ++ ", " ++ x) ++ ", " ++ y) by (revert Ew; norm; auto); destruct (app_split _ _ _ _ E) as [(z & E1 & E2)|(q & z & E1 & _)]; clear E Ew; revert E1; generalize x end.
    + intros x E1. destruct z as [|q z].
      * rewrite sapp_nil in E1. apply Ho. cbn in E1. injection E1 as _ E1.
        assert (O : occurs ", " (" " ++ ut)) by (exists v, x; cbn; rewrite <- E1; reflexivity). apply occurs_head in O; auto; discriminate.
      * exfalso. clear E1. counting ","%char E2.
    + intros x E1. apply Ho. cbn in E1. injection E1 as _ E1. assert (O : occurs ", " (" " ++ ut)).
      { exists v, (x ++ String q z). cbn. rewrite E1. norm. reflexivity. }
      apply occurs_head in O; auto; discriminate.
Qed.
Lemma encoding_read a : encoding_ok a -> exists s, arg_type_encoding (encoding_text a) = Some (arg_enc a, arg_enum a, arg_ut a, s).
Proof.
  destruct a as [tag ty|e ut size]; cbn [encoding_ok encoding_text arg_enc arg_enum arg_ut].
  - intros [Ht Hty]. exists ty. unfold arg_type_encoding. apply one_line_dots in Hty.
    assert (E : exists x, In x ["32"; "u32"; "64"; "u64"; "enum"] /\ x <> "enum" /\ tag = "encode_" ++ x).
    { destruct Ht as [<-|[<-|[<-|[<-|[]]]]]; [exists "32"|exists "u32"|exists "64"|exists "u64"]; cbn; (split; [tauto|]); (split; [discriminate|reflexivity]). }
    destruct E as (x & Hx & Hne & ->). rewrite sapp_assoc. rewrite encoding_match by auto. cbn [group find fst snd Nat.eqb]. apply String.eqb_neq in Hne. rewrite Hne. reflexivity.
  - intros (He & Hu & Ho & Hn & Hd). exists size. unfold arg_type_encoding.
    replace ("encode_enum<" ++ e ++ ", " ++ ut ++ ", " ++ size ++ ">") with ("encode_" ++ "enum" ++ "<" ++ (e ++ ", " ++ ut ++ ", " ++ size) ++ ">") by (norm; reflexivity).
    rewrite encoding_match.
    + cbn [group find fst snd Nat.eqb]. cbn [String.eqb Ascii.eqb Bool.eqb]. rewrite enum_match by auto. reflexivity.
    + cbn; tauto.
    + apply one_line_dots in He, Hu. rewrite !all_chars_app, He, Hu. cbn. eapply all_chars_imp; [|exact Hd]. intros a Ha. apply numch_dot. unfold numch. rewrite Ha. reflexivity.
Qed.
Lemma encoding_other s : ~ starts "encode_" s -> arg_type_encoding s = None.
Proof.
  intros H. unfold arg_type_encoding. unfold re_match. rewrite mtch_none; [reflexivity|]. intros t L. apply leaves_seqs in L. destruct L as (m & L & _). apply leaves_lit in L. apply H. exists m. exact L.
Qed.

(** ** Enumerations *)
Lemma split_scope_plain u : forall acc r, ~ char_in ":" u -> (r = "" \/ exists q, r = "::" ++ q) ->
  split_scopes acc (u ++ r) = match r with EmptyString => [acc ++ u] | _ => split_scopes (acc ++ u) r end.
Proof.
  induction u as [|a u IH]; intros acc r Hu Hr; cbn [append].
  - rewrite sapp_nil. destruct r; reflexivity.
  - assert (Ha : Ascii.eqb a ":" = false). { destruct (Ascii.eqb_spec a ":"); auto. subst. destruct Hu. apply char_in_head. }
    assert (Hu' : ~ char_in ":" u) by (intros X; apply Hu, occurs_cons, X).
    specialize (IH (acc ++ String a "") r Hu' Hr). rewrite sapp_assoc in IH. cbn [append] in IH.
    destruct u as [|b u].
    + cbn [append] in *. destruct r as [|b r]; [reflexivity|]. cbn [split_scopes]. rewrite Ha. exact IH.
    + cbn [append] in *. cbn [split_scopes]. rewrite Ha. exact IH.
Qed.
Lemma split_joined l : l <> [] -> Forall (fun s => ~ char_in ":" s) l -> split_scopes "" (join_with "::" l) = l.
Proof.
  intros Hn H. induction H as [|a l Ha Hl IH]; [congruence|]. destruct l as [|b l].
  - cbn [join_with]. rewrite <- (sapp_nil a) at 1. rewrite split_scope_plain by auto. reflexivity.
  - change (join_with "::" (a :: b :: l)) with (a ++ "::" ++ join_with "::" (b :: l)). rewrite split_scope_plain by eauto. cbn [append split_scopes Ascii.eqb Bool.eqb andb].
    rewrite IH by discriminate. reflexivity.
Qed.
Lemma scopes_split e l : scopes_of e l -> split_scopes "" e = l.
Proof. intros (H1 & H2 & ->). apply split_joined; auto. Qed.
Lemma join_last l a : l <> [] -> join_with "::" (l ++ [a])%list = join_with "::" l ++ "::" ++ a.
Proof.
  intros H. induction l as [|x l IH]; [congruence|]. destruct l as [|y l]; [reflexivity|].
  change (join_with "::" ((x :: y :: l) ++ [a])%list) with (x ++ "::" ++ join_with "::" ((y :: l) ++ [a])%list). rewrite IH by discriminate.
  change (join_with "::" (x :: y :: l)) with (x ++ "::" ++ join_with "::" (y :: l)). norm. reflexivity.
Qed.
Lemma no_colon_scope n : ~ char_in ":" n -> ~ occurs "::" n.
Proof. intros H (a & b & E). apply H. exists a, (":" ++ b). rewrite E. reflexivity. Qed.
Lemma enum_decl_spec e l ut : scopes_of e l ->
  (enum_decl e ut = None <-> In "(anonymous namespace)" l \/ In "{anonymous}" l) /\ (forall d, enum_decl e ut = Some d -> declares d e ut).
Proof.
  intros Hs. pose proof (scopes_split e l Hs) as E. destruct Hs as (Hn & Hc & ->). unfold enum_decl. rewrite E. cbv zeta.
  assert (X : forall x, existsb (String.eqb x) l = true <-> In x l).
  { intros x. rewrite existsb_exists. split; [intros (y & H1 & H2); apply String.eqb_eq in H2; subst; auto|intros H; exists x; split; auto; apply String.eqb_refl]. }
  assert (XX : (existsb (String.eqb "(anonymous namespace)") l || existsb (String.eqb "{anonymous}") l = true) <-> In "(anonymous namespace)" l \/ In "{anonymous}" l) by (rewrite orb_true_iff, !X; tauto).
  destruct (existsb _ l || existsb _ l) eqn:EX.
  - split; [tauto|discriminate].
  - split; [split; [destruct (Nat.ltb 1 (List.length l)); discriminate|intros H; apply XX in H; discriminate]|].
    destruct (@exists_last _ l Hn) as (q & a & ->). rewrite List.last_last, removelast_last. apply Forall_app in Hc. destruct Hc as [_ Hc]. inversion Hc as [|? ? Ha _]; subst.
    destruct q as [|x q].
    + cbn [List.app List.length Nat.ltb Nat.leb]. intros d H. injection H as <-. cbn [join_with]. apply decl_global. apply no_colon_scope, Ha.
    + replace (Nat.ltb 1 (List.length ((x :: q) ++ [a]))) with true by (symmetry; apply Nat.ltb_lt; rewrite app_length; cbn; lia).
      intros d H. injection H as <-. rewrite join_last by discriminate. apply decl_in. apply no_colon_scope, Ha.
Qed.
Lemma scopes_unique e l l' : scopes_of e l -> scopes_of e l' -> l = l'.
Proof. intros H H'. rewrite <- (scopes_split e l H), <- (scopes_split e l' H'). reflexivity. Qed.
Lemma anonymous_scopes e l : scopes_of e l -> (anonymous e <-> In "(anonymous namespace)" l \/ In "{anonymous}" l).
Proof.
  intros H. split; [intros (l' & H' & D); rewrite (scopes_unique e l l' H H'); exact D|intros D; exists l; auto].
Qed.
Definition note (d : list (string * string)) (a : arg_type) : list (string * string) := match a with EncEnum e ut _ => put String.eqb e ut d | Enc _ _ => d end.
Lemma collect_read l : Forall encoding_ok l -> forall d, collect_enums (map encoding_text l) d = Some (fold_left note l d).
Proof.
  induction 1 as [|a l Ha _ IH]; intros d; [reflexivity|]. cbn [map collect_enums fold_left]. destruct (encoding_read a Ha) as (s & ->). rewrite IH. f_equal. f_equal.
  destruct a as [tag ty|e ut size]; cbn [arg_enc arg_enum arg_ut note]; [|reflexivity]. destruct Ha as [Ht _]. destruct Ht as [<-|[<-|[<-|[<-|[]]]]]; reflexivity.
Qed.
Lemma put_in k v (d : list (string * string)) x : In x (put String.eqb k v d) -> x = (k, v) \/ In x d.
Proof.
  induction d as [|[k' v'] d IH]; cbn; [intuition|]. destruct (String.eqb_spec k' k) as [->|N]; cbn; intuition congruence.
Qed.
Lemma notes_nodup l : forall d, NoDup (map fst d) -> NoDup (map fst (fold_left note l d)).
Proof. induction l as [|a l IH]; intros d H; [exact H|]. cbn [fold_left]. apply IH. destruct a; cbn [note]; [exact H|]. apply put_nodup; [apply string_ok|exact H]. Qed.
Lemma notes_keys l : forall d x, In x (map fst (fold_left note l d)) <-> In x (map fst d) \/ exists ut, enums_in l x ut.
Proof.
  induction l as [|a l IH]; intros d x; cbn [fold_left].
  - split; [auto|]. intros [H|(ut & s & [])]. exact H.
  - rewrite IH. unfold enums_in. destruct a as [tag ty|e ut size]; cbn [note].
    + split; (intros [H|(u & s & H)]; [auto|right]); [exists u, s; right; exact H|]. destruct H as [H|H]; [discriminate|]. exists u, s. exact H.
    + rewrite put_keys by apply string_ok. split.
      * intros [[->|H]|(u & s & H)]; [right; exists ut, size; left; reflexivity|auto|right; exists u, s; right; exact H].
      * intros [H|(u & s & [H|H])]; [auto|left; left; congruence|right; exists u, s; exact H].
Qed.
Lemma notes_in l : forall d x, In x (fold_left note l d) -> In x d \/ enums_in l (fst x) (snd x).
Proof.
  induction l as [|a l IH]; intros d x H; cbn [fold_left] in H; [auto|]. apply IH in H. destruct H as [H|(s & H)]; [|right; exists s; right; exact H].
  destruct a as [tag ty|e ut size]; cbn [note] in H; [auto|]. apply put_in in H. destruct H as [->|H]; [right; exists size; left; reflexivity|auto].
Qed.
Lemma all_some_spec {X} (l : list (option X)) : match all_some l with Some q => Forall2 (fun o x => o = Some x) l q | None => In None l end.
Proof.
  induction l as [|[x|] l IH]; cbn; [constructor| |auto]. destruct (all_some l); [constructor; auto|auto].
Qed.
Lemma decls_read l : Forall encoding_ok l -> (forall e ut, enums_in l e ut -> exists s, scopes_of e s) -> (forall e ut ut', enums_in l e ut -> enums_in l e ut' -> ut = ut') ->
  forall ms, flat_map sm_args ms = map encoding_text l ->
  match enum_decls ms with
  | None => exists e ut, enums_in l e ut /\ anonymous e
  | Some ds => (forall e ut, enums_in l e ut -> ~ anonymous e) /\
      exists es, NoDup (map fst es) /\ (forall e ut, In (e, ut) es <-> enums_in l e ut) /\ Forall2 (fun d eu => declares d (fst eu) (snd eu)) ds es
  end.
Proof.
  intros Hok Hsc Hut ms Ems. unfold enum_decls. rewrite Ems, collect_read by auto. set (d := fold_left note l []).
  assert (Hin : forall e ut, In (e, ut) d <-> enums_in l e ut).
  { intros e ut. split; [intros H; apply notes_in in H; destruct H as [[]|H]; exact H|]. intros H.
    assert (K : In e (map fst d)) by (apply notes_keys; right; eauto). apply in_map_iff in K. destruct K as ([e' ut'] & E & K). cbn in E. subst e'.
    pose proof K as K'. apply notes_in in K'. destruct K' as [[]|K']. cbn in K'. rewrite (Hut e ut ut' H K'). exact K. }
  assert (Hnd : NoDup (map fst d)) by (apply notes_nodup; constructor).
  clearbody d. pose proof (all_some_spec (map (fun kv => enum_decl (fst kv) (snd kv)) d)) as S. destruct (all_some _) as [ds|].
  - assert (F : Forall2 (fun kv x => enum_decl (fst kv) (snd kv) = Some x) d ds).
    { clear - S. remember (map (fun kv => enum_decl (fst kv) (snd kv)) d) as q eqn:Eq. revert d Eq. induction S as [|o x q ds Ho _ IH]; intros d Eq; destruct d as [|kv d]; try discriminate; constructor.
      - injection Eq as -> _. exact Ho.
      - apply IH. injection Eq as _ ->. reflexivity. }
    split.
    + intros e ut He An. destruct (Hsc e ut He) as (s & Hs). apply (anonymous_scopes e s Hs) in An. apply Hin in He.
      assert (N : enum_decl e ut = None) by (apply (enum_decl_spec e s ut Hs), An). clear - F He N. induction F as [|kv x d ds H F IH]; [destruct He|]. destruct He as [->|He]; [cbn in H; congruence|auto].
    + exists d. split; [exact Hnd|]. split; [exact Hin|]. assert (Hd : forall x, In x d -> enums_in l (fst x) (snd x)) by (intros [e ut] H; apply Hin, H). clear - F Hsc Hd.
      induction F as [|[e ut] x d ds H F IH]; constructor; [|apply IH; intros y Hy; apply Hd; right; exact Hy].
      destruct (Hsc e ut (Hd (e, ut) (or_introl eq_refl))) as (s & Hs). apply (enum_decl_spec e s ut Hs), H.
  - apply in_map_iff in S. destruct S as ([e ut] & N & K). apply Hin in K. exists e, ut. split; [exact K|]. destruct (Hsc e ut K) as (s & Hs). apply (anonymous_scopes e s Hs), (enum_decl_spec e s ut Hs), N.
Qed.

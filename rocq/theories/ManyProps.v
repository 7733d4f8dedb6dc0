(** Theorem C157. *)
From Coq Require Import String Ascii Bool Arith List NArith ZArith Lia.
From Verif Require GenProofs3.
From Verif Require Import GenModel SymbolModel CatalogModel JsonModel JsonSpec JsonProofs JsonProofs2 JsonProofs3 JsonProofs4 JsonProps FileModel FileSpec FileProps ManyModel ManySpec ManyProofs ManyProofs2.
Import ListNotations.
Local Open Scope Z_scope.

(** ** C157: what several JSON files say together *)
(** What is read from any file reads the same after it was written. *)
Theorem C157_reread t v crlf : plain_text t -> load t = Some v -> load (save crlf v) = Some v.
Proof. intros P L. destruct (load_clean t v P L) as [A B]. rewrite C153_exact by exact A. now rewrite B. Qed.
Print Assumptions C157_reread.

Lemma last_says_ext own own' files k v : own k = own' k -> (last_says own files k v <-> last_says own' files k v).
Proof. intros E. unfold last_says. now rewrite E. Qed.
Notation stable_base := [(KText (lit "messages"), VList []); (KText (lit "modules"), VList [])].
Lemma stable_base_distinct : distinct stable_base.
Proof. unfold distinct. repeat constructor; cbn [map fst In]; intros H; repeat destruct H as [H|H]; try discriminate; exact H. Qed.
(** The ids of earlier builds come from what the last file with that heading says; there is no build if a
    file cannot be read. *)
Theorem C157_stable files ms ds : Forall plain_text files ->
  (read_stables files = Some (ms, ds) <->
   Forall readable files /\
   exists vm vd, last_says nothing files (lit "messages") vm /\ each to_message vm = Some ms /\ last_says nothing files (lit "modules") vd /\ each to_module vd = Some ds).
Proof.
  intros P. unfold read_stables. destruct (update_all stable_base files) as [d|] eqn:U.
  - assert (R : Forall readable files) by (apply (update_all_some files stable_base); eauto). destruct (update_all_says files _ d P stable_base_distinct U) as [D S].
    assert (Sm : forall v, get key_eqb (KText (lit "messages")) d = Some v <-> last_says nothing files (lit "messages") v) by (intros v; rewrite S; apply last_says_ext; reflexivity).
    assert (Sd : forall v, get key_eqb (KText (lit "modules")) d = Some v <-> last_says nothing files (lit "modules") v) by (intros v; rewrite S; apply last_says_ext; reflexivity).
    cbn [bind]. unfold stable_of, item. split.
    + intros E. split; [exact R|]. destruct (get key_eqb (KText (lit "messages")) d) as [vm|]; [|discriminate]. cbn [bind] in E. destruct (each to_message vm) as [ms'|] eqn:Em; [|discriminate].
      destruct (get key_eqb (KText (lit "modules")) d) as [vd|]; [|discriminate]. cbn [bind] in E. destruct (each to_module vd) as [ds'|] eqn:Ed; [|discriminate]. injection E as -> ->.
      exists vm, vd. split; [now apply Sm|]. split; [exact Em|]. split; [now apply Sd|exact Ed].
    + intros (_ & vm & vd & A & B & C & E). apply Sm in A. apply Sd in C. rewrite A, C. cbn [bind]. now rewrite B, E.
  - split; [discriminate|]. intros [R _]. apply (update_all_some files stable_base) in R as [d E]. congruence.
Qed.
Print Assumptions C157_stable.

Lemma merge_fresh es : forall en, NoDup (map fst es) -> (forall k, In k (map fst es) -> ~ In k (map fst en)) -> merge en es = update key_eqb en (map (fun ke => (fst ke, VDict (snd ke))) es).
Proof.
  induction es as [|[k e] es IH]; intros en N F; [reflexivity|]. cbn [map fst snd] in *. inversion_clear N as [|? ? N1 N2].
  change (merge en ((k, e) :: es)) with (merge (put key_eqb k (joined_with (get key_eqb k en) e) en) es).
  assert (G : get key_eqb k en = None) by (apply get_notin, F; left; reflexivity). rewrite G.
  change (update key_eqb en ((k, VDict e) :: map (fun ke => (fst ke, VDict (snd ke))) es)) with (update key_eqb (put key_eqb k (VDict e) en) (map (fun ke => (fst ke, VDict (snd ke))) es)).
  apply IH; [exact N2|]. intros q I J. apply (GenProofs3.put_keys _ key_eqb_eq) in J as [->|J]; [contradiction|]. exact (F q (or_intror I) J).
Qed.
Lemma own_distinct enums : NoDup (map fst enums) -> NoDup (map fst (own_enums enums)).
Proof.
  intros N. rewrite own_enums_are by exact N. rewrite map_map. cbn [fst]. rewrite <- (map_map fst KText). apply FinFun.Injective_map_NoDup; [intros a b [= ->]; reflexivity|exact N].
Qed.
Notation json_base ms ds := [(KText (lit "messages"), VList (map of_message ms)); (KText (lit "modules"), VList (map of_module ds)); (KText (lit "enums"), VDict [])].
Lemma json_alone ms ds enums : NoDup (map fst enums) -> json_of ms ds enums [] = Some (catalog ms ds enums).
Proof.
  intros N. unfold json_of. cbn [update_all bind]. rewrite (add_enums_some _ _ []); [|reflexivity|now apply own_distinct|discriminate].
  cbn [option_map]. f_equal. unfold catalog. rewrite merge_fresh; [|now apply own_distinct|intros k _ []]. rewrite own_enums_are by exact N. rewrite map_map. reflexivity.
Qed.
(** A build with one stable file and no extra input is the build of C155. *)
Theorem C157_one num of_num file v : NoDup (map fst (v_enums v)) -> run_many num of_num (match file with Some t => [t] | None => [] end) [] v = run_file num of_num file v.
Proof.
  intros N. unfold run_many, run_file, read_stables, read_catalog. destruct file as [t|].
  - cbn [update_all]. destruct (load t) as [[s|z|b| |l|d]|]; auto. cbn [bind]. destruct (stable_of _) as [[ms ds]|]; auto. destruct (run (v_key v) _ _ _ _) as [am jm], (run (v_module_key v) _ _ _ _) as [ad jd]. now rewrite json_alone.
  - cbn [update_all bind]. change (stable_of (VDict stable_base)) with (@Some (list message * list module) ([], [])). cbn [map]. destruct (run (v_key v) _ _ _ _) as [am jm], (run (v_module_key v) _ _ _ _) as [ad jd]. now rewrite json_alone.
Qed.
Print Assumptions C157_one.
(** If the last stable file has both headings, the others only have to be readable. *)
Theorem C157_last num of_num before t v : Forall plain_text (before ++ [t]) -> NoDup (map fst (v_enums v)) ->
  (exists x, says t (lit "messages") x) -> (exists x, says t (lit "modules") x) ->
  run_many num of_num (before ++ [t]) [] v = if forallb (fun f => match load f with Some (VDict _) => true | _ => false end) before then run_file num of_num (Some t) v else None.
Proof.
  intros P N Hm Hd. rewrite <- (C157_one num of_num (Some t) v N). assert (B : forallb (fun f => match load f with Some (VDict _) => true | _ => false end) before = true <-> Forall readable before).
  { rewrite forallb_forall, Forall_forall. split; intros H f I; specialize (H f I); [destruct (load f) as [[ | | | | |d]|] eqn:L; try discriminate; exists d; exact L|destruct H as [d ->]; reflexivity]. }
  assert (Pt : Forall plain_text [t]) by (apply Forall_app in P; tauto).
  assert (L : forall k, (exists x, says t k x) -> forall v, last_says nothing (before ++ [t]) k v <-> last_says nothing [t] k v).
  { intros k [x X] w. assert (Q : forall b, last_says nothing (b ++ [t]) k w <-> says t k w).
    { intros b. split.
      - intros [(a & g & c & E & S & Z)|[Z _]]; [|exfalso; apply (Z t x); [apply in_app_iff; right; left; reflexivity|exact X]].
        destruct (exists_last (l := g :: c) ltac:(discriminate)) as (c' & y & Ec). rewrite Ec, app_assoc in E. apply app_inj_tail in E as [_ <-]. destruct c as [|h c].
        + destruct c' as [|? [|]]; try discriminate. now injection Ec as ->.
        + exfalso. apply (Z t x); [|exact X]. destruct c' as [|q c']; [discriminate|]. injection Ec as _ Ec. rewrite Ec. apply in_app_iff. right. left. reflexivity.
      - intros S. left. exists b, t, []. repeat split; auto. }
    rewrite (Q before). symmetry. apply (Q []). }
  assert (S : read_stables (before ++ [t]) = if forallb (fun f => match load f with Some (VDict _) => true | _ => false end) before then read_stables [t] else None).
  { assert (O : forall (x y : option (list message * list module)), (forall r, x = Some r <-> y = Some r) -> x = y).
    { intros [x|] [y|] H; auto; [apply H; reflexivity| |]; [symmetry|]; apply H; reflexivity. }
    apply O. intros [ms ds]. rewrite (C157_stable _ _ _ P). destruct (forallb _ before).
    - assert (Rb : Forall readable before) by (apply B; reflexivity). rewrite (C157_stable _ _ _ Pt), Forall_app. split.
      + intros [[_ R] (vm & vd & X1 & X2 & X3 & X4)]. split; [exact R|]. exists vm, vd. rewrite <- !L by assumption. auto.
      + intros [R (vm & vd & X1 & X2 & X3 & X4)]. split; [auto|]. exists vm, vd. rewrite !L by assumption. auto.
    - split; [|discriminate]. intros [R _]. apply Forall_app in R as [R _]. apply B in R. discriminate. }
  unfold run_many. rewrite S. destruct (forallb _ before); reflexivity.
Qed.
Print Assumptions C157_last.

(** ** The extra inputs *)
Lemma json_base_distinct ms ds : distinct (json_base ms ds).
Proof. unfold distinct. repeat constructor; cbn [map fst In]; intros H; repeat destruct H as [H|H]; try discriminate; exact H. Qed.
Lemma json_base_is ms ds k : get key_eqb (KText k) (json_base ms ds) = the_build ms ds k.
Proof.
  unfold the_build. cbn [get key_eqb]. assert (C : forall a b, text_eqb a b = text_eqb b a). { intros a b. destruct (text_eqb a b) eqn:E; [apply text_eqb_eq in E as ->; symmetry; now apply text_eqb_eq|]. destruct (text_eqb b a) eqn:F; [|reflexivity]. apply text_eqb_eq in F as ->. now rewrite (proj2 (text_eqb_eq a a) eq_refl) in E. }
  now rewrite !(C k).
Qed.
Lemma in_own enums k : NoDup (map fst enums) -> (In k (map fst (own_enums enums)) <-> exists E, k = KText E /\ In E (map fst enums)).
Proof.
  intros N. rewrite own_enums_are by exact N. rewrite map_map. cbn [fst]. rewrite <- (map_map fst KText), in_map_iff. split; intros (E & A & B); exists E; auto.
Qed.
Lemma get_mem (d : list (key * value)) k v : get key_eqb k d = Some v -> In (k, v) d.
Proof. induction d as [|[q x] d IH]; cbn [get]; [discriminate|]. destruct (key_eqb q k) eqn:E; [apply key_eqb_eq in E as ->; intros [= ->]; left; reflexivity|right; auto]. Qed.
Lemma update_all_keeps files : forall d d' k, get key_eqb k d <> None -> update_all d files = Some d' -> get key_eqb k d' <> None.
Proof.
  induction files as [|f r IH]; intros d d' k G E; cbn [update_all] in E; [now injection E as <-|]. destruct (load f) as [[ | | | | |e]|]; try discriminate. revert E. apply IH. rewrite get_update. now destruct (last_of k e).
Qed.
(** The JSON output can be made exactly if the extra inputs can be read and what they say about
    the enumerations can be added to. *)
Theorem C157_possible ms ds enums extra : Forall plain_text extra -> NoDup (map fst enums) ->
  (json_of ms ds enums extra <> None <-> Forall readable extra /\ forall en, last_says (the_build ms ds) extra (lit "enums") en -> addable en enums).
Proof.
  intros P N. unfold json_of. destruct (update_all (json_base ms ds) extra) as [d|] eqn:U.
  - assert (R : Forall readable extra) by (apply (update_all_some extra (json_base ms ds)); eauto). destruct (update_all_says extra _ d P (json_base_distinct ms ds) U) as [D S].
    assert (Se : forall v, get key_eqb heading d = Some v <-> last_says (the_build ms ds) extra (lit "enums") v) by (intros v; rewrite S; apply last_says_ext, json_base_is).
    cbn [bind]. split.
    + intros H. split; [exact R|]. intros en L. apply Se in L. destruct enums as [|e0 enums]; [left; reflexivity|]. right.
      assert (Q : own_enums (e0 :: enums) <> []) by (rewrite own_enums_are by exact N; discriminate).
      destruct en as [t|z|b| |l|en]; try (exfalso; apply H; rewrite add_enums_not; [reflexivity|exact Q|rewrite L; discriminate]).
      exists en. split; [reflexivity|]. intros E x I J.
      assert (De : get key_eqb (KText E) en = Some x).
      { apply get_in; [|exact J]. assert (C : clean (VDict en)).
        { assert (In (heading, VDict en) d) by (apply (get_iff d _ _ D), L). apply Se in L. destruct L as [(a & f & b & -> & (df & Lf & If) & _)|[_ L]].
          - apply Forall_app in P as [_ P]. inversion_clear P as [|? ? Pf _]. apply (load_clean f _ Pf) in Lf. apply clean_items in Lf as [_ Lf]. exact (proj2 (Lf _ _ If)).
          - injection L as <-. apply clean_dict; [constructor|intros ? ? []]. }
        apply clean_items in C. apply C. }
      destruct x as [t|z|b| |l|o]; try (exfalso; apply H; rewrite (add_enums_none _ d en (KText E) _ L (own_distinct _ N) (proj2 (in_own _ _ N) (ex_intro _ E (conj eq_refl I))) De); [reflexivity|discriminate]).
      exists o. reflexivity.
    + intros [_ A]. destruct (get key_eqb heading d) as [en|] eqn:G.
      * specialize (A en (proj1 (Se en) eq_refl)). destruct A as [->|(en' & -> & A)]; [discriminate|]. rewrite (add_enums_some _ d en' G (own_distinct _ N)); [discriminate|].
        intros k x I J. apply (in_own _ _ N) in I as (E & -> & I). apply (A E x I). now apply get_mem.
      * exfalso. refine (update_all_keeps extra _ d heading _ U G). rewrite json_base_is. discriminate.
  - split; [intros H; exfalso; apply H; reflexivity|]. intros [R _]. apply (update_all_some extra (json_base ms ds)) in R as [d E]. congruence.
Qed.
Print Assumptions C157_possible.

Lemma clean_shown d : (forall k v, In (k, v) d -> clean_key k /\ clean v) -> map shown d = d.
Proof. intros H. rewrite (map_ext_in _ (fun x => x)); [apply map_id|]. intros [k v] I. destruct (H k v I) as [(t & -> & _ & J) [_ S]]. unfold shown. cbn [fst snd]. now rewrite J, S. Qed.
Lemma put_shown d x : (forall k v, In (k, v) d -> clean_key k /\ clean v) -> map shown (put key_eqb heading x d) = put key_eqb heading (seen x) d.
Proof.
  induction d as [|[k v] d IH]; intros H; cbn [put map].
  - unfold shown. cbn [fst snd]. now rewrite joined_plain by apply lit_plain_all.
  - destruct (H k v (or_introl eq_refl)) as [(t & -> & _ & J) [_ S]]. destruct (key_eqb (KText t) heading); cbn [map].
    + rewrite clean_shown by (intros q y I; apply H; right; exact I). unfold shown. cbn [fst snd]. now rewrite J.
    + rewrite IH by (intros q y I; apply H; right; exact I). unfold shown. cbn [fst snd]. now rewrite J, S.
Qed.
Lemma get_seen (d : list (key * value)) k : get key_eqb k (map (fun kv => (fst kv, seen (snd kv))) d) = option_map seen (get key_eqb k d).
Proof. induction d as [|[q x] d IH]; cbn [map get fst snd]; [reflexivity|]. now destruct (key_eqb q k). Qed.
Lemma seen_dict d k : distinct d -> (forall k, In k (map fst d) -> clean_key k) -> match seen (VDict d) with VDict e => get key_eqb k e | _ => None end = option_map seen (get key_eqb k d).
Proof.
  intros D C. rewrite <- get_seen. cbn [seen]. rewrite (map_ext_in _ (fun kv => (fst kv, seen (snd kv)))).
  - rewrite merged_distinct; [reflexivity|]. rewrite map_map. exact D.
  - intros [q x] I. destruct (C q) as (t & -> & _ & J); [apply in_map_iff; exists (q, x); auto|]. cbn [fst snd]. now rewrite J.
Qed.
Lemma last_of_app k a b : last_of k (a ++ b) = match last_of k b with Some v => Some v | None => last_of k a end.
Proof. induction a as [|[q x] a IH]; cbn [app last_of]; [now destruct (last_of k b)|]. rewrite IH. now destruct (last_of k b). Qed.
Lemma names_distinct es : NoDup (map fst (names_of es)).
Proof. unfold names_of. rewrite update_merged. apply merged_nodup. Qed.
Lemma names_nums es k : In k (map fst (names_of es)) -> exists z, k = KNum z.
Proof.
  unfold names_of. rewrite update_merged, merged_keys, firsts_in, map_map. cbn [fst]. rewrite in_map_iff. intros ([n z] & <- & _). exists z. reflexivity.
Qed.
Lemma nodup_both {A} (a b : list A) : NoDup a -> NoDup b -> (forall x, In x a -> ~ In x b) -> NoDup (a ++ b).
Proof.
  intros Na Nb H. induction Na as [|x a N1 N2 IH]; [exact Nb|]. cbn [app]. constructor; [|apply IH; intros y I; apply H; right; exact I].
  rewrite in_app_iff. intros [I|I]; [contradiction|]. apply (H x); [left; reflexivity|exact I].
Qed.
Lemma joined_is x es : (forall o, x = Some (VDict o) -> clean (VDict o)) ->
  exists o, joined_with x (names_of es) = VDict (o ++ names_of es) /\ distinct (o ++ names_of es) /\ map shown o = o /\ (forall k v, In (k, v) o -> clean_key k /\ clean v) /\
    (x = Some (VDict o) \/ o = [] /\ forall d, x <> Some (VDict d)).
Proof.
  intros C. assert (Q : exists o, (forall k v, In (k, v) o -> clean_key k /\ clean v) /\ distinct o /\ joined_with x (names_of es) = VDict (update key_eqb o (names_of es)) /\ (x = Some (VDict o) \/ o = [] /\ forall d, x <> Some (VDict d))).
  { assert (U : update key_eqb [] (names_of es) = names_of es) by (apply (update_distinct (names_of es) []); apply names_distinct).
    destruct x as [[t|z|b| |l|o]|]; try (exists []; split; [intros k v []|]; split; [constructor|]; split; [unfold joined_with; now rewrite U|right; split; [reflexivity|discriminate]]).
    exists o. destruct (clean_items o (C o eq_refl)) as [D E]. split; [exact E|]. split; [exact D|]. split; [reflexivity|left; reflexivity]. }
  destruct Q as (o & Co & Do & J & X). exists o.
  assert (N : NoDup (map fst (o ++ names_of es))).
  { rewrite map_app. apply nodup_both; [exact Do|apply names_distinct|]. intros k I Y. apply names_nums in Y as [z ->]. apply in_map_iff in I as ([k v] & E & I). cbn [fst] in E. subst k. destruct (Co _ _ I) as [(t & T & _) _]. discriminate. }
  split; [rewrite J; f_equal; apply update_distinct; exact N|]. split; [exact N|]. split; [now apply clean_shown|]. split; [exact Co|exact X].
Qed.

Lemma ok_both a b : value_ok (VDict a) -> value_ok (VDict b) -> value_ok (VDict (a ++ b)).
Proof. cbn [value_ok]. induction a as [|[k v] a IH]; cbn [app fold_right]; [auto|]. intros [A1 A2] B. split; [exact A1|]. now apply IH. Qed.
Lemma items_ok d : value_ok (VDict d) -> forall k v, In (k, v) d -> key_ok k /\ value_ok v.
Proof. cbn [value_ok]. induction d as [|[k v] d IH]; cbn [fold_right]; intros A q x; [intros []|]. destruct A as [A1 A2]. intros [[= <- <-]|I]; [exact A1|]. exact (IH A2 q x I). Qed.
Definition look (v : value) (E : text) (z : Z) : option text :=
  bind (match v with VDict d => get key_eqb (KText E) d | _ => None end) (fun e => bind (match e with VDict d => get key_eqb (KText (lit (str z))) d | _ => None end) as_text).
Lemma look_names v E z n : clean v -> (look v E z = Some n <-> names v E z n).
Proof.
  intros C. unfold look, names. split.
  - intros H. destruct v as [t|y|b| |l|d]; try discriminate. destruct (get key_eqb (KText E) d) as [e|] eqn:G; [|discriminate]. cbn [bind] in H. destruct e as [t|y|b| |l|e]; try discriminate.
    destruct (get key_eqb (KText (lit (str z))) e) as [x|] eqn:X; [|discriminate]. cbn [bind] in H. destruct x as [t|y|b| |l|x]; try discriminate. injection H as ->.
    exists d, e. split; [reflexivity|]. split; apply get_mem; assumption.
  - intros (d & e & -> & I & J). apply clean_items in C as [D C]. rewrite (get_in d _ _ D I). cbn [bind]. destruct (C _ _ I) as [_ Ce]. apply clean_items in Ce as [De _]. rewrite (get_in e _ _ De J). reflexivity.
Qed.
(** The name that the build has for a value. *)
Definition own_name (enums : list (text * list (text * Z))) (E : text) (z : Z) : option text :=
  if in_dec (list_eq_dec Z.eq_dec) E (map fst enums) then bind (find (fun e => text_eqb (fst e) E) enums) (fun e => last_name z (snd e)) else None.
Section Output.
Variables (ms : list message) (ds : list module) (enums : list (text * list (text * Z))).
Hypotheses (Hm : Forall message_ok ms) (Hd : Forall module_ok ds) (He : enums_ok enums) (N : NoDup (map fst enums)).
Lemma base_clean k v : In (k, v) (json_base ms ds) -> clean_key k /\ clean v.
Proof.
  assert (K : forall s, clean_key (KText (lit s))) by (intros s; exists (lit s); split; [reflexivity|]; split; [apply plain_text_ok, lit_plain_all|apply joined_plain, lit_plain_all]).
  assert (Pl : forall v, plain v -> clean v) by (intros x H; split; [now apply plain_ok|now apply plain_seen]).
  rewrite Forall_forall in Hm, Hd. intros [I|[I|[I|[]]]]; apply pair_equal_spec in I as [<- <-]; (split; [apply K|]); apply Pl.
  - apply plain_list. intros x Hx. apply of_message_plain. auto.
  - apply plain_list. intros x Hx. apply of_module_plain. auto.
  - cbn. split; [constructor|exact I].
Qed.
Lemma own_in k e : In (k, e) (own_enums enums) <-> exists E es, k = KText E /\ e = names_of es /\ In (E, es) enums.
Proof. rewrite own_enums_are by exact N. rewrite in_map_iff. split; [intros ([E es] & [= <- <-] & I); eauto|intros (E & es & -> & -> & I); exists (E, es); auto]. Qed.
Lemma own_plain E es : In (E, es) enums -> plain_text E /\ Forall (fun nv => plain_text (fst nv)) es.
Proof. unfold enums_ok in He. rewrite Forall_forall in He. intros I. exact (He _ I). Qed.
Variable en : list (key * value).
Hypothesis Ce : clean (VDict en).
Let m := merge en (own_enums enums).
Lemma m_distinct : distinct m. Proof. apply merge_distinct. apply clean_items in Ce. apply Ce. Qed.
Lemma m_cases k v : get key_eqb k m = Some v -> clean_key k /\ (clean v \/ exists E es, k = KText E /\ In (E, es) enums /\ v = joined_with (get key_eqb k en) (names_of es)).
Proof.
  intros G. destruct (in_dec key_eq_dec k (map fst (own_enums enums))) as [I|I].
  - apply in_map_iff in I as ([q e] & <- & I). cbn [fst] in *. unfold m in G. rewrite (merge_own _ en q e (own_distinct _ N) I) in G. injection G as <-. apply own_in in I as (E & es & -> & -> & I).
    split; [exists E; split; [reflexivity|]; destruct (own_plain E es I); split; [now apply plain_text_ok|now apply joined_plain]|]. right. eauto.
  - unfold m in G. rewrite merge_other in G by exact I. apply get_mem in G. destruct (clean_items _ Ce) as [_ C]. destruct (C _ _ G) as [C1 C2]. auto.
Qed.
Lemma en_clean x o : get key_eqb x en = Some (VDict o) -> clean (VDict o).
Proof. intros G. apply get_mem in G. destruct (clean_items _ Ce) as [_ C]. apply (C _ _ G). Qed.
Lemma m_keys k : In k (map fst m) -> clean_key k.
Proof. intros I. apply in_map_iff in I as ([q v] & <- & I). apply (get_in m _ _ m_distinct) in I. apply m_cases in I. apply I. Qed.
Lemma m_ok : value_ok (VDict m).
Proof.
  apply ok_items. intros k v I. apply (get_in m _ _ m_distinct) in I. apply m_cases in I as [(t & -> & T & _) [[V _]|(E & es & K & I & ->)]]; (split; [exact T|]); [exact V|].
  destruct (joined_is (get key_eqb (KText t) en) es) as (o & -> & _ & _ & Co & _); [intros o G; now apply en_clean in G|]. apply ok_both.
  - apply ok_items. intros q x J. destruct (Co q x J) as [(s & -> & A & _) [B _]]. auto.
  - apply (enum_dict_ok es). apply (own_plain E es I).
Qed.
Lemma m_look E z : look (seen (VDict m)) E z = match own_name enums E z with Some n => Some n | None => look (VDict en) E z end.
Proof.
  assert (L : look (seen (VDict m)) E z = bind (option_map seen (get key_eqb (KText E) m)) (fun e => bind (match e with VDict d => get key_eqb (KText (lit (str z))) d | _ => None end) as_text)).
  { rewrite <- seen_dict; [reflexivity|exact m_distinct|exact m_keys]. }
  rewrite L. clear L. unfold own_name. destruct (in_dec (list_eq_dec Z.eq_dec) E (map fst enums)) as [I|I].
  - assert (F : exists es, find (fun e => text_eqb (fst e) E) enums = Some (E, es) /\ In (E, es) enums).
    { destruct (find (fun e => text_eqb (fst e) E) enums) as [[E' es]|] eqn:F.
      - apply find_some in F as [F1 F2]. cbn [fst] in F2. apply text_eqb_eq in F2 as ->. eauto.
      - exfalso. apply in_map_iff in I as ([E' es] & <- & I). apply (find_none _ _ F) in I. cbn [fst] in I. now rewrite (proj2 (text_eqb_eq E' E') eq_refl) in I. }
    destruct F as (es & -> & J). cbn [bind snd]. unfold m. rewrite (merge_own _ en (KText E) (names_of es) (own_distinct _ N)) by (apply own_in; eauto). cbn [option_map bind].
    destruct (joined_is (get key_eqb (KText E) en) es) as (o & -> & D & So & Co & X); [intros o G; now apply en_clean in G|].
    cbn [seen]. change (fun kv : key * value => (KText (joined match fst kv with KText t => t | KNum z => lit (str z) end), seen (snd kv))) with shown. rewrite get_merged, map_app, last_of_app, So.
    assert (K : last_of (KText (lit (str z))) (map shown (names_of es)) = option_map VText (last_name z es)).
    { rewrite <- (seen_name es z) by apply (own_plain E es J). unfold enum_dict. cbn [seen]. rewrite get_merged. reflexivity. }
    rewrite K. destruct (last_name z es) as [n|]; [reflexivity|]. cbn [option_map]. unfold look. destruct X as [X|[-> X]].
    + rewrite X. cbn [bind]. rewrite get_last; [reflexivity|]. pose proof (en_clean _ _ X) as C. apply clean_items in C. apply C.
    + cbn [last_of bind]. destruct (get key_eqb (KText E) en) as [[t|y|b| |l|d]|]; try reflexivity. now destruct (X d).
  - unfold m. rewrite merge_other by (rewrite in_own by exact N; intros (E' & [= <-] & J); contradiction). unfold look. destruct (get key_eqb (KText E) en) as [x|] eqn:G; [|reflexivity].
    apply get_mem in G. destruct (clean_items _ Ce) as [_ C]. destruct (C _ _ G) as [_ [_ S]]. cbn [option_map]. now rewrite S.
Qed.
End Output.
Lemma one_value {B} (l : list (text * B)) E a b : NoDup (map fst l) -> In (E, a) l -> In (E, b) l -> a = b.
Proof.
  induction l as [|[q x] l IH]; intros N; [intros []|]. cbn [map fst] in N. inversion_clear N as [|? ? N1 N2]. intros [I|I] [J|J].
  - congruence.
  - exfalso. apply N1. injection I as -> ->. apply in_map_iff. exists (E, b). auto.
  - exfalso. apply N1. injection J as -> ->. apply in_map_iff. exists (E, a). auto.
  - exact (IH N2 I J).
Qed.
Lemma find_own enums E z n : NoDup (map fst enums) ->
  (own_name enums E z = Some n <-> exists es, In (E, es) enums /\ last_name z es = Some n).
Proof.
  intros N. unfold own_name. destruct (in_dec (list_eq_dec Z.eq_dec) E (map fst enums)) as [I|I].
  - destruct (find (fun e => text_eqb (fst e) E) enums) as [[E' es]|] eqn:F; cbn [bind snd].
    + apply find_some in F as [F1 F2]. cbn [fst] in F2. apply text_eqb_eq in F2 as ->. split; [eauto|]. intros (es' & J & L). assert (es = es'); [|now subst]. exact (one_value enums E es es' N F1 J).
    + exfalso. apply in_map_iff in I as ([E' es] & <- & I). apply (find_none _ _ F) in I. cbn [fst] in I. now rewrite (proj2 (text_eqb_eq E' E') eq_refl) in I.
  - split; [discriminate|]. intros (es & J & _). exfalso. apply I. apply in_map_iff. exists (E, es). auto.
Qed.
(** What the JSON output then says: under every heading but "enums" what the last extra input with it says, or what the build has;
    the name of a value is the one that the build has for it, or else the one that the last extra input with enumerations has. *)
Theorem C157_output crlf ms ds enums extra w : Forall plain_text extra -> Forall message_ok ms -> Forall module_ok ds -> enums_ok enums -> NoDup (map fst enums) ->
  json_of ms ds enums extra = Some w ->
  exists d, load (save crlf w) = Some (VDict d) /\
    (forall k v, k <> lit "enums" -> (In (KText k, v) d <-> last_says (the_build ms ds) extra k v)) /\
    (forall E es z n, In (E, es) enums -> last_name z es = Some n -> enumerator (VDict d) E z = Some n) /\
    (forall E z n, (forall es, In (E, es) enums -> last_name z es = None) ->
      (enumerator (VDict d) E z = Some n <-> exists en, last_says (the_build ms ds) extra (lit "enums") en /\ names en E z n)).
Proof.
  intros P Hm Hd He N J. unfold json_of in J. destruct (update_all (json_base ms ds) extra) as [d1|] eqn:U; [|discriminate]. cbn [bind] in J.
  destruct (update_all_says extra _ d1 P (json_base_distinct ms ds) U) as [D S].
  pose proof (update_all_clean extra _ d1 P (json_base_distinct ms ds) (base_clean ms ds Hm Hd) U) as C.
  assert (Sb : forall k v, get key_eqb (KText k) d1 = Some v <-> last_says (the_build ms ds) extra k v) by (intros k v; rewrite S; apply last_says_ext, json_base_is).
  assert (Q : forall E z n en, get key_eqb heading d1 = Some en -> (look en E z = Some n <-> exists en, last_says (the_build ms ds) extra (lit "enums") en /\ names en E z n)).
  { intros E z n en G. assert (Cen : clean en) by (apply get_mem in G; apply (C _ _ G)). rewrite look_names by exact Cen. split; [intros X; exists en; split; [now apply Sb|exact X]|]. intros (en' & X & Y). apply Sb in X. rewrite G in X. now injection X as <-. }
  assert (G : exists en, get key_eqb heading d1 = Some en). { destruct (get key_eqb heading d1) as [en|] eqn:G; [eauto|]. exfalso. refine (update_all_keeps extra _ d1 heading _ U G). rewrite json_base_is. discriminate. }
  destruct G as [en G]. destruct (list_eq_dec key_eq_dec (map fst (own_enums enums)) []) as [O|O].
  - assert (O' : own_enums enums = []) by (destruct (own_enums enums); [reflexivity|discriminate]). assert (enums = []) as ->. { rewrite own_enums_are in O' by exact N. now destruct enums. }
    rewrite O' in J. cbn [add_enums option_map] in J. injection J as <-. destruct (clean_dict d1 D C) as [V1 V2]. exists d1. rewrite C153_exact by exact V1. rewrite V2. split; [reflexivity|].
    split; [intros k v _; rewrite <- Sb; symmetry; apply (get_iff d1 _ _ D)|]. split; [intros E es z n []|]. intros E z n _. unfold enumerator, item. rewrite G. apply (Q E z n en G).
  - assert (A : addable en enums). { apply (proj1 (C157_possible ms ds enums extra P N)); [unfold json_of; rewrite U; cbn [bind]; rewrite J; discriminate|now apply Sb]. }
    destruct A as [->|(en' & -> & A)]; [now destruct O|]. assert (Ce : clean (VDict en')) by (apply get_mem in G; apply (C _ _ G)).
    rewrite (add_enums_some _ d1 en' G (own_distinct _ N)) in J.
    2:{ intros k x I X. apply (in_own _ _ N) in I as (E & -> & I). apply (A E x I). now apply get_mem. }
    cbn [option_map] in J. assert (J' : VDict (put key_eqb heading (VDict (merge en' (own_enums enums))) d1) = w) by congruence. subst w. clear J. set (m := merge en' (own_enums enums)) in *.
    assert (Vm : value_ok (VDict m)) by (now apply m_ok).
    assert (D2 : forall x, distinct (put key_eqb heading x d1)) by (intros x; apply (GenProofs3.put_nodup _ key_eqb_eq), D).
    assert (V : value_ok (VDict (put key_eqb heading (VDict m) d1))).
    { apply ok_items. intros k v I. apply (get_in _ _ _ (D2 _)) in I. destruct (key_eq_dec heading k) as [<-|Ne].
      - rewrite (GenProofs3.get_put_same _ key_eqb_eq) in I. injection I as <-. split; [apply plain_text_ok, lit_plain_all|exact Vm].
      - rewrite (GenProofs3.get_put_other _ key_eqb_eq) in I by exact Ne. apply get_mem in I. destruct (C _ _ I) as [(t & -> & T & _) [W _]]. auto. }
    exists (put key_eqb heading (seen (VDict m)) d1). rewrite C153_exact by exact V. split.
    { change (seen (VDict (put key_eqb heading (VDict m) d1))) with (VDict (merged (map shown (put key_eqb heading (VDict m) d1)))). rewrite put_shown by exact C. now rewrite merged_distinct by apply D2. }
    assert (Ei : forall E z, enumerator (VDict (put key_eqb heading (seen (VDict m)) d1)) E z = look (seen (VDict m)) E z).
    { intros E z. unfold enumerator, item. rewrite (GenProofs3.get_put_same _ key_eqb_eq). reflexivity. }
    split; [|split].
    + intros k v Ne. rewrite <- Sb, <- (get_iff _ _ _ (D2 _)). rewrite (GenProofs3.get_put_other _ key_eqb_eq); [reflexivity|]. congruence.
    + intros E es z n I L. rewrite Ei. unfold m. rewrite m_look by assumption. rewrite (proj2 (find_own enums E z n N)) by eauto. reflexivity.
    + intros E z n F. rewrite Ei. unfold m. rewrite m_look by assumption. rewrite <- (Q E z n (VDict en') G).
      match goal with |- match ?x with _ => _ end = _ <-> _ => destruct x as [y|] eqn:Y end; [|reflexivity]. apply (find_own enums E z y N) in Y as (es & I & L). rewrite (F es I) in L. discriminate.
Qed.
Print Assumptions C157_output.

(** Two stable files: the messages of the first, the modules of the second. A file that cannot be read, or is no dict, stops
    the build even if what it says would not be used. *)
Definition hello : message := {| g_text := lit "hello"; g_args := []; g_id := 7; g_named := []; g_tags := [] |}.
Definition first_file : text := save true (catalog [hello] [{| d_text := lit "a"; d_id := 3 |}] []).
Definition second_file : text := lit "{""modules"": [{""string"": ""b"", ""id"": 4}]}".
Example C157_case :
  Forall plain_text [first_file; second_file] /\ read_stables [first_file; second_file] = Some ([hello], [{| d_text := lit "b"; d_id := 4 |}]) /\
  read_stables [second_file; first_file] = Some ([hello], [{| d_text := lit "a"; d_id := 3 |}]) /\
  read_stables [lit "{""messages"": [], "; first_file] = None /\ read_stables [lit "7"; first_file] = None /\ read_stables [] = Some ([], []).
Proof.
  split; [|vm_compute; auto]. assert (A : forall s, Forall printable s -> plain_text s). { intros s. apply Forall_impl. intros c H. unfold printable in H. unfold char_ok, surrogate. lia. }
  constructor; [|constructor; [apply lit_plain_all|constructor]]. unfold plain_text. apply Forall_forall. assert (B : forallb (fun c => (0 <=? c) && (c <=? 127)) first_file = true) by (vm_compute; reflexivity).
  rewrite forallb_forall in B. intros c I. specialize (B c I). unfold char_ok, surrogate. lia.
Qed.
(** An extra input adds a heading and a name, and the build's name of the value 1 is the one that is read. *)
Example C157_output_case :
  let extra := [lit "{""enums"": {""E"": {""1"": ""X"", ""2"": ""Y""}}, ""more"": 5}"] in
  match json_of [hello] [] [(lit "E", [(lit "A", 1)])] extra with
  | Some w => match load (save false w) with
    | Some v => item "messages" v = Some (VList [of_message hello]) /\ item "more" v = Some (VNum 5) /\ enumerator v (lit "E") 1 = Some (lit "A") /\ enumerator v (lit "E") 2 = Some (lit "Y")
    | None => False
    end
  | None => False
  end /\
  json_of [hello] [] [(lit "E", [(lit "A", 1)])] [lit "{""enums"": []}"] = None /\ json_of [hello] [] [] [lit "{""enums"": []}"] <> None.
Proof. vm_compute. repeat split. discriminate. Qed.

(** Lemmas: what is read from several files. *)
From Coq Require Import String Ascii Bool Arith List NArith ZArith Lia.
From Verif Require GenProofs3.
From Verif Require Import GenModel SymbolModel CatalogModel JsonModel JsonSpec JsonProofs JsonProofs2 JsonProofs3 JsonProofs4 JsonProps FileModel FileSpec FileProps ManyModel ManySpec ManyProofs.
Import ListNotations.
Local Open Scope Z_scope.

Definition distinct (d : list (key * value)) : Prop := NoDup (map fst d).
Lemma load_distinct t d : plain_text t -> load t = Some (VDict d) -> distinct d.
Proof. intros P L. apply (load_clean t _ P) in L. apply clean_items in L. apply L. Qed.
Lemma update_distinct_keys e : forall d, distinct d -> distinct (update key_eqb d e).
Proof. induction e as [|[k v] e IH]; intros d D; [exact D|]. change (update key_eqb d ((k, v) :: e)) with (update key_eqb (put key_eqb k v d) e). apply IH. apply (GenProofs3.put_nodup _ key_eqb_eq), D. Qed.
Lemma get_iff d k v : distinct d -> (get key_eqb k d = Some v <-> In (k, v) d).
Proof.
  intros D. split; [|apply get_in, D]. rewrite (get_last d k D). apply last_of_mem.
Qed.
Lemma last_iff d k v : distinct d -> (last_of k d = Some v <-> In (k, v) d).
Proof. intros D. rewrite <- (get_last d k D). now apply get_iff. Qed.
Lemma last_says_cons own own' f r k v : (forall v, own' k = Some v <-> says f k v \/ (forall w, ~ says f k w) /\ own k = Some v) ->
  (last_says own (f :: r) k v <-> last_says own' r k v).
Proof.
  intros H. unfold last_says. split.
  - intros [(a & g & b & E & S & N)|[N O]].
    + destruct a as [|x a]; cbn [app] in E; injection E as <- ->.
      * right. split; [intros h w I; apply N, I|]. apply H. left. exact S.
      * left. exists a, g, b. auto.
    + right. split; [intros g w I; apply N; right; exact I|]. apply H. right. split; [intros w; apply N; left; reflexivity|exact O].
  - intros [(a & g & b & -> & S & N)|[N O]].
    + left. exists (f :: a), g, b. auto.
    + apply H in O. destruct O as [O|[O1 O2]].
      * left. exists [], f, r. auto.
      * right. split; [|exact O2]. intros g w [<-|I]; [apply O1|apply N, I].
Qed.
Lemma update_all_some files : forall d, (exists d', update_all d files = Some d') <-> Forall readable files.
Proof.
  induction files as [|f r IH]; intros d; cbn [update_all]; [split; [constructor|eexists; reflexivity]|]. split.
  - intros [d' E]. destruct (load f) as [[t|z|b| |l|e]|] eqn:L; try discriminate. constructor; [exists e; exact L|]. apply (IH (update key_eqb d e)). exists d'. exact E.
  - intros F. inversion_clear F as [|? ? [e L] F']. rewrite L. apply IH. exact F'.
Qed.
Lemma update_all_says files : forall d d', Forall plain_text files -> distinct d -> update_all d files = Some d' ->
  distinct d' /\ forall k v, get key_eqb (KText k) d' = Some v <-> last_says (fun k => get key_eqb (KText k) d) files k v.
Proof.
  induction files as [|f r IH]; intros d d' P D E; cbn [update_all] in E.
  - injection E as <-. split; [exact D|]. intros k v. unfold last_says. split; [intros G; right; split; [intros g w []|exact G]|]. intros [(a & g & b & E & _)|[_ G]]; [now destruct a|exact G].
  - inversion_clear P as [|? ? Pf Pr]. destruct (load f) as [[t|z|b| |l|e]|] eqn:L; try discriminate. pose proof (load_distinct f e Pf L) as De.
    destruct (IH (update key_eqb d e) d' Pr (update_distinct_keys e d D) E) as [D' S]. split; [exact D'|]. intros k v. rewrite S. symmetry. apply last_says_cons.
    intros x. rewrite get_update. assert (Q : forall w, says f k w <-> last_of (KText k) e = Some w).
    { intros w. rewrite (last_iff e _ w De). unfold says. split; [intros (e' & L' & I)|intros I; exists e; auto]. rewrite L in L'. injection L' as <-. exact I. }
    destruct (last_of (KText k) e) as [y|] eqn:Y.
    + split; [intros H; left; apply Q; exact H|]. intros [H|[H _]]; [apply Q in H; exact H|]. exfalso. apply (H y), Q. reflexivity.
    + split; [intros H; right; split; [intros w W; apply Q in W; discriminate|exact H]|]. intros [H|[_ H]]; [apply Q in H; discriminate|exact H].
Qed.
Lemma update_all_clean files : forall d d', Forall plain_text files -> distinct d -> (forall k v, In (k, v) d -> clean_key k /\ clean v) -> update_all d files = Some d' ->
  forall k v, In (k, v) d' -> clean_key k /\ clean v.
Proof.
  induction files as [|f r IH]; intros d d' P D C E; cbn [update_all] in E; [injection E as <-; exact C|].
  inversion_clear P as [|? ? Pf Pr]. destruct (load f) as [[t|z|b| |l|e]|] eqn:L; try discriminate. pose proof (load_clean f _ Pf L) as Ce. apply clean_items in Ce as [De Ce].
  refine (IH (update key_eqb d e) d' Pr (update_distinct_keys e d D) _ E). intros k v I. apply (get_iff _ k v (update_distinct_keys e d D)) in I. rewrite get_update in I.
  destruct (last_of k e) as [y|] eqn:Y; [injection I as <-; apply last_of_mem in Y; apply Ce, Y|]. apply (get_iff d k v D) in I. apply C, I.
Qed.

(** ** Enumerations *)
Notation heading := (KText (lit "enums")).
Definition joined_with (x : option value) (e : list (key * value)) : value := VDict (match x with Some (VDict o) => update key_eqb o e | _ => e end).
Definition merge (en : list (key * value)) (es : list (key * list (key * value))) : list (key * value) :=
  fold_left (fun en ke => put key_eqb (fst ke) (joined_with (get key_eqb (fst ke) en) (snd ke)) en) es en.
Lemma put_same (d : list (key * value)) k v : get key_eqb k d = Some v -> put key_eqb k v d = d.
Proof. induction d as [|[q x] d IH]; cbn [get put]; [discriminate|]. destruct (key_eqb q k); [now intros [= ->]|]. intros H. now rewrite IH. Qed.
Lemma put_put (d : list (key * value)) k v w : put key_eqb k w (put key_eqb k v d) = put key_eqb k w d.
Proof. induction d as [|[q x] d IH]; cbn [put]; [now rewrite key_eqb_refl|]. destruct (key_eqb q k) eqn:E; cbn [put]; rewrite E; [reflexivity|]. now rewrite IH. Qed.
Lemma add_enums_some es : forall d en, get key_eqb heading d = Some (VDict en) -> NoDup (map fst es) -> (forall k x, In k (map fst es) -> get key_eqb k en = Some x -> exists o, x = VDict o) ->
  add_enums es d = Some (put key_eqb heading (VDict (merge en es)) d).
Proof.
  induction es as [|[k e] es IH]; intros d en G N F; cbn [add_enums]; [cbn [merge fold_left]; now rewrite put_same|]. rewrite G. cbn [map fst] in N, F. inversion_clear N as [|? ? N1 N2].
  assert (Q : add_enums es (put key_eqb heading (VDict (put key_eqb k (joined_with (get key_eqb k en) e) en)) d) = Some (put key_eqb heading (VDict (merge en ((k, e) :: es))) d)).
  { rewrite (IH _ (put key_eqb k (joined_with (get key_eqb k en) e) en)); auto.
    - rewrite put_put. reflexivity.
    - apply (GenProofs3.get_put_same _ key_eqb_eq).
    - intros q x I. assert (k <> q) by (intros ->; contradiction). rewrite (GenProofs3.get_put_other _ key_eqb_eq) by assumption. apply F. right. exact I. }
  unfold joined_with in Q. destruct (get key_eqb k en) as [x|] eqn:X; [|exact Q]. destruct (F k x (or_introl eq_refl) X) as [o ->]. exact Q.
Qed.
Lemma add_enums_none es : forall d en k x, get key_eqb heading d = Some (VDict en) -> NoDup (map fst es) -> In k (map fst es) -> get key_eqb k en = Some x -> (forall o, x <> VDict o) -> add_enums es d = None.
Proof.
  induction es as [|[q e] es IH]; intros d en k x G N I X F; [destruct I|]. cbn [add_enums]. rewrite G. cbn [map fst] in N, I. inversion_clear N as [|? ? N1 N2].
  destruct I as [->|I].
  - rewrite X. destruct x; auto. exfalso. now apply (F d0).
  - assert (Ne : q <> k) by (intros ->; contradiction).
    assert (Q : forall y, add_enums es (put key_eqb heading (VDict (put key_eqb q y en)) d) = None).
    { intros y. apply (IH _ (put key_eqb q y en) k x); auto; [apply (GenProofs3.get_put_same _ key_eqb_eq)|]. now rewrite (GenProofs3.get_put_other _ key_eqb_eq). }
    destruct (get key_eqb q en) as [[t|z|b| |l|o]|]; auto.
Qed.
Lemma add_enums_not es d : es <> [] -> (forall en, get key_eqb heading d <> Some (VDict en)) -> add_enums es d = None.
Proof. destruct es as [|[k e] es]; [congruence|]. intros _ H. cbn [add_enums]. destruct (get key_eqb heading d) as [[t|z|b| |l|o]|]; auto. now destruct (H o). Qed.
Lemma merge_distinct es : forall en, distinct en -> distinct (merge en es).
Proof. induction es as [|[k e] es IH]; intros en D; [exact D|]. apply IH. apply (GenProofs3.put_nodup _ key_eqb_eq), D. Qed.
Lemma merge_other es : forall en k, ~ In k (map fst es) -> get key_eqb k (merge en es) = get key_eqb k en.
Proof.
  induction es as [|[q e] es IH]; intros en k N; [reflexivity|]. cbn [merge fold_left map fst snd In] in *. change (fold_left _ es ?x) with (merge x es). rewrite IH by tauto.
  apply (GenProofs3.get_put_other _ key_eqb_eq). intros ->. tauto.
Qed.
Lemma merge_own es : forall en k e, NoDup (map fst es) -> In (k, e) es -> get key_eqb k (merge en es) = Some (joined_with (get key_eqb k en) e).
Proof.
  induction es as [|[q x] es IH]; intros en k e N I; [destruct I|]. cbn [map fst] in N. inversion_clear N as [|? ? N1 N2].
  change (merge en ((q, x) :: es)) with (merge (put key_eqb q (joined_with (get key_eqb q en) x) en) es). destruct I as [[= -> ->]|I].
  - rewrite merge_other by exact N1. apply (GenProofs3.get_put_same _ key_eqb_eq).
  - rewrite (IH _ k e N2 I). rewrite (GenProofs3.get_put_other _ key_eqb_eq); [reflexivity|]. intros ->. apply N1. apply in_map_iff. exists (k, e). auto.
Qed.
Lemma own_enums_are enums : NoDup (map fst enums) -> own_enums enums = map (fun e => (KText (fst e), names_of (snd e))) enums.
Proof.
  intros N. unfold own_enums. assert (M : NoDup (map fst (map (fun e : text * list (text * Z) => (KText (fst e), names_of (snd e))) enums))).
  { rewrite map_map. cbn [fst]. rewrite <- (map_map fst KText). apply FinFun.Injective_map_NoDup; [intros a b [= ->]; reflexivity|exact N]. }
  assert (G : forall (l d : list (key * list (key * value))), NoDup (map fst (d ++ l)) -> update key_eqb d l = d ++ l).
  { clear. induction l as [|[k v] l IH]; intros d N; [now rewrite app_nil_r|].
    change (update key_eqb d ((k, v) :: l)) with (update key_eqb (put key_eqb k v d) l). rewrite (GenProofs3.put_fresh _ key_eqb_eq).
    - rewrite IH; rewrite <- app_assoc; [reflexivity|exact N].
    - rewrite map_app in N. cbn [map fst] in N. apply NoDup_remove_2 in N. intros I. apply N. apply in_app_iff. auto. }
  apply (G _ []). exact M.
Qed.

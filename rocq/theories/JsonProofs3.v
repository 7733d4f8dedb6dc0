(** Proofs about the catalog in a JSON file. *)
From Coq Require Import String Ascii Bool Arith List ZArith Lia FinFun.
From Verif Require Import GenModel SymbolModel JsonModel JsonSpec JsonProofs JsonProofs2.
From Verif Require GenProofs.
Import ListNotations.
Local Open Scope Z_scope.

(** ** Dicts *)
Lemma merged_keys l : map fst (merged l) = firsts (map fst l).
Proof.
  unfold merged. assert (G : forall ks, (forall k, In k ks -> last_of k l <> None) -> map fst (flat_map (fun k => match last_of k l with Some v => [(k, v)] | None => [] end) ks) = ks).
  { induction ks as [|k ks IH]; intros H; cbn; auto. rewrite map_app, IH by (intros; apply H; right; auto). destruct (last_of k l) eqn:E; auto. destruct (H k (or_introl eq_refl) E). }
  apply G. intros k Hk. apply last_of_in. now apply firsts_in.
Qed.
Lemma merged_nodup l : NoDup (map fst (merged l)).
Proof. rewrite merged_keys. apply firsts_nodup. Qed.
Lemma merged_in l k v : In (k, v) (merged l) <-> last_of k l = Some v.
Proof.
  unfold merged. rewrite in_flat_map. split.
  - intros (q & _ & H). destruct (last_of q l) as [x|] eqn:E; [|destruct H]. destruct H as [[= <- <-]|[]]. auto.
  - intros H. exists k. rewrite H. split; [|left; auto]. apply firsts_in. destruct (in_dec key_eq_dec k (map fst l)); auto. rewrite last_of_notin in H by auto. discriminate.
Qed.
Lemma last_of_mem l k v : last_of k l = Some v -> In (k, v) l.
Proof.
  induction l as [|[q x] l IH]; cbn; [discriminate|]. destruct (last_of k l) as [y|]. intros [= <-]. auto.
  destruct (key_eq_dec q k) as [->|]; [|discriminate]. intros [= <-]. auto.
Qed.
Lemma get_in (d : list (key * value)) k v : NoDup (map fst d) -> In (k, v) d -> get key_eqb k d = Some v.
Proof.
  induction d as [|[q x] d IH]; cbn; intros N H; [destruct H|]. inversion_clear N as [|? ? N1 N2]. destruct H as [[= -> ->]|H]. now rewrite key_eqb_refl.
  rewrite key_eqb_neq; auto. intros ->. apply N1. apply (in_map fst) in H. exact H.
Qed.
Lemma get_notin (d : list (key * value)) k : ~ In k (map fst d) -> get key_eqb k d = None.
Proof. induction d as [|[q x] d IH]; cbn; intros H; auto. rewrite key_eqb_neq by tauto. apply IH. tauto. Qed.
Lemma get_merged l k : get key_eqb k (merged l) = last_of k l.
Proof.
  destruct (last_of k l) as [v|] eqn:E. apply get_in. apply merged_nodup. now apply merged_in.
  apply get_notin. rewrite merged_keys, firsts_in. intros H. now apply last_of_in in H.
Qed.
Lemma last_of_distinct l k v : NoDup (map fst l) -> In (k, v) l -> last_of k l = Some v.
Proof.
  induction l as [|[q x] l IH]; cbn; intros N H; [destruct H|]. inversion_clear N as [|? ? N1 N2]. destruct H as [[= -> ->]|H].
  - rewrite last_of_notin by auto. destruct (key_eq_dec k k); congruence.
  - now rewrite IH.
Qed.
Lemma last_of_merged l k : last_of k (merged l) = last_of k l.
Proof.
  destruct (last_of k l) as [v|] eqn:E. apply last_of_distinct. apply merged_nodup. now apply merged_in.
  apply last_of_notin. rewrite merged_keys, firsts_in. intros H. now apply last_of_in in H.
Qed.
Lemma last_of_map (g : key -> key) (h : value -> value) l k : (forall q, In q (map fst l) -> g q = g k -> q = k) ->
  last_of (g k) (map (fun kv => (g (fst kv), h (snd kv))) l) = option_map h (last_of k l).
Proof.
  induction l as [|[q x] l IH]; cbn; intros H; auto. rewrite IH by (intros; apply H; auto). destruct (last_of k l); auto. cbn.
  destruct (key_eq_dec (g q) (g k)) as [E|E], (key_eq_dec q k) as [F|F]; auto; [apply H in E; auto; contradiction|subst; congruence].
Qed.

(** ** Reading twice *)
Lemma pair_big c d : high c && low d = true -> 65536 <= 65536 + (c - 55296) * 1024 + (d - 56320) < 1114112.
Proof.
  intros E. apply andb_prop in E as [A B]. unfold high, low in *. apply andb_prop in A as [A A']. apply andb_prop in B as [B B']. apply Z.leb_le in A, A', B, B'. lia.
Qed.
Lemma high_big x : 65536 <= x -> high x = false.
Proof. intros H. unfold high. destruct (Z.leb_spec x 56319); [lia|apply andb_false_r]. Qed.
Lemma low_big x : 65536 <= x -> low x = false.
Proof. intros H. unfold low. destruct (Z.leb_spec x 57343); [lia|apply andb_false_r]. Qed.
Lemma joined_pair c d t : high c && low d = true -> exists p, joined (c :: d :: t) = p :: joined t /\ 65536 <= p < 1114112.
Proof. intros E. exists (65536 + (c - 55296) * 1024 + (d - 56320)). split; [|now apply pair_big]. rewrite joined_cons, E. reflexivity. Qed.
Lemma joined_single c t : match t with d :: _ => high c && low d = false | [] => True end -> joined (c :: t) = c :: joined t.
Proof. intros E. rewrite joined_cons. destruct t; auto. now rewrite E. Qed.
Lemma joined_first d t : exists e r, joined (d :: t) = e :: r /\ (e = d \/ 65536 <= e).
Proof.
  destruct t as [|f t]. exists d, []. auto. destruct (high d && low f) eqn:E.
  - destruct (joined_pair d f t E) as (p & -> & B). exists p, (joined t). intuition lia.
  - rewrite joined_single by auto. eexists _, _. auto.
Qed.
Lemma joined_joined n : forall t, (length t <= n)%nat -> joined (joined t) = joined t.
Proof.
  induction n as [|n IH]; intros t H. destruct t; [auto|cbn in H; lia]. destruct t as [|c [|d t]]; auto. cbn [length] in H.
  destruct (high c && low d) eqn:E.
  - destruct (joined_pair c d t E) as (p & -> & B). rewrite joined_skip, IH; auto; [lia|]. apply high_big. lia.
  - rewrite (joined_single c (d :: t)) by auto. specialize (IH (d :: t) ltac:(cbn; lia)). destruct (joined_first d t) as (e & r & J & F). rewrite J in *.
    rewrite joined_single, IH; auto. destruct F as [->|F]; auto. rewrite (low_big e F). apply andb_false_r.
Qed.
Lemma seen_key k : KText (joined (key_text (KText (joined k)))) = KText (joined k).
Proof. cbn. f_equal. now apply (joined_joined (length k)). Qed.
Lemma seen_seen v : seen (seen v) = seen v.
Proof.
  induction v as [t|z|b| |l IH|d IH] using value_rec_all; cbn [seen]; auto.
  - f_equal. now apply (joined_joined (length t)).
  - f_equal. rewrite map_map. induction IH; cbn; auto. f_equal; auto.
  - f_equal. set (g := fun kv : key * value => (KText (joined (match fst kv with KText t => t | KNum z => lit (str z) end)), seen (snd kv))).
    assert (E : map g (merged (map g d)) = merged (map g d)).
    { rewrite <- (map_id (merged (map g d))) at 2. apply map_ext_in. intros [k v] H. apply merged_in, last_of_mem, in_map_iff in H.
      destruct H as ([k' v'] & [= <- <-] & H). unfold g. cbn [fst snd]. rewrite Forall_forall in IH. specialize (IH _ H). cbn [snd] in IH. rewrite IH. f_equal. f_equal. now apply (joined_joined (length match k' with KText t => t | KNum z => lit (str z) end)). }
    rewrite E. apply merged_distinct, merged_nodup.
Qed.
Lemma joined_ok n : forall t, (length t <= n)%nat -> Forall char_ok t -> Forall char_ok (joined t).
Proof.
  induction n as [|n IH]; intros t H F. destruct t; [auto|cbn in H; lia]. destruct t as [|c [|d t]]; auto. inversion_clear F as [|? ? F1 F2].
  cbn [length] in H. destruct (high c && low d) eqn:E.
  - inversion_clear F2 as [|? ? F3 F4]. destruct (joined_pair c d t E) as (p & -> & B). constructor; [unfold char_ok; lia|apply IH; auto; lia].
  - rewrite joined_single by auto. constructor; auto. apply IH; auto. cbn. lia.
Qed.
Lemma seen_ok v : value_ok v -> value_ok (seen v).
Proof.
  induction v as [t|z|b| |l IH|d IH] using value_rec_all; cbn [seen value_ok]; auto.
  - apply (joined_ok (length t)). auto.
  - induction IH; cbn in *; auto. intros [A B]. auto.
  - intros Ok. set (g := fun kv : key * value => (KText (joined (match fst kv with KText t => t | KNum z => lit (str z) end)), seen (snd kv))).
    assert (A : forall k v, In (k, v) (merged (map g d)) -> key_ok k /\ value_ok v).
    { intros k v H. apply merged_in, last_of_mem, in_map_iff in H. destruct H as ([k' v'] & [= <- <-] & H). cbn [fst snd].
      assert (O : key_ok k' /\ value_ok v'). { clear -Ok H. induction d as [|[q x] d IHd]; [destruct H|]. cbn in Ok. destruct Ok as [O1 O2]. destruct H as [[= -> ->]|H]; auto. }
      rewrite Forall_forall in IH. split. cbn. apply (joined_ok (length (key_text k'))); auto. exact (key_text_ok k' (proj1 O)). apply (IH _ H). tauto. }
    clear -A. induction (merged (map g d)) as [|[k v] m IHm]; cbn; auto. split. exact (A k v (or_introl eq_refl)). apply IHm. intros q x H. apply A. right. auto.
Qed.

(** ** Messages *)
Lemma lit_plain s : (forall a, In a (list_ascii_of_string s) -> (nat_of_ascii a < 256)%nat) -> plain_text (lit s).
Proof. induction s as [|a s IH]; cbn; intros H; constructor. split; [|intros S]; unfold char_ok, surrogate in *; specialize (H a (or_introl eq_refl)); lia. apply IH. intros; apply H; auto. Qed.
Lemma lit_plain_all s : plain_text (lit s).
Proof. apply lit_plain. intros a _. apply nat_ascii_bounded. Qed.
Lemma plain_app a b : plain_text a -> plain_text b -> plain_text (a ++ b).
Proof. intros. apply Forall_app. auto. Qed.
Lemma text_neq a b : text_eqb a b = false -> a <> b.
Proof. intros H ->. rewrite (proj2 (text_eqb_eq b b) eq_refl) in H. discriminate. Qed.
Ltac distinct := repeat constructor; cbn; intuition discriminate.
Lemma of_named_plain a : plain_text (n_name a) -> plain (of_named a).
Proof.
  intros H. unfold of_named. destruct (n_end a <? n_begin a); cbn [plain fold_right fst snd].
  - split; [distinct|]. repeat split; auto using lit_plain_all.
  - split; [distinct|]. repeat split; auto using lit_plain_all. repeat apply plain_app; apply lit_plain_all.
Qed.
Lemma of_tag_plain t : tag_ok t -> plain (of_tag t).
Proof. intros [A B]. cbn [of_tag plain fold_right fst snd]. split; [distinct|]. repeat split; auto using lit_plain_all. Qed.
Lemma plain_list {A} (f : A -> value) (l : list A) : (forall x, In x l -> plain (f x)) -> plain (VList (map f l)).
Proof. cbn [plain]. induction l as [|x l IH]; cbn; intros H; auto. Qed.
Lemma of_message_plain m : message_ok m -> plain (of_message m).
Proof.
  intros (A & B & C & D). rewrite Forall_forall in *. cbn [of_message plain fold_right fst snd]. split; [distinct|].
  repeat (split; [split; [apply lit_plain_all|]|]); auto.
  - destruct (after _ _); apply lit_plain_all.
  - apply plain_list. auto.
  - apply plain_list. intros x Hx. apply of_named_plain. apply C. auto.
  - apply plain_list. intros x Hx. apply of_tag_plain. auto.
Qed.
Lemma of_module_plain m : module_ok m -> plain (of_module m).
Proof. intros A. cbn [of_module plain fold_right fst snd]. split; [distinct|]. repeat split; auto using lit_plain_all. Qed.
Lemma all_some_map {A B} (f : A -> B) (g : B -> option A) l : (forall x, In x l -> g (f x) = Some x) -> all_some (map g (map f l)) = Some l.
Proof. induction l as [|x l IH]; cbn; intros H; auto. rewrite H, IH by auto. reflexivity. Qed.
Lemma loc_of_text b e : 0 <= b -> 0 <= e -> loc_of (lit "[" ++ lit (str b) ++ lit ":" ++ lit (str e) ++ lit "]") = Some (b, e).
Proof.
  intros B E. destruct (GenProofs.str_writes b B) as [W _]. destruct (writes_lit _ _ W) as (A1 & A2 & A3).
  destruct (GenProofs.str_writes e E) as [W' _]. destruct (writes_lit _ _ W') as (B1 & B2 & B3).
  unfold loc_of. change (lit "[" ++ ?x) with (91 :: x). change (lit ":" ++ ?x) with (58 :: x). change (lit "]") with [93].
  rewrite after_comma. cbn [bind]. rewrite digits_app by (auto; reflexivity). destruct (lit (str b)) as [|x xs]; [congruence|]. rewrite after_comma. cbn [bind].
  rewrite digits_app by (auto; reflexivity). destruct (lit (str e)) as [|y ys]; [congruence|]. rewrite after_comma. cbn [bind]. congruence.
Qed.
Lemma to_of_named a : named_ok a -> to_named (of_named a) = Some a.
Proof.
  intros (_ & B & E). destruct a as [nm b e]. cbn [n_begin n_end n_name] in *. unfold of_named. cbn [n_begin n_end n_name]. destruct (Z.ltb_spec e b).
  - assert (e = b - 1) as -> by lia. reflexivity.
  - unfold to_named, item. cbn [get]. change (key_eqb (KText (lit "loc")) (KText (lit "ref"))) with false. change (key_eqb (KText (lit "name")) (KText (lit "ref"))) with false.
    change (key_eqb (KText (lit "loc")) (KText (lit "loc"))) with true. change (key_eqb (KText (lit "loc")) (KText (lit "name"))) with false. change (key_eqb (KText (lit "name")) (KText (lit "name"))) with true.
    cbv iota. unfold as_text. cbn [bind]. rewrite loc_of_text by lia. reflexivity.
Qed.
Lemma to_of_tag t : to_tag (of_tag t) = Some t.
Proof. destruct t. reflexivity. Qed.
Lemma to_of_message m : Forall named_ok (g_named m) -> to_message (of_message m) = Some m.
Proof.
  intros H. rewrite Forall_forall in H. destruct m as [t a i n g]. cbn [g_named] in H. unfold to_message, of_message, item. cbn [g_text g_args g_id g_named g_tags].
  repeat match goal with |- context [get key_eqb (KText (lit ?s)) ?d] =>
    let x := eval cbv [get key_eqb text_eqb lit nat_of_ascii N_of_ascii N_of_digits N.to_nat N.add N.mul Pos.add Pos.mul Pos.to_nat Pos.iter_op Nat.add Z.of_nat Pos.of_succ_nat Pos.succ Z.eqb Pos.eqb andb N.of_nat] in (get key_eqb (KText (lit s)) d) in change (get key_eqb (KText (lit s)) d) with x end.
  cbn [bind as_text as_num each]. rewrite (all_some_map VText as_text) by auto. cbn [bind]. rewrite (all_some_map of_named to_named) by (intros; apply to_of_named; auto). cbn [bind].
  rewrite (all_some_map of_tag to_tag) by (intros; apply to_of_tag). reflexivity.
Qed.
Lemma to_of_module m : to_module (of_module m) = Some m.
Proof. destruct m. reflexivity. Qed.

(** ** The catalog *)
Lemma seen_list {A} (f : A -> value) l : (forall x, In x l -> plain (f x)) -> seen (VList (map f l)) = VList (map f l).
Proof. intros H. apply plain_seen, plain_list, H. Qed.
Definition enum_dict (es : list (text * Z)) : value := VDict (update key_eqb [] (map (fun nv : text * Z => (KNum (snd nv), VText (fst nv))) es)).
Definition enums_dict (enums : list (text * list (text * Z))) : list (key * value) := update key_eqb [] (map (fun e => (KText (fst e), enum_dict (snd e))) enums).
Definition shown (kv : key * value) : key * value := (KText (joined (match fst kv with KText t => t | KNum z => lit (str z) end)), seen (snd kv)).
Lemma seen_catalog ms ds enums : Forall message_ok ms -> Forall module_ok ds ->
  seen (catalog ms ds enums) = VDict [(KText (lit "messages"), VList (map of_message ms)); (KText (lit "modules"), VList (map of_module ds)); (KText (lit "enums"), VDict (merged (map shown (enums_dict enums))))].
Proof.
  intros Hm Hd. rewrite Forall_forall in *. unfold catalog. fold (enums_dict enums).
  change (seen (VDict ?d)) with (VDict (merged (map shown d))). cbn [map]. unfold shown at 1 2 3. cbn [fst snd].
  rewrite !joined_plain by apply lit_plain_all. rewrite !seen_list by (auto using of_message_plain, of_module_plain). rewrite merged_distinct by distinct. reflexivity.
Qed.
Lemma merged_values (P : key -> value -> Prop) l : (forall k v, In (k, v) l -> P k v) -> forall k v, In (k, v) (merged l) -> P k v.
Proof. intros H k v I. apply H. apply merged_in in I. now apply last_of_mem. Qed.
Lemma ok_items d : (forall k v, In (k, v) d -> key_ok k /\ value_ok v) -> value_ok (VDict d).
Proof. cbn [value_ok]. induction d as [|[k v] d IH]; cbn; auto. intros H. split. exact (H k v (or_introl eq_refl)). apply IH. intros q x I. apply H. right. auto. Qed.
Lemma enum_dict_ok es : Forall (fun nv => plain_text (fst nv)) es -> value_ok (enum_dict es).
Proof.
  intros H. rewrite Forall_forall in H. unfold enum_dict. rewrite update_merged. apply ok_items. apply merged_values. intros k v I. apply in_map_iff in I. destruct I as ([n z] & [= <- <-] & I).
  split; cbn; auto. apply plain_text_ok. exact (H _ I).
Qed.
Lemma catalog_ok ms ds enums : Forall message_ok ms -> Forall module_ok ds -> enums_ok enums -> value_ok (catalog ms ds enums).
Proof.
  intros Hm Hd He. apply ok_items. intros k v [I|[I|[I|[]]]]; apply pair_equal_spec in I; destruct I as [<- <-]; (split; [unfold key_ok; apply plain_text_ok, lit_plain_all|]).
  - apply plain_ok, plain_list. intros x Hx. apply of_message_plain. rewrite Forall_forall in Hm. auto.
  - apply plain_ok, plain_list. intros x Hx. apply of_module_plain. rewrite Forall_forall in Hd. auto.
  - rewrite update_merged. apply ok_items, merged_values. intros k v I. apply in_map_iff in I. destruct I as ([e es] & [= <- <-] & I). unfold enums_ok in He. rewrite Forall_forall in He. specialize (He _ I). cbn [fst snd] in He. destruct He. split.
    cbn. now apply plain_text_ok. now apply enum_dict_ok.
Qed.
Lemma lit_inj a b : lit a = lit b -> a = b.
Proof.
  revert b. induction a as [|x a IH]; intros [|y b]; cbn; try discriminate; auto. intros [= E F]. apply IH in F. subst.
  f_equal. apply Nat2Z.inj in E. rewrite <- (ascii_nat_embedding x), <- (ascii_nat_embedding y). congruence.
Qed.
Lemma last_of_names z es : last_of (KNum z) (map (fun nv : text * Z => (KNum (snd nv), VText (fst nv))) es) = option_map VText (last_name z es).
Proof.
  induction es as [|[n x] es IH]; cbn [map last_of last_name fst snd]; auto. rewrite IH. destruct (last_name z es); auto. cbn [option_map].
  destruct (key_eq_dec (KNum x) (KNum z)), (Z.eq_dec x z); auto; congruence.
Qed.
Definition shown_key (k : key) : key := KText (joined (match k with KText t => t | KNum z => lit (str z) end)).
Lemma seen_name es z : Forall (fun nv => plain_text (fst nv)) es ->
  match seen (enum_dict es) with VDict d => get key_eqb (KText (lit (str z))) d | _ => None end = option_map VText (last_name z es).
Proof.
  intros H. unfold enum_dict. cbn [seen]. rewrite get_merged, update_merged.
  assert (K : KText (lit (str z)) = shown_key (KNum z)) by (unfold shown_key; now rewrite joined_plain by apply lit_plain_all). rewrite K.
  change (fun kv : key * value => (KText (joined match fst kv with KText t => t | KNum z => lit (str z) end), seen (snd kv))) with (fun kv : key * value => (shown_key (fst kv), seen (snd kv))).
  rewrite last_of_map.
  - rewrite last_of_merged, last_of_names. destruct (last_name z es) as [n|] eqn:E; auto. cbn. f_equal. f_equal. apply joined_plain.
    rewrite Forall_forall in H. assert (I : exists x, In (n, x) es). { clear -E. induction es as [|[m x] es IH]; cbn in E; [discriminate|]. destruct (last_name z es). destruct (IH E) as [y Y]. exists y. right. auto. destruct (Z.eq_dec x z); [|discriminate]. injection E as ->. exists x. left. auto. }
    destruct I as [x I]. exact (H _ I).
  - intros q Hq. apply in_map_iff in Hq. destruct Hq as ([k v] & <- & I). revert k v I. refine (merged_values (fun k v => shown_key k = shown_key (KNum z) -> k = KNum z) _ _). intros k v I. apply in_map_iff in I. destruct I as ([n x] & [= <- <-] & I). cbn [fst snd].
    unfold shown_key. rewrite !joined_plain by apply lit_plain_all. intros F. injection F as F. apply lit_inj, GenProofs.str_inj in F. now subst.
Qed.
Lemma seen_enum enums E es : enums_ok enums -> NoDup (map fst enums) -> In (E, es) enums -> get key_eqb (KText E) (merged (map shown (enums_dict enums))) = Some (seen (enum_dict es)).
Proof.
  intros H N I. unfold enums_ok in H. rewrite Forall_forall in H. rewrite get_merged. unfold enums_dict. rewrite update_merged.
  assert (PE : plain_text E) by exact (proj1 (H _ I)). assert (K : KText E = shown_key (KText E)) by (unfold shown_key; now rewrite joined_plain). rewrite K.
  change shown with (fun kv : key * value => (shown_key (fst kv), seen (snd kv))). rewrite last_of_map.
  - rewrite last_of_merged. erewrite last_of_distinct. reflexivity.
    + rewrite map_map. cbn [fst]. rewrite <- (map_map fst KText). apply FinFun.Injective_map_NoDup; auto. intros a b [= ->]. auto.
    + apply in_map_iff. exists (E, es). auto.
  - intros q Hq. apply in_map_iff in Hq. destruct Hq as ([k v] & <- & J). revert k v J. refine (merged_values (fun k v => shown_key k = shown_key (KText E) -> k = KText E) _ _). intros k v J. apply in_map_iff in J. destruct J as ([e x] & [= <- <-] & J). cbn [fst snd].
    unfold shown_key. rewrite !joined_plain by (auto; exact (proj1 (H _ J))). auto.
Qed.

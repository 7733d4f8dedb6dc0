(** Proofs about the generator's definitions and catalog. *)
From Coq Require Import String Ascii Bool Arith List NArith ZArith Lia.
From Coq Require Import ZifyN ZifyNat ZifyBool.
From Verif Require Import FieldModel MessageModel CatalogModel CatalogSpec CatalogProofs CatalogProofs2 CatalogProps GenModel GenSpec GenProofs3.
From Verif Require Import SymbolModel SymbolSpec SymbolProps MipiModel MipiSpec MipiProofs2 MipiProps ChainModel ChainSpec ChainProofs.
Import ListNotations.
Local Open Scope Z_scope.

Section Kept.
Context {A : Type}.
Variable key : A -> Z.
Lemma put_in (k : Z) (m : A) d x : In x (GenModel.put Z.eqb k m d) -> x = (k, m) \/ In x d.
Proof.
  induction d as [|[k' m'] d IH]; cbn [GenModel.put]; [intros [<-|[]]; auto|]. destruct (k' =? k) eqn:E.
  - intros [<-|H]; [left; f_equal; lia|right; right; auto].
  - intros [<-|H]; [right; left; auto|]. destruct (IH H); [auto|right; right; auto].
Qed.
Lemma put_keeps (k : Z) (m : A) d k' : k' = k \/ In k' (map fst d) -> In k' (map fst (GenModel.put Z.eqb k m d)).
Proof.
  induction d as [|[k1 m1] d IH]; cbn [GenModel.put map fst].
  - intros [->|[]]. left. reflexivity.
  - destruct (k1 =? k) eqn:E; cbn [map fst In]; intros [->|[<-|H]]; auto. left. lia.
Qed.
Lemma kept_fold l : forall d, (forall x, In x d -> key (snd x) = fst x) ->
  let d' := fold_left (fun d m => GenModel.put Z.eqb (key m) m d) l d in
  (forall x, In x d' -> key (snd x) = fst x) /\ (forall x, In x d' -> In x d \/ In (snd x) l) /\ (forall k, In k (map fst d) \/ In k (map key l) -> In k (map fst d')).
Proof.
  induction l as [|m l IH]; intros d H; cbn [fold_left]; cbv zeta.
  - split; auto. split; auto. intros k [K|[]]; auto.
  - destruct (IH (GenModel.put Z.eqb (key m) m d)) as (I1 & I2 & I3).
    { intros x Hx. apply put_in in Hx as [->|Hx]; auto. }
    split; [exact I1|]. split.
    + intros x Hx. destruct (I2 x Hx) as [Hp|Hl]; [|right; right; exact Hl]. apply put_in in Hp as [->|Hp]; auto. right. left. reflexivity.
    + intros k Hk. apply I3. cbn [map In] in Hk. destruct Hk as [K|[<-|K]]; [left; apply put_keeps; auto|left; apply put_keeps; auto|right; exact K].
Qed.
Lemma kept_in l x : In x (kept key l) -> In x l.
Proof.
  unfold kept. intros H. apply in_map_iff in H as (y & <- & Hy). destruct (kept_fold l [] (fun x (F : In x []) => match F with end)) as (_ & I2 & _).
  destruct (I2 y Hy) as [[]|Hl]. exact Hl.
Qed.
Lemma kept_key l m : In m l -> exists x, In x (kept key l) /\ key x = key m.
Proof.
  intros H. destruct (kept_fold l [] (fun x (F : In x []) => match F with end)) as (I1 & _ & I3).
  assert (K : In (key m) (map fst (fold_left (fun d m => GenModel.put Z.eqb (key m) m d) l []))) by (apply I3; right; apply in_map, H).
  apply in_map_iff in K as (y & E & Hy). exists (snd y). split; [apply in_map, Hy|]. rewrite I1 by auto. exact E.
Qed.
End Kept.

(** One kind of entry. *)
Section Kind.
Context {A : Type}.
Variables (dec : forall a b : A, {a = b} + {a <> b}) (entry_of : A -> entry) (key : entry -> Z) (forget : bool) (reserved : list (Z * Z)) (json : list entry) (items : list A).
Hypothesis Hresp : respects key.
Hypothesis Hsep : separates key (json ++ map entry_of items).
Hypothesis Hjson : one_to_one json.
Hypothesis Hpins : pins_ok json (map entry_of items).
Hypothesis Hinj : forall a b, In a items -> In b items -> sid (entry_of a) = sid (entry_of b) -> a = b.
Let r := run key forget reserved [Some json] (map entry_of items).
Lemma fst_run : fst r = fst (run key false reserved [Some json] (map entry_of items)).
Proof. reflexivity. Qed.
Lemma snd_run s i : holds (snd r) s i -> holds (fst r ++ snd (run key false reserved [Some json] (map entry_of items))) s i.
Proof.
  unfold r, run. destruct (assign_ids _ _ _ _) as [d ms]. cbn [fst snd]. intros (m & Hm & H). exists m. split; auto. apply write_json_in in Hm as [Hm|Hm].
  - apply in_app_iff. auto.
  - apply in_app_iff. right. apply write_json_in. right. destruct forget; [destruct Hm|exact Hm].
Qed.
Lemma run_one : one_to_one (snd r).
Proof.
  pose proof (step_one key reserved json (map entry_of items) Hresp Hsep Hjson Hpins) as S.
  assert (Q : forall s i, holds (snd r) s i -> holds (snd (run key false reserved [Some json] (map entry_of items))) s i).
  { intros s i H. apply snd_run, holds_app in H as [H|H]; auto. rewrite fst_run, run_is in H. rewrite run_is. cbn [fst snd] in *. apply out_holds. left. exact H. }
  rewrite run_is in Q. cbn [snd] in Q. destruct S as [S1 S2]. split.
  - intros s i k Hi Hk. apply (S1 s); auto.
  - intros s t i Hi Hk. apply (S2 s t i); auto.
Qed.
Lemma fst_holds s i : holds (fst r) s i -> holds (snd r) s i.
Proof.
  unfold r, run. destruct (assign_ids _ _ _ _) as [d ms]. cbn [fst snd]. intros (m & Hm & H). exists m. split; auto. apply write_json_in. auto.
Qed.
Lemma given_linked m : In m items -> exists i, holds (fst r) (sid (entry_of m)) i /\ In (m, i) (given key entry_of (fst r) items) /\
  linked dec (given key entry_of (fst r) items) m = Some (Z.to_N (i mod 2 ^ 32)).
Proof.
  intros Hm. assert (Hk : In m (kept (fun m => key (entry_of m)) items)).
  { destruct (kept_key (fun m => key (entry_of m)) items m Hm) as (x & Hx & E). assert (Hxi := kept_in _ _ _ Hx).
    assert (x = m); [|subst; auto]. apply Hinj; auto. apply Hsep; auto; apply in_app_iff; right; apply in_map; auto. }
  assert (Hs : In (sid (entry_of m)) (map sid (fst r))).
  { rewrite fst_run, run_is. cbn [fst]. apply ms_sids; auto. apply in_map, in_map, Hm. }
  apply in_map_iff in Hs as (e & Es & He).
  destruct (find (fun e => key e =? key (entry_of m)) (fst r)) as [e'|] eqn:F.
  - assert (F' := F). apply find_some in F' as [He' Ek]. assert (Ek' : key e' = key (entry_of m)) by lia. exists (m_id e').
    assert (Se : sid e' = sid (entry_of m)).
    { assert (In (sid e') (map sid (map entry_of items))) as Hi.
      { apply (ms_sids key reserved json (map entry_of items) Hsep). rewrite fst_run, run_is in He'. cbn [fst] in He'. apply in_map, He'. }
      apply in_map_iff in Hi as (y & Ey & Hy). rewrite <- Ey. apply Hsep; [apply in_app_iff; auto|apply in_app_iff; right; apply in_map; auto|].
      rewrite <- Ek'. apply Hresp, Ey. }
    assert (Hin : In (m, m_id e') (given key entry_of (fst r) items)).
    { unfold given. apply in_flat_map. exists m. split; auto. rewrite F. left. reflexivity. }
    split; [exists e'; auto|]. split; [exact Hin|]. unfold linked. destruct (find _ (given key entry_of (fst r) items)) as [d|] eqn:D.
    + apply find_some in D as [Hd Ed]. destruct (dec (fst d) m) as [Em|]; [|discriminate]. unfold given in Hd. apply in_flat_map in Hd as (x & _ & Hd).
      destruct (find (fun e => key e =? key (entry_of x)) (fst r)) as [z|] eqn:Z; [|destruct Hd]. destruct Hd as [<-|[]]. cbn [fst snd] in *. subst x. rewrite F in Z. injection Z as <-. reflexivity.
    + exfalso. apply (find_none _ _ D) in Hin. cbn [fst] in Hin. destruct (dec m m); [discriminate|congruence].
  - exfalso. apply (find_none _ _ F) in He. apply Z.eqb_neq in He. apply He. apply Hresp, Es.
Qed.
End Kind.

Lemma module_respects h : respects (module_key h).
Proof. intros a b [= E _]. unfold module_key. rewrite E. reflexivity. Qed.
Lemma in_messages m is : In m (messages_of is) <-> In (IMessage m) is.
Proof.
  unfold messages_of. rewrite in_flat_map. split.
  - intros ([x|x] & Hx & H); [destruct H as [<-|[]]; exact Hx|destruct H].
  - intros H. exists (IMessage m). split; auto. left. reflexivity.
Qed.
Lemma in_modules m is : In m (modules_of is) <-> In (IModule m) is.
Proof.
  unfold modules_of. rewrite in_flat_map. split.
  - intros ([x|x] & Hx & H); [destruct H|destruct H as [<-|[]]; exact Hx].
  - intros H. exists (IModule m). split; auto. left. reflexivity.
Qed.
(** The parts of a build. *)
Lemma generate_parts o j lines is g : good_generate o j lines is g ->
  let mr := run (msg_key (o_hash o)) (o_forget o) (o_reserved o) [Some (j_messages j)] (map (entry_of_message (o_extra o)) (messages_of is)) in
  let or := run (module_key (o_hash o)) (o_forget o) [] [Some (j_modules j)] (map entry_of_module (modules_of is)) in
  g_messages g = given (msg_key (o_hash o)) (entry_of_message (o_extra o)) (fst mr) (messages_of is) /\
  g_modules g = given (module_key (o_hash o)) entry_of_module (fst or) (modules_of is) /\
  j_messages (g_json g) = snd mr /\ j_modules (g_json g) = snd or /\ j_enums (g_json g) = write_enums (o_enums o) [].
Proof.
  intros ((spaced & L) & R & _ & _ & Ex & G) mr or. unfold generate in G. rewrite (C93_partial spaced lines is L R) in G.
  cbn [map] in G. fold mr or in G. destruct mr as [ms mj], or as [os oj]. destruct (check_limit _ _); [|discriminate]. injection G as <-. cbn [g_messages g_modules g_json j_messages j_modules j_enums fst snd].
  rewrite Ex. auto.
Qed.
Lemma generate_consistent o j lines is g : good_generate o j lines is g -> consistent j -> consistent (g_json g).
Proof.
  intros G [O1 O2]. destruct (generate_parts o j lines is g G) as (_ & _ & E1 & E2 & _). destruct G as (_ & _ & (F1 & F2 & F3 & F4) & _).
  split; [rewrite E1|rewrite E2]; apply run_one; auto; [apply key_respects|apply module_respects].
Qed.
Lemma generate_enums o j lines is g : good_generate o j lines is g -> NoDup (map fst (o_enums o)) /\ j_enums (g_json g) = write_enums (o_enums o) [].
Proof. intros G. split; [apply G|]. apply (generate_parts o j lines is g G). Qed.
(** Every symbol of the program is defined, with an id under which the catalog has
    it. *)
Lemma generate_messages o j lines is g m : good_generate o j lines is g -> consistent j -> good_symbols is -> In (IMessage m) is ->
  exists i, holds (j_messages (g_json g)) (text_of_codes (sm_text m), sm_args m) i /\ In (m, i) (g_messages g) /\ linked message_dec (g_messages g) m = Some (Z.to_N (i mod 2 ^ 32)).
Proof.
  intros G [O1 O2] (S1 & S2 & S3 & S4) Hm. destruct (generate_parts o j lines is g G) as (E1 & _ & E2 & _). destruct G as (_ & _ & (F1 & F2 & F3 & F4) & _).
  destruct (given_linked message_dec (entry_of_message (o_extra o)) (msg_key (o_hash o)) (o_forget o) (o_reserved o) (j_messages j) (messages_of is) (key_respects _) F1) with (m := m) as (i & H1 & H2 & H3).
  - intros a b Ha Hb [= Et Ea]. apply in_messages in Ha, Hb. apply S3; auto. apply text_inj; auto.
  - apply in_messages, Hm.
  - exists i. rewrite E1, E2. split; auto. apply fst_holds. exact H1.
Qed.
Lemma generate_modules o j lines is g m : good_generate o j lines is g -> consistent j -> good_symbols is -> In (IModule m) is ->
  exists i, holds (j_modules (g_json g)) (text_of_codes (so_text m), []) i /\ In (m, i) (g_modules g) /\ linked module_dec (g_modules g) m = Some (Z.to_N (i mod 2 ^ 32)).
Proof.
  intros G [O1 O2] (S1 & S2 & S3 & S4) Hm. destruct (generate_parts o j lines is g G) as (_ & E1 & _ & E2 & _). destruct G as (_ & _ & (F1 & F2 & F3 & F4) & _).
  destruct (given_linked module_dec entry_of_module (module_key (o_hash o)) (o_forget o) [] (j_modules j) (modules_of is) (module_respects _) F3) with (m := m) as (i & H1 & H2 & H3).
  - intros a b Ha Hb [= Et]. apply in_modules in Ha, Hb. apply S4; auto. apply text_inj; auto.
  - apply in_modules, Hm.
  - exists i. rewrite E1, E2. split; auto. apply fst_holds. exact H1.
Qed.
(** Later catalogs keep what earlier ones have. *)
Lemma generate_keeps o j lines is g : good_generate o j lines is g -> consistent j -> o_forget o = false ->
  (forall s i, holds (j_messages j) s i -> holds (j_messages (g_json g)) s i) /\ (forall s i, holds (j_modules j) s i -> holds (j_modules (g_json g)) s i).
Proof.
  intros G [O1 O2] Hf. destruct (generate_parts o j lines is g G) as (_ & _ & E1 & E2 & _). destruct G as (_ & _ & (F1 & F2 & F3 & F4) & _).
  rewrite E1, E2, Hf, !run_is. cbn [snd]. split; intros s i H; apply step_keeps; auto. 
Qed.
Lemma later_keeps j j' es : later j j' es -> consistent j -> consistent j' /\ NoDup (map fst es) /\ j_enums j' = write_enums es [] /\
  (forall s i, holds (j_messages j) s i -> holds (j_messages j') s i) /\ (forall s i, holds (j_modules j) s i -> holds (j_modules j') s i).
Proof.
  induction 1 as [j o lines is g Hf G|j o lines is g j' es Hf G L IH]; intros C.
  - split; [apply (generate_consistent o j lines is g G C)|]. destruct (generate_enums _ _ _ _ _ G). split; auto. split; auto. apply (generate_keeps o j lines is g); auto.
  - destruct (IH (generate_consistent o j lines is g G C)) as (H1 & H2 & H3 & H4 & H5). destruct (generate_keeps o j lines is g G C Hf) as [K1 K2].
    split; [exact H1|]. split; [exact H2|]. split; [exact H3|]. split; auto.
Qed.

(** A call of the program is sent with numbers under which the catalog has it. *)
Lemma call_known p o j lines is g c : good_generate o j lines is g -> consistent j -> good_symbols is -> ids_fit g ->
  In (IMessage (l_message c)) is -> In (IModule (l_module c)) is -> exists id m, sent_as p g c id m /\ known (g_json g) c id m.
Proof.
  intros G C S [F1 F2] Hm Ho. destruct (generate_messages o j lines is g _ G C S Hm) as (i & H1 & H2 & H3). destruct (generate_modules o j lines is g _ G C S Ho) as (k & K1 & K2 & K3).
  specialize (F1 _ H2). specialize (F2 _ K2). cbn [snd] in *. rewrite Z.mod_small in H3, K3 by (split; [lia|]; eapply Z.lt_le_trans; [apply F1 || apply F2|vm_compute; discriminate]).
  exists (Z.to_N i), (Z.to_N k). split; [split; auto|]. unfold known, sid_of, mid_of. rewrite !Z2N.id by lia. split; auto. split; auto. split.
  - apply N2Z.inj_lt. rewrite Z2N.id by lia. apply F1.
  - apply N2Z.inj_lt. rewrite Z2N.id by lia. apply F2.
Qed.

(** Property of builds that pass the catalog on as a file: C155. *)
From Coq Require Import String Ascii Bool Arith List NArith ZArith Lia.
From Verif Require GenProofs3.
From Verif Require Import GenModel SymbolModel CatalogModel CatalogSpec CatalogProofs CatalogProofs2 CatalogProps JsonModel JsonSpec JsonProofs JsonProofs2 JsonProofs3 JsonProps ChainModel FileModel FileSpec.
Import ListNotations.
Local Open Scope Z_scope.

(** ** C155: ids stay while the catalog goes from build to build as a JSON file *)
Lemma codes_lit s : text_of_codes (lit s) = s.
Proof.
  induction s as [|a s IH]; [reflexivity|]. cbn [lit text_of_codes fold_right] in *. unfold text_of_codes in IH. rewrite IH, Nat2Z.id, ascii_nat_embedding. reflexivity.
Qed.
Lemma step_origin (P : entry -> Prop) json b : (forall e i, P e -> P (with_id e i)) -> Forall P json -> Forall P (b_items b) -> Forall P (fst (step json b)) /\ Forall P (snd (step json b)).
Proof.
  intros W J I. unfold step. rewrite run_is. cbn [fst snd]. rewrite !Forall_forall in *.
  assert (U : forall x, In x (unique (b_key b) (b_items b)) -> P x) by (intros x H; apply I; apply (unique_spec (b_key b) (b_items b)); exact H).
  assert (D : forall d l, (forall x, In x (values d) -> P x) -> (forall x, In x l -> P x) -> forall x, In x (values (pinned (b_key b) d l)) -> P x).
  { assert (S : forall d k e x, (forall x, In x (values d) -> P x) -> P e -> In x (values (dict_set k e d)) -> P x).
    { induction d as [|[k' e'] d IH]; intros k e x Hd He H; cbn [dict_set values map snd In] in *; [destruct H as [<-|[]]; exact He|].
      destruct (k' =? k); cbn [map snd In] in H; (destruct H as [<-|H]; [auto|]); [apply Hd; right; exact H|]. apply (IH k e); auto. }
    intros d l. revert d. unfold pinned. induction l as [|m l IH]; intros d Hd Hl x H; [apply Hd, H|]. cbn [fold_left] in H. revert H. apply IH.
    - intros y Hy. destruct (m_id m =? -1); [apply Hd, Hy|]. apply (S d (b_key b m) m); auto. apply Hl. left. reflexivity.
    - intros y Hy. apply Hl. right. exact Hy. }
  assert (M : forall d old res l n, (forall x, In x l -> P x) -> forall x, In x (assign_loop (b_key b) d old res n l) -> P x).
  { intros d old res l. induction l as [|m l IH]; intros n Hl x H; [destruct H|]. cbn [assign_loop] in H.
    destruct (dict_get (b_key b m) d); cbn [In] in H; (destruct H as [<-|H]; [apply W, Hl; left; reflexivity|]); eapply IH; eauto; intros y Hy; apply Hl; right; exact Hy. }
  assert (M0 : forall x, In x (assign_loop (b_key b) (pinned (b_key b) (of_items (b_key b) json) (unique (b_key b) (b_items b))) (old_ids (pinned (b_key b) (of_items (b_key b) json) (unique (b_key b) (b_items b)))) (b_reserved b) 0 (sorted (unique (b_key b) (b_items b)))) -> P x).
  { apply M. intros x H. apply U. eapply Permutation.Permutation_in; [apply sorted_perm|exact H]. }
  split; [exact M0|]. intros x H. apply write_json_in in H as [H|H]; [apply M0, H|]. revert H. apply D; auto.
  intros y Hy. apply J. apply (of_items_spec (b_key b) json). exact Hy.
Qed.
(** What a dict has is kept when it is put over another. *)
Lemma get_update (b d : list (key * value)) k : get key_eqb k (update key_eqb b d) = match last_of k d with Some v => Some v | None => get key_eqb k b end.
Proof.
  revert b. induction d as [|[q x] d IH]; intros b; cbn [last_of]; [reflexivity|]. change (update key_eqb b ((q, x) :: d)) with (update key_eqb (put key_eqb q x b) d). rewrite IH.
  destruct (last_of k d); [reflexivity|]. destruct (key_eq_dec q k) as [->|N]; [apply (GenProofs3.get_put_same _ key_eqb_eq)|apply (GenProofs3.get_put_other _ key_eqb_eq), N].
Qed.
Lemma get_last (d : list (key * value)) k : NoDup (map fst d) -> get key_eqb k d = last_of k d.
Proof. intros N. rewrite <- (merged_distinct d N) at 1. apply get_merged. Qed.
Lemma stable_over b d x : NoDup (map fst d) -> stable_of (VDict d) = Some x -> stable_of (VDict (update key_eqb b d)) = Some x.
Proof.
  intros N. unfold stable_of, item. rewrite !get_update, !(get_last d) by exact N. destruct (last_of (KText (lit "messages")) d); [|discriminate]. destruct (last_of (KText (lit "modules")) d); [|destruct (bind (Some v) (each to_message)); discriminate].
  auto.
Qed.
Section C155.
Variables (num : extras -> N) (of_num : N -> extras).
Definition is_module (e : entry) : Prop := m_args e = [] /\ m_extra e = 0%N.
Lemma entry_message e : good_extras num of_num e -> entry_of num (message_of of_num e) = e.
Proof.
  intros (E & _). destruct e as [t a i ex]. unfold entry_of, message_of. cbn [m_text m_args m_id m_extra g_text g_args g_id g_named g_tags] in *. rewrite codes_lit, map_map, <- surjective_pairing, E. f_equal.
  rewrite (map_ext _ (fun s => s)) by (intros; apply codes_lit). apply map_id.
Qed.
Lemma entry_module e : is_module e -> module_entry (module_of e) = e.
Proof. intros [A B]. destruct e as [t a i ex]. unfold module_entry, module_of. cbn in *. subst. rewrite codes_lit. reflexivity. Qed.
Lemma message_good e : good_extras num of_num e -> message_ok (message_of of_num e).
Proof.
  intros (E & N1 & N2). unfold message_ok, message_of. cbn [g_text g_args g_named g_tags]. split; [apply lit_plain_all|]. split; [|split; assumption].
  rewrite Forall_map. apply Forall_forall. intros s _. apply lit_plain_all.
Qed.
Lemma good_with e i : good_extras num of_num e -> good_extras num of_num (with_id e i). Proof. intros H. exact H. Qed.
Lemma module_with e i : is_module e -> is_module (with_id e i). Proof. intros H. exact H. Qed.
(** One run reads the entries that it would be given, and writes those that would be passed on. *)
Lemma run_file_is file v ms ds : good_given num of_num v -> read_catalog num file = Some (ms, ds) -> Forall (good_extras num of_num) ms -> Forall is_module ds ->
  exists t, run_file num of_num file v = Some (fst (step ms (messages_build v)), fst (step ds (modules_build v)), t) /\
    read_catalog num (Some t) = Some (snd (step ms (messages_build v)), snd (step ds (modules_build v))) /\
    Forall (good_extras num of_num) (snd (step ms (messages_build v))) /\ Forall is_module (snd (step ds (modules_build v))).
Proof.
  intros (G1 & G2 & G3 & G4) R Hm Hd. destruct (step_origin (good_extras num of_num) ms (messages_build v) good_with Hm G1) as [_ O1]. destruct (step_origin is_module ds (modules_build v) module_with Hd G2) as [_ O2].
  unfold run_file. rewrite R. fold (step ms (messages_build v)).
  change (run (v_key v) false (v_reserved v) [Some ms] (v_messages v)) with (step ms (messages_build v)). change (run (v_module_key v) false [] [Some ds] (v_modules v)) with (step ds (modules_build v)).
  destruct (step ms (messages_build v)) as [am jm]. destruct (step ds (modules_build v)) as [ad jd]. cbn [fst snd] in *. eexists. split; [reflexivity|]. split; [|split; assumption].
  destruct (C153_catalog (v_crlf v) (map (message_of of_num) jm) (map module_of jd) (v_enums v)) as (w & L & S & _); auto.
  - rewrite Forall_map. eapply Forall_impl; [|exact O1]. intros e. apply message_good.
  - rewrite Forall_map. apply Forall_forall. intros e _. unfold module_ok, module_of. cbn. apply lit_plain_all.
  - assert (W : exists d, w = VDict d /\ NoDup (map fst d)).
    { rewrite C153_exact in L; [|apply catalog_ok; auto]; [injection L as <-; eexists; split; [reflexivity|]; apply merged_nodup| |].
      - rewrite Forall_map. eapply Forall_impl; [|exact O1]. intros e. apply message_good.
      - rewrite Forall_map. apply Forall_forall. intros e _. unfold module_ok, module_of. cbn. apply lit_plain_all. }
    destruct W as (d & -> & W). unfold read_catalog. rewrite L. rewrite (stable_over _ d _ W S), !map_map. f_equal. f_equal.
    + erewrite map_ext_in; [apply map_id|]. intros e I. rewrite Forall_forall in O1. apply entry_message, O1, I.
    + erewrite map_ext_in; [apply map_id|]. intros e I. rewrite Forall_forall in O2. apply entry_module, O2, I.
Qed.
(** The builds with files are the builds of C43: every run is possible, gives the ids they give, and
    reads what they pass on, whatever ends the lines of each file. *)
Theorem C155_same vs v : Forall (good_given num of_num) (vs ++ [v]) ->
  run_after num of_num vs v = Some (assigned (map messages_build vs) (messages_build v), assigned (map modules_build vs) (modules_build v)).
Proof.
  intros G. apply Forall_app in G as [G Gv]. inversion_clear Gv as [|? ? Gv' _].
  assert (H : forall vs file ms ds, Forall (good_given num of_num) vs -> read_catalog num file = Some (ms, ds) -> Forall (good_extras num of_num) ms -> Forall is_module ds ->
    exists f, run_files num of_num file vs = Some f /\
      read_catalog num f = Some (fold_left (fun json b => snd (step json b)) (map messages_build vs) ms, fold_left (fun json b => snd (step json b)) (map modules_build vs) ds) /\
      Forall (good_extras num of_num) (fold_left (fun json b => snd (step json b)) (map messages_build vs) ms) /\ Forall is_module (fold_left (fun json b => snd (step json b)) (map modules_build vs) ds)).
  { clear. induction vs as [|v vs IH]; intros file ms ds G R Hm Hd; cbn [run_files map fold_left]; [exists file; auto|].
    inversion_clear G as [|? ? Gv Gr]. destruct (run_file_is file v ms ds Gv R Hm Hd) as (t & E & R' & Hm' & Hd'). rewrite E. apply IH; auto. }
  destruct (H vs None [] [] G eq_refl) as (f & E & R & Hm & Hd); [constructor|constructor|]. unfold run_after. rewrite E.
  destruct (run_file_is f v _ _ Gv' R Hm Hd) as (t & E' & _). rewrite E'. reflexivity.
Qed.
(** So a message keeps its id from file to file... *)
Theorem C155_stable vs v vs' v' am ad am' ad' s i j : Forall (good_given num of_num) (vs ++ v :: vs' ++ [v']) -> good_history (map messages_build (vs ++ v :: vs' ++ [v'])) ->
  run_after num of_num vs v = Some (am, ad) -> run_after num of_num (vs ++ v :: vs') v' = Some (am', ad') -> holds am s i -> holds am' s j -> i = j.
Proof.
  intros G H R R'. rewrite C155_same in R, R'.
  - injection R as <- <-. injection R' as <- <-. rewrite !map_app in *. cbn [map] in *. rewrite map_app in H. apply C43_stable. exact H.
  - rewrite <- app_assoc. exact G.
  - apply Forall_app in G as [G1 G2]. apply Forall_app. split; [exact G1|]. inversion_clear G2. constructor; auto.
Qed.
(** ...no other message ever gets it, and modules likewise. *)
Theorem C155_distinct vs v vs' v' am ad am' ad' s t i : Forall (good_given num of_num) (vs ++ v :: vs' ++ [v']) -> good_history (map messages_build (vs ++ v :: vs' ++ [v'])) ->
  run_after num of_num vs v = Some (am, ad) -> run_after num of_num (vs ++ v :: vs') v' = Some (am', ad') -> holds am s i -> holds am' t i -> s = t.
Proof.
  intros G H R R'. rewrite C155_same in R, R'.
  - injection R as <- <-. injection R' as <- <-. rewrite !map_app in *. cbn [map] in *. rewrite map_app in H. apply C43_distinct. exact H.
  - rewrite <- app_assoc. exact G.
  - apply Forall_app in G as [G1 G2]. apply Forall_app. split; [exact G1|]. inversion_clear G2. constructor; auto.
Qed.
Theorem C155_modules vs v vs' v' am ad am' ad' s t i j : Forall (good_given num of_num) (vs ++ v :: vs' ++ [v']) -> good_history (map modules_build (vs ++ v :: vs' ++ [v'])) ->
  run_after num of_num vs v = Some (am, ad) -> run_after num of_num (vs ++ v :: vs') v' = Some (am', ad') ->
  (holds ad s i -> holds ad' s j -> i = j) /\ (holds ad s i -> holds ad' t i -> s = t).
Proof.
  intros G H R R'. rewrite C155_same in R, R'.
  - injection R as <- <-. injection R' as <- <-. rewrite !map_app in *. cbn [map] in *. rewrite map_app in H. split; [apply C43_stable|apply C43_distinct]; exact H.
  - rewrite <- app_assoc. exact G.
  - apply Forall_app in G as [G1 G2]. apply Forall_app. split; [exact G1|]. inversion_clear G2. constructor; auto.
Qed.
End C155.
Print Assumptions C155_same.
Print Assumptions C155_stable.
Print Assumptions C155_distinct.
Print Assumptions C155_modules.
(** The builds of C43_case, with one named argument and a tag in every message, a module that
    moves, and lines that end in two ways. *)
Definition case_of_num (n : N) : extras := if N.eqb n 0 then ([{| n_name := lit "level"; n_begin := 2; n_end := 4 |}], [{| t_name := lit "owner"; t_value := lit "a ""b""" |}]) else ([], []).
Definition case_num (x : extras) : N := match fst x with [] => 1 | _ => 0 end%N.
Definition case_module (s : string) : entry := mk s [] (-1).
Definition v1 : given := {| v_key := b_key b1; v_module_key := b_key b1; v_reserved := b_reserved b1; v_messages := b_items b1; v_modules := [case_module "m"; case_module "p"]; v_enums := [(lit "E", [(lit "a", 0); (lit "b", 1)])]; v_crlf := true |}.
Definition v2 : given := {| v_key := b_key b2; v_module_key := b_key b2; v_reserved := b_reserved b2; v_messages := b_items b2; v_modules := [case_module "n"; case_module "p"]; v_enums := []; v_crlf := false |}.
Example C155_case : Forall (good_given case_num case_of_num) [v1; v2] /\ good_history (map messages_build [v1; v2]) /\
  match run_after case_num case_of_num [v1] v2 with
  | Some (am, ad) => map (fun m => (sid m, m_id m)) am = [(sid newer, 6); (sid hello, 0); (sid number_u, 8)] /\ map (fun m => (m_text m, m_id m)) ad = [("n"%string, 2); ("p"%string, 1)]
  | None => False
  end /\
  match run_files case_num case_of_num None [v1] with Some (Some t) => length t = 1652%nat | _ => False end.
Proof.
  assert (P : forall s, plain_text (lit s)) by apply lit_plain_all.
  assert (X : forall t a i, good_extras case_num case_of_num (mk t a i)).
  { intros t a i. split; [reflexivity|]. split; (apply Forall_cons; [|constructor]); (split; [apply P|cbn; try apply (P "a ""b"""%string)]). lia. }
  split; [|split; [exact (proj1 C43_case)|vm_compute; auto]].
  apply Forall_cons; [|apply Forall_cons; [|constructor]]; (split; [|split; [|split]]).
  - repeat (apply Forall_cons; [apply X|]). constructor.
  - repeat (apply Forall_cons; [split; reflexivity|]). constructor.
  - apply Forall_cons; [|constructor]. split; [apply P|]. apply Forall_cons; [apply P|]. apply Forall_cons; [apply P|]. constructor.
  - repeat constructor. intros [].
  - repeat (apply Forall_cons; [apply X|]). constructor.
  - repeat (apply Forall_cons; [split; reflexivity|]). constructor.
  - constructor.
  - constructor.
Qed.

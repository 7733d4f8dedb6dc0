(** Property theorems about runs of the catalog generator that differ in the
    seed of Python's hashes or in the order of the symbols (C147). *)
From Coq Require Import String Ascii Bool List ZArith Lia Permutation.
From Verif Require Import CatalogModel CatalogSpec CatalogProps ReproduceSpec ReproduceProofs.
Import ListNotations.
Local Open Scope Z_scope.

(** C147 at full strength: the catalog is the same for any two seeds and any
    order of the same symbols.  The seed: as long as the keys tell apart the
    same entries, everything is the same, to the last id and in the same order. *)
Theorem C147_seed : forall k1 k2 forget reserved files items,
  same_distinctions k1 k2 (items ++ in_files files) ->
  run k1 forget reserved files items = run k2 forget reserved files items.
Proof. exact run_same. Qed.
Print Assumptions C147_seed.
(** In particular for keys that confuse no two messages. *)
Theorem C147_messages : forall h1 h2 forget reserved files items,
  (forall a b, In a (items ++ in_files files) -> In b (items ++ in_files files) ->
     (msg_key h1 a = msg_key h1 b -> m_text a = m_text b /\ m_args a = m_args b) /\
     (msg_key h2 a = msg_key h2 b -> m_text a = m_text b /\ m_args a = m_args b)) ->
  run (msg_key h1) forget reserved files items = run (msg_key h2) forget reserved files items.
Proof.
  intros h1 h2 forget reserved files items H. apply run_same. intros a b Ha Hb. destruct (H a b Ha Hb) as [H1 H2]. unfold msg_key in *.
  split; intros E; [destruct (H1 E) as [-> ->]|destruct (H2 E) as [-> ->]]; reflexivity.
Qed.
Print Assumptions C147_messages.
(** And for modules, with hashes without collisions. *)
Theorem C147_modules : forall h1 h2 forget reserved files items,
  (forall a b, In a (items ++ in_files files) -> In b (items ++ in_files files) ->
     (h1 (m_text a) = h1 (m_text b) -> m_text a = m_text b) /\ (h2 (m_text a) = h2 (m_text b) -> m_text a = m_text b)) ->
  run (module_key h1) forget reserved files items = run (module_key h2) forget reserved files items.
Proof.
  intros h1 h2 forget reserved files items H. apply run_same. intros a b Ha Hb. destruct (H a b Ha Hb) as [H1 H2]. unfold module_key in *.
  split; intros E; [rewrite (H1 E)|rewrite (H2 E)]; reflexivity.
Qed.
Print Assumptions C147_modules.

(** Hashes without collisions are not enough for messages: the keys are an
    exclusive or of two. *)
Definition ab : entry := mk "A" ["B"%string] (-1).
Definition cd : entry := mk "C" ["D"%string] (-1).
Theorem C147_seed_refuted : exists h1 h2 items,
  (forall s t, h1 s = h1 t -> s = t) /\ (forall s t, h2 s = h2 t -> s = t) /\
  length (fst (run (msg_key h1) false [] [] items)) = 2%nat /\ length (fst (run (msg_key h2) false [] [] items)) = 1%nat.
Proof.
  exists (fun s => num s * 3 + 1), num, [ab; cd].
  assert (P : forall s, 0 <= num s) by (induction s as [|c s IH]; cbn [num]; lia).
  assert (I : forall s t, num s = num t -> s = t).
  { induction s as [|a s IH]; intros [|b t]; cbn [num]; intros E; auto.
    - specialize (P t). lia.
    - specialize (P s). lia.
    - pose proof (nat_ascii_bounded a). pose proof (nat_ascii_bounded b). pose proof (P s). pose proof (P t).
      assert (nat_of_ascii a = nat_of_ascii b) as X by lia. f_equal; [|apply IH; lia].
      rewrite <- (ascii_nat_embedding a), <- (ascii_nat_embedding b). now f_equal. }
  split; [intros s t E; apply I; lia|]. split; [exact I|]. split; vm_compute; reflexivity.
Qed.
Print Assumptions C147_seed_refuted.

(** The order matters between messages with one text and different arguments:
    they are numbered as they come. *)
Theorem C147_order_refuted : exists items items', Permutation items items' /\
  map (fun m => (m_args m, m_id m)) (fst (run (msg_key num) false [] [] items)) = [(["encode_32<int>"%string], 0); (["encode_u32<unsigned int>"%string], 1)] /\
  map (fun m => (m_args m, m_id m)) (fst (run (msg_key num) false [] [] items')) = [(["encode_u32<unsigned int>"%string], 0); (["encode_32<int>"%string], 1)].
Proof. exists [number; number_u], [number_u; number]. split; [apply perm_swap|]. split; vm_compute; reflexivity. Qed.
Print Assumptions C147_order_refuted.

(** Symbols in any order, any number of times each, and any seed: every message
    gets the same id and the JSON file has the same entries, if entries with one
    key are the same entry and messages that need a new id have different texts
    (missing: what the refutations show). *)
Theorem C147_partial : forall k1 k2 forget reserved files items items',
  (forall x, In x items <-> In x items') ->
  same_distinctions k1 k2 (items ++ in_files files) -> keyed k1 items -> new_texts_differ k1 (stable_list files) items ->
  Permutation (fst (run k1 forget reserved files items)) (fst (run k2 forget reserved files items')) /\
  forall x, In x (snd (run k1 forget reserved files items)) <-> In x (snd (run k2 forget reserved files items')).
Proof.
  intros k1 k2 forget reserved files items items' E S K T. rewrite <- (run_same k1 k2 forget reserved files items').
  - apply run_order; assumption.
  - intros a b Ha Hb. apply S; rewrite in_app_iff, E, <- in_app_iff; assumption.
Qed.
Print Assumptions C147_partial.

(** Two messages with one text, one of them known, listed in two orders and with
    two hashes. *)
Definition known_number : entry := mk "x {}" ["encode_32<int>"%string] 4.
Example C147_case : let items := [number; hello; number_u; fixed; hello] in let items' := [fixed; number_u; hello; number] in let files := [Some [known_number]] in
  (forall x, In x items <-> In x items') /\ same_distinctions (msg_key num) (msg_key (fun s => num s * 3 + 1)) (items ++ in_files files) /\
  keyed (msg_key num) items /\ new_texts_differ (msg_key num) (stable_list files) items /\ ~ new_texts_differ (msg_key num) [] items /\
  map (fun m => (m_text m, m_args m, m_id m)) (fst (run (msg_key num) false [] files items)) =
    [("fixed", [], 7); ("hello", [], 0); ("x {}", ["encode_32<int>"], 4); ("x {}", ["encode_u32<unsigned int>"], 1)]%string /\
  map (fun m => (m_text m, m_args m, m_id m)) (fst (run (msg_key (fun s => num s * 3 + 1)) false [] files items')) =
    [("fixed", [], 7); ("hello", [], 0); ("x {}", ["encode_u32<unsigned int>"], 1); ("x {}", ["encode_32<int>"], 4)]%string.
Proof.
  intros items items' files. split; [intros x; cbn; tauto|]. split.
  - intros a b Ha Hb. cbn in Ha, Hb. all_cases; vm_compute; split; congruence.
  - split; [intros a b Ha Hb; cbn in Ha, Hb; all_cases; vm_compute; congruence|]. split.
    + intros a b Ha Hb [_ Na] [_ Nb]. cbn in Ha, Hb. all_cases; cbn; try congruence; try reflexivity; exfalso;
        first [apply (Na known_number); [left; reflexivity|vm_compute; reflexivity]|apply (Nb known_number); [left; reflexivity|vm_compute; reflexivity]].
    + split; [|split; vm_compute; reflexivity]. intros H. specialize (H number number_u). assert (X : number = number_u); [|discriminate X].
      apply H; cbn; auto; split; auto; intros s [].
Qed.

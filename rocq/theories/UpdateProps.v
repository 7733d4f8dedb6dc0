(** C157: files that hold no dict. *)
From Coq Require Import String Ascii Bool Arith List NArith ZArith.
From Verif Require Import GenModel SymbolModel JsonModel ManyModel ManySpec UpdateModel UpdateSpec.
Import ListNotations.
Local Open Scope string_scope.

(** A file that holds a list or a text, not a dict. *)
Definition holds_sequence (f : text) : Prop := (exists l, load f = Some (VList l)) \/ (exists t, load f = Some (VText t)).

(** Where no file holds a list or a text, dict.update is what ManyModel says; so C157 is about all such files. *)
Theorem C157_dict_update : forall files d, (forall f, In f files -> ~ holds_sequence f) -> update_with d files = update_all d files.
Proof.
  induction files as [|f r IH]; intros d H; cbn [update_with update_all]; [reflexivity|].
  assert (Hf : ~ holds_sequence f) by (apply H; left; reflexivity).
  destruct (load f) as [[t|z|b| |l|e]|] eqn:L; cbn [pairs_of]; auto.
  - exfalso. apply Hf. right. eauto.
  - exfalso. apply Hf. left. eauto.
  - apply IH. intros g G. apply H. right. exact G.
Qed.
Theorem C157_stable_update : forall files, (forall f, In f files -> ~ holds_sequence f) -> stables_with files = read_stables files.
Proof. intros files H. unfold stables_with, read_stables. rewrite C157_dict_update by exact H. reflexivity. Qed.
(** What is read with ManyModel is read the same by dict.update, whatever the files hold. *)
Theorem C157_update_agrees : forall files d d', update_all d files = Some d' -> update_with d files = Some d'.
Proof.
  induction files as [|f r IH]; intros d d'; cbn [update_with update_all]; [auto|].
  destruct (load f) as [[t|z|b| |l|e]|]; cbn [pairs_of]; try discriminate. apply IH.
Qed.
Theorem C157_stable_agrees : forall files x, read_stables files = Some x -> stables_with files = Some x.
Proof.
  intros files x. unfold stables_with, read_stables. destruct (update_all _ files) as [d|] eqn:U; cbn [bind]; [|discriminate].
  rewrite (C157_update_agrees _ _ _ U). auto.
Qed.
(** An empty list or an empty text is as good as no file, wherever it is given. *)
Theorem C157_empty_files : forall before f after, load f = Some (VList []) \/ load f = Some (VText []) -> stables_with (before ++ f :: after) = stables_with (before ++ after).
Proof.
  intros before f after H. unfold stables_with. f_equal. generalize [(KText (lit "messages"), VList []); (KText (lit "modules"), VList [])].
  induction before as [|g r IH]; intros d; cbn [app update_with].
  - destruct H as [-> | ->]; reflexivity.
  - destruct (load g) as [v|]; [|reflexivity]. destruct (pairs_of v); [apply IH | reflexivity].
Qed.

(** A list of pairs is taken for the dict with these items. *)
Theorem C157_pairs : forall before f g after e,
  load f = Some (VList (map (fun kv => VList [match fst kv with KText t => VText t | KNum z => VNum z end; snd kv]) e)) -> load g = Some (VDict e) ->
  stables_with (before ++ f :: after) = stables_with (before ++ g :: after).
Proof.
  intros before f g after e F G. unfold stables_with. f_equal. generalize [(KText (lit "messages"), VList []); (KText (lit "modules"), VList [])].
  assert (P : pairs_of (VList (map (fun kv => VList [match fst kv with KText t => VText t | KNum z => VNum z end; snd kv]) e)) = Some e).
  { clear. cbn [pairs_of]. induction e as [|[[t|z] v] e IH]; cbn; [reflexivity| |]; rewrite IH; reflexivity. }
  induction before as [|h r IH]; intros d; cbn [app update_with].
  - rewrite F, G, P. reflexivity.
  - destruct (load h) as [v|]; [|reflexivity]. destruct (pairs_of v); [apply IH | reflexivity].
Qed.

(** The files can be read exactly if each holds a dict, pairs or nothing, and then each replaces under its
    headings what was there before. *)
Lemma as_key_same k v : as_key v = Some k <-> same k v.
Proof.
  split.
  - destruct v; cbn; intros H; try discriminate; injection H as <-; constructor.
  - intros []; reflexivity.
Qed.
Lemma key_value_same k v : key_value k = v <-> same k v.
Proof.
  split; [intros <-; destruct k; constructor | intros []; reflexivity].
Qed.
Lemma as_pair_is v p : as_pair v = Some p <-> is_pair v p.
Proof.
  split.
  - destruct v as [[|a [|b [|c t]]]|z|b| |[|k [|x [|y l]]]|[|[k u] [|[x w] [|y d]]]]; cbn; intros H; try discriminate.
    + injection H as <-. constructor.
    + destruct (as_key k) as [k'|] eqn:K; [|discriminate]. injection H as <-. constructor. now apply as_key_same.
    + injection H as <-. constructor. now apply key_value_same.
  - intros [k u x H|a b|k u x w u' H]; cbn; [|reflexivity|].
    + apply as_key_same in H as ->. reflexivity.
    + apply key_value_same in H as ->. reflexivity.
Qed.
Lemma all_pairs l : forall e, all_some (map as_pair l) = Some e <-> Forall2 is_pair l e.
Proof.
  induction l as [|v l IH]; intros e; cbn [map all_some].
  - split; [intros H; injection H as <-; constructor | intros H; inversion H; reflexivity].
  - split.
    + destruct (as_pair v) as [p|] eqn:P; [|discriminate]. destruct (all_some (map as_pair l)) as [r|]; [|discriminate].
      intros H. injection H as <-. constructor; [now apply as_pair_is | now apply IH].
    + intros H. inversion H as [|? p ? r Hp Hr]; subst. apply as_pair_is in Hp as ->. apply IH in Hr as ->. reflexivity.
Qed.
Lemma pairs_of_gives v e : pairs_of v = Some e <-> gives v e.
Proof.
  split.
  - destruct v as [[|a t]|z|b| |l|d]; cbn [pairs_of]; intros H; try discriminate.
    + injection H as <-. constructor.
    + constructor. now apply all_pairs.
    + injection H as <-. constructor.
  - intros [d|l e' H|]; cbn [pairs_of]; [reflexivity | now apply all_pairs | reflexivity].
Qed.
Theorem C157_update_exact : forall files d d',
  update_with d files = Some d' <->
  exists es, Forall2 (fun f e => exists v, load f = Some v /\ gives v e) files es /\ d' = fold_left (update key_eqb) es d.
Proof.
  induction files as [|f r IH]; intros d d'; cbn [update_with].
  - split.
    + intros H. injection H as <-. exists []. split; [constructor | reflexivity].
    + intros (es & F & ->). inversion F. reflexivity.
  - split.
    + destruct (load f) as [v|] eqn:L; [|discriminate]. destruct (pairs_of v) as [e|] eqn:P; [|discriminate]. intros H.
      apply IH in H as (es & F & ->). exists (e :: es). split; [|reflexivity]. constructor; [|exact F]. exists v. split; [exact L | now apply pairs_of_gives].
    + intros (es & F & ->). inversion F as [|? e ? es' (v & L & G) F']; subst. rewrite L. apply pairs_of_gives in G as ->. apply IH. exists es'. split; [exact F' | reflexivity].
Qed.

(** That a build stops if a file holds no dict, as ManyModel has it, is false of the code: a list of pairs
    replaces what the files before it say. *)
Definition one_module : text := lit "{""modules"": [{""string"": ""b"", ""id"": 4}]}".
Definition list_of_pairs : text := lit "[[""modules"", []]]".
Theorem C157_stops_without_a_dict_refuted :
  exists files, ~ Forall readable files /\ stables_with files <> None.
Proof.
  exists [one_module; list_of_pairs]. split.
  - intros H. inversion H as [|? ? _ H2]. inversion H2 as [|? ? [d D] _]. vm_compute in D. discriminate.
  - vm_compute. discriminate.
Qed.
Example C157_case_update :
  map (fun f => stables_with [one_module; f]) [list_of_pairs; lit "[]"; lit """"""; lit """ab"""; lit "7"; lit "[""ab""]"; lit "[7]"; lit "[[[], 1]]"; lit "{"] =
  [Some ([], []); stables_with [one_module]; stables_with [one_module]; None; None; stables_with [one_module]; None; None; None] /\
  stables_with [one_module] = Some ([], [{| d_text := lit "b"; d_id := 4 |}]).
Proof. vm_compute. auto. Qed.
Example C157_pairs_case :
  load (lit "[[""modules"", [1]], [""x"", null]]") = Some (VList (map (fun kv => VList [match fst kv with KText t => VText t | KNum z => VNum z end; snd kv]) [(KText (lit "modules"), VList [VNum 1]); (KText (lit "x"), VNull)])) /\
  load (lit "{""modules"": [1], ""x"": null}") = Some (VDict [(KText (lit "modules"), VList [VNum 1]); (KText (lit "x"), VNull)]).
Proof. vm_compute. auto. Qed.
(** A list of two values or a text of two characters or a dict of two items is a pair; nothing else is. *)
Example C157_pair_cases :
  map as_pair [VList [VText (lit "k"); VNull]; VList [VNum 3; VBool true]; VText (lit "ab"); VDict [(KText (lit "k"), VNum 1); (KText (lit "x"), VNum 2)]; VList [VText (lit "k")]; VText (lit "abc"); VNum 5; VList [VList []; VNum 1]; VList [VText (lit "k"); VNull; VNull]] =
  [Some (KText (lit "k"), VNull); Some (KNum 3, VBool true); Some (KText (lit "a"), VText (lit "b")); Some (KText (lit "k"), VText (lit "x")); None; None; None; None; None].
Proof. vm_compute. auto. Qed.
Print Assumptions C157_dict_update.
Print Assumptions C157_stable_update.
Print Assumptions C157_stable_agrees.
Print Assumptions C157_empty_files.
Print Assumptions C157_pairs.
Print Assumptions C157_update_exact.
Print Assumptions C157_stops_without_a_dict_refuted.

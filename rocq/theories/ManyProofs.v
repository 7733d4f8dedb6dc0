(** Lemmas: what is read from any file is written so that it reads the same. *)
From Coq Require Import String Ascii Bool Arith List NArith ZArith Lia.
From Verif Require Import GenModel SymbolModel CatalogModel JsonModel JsonSpec JsonProofs JsonProofs2 JsonProofs3 JsonProofs4.
Import ListNotations.
Local Open Scope Z_scope.

Lemma plain_cons c s : plain_text (c :: s) <-> (char_ok c /\ ~ surrogate c) /\ plain_text s.
Proof. unfold plain_text. split; [intros H; now inversion_clear H|intros [A B]; now constructor]. Qed.
Lemma skip_plain s : plain_text s -> plain_text (skip s).
Proof. induction s as [|c s IH]; cbn [skip]; intros H; auto. apply plain_cons in H. destruct (_ || _); [apply IH; tauto|now apply plain_cons]. Qed.
Lemma after_plain p : forall s r, plain_text s -> after p s = Some r -> plain_text r.
Proof.
  induction p as [|a p IH]; intros s r H E; cbn [after] in E; [now injection E as <-|]. destruct s as [|b s]; [discriminate|]. apply plain_cons in H. destruct (a =? b); [|discriminate].
  apply (IH s); tauto.
Qed.
Lemma from_file_plain n : forall s, (length s <= n)%nat -> plain_text s -> plain_text (from_file s).
Proof.
  induction n as [|n IH]; intros [|c s] L H; try (cbn in L; lia); try constructor. apply plain_cons in H as [H1 H2]. cbn [from_file]. cbn [length] in L.
  destruct (c =? 13).
  - apply plain_cons. split; [unfold char_ok, surrogate; lia|]. destruct s as [|d s]; [constructor|]. destruct (d =? 10); [apply plain_cons in H2; apply IH; [cbn [length] in L; lia|tauto]|apply IH; [lia|exact H2]].
  - apply plain_cons. split; [exact H1|]. apply IH; [lia|exact H2].
Qed.
Lemma unhex_range c x : unhex c = Some x -> 0 <= x < 16.
Proof. unfold unhex. destruct ((48 <=? c) && (c <=? 57)) eqn:A; [intros [= <-]; lia|]. destruct ((97 <=? c) && (c <=? 102)) eqn:B; [intros [= <-]; lia|]. destruct ((65 <=? c) && (c <=? 70)) eqn:C; [intros [= <-]; lia|discriminate]. Qed.
Lemma u_decode_plain s u r : plain_text s -> u_decode s = Some (u, r) -> 0 <= u < 65536 /\ plain_text r.
Proof.
  intros H E. destruct s as [|a [|b [|c [|d s]]]]; try discriminate. cbn [u_decode] in E. rewrite !plain_cons in H.
  destruct (unhex a) as [xa|] eqn:A; [|discriminate]. destruct (unhex b) as [xb|] eqn:B; [|discriminate]. destruct (unhex c) as [xc|] eqn:C; [|discriminate]. destruct (unhex d) as [xd|] eqn:D; [|discriminate].
  apply unhex_range in A, B, C, D. injection E as <- <-. split; [lia|tauto].
Qed.
Lemma unescape_range e x : unescape e = Some x -> 0 <= x < 128.
Proof.
  unfold unescape. destruct ((e =? 34) || (e =? 92) || (e =? 47)) eqn:A; [intros [= <-]; lia|].
  repeat match goal with |- context [if ?b then _ else _] => destruct b; [intros [= <-]; lia|] end. discriminate.
Qed.
(** A low surrogate comes only from an escape. *)
Lemma scan_first k r d t q : plain_text r -> scan k r = Some (d :: t, q) -> low d = true -> exists r2 r3, after [92; 117] r = Some r2 /\ u_decode r2 = Some (d, r3).
Proof.
  intros H E L. destruct k as [|k]; [discriminate|]. cbn [scan] in E. destruct r as [|c r]; [discriminate|]. apply plain_cons in H as [[H1 H2] H3].
  unfold low in L. destruct (c =? 34); [discriminate|]. destruct (c <? 32); [discriminate|]. destruct (c =? 92) eqn:C; cbn [negb] in E.
  - destruct r as [|e r]; [discriminate|]. destruct (e =? 117) eqn:D; cbn [negb] in E.
    + apply Z.eqb_eq in C, D. subst. destruct (u_decode r) as [[u r']|] eqn:U; [|discriminate]. exists r, r'. split; [reflexivity|]. rewrite U. f_equal. f_equal.
      destruct ((55296 <=? u) && (u <=? 56319)) eqn:Hi.
      * destruct (after [92; 117] r') as [r2|].
        -- destruct (u_decode r2) as [[u2 r3]|] eqn:U2; [|discriminate]. destruct ((56320 <=? u2) && (u2 <=? 57343)) eqn:Lo.
           ++ destruct (scan k r3) as [[t' q']|]; [|discriminate]. assert (X : 65536 + ((u - 55296) * 1024 + (u2 - 56320)) = d) by congruence. exfalso. lia.
           ++ destruct (scan k r') as [[t' q']|]; [|discriminate]. injection E as <- <- <-. reflexivity.
        -- destruct (scan k r') as [[t' q']|]; [|discriminate]. injection E as <- <- <-. reflexivity.
      * destruct (scan k r') as [[t' q']|]; [|discriminate]. now injection E as <- <- <-.
    + destruct (unescape e) as [x|] eqn:X; [|discriminate]. apply unescape_range in X. destruct (scan k r) as [[t' q']|]; [|discriminate]. injection E as <- <- <-. lia.
  - destruct (scan k r) as [[t' q']|]; [|discriminate]. injection E as <- <- <-. exfalso. apply H2. unfold surrogate. lia.
Qed.
Lemma joined_step c t : joined t = t -> (match t with d :: _ => high c && low d = false | [] => True end) -> joined (c :: t) = c :: t.
Proof. intros J H. rewrite joined_single by exact H. now rewrite J. Qed.
Lemma scan_clean k : forall s t q, plain_text s -> scan k s = Some (t, q) -> Forall char_ok t /\ joined t = t /\ plain_text q.
Proof.
  induction k as [|k IH]; intros s t q H E; [discriminate|]. cbn [scan] in E. destruct s as [|c r]; [discriminate|]. apply plain_cons in H as [[H1 H2] H3].
  assert (Q : forall x r' t q, char_ok x -> plain_text r' -> (high x = true -> forall d t' q', scan k r' = Some (d :: t', q') -> low d = false) ->
    match scan k r' with Some (t, q) => Some (x :: t, q) | None => None end = Some (t, q) -> Forall char_ok t /\ joined t = t /\ plain_text q).
  { clear - IH. intros x r' t q X R L E. destruct (scan k r') as [[t' q']|] eqn:S; [|discriminate]. injection E as <- <-. destruct (IH r' t' q' R S) as (A & B & C).
    split; [constructor; auto|]. split; [|exact C]. apply joined_step; [exact B|]. destruct t' as [|d t']; auto. destruct (high x); auto. apply (L eq_refl d t' q' eq_refl). }
  destruct (c =? 34); [injection E as <- <-; repeat split; [constructor|exact H3]|]. destruct (c <? 32); [discriminate|]. destruct (c =? 92) eqn:C; cbn [negb] in E.
  - destruct r as [|e r]; [discriminate|]. apply plain_cons in H3 as [_ H3]. destruct (e =? 117); cbn [negb] in E.
    + destruct (u_decode r) as [[u r']|] eqn:U; [|discriminate]. destruct (u_decode_plain r u r' H3 U) as [U1 U2].
      destruct ((55296 <=? u) && (u <=? 56319)) eqn:Hi.
      * destruct (after [92; 117] r') as [r2|] eqn:A.
        -- destruct (u_decode r2) as [[u2 r3]|] eqn:V; [|discriminate]. destruct (u_decode_plain r2 u2 r3 (after_plain _ _ _ U2 A) V) as [V1 V2]. destruct ((56320 <=? u2) && (u2 <=? 57343)) eqn:Lo.
           ++ apply (Q _ _ _ _) in E; auto; [unfold char_ok; lia|]. intros Hx. unfold high in Hx. lia.
           ++ apply (Q _ _ _ _) in E; auto; [unfold char_ok; lia|]. intros _ d t' q' S. destruct (low d) eqn:Ld; auto. destruct (scan_first k r' d t' q' U2 S Ld) as (x & y & X & Y). rewrite A in X. injection X as <-. rewrite V in Y. injection Y as -> _.
              unfold low in Ld. lia.
        -- apply (Q _ _ _ _) in E; auto; [unfold char_ok; lia|]. intros _ d t' q' S. destruct (low d) eqn:Ld; auto. destruct (scan_first k r' d t' q' U2 S Ld) as (x & y & X & Y). congruence.
      * apply (Q _ _ _ _) in E; auto; [unfold char_ok; lia|]. intros Hx. unfold high in Hx. lia.
    + destruct (unescape e) as [x|] eqn:X; [|discriminate]. apply unescape_range in X. apply (Q _ _ _ _) in E; auto; [unfold char_ok; lia|]. intros Hx. unfold high in Hx. lia.
  - apply (Q _ _ _ _) in E; auto. intros Hx. exfalso. apply H2. unfold surrogate. unfold high in Hx. lia.
Qed.
Lemma digits_plain s : forall d q, plain_text s -> digits s = (d, q) -> plain_text q.
Proof.
  induction s as [|c s IH]; intros d q H E; cbn [digits] in E; [injection E as <- <-; exact H|]. destruct (is_digit c); [|injection E as <- <-; exact H].
  destruct (digits s) as [d' q'] eqn:D. injection E as <- <-. apply plain_cons in H. apply (IH d' q'); tauto.
Qed.
Lemma unsigned_plain s z q : plain_text s -> unsigned s = Some (z, q) -> plain_text q.
Proof.
  unfold unsigned. destruct s as [|c s]; [discriminate|]. intros H. destruct (c =? 48); [intros [= <- <-]; apply plain_cons in H; tauto|].
  destruct (digits (c :: s)) as [d q'] eqn:D. apply digits_plain in D; auto. destruct d; [discriminate|]. intros [= _ <-]. exact D.
Qed.
Lemma number_plain s v q : plain_text s -> number s = Some (v, q) -> exists z, v = VNum z /\ plain_text q.
Proof.
  unfold number. intros H. destruct s as [|c s]; [discriminate|]. destruct (c =? 45).
  - apply plain_cons in H as [_ H]. destruct (unsigned s) as [[z q']|] eqn:U; [|discriminate]. apply unsigned_plain in U; auto. cbn [option_map fst snd]. destruct (is_float q'); [discriminate|]. intros [= <- <-]. eauto.
  - destruct (unsigned (c :: s)) as [[z q']|] eqn:U; [|discriminate]. apply unsigned_plain in U; auto. destruct (is_float q'); [discriminate|]. intros [= <- <-]. eauto.
Qed.
(** A value that is written so that it reads the same. *)
Definition clean (v : value) : Prop := value_ok v /\ seen v = v.
Lemma clean_list l : Forall clean l -> clean (VList l).
Proof.
  intros H. split; cbn [value_ok seen].
  - induction H as [|v l [A B] H IH]; cbn; auto.
  - f_equal. induction H as [|v l [A B] H IH]; cbn [map]; auto. now rewrite B, IH.
Qed.
Definition clean_key (k : key) : Prop := exists t, k = KText t /\ Forall char_ok t /\ joined t = t.
Lemma clean_dict d : NoDup (map fst d) -> (forall k v, In (k, v) d -> clean_key k /\ clean v) -> clean (VDict d).
Proof.
  intros N H. split.
  - apply ok_items. intros k v I. destruct (H k v I) as [(t & -> & A & _) [B _]]. auto.
  - cbn [seen]. f_equal. rewrite (map_ext_in _ (fun kv => kv)).
    + rewrite map_id. apply merged_distinct, N.
    + intros [k v] I. destruct (H k v I) as [(t & -> & _ & A) [_ B]]. cbn [fst snd]. now rewrite A, B.
Qed.
Lemma clean_items d : clean (VDict d) -> NoDup (map fst d) /\ (forall k v, In (k, v) d -> clean_key k /\ clean v).
Proof.
  intros [A B]. cbn [seen] in B. injection B as B. assert (N : NoDup (map fst d)) by (rewrite <- B; apply merged_nodup). split; [exact N|].
  intros k v I. assert (I' := I). rewrite <- B in I'. apply merged_in in I'. apply last_of_mem in I'. apply in_map_iff in I'. destruct I' as ([k' v'] & E & I'). cbn [fst snd] in E. injection E as E1 E2.
  assert (V : forall k v, In (k, v) d -> match k with KText t => Forall char_ok t | KNum _ => True end /\ value_ok v).
  { clear - A. cbn [value_ok] in A. induction d as [|[k v] d IH]; intros q x; [intros []|]. destruct A as [A1 A2]. intros [[= <- <-]|I]; [exact A1|]. exact (IH A2 q x I). }
  assert (KT : exists t, k = KText t /\ joined t = t). { eexists. split; [symmetry; exact E1|]. apply (joined_joined _ _ (le_n _)). }
  destruct KT as (t & -> & J). destruct (V _ _ I) as [V1 V2]. split; [exists t; auto|]. split; [exact V2|]. rewrite <- E2. apply seen_seen.
Qed.
Lemma parse_clean f :
  (forall s v q, plain_text s -> parse f s = Some (v, q) -> clean v /\ plain_text q) /\
  (forall s l q, plain_text s -> elements f s = Some (l, q) -> Forall clean l /\ plain_text q) /\
  (forall s l q, plain_text s -> members f s = Some (l, q) -> (forall k v, In (k, v) l -> clean_key k /\ clean v) /\ plain_text q).
Proof.
  induction f as [|f (IP & IE & IM)]; [repeat split; discriminate|]. split; [|split].
  - intros s v q H E. cbn [parse] in E. destruct s as [|c r]; [discriminate|]. pose proof H as H0. apply plain_cons in H as [_ H].
    destruct (c =? 34).
    { destruct (scan (length r) r) as [[t q']|] eqn:S; [|discriminate]. injection E as <- <-. destruct (scan_clean _ _ _ _ H S) as (A & B & C). split; [|exact C]. split; cbn; [exact A|now rewrite B]. }
    destruct (c =? 123).
    { destruct (after [125] (skip r)) as [q'|] eqn:A.
      - injection E as <- <-. split; [|eapply after_plain; [apply skip_plain, H|exact A]]. apply clean_dict; [constructor|intros k v []].
      - destruct (members f (skip r)) as [[l q']|] eqn:M; [|discriminate]. injection E as <- <-. destruct (IM _ _ _ (skip_plain _ H) M) as [B C]. split; [|exact C].
        unfold dict_of. rewrite update_merged. apply clean_dict; [apply merged_nodup|]. apply merged_values. exact B. }
    destruct (c =? 91).
    { destruct (after [93] (skip r)) as [q'|] eqn:A.
      - injection E as <- <-. split; [|eapply after_plain; [apply skip_plain, H|exact A]]. apply clean_list. constructor.
      - destruct (elements f (skip r)) as [[l q']|] eqn:M; [|discriminate]. injection E as <- <-. destruct (IE _ _ _ (skip_plain _ H) M) as [B C]. split; [|exact C]. apply clean_list, B. }
    destruct (after (lit "null") (c :: r)) as [q'|] eqn:A1; [injection E as <- <-; split; [split; cbn; auto|eapply after_plain; eassumption]|].
    destruct (after (lit "true") (c :: r)) as [q'|] eqn:A2; [injection E as <- <-; split; [split; cbn; auto|eapply after_plain; eassumption]|].
    destruct (after (lit "false") (c :: r)) as [q'|] eqn:A3; [injection E as <- <-; split; [split; cbn; auto|eapply after_plain; eassumption]|].
    destruct (number_plain _ _ _ H0 E) as (z & -> & P). split; [split; cbn; auto|exact P].
  - intros s l q H E. cbn [elements] in E. destruct (parse f s) as [[v q']|] eqn:P; [|discriminate]. destruct (IP _ _ _ H P) as [V Q]. apply skip_plain in Q.
    destruct (after [93] (skip q')) as [q2|] eqn:A; [injection E as <- <-; split; [auto|eapply after_plain; eassumption]|].
    destruct (after [44] (skip q')) as [q2|] eqn:B; [|discriminate]. apply after_plain in B; auto. destruct (elements f (skip q2)) as [[l2 q3]|] eqn:M; [|discriminate]. injection E as <- <-.
    destruct (IE _ _ _ (skip_plain _ B) M). split; auto.
  - intros s l q H E. cbn [members] in E. destruct (after [34] s) as [r|] eqn:A0; [|discriminate]. apply after_plain in A0; auto.
    destruct (scan (length r) r) as [[t q1]|] eqn:S; [|discriminate]. destruct (scan_clean _ _ _ _ A0 S) as (T1 & T2 & Q1). apply skip_plain in Q1.
    destruct (after [58] (skip q1)) as [q2|] eqn:A1; [|discriminate]. apply after_plain in A1; auto. apply skip_plain in A1.
    destruct (parse f (skip q2)) as [[v q']|] eqn:P; [|discriminate]. destruct (IP _ _ _ A1 P) as [V Q]. apply skip_plain in Q.
    assert (KV : clean_key (KText t) /\ clean v) by (split; [exists t; auto|exact V]).
    destruct (after [125] (skip q')) as [q3|] eqn:A; [injection E as <- <-; split; [intros k x [[= <- <-]|[]]; exact KV|eapply after_plain; eassumption]|].
    destruct (after [44] (skip q')) as [q3|] eqn:B; [|discriminate]. apply after_plain in B; auto. destruct (members f (skip q3)) as [[l2 q4]|] eqn:M; [|discriminate]. injection E as <- <-.
    destruct (IM _ _ _ (skip_plain _ B) M) as [M1 M2]. split; [intros k x [[= <- <-]|I]; [exact KV|exact (M1 k x I)]|exact M2].
Qed.
Lemma load_clean t v : plain_text t -> load t = Some v -> clean v.
Proof.
  unfold load, loads. intros H E. set (s := from_file t) in *. assert (P : plain_text s) by (apply (from_file_plain _ _ (le_n _)), H).
  destruct (parse (S (length s)) (skip s)) as [[w q]|] eqn:D; [|discriminate]. apply (proj1 (parse_clean _)) in D; [|apply skip_plain, P]. destruct (skip q); [|discriminate]. injection E as <-. apply D.
Qed.

(** Lemmas for C156: what a reader has read of a text does not change if the text goes on. *)
From Coq Require Import String Ascii Bool Arith List ZArith Lia.
From Verif Require Import GenModel SymbolModel JsonModel JsonSpec JsonProofs JsonProofs2.
Import ListNotations.
Local Open Scope Z_scope.

Lemma u_decode_more s n r x : u_decode s = Some (n, r) -> u_decode (s ++ x) = Some (n, r ++ x).
Proof.
  destruct s as [|a [|b [|c [|d s]]]]; try discriminate. cbn [app u_decode]. destruct (unhex a), (unhex b), (unhex c), (unhex d); try discriminate. now intros [= <- <-].
Qed.
Lemma after_more p s r x : after p s = Some r -> after p (s ++ x) = Some (r ++ x).
Proof. revert s. induction p as [|a p IH]; cbn; intros s; [now intros [= <-]|]. destruct s as [|b s]; [discriminate|]. cbn. destruct (a =? b); [apply IH|discriminate]. Qed.
Lemma after_one a s x : s <> [] -> after [a] (s ++ x) = option_map (fun r => r ++ x) (after [a] s).
Proof. destruct s as [|b s]; [congruence|]. intros _. cbn. destruct (a =? b); reflexivity. Qed.
Lemma skip_more s x : skip s <> [] -> skip (s ++ x) = skip s ++ x.
Proof. induction s as [|c s IH]; cbn [skip app]; [congruence|]. destruct ((c =? 32) || (c =? 9) || (c =? 10) || (c =? 13)); [apply IH|reflexivity]. Qed.
Lemma scan_nil f : scan f [] = None. Proof. destruct f; reflexivity. Qed.
Lemma scan_backslash f : scan f [92] = None. Proof. destruct f; reflexivity. Qed.
Lemma scan_more f : forall s t q, scan f s = Some (t, q) -> forall x f', (f <= f')%nat -> scan f' (s ++ x) = Some (t, q ++ x).
Proof.
  induction f as [|f IH]; [discriminate|]. intros s t q E x f' L. destruct f' as [|f']; [lia|]. assert (L' : (f <= f')%nat) by lia.
  assert (M : forall c r t q, (match scan f r with Some (t, q) => Some (c :: t, q) | None => None end) = Some (t, q) -> (match scan f' (r ++ x) with Some (t, q) => Some (c :: t, q) | None => None end) = Some (t, q ++ x)).
  { intros c r t0 q0 E0. destruct (scan f r) as [[t1 q1]|] eqn:S; [|discriminate]. injection E0 as <- <-. now rewrite (IH _ _ _ S x f' L'). }
  destruct s as [|c r]; [discriminate|]. cbn [scan app] in *.
  destruct (c =? 34); [now injection E as <- <-|]. destruct (c <? 32); [discriminate|]. destruct (negb (c =? 92)); [now apply M|].
  destruct r as [|e r]; [discriminate|]. cbn [app]. destruct (negb (e =? 117)); [destruct (unescape e); [now apply M|discriminate]|].
  destruct (u_decode r) as [[u r']|] eqn:U; [|discriminate]. rewrite (u_decode_more _ _ _ x U). destruct ((55296 <=? u) && (u <=? 56319)); [|now apply M].
  destruct (after [92; 117] r') as [r2|] eqn:A.
  - rewrite (after_more _ _ _ x A). destruct (u_decode r2) as [[u2 r3]|] eqn:U2; [|discriminate]. rewrite (u_decode_more _ _ _ x U2). destruct ((56320 <=? u2) && (u2 <=? 57343)); now apply M.
  - assert (A' : after [92; 117] (r' ++ x) = None).
    { destruct r' as [|a r']; [rewrite scan_nil in E; discriminate|]. cbn [after app] in *. destruct (92 =? a) eqn:Ea; [|reflexivity]. apply Z.eqb_eq in Ea as <-. destruct r' as [|b r']; [rewrite scan_backslash in E; discriminate|]. cbn [app] in *. destruct (117 =? b); [discriminate|reflexivity]. }
    rewrite A'. now apply M.
Qed.
(** What may follow a value in a list or dict. *)
Definition delimited (q : text) : Prop := exists c r, q = c :: r /\ In c [32; 9; 10; 13; 44; 93; 125].
Lemma digits_more s : forall d c q, digits s = (d, c :: q) -> forall x, digits (s ++ x) = (d, (c :: q) ++ x).
Proof.
  induction s as [|a s IH]; cbn; [discriminate|]. intros d c q E x. destruct (is_digit a); [|injection E as <- <- <-; reflexivity]. destruct (digits s) as [d' q'] eqn:D. injection E as <- ->. now rewrite (IH _ _ _ eq_refl x).
Qed.
Lemma unsigned_more s z c q x : unsigned s = Some (z, c :: q) -> unsigned (s ++ x) = Some (z, (c :: q) ++ x).
Proof.
  destruct s as [|a s]; [discriminate|]. cbn [unsigned app]. destruct (a =? 48); [now intros [= <- ->]|]. destruct (digits (a :: s)) as [d q'] eqn:D. intros E. destruct d as [|d0 d]; [discriminate|]. injection E as <- ->.
  pose proof (digits_more _ _ _ _ D x) as M. change ((a :: s) ++ x) with (a :: s ++ x) in M. now rewrite M.
Qed.
Lemma delimited_float q x : delimited q -> is_float (q ++ x) = false.
Proof.
  intros (c & r & -> & I). cbn [app]. assert (H : (c =? 46) = false /\ (c =? 101) = false /\ (c =? 69) = false) by (cbn in I; repeat (destruct I as [<-|I]; [repeat split|]); destruct I).
  unfold is_float. destruct H as (-> & -> & ->). destruct (r ++ x); reflexivity.
Qed.
Lemma number_more s v q x : number s = Some (v, q) -> delimited q -> number (s ++ x) = Some (v, q ++ x).
Proof.
  intros E D. pose proof (delimited_float q x D) as F. unfold number in *. destruct D as (c & r & -> & _).
  destruct s as [|a s]; [discriminate|]. cbn [app]. destruct (a =? 45).
  - destruct (unsigned s) as [[z q']|] eqn:U; [|discriminate]. cbn [option_map fst snd] in E. destruct (is_float q') eqn:F'; [discriminate|]. injection E as <- ->. rewrite (unsigned_more _ _ _ _ x U). cbn [option_map fst snd]. now rewrite F.
  - destruct (unsigned (a :: s)) as [[z q']|] eqn:U; [|discriminate]. destruct (is_float q') eqn:F'; [discriminate|]. injection E as <- ->. pose proof (unsigned_more _ _ _ _ x U) as U'. change ((a :: s) ++ x) with (a :: s ++ x) in U'. now rewrite U', F.
Qed.
Definition is_number (v : value) : Prop := match v with VNum _ => True | _ => False end.
Lemma number_is s v q : number s = Some (v, q) -> is_number v.
Proof. unfold number. destruct (match s with [] => None | c :: r => _ end) as [[z q']|]; [|discriminate]. destruct (is_float q'); [discriminate|]. now intros [= <- _]. Qed.
Lemma number_letter c r : c <> 45 -> is_digit c = false -> number (c :: r) = None.
Proof.
  intros H D. unfold number. destruct (c =? 45) eqn:E; [apply Z.eqb_eq in E; congruence|]. unfold unsigned. destruct (c =? 48) eqn:E0; [apply Z.eqb_eq in E0; subst; discriminate|]. cbn [digits]. now rewrite D.
Qed.
Lemma skip_delimited q : skip q <> [] -> (forall c r, skip q = c :: r -> In c [44; 93; 125]) -> delimited q.
Proof.
  destruct q as [|c q]; [cbn; congruence|]. intros _ H. exists c, q. split; [reflexivity|]. cbn [skip] in H.
  destruct (c =? 32) eqn:E1; [apply Z.eqb_eq in E1 as ->; cbn; auto|]. destruct (c =? 9) eqn:E2; [apply Z.eqb_eq in E2 as ->; cbn; auto|].
  destruct (c =? 10) eqn:E3; [apply Z.eqb_eq in E3 as ->; cbn; auto|]. destruct (c =? 13) eqn:E4; [apply Z.eqb_eq in E4 as ->; cbn; auto 6|].
  cbn [orb] in H. specialize (H c q eq_refl). cbn in *. tauto.
Qed.
Lemma after_head a s q : after [a] s = Some q -> s = a :: q.
Proof. destruct s as [|b s]; [discriminate|]. cbn. destruct (a =? b) eqn:E; [|discriminate]. apply Z.eqb_eq in E as <-. now intros [= <-]. Qed.
Lemma parse_nil f : parse f [] = None. Proof. destruct f; reflexivity. Qed.
Lemma elements_nil f : elements f [] = None. Proof. destruct f; [reflexivity|]. cbn. now rewrite parse_nil. Qed.
Lemma members_nil f : members f [] = None. Proof. destruct f; reflexivity. Qed.
Lemma more f :
  (forall s v q, parse f s = Some (v, q) -> ~ is_number v \/ delimited q -> forall x f', (f <= f')%nat -> parse f' (s ++ x) = Some (v, q ++ x)) /\
  (forall s l q, elements f s = Some (l, q) -> forall x f', (f <= f')%nat -> elements f' (s ++ x) = Some (l, q ++ x)) /\
  (forall s l q, members f s = Some (l, q) -> forall x f', (f <= f')%nat -> members f' (s ++ x) = Some (l, q ++ x)).
Proof.
  induction f as [|f (IP & IE & IM)]; [repeat split; discriminate|]. split; [|split].
  - intros s v q E H x f' L. destruct f' as [|f']; [lia|]. assert (L' : (f <= f')%nat) by lia. destruct s as [|c r]; [discriminate|]. cbn [parse app] in *.
    destruct (c =? 34). { destruct (scan (length r) r) as [[t q']|] eqn:S; [|discriminate]. injection E as <- <-. rewrite (scan_more _ _ _ _ S x (length (r ++ x))); [reflexivity|]. rewrite app_length. lia. }
    destruct (c =? 123).
    { assert (N : skip r <> []) by (intros N; rewrite N in E; cbn [after] in E; rewrite members_nil in E; discriminate). rewrite skip_more by exact N. rewrite after_one by exact N. destruct (after [125] (skip r)) as [q'|] eqn:A; cbn [option_map]; [now injection E as <- <-|].
      destruct (members f (skip r)) as [[l q']|] eqn:M; [|discriminate]. injection E as <- <-. now rewrite (IM _ _ _ M x f' L'). }
    destruct (c =? 91).
    { assert (N : skip r <> []) by (intros N; rewrite N in E; cbn [after] in E; rewrite elements_nil in E; discriminate). rewrite skip_more by exact N. rewrite after_one by exact N. destruct (after [93] (skip r)) as [q'|] eqn:A; cbn [option_map]; [now injection E as <- <-|].
      destruct (elements f (skip r)) as [[l q']|] eqn:M; [|discriminate]. injection E as <- <-. now rewrite (IE _ _ _ M x f' L'). }
    assert (W : forall p d s, (d =? c) = false -> after (d :: p) (c :: s) = None) by (intros p d s D; cbn [after]; now rewrite D).
    destruct (110 =? c) eqn:C1; [apply Z.eqb_eq in C1 as <-|].
    { destruct (after (lit "null") (110 :: r)) as [q'|] eqn:A.
      - injection E as <- <-. pose proof (after_more _ _ _ x A) as A'. cbn [app] in A'. now rewrite A'.
      - change (lit "true") with (116 :: lit "rue") in E. change (lit "false") with (102 :: lit "alse") in E. rewrite !W in E by reflexivity. rewrite number_letter in E; [discriminate|lia|reflexivity]. }
    change (lit "null") with (110 :: lit "ull") in *. rewrite W in E |- * by exact C1.
    destruct (116 =? c) eqn:C2; [apply Z.eqb_eq in C2 as <-|].
    { destruct (after (lit "true") (116 :: r)) as [q'|] eqn:A.
      - injection E as <- <-. pose proof (after_more _ _ _ x A) as A'. cbn [app] in A'. now rewrite A'.
      - change (lit "false") with (102 :: lit "alse") in E. rewrite !W in E by reflexivity. rewrite number_letter in E; [discriminate|lia|reflexivity]. }
    change (lit "true") with (116 :: lit "rue") in *. rewrite W in E |- * by exact C2.
    destruct (102 =? c) eqn:C3; [apply Z.eqb_eq in C3 as <-|].
    { destruct (after (lit "false") (102 :: r)) as [q'|] eqn:A.
      - injection E as <- <-. pose proof (after_more _ _ _ x A) as A'. cbn [app] in A'. now rewrite A'.
      - rewrite number_letter in E; [discriminate|lia|reflexivity]. }
    change (lit "false") with (102 :: lit "alse") in *. rewrite W in E |- * by exact C3.
    destruct H as [H|H]; [destruct (H (number_is _ _ _ E))|]. exact (number_more _ _ _ x E H).
  - intros s l q E x f' L. destruct f' as [|f']; [lia|]. assert (L' : (f <= f')%nat) by lia. cbn [elements] in *. destruct (parse f s) as [[v q1]|] eqn:P; [|discriminate].
    assert (N : skip q1 <> []) by (intros N; rewrite N in E; discriminate).
    assert (D : delimited q1). { apply skip_delimited; [exact N|]. intros c r Es. rewrite Es in E. destruct (after [93] (c :: r)) as [q'|] eqn:A; [apply after_head in A as [= -> _]; cbn; auto|]. destruct (after [44] (c :: r)) as [q'|] eqn:A'; [apply after_head in A' as [= -> _]; cbn; auto|discriminate]. }
    rewrite (IP _ _ _ P (or_intror D) x f' L'). rewrite skip_more by exact N. rewrite !after_one by exact N. destruct (after [93] (skip q1)) as [q2|] eqn:A1; cbn [option_map]; [now injection E as <- <-|].
    destruct (after [44] (skip q1)) as [q2|] eqn:A2; cbn [option_map]; [|discriminate]. destruct (elements f (skip q2)) as [[l' q3]|] eqn:El; [|discriminate]. injection E as <- <-.
    assert (N2 : skip q2 <> []) by (intros N2; rewrite N2, elements_nil in El; discriminate). rewrite skip_more by exact N2. now rewrite (IE _ _ _ El x f' L').
  - intros s l q E x f' L. destruct f' as [|f']; [lia|]. assert (L' : (f <= f')%nat) by lia. cbn [members] in *. destruct (after [34] s) as [r|] eqn:A; [|discriminate]. rewrite (after_more _ _ _ x A).
    destruct (scan (length r) r) as [[t q0]|] eqn:S; [|discriminate]. rewrite (scan_more _ _ _ _ S x (length (r ++ x))) by (rewrite app_length; lia).
    assert (N0 : skip q0 <> []) by (intros N; rewrite N in E; discriminate). rewrite skip_more by exact N0. rewrite after_one by exact N0. destruct (after [58] (skip q0)) as [q00|]; cbn [option_map]; [|discriminate].
    assert (N00 : skip q00 <> []) by (intros N; rewrite N, parse_nil in E; discriminate). rewrite skip_more by exact N00. destruct (parse f (skip q00)) as [[v q1]|] eqn:P; [|discriminate].
    assert (N : skip q1 <> []) by (intros N; rewrite N in E; discriminate).
    assert (D : delimited q1). { apply skip_delimited; [exact N|]. intros c r' Es. rewrite Es in E. destruct (after [125] (c :: r')) as [q'|] eqn:A1; [apply after_head in A1 as [= -> _]; cbn; auto|]. destruct (after [44] (c :: r')) as [q'|] eqn:A2; [apply after_head in A2 as [= -> _]; cbn; auto|discriminate]. }
    rewrite (IP _ _ _ P (or_intror D) x f' L'). rewrite skip_more by exact N. rewrite !after_one by exact N. destruct (after [125] (skip q1)) as [q2|] eqn:A1; cbn [option_map]; [now injection E as <- <-|].
    destruct (after [44] (skip q1)) as [q2|] eqn:A2; cbn [option_map]; [|discriminate]. destruct (members f (skip q2)) as [[l' q3]|] eqn:El; [|discriminate]. injection E as <- <-.
    assert (N2 : skip q2 <> []) by (intros N2; rewrite N2, members_nil in El; discriminate). rewrite skip_more by exact N2. now rewrite (IM _ _ _ El x f' L').
Qed.
(** Reading a file that goes on. *)
Lemma from_file_end c r : c <> 10 -> c <> 13 -> exists r', from_file (r ++ [c]) = r' ++ [c].
Proof.
  intros H1 H2. remember (length r) as n eqn:L. revert r L. induction n as [n IH] using lt_wf_ind. intros r ->. destruct r as [|a r]; cbn [app from_file].
  - exists []. destruct (c =? 13) eqn:E; [apply Z.eqb_eq in E; congruence|reflexivity].
  - destruct (a =? 13).
    + destruct r as [|d r]; cbn [app].
      * destruct (c =? 10) eqn:E; [apply Z.eqb_eq in E; congruence|]. exists [10]. cbn. destruct (c =? 13) eqn:E'; [apply Z.eqb_eq in E'; congruence|reflexivity].
      * destruct (d =? 10).
        -- destruct (IH (length r) ltac:(cbn; lia) r eq_refl) as [r' Er]. exists (10 :: r'). now rewrite Er.
        -- destruct (IH (length (d :: r)) ltac:(cbn; lia) (d :: r) eq_refl) as [r' Er]. exists (10 :: r'). cbn [app] in Er |- *. now rewrite Er.
    + destruct (IH (length r) ltac:(cbn; lia) r eq_refl) as [r' Er]. exists (a :: r'). now rewrite Er.
Qed.
Lemma from_file_more p r c : c <> 10 -> c <> 13 -> exists x, from_file (p ++ r ++ [c]) = from_file p ++ x ++ [c].
Proof.
  intros H1 H2. remember (length p) as n eqn:L. revert p L. induction n as [n IH] using lt_wf_ind. intros p ->. destruct p as [|a p].
  - cbn [app from_file]. destruct (from_file_end c r H1 H2) as [x E]. exists x. exact E.
  - cbn [app from_file]. destruct (a =? 13).
    + destruct p as [|d p]; cbn [app].
      * destruct r as [|b r]; cbn [app].
        -- destruct (c =? 10) eqn:E; [apply Z.eqb_eq in E; congruence|]. exists []. cbn. destruct (c =? 13) eqn:E'; [apply Z.eqb_eq in E'; congruence|reflexivity].
        -- destruct (b =? 10); [destruct (from_file_end c r H1 H2) as [x E]|destruct (from_file_end c (b :: r) H1 H2) as [x E]]; exists x; cbn [app] in *; now rewrite E.
      * destruct (d =? 10).
        -- destruct (IH (length p) ltac:(cbn; lia) p eq_refl) as [x E]. exists x. now rewrite E.
        -- destruct (IH (length (d :: p)) ltac:(cbn; lia) (d :: p) eq_refl) as [x E]. exists x. cbn [app] in E |- *. now rewrite E.
    + destruct (IH (length p) ltac:(cbn; lia) p eq_refl) as [x E]. exists x. now rewrite E.
Qed.
Lemma skip_space s : skip s = [] -> forall x, skip (s ++ x) = skip x.
Proof. induction s as [|c s IH]; cbn [skip app]; [reflexivity|]. destruct ((c =? 32) || (c =? 9) || (c =? 10) || (c =? 13)); [apply IH|discriminate]. Qed.
Lemma skip_end r c : space c = false -> skip (r ++ [c]) <> [].
Proof. unfold space. intros H. induction r as [|a r IH]; cbn [skip app]; [rewrite H; discriminate|]. destruct ((a =? 32) || (a =? 9) || (a =? 10) || (a =? 13)); [exact IH|discriminate]. Qed.
(** A text whose beginning is a value other than a number is no value if more than blanks follow. *)
Lemma loads_more s v r c : loads s = Some v -> ~ is_number v -> space c = false -> loads (s ++ r ++ [c]) = None.
Proof.
  unfold loads. intros E N Sc. destruct (parse (S (length s)) (skip s)) as [[w q]|] eqn:P; [|discriminate]. destruct (skip q) eqn:Q; [|discriminate]. injection E as ->.
  assert (Ns : skip s <> []) by (intros Z; rewrite Z, parse_nil in P; discriminate). rewrite skip_more by exact Ns.
  destruct (more (S (length s))) as [M _]. rewrite (M _ _ _ P (or_introl N) (r ++ [c]) (S (length (s ++ r ++ [c])))) by (rewrite app_length; lia).
  rewrite (skip_space q Q). pose proof (skip_end r c Sc) as F. destruct (skip (r ++ [c])); [congruence|reflexivity].
Qed.

(** Properties of the string catalog: C43-C47, C60-C64. *)
From Coq Require Import String Ascii Bool Arith List NArith ZArith Lia Permutation Sorted.
From Coq Require Import ZifyNat ZifyBool.
From Verif Require Import CatalogModel CatalogSpec CatalogProofs CatalogProofs2 CatalogProofs3 CatalogProofs4.
Import ListNotations.
Local Open Scope Z_scope.

(** ** C43: ids are unique and stable *)
Theorem C43_stable bs b bs' b' s i j : good_history (bs ++ b :: bs' ++ [b']) ->
  holds (assigned bs b) s i -> holds (assigned (bs ++ b :: bs') b') s j -> i = j.
Proof.
  intros H Hi Hj. assert (G1 : good_history (bs ++ [b])).
  { apply (good_prefix _ (bs' ++ [b'])). rewrite <- app_assoc. exact H. }
  destruct (G1 bs b [] eq_refl) as (K1 & K2 & K3).
  assert (Hi' : holds (after (bs ++ [b])) s i) by (rewrite after_app; apply step_ms, Hi).
  assert (G2 : good_history ((bs ++ b :: bs') ++ [b'])) by (rewrite <- app_assoc; exact H).
  assert (Hi2 : holds (after ((bs ++ b :: bs') ++ [b'])) s i).
  { replace ((bs ++ b :: bs') ++ [b'])%list with ((bs ++ [b]) ++ (bs' ++ [b']))%list in * by (rewrite <- !app_assoc; reflexivity). apply history_keeps; auto. }
  assert (Hj' : holds (after ((bs ++ b :: bs') ++ [b'])) s j) by (rewrite (after_app (bs ++ b :: bs')); apply step_ms, Hj).
  apply (proj1 (history_one _ G2) s); auto.
Qed.
Print Assumptions C43_stable.
Theorem C43_distinct bs b bs' b' s t i : good_history (bs ++ b :: bs' ++ [b']) ->
  holds (assigned bs b) s i -> holds (assigned (bs ++ b :: bs') b') t i -> s = t.
Proof.
  intros H Hi Hj. assert (Hi' : holds (after (bs ++ [b])) s i) by (rewrite after_app; apply step_ms, Hi).
  assert (G2 : good_history ((bs ++ b :: bs') ++ [b'])) by (rewrite <- app_assoc; exact H).
  assert (Hi2 : holds (after ((bs ++ b :: bs') ++ [b'])) s i).
  { replace ((bs ++ b :: bs') ++ [b'])%list with ((bs ++ [b]) ++ (bs' ++ [b']))%list in * by (rewrite <- !app_assoc; reflexivity). apply history_keeps; auto. }
  assert (Hj' : holds (after ((bs ++ b :: bs') ++ [b'])) t i) by (rewrite (after_app (bs ++ b :: bs')); apply step_ms, Hj).
  apply (proj2 (history_one _ G2) s t i); auto.
Qed.
Print Assumptions C43_distinct.
(** Within one build: every message of the input has exactly one id, shared with none. *)
Theorem C43_build bs b : good_history (bs ++ [b]) ->
  one_to_one (assigned bs b) /\ forall s, In s (map sid (b_items b)) <-> exists i, holds (assigned bs b) s i.
Proof.
  intros H. destruct (H bs b [] eq_refl) as (K1 & K2 & K3). pose proof (history_one _ H) as [O1 O2]. rewrite after_app in O1, O2.
  assert (M : forall s i, holds (assigned bs b) s i -> holds (snd (step (after bs) b)) s i) by (intros s i; apply step_ms). split.
  - split; [intros s i j A B; apply (O1 s); auto|intros s t i A B; apply (O2 s t i); auto].
  - intros s. rewrite <- (ms_sids (b_key b) (b_reserved b) (after bs) (b_items b) K2). unfold assigned, step. rewrite run_is. cbn [fst].
    rewrite in_map_iff. split; [intros (m & <- & Hm); exists (m_id m), m; auto|intros (i & m & Hm & <- & _); exists m; auto].
Qed.
Print Assumptions C43_build.
(** An id given to a message for the first time is not reserved and was never used
    before, and no smaller number was left over. *)
Theorem C43_new bs b s i : good_history (bs ++ [b]) -> holds (assigned bs b) s i ->
  ~ pinned_in (b_items b) s -> (forall pre b0 post j, bs = (pre ++ b0 :: post)%list -> ~ holds (assigned pre b0) s j) ->
  (forall pre b0 post, bs = (pre ++ b0 :: post)%list -> ~ pinned_in (b_items b0) s) ->
  0 <= i /\ (forall lo hi, In (lo, hi) (b_reserved b) -> ~ lo <= i <= hi) /\
  (forall j, 0 <= j < i -> (exists lo hi, In (lo, hi) (b_reserved b) /\ lo <= j <= hi) \/ exists t, holds (after (bs ++ [b])) t j) /\
  forall pre b0 post t, bs = (pre ++ b0 :: post)%list -> ~ holds (assigned pre b0) t i.
Proof.
  intros H Hi Hp Hnew Hpn. destruct (H bs b [] eq_refl) as (K1 & K2 & K3). assert (Gp := good_prefix _ _ H). pose proof (history_one bs Gp) as Ho.
  assert (Hafter : forall j, ~ holds (after bs) s j).
  { clear - Hnew Hpn Gp. induction bs as [|b0 bs IH] using rev_ind; intros j Hj.
    - destruct Hj as (m & [] & _).
    - rewrite after_app in Hj. destruct (Gp bs b0 [] eq_refl) as (K1 & K2 & K3). unfold step in Hj. rewrite run_is in Hj. cbn [snd] in Hj. apply out_holds in Hj as [Hj|Hj].
      + apply (Hnew bs b0 [] j eq_refl). exact Hj.
      + apply d_holds in Hj as [Hj|(m & Hm & Hid & Hs & _)].
        * revert Hj. apply IH.
          -- intros pre b1 post k -> . apply (Hnew pre b1 (post ++ [b0])%list). rewrite <- app_assoc. reflexivity.
          -- intros pre b1 post -> . apply (Hpn pre b1 (post ++ [b0])%list). rewrite <- app_assoc. reflexivity.
          -- apply (good_prefix _ _ Gp).
        * apply (Hpn bs b0 [] eq_refl). exists m. auto. }
  destruct (step_fresh (b_key b) (b_reserved b) (after bs) (b_items b) K1 K2 Ho K3 s i Hi Hafter Hp) as (F1 & F2 & F3 & _).
  split; auto. split; [|split].
  { intros lo hi Hr Hl. assert (contains (b_reserved b) i = true); [|congruence]. apply existsb_exists. exists (lo, hi). split; auto. cbn [fst snd]. lia. }
  { intros j Hj. destruct Hi as (x & Hx & <- & <-). rewrite after_app. destruct (step_dense (b_key b) (b_reserved b) (after bs) (b_items b) K1 K2 x j Hx Hafter Hp Hj) as [C|C]; auto.
    left. apply existsb_exists in C as ([lo hi] & Hr & C). exists lo, hi. split; auto. cbn [fst snd] in C. lia. }
  intros pre b0 post t E Ht. apply (F3 t). subst bs.
  replace (pre ++ b0 :: post)%list with ((pre ++ [b0]) ++ post)%list in * by (rewrite <- app_assoc; reflexivity). apply history_keeps; auto.
  rewrite after_app. apply step_ms, Ht.
Qed.
Print Assumptions C43_new.
(** The messages of a build are in the order of their texts, those of one text in
    the order in which they were met, and new ids grow in that order. *)
Theorem C43_order bs b : good_history (bs ++ [b]) ->
  Sorted (fun s t => String.leb (fst s) (fst t) = true) (map sid (assigned bs b)) /\
  (forall t, filter (fun s => String.eqb (fst s) t) (map sid (assigned bs b)) = filter (fun s => String.eqb (fst s) t) (map sid (unique (b_key b) (b_items b)))) /\
  (forall l1 x l2 y l3, assigned bs b = (l1 ++ x :: l2 ++ y :: l3)%list ->
     (forall i, ~ holds (after bs) (sid x) i /\ ~ holds (after bs) (sid y) i) -> ~ pinned_in (b_items b) (sid x) -> ~ pinned_in (b_items b) (sid y) -> m_id x < m_id y).
Proof.
  intros H. destruct (H bs b [] eq_refl) as (K1 & K2 & K3).
  assert (E : map sid (assigned bs b) = map sid (sorted (unique (b_key b) (b_items b)))) by (unfold assigned, step; rewrite run_is; apply loop_sids).
  assert (F : forall t l, filter (fun s => String.eqb (fst s) t) (map sid l) = map sid (filter (fun m => String.eqb (m_text m) t) l)).
  { intros t l. induction l as [|m l IH]; cbn [map filter]; auto. rewrite IH. cbn [sid fst]. destruct (String.eqb _ _); reflexivity. }
  split; [|split].
  - rewrite E. generalize (sorted_sorted (unique (b_key b) (b_items b))). generalize (sorted (unique (b_key b) (b_items b))). intros l. clear.
    induction 1 as [|m l Hs IH Hh]; cbn [map]; constructor; auto. destruct Hh; constructor. auto.
  - intros t. rewrite E, !F, sorted_stable. reflexivity.
  - intros l1 x l2 y l3 El Hn Px Py. unfold assigned, step in El. rewrite run_is in El. cbn [fst] in El. pose proof El as El'. apply loop_grows in El; auto.
    + apply (new_get (b_key b) (b_reserved b) (after bs) (b_items b) K1 K2); auto; [rewrite El'; apply in_app_iff; right; left; auto|]. intros j. apply Hn.
    + apply (new_get (b_key b) (b_reserved b) (after bs) (b_items b) K1 K2); auto; [rewrite El'; apply in_app_iff; right; right; apply in_app_iff; right; left; auto|]. intros j. apply Hn.
Qed.
Print Assumptions C43_order.

(** A hash that tells texts apart, for examples. *)
Fixpoint num (s : string) : Z := match s with EmptyString => 0 | String a r => Z.of_nat (nat_of_ascii a) + 1 + 257 * num r end.
Definition mk (t : string) (a : list string) (i : Z) : entry := {| m_text := t; m_args := a; m_id := i; m_extra := 0 |}.
Definition hello := mk "hello" [] (-1).
Definition number := mk "x {}" ["encode_32<int>"%string] (-1).
Definition number_u := mk "x {}" ["encode_u32<unsigned int>"%string] (-1).
Definition newer := mk "a new one" [] (-1).
Definition fixed := mk "fixed" [] 7.
Definition b1 := {| b_key := msg_key num; b_reserved := [(1, 2)]; b_items := [number; hello; number; fixed] |}.
Definition b2 := {| b_key := msg_key (fun s => num s * 3 + 1); b_reserved := [(1, 5)]; b_items := [newer; hello; number_u] |}.
Lemma key_respects h : respects (msg_key h).
Proof. intros a b [= E1 E2]. unfold msg_key. rewrite E1, E2. reflexivity. Qed.
Ltac all_cases := repeat match goal with H : _ \/ _ |- _ => destruct H end; subst; try contradiction.
Example C43_case : good_history [b1; b2] /\
  map (fun m => (sid m, m_id m)) (assigned [] b1) = [(sid fixed, 7); (sid hello, 0); (sid number, 3)] /\
  map (fun m => (sid m, m_id m)) (assigned [b1] b2) = [(sid newer, 6); (sid hello, 0); (sid number_u, 8)].
Proof.
  split; [|split; vm_compute; reflexivity]. intros pre b post E.
  destruct pre as [|p1 [|p2 pre]]; cbn in E; [injection E as <- <-|injection E as <- <- <-|injection E as ? ? E; destruct pre; discriminate].
  - split; [apply key_respects|]. split.
    + intros x y Hx Hy. cbn in Hx, Hy. all_cases; vm_compute; intros; congruence.
    + intros m Hm Hi. cbn in Hm. all_cases; try (vm_compute in Hi; congruence). split.
      * intros s i (x & [] & _).
      * intros m' Hm Hi'. cbn in Hm. all_cases; vm_compute in Hi' |- *; try congruence; tauto.
  - split; [apply key_respects|]. split.
    + intros x y Hx Hy. assert (A : after [b1] = [with_id fixed 7; with_id hello 0; with_id number 3]) by (vm_compute; reflexivity).
      rewrite A in Hx, Hy. cbn in Hx, Hy. all_cases; vm_compute; intros; congruence.
    + intros m Hm Hi. cbn in Hm. all_cases; vm_compute in Hi; congruence.
Qed.
(** The provisos matter: when an explicit id is changed, the old id can go to
    another message, and explicit ids can clash with ids already given. *)
Example C43_repin : let r1 := step [] {| b_key := msg_key num; b_reserved := []; b_items := [hello] |} in
  let r2 := step (snd r1) {| b_key := msg_key num; b_reserved := []; b_items := [mk "hello" [] 5; newer] |} in
  holds (fst r1) (sid hello) 0 /\ holds (fst r2) (sid newer) 0.
Proof. split; [exists (with_id hello 0)|exists (with_id newer 0)]; repeat split; vm_compute; auto. Qed.
Example C43_clash : let r1 := step [] {| b_key := msg_key num; b_reserved := []; b_items := [hello] |} in
  let r2 := step (snd r1) {| b_key := msg_key num; b_reserved := []; b_items := [hello; mk "other" [] 0] |} in
  holds (fst r2) (sid hello) 0 /\ holds (fst r2) (sid (mk "other" [] 0)) 0.
Proof. split; [exists (with_id hello 0)|exists (mk "other" [] 0)]; repeat split; vm_compute; auto. Qed.

(** ** C44: distinct messages are never confused *)
Definition confused (key : entry -> Z) (a b : entry) : Prop :=
  sid a <> sid b /\ key a = key b /\ exists e, unique key [a; b] = [e].
Lemma confused_key key a b : sid a <> sid b -> key a = key b -> confused key a b.
Proof. intros H E. split; auto. split; auto. exists b. unfold unique, of_items, values. cbn. rewrite E, Z.eqb_refl. reflexivity. Qed.
(** For every hash whose values fit some number of bits there are messages, one
    of which is lost. *)
Fixpoint xs (n : nat) : string := match n with O => "x"%string | S m => String "x" (xs m) end.
Lemma xs_inj n : forall m, xs n = xs m -> n = m.
Proof. induction n as [|n IH]; destruct m as [|m]; cbn; auto; intros [= E]; try (destruct m; discriminate); try (destruct n; discriminate). f_equal. apply IH, E. Qed.
Lemma dup_or_nodup (f : nat -> Z) l : NoDup l -> NoDup (map f l) \/ exists i j, i <> j /\ f i = f j.
Proof.
  induction 1 as [|x l Hx Hl IH]; [left; constructor|]. destruct IH as [IH|IH]; auto.
  destruct (in_dec Z.eq_dec (f x) (map f l)) as [D|D]; [right|left; constructor; auto].
  apply in_map_iff in D as (y & E & Hy). exists x, y. split; [congruence|auto].
Qed.
Lemma pigeonhole (f : nat -> Z) B : (forall n, - B <= f n <= B) -> exists i j, i <> j /\ f i = f j.
Proof.
  intros H. set (N := Z.to_nat (2 * B + 2)). destruct (dup_or_nodup f (seq 0 N) (seq_NoDup N 0)) as [D|D]; auto. exfalso.
  assert (L : (length (map f (seq 0 N)) <= length (map (fun k => (Z.of_nat k - B)%Z) (seq 0 (Z.to_nat (2 * B + 1)))))%nat).
  { apply NoDup_incl_length; auto. intros y Hy. apply in_map_iff in Hy as (n & <- & _). specialize (H n). apply in_map_iff.
    exists (Z.to_nat (f n + B)). split; [lia|]. apply in_seq. lia. }
  rewrite !map_length, !seq_length in L. specialize (H O). unfold N in L. lia.
Qed.
Theorem C44_refuted hash B : (forall s, - B <= hash s <= B) -> exists a b, m_args a = [] /\ m_args b = [] /\ confused (msg_key hash) a b.
Proof.
  intros H. destruct (pigeonhole (fun n => hash (xs n)) B (fun n => H (xs n))) as (i & j & Hne & E).
  exists (mk (xs i) [] (-1)), (mk (xs j) [] (-1)). split; auto. split; auto. apply confused_key.
  - intros [= X]. apply Hne, xs_inj, X.
  - unfold msg_key. cbn [m_text m_args mk]. rewrite E. reflexivity.
Qed.
Print Assumptions C44_refuted.
(** For every hash at all, text and arguments can change places. *)
Theorem C44_swap_refuted hash : exists a b, confused (msg_key hash) a b.
Proof.
  exists (mk "encode_32<int>" ["encode_32<bool>"%string] (-1)), (mk "encode_32<bool>" ["encode_32<int>"%string] (-1)).
  apply confused_key; [discriminate|]. unfold msg_key, mk, m_text, m_args, join, fold_right. apply Z.lxor_comm.
Qed.
Print Assumptions C44_swap_refuted.
(** Messages with the same text, or with the same arguments, are told apart by a
    hash without collisions on the strings concerned. *)
Theorem C44_partial hash a b : Forall encoded (m_args a) -> Forall encoded (m_args b) -> sid a <> sid b ->
  m_text a = m_text b \/ m_args a = m_args b ->
  (hash (m_text a) = hash (m_text b) -> m_text a = m_text b) ->
  (hash (join (m_args a)) = hash (join (m_args b)) -> join (m_args a) = join (m_args b)) ->
  msg_key hash a <> msg_key hash b /\ forall m, In m [a; b] -> In m (unique (msg_key hash) [a; b]).
Proof.
  intros Ha Hb Hne Hs H1 H2. assert (C : forall x y z, Z.lxor x y = Z.lxor x z -> y = z).
  { intros x y z E. apply (f_equal (Z.lxor x)) in E. rewrite <- !Z.lxor_assoc, !Z.lxor_nilpotent, !Z.lxor_0_l in E. exact E. }
  assert (K : msg_key hash a <> msg_key hash b).
  { unfold msg_key. intros E. apply Hne. unfold sid. destruct Hs as [Hs|Hs].
    - rewrite Hs in *. f_equal. apply C in E. apply join_inj; auto.
    - rewrite Hs in *. f_equal. apply H1. rewrite !(Z.lxor_comm _ (hash (join _))) in E. apply C in E. exact E. }
  split; auto. intros m Hm. unfold unique, of_items, values. cbn [fold_left dict_set]. destruct (Z.eqb_spec (msg_key hash a) (msg_key hash b)); [contradiction|].
  cbn [dict_set map snd]. exact Hm.
Qed.
Print Assumptions C44_partial.

(** Exactly when no message of a listing is lost, for any key that messages alike
    have in common; and which one of those with a common key stays: the last. *)
Theorem C44_exact key items : respects key ->
  (forall m, In m items -> exists e, In e (unique key items) /\ sid e = sid m) <-> (forall a b, In a items -> In b items -> key a = key b -> sid a = sid b).
Proof.
  intros R. destruct (unique_spec key items) as (U1 & U2 & U3). split.
  - intros H a b Ha Hb E. destruct (H a Ha) as (x & Hx & Sx), (H b Hb) as (y & Hy & Sy). rewrite <- Sx, <- Sy. f_equal.
    assert (K : key x = key y) by (rewrite (R x a Sx), (R y b Sy); exact E). clear - U1 Hx Hy K.
    induction (unique key items) as [|z l IH]; [contradiction|]. cbn [map] in U1. inversion_clear U1 as [|? ? N1 N2].
    destruct Hx as [->|Hx], Hy as [->|Hy]; auto; exfalso; apply N1; [rewrite K|rewrite <- K]; apply in_map; auto.
  - intros H m Hm. destruct (U3 m Hm) as (x & Hx & E). exists x. split; auto.
Qed.
Print Assumptions C44_exact.
Theorem C44_which key items m : In m (unique key items) <-> exists pre post, items = (pre ++ m :: post)%list /\ forall x, In x post -> key x <> key m.
Proof.
  assert (S : forall (d : list (Z * entry)) k e p, NoDup (map fst d) -> In p (dict_set k e d) <-> p = (k, e) \/ In p d /\ fst p <> k).
  { clear. intros d k e p. induction d as [|[k' e'] d IH]; intros N.
    - cbn. split; [intros [<-|[]]; auto|intros [->|[[] _]]; auto].
    - cbn [dict_set map] in *. inversion_clear N as [|? ? N1 N2]. destruct (Z.eqb_spec k' k) as [->|D]; cbn [In].
      + split; [intros [<-|H]; [left; auto|right; split; auto; intros F; apply N1; rewrite <- F; apply in_map, H]|]. intros [->|[[<-|H] F]]; auto. exfalso. apply F. reflexivity.
      + rewrite IH by auto. split; [intros [<-|[H|[H F]]]; auto|]. intros [H|[[H|H] F]]; auto. }
  assert (N : forall (d : list (Z * entry)) k e, NoDup (map fst d) -> NoDup (map fst (dict_set k e d))).
  { clear. intros d k e. induction d as [|[k' e'] d IH]; intros N; cbn [dict_set map]; [constructor; [auto|constructor]|]. inversion_clear N as [|? ? N1 N2].
    destruct (Z.eqb_spec k' k) as [->|D]; cbn [map fst]; constructor; auto. intros H. apply N1. clear - H D. induction d as [|[k2 e2] d IH]; cbn in *.
    - destruct H as [H|[]]. congruence.
    - destruct (Z.eqb_spec k2 k) as [->|]; cbn in *; tauto. }
  assert (G : forall l d, NoDup (map fst d) -> (forall k e, In (k, e) d -> key e = k) ->
    (forall x, In x (values (fold_left (fun d m => dict_set (key m) m d) l d)) <->
       (exists pre post, l = (pre ++ x :: post)%list /\ forall y, In y post -> key y <> key x) \/ In x (values d) /\ forall y, In y l -> key y <> key x)).
  { induction l as [|a l IH]; intros d Nd Kd x; cbn [fold_left].
    - split; [intros H; right; split; auto; intros y []|]. intros [(pre & post & E & _)|[H _]]; auto. destruct pre; discriminate.
    - rewrite IH; [|apply N, Nd|].
      2: { intros k e He. apply S in He as [[= -> ->]|[He _]]; auto. }
      assert (V : In x (values (dict_set (key a) a d)) <-> x = a \/ In x (values d) /\ key x <> key a).
      { unfold values. rewrite !in_map_iff. split.
        - intros ([k e] & E & H). cbn in E. subst e. apply S in H as [[= -> ->]|[H F]]; auto. right. cbn in F. split; [exists (k, x); auto|]. rewrite (Kd k x H). exact F.
        - intros [->|[([k e] & E & H) F]]; [exists (key a, a); split; auto; apply S; auto|]. cbn in E. subst e. exists (k, x). split; auto. apply S; auto. right. split; auto. cbn. rewrite <- (Kd k x H). exact F. }
      rewrite V. split.
      + intros [(pre & post & -> & H)|[[->|[H F]] Hl]]; [left; exists (a :: pre), post; auto|left; exists [], l; auto|right; split; auto].
        intros y [<-|Hy]; auto.
      + intros [(pre & post & E & H)|[H Hl]].
        * destruct pre as [|b pre]; injection E as <- ->; [right; split; auto|left; exists pre, post; auto].
        * right. split; [right; split; auto; intros E; apply (Hl a); [left; auto|congruence]|]. intros y Hy. apply Hl. right. exact Hy. }
  unfold unique, of_items. rewrite G; [|constructor|intros k e []]. split; [intros [H|[[] _]]; exact H|auto].
Qed.
Print Assumptions C44_which.
Example C44_exact_case : unique (fun m => Z.of_nat (String.length (m_text m))) [mk "a" [] (-1); mk "bb" [] (-1); mk "c" [] (-1)] = [mk "c" [] (-1); mk "bb" [] (-1)].
Proof. reflexivity. Qed.
(** Modules are told apart by a hash without collisions on their names. *)
Theorem C44_modules hash items : (forall a b, In a items -> In b items -> hash (m_text a) = hash (m_text b) -> m_text a = m_text b) ->
  NoDup (map m_text (unique (module_key hash) items)) /\ forall t, In t (map m_text items) <-> In t (map m_text (unique (module_key hash) items)).
Proof.
  intros H. destruct (unique_spec (module_key hash) items) as (U1 & U2 & U3). split.
  - clear - U1. induction (unique (module_key hash) items) as [|a l IH]; cbn [map] in *; constructor; inversion_clear U1 as [|? ? N1 N2]; auto.
    intros Hin. apply N1. apply in_map_iff in Hin as (b & E & Hb). apply in_map_iff. exists b. split; auto. unfold module_key. rewrite E. reflexivity.
  - intros t. rewrite !in_map_iff. split; [|intros (x & E & Hx); exists x; auto]. intros (m & <- & Hm). destruct (U3 m Hm) as (x & Hx & E). exists x. split; auto.
Qed.
Print Assumptions C44_modules.
Example C44_modules_case : map m_text (unique (module_key num) [mk "a" [] (-1); mk "b" [] (-1); mk "a" [] (-1)]) = ["a"; "b"]%string.
Proof. reflexivity. Qed.
Example C44_case : Forall encoded (m_args number) /\ Forall encoded (m_args number_u) /\ sid number <> sid number_u /\
  (num (join (m_args number)) = num (join (m_args number_u)) -> False).
Proof.
  assert (I : forall s, all_chars (fun a => negb (Ascii.eqb a "<" || Ascii.eqb a ">")) s = true -> inside s).
  { induction s as [|a s IH]; cbn; [constructor|]. intros H. apply andb_prop in H as [H1 H2]. apply inside_char; auto.
    - intros ->. discriminate.
    - intros ->. discriminate. }
  assert (T : forall tag, all_chars (fun a => negb (Ascii.eqb a "<" || Ascii.eqb a ">")) tag = true -> forall a b c, tag = (a ++ String c b)%string -> c <> "<"%char /\ c <> ">"%char).
  { intros tag H a b c ->. rewrite all_chars_app in H. apply andb_prop in H as [_ H]. cbn in H. apply andb_prop in H as [H _]. split; intros ->; discriminate. }
  split; [|split; [|split]].
  - constructor; auto. exists "encode_32"%string, "int"%string. split; [reflexivity|split; [apply I; reflexivity|apply T; reflexivity]].
  - constructor; auto. exists "encode_u32"%string, "unsigned int"%string. split; [reflexivity|split; [apply I; reflexivity|apply T; reflexivity]].
  - discriminate.
  - vm_compute. discriminate.
Qed.

(** ** C45: several stable catalogs *)
(** The last file that has the list is used, and only that. *)
Theorem C45_exact key forget reserved pre l post items : Forall (fun f => f = None) post ->
  run key forget reserved (pre ++ Some l :: post) items = run key forget reserved [Some l] items.
Proof.
  intros H. unfold run, read_stable. rewrite fold_left_app. cbn [fold_left]. replace (fold_left _ post l) with l; auto.
  induction H as [|f post -> _ IH]; auto.
Qed.
Print Assumptions C45_exact.
Theorem C45_partial key reserved pre l post items s i : Forall (fun f => f = None) post ->
  respects key -> separates key (l ++ items) -> one_to_one l -> pins_ok l items ->
  holds l s i -> let (ms, out) := run key false reserved (pre ++ Some l :: post) items in
  holds out s i /\ forall j, holds ms s j -> j = i.
Proof.
  intros Hpost K1 K2 K3 K4 Hi. rewrite C45_exact by auto. rewrite run_is. split; [apply step_keeps; auto|].
  intros j Hj. apply (proj1 (step_one key reserved l items K1 K2 K3 K4) s); [apply step_ms, Hj|apply step_keeps; auto].
Qed.
Print Assumptions C45_partial.
Example C45_case : let l := [mk "hello" [] 5] in let items := [hello; newer] in
  separates (msg_key num) (l ++ items) /\ one_to_one l /\ pins_ok l items /\ holds l (sid hello) 5 /\
  map m_id (fst (run (msg_key num) false [] [None; Some l; None] items)) = [0; 5].
Proof.
  split; [intros x y Hx Hy; cbn in Hx, Hy; all_cases; vm_compute; intros; congruence|]. split.
  - split; [intros s i j (x & Hx & <- & <-) (y & Hy & _ & <-)|intros s t i (x & Hx & <- & <-) (y & Hy & <- & _)]; cbn in Hx, Hy; all_cases; reflexivity.
  - split; [intros m Hm Hi; cbn in Hm; all_cases; vm_compute in Hi; congruence|]. split; [exists (mk "hello" [] 5); repeat split; left; auto|]. vm_compute. reflexivity.
Qed.
Theorem C45_refuted : exists l1 l2 items s i, holds l1 s i /\ one_to_one (l1 ++ l2) /\
  ~ holds (fst (run (msg_key num) false [] [Some l1; Some l2] items)) s i /\
  ~ holds (snd (run (msg_key num) false [] [Some l1; Some l2] items)) s i.
Proof.
  exists [mk "hello" [] 5], [mk "bye" [] 6], [hello], (sid hello), 5. split; [exists (mk "hello" [] 5); repeat split; left; auto|]. split.
  - split; [intros s i j (x & Hx & <- & <-) (y & Hy & E & <-)|intros s t i (x & Hx & <- & <-) (y & Hy & <- & E)]; cbn in Hx, Hy; all_cases; try reflexivity; vm_compute in E; congruence.
  - split; intros (x & Hx & E & Hi); vm_compute in Hx; all_cases; vm_compute in E, Hi; congruence.
Qed.
Print Assumptions C45_refuted.

(** ** C46: compile-time enumerators *)
(** Every mention is replaced by the name for the first one. *)
Theorem C46_exact names p0 ty v p ms n : good_names names -> no_paren p0 -> Forall plain_mention ((ty, v, p) :: ms) ->
  convert_ct_enums (S n) names (p0 ++ written ((ty, v, p) :: ms)) = Some (p0 ++ named (fun _ _ => lookup_name names ty v) ((ty, v, p) :: ms))%string.
Proof. apply convert_exact. Qed.
Print Assumptions C46_exact.
(** The loop ends on every text. *)
Theorem C46_ends names s : good_names names -> exists turns out, convert_ct_enums turns names s = Some out.
Proof.
  intros Hg. exists (pairs s). pose proof (convert_ends names Hg (pairs s) s (le_n _)) as H. destruct (convert_ct_enums (pairs s) names s) as [out|]; [exists out; auto|congruence].
Qed.
Print Assumptions C46_ends.
(** A text with one mention, or with mentions that all have one name, comes out right. *)
Theorem C46_partial names p0 ms n : good_names names -> no_paren p0 -> Forall plain_mention ms ->
  (forall ty v p ty' v' p', In (ty, v, p) ms -> In (ty', v', p') ms -> lookup_name names ty v = lookup_name names ty' v') ->
  convert_ct_enums (S n) names (p0 ++ written ms) = Some (p0 ++ named (lookup_name names) ms)%string.
Proof.
  intros Hg H0 H Hsame. destruct ms as [|[[ty v] p] ms].
  - cbn [written named]. rewrite sapp_nil. cbn [convert_ct_enums]. rewrite search_none by auto. reflexivity.
  - rewrite C46_exact by auto. do 2 f_equal. apply named_ext. intros a b c Hin. apply (Hsame ty v p a b c); auto. left. auto.
Qed.
Print Assumptions C46_partial.
Local Open Scope string_scope.
Definition ex_names (ty v : string) : option string :=
  if ((ty =? "E") && (v =? "1"))%bool then Some "red" else if ((ty =? "E") && (v =? "2"))%bool then Some "green" else None.
Lemma ex_names_good : good_names ex_names.
Proof. intros ty v n. unfold ex_names. repeat destruct (_ && _)%bool; intros [= <-]; split; reflexivity. Qed.
Example C46_case : no_paren "state " /\ Forall plain_mention [("E", "1", " then "); ("E", "1", ".")] /\
  convert_ct_enums 3 ex_names "state (E)1 then (E)1." = Some "state red then red." /\
  convert_ct_enums 3 ex_names "state (E)3!" = Some "state static_cast<E>(3)!".
Proof. split; [reflexivity|]. split; [repeat constructor; discriminate|]. split; vm_compute; reflexivity. Qed.
Theorem C46_refuted : exists names p0 ms, good_names names /\ no_paren p0 /\ Forall plain_mention ms /\
  forall n, convert_ct_enums (S n) names (p0 ++ written ms) <> Some (p0 ++ named (lookup_name names) ms).
Proof.
  exists ex_names, "", [("E", "1", " then "); ("E", "2", "")]. split; [apply ex_names_good|]. split; [reflexivity|].
  split; [repeat constructor; discriminate|]. intros n. rewrite C46_exact; [vm_compute; discriminate|apply ex_names_good|reflexivity|repeat constructor; discriminate].
Qed.
Print Assumptions C46_refuted.
(** Enumerators in a namespace, and negative values, are left alone. *)
Theorem C46_scope_refuted names n :
  convert_ct_enums n names "in (ns::E)1 and (E)-1" = Some "in (ns::E)1 and (E)-1".
Proof. destruct n; reflexivity. Qed.
Print Assumptions C46_scope_refuted.
(** The characters meant by digits and word characters above. *)
Theorem C46_characters a : is_digit a = one_of "0123456789" a /\
  is_word a = one_of "0123456789_abcdefghijklmnopqrstuvwxyzABCDEFGHIJKLMNOPQRSTUVWXYZ" a.
Proof. destruct a as [[] [] [] [] [] [] [] []]; split; reflexivity. Qed.
Print Assumptions C46_characters.

(** ** C47: splitting argument lists *)
Theorem C47_split sep args : blank sep -> Forall (fun a => nested a /\ trimmed a) args -> split_args (comma_list sep args) = args.
Proof. apply split_comma_list. Qed.
Print Assumptions C47_split.
(** What is left out at the ends: tabs, ends of lines, separators and spaces. *)
Theorem C47_characters a : is_space a = coded [9; 10; 11; 12; 13; 28; 29; 30; 31; 32]%nat a.
Proof. destruct a as [[] [] [] [] [] [] [] []]; reflexivity. Qed.
Print Assumptions C47_characters.
Ltac trim := split; [discriminate|split; [intros ? ? [= <- _]; reflexivity|]].
Lemma last_unique (r r' : string) a a' : r ++ String a "" = r' ++ String a' "" -> a = a'.
Proof.
  revert r'. induction r as [|x r IH]; destruct r' as [|y r']; cbn; intros [= E]; auto; try (destruct r; discriminate); try (destruct r'; discriminate).
  apply IH with r'. auto.
Qed.
Example C47_case : let args := ["encode_enum<ns::E<a, b>, unsigned int>"; "encode_32<int>"] in
  Forall (fun a => nested a /\ trimmed a) args /\ blank " " /\ comma_list " " args = "encode_enum<ns::E<a, b>, unsigned int>, encode_32<int>" /\ split_args (comma_list " " args) = args.
Proof.
  assert (I : forall s, all_chars (fun a => negb (Ascii.eqb a "<" || Ascii.eqb a ">")) s = true -> forall r, inside r -> inside (s ++ r)).
  { induction s as [|a s IH]; cbn; auto. intros H r Hr. apply andb_prop in H as [H1 H2]. apply inside_char; auto; intros ->; discriminate. }
  assert (N : forall s, all_chars (fun a => negb (Ascii.eqb a "<" || Ascii.eqb a ">" || Ascii.eqb a ",")) s = true -> forall r, nested r -> nested (s ++ r)).
  { induction s as [|a s IH]; cbn; auto. intros H r Hr. apply andb_prop in H as [H1 H2]. apply nested_char; auto; intros ->; discriminate. }
  cbv zeta. split; [|split; [split; reflexivity|split; reflexivity]]. constructor; [|constructor; [|constructor]]; split.
  - apply (N "encode_enum" eq_refl). apply (nested_angle "ns::E<a, b>, unsigned int" ""); [|constructor]. apply (I "ns::E" eq_refl).
    apply (inside_angle "a, b" ", unsigned int"); [apply (I "a, b" eq_refl ""); constructor|apply (I ", unsigned int" eq_refl ""); constructor].
  - trim. intros a r E. change "encode_enum<ns::E<a, b>, unsigned int>" with ("encode_enum<ns::E<a, b>, unsigned int" ++ String ">" "") in E. apply last_unique in E as <-. reflexivity.
  - apply (N "encode_32" eq_refl). apply (nested_angle "int" ""); [|constructor]. apply (I "int" eq_refl ""); constructor.
  - trim. intros a r E. change "encode_32<int>" with ("encode_32<int" ++ String ">" "") in E. apply last_unique in E as <-. reflexivity.
Qed.
(** Outside that form: commas between parentheses split as well. *)
Example C47_parentheses : split_args "f<A>, g(int, int)" = ["f<A>"; "g(int"; "int)"].
Proof. reflexivity. Qed.

(** ** C60: explicit ids *)
Local Open Scope Z_scope.
(** If every occurrence of a message has the explicit id, the message has it. *)
Theorem C60_partial bs b m : good_history (bs ++ [b]) -> In m (b_items b) -> m_id m <> -1 ->
  (forall m', In m' (b_items b) -> sid m' = sid m -> m_id m' <> -1) -> holds (assigned bs b) (sid m) (m_id m).
Proof.
  intros H Hm Hid Hall. destruct (H bs b [] eq_refl) as (K1 & K2 & K3). pose proof (history_one bs (good_prefix _ _ H)) as Ho.
  destruct (unique_spec (b_key b) (b_items b)) as (_ & U1 & U2). destruct (U2 m Hm) as (x & Hx & Ek).
  assert (Es : sid x = sid m). { apply K2; auto; apply in_app_iff; auto. }
  assert (Ei : m_id x = m_id m). { apply (proj2 (K3 x (U1 x Hx) (Hall x (U1 x Hx) Es)) m Hm Hid). auto. }
  rewrite <- Es, <- Ei. apply step_pins; auto.
Qed.
Print Assumptions C60_partial.
Example C60_case : In fixed (b_items b1) /\ m_id fixed = 7 /\ (forall m', In m' (b_items b1) -> sid m' = sid fixed -> m_id m' <> -1).
Proof. split; [cbn; auto|]. split; auto. intros m' Hm E. cbn in Hm. all_cases; discriminate. Qed.
(** A message logged once with an explicit id and once without loses the id. *)
Theorem C60_refuted : exists b m i, good_history [b] /\ In m (b_items b) /\ m_id m = i /\ i <> -1 /\ forall j, holds (assigned [] b) (sid m) j -> j <> i.
Proof.
  exists {| b_key := msg_key num; b_reserved := []; b_items := [fixed; mk "fixed" [] (-1)] |}, fixed, 7. split; [|split; [left; auto|split; [auto|split; [discriminate|]]]].
  - intros pre b post E. destruct pre as [|? pre]; [injection E as <- <-|destruct pre; discriminate]. split; [apply key_respects|]. split.
    + intros x y Hx Hy. cbn in Hx, Hy. all_cases; vm_compute; intros; congruence.
    + intros m Hm Hi. cbn in Hm. all_cases; try (vm_compute in Hi; congruence). split; [intros s i (x & [] & _)|].
      intros m' Hm' Hi'. cbn in Hm'. all_cases; vm_compute in Hi' |- *; try congruence; tauto.
  - intros j (x & Hx & _ & <-). vm_compute in Hx. all_cases. vm_compute. discriminate.
Qed.
Print Assumptions C60_refuted.

(** The entry kept for a key is the last. *)
Lemma of_items_last key l x : In x (values (of_items key l)) <-> last_of_key key l x.
Proof.
  induction l as [|m l IH] using rev_ind.
  - split; [intros []|]. intros (pre & post & E & _). destruct pre; discriminate.
  - unfold of_items in *. rewrite fold_left_app. cbn [fold_left]. rewrite values_set by apply (of_items_spec key l). rewrite IH. split.
    + intros [->|[(pre & post & -> & H) Hk]].
      * exists l, []. split; auto.
      * exists pre, (post ++ [m])%list. split; [rewrite <- app_assoc; reflexivity|]. intros y Hy. apply in_app_iff in Hy as [Hy|[->|[]]]; auto.
    + intros (pre & post & E & H). destruct post as [|p post] using rev_ind.
      * apply app_inj_tail in E as [_ ->]. auto.
      * clear IHpost. right. assert (E' : (l ++ [m])%list = ((pre ++ x :: post) ++ [p])%list) by (rewrite E, <- app_assoc; reflexivity).
        apply app_inj_tail in E' as [-> ->]. split.
        -- exists pre, post. split; auto. intros y Hy. apply H, in_app_iff. auto.
        -- intros E2. apply (H p); [apply in_app_iff; right; left; auto|auto].
Qed.
(** C60, exactly: of several occurrences the last one counts. If it has an explicit
    id the message has that id; if not, the message has the id of the earlier
    builds, or else a number that is neither reserved nor the explicit id of any
    message whose last occurrence has one. *)
Theorem C60_exact bs b x : good_history (bs ++ [b]) -> last_of_key (b_key b) (b_items b) x ->
  (m_id x <> -1 -> holds (assigned bs b) (sid x) (m_id x)) /\
  (m_id x = -1 ->
     (forall i, holds (after bs) (sid x) i -> holds (assigned bs b) (sid x) i) /\
     ((forall i, ~ holds (after bs) (sid x) i) -> forall i, holds (assigned bs b) (sid x) i ->
        0 <= i /\ (forall lo hi, In (lo, hi) (b_reserved b) -> ~ lo <= i <= hi) /\ (forall t, ~ holds (after bs) t i) /\
        forall m, last_of_key (b_key b) (b_items b) m -> m_id m <> -1 -> m_id m <> i)).
Proof.
  intros H Hx. destruct (H bs b [] eq_refl) as (K1 & K2 & K3). pose proof (history_one bs (good_prefix _ _ H)) as Ho.
  apply of_items_last in Hx. change (In x (unique (b_key b) (b_items b))) in Hx. destruct (unique_spec (b_key b) (b_items b)) as (U0 & U1 & U2).
  split; [intros Hid; apply step_pins; auto|]. intros Hid.
  assert (P : forall m, In m (unique (b_key b) (b_items b)) -> m_id m <> -1 -> sid m <> sid x).
  { intros m Hm Hn E. apply Hn. rewrite <- Hid. f_equal. assert (Ek : b_key b m = b_key b x) by (apply K1; exact E).
    revert Hm Hx Ek. revert U0. generalize (unique (b_key b) (b_items b)). intros l ND Hm Hx Ek. clear - ND Hm Hx Ek. induction l as [|a l IH]; [destruct Hm|].
    cbn [map] in ND. inversion_clear ND as [|? ? N1 N2]. destruct Hm as [->|Hm], Hx as [->|Hx]; auto; exfalso; apply N1; apply in_map_iff; eauto. }
  assert (In (sid x) (map sid (assigned bs b))) as Hs. { apply ms_sids; auto. apply in_map, U1, Hx. }
  apply in_map_iff in Hs as (y & Ey & Hy). split.
  - intros i Hi. assert (Hi' : holds (after (bs ++ [b])) (sid x) i) by (rewrite after_app; apply step_keeps; auto).
    assert (Hy' : holds (after (bs ++ [b])) (sid x) (m_id y)) by (rewrite after_app; apply step_ms; exists y; auto).
    assert (E : m_id y = i) by (apply (proj1 (history_one (bs ++ [b]) H) (sid x)); auto). subst i. exists y. auto.
  - intros Hnew i (z & Hz & Sz & <-). destruct (ms_cases (b_key b) (b_reserved b) (after bs) (b_items b) K1 K2 z Hz) as [C|(N & H1 & H2 & H3)].
    + exfalso. rewrite Sz in C. destruct C as (w & Hw & Sw & Iw). apply d_spec in Hw; auto. destruct Hw as [[Hw Hn]|[Hw _]]; [apply (P w); auto|]. apply (Hnew (m_id w)). exists w. split; [apply (st_in (b_key b)), Hw|auto].
    + split; auto. split; [|split].
      * intros lo hi Hr Hl. assert (contains (b_reserved b) (m_id z) = true); [|congruence]. apply existsb_exists. exists (lo, hi). split; auto. cbn [fst snd]. lia.
      * intros t Ht. apply (H3 t). apply json_d; auto.
      * intros m Hm Hp E. apply of_items_last in Hm. apply (H3 (sid m)). exists m. split; auto. apply d_spec; auto.
Qed.
Print Assumptions C60_exact.

(** ** C61: every symbol gets a definition *)
(** Exactly the last entry of each key is defined, once. *)
Theorem C61_exact key items x : NoDup (map key (defined key items)) /\ (In x (defined key items) <-> last_of_key key items x).
Proof.
  unfold defined. split.
  - apply (Permutation_NoDup (l := map key (unique key items))); [apply Permutation_map, Permutation_sym, sorted_perm|apply unique_spec].
  - rewrite <- of_items_last. fold (unique key items). split; apply Permutation_in; [apply sorted_perm|apply Permutation_sym, sorted_perm].
Qed.
Print Assumptions C61_exact.
Theorem C61_partial key items : (forall a b, In a items -> In b items -> key a = key b -> a = b) -> forall x, In x (defined key items) <-> In x items.
Proof.
  intros H x. destruct (unique_spec key items) as (_ & U1 & U2). unfold defined. split.
  - intros Hx. apply U1. revert Hx. apply Permutation_in, sorted_perm.
  - intros Hx. destruct (U2 x Hx) as (y & Hy & E). rewrite <- (H y x (U1 y Hy) Hx E). revert Hy. apply Permutation_in, Permutation_sym, sorted_perm.
Qed.
Print Assumptions C61_partial.
Example C61_case : let items := [number; hello; number; fixed] in
  (forall a b, In a items -> In b items -> msg_key num a = msg_key num b -> a = b) /\ defined (msg_key num) items = [fixed; hello; number].
Proof. split; [|vm_compute; reflexivity]. intros x y Hx Hy. cbn in Hx, Hy. all_cases; vm_compute; intros; try congruence; reflexivity. Qed.
(** One text with different tags: one of the two symbols stays undefined. *)
Theorem C61_refuted hash : exists a b, sid a = sid b /\ m_id a = m_id b /\ ~ In a (defined (msg_key hash) [a; b]).
Proof.
  exists {| m_text := "hello"; m_args := []; m_id := -1; m_extra := 1 |}, {| m_text := "hello"; m_args := []; m_id := -1; m_extra := 2 |}.
  split; [reflexivity|]. split; [reflexivity|]. unfold defined, unique, of_items, values. cbn [fold_left dict_set]. 
  set (k := msg_key hash {| m_text := "hello"; m_args := []; m_id := -1; m_extra := 1 |}). change (msg_key hash {| m_text := "hello"; m_args := []; m_id := -1; m_extra := 2 |}) with k.
  rewrite Z.eqb_refl. cbn. intros [E|[]]. discriminate.
Qed.
Print Assumptions C61_refuted.

(** ** C62: texts *)
Theorem C62_partial char_signed source : source <> [] -> Forall (fun c => 0 <= c < 128) source -> catalog_text char_signed source = Some source.
Proof.
  intros Hne H. unfold catalog_text. assert (E : map (char_code char_signed) (flat_map utf8 source) = source).
  { clear Hne. induction H as [|c source Hc _ IH]; auto. cbn [flat_map]. unfold utf8 at 1. destruct (Z.ltb_spec c 128); [|lia]. cbn [app map]. rewrite IH. f_equal.
    unfold char_code. destruct char_signed; cbn [andb]; auto. destruct (Z.leb_spec 128 c); lia. }
  rewrite E. unfold message_text. destruct source as [|c source]; [congruence|]. replace (forallb _ _) with true; auto. symmetry. apply forallb_forall.
  intros x Hx. rewrite Forall_forall in H. specialize (H x Hx). lia.
Qed.
Print Assumptions C62_partial.
Example C62_case : catalog_text true [104; 105; 126; 32; 9] = Some [104; 105; 126; 32; 9]. Proof. reflexivity. Qed.
(** Anything else fails with a signed char, and comes out wrong with an unsigned one. *)
Theorem C62_refuted c : 128 <= c < 2048 -> catalog_text true [c] = None /\ catalog_text false [c] <> Some [c].
Proof.
  intros H. unfold catalog_text, utf8. cbn [flat_map]. destruct (Z.ltb_spec c 128); [lia|]. cbn [app map]. unfold char_code. cbn [andb].
  assert (0 <= c / 64) by (apply Z.div_pos; lia). assert (c / 64 < 32) by (apply Z.div_lt_upper_bound; lia).
  split; [|unfold message_text; destruct (forallb _ _); discriminate]. destruct (Z.leb_spec 128 (192 + c / 64)); [|lia].
  unfold message_text. cbn [forallb]. destruct (Z.leb_spec 0 (192 + c / 64 - 256)); [lia|]. reflexivity.
Qed.
Print Assumptions C62_refuted.
Theorem C62_empty_refuted char_signed : catalog_text char_signed [] = None. Proof. reflexivity. Qed.
Print Assumptions C62_empty_refuted.

(** ** C63: module ids fit their field *)
Theorem C63_modules bs b : good_history (bs ++ [b]) -> (forall pre b0 post m, (bs ++ [b] = pre ++ b0 :: post)%list -> In m (b_items b0) -> -1 <= m_id m) ->
  check_limit 127 (assigned bs b) = true -> forall m, In m (assigned bs b) -> 0 <= m_id m < 2 ^ 7.
Proof.
  intros H Hpos Hlim m Hm. split.
  - assert (P : forall bs', good_history bs' -> (forall pre b0 post m, bs' = (pre ++ b0 :: post)%list -> In m (b_items b0) -> -1 <= m_id m) -> forall s i, holds (after bs') s i -> 0 <= i).
    { clear. induction bs' as [|b bs' IH] using rev_ind; intros G Hp s i Hi; [destruct Hi as (x & [] & _)|].
      assert (Gp := good_prefix _ _ G). assert (Hp' : forall pre b0 post m, bs' = (pre ++ b0 :: post)%list -> In m (b_items b0) -> -1 <= m_id m).
      { intros pre b0 post m -> . apply (Hp pre b0 (post ++ [b])%list). rewrite <- app_assoc. reflexivity. }
      destruct (G bs' b [] eq_refl) as (K1 & K2 & K3). rewrite after_app in Hi. unfold step in Hi. rewrite run_is in Hi. cbn [snd] in Hi.
      assert (D : forall s i, holds (values (pinned (b_key b) (of_items (b_key b) (after bs')) (unique (b_key b) (b_items b)))) s i -> 0 <= i).
      { intros s' i' Hd. apply d_holds in Hd as [Hd|(x & Hx & Hn & _ & <-)]; [apply (IH Gp Hp' s' i' Hd)|]. specialize (Hp bs' b [] x eq_refl Hx). lia. }
      apply out_holds in Hi as [(x & Hx & <- & <-)|Hi]; [|apply (D s i Hi)].
      apply ms_cases in Hx as [C|(N & H1 & _)]; auto. apply (D _ _ C). }
    apply (P (bs ++ [b])%list H Hpos (sid m)). rewrite after_app. apply step_ms. exists m. auto.
  - unfold check_limit in Hlim. rewrite forallb_forall in Hlim. specialize (Hlim m Hm). change (2 ^ 7) with 128. lia.
Qed.
Print Assumptions C63_modules.
(** The check rejects a catalog exactly when some module's id is above the limit. *)
Theorem C63_limit max ms : check_limit max ms = false <-> exists m, In m ms /\ max < m_id m.
Proof.
  unfold check_limit. induction ms as [|m ms IH]; cbn [forallb]; [split; [discriminate|intros (m & [] & _)]|].
  rewrite andb_false_iff, IH. split.
  - intros [H|(x & Hx & H)]; [exists m; split; [left; auto|lia]|exists x; split; [right; auto|auto]].
  - intros (x & [<-|Hx] & H); [left; lia|right; exists x; auto].
Qed.
Print Assumptions C63_limit.
Example C63_case : check_limit 127 (assigned [b1] b2) = true /\ (forall pre b0 post m, [b1; b2] = (pre ++ b0 :: post)%list -> In m (b_items b0) -> -1 <= m_id m).
Proof.
  split; [vm_compute; reflexivity|]. intros pre b0 post m E Hm. destruct pre as [|p1 [|p2 pre]]; cbn in E; [injection E as <- <-|injection E as <- <- <-|injection E as ? ? E; destruct pre; discriminate]; cbn in Hm; all_cases; vm_compute; discriminate.
Qed.

(** ** C64: extra JSON inputs *)
Lemma member_set_other k k' v o : k' <> k -> member k (member_set k' v o) = member k o.
Proof.
  intros H. induction o as [|[a w] o IH]; cbn [member_set member].
  - destruct (String.eqb_spec k' k); [contradiction|reflexivity].
  - destruct (String.eqb_spec a k'); cbn [member]; [subst; destruct (String.eqb_spec k' k); [contradiction|reflexivity]|]. rewrite IH. reflexivity.
Qed.
Theorem C64_partial messages modules extras k : (forall e v, In e extras -> ~ In (k, v) e) ->
  member k (json_object messages modules extras) = member k (json_object messages modules []).
Proof.
  unfold json_object. generalize [("messages"%string, messages); ("modules"%string, modules); ("enums"%string, [])] as o. cbn [fold_left].
  induction extras as [|e extras IH]; intros o H; auto. cbn [fold_left]. rewrite IH; [|intros e' v He; apply H; right; auto].
  assert (He : forall v, ~ In (k, v) e) by (intros v; apply H; left; auto). clear IH H. unfold object_update. revert o. induction e as [|[a v] e IH]; intros o; auto.
  cbn [fold_left fst snd]. rewrite IH by (intros w Hw; apply (He w); right; auto). apply member_set_other. intros ->. apply (He v). left. auto.
Qed.
Print Assumptions C64_partial.
Lemma find_app {A} (f : A -> bool) a b : find f (a ++ b) = match find f a with Some x => Some x | None => find f b end.
Proof. induction a as [|x a IH]; cbn [find app]; auto. destruct (f x); auto. Qed.
(** Each member is that of the last extra input that has it, and in it the last of
    that name; a member that none has is the build's. *)
Theorem C64_exact messages modules extras k :
  member k (json_object messages modules extras) =
    match find (fun kv => String.eqb (fst kv) k) (rev (concat extras)) with
    | Some kv => Some (snd kv)
    | None => find_member k [("messages", messages); ("modules", modules); ("enums", [])]%string
    end.
Proof.
  assert (Mk : forall k v o, member k (member_set k v o) = Some v).
  { intros k0 v o. induction o as [|[a w] o IH]; cbn [member_set member].
    - rewrite String.eqb_refl. reflexivity.
    - destruct (String.eqb_spec a k0); cbn [member]; [subst; rewrite String.eqb_refl; reflexivity|]. destruct (String.eqb_spec a k0); [contradiction|exact IH]. }
  assert (Fk : forall o, member k o = find_member k o). { induction o as [|[a w] o IH]; cbn [member find_member find]; [reflexivity|]. unfold find_member in *. cbn [find fst]. destruct (String.eqb a k); auto. }
  rewrite <- Fk. unfold json_object. generalize [("messages"%string, messages); ("modules"%string, modules); ("enums"%string, [])] as o.
  assert (G : forall e o, member k (object_update o e) = match find (fun kv => String.eqb (fst kv) k) (rev e) with Some kv => Some (snd kv) | None => member k o end).
  { unfold object_update. induction e as [|kv e IH] using rev_ind; intros o; [reflexivity|]. rewrite fold_left_app, rev_app_distr. cbn [fold_left rev app find].
    destruct (String.eqb_spec (fst kv) k) as [<-|N]; [apply Mk|]. rewrite member_set_other by auto. apply IH. }
  induction extras as [|e extras IH] using rev_ind; intros o; [reflexivity|].
  rewrite fold_left_app, concat_app, rev_app_distr. cbn [fold_left concat]. rewrite app_nil_r, find_app, G, IH.
  destruct (find _ (rev e)); reflexivity.
Qed.
Print Assumptions C64_exact.
Example C64_case : member "messages" (json_object [hello; number] [] [[("colours"%string, [fixed])]]) = Some [hello; number]. Proof. reflexivity. Qed.
(** An extra input with a list of messages makes all the others disappear. *)
Theorem C64_refuted messages modules l : member "messages" (json_object messages modules [[("messages"%string, l)]]) = Some l.
Proof. reflexivity. Qed.
Print Assumptions C64_refuted.

From Coq Require Import String Ascii Bool Arith List ZArith Lia.
From Verif Require Import CatalogModel GenModel GenProofs3 BenchModel BenchSpec.
Import ListNotations.
Local Open Scope string_scope.

(** ** Text *)
Lemma sapp_assoc a b c : (a ++ b) ++ c = a ++ b ++ c.
Proof. induction a as [|x a IH]; cbn; [reflexivity|]. now rewrite IH. Qed.
Lemma starts_spec p : forall s, starts p s = true <-> exists r, s = p ++ r.
Proof.
  induction p as [|x p IH]; intros s; cbn; [split; eauto|]. destruct s as [|y s]; [split; [discriminate|intros (r & E); discriminate]|].
  rewrite andb_true_iff, IH, Ascii.eqb_eq. split; [intros (-> & r & ->); eauto|]. intros (r & E). injection E as -> ->. eauto.
Qed.
Lemma within_spec p s : within p s = true <-> inside p s.
Proof.
  induction s as [|x s IH]; cbn [within]; rewrite orb_true_iff, starts_spec.
  - split; [intros [(r & E)|E]; [now exists "", r|discriminate]|]. intros (a & b & E). destruct a; [|discriminate]. left. now exists b.
  - rewrite IH. split.
    + intros [(r & E)|(a & b & ->)]; [now exists "", r|]. now exists (String x a), b.
    + intros ([|y a] & b & E); [left; now exists b|]. cbn in E. injection E as -> ->. right. now exists a, b.
Qed.
Lemma split_ends c s : forall tail, ends_at c s tail -> split c (s ++ tail) = s :: match tail with EmptyString => [] | String _ t => split c t end.
Proof.
  induction s as [|x s IH]; intros tail (N & T).
  - cbn. destruct T as [->|(t & ->)]; cbn; [reflexivity|]. now rewrite Ascii.eqb_refl.
  - cbn [append split]. cbn in N. destruct (Ascii.eqb x c) eqn:E; [apply Ascii.eqb_eq in E; tauto|].
    rewrite IH; [reflexivity|]. split; [tauto|exact T].
Qed.
Lemma ends_exists c s : exists x tail, s = x ++ tail /\ ends_at c x tail.
Proof.
  induction s as [|a s (x & tail & E & N & T)]; [exists "", ""; repeat split; auto|].
  destruct (ascii_dec a c) as [->|D].
  - exists "", (String c s). split; [reflexivity|]. split; [intros []|eauto].
  - exists (String a x), tail. split; [now rewrite E|]. split; [cbn; intuition congruence|exact T].
Qed.
Lemma chars_app a b : chars (a ++ b) = (chars a ++ chars b)%list.
Proof. induction a as [|x a IH]; cbn; [reflexivity|]. now rewrite IH. Qed.
(** Fields before the last *)
Lemma split_inv c s x y l : split c s = x :: y :: l -> exists r, s = x ++ String c r /\ ~ In c (chars x) /\ split c r = y :: l.
Proof.
  destruct (ends_exists c s) as (f & tail & -> & E). rewrite (split_ends _ _ _ E). destruct E as (N & [->|(t & ->)]); [discriminate|].
  intros [= -> S]. eauto.
Qed.
Lemma split_inv1 c s x l : split c s = x :: l -> exists tail, s = x ++ tail /\ ends_at c x tail.
Proof.
  destruct (ends_exists c s) as (f & tail & -> & E). rewrite (split_ends _ _ _ E). intros [= -> S]. eauto.
Qed.

(** ** One line *)
Definition kind_of (label : string) : kind := if within "chained" label then Chained else if within "independent" label then Independent else Other.
Lemma of_kind_spec label k : of_kind label k <-> kind_of label = k.
Proof.
  unfold kind_of. pose proof (within_spec "chained" label) as A. pose proof (within_spec "independent" label) as B.
  destruct (within "chained" label), (within "independent" label), k; cbn; split; intros H; try discriminate; try reflexivity;
    try (exfalso; intuition congruence); intuition congruence.
Qed.
Section L.
Context {F : Type}.
Variable to_float : string -> option F.
Notation titled := (titled strip).
Notation untitled := (untitled strip).
Notation current := (current strip).
Notation times := (times to_float strip).
Notation timed := (timed to_float strip).
Notation last_time := (last_time to_float strip).
Notation some_time := (some_time to_float strip).

Lemma titled_spec word line n : ~ In ":"%char (chars word) ->
  titled word line n <-> starts (word ++ ":") (strip line) = true /\ n = after_colon (strip line).
Proof.
  intros W. assert (X : forall r, split ":" (word ++ ":" ++ r) = word :: split ":" r).
  { intros r. change (":" ++ r) with (String ":" r). rewrite split_ends; [reflexivity|]. split; [exact W|eauto]. }
  rewrite starts_spec. unfold after_colon. split.
  - intros (s & tail & E & A & ->). split; [exists (s ++ tail); now rewrite E, sapp_assoc|].
    rewrite E, X, (split_ends _ _ _ A). reflexivity.
  - intros ((r & E) & ->). rewrite sapp_assoc in E. destruct (ends_exists ":" r) as (s & tail & R & A).
    exists s, tail. split; [now rewrite E, R|]. split; [exact A|]. rewrite E, X, R, (split_ends _ _ _ A). reflexivity.
Qed.
Definition row (line : string) : option (string * F) :=
  if starts "|" line then
    match tl (split "|" line) with
    | f0 :: _ :: _ :: _ :: f4 :: _ => option_map (pair (strip f4)) (to_float (strip f0))
    | _ => None
    end
  else None.
Lemma times_spec line k v : times line k v <-> exists label, row (strip line) = Some (label, v) /\ kind_of label = k.
Proof.
  unfold row. split.
  - intros (f0 & f1 & f2 & f3 & f4 & tail & E & N & A & V & K). exists (strip f4). rewrite of_kind_spec in K. split; [|exact K].
    rewrite !chars_app, !in_app_iff in N.
    assert (S : forall f r, ~ In "|"%char (chars f) -> split "|" (f ++ "|" ++ r) = f :: split "|" r).
    { intros f r H. change ("|" ++ r) with (String "|" r). rewrite split_ends; [reflexivity|]. split; [exact H|eauto]. }
    rewrite E. replace (starts "|" ("|" ++ _)) with true by (symmetry; apply starts_spec; eauto).
    change (split "|" ("|" ++ ?x)) with (split "|" ("" ++ "|" ++ x)). rewrite (S ""), !S by (cbn; tauto).
    rewrite (split_ends _ _ _ A). cbn [tl]. now rewrite V.
  - intros (label & R & K). destruct (starts "|" (strip line)) eqn:B; [|discriminate].
    apply starts_spec in B as (r & E). rewrite E in R. change (split "|" ("|" ++ r)) with ("" :: split "|" r) in R. cbn [tl] in R.
    destruct (split "|" r) as [|f0 [|f1 [|f2 [|f3 [|f4 l]]]]] eqn:S; try discriminate.
    apply split_inv in S as (r1 & -> & N0 & S). apply split_inv in S as (r2 & -> & N1 & S).
    apply split_inv in S as (r3 & -> & N2 & S). apply split_inv in S as (r4 & -> & N3 & S).
    apply split_inv1 in S as (tail & -> & A). destruct (to_float (strip f0)) as [w|] eqn:V; [|discriminate].
    cbn in R. assert (label = strip f4 /\ v = w) as (-> & ->) by (split; congruence).
    exists f0, f1, f2, f3, f4, tail. split; [exact E|]. split; [rewrite !chars_app, !in_app_iff; tauto|].
    split; [exact A|]. split; [exact V|]. now apply of_kind_spec.
Qed.
Lemma times_fun line k v k' v' : times line k v -> times line k' v' -> k = k' /\ v = v'.
Proof. rewrite !times_spec. intros (l & E & <-) (l' & E' & <-). rewrite E in E'. split; congruence. Qed.
Lemma starts_head p s q t a b : starts (String a p) s = true -> starts (String b q) t = true -> s = t -> a = b.
Proof. rewrite !starts_spec. intros (r & ->) (r' & ->) E. cbn in E. congruence. Qed.

(** ** The end of the log *)
Lemma snoc_cut {A} (a : list A) l b lines x : (lines ++ [x])%list = (a ++ l :: b)%list ->
  (a = lines /\ l = x /\ b = []) \/ exists b0, b = (b0 ++ [x])%list /\ lines = (a ++ l :: b0)%list.
Proof.
  destruct b as [|y b] using rev_ind; intros E.
  - apply app_inj_tail in E as (-> & ->). auto.
  - right. exists b. change (a ++ l :: b ++ [y])%list with (a ++ (l :: b) ++ [y])%list in E. rewrite app_assoc in E.
    apply app_inj_tail in E as (-> & ->). auto.
Qed.
Lemma titled_fun word l n n' : ~ In ":"%char (chars word) -> titled word l n -> titled word l n' -> n = n'.
Proof. intros W. rewrite !titled_spec by exact W. intros (_ & ->) (_ & ->). reflexivity. Qed.
Lemma current_snoc word lines x o : ~ In ":"%char (chars word) ->
  current word (lines ++ [x]) o <-> match o with Some n => titled word x n \/ (current word lines o /\ untitled word [x]) | None => current word lines None /\ untitled word [x] end.
Proof.
  intros W. destruct o as [n|]; cbn [BenchSpec.current].
  - split.
    + intros (a & l & b & E & T & U). apply snoc_cut in E as [(-> & -> & ->)|(b0 & -> & ->)]; [now left|].
      right. split.
      * exists a, l, b0. repeat split; auto. intros l' n' I. apply U. apply in_or_app. now left.
      * intros l' n' [<-|[]]. apply U. apply in_or_app. right. now left.
    + intros [T|((a & l & b & -> & T & U) & V)].
      * exists lines, x, []. repeat split; auto. intros l' n' [].
      * exists a, l, (b ++ [x])%list. split; [now rewrite <- app_assoc|]. split; [exact T|].
        intros l' n' I. apply in_app_or in I as [I|I]; eauto.
  - unfold BenchSpec.untitled. split.
    + intros U. split; intros l n I; apply U; apply in_or_app; auto.
    + intros (U & V) l n I. apply in_app_or in I as [I|I]; eauto.
Qed.
Lemma current_fun word lines : ~ In ":"%char (chars word) -> forall o o', current word lines o -> current word lines o' -> o = o'.
Proof.
  intros W. induction lines as [|x lines IH] using rev_ind; intros o o' H H'.
  - destruct o as [n|]; [destruct H as (a & l & b & E & _); destruct a; discriminate|].
    destruct o' as [n|]; [destruct H' as (a & l & b & E & _); destruct a; discriminate|]. reflexivity.
  - apply current_snoc in H, H'; auto. destruct o as [n|], o' as [n'|]; auto.
    + destruct H as [T|(C & U)], H' as [T'|(C' & U')].
      * f_equal. eapply titled_fun; eauto.
      * exfalso. eapply U'; [now left|exact T].
      * exfalso. eapply U; [now left|exact T'].
      * eauto.
    + destruct H as [T|(C & U)], H' as (C' & U'); [exfalso; eapply U'; [now left|exact T]|]. eauto.
    + destruct H' as [T|(C & U)], H as (C' & U'); [exfalso; eapply U'; [now left|exact T]|]. eauto.
Qed.
Lemma some_snoc lines x ds alg : some_time (lines ++ [x]) ds alg <-> some_time lines ds alg \/ exists k v, timed lines x ds alg k v.
Proof.
  split.
  - intros (a & l & b & k & v & E & T). apply snoc_cut in E as [(-> & -> & ->)|(b0 & -> & ->)]; [right; eauto|].
    left. exists a, l, b0, k, v. auto.
  - intros [(a & l & b & k & v & -> & T)|(k & v & T)].
    + exists a, l, (b ++ [x])%list, k, v. split; [now rewrite <- app_assoc|exact T].
    + exists lines, x, [], k, v. auto.
Qed.
Lemma last_snoc lines x ds alg k v : last_time (lines ++ [x]) ds alg k v <->
  timed lines x ds alg k v \/ (last_time lines ds alg k v /\ forall v', ~ timed lines x ds alg k v').
Proof.
  split.
  - intros (a & l & b & E & T & U). apply snoc_cut in E as [(-> & -> & ->)|(b0 & -> & ->)]; [now left|]. right. split.
    + exists a, l, b0. repeat split; try apply T. intros a' l' b' v' ->. apply (U a' l' (b' ++ [x])%list). now rewrite <- app_assoc.
    + intros v'. apply (U b0 x []). reflexivity.
  - intros [T|((a & l & b & -> & T & U) & V)].
    + exists lines, x, []. repeat split; try apply T. intros a' l' b' v' E. destruct a'; discriminate.
    + exists a, l, (b ++ [x])%list. split; [now rewrite <- app_assoc|]. split; [exact T|].
      intros a' l' b' v' E. apply snoc_cut in E as [(-> & -> & ->)|(b0 & -> & ->)]; [apply V|]. eapply U. reflexivity.
Qed.
Variable to_int : string -> option Z.
Notation size_then := (size_then to_float to_int strip).
Lemma size_snoc lines x ds alg n : size_then (lines ++ [x]) ds alg n <->
  size_then lines ds alg n \/
  ((exists k v, timed lines x ds alg k v) /\ ~ some_time lines ds alg /\ exists t, current "size" lines (Some t) /\ to_int t = Some n).
Proof.
  split.
  - intros (a & l & b & k & v & E & T & N & S). apply snoc_cut in E as [(-> & -> & ->)|(b0 & -> & ->)]; [right; eauto|].
    left. exists a, l, b0, k, v. auto.
  - intros [(a & l & b & k & v & -> & T & N & S)|((k & v & T) & N & S)].
    + exists a, l, (b ++ [x])%list, k, v. split; [now rewrite <- app_assoc|auto].
    + exists lines, x, [], k, v. auto.
Qed.
Lemma size_some lines ds alg n : size_then lines ds alg n -> some_time lines ds alg.
Proof. intros (a & l & b & k & v & E & T & _). exists a, l, b, k, v. auto. Qed.
Lemma last_some lines ds alg k v : last_time lines ds alg k v -> some_time lines ds alg.
Proof. intros (a & l & b & E & T & _). exists a, l, b, k, v. auto. Qed.
End L.

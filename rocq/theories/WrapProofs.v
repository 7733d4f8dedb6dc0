(** Proofs about the CMake function and the parser of the command line. *)
From Coq Require Import String Ascii Bool Arith List ZArith Permutation Lia.
From Verif Require Import CatalogModel GenModel GenSpec WrapModel WrapSpec.
Import ListNotations.
Local Open Scope string_scope.

(** ** Reading the arguments *)
Definition word (t : string) : bool := listed option_words t || listed one_words t || listed multi_words t.
Definition group_ok (g : list string) : Prop :=
  match g with
  | [] => False
  | k :: vs => Forall (fun v => word v = false) vs /\
     (listed option_words k = true /\ vs = [] \/
      listed option_words k = false /\ listed one_words k = true /\ length vs = 1 \/
      listed option_words k = false /\ listed one_words k = false /\ listed multi_words k = true)
  end.
Definition events (g : list string) : list (string * option string) :=
  match g with [] => [] | k :: vs => (k, None) :: map (fun v => (k, Some v)) vs end.

Lemma read_any cur gs : Forall group_ok gs -> read_words cur (concat gs) = read_words None (concat gs).
Proof.
  intros H. destruct H as [|g gs Hg H]; [reflexivity|]. destruct g as [|k vs]; [destruct Hg|]. cbn [concat app read_words].
  destruct Hg as [_ [[E _]|[(E & E1 & _)|(E & E1 & E2)]]]; rewrite E; [reflexivity| |]; rewrite ?E1, ?E2; reflexivity.
Qed.
Lemma read_values k vs gs : listed one_words k = false -> Forall (fun v => word v = false) vs -> Forall group_ok gs ->
  read_words (Some k) ((vs ++ concat gs)%list) = (map (fun v => (k, Some v)) vs ++ read_words None (concat gs))%list.
Proof.
  intros Hk Hv Hg. induction Hv as [|v vs Hw Hv IH]; cbn [app map]; [now apply read_any|]. cbn [read_words].
  unfold word in Hw. apply orb_false_iff in Hw as [Hw W3]. apply orb_false_iff in Hw as [W1 W2]. rewrite W1, W2, W3, Hk. cbn. now rewrite IH.
Qed.
Lemma read_groups gs : Forall group_ok gs -> read_words None (concat gs) = flat_map events gs.
Proof.
  induction 1 as [|g gs Hg H IH]; [reflexivity|]. destruct g as [|k vs]; [destruct Hg|]. cbn [concat flat_map events].
  cbn [app read_words]. destruct Hg as [Hv [[E ->]|[(E & E1 & L)|(E & E1 & E2)]]].
  - rewrite E. cbn. now rewrite IH.
  - rewrite E, E1. cbn [orb]. destruct vs as [|v [|w vs]]; try discriminate. cbn [app read_words map].
    inversion Hv as [|? ? Hw _]; subst. unfold word in Hw. apply orb_false_iff in Hw as [Hw W3]. apply orb_false_iff in Hw as [W1 W2].
    rewrite W1, W2, W3, E1. cbn. now rewrite IH.
  - rewrite E, E1, E2. cbn [orb]. rewrite read_values; auto. cbn [app]. now rewrite IH.
Qed.

(** ** Looking things up does not depend on the order *)
Definition sel (k : string) (g : list string) : list string := match g with h :: vs => if h =? k then vs else [] | [] => [] end.
Lemma many_events k gs : many k (flat_map events gs) = flat_map (sel k) gs.
Proof.
  induction gs as [|g gs IH]; [reflexivity|]. cbn [flat_map]. unfold many in *. rewrite flat_map_app, IH. f_equal.
  destruct g as [|h vs]; [reflexivity|]. cbn. destruct (h =? k) eqn:E; cbn.
  - induction vs as [|v vs IHv]; [reflexivity|]. cbn. now rewrite E, IHv.
  - induction vs as [|v vs IHv]; [reflexivity|]. cbn. now rewrite E, IHv.
Qed.
Lemma flag_events k gs : flag k (flat_map events gs) = existsb (fun g => match g with h :: _ => h =? k | [] => false end) gs.
Proof.
  induction gs as [|g gs IH]; [reflexivity|]. cbn [flat_map]. unfold flag in *. rewrite existsb_app, IH. cbn. f_equal.
  destruct g as [|h vs]; [reflexivity|]. cbn. destruct (h =? k) eqn:E; cbn; [reflexivity|].
  induction vs as [|v vs IHv]; [reflexivity|]. cbn. now rewrite E, IHv.
Qed.
Definition head (g : list string) : string := match g with h :: _ => h | [] => "" end.
Lemma sel_perm k l l' : Permutation l l' -> NoDup (map head l) -> flat_map (sel k) l = flat_map (sel k) l'.
Proof.
  induction 1 as [|x l l' P IH|x y l|l l' l'' P1 IH1 P2 IH2]; intros N; auto.
  - inversion N; subst. cbn. now rewrite IH.
  - inversion N as [|? ? Hn N']; subst. cbn. rewrite !app_assoc. f_equal. destruct x as [|hx x], y as [|hy y]; cbn; rewrite ?app_nil_r; auto.
    destruct (hx =? k) eqn:Ex, (hy =? k) eqn:Ey; cbn; rewrite ?app_nil_r; auto.
    apply String.eqb_eq in Ex, Ey. subst. cbn in Hn. destruct Hn. auto.
  - rewrite IH1 by exact N. apply IH2. eapply Permutation_NoDup; [apply Permutation_map; exact P1|exact N].
Qed.
Lemma exists_perm {A} (f : A -> bool) l l' : Permutation l l' -> existsb f l = existsb f l'.
Proof. induction 1; cbn; auto; [now rewrite IHPermutation| |congruence]. destruct (f x), (f y); reflexivity. Qed.
Lemma phrases_heads l : NoDup (map fst l) -> NoDup (map head (flat_map phrase l)).
Proof.
  assert (I : forall k l, In k (map head (flat_map phrase l)) -> In k (map fst l)).
  { intros k m. induction m as [|[h o] m IH]; cbn; auto. destruct o; cbn; tauto. }
  induction l as [|[h o] l IH]; cbn; intros N; [constructor|]. inversion N; subst. destruct o; cbn; auto. constructor; auto.
Qed.
Lemma sel_phrases k l : flat_map (sel k) (flat_map phrase l) = flat_map (fun e => if fst e =? k then match snd e with Some vs => vs | None => [] end else []) l.
Proof.
  induction l as [|[h o] l IH]; [reflexivity|]. cbn [flat_map]. rewrite flat_map_app, IH. f_equal. destruct o; cbn; rewrite ?app_nil_r; [reflexivity|]. destruct (h =? k); reflexivity.
Qed.
Lemma flag_phrases k l : existsb (fun g => match g with h :: _ => h =? k | [] => false end) (flat_map phrase l) =
  existsb (fun e => match snd e with Some _ => fst e =? k | None => false end) l.
Proof. induction l as [|[h o] l IH]; [reflexivity|]. cbn [flat_map]. rewrite existsb_app, IH. destruct o; cbn; rewrite ?orb_false_r; reflexivity. Qed.

Lemma said_groups r : Forall (fun v => word v = false) (all_values r) -> Forall group_ok (flat_map phrase (said r)).
Proof.
  intros H. apply Forall_forall. intros g Hg. apply in_flat_map in Hg as (e & He & Hg).
  assert (V : match snd e with Some vs => Forall (fun v => word v = false) vs | None => True end).
  { destruct (snd e) eqn:E; [|exact I]. apply Forall_forall. intros v Hv. rewrite Forall_forall in H. apply H. unfold all_values. apply in_flat_map. exists e. rewrite E. auto. }
  unfold said in He. cbn [In] in He.
  repeat (destruct He as [<-|He]; [cbn [snd] in V; unfold phrase in Hg; cbn [snd fst] in Hg, V;
    repeat match type of Hg with context [with_some ?l] => destruct l; cbn [with_some] in Hg, V | context [with_one ?l] => destruct l; cbn [with_one] in Hg, V | context [if ?b then _ else _] => destruct b end;
    cbn [In] in Hg; try (destruct Hg as [<-|[]]); try (destruct Hg); (split; [exact V|]); cbn; auto 10|]).
  destruct He.
Qed.
Lemma arguments_said r argn : says r argn -> Forall (fun v => v <> "" /\ word v = false) (all_values r) ->
  (forall k, many k (arguments argn) = flat_map (fun e => if fst e =? k then match snd e with Some vs => vs | None => [] end else []) (said r)) /\
  flag "FORGET_OLD_IDS" (arguments argn) = q_forget r.
Proof.
  intros (gs & P & ->) H.
  assert (Hv : Forall (fun v => word v = false) (all_values r)) by (eapply Forall_impl; [|exact H]; cbn; tauto).
  assert (Hg : Forall group_ok gs).
  { apply Forall_forall. intros g Hg. pose proof (said_groups r Hv) as S. rewrite Forall_forall in S. apply S. eapply Permutation_in; eauto. }
  assert (F : filter (fun t => negb (t =? "")) (concat gs) = concat gs).
  { assert (X : Forall (fun t => t <> "") (concat gs)).
    { apply Forall_forall. intros t Ht. apply in_concat in Ht as (g & Hg' & Ht). pose proof (Permutation_in _ P Hg') as Q.
      apply in_flat_map in Q as (e & He & Q). unfold phrase in Q. destruct (snd e) as [vs|] eqn:E; [|destruct Q]. destruct Q as [<-|[]]. destruct Ht as [<-|Ht].
      - unfold said in He. cbn [In] in He. repeat (destruct He as [<-|He]; [discriminate|]). destruct He.
      - rewrite Forall_forall in H. apply H. unfold all_values. apply in_flat_map. exists e. rewrite E. auto. }
    clear - X. induction X as [|t l Ht X IH]; [reflexivity|]. cbn. destruct (t =? "") eqn:E; [apply String.eqb_eq in E; contradiction|]. cbn. now rewrite IH. }
  assert (N : NoDup (map head gs)).
  { eapply Permutation_NoDup; [apply Permutation_map; symmetry; exact P|]. apply phrases_heads.
    unfold said. cbn. repeat (constructor; [cbn; intuition discriminate|]). constructor. }
  unfold arguments. rewrite F, read_groups by exact Hg. split.
  - intros k. rewrite many_events, (sel_perm k _ _ P N), sel_phrases. reflexivity.
  - rewrite flag_events, (exists_perm _ _ _ P), flag_phrases. unfold said. cbn [existsb snd fst String.eqb]. cbn.
    repeat match goal with |- context [match with_some ?l with _ => _ end] => destruct l; cbn | |- context [match with_one ?l with _ => _ end] => destruct l; cbn end;
    destruct (q_forget r); reflexivity.
Qed.

(** ** The shell *)
Lemma special_plain v : plain v -> v <> "" /\ forall c, In c (list_ascii_of_string v) ->
  Ascii.eqb c "\" = false /\ Ascii.eqb c "&" = false /\ Ascii.eqb c ";" = false /\ existsb (Ascii.eqb c) shell_special = false.
Proof.
  intros [H1 H2]. split; [exact H1|]. intros c Hc.
  assert (I : char_in c v).
  { clear - Hc. induction v as [|a v IH]; [destruct Hc|]. destruct Hc as [->|Hc].
    - exists "", v. reflexivity.
    - destruct (IH Hc) as (x & y & ->). exists (String a x), y. reflexivity. }
  specialize (H2 c I). cbn [In] in H2.
  repeat split; try (apply Ascii.eqb_neq; intros ->; apply H2; auto 30; fail).
  apply not_true_is_false. intros E. apply existsb_exists in E as (d & Hd & E). apply Ascii.eqb_eq in E. subst d. apply H2.
  unfold shell_special in Hd. cbn [In] in Hd. tauto.
Qed.
Lemma app_assoc_s (a b c : string) : (a ++ b) ++ c = a ++ b ++ c.
Proof. induction a; cbn; congruence. Qed.
Lemma words_plain v : forall cur rest, (forall c, In c (list_ascii_of_string v) ->
  Ascii.eqb c "\" = false /\ Ascii.eqb c "&" = false /\ Ascii.eqb c ";" = false /\ existsb (Ascii.eqb c) shell_special = false) ->
  shell_words cur (old_style v ++ rest) = shell_words (match v with "" => cur | _ => Some (match cur with Some w => w ++ v | None => v end) end) rest.
Proof.
  induction v as [|a v IH]; intros cur rest H; [reflexivity|]. cbn [old_style].
  assert (T : forall c, In c (list_ascii_of_string v) -> Ascii.eqb c "\" = false /\ Ascii.eqb c "&" = false /\ Ascii.eqb c ";" = false /\ existsb (Ascii.eqb c) shell_special = false)
    by (intros c Hc; apply H; right; exact Hc).
  destruct (H a (or_introl eq_refl)) as (E1 & E2 & E3 & E4).
  assert (G : shell_words (Some (match cur with Some w => w ++ String a "" | None => String a "" end)) (old_style v ++ rest) =
    shell_words (Some (match cur with Some w => w ++ String a v | None => String a v end)) rest).
  { rewrite IH by exact T. destruct v as [|b v]; [reflexivity|]. destruct cur; [now rewrite app_assoc_s|reflexivity]. }
  destruct (Ascii.eqb a " ") eqn:Es.
  - apply Ascii.eqb_eq in Es. subst a. cbn [append shell_words]. exact G.
  - cbn [append]. cbn [shell_words]. rewrite E1, Es, E2, E3, E4. cbn [orb]. exact G.
Qed.
Lemma shell_command ws : Forall plain ws -> shell_words None (command_text ws) = Some ws.
Proof.
  intros H. unfold command_text.
  induction H as [|w ws Hw H IH]; [reflexivity|]. destruct (special_plain w Hw) as [W1 W2]. destruct ws as [|w' ws].
  - cbn [map join_with]. replace (old_style w) with (old_style w ++ "") by (clear; induction (old_style w); cbn; congruence). rewrite words_plain by exact W2. destruct w; [contradiction|reflexivity].
  - change (join_with " " (map old_style (w :: w' :: ws))) with (old_style w ++ " " ++ join_with " " (map old_style (w' :: ws))).
    rewrite words_plain by exact W2. destruct w as [|a w]; [contradiction|]. cbn [append shell_words].
    change (Ascii.eqb " " "\") with false. change (Ascii.eqb " " " ") with true. cbv iota. rewrite IH. reflexivity.
Qed.

(** ** The parser *)
Definition flat (ss : list (string * list string)) : list string := flat_map (fun s => fst s :: snd s) ss.
Lemma segments_flat ss : Forall (fun s => dashed (fst s) = true /\ Forall (fun v => dashed v = false) (snd s)) ss -> segments (flat ss) = ([], ss).
Proof.
  induction 1 as [|[k vs] ss [Hk Hv] H IH]; [reflexivity|]. cbn [fst snd] in *. cbn [flat flat_map fst snd app]. cbn [segments]. rewrite Hk.
  assert (E : segments (vs ++ flat ss) = (vs, ss)); [|unfold flat in E; now rewrite E].
  induction Hv as [|v vs Hd Hv IHv]; [exact IH|]. cbn [app segments]. now rewrite IHv, Hd.
Qed.
Definition shown (e : string * option (list string)) : list (string * list string) := match snd e with Some vs => [(fst e, vs)] | None => [] end.
Lemma find_rev {A} (f : A -> bool) l : (forall x y, In x l -> In y l -> f x = true -> f y = true -> x = y) -> find f (rev l) = find f l.
Proof.
  intros H. destruct (find f l) as [x|] eqn:E.
  - apply find_some in E as [Hx Fx]. destruct (find f (rev l)) as [y|] eqn:E'.
    + apply find_some in E' as [Hy Fy]. f_equal. apply H; auto. now apply in_rev.
    + exfalso. apply in_rev in Hx. pose proof (find_none _ _ E' x Hx). congruence.
  - destruct (find f (rev l)) as [y|] eqn:E'; [|reflexivity]. apply find_some in E' as [Hy Fy]. apply in_rev in Hy. pose proof (find_none _ _ E y Hy). congruence.
Qed.
Lemma last_shown k l : NoDup (map fst l) ->
  last_of k (flat_map shown l) = match find (fun e => fst e =? k) l with Some e => snd e | None => None end.
Proof.
  intros N. unfold last_of.
  assert (I : forall s l, In s (flat_map shown l) -> In (fst s, Some (snd s)) l).
  { intros s m Hs. apply in_flat_map in Hs as ([h o] & He & Hs). unfold shown in Hs. cbn in Hs. destruct o; [|destruct Hs]. destruct Hs as [<-|[]]. exact He. }
  rewrite find_rev.
  - induction l as [|[h o] l IH]; [reflexivity|]. inversion N as [|? ? Hn N']; subst. specialize (IH N'). cbn [flat_map]. unfold shown at 1. cbn [snd fst find].
    destruct o as [vs|]; cbn [app find fst].
    + destruct (h =? k); [reflexivity|exact IH].
    + destruct (h =? k) eqn:E; [|exact IH]. cbn [snd]. rewrite IH. apply String.eqb_eq in E. subst h.
      destruct (find _ l) as [e|] eqn:F; [|reflexivity]. apply find_some in F as [Fi Fe]. apply String.eqb_eq in Fe. destruct Hn. rewrite <- Fe. apply in_map. exact Fi.
  - intros [h vs] [h' vs'] Hx Hy Ex Ey. cbn in Ex, Ey. apply String.eqb_eq in Ex, Ey. subst. apply I in Hx, Hy. cbn in Hx, Hy.
    assert (X : Some vs = Some vs'); [|congruence]. clear - N Hx Hy. induction l as [|e l IH]; [destruct Hx|]. inversion N; subst. destruct Hx as [->|Hx], Hy as [Hy|Hy]; try congruence.
    + exfalso. apply H1. apply in_map_iff. exists (k, Some vs'). auto.
    + subst e. exfalso. apply H1. apply in_map_iff. exists (k, Some vs). auto.
    + auto.
Qed.

(** ** CMake's words for no *)
Lemma upper_same a b : upper b = b -> (upper a = b <-> same_letter a b).
Proof.
  intros Hb. unfold upper in *. pose proof (nat_ascii_bounded a) as Ba. pose proof (nat_ascii_bounded b) as Bb.
  assert (L : forall c, (Nat.leb 97 (nat_of_ascii c) && Nat.leb (nat_of_ascii c) 122)%bool = true <-> 97 <= nat_of_ascii c <= 122)
    by (intros c; rewrite andb_true_iff, !Nat.leb_le; reflexivity).
  assert (Hlow : ~ (97 <= nat_of_ascii b <= 122)).
  { intros H. apply L in H as H'. rewrite H' in Hb. apply (f_equal nat_of_ascii) in Hb. rewrite nat_ascii_embedding in Hb by lia. lia. }
  split.
  - destruct (Nat.leb 97 (nat_of_ascii a) && Nat.leb (nat_of_ascii a) 122)%bool eqn:E; intros H.
    + apply L in E. right. exists (nat_of_ascii a - 32). split; [lia|]. right. split; [auto|]. replace (nat_of_ascii a - 32 + 32) with (nat_of_ascii a) by lia. now rewrite ascii_nat_embedding.
    + left. exact H.
  - intros [->|(n & Hn & [[Ha Hb']|[Hb' Ha]])].
    + exact Hb.
    + exfalso. apply Hlow. rewrite Hb', nat_ascii_embedding by lia. lia.
    + assert (X : nat_of_ascii a = n + 32) by (rewrite Ha, nat_ascii_embedding; lia). rewrite X.
      replace (Nat.leb 97 (n + 32) && Nat.leb (n + 32) 122)%bool with true by (symmetry; apply andb_true_iff; rewrite !Nat.leb_le; lia). rewrite Hb'. f_equal. lia.
Qed.
Lemma upper_word s w : upper_case w = w -> (upper_case s = w <-> same_word s w).
Proof.
  unfold same_word. revert w. induction s as [|a s IH]; intros [|b w] Hw; cbn in *.
  - split; [constructor|reflexivity].
  - split; [discriminate|inversion 1].
  - split; [discriminate|inversion 1].
  - injection Hw as Hb Hw. specialize (IH w Hw). pose proof (upper_same a b Hb) as U. split.
    + intros H. injection H as H1 H2. constructor; tauto.
    + intros H. inversion H; subst. f_equal; tauto.
Qed.
Lemma ends_in_iff suffix s : ends_in suffix s = true <-> exists u, s = u ++ suffix.
Proof.
  induction s as [|a s IH]; cbn [ends_in]; rewrite orb_true_iff, String.eqb_eq.
  - split; [intros [H|H]; [exists ""; exact H|discriminate]|]. intros [[|c u] H]; [left; exact H|discriminate].
  - rewrite IH. split.
    + intros [H|[u ->]]; [exists ""; exact H|exists (String a u); reflexivity].
    + intros [[|c u] H]; [left; exact H|]. cbn in H. injection H as -> ->. right. exists u. reflexivity.
Qed.
Lemma off_iff v : is_off v = true <-> means_no v.
Proof.
  unfold is_off, means_no. rewrite !orb_true_iff, ends_in_iff, String.eqb_eq. unfold listed. rewrite existsb_exists.
  assert (X : (exists x, In x [""; "0"; "N"; "NO"; "OFF"; "FALSE"; "IGNORE"] /\ (upper_case v =? x) = true) <->
    exists w, In w [""; "0"; "N"; "NO"; "OFF"; "FALSE"; "IGNORE"] /\ same_word v w).
  { split; intros (w & Hw & H); exists w; (split; [exact Hw|]); [apply String.eqb_eq in H|apply String.eqb_eq]; apply (upper_word v w); auto;
      cbn [In] in Hw; repeat (destruct Hw as [<-|Hw]; [reflexivity|]); destruct Hw. }
  rewrite X. tauto.
Qed.
Definition kept_if (o : option string) : option string := match o with Some v => if is_off v then None else Some v | None => None end.
Lemma kept_heeded o : heeded o (kept_if o).
Proof.
  destruct o as [v|]; cbn; [|reflexivity]. pose proof (off_iff v) as H. destruct (is_off v); split; intros X; auto; [exfalso; apply X; tauto|].
  destruct H as [_ H]. specialize (H X). discriminate.
Qed.
Lemma heeded_kept o l : heeded o l -> l = kept_if o.
Proof. destruct o as [v|]; cbn; [|auto]. intros [A B]. pose proof (off_iff v) as H. destruct (is_off v); [apply A; tauto|apply B; intros X; apply H in X; discriminate]. Qed.

(** ** From the arguments to the program *)
Lemma keyword_word v : ~ In v keywords -> word v = false.
Proof.
  intros H. apply not_true_is_false. intros E. apply H. unfold word, listed in E. rewrite !orb_true_iff, !existsb_exists in E.
  destruct E as [[(x & Hx & E)|(x & Hx & E)]|(x & Hx & E)]; apply String.eqb_eq in E; subst x; revert Hx; unfold option_words, one_words, multi_words, keywords; cbn [In map said fst]; tauto.
Qed.
Lemma undashed_iff v : undashed v <-> dashed v = false.
Proof.
  unfold undashed. destruct v as [|a v]; [split; [reflexivity|intros _ w; discriminate]|].
  destruct (Ascii.eqb a "-") eqn:E.
  - apply Ascii.eqb_eq in E. subst a. split; [intros H; exfalso; apply (H v); reflexivity|discriminate].
  - split; intros H; [|intros w X; injection X as -> _; rewrite Ascii.eqb_refl in E; discriminate].
    cbn. apply Ascii.eqb_neq in E. destruct a as [[] [] [] [] [] [] [] []]; try reflexivity. exfalso. apply E. reflexivity.
Qed.
Lemma plain_app a b : plain a -> (forall c, char_in c b -> plain (String c "")) -> plain (a ++ b).
Proof.
  intros [A1 A2] B. split; [destruct a; [contradiction|discriminate]|]. intros c (x & y & E).
  assert (X : char_in c a \/ char_in c b).
  { clear - E. revert x E. induction a as [|h a IH]; intros x E; [right; exists x, y; exact E|]. destruct x as [|h' x]; cbn in E; injection E as -> E.
    - left. exists "", a. reflexivity.
    - destruct (IH x E) as [(u & w & ->)|H]; [left; exists (String h' u), w; reflexivity|right; exact H]. }
  destruct X as [X|X]; [exact (A2 c X)|]. destruct (B c X) as [_ P]. apply P. exists "", "". reflexivity.
Qed.
Lemma plain_char v c : plain v -> char_in c v -> plain (String c "").
Proof.
  intros [_ H] Hc. split; [discriminate|]. intros d (x & y & E). destruct x as [|h x]; cbn in E; [|injection E as _ E; destruct x; discriminate].
  injection E as -> _. exact (H d Hc).
Qed.
Lemma char_app c a b : char_in c (a ++ b) -> char_in c a \/ char_in c b.
Proof.
  intros (x & y & E). revert x E. induction a as [|h a IH]; intros x E; [right; exists x, y; exact E|]. destruct x as [|h' x]; cbn in E; injection E as -> E.
  - left. exists "", a. reflexivity.
  - destruct (IH x E) as [(u & w & ->)|H]; [left; exists (String h' u), w; reflexivity|right; exact H].
Qed.
Definition plainb (v : string) : bool := negb (v =? "") && forallb (fun c => negb (existsb (Ascii.eqb c) ("\" :: "&" :: ";" :: shell_special)%char)) (list_ascii_of_string v).
Lemma plainb_ok v : plainb v = true -> plain v.
Proof.
  unfold plainb. rewrite andb_true_iff, negb_true_iff, String.eqb_neq. intros [A B]. split; [exact A|]. intros c (x & y & ->) Hc.
  rewrite forallb_forall in B. assert (I : In c (list_ascii_of_string (x ++ String c "" ++ y))) by (clear; induction x; cbn; auto).
  specialize (B c I). rewrite negb_true_iff in B. assert (X : existsb (Ascii.eqb c) ("\" :: "&" :: ";" :: shell_special)%char = true); [|congruence].
  apply existsb_exists. exists c. split; [exact Hc|apply Ascii.eqb_refl].
Qed.
Lemma plain_symbols dir lib : plain dir -> plain lib -> plain (symbols_file dir lib).
Proof.
  intros D L. unfold symbols_file. apply plain_app; [exact D|]. intros c Hc.
  assert (P1 : plain "/undefined_symbols_") by (apply plainb_ok; reflexivity). assert (P2 : plain ".txt") by (apply plainb_ok; reflexivity).
  apply char_app in Hc as [Hc|Hc]; [exact (plain_char _ _ P1 Hc)|]. apply char_app in Hc as [Hc|Hc]; [exact (plain_char _ _ L Hc)|exact (plain_char _ _ P2 Hc)].
Qed.
Lemma undashed_symbols dir lib : plain dir -> undashed dir -> undashed (symbols_file dir lib).
Proof. intros [D _] U w E. destruct dir as [|a dir]; [contradiction|]. unfold symbols_file in E. cbn in E. injection E as -> E. apply (U dir). reflexivity. Qed.

(** The options of the command line, each with its values. *)
Definition command_options (real : string -> string) (dir : string) (r : request) : list (string * option (list string)) :=
  [("--input", Some (map (symbols_file dir) (q_libs r))); ("--json_input", Some (map real (q_json_input r))); ("--cpp_headers", Some (map real (q_headers r)));
   ("--cpp_output", Some [q_cpp r]); ("--json_output", Some [q_json r]); ("--xml_output", Some [q_xml r]); ("--stable_json", Some (map real (q_stable r)));
   ("--forget_old_ids", if q_forget r then Some [] else None); ("--client_name", with_one (kept_if (q_client r))); ("--version", with_one (kept_if (q_version r)));
   ("--guid_id", with_one (kept_if (q_guid_id r))); ("--guid_mask", with_one (kept_if (q_guid_mask r)));
   ("--module_id_max", with_one (kept_if (q_module_max r))); ("--reserved_ids", with_one (kept_if (q_reserved r)))].
Definition script_of (outer : scope) (r : request) : list string := match kept_if (q_script r) with Some v => [v] | None => outer "GEN_STR_CATALOG" end.

Lemma command_said outer real dir python r argn : says r argn -> good_call outer real dir python r ->
  command outer real dir python argn = (python :: script_of outer r ++ flat (flat_map shown (command_options real dir r)))%list.
Proof.
  intros Hs (Ho & Hv & _).
  destruct (arguments_said r argn Hs) as [M F].
  { apply Forall_forall. intros v Iv. destruct (Hv v Iv) as ((P & _) & _ & K). split; [exact P|now apply keyword_word]. }
  assert (O1 : forall k o, many k (arguments argn) = match with_one o with Some vs => vs | None => [] end -> one k (arguments argn) = o).
  { intros k o E. unfold one. rewrite E. destruct o; reflexivity. }
  assert (E1 : one "OUTPUT_CPP" (arguments argn) = Some (q_cpp r)) by (apply O1; rewrite M; reflexivity).
  assert (E2 : one "OUTPUT_JSON" (arguments argn) = Some (q_json r)) by (apply O1; rewrite M; reflexivity).
  assert (E3 : one "OUTPUT_XML" (arguments argn) = Some (q_xml r)) by (apply O1; rewrite M; reflexivity).
  assert (E4 : one "CLIENT_NAME" (arguments argn) = q_client r) by (apply O1; rewrite M; cbn; apply app_nil_r).
  assert (E5 : one "VERSION" (arguments argn) = q_version r) by (apply O1; rewrite M; cbn; apply app_nil_r).
  assert (E6 : one "GUID_ID" (arguments argn) = q_guid_id r) by (apply O1; rewrite M; cbn; apply app_nil_r).
  assert (E7 : one "GUID_MASK" (arguments argn) = q_guid_mask r) by (apply O1; rewrite M; cbn; apply app_nil_r).
  assert (E8 : one "MODULE_ID_MAX" (arguments argn) = q_module_max r) by (apply O1; rewrite M; cbn; apply app_nil_r).
  assert (E9 : one "RESERVED_IDS" (arguments argn) = q_reserved r) by (apply O1; rewrite M; cbn; apply app_nil_r).
  assert (E10 : one "GEN_STR_CATALOG" (arguments argn) = q_script r) by (apply O1; rewrite M; cbn; apply app_nil_r).
  assert (W : forall l, match with_some l with Some vs => vs | None => [] end = l) by (intros [|? ?]; reflexivity).
  assert (E11 : many "INPUT_LIBS" (arguments argn) = q_libs r) by (rewrite M; cbn; rewrite app_nil_r; apply W).
  assert (E12 : many "INPUT_JSON" (arguments argn) = q_json_input r) by (rewrite M; cbn; rewrite app_nil_r; apply W).
  assert (E13 : many "INPUT_HEADERS" (arguments argn) = q_headers r) by (rewrite M; cbn; rewrite app_nil_r; apply W).
  assert (E14 : many "STABLE_JSON" (arguments argn) = q_stable r) by (rewrite M; cbn; rewrite app_nil_r; apply W).
  assert (Op : forall var arg k o, In var leaks -> one k (arguments argn) = o ->
    optional outer var arg k (arguments argn) = flat (shown (arg, with_one (kept_if o)))).
  { intros var arg k o L E. unfold optional. rewrite E. destruct o as [v|]; cbn; [destruct (is_off v); cbn|]; auto. }
  unfold command. cbv zeta. rewrite E1, E2, E3, E10, F. unfold undefs, appended. rewrite E11, E12, E13, E14.
  assert (In "CLIENT_NAME_ARG" leaks /\ In "VERSION_ARG" leaks /\ In "GUID_ID_ARG" leaks /\ In "GUID_MASK_ARG" leaks /\
    In "MODULE_ID_MAX_ARG" leaks /\ In "RESERVED_IDS_ARG" leaks) as (L1 & L2 & L3 & L4 & L5 & L6) by (unfold leaks; cbn; tauto).
  rewrite (Op _ "--client_name" _ _ L1 E4), (Op _ "--version" _ _ L2 E5), (Op _ "--guid_id" _ _ L3 E6), (Op _ "--guid_mask" _ _ L4 E7), (Op _ "--module_id_max" _ _ L5 E8), (Op _ "--reserved_ids" _ _ L6 E9).
  rewrite (Ho "INPUT_JSON"), (Ho "INPUT_HEADERS"), (Ho "STABLE_JSON"), (Ho "FORGET_ARG") by (unfold leaks; cbn; tauto).
  unfold script_of. unfold command_options. cbn [flat_map]. unfold flat. rewrite !flat_map_app. cbn [opt_list app].
  replace (match q_script r with Some v => if is_off v then outer "GEN_STR_CATALOG" else [v] | None => outer "GEN_STR_CATALOG" end)
    with (match kept_if (q_script r) with Some v => [v] | None => outer "GEN_STR_CATALOG" end) by (destruct (q_script r) as [v|]; cbn; [destruct (is_off v)|]; reflexivity).
  f_equal. f_equal. destruct (q_forget r); cbn [shown snd fst flat_map app]; rewrite ?app_nil_r, <- ?app_assoc; cbn [app]; reflexivity.
Qed.
Lemma options_good real dir r outer python : good_call outer real dir python r ->
  Forall (fun s => plain (fst s) /\ dashed (fst s) = true /\ Forall (fun v => plain v /\ dashed v = false) (snd s)) (flat_map shown (command_options real dir r)) /\
  forallb accepted (flat_map shown (command_options real dir r)) = true.
Proof.
  intros (Ho & Hv & Hl & Hd & Hd' & Hp & Hr).
  assert (G : forall v, In v (all_values r) -> plain v /\ dashed v = false) by (intros v Iv; destruct (Hv v Iv) as (A & B & _); split; [exact A|now apply undashed_iff]).
  assert (R : forall l, incl l (q_json_input r ++ q_headers r ++ q_stable r) -> Forall (fun v => plain v /\ dashed v = false) (map real l)).
  { intros l Il. apply Forall_forall. intros v Iv. apply in_map_iff in Iv as (w & <- & Iw). destruct (Hr w (Il w Iw)) as [A B]. split; [exact A|now apply undashed_iff]. }
  assert (V : forall k o, In (k, Some o) (said r) -> Forall (fun v => plain v /\ dashed v = false) o).
  { intros k o Hin. apply Forall_forall. intros v Iv. apply G. unfold all_values. apply in_flat_map. exists (k, Some o). auto. }
  assert (K : forall k o, In (k, with_one o) (said r) -> match with_one (kept_if o) with Some vs => Forall (fun v => plain v /\ dashed v = false) vs /\ length vs = 1 | None => True end).
  { intros k [v|] Hin; cbn; [|exact I]. destruct (is_off v); cbn; [exact I|]. split; [exact (V k [v] Hin)|reflexivity]. }
  split.
  - apply Forall_forall. intros s Hs. apply in_flat_map in Hs as (e & He & Hs). unfold command_options in He. cbn [In] in He.
    repeat (destruct He as [<-|He]; [unfold shown in Hs; cbn [snd fst] in Hs|]); [..|destruct He];
    try (destruct Hs as [<-|[]]; cbn [fst snd]; split; [apply plainb_ok; reflexivity|split; [reflexivity|]]).
    + apply Forall_forall. intros v Iv. apply in_map_iff in Iv as (l & <- & Il). split; [apply plain_symbols; auto|apply undashed_iff; now apply undashed_symbols].
      apply (G l). unfold all_values, said. cbn [flat_map snd]. destruct (q_libs r) as [|l0 ls]; [destruct Il|]. cbn [with_some]. rewrite !in_app_iff. auto 10.
    + apply R. intros v Iv. apply in_app_iff. auto.
    + apply R. intros v Iv. rewrite !in_app_iff. auto.
    + apply (V "OUTPUT_CPP"). unfold said. cbn. auto.
    + apply (V "OUTPUT_JSON"). unfold said. cbn. auto.
    + apply (V "OUTPUT_XML"). unfold said. cbn. auto.
    + apply R. intros v Iv. rewrite !in_app_iff. auto.
    + destruct (q_forget r); [|destruct Hs]. destruct Hs as [<-|[]]. split; [apply plainb_ok; reflexivity|split; [reflexivity|constructor]].
    + assert (X := K "CLIENT_NAME" (q_client r) ltac:(unfold said; cbn; tauto)). destruct (with_one (kept_if (q_client r))); [|destruct Hs]. destruct Hs as [<-|[]]. split; [apply plainb_ok; reflexivity|split; [reflexivity|tauto]].
    + assert (X := K "VERSION" (q_version r) ltac:(unfold said; cbn; tauto)). destruct (with_one (kept_if (q_version r))); [|destruct Hs]. destruct Hs as [<-|[]]. split; [apply plainb_ok; reflexivity|split; [reflexivity|tauto]].
    + assert (X := K "GUID_ID" (q_guid_id r) ltac:(unfold said; cbn; tauto)). destruct (with_one (kept_if (q_guid_id r))); [|destruct Hs]. destruct Hs as [<-|[]]. split; [apply plainb_ok; reflexivity|split; [reflexivity|tauto]].
    + assert (X := K "GUID_MASK" (q_guid_mask r) ltac:(unfold said; cbn; tauto)). destruct (with_one (kept_if (q_guid_mask r))); [|destruct Hs]. destruct Hs as [<-|[]]. split; [apply plainb_ok; reflexivity|split; [reflexivity|tauto]].
    + assert (X := K "MODULE_ID_MAX" (q_module_max r) ltac:(unfold said; cbn; tauto)). destruct (with_one (kept_if (q_module_max r))); [|destruct Hs]. destruct Hs as [<-|[]]. split; [apply plainb_ok; reflexivity|split; [reflexivity|tauto]].
    + assert (X := K "RESERVED_IDS" (q_reserved r) ltac:(unfold said; cbn; tauto)). destruct (with_one (kept_if (q_reserved r))); [|destruct Hs]. destruct Hs as [<-|[]]. split; [apply plainb_ok; reflexivity|split; [reflexivity|tauto]].
  - apply forallb_forall. intros s Hs. apply in_flat_map in Hs as (e & He & Hs). unfold command_options in He. cbn [In] in He.
    repeat (destruct He as [<-|He]; [unfold shown in Hs; cbn [snd fst] in Hs|]); [..|destruct He];
    try (destruct Hs as [<-|[]]; cbn; try reflexivity; fail).
    + destruct Hs as [<-|[]]. unfold accepted. cbn. destruct (q_libs r); [contradiction|reflexivity].
    + destruct (q_forget r); [|destruct Hs]. destruct Hs as [<-|[]]. reflexivity.
    + destruct (kept_if (q_client r)); [|destruct Hs]. destruct Hs as [<-|[]]. reflexivity.
    + destruct (kept_if (q_version r)); [|destruct Hs]. destruct Hs as [<-|[]]. reflexivity.
    + destruct (kept_if (q_guid_id r)); [|destruct Hs]. destruct Hs as [<-|[]]. reflexivity.
    + destruct (kept_if (q_guid_mask r)); [|destruct Hs]. destruct Hs as [<-|[]]. reflexivity.
    + destruct (kept_if (q_module_max r)); [|destruct Hs]. destruct Hs as [<-|[]]. reflexivity.
    + destruct (kept_if (q_reserved r)); [|destruct Hs]. destruct Hs as [<-|[]]. reflexivity.
Qed.
Definition program_for (real : string -> string) (dir : string) (r : request) (client version guid_id guid_mask module_max reserved : option string) : option program :=
  match match module_max with Some v => int10 v | None => Some 127%Z end, intervals (or_default "" reserved) with
  | Some m, Some l =>
    Some {| g_input := map (symbols_file dir) (q_libs r); g_cpp := Some (q_cpp r); g_json := Some (q_json r); g_xml := Some (q_xml r);
            g_json_input := map real (q_json_input r); g_headers := map real (q_headers r);
            g_client := or_default default_client client; g_version := or_default default_version version;
            g_guid_id := or_default default_guid_id guid_id; g_guid_mask := or_default default_guid_mask guid_mask;
            g_stable := map real (q_stable r); g_forget := q_forget r; g_module_max := m; g_reserved := l |}
  | _, _ => None
  end.
Lemma parse_options real dir r outer python : good_call outer real dir python r ->
  parse_cmdline (flat (flat_map shown (command_options real dir r))) =
  program_for real dir r (kept_if (q_client r)) (kept_if (q_version r)) (kept_if (q_guid_id r)) (kept_if (q_guid_mask r)) (kept_if (q_module_max r)) (kept_if (q_reserved r)).
Proof.
  intros G. destruct (options_good real dir r outer python G) as [A B].
  assert (N : NoDup (map fst (command_options real dir r))) by (unfold command_options; cbn; repeat (constructor; [cbn; intuition discriminate|]); constructor).
  unfold parse_cmdline. rewrite segments_flat.
  2:{ eapply Forall_impl; [|exact A]. intros s (_ & S1 & S2). split; [exact S1|]. eapply Forall_impl; [|exact S2]. cbn. tauto. }
  rewrite B. assert (I : existsb (fun s => fst s =? "--input") (flat_map shown (command_options real dir r)) = true) by reflexivity. rewrite I. cbn [andb].
  assert (V1 : forall k vs, find (fun e => fst e =? k) (command_options real dir r) = Some (k, Some vs) -> values_of k (flat_map shown (command_options real dir r)) = vs).
  { intros k vs E. unfold values_of. rewrite (last_shown k _ N), E. reflexivity. }
  assert (V2 : forall k o, find (fun e => fst e =? k) (command_options real dir r) = Some (k, with_one o) -> value_of k (flat_map shown (command_options real dir r)) = o).
  { intros k o E. unfold value_of. rewrite (last_shown k _ N), E. destruct o; reflexivity. }
  rewrite (V1 "--input" _ eq_refl), (V1 "--json_input" _ eq_refl), (V1 "--cpp_headers" _ eq_refl), (V1 "--stable_json" _ eq_refl).
  rewrite (V2 "--cpp_output" (Some (q_cpp r)) eq_refl), (V2 "--json_output" (Some (q_json r)) eq_refl), (V2 "--xml_output" (Some (q_xml r)) eq_refl).
  rewrite (V2 "--client_name" _ eq_refl), (V2 "--version" _ eq_refl), (V2 "--guid_id" _ eq_refl), (V2 "--guid_mask" _ eq_refl),
    (V2 "--module_id_max" _ eq_refl), (V2 "--reserved_ids" _ eq_refl).
  assert (F : existsb (fun s => fst s =? "--forget_old_ids") (flat_map shown (command_options real dir r)) = q_forget r).
  { unfold command_options. cbn [flat_map]. rewrite !existsb_app. cbn. destruct (q_forget r); cbn; [reflexivity|].
    destruct (kept_if (q_client r)), (kept_if (q_version r)); cbn; destruct (kept_if (q_guid_id r)), (kept_if (q_guid_mask r)); cbn; destruct (kept_if (q_module_max r)), (kept_if (q_reserved r)); reflexivity. }
  rewrite F. reflexivity.
Qed.
Lemma run_said outer real dir python r argn script : says r argn -> good_call outer real dir python r -> script_of outer r = [script] -> plain script ->
  generator_run outer real dir python argn = Some (script, program_for real dir r (kept_if (q_client r)) (kept_if (q_version r)) (kept_if (q_guid_id r))
    (kept_if (q_guid_mask r)) (kept_if (q_module_max r)) (kept_if (q_reserved r))).
Proof.
  intros Hs G Hc Pc. unfold generator_run. rewrite (command_said outer real dir python r argn Hs G), Hc. rewrite shell_command.
  - cbn [app]. rewrite (parse_options real dir r outer python G). reflexivity.
  - destruct (options_good real dir r outer python G) as [A _]. constructor; [apply G|]. constructor; [exact Pc|].
    apply Forall_forall. intros w Hw. apply in_flat_map in Hw as (s & Hs' & Hw). rewrite Forall_forall in A. destruct (A s Hs') as (S1 & _ & S2). destruct Hw as [<-|Hw]; [exact S1|].
    rewrite Forall_forall in S2. apply (S2 w Hw).
Qed.

(** ** Up to date *)
Section Fresh.
  Variables (deps reads : list string) (gen : list string -> list string).
  (** The file a change of which is pending since the last run. *)
  Lemma build_fresh t : (forall f, changed_at t f <= now t) -> (forall m o, made t = Some (m, o) -> m <= now t) ->
    let t' := build deps reads gen t in (forall f, changed_at t' f <= now t') /\ (forall m o, made t' = Some (m, o) -> m <= now t') /\ contents t' = contents t /\ made t' <> None.
  Proof.
    intros H1 H2. unfold build. cbv zeta. destruct (made t) as [[m o]|] eqn:E.
    - destruct (forallb _ deps); cbn.
      + split; [exact H1|]. split; [intros m' o' X; rewrite E in X; exact (H2 m' o' X)|]. split; [reflexivity|congruence].
      + split; [intros f; specialize (H1 f); lia|]. split; [intros m' o' X; injection X as <- _; lia|]. split; [reflexivity|discriminate].
    - cbn. split; [intros f; specialize (H1 f); lia|]. split; [intros m' o' X; injection X as <- _; lia|]. split; [reflexivity|discriminate].
  Qed.
  Lemma history_covered ss : forall t first (other dep : Prop), (forall f, changed_at t f <= now t) -> (forall m o, made t = Some (m, o) -> m <= now t) ->
    (first = true -> made t = None) ->
    (first = false -> exists m o, made t = Some (m, o) /\ (dep <-> exists f, In f deps /\ m < changed_at t f) /\ (~ other -> ~ dep -> o = gen (map (contents t) reads))) ->
    covered deps reads first other dep ss -> ss <> [] -> last ss Build = Build -> up_to_date reads gen (history deps reads gen t ss).
  Proof.
    induction ss as [|s ss IH]; intros t first other dep H1 H2 Hf Hn Hc Hne Hl; [contradiction|]. cbn [history fold_left].
    destruct s as [f text|].
    - cbn [covered] in Hc. destruct ss as [|s' ss]; [cbn in Hl; discriminate|].
      eapply (IH (edit f text t) first); try exact Hc; try discriminate; try exact Hl.
      + intros g. cbn. specialize (H1 g). destruct (g =? f); lia.
      + intros m o E. cbn in *. specialize (H2 m o E). lia.
      + exact Hf.
      + intros E. destruct (Hn E) as (m & o & M & D & U). exists m, o. split; [exact M|]. split.
        * cbn [changed_at edit]. split.
          -- intros [X|X]; [apply D in X as (g & Hg & X); exists g; split; auto; destruct (g =? f); [specialize (H2 m o M); lia|exact X]|].
             exists f. rewrite String.eqb_refl. specialize (H2 m o M). split; [exact X|lia].
          -- intros (g & Hg & X). destruct (g =? f) eqn:Eg; [apply String.eqb_eq in Eg; subst; auto|left; apply D; eauto].
        * intros X Y. assert (O : o = gen (map (contents t) reads)) by (apply U; tauto). rewrite O. f_equal. apply map_ext_in. intros g Hg. cbn. destruct (g =? f) eqn:Eg; [|reflexivity].
          apply String.eqb_eq in Eg. subst g. exfalso. apply X. right. split; [exact Hg|]. tauto.
    - cbn [covered] in Hc. destruct Hc as [Hb Hc]. destruct (build_fresh t H1 H2) as (B1 & B2 & B3 & B4). cbn zeta in *.
      assert (U : exists m, made (build deps reads gen t) = Some (m, gen (map (contents (build deps reads gen t)) reads)) /\ forall g, In g deps -> changed_at (build deps reads gen t) g <= m).
      { rewrite B3. unfold build in *. destruct first.
        - rewrite (Hf eq_refl) in *. cbn. eexists. split; [reflexivity|]. intros g _. specialize (H1 g). lia.
        - destruct (Hn eq_refl) as (m & o & M & D & U). rewrite M in *. destruct (forallb (fun f => Nat.leb (changed_at t f) m) deps) eqn:F.
          + rewrite M. exists m. rewrite forallb_forall in F. assert (Nd : ~ dep).
            { intros X. apply D in X as (g & Hg & X). specialize (F g Hg). apply Nat.leb_le in F. lia. }
            split; [|intros g Hg; apply Nat.leb_le, F, Hg]. rewrite U; auto. destruct Hb as [Hb|Hb]; [discriminate|tauto].
          + cbn. eexists. split; [reflexivity|]. intros g _. specialize (H1 g). lia. }
      destruct U as (m & U & Um). destruct ss as [|s' ss]; [exists m; exact U|].
      eapply (IH (build deps reads gen t) false False False); auto; try discriminate.
      intros _. exists m. eexists. split; [exact U|]. split; [|auto]. split; [tauto|]. intros (g & Hg & X). specialize (Um g Hg). lia.
  Qed.
End Fresh.

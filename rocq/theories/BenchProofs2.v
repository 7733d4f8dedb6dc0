From Coq Require Import String Ascii Bool Arith List ZArith Lia Permutation.
From Verif Require Import CatalogModel GenModel GenProofs3 BenchModel BenchSpec BenchProofs.
Import ListNotations.
Local Open Scope string_scope.

Lemma name_ok a b : name_eqb a b = true <-> a = b.
Proof. destruct a as [x|], b as [y|]; cbn; rewrite ?String.eqb_eq; split; congruence. Qed.
Section L.
Context {F : Type}.
Variable to_float : string -> option F.
Variable to_int : string -> option Z.
Notation titled := (titled strip).
Notation untitled := (untitled strip).
Notation current := (current strip).
Notation times := (times to_float strip).
Notation timed := (timed to_float strip).
Notation last_time := (last_time to_float strip).
Notation some_time := (some_time to_float strip).
Notation size_then := (size_then to_float to_int strip).
Notation dict := (@dict F).
Notation kept := (@kept F).

Definition found (d : dict) (ds alg : name) : option kept :=
  match get name_eqb ds d with Some a => get name_eqb alg a | None => None end.
Lemma cell_found {A} (f : kept -> option A) d ds alg : cell f d ds alg = match found d ds alg with Some k => f k | None => None end.
Proof. unfold cell, found. now destruct (get name_eqb ds d). Qed.
Lemma found_record st label v ds alg :
  found (s_data (record st label v)) ds alg =
  if name_dec ds (s_dataset st) then if name_dec alg (s_algorithm st) then
    Some (note label v match found (s_data st) ds alg with Some k => k | None => {| k_size := s_size st; k_chained := None; k_independent := None |} end)
  else found (s_data st) ds alg else found (s_data st) ds alg.
Proof.
  unfold found, record. cbn [s_data]. destruct (name_dec ds (s_dataset st)) as [->|N].
  - rewrite (get_put_same _ name_ok). destruct (name_dec alg (s_algorithm st)) as [->|M].
    + rewrite (get_put_same _ name_ok). now destruct (get name_eqb (s_dataset st) (s_data st)).
    + rewrite (get_put_other _ name_ok) by congruence. now destruct (get name_eqb (s_dataset st) (s_data st)).
  - now rewrite (get_put_other _ name_ok) by congruence.
Qed.

(** What the variables hold after the lines *)
Definition inv (lines : list string) (st : @state F) : Prop :=
  current "dataset" lines (s_dataset st) /\ current "algorithm" lines (s_algorithm st) /\
  match s_size st with Some n => exists t, current "size" lines (Some t) /\ to_int t = Some n | None => current "size" lines None end /\
  (forall ds alg, some_time lines ds alg <-> found (s_data st) ds alg <> None) /\
  (forall ds alg v, last_time lines ds alg Chained v <-> cell k_chained (s_data st) ds alg = Some v) /\
  (forall ds alg v, last_time lines ds alg Independent v <-> cell k_independent (s_data st) ds alg = Some v) /\
  (forall ds alg n, size_then lines ds alg n <-> cell k_size (s_data st) ds alg = Some n).

Lemma title_no_times word l n k v : ~ In ":"%char (chars word) -> (match word with String "|" _ => False | String _ _ => True | _ => False end) ->
  titled word l n -> ~ times l k v.
Proof.
  intros W H T E. apply titled_spec in T as (T & _); [|exact W]. apply times_spec in E as (label & R & _). unfold row in R.
  destruct (starts "|" (strip l)) eqn:S; [|discriminate]. destruct word as [|a word]; [contradiction|].
  pose proof (starts_head (word ++ ":") (strip l) "" (strip l) a "|" T S eq_refl) as ->. exact H.
Qed.
Lemma cDS : ~ In ":"%char (chars "dataset"). Proof. cbn. intuition discriminate. Qed.
Lemma cAL : ~ In ":"%char (chars "algorithm"). Proof. cbn. intuition discriminate. Qed.
Lemma cSI : ~ In ":"%char (chars "size"). Proof. cbn. intuition discriminate. Qed.

(** A line that is not a time keeps what was said of times. *)
Lemma data_same lines x st d : inv lines st -> (forall k v, ~ times x k v) -> d = s_data st ->
  (forall ds alg, some_time (lines ++ [x]) ds alg <-> found d ds alg <> None) /\
  (forall ds alg v, last_time (lines ++ [x]) ds alg Chained v <-> cell k_chained d ds alg = Some v) /\
  (forall ds alg v, last_time (lines ++ [x]) ds alg Independent v <-> cell k_independent d ds alg = Some v) /\
  (forall ds alg n, size_then (lines ++ [x]) ds alg n <-> cell k_size d ds alg = Some n).
Proof.
  intros (_ & _ & _ & P & C & I & S) N ->.
  assert (T : forall ds alg k v, ~ timed lines x ds alg k v) by (intros ds alg k v (T & _); exact (N _ _ T)).
  split; [|split; [|split]].
  - intros ds alg. rewrite some_snoc, <- P. split; [intros [H|(k & v & H)]; [exact H|now apply T in H]|auto].
  - intros ds alg v. rewrite last_snoc, <- C. split; [intros [H|(H & _)]; [now apply T in H|exact H]|]. intros H. right. split; [exact H|intros v'; apply T].
  - intros ds alg v. rewrite last_snoc, <- I. split; [intros [H|(H & _)]; [now apply T in H|exact H]|]. intros H. right. split; [exact H|intros v'; apply T].
  - intros ds alg n. rewrite size_snoc, <- S. split; [intros [H|((k & v & H) & _)]; [exact H|now apply T in H]|auto].
Qed.
Lemma not_titled word x : ~ In ":"%char (chars word) -> starts (word ++ ":") (strip x) = false -> untitled word [x].
Proof. intros W S l n [<-|[]] T. apply titled_spec in T as (T & _); [|exact W]. congruence. Qed.
Lemma keep_current word lines x o : ~ In ":"%char (chars word) -> starts (word ++ ":") (strip x) = false -> current word lines o -> current word (lines ++ [x]) o.
Proof.
  intros W S C. apply current_snoc; [exact W|]. pose proof (not_titled _ _ W S). destruct o; [right|]; auto.
Qed.
Lemma starts_other p q a b s : starts (String a p) s = true -> Ascii.eqb a b = false -> starts (String b q) s = false.
Proof. intros S N. destruct (starts (String b q) s) eqn:E; [|reflexivity]. pose proof (starts_head _ _ _ _ _ _ S E eq_refl) as ->. now rewrite Ascii.eqb_refl in N. Qed.

Lemma inv_step lines st x st' : inv lines st -> step to_float to_int st x = Some st' -> inv (lines ++ [x]) st'.
Proof.
  intros I. pose proof I as I0. destruct I as (ID & IA & IS & P & C & J & Z). unfold step.
  destruct (starts "dataset:" (strip x)) eqn:SD; [|destruct (starts "algorithm:" (strip x)) eqn:SA; [|destruct (starts "size:" (strip x)) eqn:SS]].
  - intros E. assert (st' = {| s_data := s_data st; s_dataset := Some (after_colon (strip x)); s_algorithm := s_algorithm st; s_size := s_size st |}) as -> by congruence.
    assert (T : titled "dataset" x (after_colon (strip x))) by (apply titled_spec; [apply cDS|split; [exact SD|reflexivity]]).
    assert (N : forall k v, ~ times x k v) by (intros k v; eapply title_no_times; [apply cDS|exact Logic.I|exact T]).
    pose proof (starts_other _ "lgorithm:" _ "a" _ SD eq_refl) as OA. pose proof (starts_other _ "ize:" _ "s" _ SD eq_refl) as OS.
    split; [|split; [|split; [|exact (data_same _ _ _ _ I0 N eq_refl)]]]; cbn [s_dataset s_algorithm s_size s_data].
    + apply current_snoc; [apply cDS|]. now left.
    + apply keep_current; [apply cAL|exact OA|exact IA].
    + destruct (s_size st) as [n|]; [destruct IS as (t & IS & V); exists t; split; [|exact V]|]; (apply keep_current; [apply cSI|exact OS|exact IS]).
  - intros E. assert (st' = {| s_data := s_data st; s_dataset := s_dataset st; s_algorithm := Some (after_colon (strip x)); s_size := s_size st |}) as -> by congruence.
    assert (T : titled "algorithm" x (after_colon (strip x))) by (apply titled_spec; [apply cAL|split; [exact SA|reflexivity]]).
    assert (N : forall k v, ~ times x k v) by (intros k v; eapply title_no_times; [apply cAL|exact Logic.I|exact T]).
    pose proof (starts_other _ "ize:" _ "s" _ SA eq_refl) as OS.
    split; [|split; [|split; [|exact (data_same _ _ _ _ I0 N eq_refl)]]]; cbn [s_dataset s_algorithm s_size s_data].
    + apply keep_current; [apply cDS|exact SD|exact ID].
    + apply current_snoc; [apply cAL|]. now left.
    + destruct (s_size st) as [n|]; [destruct IS as (t & IS & V); exists t; split; [|exact V]|]; (apply keep_current; [apply cSI|exact OS|exact IS]).
  - destruct (to_int (after_colon (strip x))) as [n|] eqn:V; [|discriminate].
    intros E. assert (st' = {| s_data := s_data st; s_dataset := s_dataset st; s_algorithm := s_algorithm st; s_size := Some n |}) as -> by congruence.
    assert (T : titled "size" x (after_colon (strip x))) by (apply titled_spec; [apply cSI|split; [exact SS|reflexivity]]).
    assert (N : forall k v, ~ times x k v) by (intros k v; eapply title_no_times; [apply cSI|exact Logic.I|exact T]).
    split; [|split; [|split; [|exact (data_same _ _ _ _ I0 N eq_refl)]]]; cbn [s_dataset s_algorithm s_size s_data].
    + apply keep_current; [apply cDS|exact SD|exact ID].
    + apply keep_current; [apply cAL|exact SA|exact IA].
    + exists (after_colon (strip x)). split; [|exact V]. apply current_snoc; [apply cSI|]. now left.
  - intros E. assert (R : match row to_float (strip x) with Some (label, v) => record st label v | None => st end = st').
    { unfold row. destruct (starts "|" (strip x)); [|congruence].
      destruct (tl (split "|" (strip x))) as [|f0 [|f1 [|f2 [|f3 [|f4 l]]]]]; try congruence.
      destruct (to_float (strip f0)); cbn; congruence. }
    clear E. pose proof (keep_current _ _ _ _ cDS SD ID) as ID'. pose proof (keep_current _ _ _ _ cAL SA IA) as IA'.
    assert (IS' : match s_size st with Some n => exists t, current "size" (lines ++ [x]) (Some t) /\ to_int t = Some n | None => current "size" (lines ++ [x]) None end).
    { destruct (s_size st) as [n|]; [destruct IS as (t & IS & V); exists t; split; [|exact V]|]; (apply keep_current; [apply cSI|exact SS|exact IS]). }
    destruct (row to_float (strip x)) as [[label v]|] eqn:Rw.
    + subst st'. split; [exact ID'|]. split; [exact IA'|]. split; [exact IS'|].
      assert (T : forall ds alg k w, timed lines x ds alg k w <-> ds = s_dataset st /\ alg = s_algorithm st /\ k = kind_of label /\ w = v).
      { intros ds alg k w. unfold BenchSpec.timed. rewrite times_spec, Rw. split.
        - intros ((lb & El & K) & Cd & Ca). assert (lb = label /\ w = v) as (-> & ->) by (split; congruence).
          split; [eapply current_fun; [apply cDS|exact Cd|exact ID]|]. split; [eapply current_fun; [apply cAL|exact Ca|exact IA]|]. auto.
        - intros (-> & -> & -> & ->). split; [exists label; auto|]. split; assumption. }
      split; [|split; [|split]].
      * intros ds alg. rewrite some_snoc, P, found_record.
        destruct (name_dec ds (s_dataset st)) as [->|N1]; [destruct (name_dec alg (s_algorithm st)) as [->|N2]|].
        -- split; [discriminate|]. intros _. right. exists (kind_of label), v. apply T. auto.
        -- split; [intros [H|(k & w & H)]; [exact H|apply T in H; tauto]|auto].
        -- split; [intros [H|(k & w & H)]; [exact H|apply T in H; tauto]|auto].
      * intros ds alg w. rewrite last_snoc, cell_found, found_record, C, cell_found.
        destruct (name_dec ds (s_dataset st)) as [->|N1]; [destruct (name_dec alg (s_algorithm st)) as [->|N2]|].
        -- unfold note. unfold kind_of in T. destruct (within "chained" label).
           ++ cbn [k_chained]. split; [intros [H|(_ & H)]; [apply T in H as (_ & _ & _ & ->); reflexivity|]|].
              ** exfalso. apply (H v), T. auto.
              ** intros [= ->]. left. apply T. auto.
           ++ assert (N : forall w', ~ timed lines x (s_dataset st) (s_algorithm st) Chained w').
              { intros w' H. apply T in H as (_ & _ & K & _). destruct (within "independent" label); discriminate. }
              destruct (within "independent" label); cbn [k_chained];
                (destruct (found (s_data st) (s_dataset st) (s_algorithm st)) as [k|]; cbn [k_chained];
                 (split; [intros [H|(H & _)]; [now apply N in H|exact H]|intros H; right; split; [exact H|exact N]])).
        -- split; [intros [H|(H & _)]; [apply T in H; tauto|exact H]|]. intros H. right. split; [exact H|]. intros w' H'. apply T in H'. tauto.
        -- split; [intros [H|(H & _)]; [apply T in H; tauto|exact H]|]. intros H. right. split; [exact H|]. intros w' H'. apply T in H'. tauto.
      * intros ds alg w. rewrite last_snoc, cell_found, found_record, J, cell_found.
        destruct (name_dec ds (s_dataset st)) as [->|N1]; [destruct (name_dec alg (s_algorithm st)) as [->|N2]|].
        -- unfold note. unfold kind_of in T. destruct (within "chained" label); [|destruct (within "independent" label)].
           ++ assert (N : forall w', ~ timed lines x (s_dataset st) (s_algorithm st) Independent w').
              { intros w' H. apply T in H as (_ & _ & K & _). discriminate. }
              cbn [k_independent]. destruct (found (s_data st) (s_dataset st) (s_algorithm st)) as [k|]; cbn [k_independent];
                 (split; [intros [H|(H & _)]; [now apply N in H|exact H]|intros H; right; split; [exact H|exact N]]).
           ++ cbn [k_independent]. split; [intros [H|(_ & H)]; [apply T in H as (_ & _ & _ & ->); reflexivity|]|].
              ** exfalso. apply (H v), T. auto.
              ** intros [= ->]. left. apply T. auto.
           ++ assert (N : forall w', ~ timed lines x (s_dataset st) (s_algorithm st) Independent w').
              { intros w' H. apply T in H as (_ & _ & K & _). discriminate. }
              destruct (found (s_data st) (s_dataset st) (s_algorithm st)) as [k|]; cbn [k_independent];
                 (split; [intros [H|(H & _)]; [now apply N in H|exact H]|intros H; right; split; [exact H|exact N]]).
        -- split; [intros [H|(H & _)]; [apply T in H; tauto|exact H]|]. intros H. right. split; [exact H|]. intros w' H'. apply T in H'. tauto.
        -- split; [intros [H|(H & _)]; [apply T in H; tauto|exact H]|]. intros H. right. split; [exact H|]. intros w' H'. apply T in H'. tauto.
      * intros ds alg n. rewrite size_snoc, cell_found, found_record, Z, cell_found, P.
        destruct (name_dec ds (s_dataset st)) as [->|N1]; [destruct (name_dec alg (s_algorithm st)) as [->|N2]|].
        -- assert (KS : forall k, k_size (note label v k) = k_size k) by (intros k; unfold note; destruct (within "chained" label), (within "independent" label); reflexivity).
           rewrite KS. destruct (found (s_data st) (s_dataset st) (s_algorithm st)) as [k|]; cbn [k_size].
           ++ split; [intros [H|(_ & H & _)]; [exact H|]|auto]. exfalso. apply H. discriminate.
           ++ split.
              ** intros [H|(_ & _ & t & H & Hn)]; [discriminate|]. destruct (s_size st) as [m|]; [|exfalso].
                 --- destruct IS as (t' & IS & V). pose proof (current_fun _ _ cSI _ _ H IS). congruence.
                 --- pose proof (current_fun _ _ cSI _ _ H IS). discriminate.
              ** intros H. right. split; [exists (kind_of label), v; apply T; auto|]. split; [intros X; now apply X|].
                 rewrite H in IS. exact IS.
        -- split; [intros [H|((k & w & H) & _)]; [exact H|apply T in H; tauto]|auto].
        -- split; [intros [H|((k & w & H) & _)]; [exact H|apply T in H; tauto]|auto].
    + subst st'. split; [exact ID'|]. split; [exact IA'|]. split; [exact IS'|]. eapply data_same; [exact I0| |reflexivity].
      intros k v H. apply times_spec in H as (lb & H & _). congruence.
Qed.
Lemma inv_start : inv [] start.
Proof.
  assert (U : forall w, current w [] None) by (intros w l n []).
  assert (T : forall ds alg, ~ some_time [] ds alg) by (intros ds alg (a & l & b & k & v & E & _); destruct a; discriminate).
  split; [apply U|]. split; [apply U|]. split; [apply U|]. split; [|split; [|split]].
  - intros ds alg. split; [intros H; now apply T in H|]. intros H. now elim H.
  - intros ds alg v. split; [intros H; apply last_some in H; now apply T in H|discriminate].
  - intros ds alg v. split; [intros H; apply last_some in H; now apply T in H|discriminate].
  - intros ds alg v. split; [intros H; apply size_some in H; now apply T in H|discriminate].
Qed.
Lemma steps_snoc lines x : forall st, steps to_float to_int st (lines ++ [x]) = match steps to_float to_int st lines with Some s => step to_float to_int s x | None => None end.
Proof.
  induction lines as [|l lines IH]; intros st; cbn [steps app].
  - now destruct (step to_float to_int st x).
  - destruct (step to_float to_int st l); [apply IH|reflexivity].
Qed.
Lemma inv_steps lines : forall st, steps to_float to_int start lines = Some st -> inv lines st.
Proof.
  induction lines as [|x lines IH] using rev_ind; intros st E.
  - cbn in E. assert (st = start) as -> by congruence. apply inv_start.
  - rewrite steps_snoc in E. destruct (steps to_float to_int start lines) as [s|]; [|discriminate]. eapply inv_step; eauto.
Qed.

(** ** What stops it *)
Notation bad_size := (no_number to_int strip).
Lemma step_none st x : step to_float to_int st x = None <-> exists n, titled "size" x n /\ to_int n = None.
Proof.
  assert (T : forall n, titled "size" x n <-> starts "size:" (strip x) = true /\ n = after_colon (strip x)) by (intros n; apply titled_spec, cSI).
  unfold step. split.
  - destruct (starts "dataset:" (strip x)); [discriminate|]. destruct (starts "algorithm:" (strip x)); [discriminate|].
    destruct (starts "size:" (strip x)) eqn:SS.
    + intros E. exists (after_colon (strip x)). split; [now apply T|]. now destruct (to_int (after_colon (strip x))).
    + intros E. exfalso. destruct (starts "|" (strip x)); [|discriminate]. destruct (tl (split "|" (strip x))) as [|f0 [|f1 [|f2 [|f3 [|f4 l]]]]]; try discriminate.
      destruct (to_float (strip f0)); discriminate.
  - intros (n & H & V). apply T in H as (S & ->).
    rewrite (starts_other _ "ataset:" _ "d" _ S eq_refl), (starts_other _ "lgorithm:" _ "a" _ S eq_refl), S, V. reflexivity.
Qed.
Lemma steps_none lines : forall st, steps to_float to_int st lines = None <-> bad_size lines.
Proof.
  induction lines as [|x lines IH]; intros st; cbn [steps].
  - split; [discriminate|]. intros (l & n & [] & _).
  - destruct (step to_float to_int st x) as [s|] eqn:E.
    + rewrite IH. split.
      * intros (l & n & H & T). exists l, n. split; [now right|exact T].
      * intros (l & n & [<-|H] & T); [|exists l, n; auto]. exfalso. assert (step to_float to_int st x = None) by (apply step_none; eauto). congruence.
    + split; [|auto]. intros _. apply step_none in E as (n & T). exists x, n. split; [now left|exact T].
Qed.

(** ** The keys *)
Definition keyed (d : dict) : Prop := NoDup (map fst d) /\ Forall (fun x => NoDup (map fst (snd x)) /\ snd x <> []) d.
Lemma get_in {A} k (v : A) d : get name_eqb k d = Some v -> In (k, v) d.
Proof.
  induction d as [|[j w] d IH]; cbn; [discriminate|]. destruct (name_eqb j k) eqn:E; [|auto].
  apply name_ok in E as ->. intros [= ->]. now left.
Qed.
Lemma in_get {A} k (v : A) d : NoDup (map fst d) -> In (k, v) d -> get name_eqb k d = Some v.
Proof.
  induction d as [|[j w] d IH]; cbn; intros N I; [tauto|]. inversion N; subst. destruct I as [E|I].
  - assert (j = k /\ w = v) as (-> & ->) by (split; congruence). now rewrite (keqb_refl _ name_ok).
  - rewrite (keqb_neq _ name_ok); [auto|]. intros ->. apply H1. apply in_map_iff. now exists (k, v).
Qed.
Lemma put_in {A} k (v : A) d x w : In (x, w) (put name_eqb k v d) -> (x = k /\ w = v) \/ In (x, w) d.
Proof.
  induction d as [|[j u] d IH]; cbn.
  - intros [E|[]]. left. split; congruence.
  - destruct (name_eqb j k) eqn:E; cbn; intros [X|X].
    + apply name_ok in E. left. split; congruence.
    + right. now right.
    + right. now left.
    + destruct (IH X); [now left|right; now right].
Qed.
Lemma put_not_nil {A} k (v : A) d : put name_eqb k v d <> [].
Proof. destruct d as [|[j u] d]; cbn; [discriminate|]. destruct (name_eqb j k); discriminate. Qed.
Lemma keyed_record st label v : keyed (s_data st) -> keyed (s_data (record st label v)).
Proof.
  intros (N & G). unfold record. cbn [s_data]. split; [apply (put_nodup _ name_ok), N|].
  rewrite Forall_forall in G |- *. intros [x w] I. apply put_in in I as [(-> & ->)|I]; [|exact (G _ I)]. cbn [snd]. split; [|apply put_not_nil].
  apply (put_nodup _ name_ok). destruct (get name_eqb (s_dataset st) (s_data st)) as [a|] eqn:E; [|constructor]. exact (proj1 (G _ (get_in _ _ _ E))).
Qed.
Lemma keyed_steps lines : forall st st', keyed (s_data st) -> steps to_float to_int st lines = Some st' -> keyed (s_data st').
Proof.
  induction lines as [|x lines IH]; cbn [steps]; intros st st' K E; [congruence|].
  destruct (step to_float to_int st x) as [s|] eqn:S; [|discriminate]. apply (IH s); [|exact E]. clear E. unfold step in S.
  destruct (starts "dataset:" (strip x)); [injection S as <-; exact K|]. destruct (starts "algorithm:" (strip x)); [injection S as <-; exact K|].
  destruct (starts "size:" (strip x)); [destruct (to_int (after_colon (strip x))); [injection S as <-; exact K|discriminate]|].
  destruct (starts "|" (strip x)); [|congruence]. destruct (tl (split "|" (strip x))) as [|f0 [|f1 [|f2 [|f3 [|f4 l]]]]]; try congruence.
  destruct (to_float (strip f0)); [|congruence]. assert (s = record st (strip f4) f) as -> by congruence. now apply keyed_record.
Qed.
Lemma found_row d ds : keyed d -> In ds (map fst d) <-> exists alg, found d ds alg <> None.
Proof.
  intros (N & G). rewrite Forall_forall in G. unfold found. split.
  - intros I. apply in_map_iff in I as ([x a] & E & I). cbn in E. subst x. rewrite (in_get _ _ _ N I). destruct (G _ I) as (Na & E). cbn [snd] in *.
    destruct a as [|[alg k] a]; [now elim E|]. exists alg. cbn. now rewrite (keqb_refl _ name_ok).
  - intros (alg & H). destruct (get name_eqb ds d) as [a|] eqn:E; [|now elim H]. apply get_in in E. apply in_map_iff. now exists (ds, a).
Qed.
Lemma found_column d alg : keyed d -> In alg (algorithms_of d) <-> exists ds, found d ds alg <> None.
Proof.
  intros (N & G). rewrite Forall_forall in G. unfold found, algorithms_of. rewrite in_flat_map. split.
  - intros ([ds a] & I & J). exists ds. rewrite (in_get _ _ _ N I). cbn [snd] in J. apply in_map_iff in J as ([x k] & E & J). cbn in E. subst x.
    rewrite (in_get alg k a (proj1 (G _ I)) J). discriminate.
  - intros (ds & H). destruct (get name_eqb ds d) as [a|] eqn:E; [|now elim H]. apply get_in in E. exists (ds, a). split; [exact E|].
    destruct (get name_eqb alg a) as [k|] eqn:K; [|now elim H]. apply get_in in K. apply in_map_iff. now exists (alg, k).
Qed.

(** ** The columns *)
Variable sorts : list string -> list string.
Hypothesis sorts_ok : forall l, Permutation l (sorts l).
Lemma all_names_spec l : forall ns, all_names l = Some ns <-> l = map Some ns.
Proof.
  induction l as [|[x|] l IH]; intros ns; cbn [all_names].
  - destruct ns; cbn; split; try discriminate; reflexivity.
  - destruct (all_names l) as [m|]; cbn; split.
    + intros [= <-]. cbn. f_equal. now apply IH.
    + intros E. destruct ns as [|y ns]; [discriminate|]. cbn in E. injection E as -> E. apply IH in E. congruence.
    + discriminate.
    + intros E. destruct ns as [|y ns]; [discriminate|]. cbn in E. injection E as -> E. apply IH in E. discriminate.
  - destruct ns; cbn; split; discriminate.
Qed.
Lemma all_names_none l : all_names l = None <-> In None l.
Proof.
  induction l as [|[x|] l IH]; cbn [all_names].
  - split; [discriminate|intros []].
  - destruct (all_names l) as [m|]; cbn; split; [discriminate| |intros _; right; now apply IH|reflexivity].
    intros [E|E]; [discriminate|]. apply IH in E. discriminate.
  - split; [now left|reflexivity].
Qed.
Lemma columns_in l cs : columns sorts l = Some cs -> NoDup cs /\ forall c, In c cs <-> In c l.
Proof.
  unfold columns. pose proof (NoDup_nodup name_dec l) as N. pose proof (fun c => nodup_In name_dec l c) as I.
  destruct (nodup name_dec l) as [|[x|] [|y r]] eqn:K.
  - cbn. intros [= <-]. assert (sorts [] = []) as -> by (apply Permutation_nil; apply sorts_ok). cbn. split; [constructor|]. intros c. now rewrite <- I.
  - intros E. destruct (all_names _) as [ns|] eqn:A; [|discriminate]. cbn in E. injection E as <-. apply all_names_spec in A.
    rewrite A in N. assert (Pm : Permutation (map Some ns) (map Some (sorts ns))) by (apply Permutation_map, sorts_ok). split.
    + eapply Permutation_NoDup; eauto.
    + intros c. rewrite <- I, A. split; apply Permutation_in; [now apply Permutation_sym|assumption].
  - intros E. destruct (all_names _) as [ns|] eqn:A; [|discriminate]. cbn in E. injection E as <-. apply all_names_spec in A.
    rewrite A in N. assert (Pm : Permutation (map Some ns) (map Some (sorts ns))) by (apply Permutation_map, sorts_ok). split.
    + eapply Permutation_NoDup; eauto.
    + intros c. rewrite <- I, A. split; apply Permutation_in; [now apply Permutation_sym|assumption].
  - intros [= <-]. split; [exact N|]. exact I.
  - discriminate.
Qed.
Lemma columns_none l : columns sorts l = None <-> In None l /\ exists n, In (Some n) l.
Proof.
  unfold columns. pose proof (NoDup_nodup name_dec l) as N. pose proof (fun c => nodup_In name_dec l c) as I.
  rewrite <- (I None). assert (X : (exists n, In (Some n) l) <-> exists n, In (Some n) (nodup name_dec l)) by (split; intros (n & H); exists n; now apply I). rewrite X. clear X I.
  destruct (nodup name_dec l) as [|[x|] [|y r]] eqn:K.
  - cbn. split; [discriminate|tauto].
  - cbn. split; [discriminate|]. intros ([E|[]] & _). discriminate.
  - destruct (all_names _) as [ns|] eqn:A; cbn [option_map].
    + split; [discriminate|]. intros (H & _). apply all_names_none in H. congruence.
    + apply all_names_none in A. split; [|reflexivity]. intros _. split; [exact A|]. exists x. now left.
  - cbn. split; [discriminate|]. intros (_ & n & [E|[]]). discriminate.
  - cbn [all_names option_map]. split; [|reflexivity]. intros _. split; [now left|]. destruct y as [n|].
    + exists n. right. now left.
    + exfalso. inversion N; subst. apply H1. now left.
Qed.

(** ** The tables *)
Lemma table_shows {A} (f : kept -> option A) (P : name -> name -> A -> Prop) lines d t :
  keyed d -> (forall ds alg, some_time lines ds alg <-> found d ds alg <> None) ->
  (forall ds alg v, P ds alg v <-> cell f d ds alg = Some v) -> table sorts f d = Some t -> shows to_float strip lines t P.
Proof.
  intros K G C E. unfold table in E. destruct (columns sorts (algorithms_of d)) as [cs|] eqn:S; [|discriminate].
  injection E as <-. apply columns_in in S as (N & I). unfold shows. cbn [fst snd].
  assert (M : forall g : name -> list (option A), map fst (map (fun r => (r, g r)) (map fst d)) = map fst d).
  { intros g. rewrite map_map. cbn. apply map_id. }
  rewrite M. split; [exact N|]. split; [|split; [apply K|]; split].
  - intros alg. rewrite I, found_column by exact K. split; intros (ds & H); exists ds; now apply G.
  - intros ds. rewrite found_row by exact K. split; intros (alg & H); exists alg; now apply G.
  - intros ds cells H. apply in_map_iff in H as (r & H & _). assert (r = ds /\ cells = map (cell f d ds) cs) as (-> & ->) by (split; congruence).
    split; [apply map_length|]. intros i alg v H1. rewrite C. pose proof (map_nth_error (cell f d ds) i cs H1) as X.
    split; intros Q; [|exact (eq_trans X (f_equal Some Q))]. pose proof (eq_trans (eq_sym X) Q). congruence.
Qed.
Lemma table_none {A} (f : kept -> option A) lines d : keyed d -> (forall ds alg, some_time lines ds alg <-> found d ds alg <> None) ->
  table sorts f d = None <-> exists ds ds' n, some_time lines ds None /\ some_time lines ds' (Some n).
Proof.
  intros K G. unfold table. destruct (columns sorts (algorithms_of d)) as [cs|] eqn:S.
  - split; [discriminate|]. intros (ds & ds' & n & H & H'). assert (X : columns sorts (algorithms_of d) = None); [|congruence].
    apply columns_none. apply G in H, H'. split; [|exists n]; apply found_column; eauto.
  - split; [|reflexivity]. intros _. apply columns_none in S as (H & n & H'). apply found_column in H as (ds & H), H' as (ds' & H'); try exact K.
    exists ds, ds', n. split; now apply G.
Qed.
End L.

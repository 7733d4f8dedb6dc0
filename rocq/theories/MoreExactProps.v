(** More exact characterisations: C54, C65, C70, C85, C88. *)
From Coq Require Import String Ascii Bool Arith List ZArith Lia ZifyBool.
From Verif Require MatchModel MatchSpec MatchProofs FieldMatchersModel FieldMatchersSpec FieldMatchersProofs FlowModel NexusModel NexusSpec NexusProofs NexusProofs2
  LogModel LogSpec GenModel GenSpec GenProofs2 GenProofs3 ReleaseModel ReleaseSpec ReleaseProofs.
Import ListNotations.

(** ** C54: (f < a) and (f > b) for every b, the largest value included *)
Section C54.
Import MatchModel MatchSpec MatchProofs FieldMatchersModel FieldMatchersSpec FieldMatchersProofs.
Local Open Scope Z_scope.

(** At the largest b of an unsigned type of at least 32 bits the matcher can
    match nothing, yet it is not simplified. *)
Theorem C54_refuted : exists ftype f w a b, ftype f = CInt w false /\ in_range (CInt w false) a /\ in_range (CInt w false) b /\
  a <= b + 1 /\ rel_implies (CInt w false) RLt a RLe b <> None /\ fand ftype (Leaf (Rel f RLt a)) (Leaf (Rel f RGt b)) <> Never.
Proof.
  exists (fun _ => CInt 32 false), 0%nat, 32, 1, (2 ^ 32 - 1). split; [reflexivity|]. split; [unfold in_range; cbn; lia|]. split; [unfold in_range; cbn; lia|].
  split; [lia|]. split; vm_compute; discriminate.
Qed.
Print Assumptions C54_refuted.

(** What comes out for all a and b. In types of fewer than 32 bits, or below the
    largest value, the property holds; for the largest value of a wider unsigned
    type b + 1 is 0; for that of a wider signed type it does not compile. *)
Theorem C54_exact : forall ftype f w s, ftype f = CInt w s -> 1 <= w -> forall a b, in_range (CInt w s) a -> in_range (CInt w s) b ->
  let m := fand ftype (Leaf (Rel f RLt a)) (Leaf (Rel f RGt b)) in let both := And (Leaf (Rel f RLt a)) (Leaf (Rel f RGt b)) in
  (b < cmax (CInt w s) \/ w < 32 -> m = if a <=? b + 1 then Never else both) /\
  (b = cmax (CInt w s) -> 32 <= w -> s = false -> m = if a =? 0 then Never else both) /\
  (b = cmax (CInt w s) -> 32 <= w -> s = true -> rel_implies (CInt w s) RLt a RLe b = None).
Proof.
  intros ftype f w s Hf Hw a b Ha Hb m both.
  assert (K : forall b', add_one (CInt w s) b = Some b' -> m = if a <=? b' then Never else both).
  { intros b' E. unfold m, both, fand, op_and. cbn. unfold simplify_and. cbn. rewrite Nat.eqb_refl, Hf. unfold leaf_implies. cbn [rel_implies inverse_op].
    rewrite E. cbn. destruct (Z.leb_spec a b'); cbn; auto. }
  unfold in_range in *. split; [|split].
  - intros H. apply K. cbn [add_one]. destruct s; cbn [cmax cmin] in *.
    + destruct (Z.leb_spec (b + 1) (2 ^ (Z.max w 32 - 1) - 1)); auto. exfalso.
      assert (2 ^ (w - 1) <= 2 ^ (Z.max w 32 - 1)) by (apply Z.pow_le_mono_r; lia).
      destruct H as [H|H]; [lia|]. assert (2 ^ (w - 1) < 2 ^ (Z.max w 32 - 1)) by (apply Z.pow_lt_mono_r; lia). lia.
    + destruct (Z.ltb_spec w 32); auto. f_equal. apply Z.mod_small. lia.
  - intros -> H ->. cbn [cmax cmin] in *. rewrite (K 0).
    + destruct (Z.eqb_spec a 0), (Z.leb_spec a 0); auto; lia.
    + cbn [add_one]. destruct (Z.ltb_spec w 32); [lia|]. replace (2 ^ w - 1 + 1) with (2 ^ w) by lia. rewrite Z_mod_same_full. reflexivity.
  - intros -> H ->. cbn. replace (Z.max w 32) with w by lia. destruct (Z.leb_spec (2 ^ (w - 1) - 1 + 1) (2 ^ (w - 1) - 1)); [lia|]. reflexivity.
Qed.
Print Assumptions C54_exact.
Example C54_exact_case : fand (fun _ => CInt 8 false) (Leaf (Rel 0 RLt 3)) (Leaf (Rel 0 RGt 255)) = Never /\
  fand (fun _ => CInt 64 false) (Leaf (Rel 0 RLt 3)) (Leaf (Rel 0 RGt (2 ^ 64 - 1))) = And (Leaf (Rel 0 RLt 3)) (Leaf (Rel 0 RGt (2 ^ 64 - 1))) /\
  rel_implies (CInt 32 true) RLt 3 RLe (2 ^ 31 - 1) = None.
Proof. vm_compute. auto. Qed.
End C54.

(** ** C65: an extension by name and one by type *)
Section C65.
Import FlowModel NexusModel NexusSpec NexusProofs NexusProofs2.
Local Open Scope list_scope.
(** The second configuration is the first with some extensions by name written by
    type, none of them under a runtime condition. *)
Inductive respelled {A} (ex : list svc) : config A -> config A -> Prop :=
| respelled_same x : respelled ex x x
| respelled_name n s a : In s ex -> s_name s = Some n -> respelled ex (Extend (ByName n) a) (Extend (ByType s) a)
| respelled_many l l' : respelled_all ex l l' -> respelled ex (Many l) (Many l')
| respelled_if b l l' : respelled_all ex l l' -> respelled ex (IfConst b l) (IfConst b l')
with respelled_all {A} (ex : list svc) : list (config A) -> list (config A) -> Prop :=
| respelled_nil : respelled_all ex [] []
| respelled_cons x y l l' : respelled ex x y -> respelled_all ex l l' -> respelled_all ex (x :: l) (y :: l').
Scheme respelled_ind2 := Induction for respelled Sort Prop
  with respelled_all_ind2 := Induction for respelled_all Sort Prop.
Combined Scheme respelled_both from respelled_ind2, respelled_all_ind2.

Section Proof.
Context {A : Type} (item_when : cond -> A -> option A) (ex : list svc).
Hypothesis Hu : forall s t n, In s ex -> In t ex -> s_name s = Some n -> s_name t = Some n -> s = t.
Definition same_places (e e' : option (list (@extension A))) : Prop :=
  match e, e' with
  | Some l, Some l' => Forall2 (fun p q => locate ex (fst p) = locate ex (fst q) /\ snd p = snd q) l l'
  | None, None => True
  | _, _ => False
  end.
Definition same_places_all (e e' : option (list (list (@extension A)))) : Prop :=
  match e, e' with
  | Some l, Some l' => Forall2 (Forall2 (fun p q => locate ex (fst p) = locate ex (fst q) /\ snd p = snd q)) l l'
  | None, None => True
  | _, _ => False
  end.
Lemma same_places_refl e : same_places e e.
Proof. destruct e as [l|]; cbn; auto. induction l; constructor; auto. Qed.
Lemma same_concat e e' : same_places_all e e' -> same_places (option_map (@concat _) e) (option_map (@concat _) e').
Proof.
  destruct e as [l|], e' as [l'|]; cbn; auto. induction 1; cbn; [constructor|]. apply Forall2_app; auto.
Qed.
Lemma name_type n s : In s ex -> s_name s = Some n -> locate ex (ByName n) = locate ex (ByType s).
Proof.
  intros Hs Hn. cbn [locate].
  assert (E1 : find (svc_eqb s) ex = Some s).
  { destruct (find (svc_eqb s) ex) as [t|] eqn:E.
    - apply find_some in E as [_ E]. unfold svc_eqb in E. destruct (svc_eq_dec s t); [congruence|discriminate].
    - pose proof (find_none _ _ E s Hs) as F. unfold svc_eqb in F. destruct (svc_eq_dec s s); [discriminate|congruence]. }
  rewrite E1. destruct (find (has_name n) ex) as [t|] eqn:E.
  - apply find_some in E as [E2 E3]. f_equal. apply (Hu t s n); auto. apply has_name_eq, E3.
  - pose proof (find_none _ _ E s Hs) as F. assert (has_name n s = true) by (apply has_name_eq; auto). congruence.
Qed.
Lemma respelled_extends :
  (forall x y : config A, respelled ex x y -> same_places (NexusModel.extends item_when x) (NexusModel.extends item_when y) /\ exports x = exports y) /\
  (forall l l' : list (config A), respelled_all ex l l' ->
     same_places_all (all_some (map (NexusModel.extends item_when) l)) (all_some (map (NexusModel.extends item_when) l')) /\ map exports l = map exports l').
Proof.
  apply (respelled_both A ex (fun x y _ => same_places (NexusModel.extends item_when x) (NexusModel.extends item_when y) /\ exports x = exports y)
    (fun l l' _ => same_places_all (all_some (map (NexusModel.extends item_when) l)) (all_some (map (NexusModel.extends item_when) l')) /\ map exports l = map exports l')).
  - intros x. split; auto. apply same_places_refl.
  - intros n s a Hs Hn. cbn. split; auto. constructor; auto. cbn. split; auto. apply name_type; auto.
  - intros l l' _ [H1 H2]. cbn. split; [apply same_concat; auto|congruence].
  - intros b l l' _ [H1 H2]. destruct b; cbn; split; auto; [apply same_concat; auto|congruence].
  - cbn. split; auto.
  - intros x y l l' _ [H1 H2] _ [H3 H4]. cbn. split; [|congruence].
    destruct (NexusModel.extends item_when x) as [ex1|], (NexusModel.extends item_when y) as [ey|]; cbn in H1; try contradiction; cbn; auto.
    destruct (all_some (map _ l)) as [el|], (all_some (map _ l')) as [el'|]; cbn in *; try contradiction; auto.
Qed.
Lemma same_located es es' : Forall2 (fun p q => locate ex (fst p) = locate ex (fst q) /\ snd p = snd q) es es' ->
  @located A ex es = located ex es'.
Proof.
  unfold located. intros H. f_equal. induction H as [|p q l l' [H1 H2] H IH]; cbn; auto. rewrite IH, H1, H2. reflexivity.
Qed.
End Proof.

(** Writing extensions by name as extensions by type, anywhere outside runtime
    conditions, changes nothing in what is built. *)
Theorem C65_respelled {A} item_when (x y : config A) : unique_names x -> respelled (exports x) x y -> builders item_when y = builders item_when x.
Proof.
  intros Hu H. destruct (proj1 (respelled_extends item_when (exports x) Hu) x y H) as [H1 H2].
  unfold builders. rewrite <- H2. destruct (NexusModel.extends item_when x) as [es|], (NexusModel.extends item_when y) as [es'|]; cbn in H1; try contradiction; auto.
  rewrite (same_located (exports x) es es' H1). reflexivity.
Qed.
Print Assumptions C65_respelled.
(** An extension by name under a runtime condition, however deep, is rejected. *)
Theorem C65_conditional {A} item_when (x : config A) n c cs a : In (ByName n, c :: cs, a) (offers [] x) -> builders item_when x = None.
Proof.
  intros H. destruct (builders item_when x) eqn:E; auto. exfalso. assert (S : sensible item_when x) by (apply builders_sensible; congruence).
  destruct (S _ _ _ H) as (_ & K & _). destruct K as [s [=]]. discriminate.
Qed.
Print Assumptions C65_conditional.
Example C65_respelled_case : let s := {| s_id := 1; s_name := Some "b"%string; s_ret := 0 |} in
  let x := Many [Exports [s]; IfConst true [Extend (ByName "b") [7]]; Extend (ByName "b") [8]] in
  let y := Many [Exports [s]; IfConst true [Extend (ByType s) [7]]; Extend (ByName "b") [8]] in
  unique_names x /\ respelled (exports x) x y /\ builders no_conditional x = Some [(s, [8; 7])].
Proof.
  cbn zeta. split; [|split].
  - intros a b n [<-|[]] [<-|[]] _ _. reflexivity.
  - repeat (constructor; cbn; auto).
  - reflexivity.
Qed.
End C65.

(** ** C70: a destination that carries its own position *)
Section C70.
Import LogModel LogSpec.
Local Open Scope string_scope.
(** What the last of the texts that has an i-th character has there. *)
Definition last_at (i : nat) (texts : list string) : option ascii :=
  fold_left (fun acc t => match String.get i t with Some c => Some c | None => acc end) texts None.
(** The parts of a line, as they are written. *)
Definition parts (c : string * string) : list string := [fst c; snd c; String newline EmptyString].

Lemma put_buffer_spec t : forall w b p b' q, buffers (put_buffer w b p t) b' q =
  if (b' =? b)%nat && (p <=? q)%nat then match String.get (q - p) t with Some c => Some c | None => buffers w b' q end else buffers w b' q.
Proof.
  induction t as [|a t IH]; intros w b p b' q; cbn [put_buffer].
  - destruct (_ && _); [|reflexivity]. cbn. reflexivity.
  - rewrite IH. cbn [buffers]. destruct (Nat.eqb_spec b' b) as [->|N]; cbn [andb]; [|reflexivity].
    destruct (Nat.leb_spec (S p) q), (Nat.leb_spec p q), (Nat.eqb_spec q p); try lia.
    + replace (q - p)%nat with (S (q - S p)) by lia. reflexivity.
    + subst q. rewrite Nat.sub_diag. reflexivity.
    + reflexivity.
Qed.
Lemma put_buffer_streams t : forall w b p, streams (put_buffer w b p t) = streams w.
Proof. induction t as [|a t IH]; intros w b p; cbn [put_buffer]; [reflexivity|]. rewrite IH. reflexivity. Qed.
Lemma last_at_from i ts : forall acc, fold_left (fun acc t => match String.get i t with Some c => Some c | None => acc end) ts acc =
  match last_at i ts with Some c => Some c | None => acc end.
Proof.
  unfold last_at. induction ts as [|t ts IH]; intros acc; cbn [fold_left]; [reflexivity|]. rewrite IH, (IH (match String.get i t with Some c => Some c | None => None end)).
  destruct (fold_left _ ts None); [reflexivity|]. destruct (String.get i t); reflexivity.
Qed.
(** At each place from the position on stands the last character written there by
    any part of any line, all parts being written from the position; elsewhere
    nothing changes. *)
Theorem C70_place_exact b p cs w :
  (forall i, buffers (fmt_logs [Place b p] cs w) b (p + i) = match last_at i (flat_map parts cs) with Some c => Some c | None => buffers w b (p + i) end) /\
  (forall b' q, b' <> b \/ q < p -> buffers (fmt_logs [Place b p] cs w) b' q = buffers w b' q) /\
  streams (fmt_logs [Place b p] cs w) = streams w.
Proof.
  assert (S : forall c w, (forall i, buffers (fmt_log [Place b p] c w) b (p + i) =
      fold_left (fun acc t => match String.get i t with Some c => Some c | None => acc end) (parts c) (buffers w b (p + i))) /\
    (forall b' q, b' <> b \/ q < p -> buffers (fmt_log [Place b p] c w) b' q = buffers w b' q) /\ streams (fmt_log [Place b p] c w) = streams w).
  { intros [x m] v. unfold fmt_log. cbn [fold_left]. unfold write_line, format_to, parts. cbn [fst snd]. split; [|split].
    - intros i. rewrite !put_buffer_spec. rewrite Nat.eqb_refl. replace (p <=? p + i)%nat with true by (symmetry; apply Nat.leb_le; lia). cbn [andb].
      replace (p + i - p)%nat with i by lia. cbn [fold_left]. reflexivity.
    - intros b' q H. rewrite !put_buffer_spec. assert (E : (b' =? b)%nat && (p <=? q)%nat = false); [|rewrite E; reflexivity].
      destruct (Nat.eqb_spec b' b), (Nat.leb_spec p q); cbn; auto. lia.
    - rewrite !put_buffer_streams. reflexivity. }
  assert (K : forall i, buffers (fmt_logs [Place b p] cs w) b (p + i) =
    fold_left (fun acc t => match String.get i t with Some c => Some c | None => acc end) (flat_map parts cs) (buffers w b (p + i))).
  { intros i. revert w. induction cs as [|c cs IH]; intros w; [reflexivity|]. change (fmt_logs [Place b p] (c :: cs) w) with (fmt_logs [Place b p] cs (fmt_log [Place b p] c w)).
    rewrite IH. cbn [flat_map]. rewrite fold_left_app. f_equal. apply S. }
  split; [|split].
  - intros i. rewrite K. apply last_at_from.
  - intros b' q H. clear K. revert w. induction cs as [|c cs IH]; intros w; [reflexivity|].
    change (fmt_logs [Place b p] (c :: cs) w) with (fmt_logs [Place b p] cs (fmt_log [Place b p] c w)). rewrite IH. apply S. exact H.
  - clear K. revert w. induction cs as [|c cs IH]; intros w; [reflexivity|].
    change (fmt_logs [Place b p] (c :: cs) w) with (fmt_logs [Place b p] cs (fmt_log [Place b p] c w)). rewrite IH. apply S.
Qed.
Print Assumptions C70_place_exact.
Example C70_place_case : let w := fmt_logs [Place 0 3] [("abcd", "XY")] {| streams := fun _ => ""; buffers := fun _ _ => None |} in
  map (buffers w 0) [2; 3; 4; 5; 6; 7]%nat = [None; Some newline; Some "Y"%char; Some "c"%char; Some "d"%char; None].
Proof. reflexivity. Qed.
End C70.

(** ** C85: the decoder's line for values of any kind *)
Section C85.
Import GenModel GenSpec GenProofs2 GenProofs3.
Local Open Scope string_scope.
(** What the decoder shows: a number in decimal, -1 or 0 for a truth value, a bytes
    literal for a character. *)
Definition decoder_prints (v : cval) (s : string) : Prop :=
  match v with
  | VInt z => prints (VInt z) s
  | VBool b => s = if b then "-1" else "0"
  | VChar c => s = ("b'" ++ String c "'")%string
  end.
(** The parts, with the texts in the holes. *)
Inductive filled : list part -> list string -> string -> Prop :=
| filled_nil : filled [] [] EmptyString
| filled_chars t ps xs s : filled ps xs s -> filled (Chars t :: ps) xs (t ++ s)
| filled_open ps xs s : filled ps xs s -> filled (OpenBrace :: ps) xs ("{" ++ s)
| filled_close ps xs s : filled ps xs s -> filled (CloseBrace :: ps) xs ("}" ++ s)
| filled_hole ps x xs s : filled ps xs s -> filled (Hole :: ps) (x :: xs) (x ++ s).
Definition holes (ps : list part) : nat := List.length (filter (fun p => match p with Hole => true | _ => false end) ps).

Lemma decoded_text v : decoder_prints v (py_text (decoded v)).
Proof. destruct v as [z|[]|c]; cbn [decoded py_text decoder_prints]; auto. apply str_prints. Qed.
Lemma format_any ps : Forall part_ok ps -> forall vs k, (String.length (format_text ps) < k)%nat ->
  py_format k (format_text ps) (map decoded vs) = None /\ (List.length vs < holes ps)%nat \/
  exists s, filled ps (map (fun v => py_text (decoded v)) (firstn (holes ps) vs)) s /\ py_format k (format_text ps) (map decoded vs) = Some s /\ (holes ps <= List.length vs)%nat.
Proof.
  induction 1 as [|p ps P _ IH]; intros vs k L.
  - right. exists EmptyString. cbn. split; [constructor|]. split; [destruct k; [cbn in L; lia|reflexivity]|lia].
  - change (format_text (p :: ps)) with (part_text p ++ format_text ps)%string in *. rewrite slen_app in L. destruct p as [t| | |].
    + cbn [part_text] in *. apply braceless_nobr in P. change (holes (Chars t :: ps)) with (holes ps).
      assert (C : forall k, (String.length t + String.length (format_text ps) < k)%nat ->
        exists k', (String.length (format_text ps) < k')%nat /\ py_format k (t ++ format_text ps) (map decoded vs) = option_map (append t) (py_format k' (format_text ps) (map decoded vs))).
      { clear k L. induction t as [|a t IHt]; intros k L.
        - exists k. split; [exact L|]. cbn [append]. destruct (py_format k _ _); reflexivity.
        - apply nobr_neq in P as (P1 & P2 & P3). destruct k as [|k]; [cbn in L; lia|]. cbn in L.
          destruct (IHt P3 k) as (k' & K1 & K2); [lia|]. exists k'. split; [exact K1|]. cbn [append]. rewrite py_format_char by assumption. rewrite K2.
          destruct (py_format k' _ _); reflexivity. }
      destruct (C k L) as (k' & K1 & K2). rewrite K2. destruct (IH vs k' K1) as [[E H]|(s & F & E & H)]; rewrite E; [left; auto|].
      right. exists (t ++ s)%string. split; [constructor; exact F|]. auto.
    + destruct k as [|k]; [cbn in L; lia|]. cbn in L. change (holes (OpenBrace :: ps)) with (holes ps). cbn [part_text append py_format].
      destruct (IH vs k) as [[E H]|(s & F & E & H)]; [lia| |]; rewrite E; [left; auto|]. right. exists ("{" ++ s)%string. split; [constructor; exact F|]. auto.
    + destruct k as [|k]; [cbn in L; lia|]. cbn in L. change (holes (CloseBrace :: ps)) with (holes ps). cbn [part_text append py_format].
      destruct (IH vs k) as [[E H]|(s & F & E & H)]; [lia| |]; rewrite E; [left; auto|]. right. exists ("}" ++ s)%string. split; [constructor; exact F|]. auto.
    + destruct k as [|k]; [cbn in L; lia|]. cbn in L. change (holes (Hole :: ps)) with (S (holes ps)). cbn [part_text append py_format].
      destruct vs as [|v vs]; cbn [map List.length firstn]; [left; split; [reflexivity|lia]|].
      destruct (IH vs k) as [[E H]|(s & F & E & H)]; [lia| |]; rewrite E; [left; split; [reflexivity|lia]|].
      right. exists (py_text (decoded v) ++ s)%string. split; [constructor; exact F|]. split; [reflexivity|lia].
Qed.
(** With at least as many values as holes the line has the first of them, each as
    the decoder shows it; with fewer there is no line. *)
Theorem C85_exact ps vs severity mod_ : Forall part_ok ps ->
  (holes ps <= List.length vs -> exists xs s, Forall2 decoder_prints (firstn (holes ps) vs) xs /\ filled ps xs s /\
     catalog_line severity mod_ (format_text ps) (map decoded vs) = Some (severity ++ " [" ++ mod_ ++ "] " ++ s)%string) /\
  (List.length vs < holes ps -> catalog_line severity mod_ (format_text ps) (map decoded vs) = None).
Proof.
  intros P. unfold catalog_line. destruct (format_any ps P vs (S (String.length (format_text ps)))) as [[E H]|(s & F & E & H)]; [lia| |]; rewrite E; split; intros H'; try lia.
  - reflexivity.
  - eexists. exists s. split; [|split; [exact F|reflexivity]].
    generalize (firstn (holes ps) vs). intros l. induction l; constructor; auto. apply decoded_text.
Qed.
Print Assumptions C85_exact.
Example C85_exact_case : catalog_line "INFO" "m" "{} {{{}}} {}" (map decoded [VBool true; VChar "a"; VInt 7; VInt 8]) = Some "INFO [m] -1 {b'a'} 7" /\
  catalog_line "INFO" "m" "{} {}" (map decoded [VBool true]) = None.
Proof. split; reflexivity. Qed.
End C85.

(** ** C88: a root that includes nothing *)
Section C88.
Import ReleaseModel ReleaseSpec ReleaseProofs.
Definition not_once (l : line) : bool := match l with Once => false | _ => true end.
(** The lines of a root that includes nothing are printed twice, all but the
    #pragma once. *)
Theorem C88_twice_exact fs k root ls : file fs root = Some ls -> existsb is_include ls = false ->
  release fs (S k) root = Some (filter not_once ls ++ filter not_once ls)%list /\
  forall t text, release fs (S k) root = Some text -> times t text = 2 * times t ls.
Proof.
  intros H N.
  assert (E : release fs (S k) root = Some (filter not_once ls ++ filter not_once ls)%list).
  { unfold release. cbn [process]. cbn [visited ReleaseModel.start mem existsb]. rewrite H.
    match goal with |- context [?F ls (visit root _)] => set (f := F) end.
    assert (K : forall ls s, existsb is_include ls = false -> f ls s = Some {| visited := visited s; content := (content s ++ filter not_once ls)%list; system := system s; insert_at := insert_at s |}).
    { clear. induction ls as [|l ls IH]; intros s N.
      - cbn. rewrite app_nil_r. destruct s; reflexivity.
      - destruct l; try discriminate N; cbn [existsb is_include orb] in N;
          (transitivity (f ls s); [reflexivity|apply IH; exact N]) || (match goal with |- f (?x :: ls) s = _ => transitivity (f ls (emit x s)); [reflexivity|rewrite IH by exact N]; cbn; rewrite <- app_assoc; reflexivity end). }
    rewrite (K ls _ N). cbn. reflexivity. }
  split; [exact E|]. intros t text H'. rewrite E in H'. injection H' as <-. clear.
  assert (F : forall l, times t (filter not_once l) = times t l) by (induction l as [|[] l IH]; cbn; auto; rewrite IH; reflexivity).
  assert (A : forall a b, times t (a ++ b) = times t a + times t b) by (induction a as [|x a IH]; intros b; cbn; auto; rewrite IH; destruct x; cbn; lia).
  rewrite A, F. lia.
Qed.
Print Assumptions C88_twice_exact.
Example C88_twice_case : release [("a", [Once; Text "int x;"; If "C"; Text "int y;"; Endif])]%string 1 "a"%string =
  Some [Text "int x;"; If "C"; Text "int y;"; Endif; Text "int x;"; If "C"; Text "int y;"; Endif]%string.
Proof. reflexivity. Qed.
End C88.

(** Theorem C156. *)
From Coq Require Import String Ascii Bool Arith List NArith ZArith Lia.
From Verif Require Import GenModel SymbolModel CatalogModel JsonModel JsonSpec JsonProofs JsonProofs2 JsonProofs3 JsonProofs4 JsonProps FileModel FileSpec.
Import ListNotations.
Local Open Scope Z_scope.

(** ** C156: a catalog file that was cut short is not taken for a catalog *)
Definition blank (c : Z) : Prop := c = 32 \/ c = 9 \/ c = 10 \/ c = 13.
Lemma space_blank c : space c = true <-> blank c.
Proof. unfold space, blank. rewrite !orb_true_iff, !Z.eqb_eq. tauto. Qed.
Lemma from_file_app s c x : c <> 13 -> from_file ((s ++ [c]) ++ x) = from_file (s ++ [c]) ++ from_file x.
Proof.
  intros H. assert (Hc : (c =? 13) = false) by (now apply Z.eqb_neq). remember (length s) as n eqn:L. revert s L. induction n as [n IH] using lt_wf_ind. intros s ->. destruct s as [|a s]; cbn [app from_file].
  - rewrite Hc. reflexivity.
  - destruct (a =? 13).
    + destruct s as [|d s]; cbn [app].
      * destruct (c =? 10); [reflexivity|]. cbn [from_file app]. rewrite Hc. reflexivity.
      * destruct (d =? 10).
        -- rewrite (IH (length s)); [reflexivity|cbn; lia|reflexivity].
        -- pose proof (IH (length (d :: s)) ltac:(cbn; lia) (d :: s) eq_refl) as E. cbn [app] in E. rewrite E. reflexivity.
    + rewrite (IH (length s)); [reflexivity|cbn; lia|reflexivity].
Qed.
Lemma skip_from_file x : skip (from_file x) = [] <-> Forall blank x.
Proof.
  remember (length x) as n eqn:L. revert x L. induction n as [n IH] using lt_wf_ind. intros x ->. destruct x as [|c x]; [split; [constructor|reflexivity]|].
  assert (F : forall c x, Forall blank (c :: x) <-> blank c /\ Forall blank x) by (intros; split; [intros H; now inversion H|intros []; now constructor]).
  cbn [from_file]. destruct (c =? 13) eqn:E.
  - apply Z.eqb_eq in E as ->. cbn [skip Z.eqb Pos.eqb orb]. rewrite F. assert (B : blank 13) by (unfold blank; auto). destruct x as [|d x]; [split; [intros _; split; [exact B|constructor]|reflexivity]|]. destruct (d =? 10) eqn:Ed.
    + apply Z.eqb_eq in Ed as ->. rewrite F, (IH (length x) ltac:(cbn; lia) x eq_refl). assert (B' : blank 10) by (unfold blank; auto). tauto.
    + rewrite (IH (length (d :: x)) ltac:(cbn; lia) (d :: x) eq_refl). tauto.
  - cbn [skip]. fold (space c). rewrite F. destruct (space c) eqn:Sc.
    + apply space_blank in Sc. rewrite (IH (length x) ltac:(cbn; lia) x eq_refl). tauto.
    + split; [discriminate|]. intros [B _]. apply space_blank in B. congruence.
Qed.
Lemma loads_skip s v x : loads s = Some v -> ~ is_number v -> loads (s ++ x) = match skip x with [] => Some v | _ => None end.
Proof.
  unfold loads. intros E N. destruct (parse (S (length s)) (skip s)) as [[w q]|] eqn:P; [|discriminate]. destruct (skip q) eqn:Q; [|discriminate]. injection E as ->.
  assert (Ns : skip s <> []) by (intros Z; rewrite Z, parse_nil in P; discriminate). rewrite skip_more by exact Ns.
  destruct (more (S (length s))) as [M _]. rewrite (M _ _ _ P (or_introl N) x (S (length (s ++ x)))) by (rewrite app_length; lia).
  rewrite (skip_space q Q). reflexivity.
Qed.
(** Where the text of a value starts and ends. *)
Lemma dump_ends v : ~ is_number v -> exists c s, dump 0 v = s ++ [c] /\ space c = false.
Proof.
  destruct v as [t|z|b| |l|d]; intros N.
  - exists 34, (34 :: flat_map escape t). split; reflexivity.
  - destruct (N I).
  - destruct b; [exists 101, (lit "tru")|exists 101, (lit "fals")]; split; reflexivity.
  - exists 108, (lit "nul"). split; reflexivity.
  - exists 93. destruct l as [|a l]; [exists [91]; split; reflexivity|]. exists (91 :: items 1 (map (dump 1) (a :: l)) ++ newline 0). split; [|reflexivity]. cbn [dump]. cbn [app]. rewrite <- !app_assoc. reflexivity.
  - exists 125. destruct d as [|a d]; [exists [123]; split; reflexivity|]. eexists (123 :: items 1 (map _ (a :: d)) ++ newline 0). split; [|reflexivity]. cbn [dump]. cbn [app]. rewrite <- !app_assoc. reflexivity.
Qed.
Lemma dump_starts v n : ~ is_number v -> exists c s, dump n v = c :: s /\ c <> 45 /\ is_digit c = false /\ space c = false.
Proof.
  destruct v as [t|z|b| |l|d]; intros N; [|destruct (N I)|destruct b| |destruct l|destruct d]; (eexists _, _; split; [reflexivity|split; [intros K; vm_compute in K; discriminate|split; reflexivity]]).
Qed.
Lemma parse_number f c r z q : parse f (c :: r) = Some (VNum z, q) -> c = 45 \/ is_digit c = true.
Proof.
  destruct f as [|f]; [discriminate|]. cbn [parse]. destruct (c =? 34); [destruct (scan (length r) r) as [[]|]; discriminate|].
  destruct (c =? 123); [destruct (after [125] (skip r)); [discriminate|]; destruct (members f (skip r)) as [[]|]; discriminate|].
  destruct (c =? 91); [destruct (after [93] (skip r)); [discriminate|]; destruct (elements f (skip r)) as [[]|]; discriminate|].
  destruct (after (lit "null") (c :: r)); [discriminate|]. destruct (after (lit "true") (c :: r)); [discriminate|]. destruct (after (lit "false") (c :: r)); [discriminate|].
  intros E. destruct (is_digit c) eqn:D; [auto|]. destruct (Z.eq_dec c 45) as [->|H]; [auto|]. rewrite (number_letter c r H D) in E. discriminate.
Qed.
Lemma to_file_cons b c t : to_file b (c :: t) = (if b && (c =? 10) then [13; 10] else [c]) ++ to_file b t. Proof. reflexivity. Qed.
Lemma to_file_app b s t : to_file b (s ++ t) = to_file b s ++ to_file b t. Proof. apply flat_map_app. Qed.
Lemma not_space c : space c = false -> c <> 10 /\ c <> 13.
Proof. intros H. split; intros ->; discriminate. Qed.
Lemma to_file_one b c : space c = false -> to_file b [c] = [c].
Proof. intros H. apply not_space in H as [H _]. cbn. apply Z.eqb_neq in H. rewrite H, andb_false_r. reflexivity. Qed.
Lemma save_ends crlf v : ~ is_number v -> exists c s, save crlf v = s ++ [c] /\ space c = false.
Proof. intros N. destruct (dump_ends v N) as (c & s & E & S). exists c, (to_file crlf s). split; [|exact S]. unfold save. now rewrite E, to_file_app, to_file_one. Qed.
Lemma save_starts crlf v : ~ is_number v -> exists c s, save crlf v = c :: s /\ c <> 45 /\ is_digit c = false /\ space c = false.
Proof. intros N. destruct (dump_starts v 0 N) as (c & s & E & H1 & H2 & S). exists c, (to_file crlf s). split; [|auto]. unfold save. rewrite E. change (c :: s) with ([c] ++ s). now rewrite to_file_app, to_file_one. Qed.
(** The beginning of a file, with anything missing at its end. *)
Definition cut_short (file p : text) : Prop := exists r, file = p ++ r /\ r <> [].
Lemma load_cut crlf v p : value_ok v -> ~ is_number v -> cut_short (save crlf v) p -> load p = None.
Proof.
  intros O N (r & E & R). destruct (load p) as [w|] eqn:Lp; [exfalso|reflexivity].
  destruct (exists_last R) as (r0 & c & ->). destruct (save_ends crlf v N) as (c' & s & E' & Sc). rewrite E in E'. rewrite app_assoc in E'. apply app_inj_tail in E' as [_ ->].
  destruct (not_space _ Sc) as [H1 H2]. destruct (from_file_more p r0 c' H1 H2) as [x F].
  pose proof (C153_exact crlf v O) as V. unfold load in V, Lp. rewrite E, F in V.
  destruct (save_starts crlf v N) as (a & s' & E1 & A1 & A2 & A3).
  assert (Nw : ~ is_number w).
  { destruct w; try (intros []; fail). exfalso. destruct p as [|b p]; [discriminate|]. rewrite E1 in E. injection E as <- _. destruct (not_space _ A3) as [_ A4]. apply Z.eqb_neq in A4. unfold loads in Lp. cbn [from_file] in Lp. rewrite A4 in Lp. rewrite skip_other in Lp by exact A3.
    destruct (parse _ _) as [[w q]|] eqn:P; [|discriminate]. destruct (skip q); [|discriminate]. injection Lp as ->. apply parse_number in P. destruct P as [P|P]; congruence. }
  rewrite (loads_more _ _ x c' Lp Nw Sc) in V. discriminate.
Qed.
(** Whatever is written, the catalog cut anywhere does not load... *)
Theorem C156_cut crlf ms ds enums p : Forall message_ok ms -> Forall module_ok ds -> enums_ok enums -> cut_short (save crlf (catalog ms ds enums)) p -> load p = None.
Proof. intros Hm Hd He. apply load_cut; [now apply catalog_ok|intros []]. Qed.
Print Assumptions C156_cut.
(** ... and a build that is given it stops instead of giving out ids. *)
Theorem C156_stops num of_num crlf ms ds enums p v : Forall message_ok ms -> Forall module_ok ds -> enums_ok enums -> cut_short (save crlf (catalog ms ds enums)) p -> run_file num of_num (Some p) v = None.
Proof. intros Hm Hd He C. unfold run_file, read_catalog. rewrite (C156_cut _ _ _ _ _ Hm Hd He C). reflexivity. Qed.
Print Assumptions C156_stops.
(** Text after the end of the file: only blanks are passed over. *)
Theorem C156_longer crlf ms ds enums x : Forall message_ok ms -> Forall module_ok ds -> enums_ok enums ->
  (load (save crlf (catalog ms ds enums) ++ x) <> None <-> Forall blank x) /\
  (Forall blank x -> load (save crlf (catalog ms ds enums) ++ x) = load (save crlf (catalog ms ds enums))).
Proof.
  intros Hm Hd He. set (v := catalog ms ds enums). assert (O : value_ok v) by (now apply catalog_ok). assert (N : ~ is_number v) by (intros []).
  destruct (save_ends crlf v N) as (c & s & E & Sc). destruct (not_space _ Sc) as [_ H2]. pose proof (C153_exact crlf v O) as V. assert (Ns : ~ is_number (seen v)) by (intros []).
  assert (Q : load (save crlf v ++ x) = match skip (from_file x) with [] => Some (seen v) | _ => None end).
  { unfold load in *. rewrite E in *. rewrite from_file_app by exact H2. now apply loads_skip. }
  rewrite V, Q, <- skip_from_file. split; [|intros ->; reflexivity]. destruct (skip (from_file x)); [split; [reflexivity|discriminate]|]. split; [intros K; now destruct K|discriminate].
Qed.
Print Assumptions C156_longer.
(** Of all values, only the texts of numbers with more than one digit have a beginning that loads. *)
Lemma load_digit c : is_digit c = true -> load [c] = Some (VNum (c - 48)).
Proof.
  intros D. assert (H : In c [48; 49; 50; 51; 52; 53; 54; 55; 56; 57]). { unfold is_digit in D. apply andb_prop in D as [D1 D2]. apply Z.leb_le in D1, D2. cbn. lia. }
  cbn in H. repeat (destruct H as [<-|H]; [reflexivity|]). destruct H.
Qed.
Lemma load_minus c : is_digit c = true -> exists w, load [45; c] = Some w.
Proof.
  intros D. assert (H : In c [48; 49; 50; 51; 52; 53; 54; 55; 56; 57]). { unfold is_digit in D. apply andb_prop in D as [D1 D2]. apply Z.leb_le in D1, D2. cbn. lia. }
  cbn in H. repeat (destruct H as [<-|H]; [eexists; reflexivity|]). destruct H.
Qed.
Lemma num_text z : exists d, lit (str z) = (if z <? 0 then [45] else []) ++ d /\ forallb is_digit d = true /\ number_of d = Z.abs z /\ d <> [].
Proof.
  destruct (Z.ltb_spec z 0) as [H|H].
  - destruct (GenProofs.str_neg z H) as (t & E & W & _). destruct (writes_lit _ _ W) as (A & B & C). exists (lit t). rewrite E. split; [reflexivity|]. split; [exact A|]. split; [rewrite B; lia|exact C].
  - destruct (GenProofs.str_writes z H) as [W _]. destruct (writes_lit _ _ W) as (A & B & C). exists (lit (str z)). split; [reflexivity|]. split; [exact A|]. split; [rewrite B; lia|exact C].
Qed.
Lemma to_file_digits b d : forallb is_digit d = true -> to_file b d = d.
Proof.
  induction d as [|c d IH]; [reflexivity|]. cbn [forallb]. intros H. apply andb_prop in H as [D H]. rewrite to_file_cons, (IH H). destruct (c =? 10) eqn:E; [apply Z.eqb_eq in E as ->; discriminate|]. rewrite andb_false_r. reflexivity.
Qed.
Lemma save_number crlf z : exists d, save crlf (VNum z) = (if z <? 0 then [45] else []) ++ d /\ forallb is_digit d = true /\ number_of d = Z.abs z /\ d <> [].
Proof.
  destruct (num_text z) as (d & E & A & H). exists d. split; [|auto]. unfold save. cbn [dump]. rewrite E, to_file_app, (to_file_digits crlf d A). destruct (z <? 0); [|reflexivity]. cbn. now rewrite andb_false_r.
Qed.
Lemma number_bound c : is_digit c = true -> 0 <= number_of [c] < 10.
Proof. unfold is_digit. intros D. apply andb_prop in D as [D1 D2]. apply Z.leb_le in D1, D2. cbn. lia. Qed.
Theorem C156_values crlf v : value_ok v ->
  ((exists p w, cut_short (save crlf v) p /\ load p = Some w) <-> exists z, v = VNum z /\ (z <= -10 \/ 10 <= z)).
Proof.
  intros O. split.
  - intros (p & w & C & L). destruct v as [t|z|b| |l|d]; try (rewrite (load_cut crlf _ p O) in L; [discriminate|exact (fun K => K)|exact C]). exists z. split; [reflexivity|].
    destruct (Z_le_gt_dec z (-10)) as [|H1]; [auto|]. destruct (Z_le_gt_dec 10 z) as [|H2]; [auto|]. exfalso.
    assert (H : In z [-9; -8; -7; -6; -5; -4; -3; -2; -1; 0; 1; 2; 3; 4; 5; 6; 7; 8; 9]) by (cbn; lia). destruct C as (r & E & R).
    assert (S : exists a, save crlf (VNum z) = [a] \/ save crlf (VNum z) = [45; a]). { cbn in H. destruct crlf; repeat (destruct H as [<-|H]; [vm_compute; eexists; (left; reflexivity) || (right; reflexivity)|]); destruct H. }
    destruct S as [a [S|S]]; rewrite S in E; (destruct p as [|b p]; [discriminate|]); injection E as <- E.
    + destruct p; [|discriminate]. cbn in E. congruence.
    + destruct p as [|b p]; [discriminate|]. injection E as <- E. destruct p; [|discriminate]. cbn in E. congruence.
  - intros (z & -> & H). destruct (save_number crlf z) as (d & E & A & B & C). destruct d as [|c d]; [congruence|]. cbn [forallb] in A. apply andb_prop in A as [D A].
    destruct d as [|c' d]; [pose proof (number_bound c D); lia|]. destruct (z <? 0).
    + destruct (load_minus c D) as [w L]. exists [45; c], w. split; [|exact L]. exists (c' :: d). split; [exact E|discriminate].
    + exists [c], (VNum (c - 48)). split; [|now apply load_digit]. exists (c' :: d). split; [exact E|discriminate].
Qed.
Print Assumptions C156_values.

(** A catalog with a message, a module and an enumeration, cut in the middle. *)
Definition cut_case : value :=
  catalog [{| g_text := lit "speed {}"; g_args := [lit "arg<int>"]; g_id := 12; g_named := []; g_tags := [] |}] [{| d_text := lit "motor"; d_id := 3 |}] [(lit "Mode", [(lit "on", 1)])].
Example C156_case : length (save true cut_case) = 434%nat /\ load (firstn 200 (save true cut_case)) = None /\ load (firstn 433 (save true cut_case)) = None /\ load (save true cut_case) <> None /\
  load (save true cut_case ++ lit " 0") = None /\ load (save true cut_case ++ [13; 10]) <> None.
Proof. repeat split; try (vm_compute; reflexivity); vm_compute; discriminate. Qed.
Example C156_number_case : save false (VNum 125) = lit "125" /\ load (lit "12") = Some (VNum 12).
Proof. split; reflexivity. Qed.

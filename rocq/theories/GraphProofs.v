(** Proofs about the text of a graph in the output of a build. *)
From Coq Require Import String Ascii Bool Arith List Lia.
From Verif Require Import GenModel GenSpec FlowModel GraphModel GraphSpec.
Import ListNotations.
Local Open Scope string_scope.

Lemma sapp (a b c : string) : (a ++ b) ++ c = a ++ b ++ c.
Proof. induction a; cbn; congruence. Qed.
Lemma sapp_nil (a : string) : a ++ "" = a.
Proof. induction a; cbn; congruence. Qed.
Definition no_char (c : ascii) (s : string) : bool := forallb (fun a => negb (Ascii.eqb a c)) (list_ascii_of_string s).
Lemma no_char_app c a b : no_char c (a ++ b) = (no_char c a && no_char c b)%bool.
Proof. unfold no_char. induction a as [|h a IH]; cbn; [reflexivity|]. now rewrite IH, andb_assoc. Qed.
Lemma no_char_iff c s : no_char c s = true <-> ~ char_in c s.
Proof.
  split.
  - intros H (x & y & ->). rewrite !no_char_app in H. apply andb_prop in H as [_ H]. apply andb_prop in H as [H _]. cbn in H. rewrite Ascii.eqb_refl in H. discriminate.
  - intros H. unfold no_char. apply forallb_forall. intros a Ha. apply negb_true_iff, Ascii.eqb_neq. intros ->. apply H. clear H.
    induction s as [|b s IH]; [destruct Ha|]. destruct Ha as [->|Ha]; [exists "", s; reflexivity|]. destruct (IH Ha) as (x & y & ->). exists (String b x), y. reflexivity.
Qed.

(** ** The substitutions *)
(** The patterns begin with a backslash and have no other. *)
Definition pattern_ok (p : string) : Prop := exists q, p = String "\" q /\ no_char "\" q = true.
Lemma prefix_cons a p b s : prefix (String a p) (String b s) = if ascii_dec a b then prefix p s else false.
Proof. reflexivity. Qed.
Lemma prefix_head p a s : pattern_ok p -> Ascii.eqb a "\" = false -> prefix p (String a s) = false.
Proof. intros (q & -> & _) H. rewrite prefix_cons. destruct (ascii_dec "\" a) as [<-|]; [discriminate|reflexivity]. Qed.
Lemma gsub_clean p s : forall cur rest, pattern_ok p -> no_char "\" s = true -> gsub p 0 cur (s ++ rest) = gsub p 0 (cur ++ s) rest.
Proof.
  induction s as [|a s IH]; intros cur rest P H; cbn [append]; [now rewrite sapp_nil|]. cbn in H. apply andb_prop in H as [H1 H2]. apply negb_true_iff in H1.
  cbn [gsub]. rewrite (prefix_head p a _ P H1), IH by auto. rewrite sapp. reflexivity.
Qed.
Lemma gsub_skip p : forall k cur s rest, String.length s = k -> gsub p k cur (s ++ rest) = gsub p 0 cur rest.
Proof. induction k as [|k IH]; intros cur [|a s] rest H; cbn in H; try discriminate; [reflexivity|]. cbn [append gsub]. apply IH. congruence. Qed.
Lemma prefix_app p s : prefix p (p ++ s) = true.
Proof. induction p as [|a p IH]; [destruct s; reflexivity|]. cbn [append]. rewrite prefix_cons. destruct (ascii_dec a a); [exact IH|contradiction]. Qed.
Lemma gsub_match p cur rest : pattern_ok p -> gsub p 0 cur (p ++ rest) = cur :: gsub p 0 "" rest.
Proof.
  intros (q & -> & _). cbn [append]. cbn [gsub]. change (String "\" (q ++ rest)) with (String "\" q ++ rest). rewrite prefix_app. f_equal.
  cbn [String.length]. rewrite Nat.sub_succ, Nat.sub_0_r. now apply gsub_skip.
Qed.
Lemma gsub_end p cur s : pattern_ok p -> no_char "\" s = true -> gsub p 0 cur s = [cur ++ s].
Proof. intros P H. rewrite <- (sapp_nil s) at 1. rewrite gsub_clean by auto. reflexivity. Qed.
Lemma gsub_join p l ls : pattern_ok p -> no_char "\" l = true -> Forall (fun s => no_char "\" s = true) ls -> gsub p 0 "" (join_with p (l :: ls)) = l :: ls.
Proof.
  intros P Hl H. revert l Hl. induction H as [|x ls Hx H IH]; intros l Hl; [cbn [join_with]; now rewrite gsub_end|].
  change (join_with p (l :: x :: ls)) with (l ++ p ++ join_with p (x :: ls)). rewrite gsub_clean by auto. cbn [append]. rewrite gsub_match by exact P. f_equal. now apply IH.
Qed.
(** A pattern that is not there. *)
Lemma gsub_none p : pattern_ok p -> forall s, (forall a b, s = a ++ b -> prefix p b = false) -> forall cur, gsub p 0 cur s = [cur ++ s].
Proof.
  intros P. induction s as [|a s IH]; intros H cur; cbn [gsub]; [now rewrite sapp_nil|].
  rewrite (H "" (String a s) eq_refl). rewrite IH.
  - now rewrite sapp.
  - intros x y ->. apply (H (String a x) y). reflexivity.
Qed.
Lemma gcc_ok : pattern_ok gcc_newline.
Proof. exists "012". split; reflexivity. Qed.
Lemma clang_ok : pattern_ok clang_newline.
Proof. exists "n". split; reflexivity. Qed.
(** The first program leaves the escapes of the second alone. *)
Lemma gcc_leaves l ls : no_char "\" l = true -> Forall (fun s => no_char "\" s = true) ls -> gsub gcc_newline 0 "" (join_with clang_newline (l :: ls)) = [join_with clang_newline (l :: ls)].
Proof.
  intros Hl H.
  assert (X : forall cur, gsub gcc_newline 0 cur (join_with clang_newline (l :: ls)) = [cur ++ join_with clang_newline (l :: ls)]); [|now rewrite X].
  revert l Hl. induction H as [|x ls Hx H IH]; intros l Hl cur; [cbn [join_with]; apply gsub_end; auto using gcc_ok|].
  change (join_with clang_newline (l :: x :: ls)) with (l ++ clang_newline ++ join_with clang_newline (x :: ls)). rewrite gsub_clean by auto using gcc_ok.
  match goal with |- gsub ?p 0 ?c (clang_newline ++ ?r) = _ => change (gsub p 0 c (clang_newline ++ r)) with (gsub p 0 ((c ++ "\") ++ "n") r) end.
  rewrite IH by exact Hx. rewrite !sapp. reflexivity.
Qed.
Lemma awk_lines esc l ls : esc = gcc_newline \/ esc = clang_newline -> no_char "\" l = true -> Forall (fun s => no_char "\" s = true) ls ->
  awk clang_newline (awk gcc_newline [join_with esc (l :: ls)]) = l :: ls.
Proof.
  intros E Hl H. unfold awk. cbn [flat_map]. rewrite !app_nil_r. destruct E as [->| ->].
  - rewrite gsub_join by auto using gcc_ok. cbn [flat_map]. rewrite gsub_end by auto using clang_ok. cbn [append app]. f_equal.
    clear l Hl. induction H as [|x ls Hx H IH]; [reflexivity|]. cbn [flat_map]. rewrite gsub_end by auto using clang_ok. cbn [append app]. now rewrite IH.
  - rewrite gcc_leaves by auto. cbn [flat_map]. rewrite app_nil_r. apply gsub_join; auto using clang_ok.
Qed.
(** What is printed is part of the line. *)
Lemma gsub_part p s : forall k cur q, (k > 0 -> cur = "") -> In q (gsub p k cur s) -> (k = 0 /\ exists u v, q = cur ++ u /\ s = u ++ v) \/ exists w v, s = w ++ q ++ v.
Proof.
  induction s as [|a s IH]; intros k cur q K H; cbn [gsub] in H.
  - destruct H as [<-|[]]. destruct k as [|k]; [left; split; [reflexivity|]; exists "", ""; now rewrite sapp_nil|]. right. rewrite (K ltac:(lia)). exists "", "". reflexivity.
  - destruct k as [|k].
    + destruct (prefix p (String a s)).
      * destruct H as [<-|H]; [left; split; [reflexivity|]; exists "", (String a s); now rewrite sapp_nil|]. right.
        apply IH in H as [(E & u & v & -> & ->)|(w & v & ->)]; auto; [exists (String a ""), v|exists (String a w), v]; reflexivity.
      * apply IH in H as [(_ & u & v & -> & ->)|(w & v & ->)]; [left; split; [reflexivity|]; exists (String a u), v; rewrite sapp; split; reflexivity|right; exists (String a w), v; reflexivity|lia].
    + right. rewrite (K ltac:(lia)) in H. apply IH in H as [(E & u & v & -> & ->)|(w & v & ->)]; auto; [exists (String a ""), v|exists (String a w), v]; reflexivity.
Qed.
Lemma gsub_occurs p s q : In q (gsub p 0 "" s) -> exists w v, s = w ++ q ++ v.
Proof. intros H. apply gsub_part in H as [(_ & u & v & -> & ->)|H]; [exists "", v; reflexivity|exact H|lia]. Qed.
Lemma prefix_occurs p s : prefix p s = true -> exists v, s = p ++ v.
Proof.
  revert s. induction p as [|a p IH]; intros [|b s] H; try discriminate; [exists ""; reflexivity|exists (String b s); reflexivity|].
  rewrite prefix_cons in H. destruct (ascii_dec a b) as [->|]; [|discriminate]. destruct (IH s H) as [v ->]. exists v. reflexivity.
Qed.
Lemma awk_app p a b : awk p (a ++ b) = (awk p a ++ awk p b)%list.
Proof. unfold awk. apply flat_map_app. Qed.
Lemma awk_absent p ls : Forall (fun l => ~ occurs "~~~~END" l) ls -> Forall (fun l => ~ occurs "~~~~END" l) (awk p ls).
Proof.
  intros H. apply Forall_forall. intros q Hq. unfold awk in Hq. apply in_flat_map in Hq as (l & Hl & Hq). rewrite Forall_forall in H. intros (x & y & ->).
  apply (H l Hl). apply gsub_occurs in Hq as (w & v & ->). exists (w ++ x), (y ++ v). rewrite !sapp. reflexivity.
Qed.

(** ** The rest of the pipeline *)
Lemma sed_skip a b : Forall (fun l => prefix "~~~~END" l = false) a -> sed (a ++ b) = sed b.
Proof. induction 1 as [|l a Hl H IH]; [reflexivity|]. cbn [app sed]. now rewrite Hl. Qed.
Lemma sed_in_lines a b rest : Forall (fun l => prefix "~~~~START" l = false) a -> sed_in (a ++ ("~~~~START" ++ b)%string :: rest) = (a ++ [("~~~~START" ++ b)%string])%list.
Proof. induction 1 as [|l a Hl H IH]; cbn [app sed_in]; [now rewrite prefix_app|]. now rewrite Hl, IH. Qed.
Lemma pipeline_lines before g right after :
  Forall (fun l => prefix "~~~~START" l = false) g -> Forall (fun l => prefix "~~~~END" l = false) after ->
  removelast (tl (rev (sed (rev (before ++ "~~~~START" :: g ++ ("~~~~END" ++ right)%string :: after))))) = g.
Proof.
  intros Hg Ha. rewrite rev_app_distr. cbn [rev]. rewrite rev_app_distr. cbn [rev]. rewrite <- !app_assoc. rewrite sed_skip by now apply Forall_rev.
  cbn [app sed]. rewrite prefix_app.
  change (sed_in (rev g ++ "~~~~START" :: rev before)) with (sed_in (rev g ++ ("~~~~START" ++ "")%string :: rev before)). rewrite sed_in_lines by now apply Forall_rev. cbn [rev]. rewrite rev_app_distr, rev_involutive. cbn [rev app tl]. apply removelast_last.
Qed.

(** ** The message *)
Lemma escaped_app esc a b : escaped esc (a ++ b) = escaped esc a ++ escaped esc b.
Proof. induction a as [|c a IH]; cbn [escaped append]; [reflexivity|]. destruct (Ascii.eqb c (ascii_of_nat 10)); rewrite IH; [now rewrite sapp|reflexivity]. Qed.
Lemma escaped_line esc s : no_char (ascii_of_nat 10) s = true -> escaped esc s = s.
Proof. induction s as [|c s IH]; cbn [escaped]; [reflexivity|]. intros H. apply andb_prop in H as [H1 H2]. apply negb_true_iff in H1. change (Ascii.eqb c (ascii_of_nat 10) = false) in H1. rewrite H1, IH; auto. Qed.
Lemma escaped_text esc g : Forall (fun l => no_char (ascii_of_nat 10) l = true) g -> escaped esc (text_of g) = fold_right (fun l r => l ++ esc ++ r) "" g.
Proof.
  induction 1 as [|l g Hl H IH]; [reflexivity|]. change (text_of (l :: g)) with (l ++ newline ++ text_of g). rewrite !escaped_app, escaped_line, IH by auto. cbn. now rewrite sapp_nil.
Qed.
Lemma fold_join esc g x : fold_right (fun l r => l ++ esc ++ r) "" g ++ x = join_with esc (g ++ [x]).
Proof.
  induction g as [|l g IH]; [reflexivity|]. cbn [fold_right app]. rewrite !sapp, IH. destruct g as [|l' g]; reflexivity.
Qed.
Lemma graph_found output esc g : esc = gcc_newline \/ esc = clang_newline -> Forall (fun l => no_char "\" l = true /\ no_char (ascii_of_nat 10) l = true /\ prefix "~~~~START" l = false) g ->
  shows output esc (text_of g) -> pipeline output = g.
Proof.
  intros E Hg (before & left & right & after & -> & [L1 L2] & [R1 R2] & Ha). apply no_char_iff in L1, R1.
  assert (J : left ++ escaped esc (message (text_of g)) ++ right = join_with esc ((left ++ "subgraph debug")%string :: "~~~~START" :: g ++ [("~~~~END" ++ right)%string])).
  { unfold message. rewrite !escaped_app. rewrite escaped_text by (eapply Forall_impl; [|exact Hg]; cbn; tauto).
    change (escaped esc "subgraph debug") with "subgraph debug". change (escaped esc "~~~~START") with "~~~~START". change (escaped esc "~~~~END") with "~~~~END".
    assert (N : escaped esc newline = esc) by (cbn; apply sapp_nil). rewrite N.
    rewrite !sapp. rewrite fold_join.
    change (join_with esc ((left ++ "subgraph debug")%string :: "~~~~START" :: g ++ [("~~~~END" ++ right)%string])) with ((left ++ "subgraph debug")%string ++ esc ++ join_with esc ("~~~~START" :: (g ++ [("~~~~END" ++ right)%string])%list)).
    assert (Jc : forall x l, l <> [] -> join_with esc (x :: l) = x ++ esc ++ join_with esc l) by (intros x [|y l] Hl; [contradiction|reflexivity]).
    rewrite Jc by (destruct g; discriminate). rewrite !sapp. reflexivity. }
  unfold pipeline. rewrite J. match goal with |- context [(before ++ ?x :: after)%list] => change (before ++ x :: after)%list with (before ++ [x] ++ after)%list end. rewrite !awk_app, awk_lines; auto.
  - rewrite <- !app_comm_cons, <- app_assoc. cbn [app].
    match goal with |- context [(?b ++ (left ++ "subgraph debug")%string :: ?r)%list] => replace (b ++ (left ++ "subgraph debug")%string :: r)%list with ((b ++ [(left ++ "subgraph debug")%string]) ++ r)%list by (rewrite <- app_assoc; reflexivity) end.
    apply pipeline_lines.
    + eapply Forall_impl; [|exact Hg]. cbn. tauto.
    + eapply Forall_impl; [|apply awk_absent, awk_absent; exact Ha]. cbn beta. intros l Hl. apply not_true_is_false. intros X. apply prefix_occurs in X as [v ->]. apply Hl. exists "", v. reflexivity.
  - rewrite no_char_app, L1. reflexivity.
  - constructor; [reflexivity|]. apply Forall_app. split; [eapply Forall_impl; [|exact Hg]; cbn; tauto|]. constructor; [|constructor]. rewrite no_char_app, R1. reflexivity.
Qed.

(** ** The lines of a graph *)
Definition lines_or_blank (ls : list string) : list string := match ls with [] => [""] | _ => ls end.
Definition graph_lines (name : string) (ns : list node) (es : list edge) : list string :=
  (["---"; ("title: " ++ name)%string; "---"; "flowchart TD"] ++ lines_or_blank (map (render_node mermaid) ns) ++ lines_or_blank (map (render_edge mermaid) es))%list.
Lemma text_app a b : text_of (a ++ b) = text_of a ++ text_of b.
Proof. induction a as [|l a IH]; [reflexivity|]. cbn [app text_of fold_right]. unfold text_of in IH. rewrite IH, !sapp. reflexivity. Qed.
Lemma text_join ls : text_of (lines_or_blank ls) = join_lines ls ++ newline.
Proof.
  induction ls as [|l ls IH]; [reflexivity|]. cbn [lines_or_blank]. destruct ls as [|l' ls]; [cbn [text_of fold_right join_lines]; now rewrite sapp_nil|].
  change (text_of (l :: l' :: ls)) with (l ++ newline ++ text_of (lines_or_blank (l' :: ls))). rewrite IH.
  change (join_lines (l :: l' :: ls)) with (l ++ newline ++ join_lines (l' :: ls)). rewrite !sapp. reflexivity.
Qed.
Lemma graph_text name ns es : text_of (graph_lines name ns es) = visualize mermaid name ns es.
Proof.
  unfold graph_lines. rewrite !text_app, !text_join. unfold visualize. cbn [prologue epilogue mermaid]. rewrite sapp_nil. cbn [text_of fold_right]. rewrite !sapp, ?sapp_nil. reflexivity.
Qed.
Lemma no_char_cons c a s : no_char c (String a s) = (negb (Ascii.eqb a c) && no_char c s)%bool.
Proof. reflexivity. Qed.
Lemma ids_clean c n : c <> "_"%char -> no_char c n = true -> no_char c (to_id n) = true.
Proof.
  intros Hc H. assert (E : Ascii.eqb "_" c = false) by (apply Ascii.eqb_neq; congruence).
  unfold to_id. rewrite no_char_app, (no_char_cons c "_" ""), E. cbn [negb andb]. change (no_char c "") with true. cbn [andb].
  induction n as [|a n IH]; [reflexivity|]. rewrite no_char_cons in H. apply andb_prop in H as [H1 H2]. cbn [spaces_to_underscores]. rewrite no_char_cons, (IH H2), andb_true_r.
  destruct (Ascii.eqb a " "); [now rewrite E|exact H1].
Qed.
Lemma node_line c n : c = "\"%char \/ c = ascii_of_nat 10 -> no_char c (n_name n) = true -> no_char c (render_node mermaid n) = true /\ prefix "~~~~START" (render_node mermaid n) = false.
Proof.
  intros Hc H. assert (I : no_char c (to_id (n_name n)) = true) by (apply ids_clean; [destruct Hc as [->| ->]; discriminate|exact H]).
  cbn [render_node mermaid]. destruct (_ || _)%bool; [|unfold to_box; destruct (n_type n)]; (split; [rewrite !no_char_app, I, H; destruct Hc as [->| ->]; reflexivity|reflexivity]).
Qed.
Lemma edge_line c e : c = "\"%char \/ c = ascii_of_nat 10 -> no_char c (leaf_name (e_src e)) = true -> no_char c (leaf_name (e_dst e)) = true -> no_char c (c_name (e_cond e)) = true ->
  no_char c (render_edge mermaid e) = true /\ prefix "~~~~START" (render_edge mermaid e) = false.
Proof.
  intros Hc H1 H2 H3. assert (I1 : no_char c (to_id (leaf_name (e_src e))) = true) by (apply ids_clean; [destruct Hc as [->| ->]; discriminate|exact H1]).
  assert (I2 : no_char c (to_id (leaf_name (e_dst e))) = true) by (apply ids_clean; [destruct Hc as [->| ->]; discriminate|exact H2]).
  cbn [render_edge mermaid]. destruct (String.eqb _ _); (split; [rewrite !no_char_app, I1, I2, ?H3; destruct Hc as [->| ->]; reflexivity|reflexivity]).
Qed.
Lemma lines_good name ns es : clean name -> Forall (fun n => clean (n_name n)) ns -> Forall edge_clean es ->
  Forall (fun l => no_char "\" l = true /\ no_char (ascii_of_nat 10) l = true /\ prefix "~~~~START" l = false) (graph_lines name ns es).
Proof.
  intros [N1 N2] Hn He. apply no_char_iff in N1, N2. unfold graph_lines. rewrite !Forall_app. split; [|split].
  - repeat constructor; cbn [app]; rewrite ?no_char_app, ?N1, ?N2; reflexivity.
  - destruct ns as [|n0 ns0]; [repeat constructor|]. cbn [lines_or_blank map]. change (render_node mermaid n0 :: map (render_node mermaid) ns0) with (map (render_node mermaid) (n0 :: ns0)).
    apply Forall_forall. intros l Hl. apply in_map_iff in Hl as (n & <- & Hin). rewrite Forall_forall in Hn. destruct (Hn n Hin) as [A B]. apply no_char_iff in A, B.
    destruct (node_line "\" n (or_introl eq_refl) A), (node_line (ascii_of_nat 10) n (or_intror eq_refl) B). auto.
  - destruct es as [|e0 es0]; [repeat constructor|]. cbn [lines_or_blank map]. change (render_edge mermaid e0 :: map (render_edge mermaid) es0) with (map (render_edge mermaid) (e0 :: es0)).
    apply Forall_forall. intros l Hl. apply in_map_iff in Hl as (e & <- & Hin). rewrite Forall_forall in He. destruct (He e Hin) as ([A1 A2] & [B1 B2] & [C1 C2]). apply no_char_iff in A1, A2, B1, B2, C1, C2.
    destruct (edge_line "\" e (or_introl eq_refl) A1 B1 C1), (edge_line (ascii_of_nat 10) e (or_intror eq_refl) A2 B2 C2). auto.
Qed.
Lemma sed_none ls : Forall (fun l => prefix "~~~~END" l = false) ls -> sed ls = [].
Proof. induction 1 as [|l ls H _ IH]; [reflexivity|]. cbn [sed]. now rewrite H. Qed.
Lemma pipeline_none output : Forall (fun l => ~ occurs "~~~~END" l) output -> pipeline output = [].
Proof.
  intros H. unfold pipeline. rewrite sed_none; [reflexivity|]. apply Forall_rev. eapply Forall_impl; [|apply awk_absent, awk_absent; exact H].
  cbn beta. intros l Hl. apply not_true_is_false. intros X. apply prefix_occurs in X as [v ->]. apply Hl. exists "", v. reflexivity.
Qed.

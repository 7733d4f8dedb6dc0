From Coq Require Import Ascii String Bool Arith List Lia.
From Verif Require Import FlowModel ShowSpec.
Import ListNotations.
Local Open Scope string_scope.

Lemma sapp_assoc (a b c : string) : (a ++ b) ++ c = a ++ b ++ c.
Proof. induction a as [|x a IH]; cbn; [reflexivity|]. now rewrite IH. Qed.
Lemma sapp_nil (a : string) : a ++ "" = a.
Proof. induction a as [|x a IH]; cbn; [reflexivity|]. now rewrite IH. Qed.

(** ** The log *)
Section Log.
Context {St : Type}.
Variable pred : nat -> St -> bool.
Variable step : nat -> St -> St.
Lemma run_nodes_log lg o : forall s es s', run_nodes pred step lg o s = (es, s') ->
  exists l, ran pred step s o l s' /\ es = flat_map (fun n => ((if lg then [Log (step_line n)] else []) ++ [Call (n_func n)])%list) l.
Proof.
  induction o as [|n o IH]; intros s es s' E; cbn [run_nodes] in E.
  - injection E as <- <-. exists []. split; [constructor|reflexivity].
  - unfold run_node in E. destruct (holds (fun p => pred p s) (n_cond n)) eqn:H.
    + destruct (run_nodes pred step lg o (step (n_func n) s)) as [es' s2] eqn:R. injection E as <- <-. destruct (IH _ _ _ R) as (l & L & ->).
      exists (n :: l). split.
      * apply ran_yes; [|exact L]. intros p I. unfold holds in H. rewrite forallb_forall in H. now apply H.
      * cbn [flat_map]. destruct lg; cbn [log_text app]; [|reflexivity]. unfold step_line, type_text. destruct (n_type n); reflexivity.
    + destruct (run_nodes pred step lg o s) as [es' s2] eqn:R. injection E as <- <-. destruct (IH _ _ _ R) as (l & L & ->).
      exists l. split; [|reflexivity]. unfold holds in H. assert (exists p, In p (c_preds (n_cond n)) /\ pred p s = false) as (p & I & P).
      { clear - H. induction (c_preds (n_cond n)) as [|p r IH]; [discriminate|]. cbn in H. destruct (pred p s) eqn:E; [|exists p; cbn; auto]. destruct (IH H) as (q & I & Q). exists q. cbn. auto. }
      eapply ran_no; eauto.
Qed.
Lemma ran_fun s o l s' : ran pred step s o l s' -> forall l2 s2, ran pred step s o l2 s2 -> l = l2 /\ s' = s2.
Proof.
  induction 1 as [s|s n r l s' P R1 IH|s n r l s' p I P R1 IH]; intros l2 s2 R; inversion R as [|? ? ? ? ? P2 R2|? ? ? ? ? p2 I2 P2 R2]; subst; auto.
  - apply IH in R2 as (-> & ->). auto.
  - rewrite P in P2; [discriminate|auto].
  - rewrite P2 in P; [discriminate|auto].
Qed.
End Log.
Lemma slen_app (a b : string) : String.length (a ++ b) = String.length a + String.length b.
Proof. induction a as [|x a IH]; cbn; [reflexivity|]. now rewrite IH. Qed.
Lemma suffix_inj (a b c : string) : a ++ c = b ++ c -> a = b.
Proof.
  revert b. induction a as [|x a IH]; intros [|y b] E; cbn in E; auto.
  - exfalso. apply (f_equal String.length) in E. cbn in E. rewrite slen_app in E. lia.
  - exfalso. apply (f_equal String.length) in E. cbn in E. rewrite slen_app in E. lia.
  - injection E as -> E. f_equal. auto.
Qed.

(** ** DOT *)
Lemma tok_word n : forall w s, every word_char n = true -> (w <> "" \/ match n with String a _ => letter a = true | _ => True end) -> tokens w (n ++ s) = tokens (w ++ n) s.
Proof.
  induction n as [|a n IH]; intros w s E O; cbn [String.append]; [now rewrite sapp_nil|].
  cbn [every] in E. apply andb_prop in E as [A E]. unfold word_char in A. cbn [tokens].
  assert (NE : w ++ String a "" <> "") by (destruct w; discriminate).
  assert (R : (w ++ String a "") ++ n = w ++ String a n) by (rewrite sapp_assoc; reflexivity).
  destruct (letter a) eqn:LA.
  - rewrite IH by auto. now rewrite R.
  - cbn in A. rewrite A. destruct O as [O|O]; [|congruence]. destruct w as [|x w]; [congruence|]. rewrite IH by auto. now rewrite R.
Qed.
Lemma tok_blank a w s : blank a = true -> tokens w (String a s) = flush w (tokens "" s).
Proof.
  intros B. assert (L : letter a = false /\ digit a = false).
  { unfold blank in B. repeat (apply orb_prop in B as [B|B]); apply Ascii.eqb_eq in B; subst a; split; reflexivity. }
  destruct L as [L D]. cbn [tokens]. now rewrite L, D, B.
Qed.
Lemma tok_arrow s : tokens "" ("->" ++ s) = option_map (cons Arrow) (tokens "" s).
Proof. reflexivity. Qed.
Lemma dot_name_word n : dot_name n = true -> every word_char n = true /\ (match n with String a _ => letter a = true | _ => True end) /\ keyword n = false /\ n <> "".
Proof.
  destruct n as [|a r]; [discriminate|]. unfold dot_name. intros H. apply andb_prop in H as [H K]. apply andb_prop in H as [L E].
  cbn [every]. unfold word_char at 1. rewrite L, E. repeat split; auto; [|discriminate]. now destruct (keyword (String a r)).
Qed.
Lemma tok_name n a s : dot_name n = true -> blank a = true -> tokens "" (n ++ String a s) = option_map (cons (Word n)) (tokens "" s).
Proof.
  intros D B. apply dot_name_word in D as (E & L & _ & NE). rewrite tok_word by auto. cbn [String.append]. rewrite tok_blank by exact B.
  destruct n; [congruence|]. cbn [flush]. destruct (tokens "" s); reflexivity.
Qed.
Lemma tok_node n s : dot_name n = true -> tokens "" (("  " ++ n) ++ newline ++ s) = option_map (cons (Word n)) (tokens "" s).
Proof.
  intros D. rewrite sapp_assoc. change ("  " ++ n ++ newline ++ s) with (String " " (String " " (n ++ String nl s))).
  rewrite !tok_blank by reflexivity. cbn [flush]. apply tok_name; auto.
Qed.
Lemma tok_edge a b s : dot_name a = true -> dot_name b = true ->
  tokens "" (("  " ++ a ++ " -> " ++ b) ++ newline ++ s) = option_map (fun t => Word a :: Arrow :: Word b :: t) (tokens "" s).
Proof.
  intros A B. replace (("  " ++ a ++ " -> " ++ b) ++ newline ++ s) with (String " " (String " " (a ++ String " " ("->" ++ String " " (b ++ String nl s))))).
  2: { rewrite !sapp_assoc. cbn. rewrite ?sapp_assoc. reflexivity. }
  rewrite !(tok_blank " " "") by reflexivity. cbn [flush]. rewrite tok_name by auto. rewrite tok_arrow. rewrite (tok_blank " " "") by reflexivity. cbn [flush].
  rewrite tok_name by auto. destruct (tokens "" s); reflexivity.
Qed.
Lemma join_step x r t : join_lines (x :: r) ++ newline ++ t = x ++ newline ++ match r with [] => t | _ => join_lines r ++ newline ++ t end.
Proof. destruct r as [|y r]; [reflexivity|]. cbn [join_lines]. rewrite !sapp_assoc. reflexivity. Qed.
Definition edge_tokens (e : edge) : list token := [Word (leaf_name (e_src e)); Arrow; Word (leaf_name (e_dst e))].
Lemma tok_nodes ns t : forallb (fun n => dot_name (n_name n)) ns = true ->
  tokens "" (join_lines (map (render_node graphviz) ns) ++ newline ++ t) = option_map (app (map (fun n => Word (n_name n)) ns)) (tokens "" t).
Proof.
  induction ns as [|n ns IH]; intros H.
  - cbn [map join_lines String.append]. change (newline ++ t) with (String nl t). rewrite tok_blank by reflexivity. cbn. destruct (tokens "" t); reflexivity.
  - cbn [forallb] in H. apply andb_prop in H as [H1 H2]. cbn [map]. rewrite join_step. change (render_node graphviz n) with ("  " ++ n_name n). rewrite tok_node by exact H1.
    destruct ns as [|m ns]; [cbn [map]; cbv iota; destruct (tokens "" t); reflexivity|]. change (map (render_node graphviz) (m :: ns)) with (render_node graphviz m :: map (render_node graphviz) ns) in *.
    cbv iota. rewrite (IH H2). destruct (tokens "" t); reflexivity.
Qed.
Lemma tok_edges es t : forallb (fun e => dot_name (leaf_name (e_src e)) && dot_name (leaf_name (e_dst e))) es = true ->
  tokens "" (join_lines (map (render_edge graphviz) es) ++ newline ++ t) = option_map (app (flat_map edge_tokens es)) (tokens "" t).
Proof.
  induction es as [|e es IH]; intros H.
  - cbn [map join_lines String.append]. change (newline ++ t) with (String nl t). rewrite tok_blank by reflexivity. cbn. destruct (tokens "" t); reflexivity.
  - cbn [forallb] in H. apply andb_prop in H as [H1 H2]. apply andb_prop in H1 as [Ha Hb]. cbn [map]. rewrite join_step.
    change (render_edge graphviz e) with ("  " ++ leaf_name (e_src e) ++ " -> " ++ leaf_name (e_dst e)). rewrite tok_edge by assumption.
    destruct es as [|m es]; [cbn [map]; cbv iota; destruct (tokens "" t); reflexivity|]. change (map (render_edge graphviz) (m :: es)) with (render_edge graphviz m :: map (render_edge graphviz) es) in *.
    cbv iota. rewrite (IH H2). destruct (tokens "" t); reflexivity.
Qed.
Definition starts_arrow (ts : list token) : bool := match ts with Arrow :: _ => true | _ => false end.
Lemma st_node last a r : keyword a = false -> starts_arrow r = false -> statements last (Word a :: r) = option_map (fun g => (a :: fst g, snd g)) (statements (Some a) r).
Proof. intros K S. cbn [statements]. rewrite K. destruct r as [|[] r]; try reflexivity. discriminate. Qed.
Lemma st_edge last a b r : keyword a = false -> keyword b = false -> starts_arrow r = false ->
  statements last (Word a :: Arrow :: Word b :: r) = option_map (fun g => (fst g, (a, b) :: snd g)) (statements None r).
Proof. intros K K' S. cbn [statements]. rewrite K, K'. destruct r as [|[] r]; try reflexivity. discriminate. Qed.
Lemma st_edges es : forallb (fun e => dot_name (leaf_name (e_src e)) && dot_name (leaf_name (e_dst e))) es = true -> forall last,
  statements last (flat_map edge_tokens es ++ [Close]) = Some ([], map (fun e => (leaf_name (e_src e), leaf_name (e_dst e))) es).
Proof.
  induction es as [|e es IH]; intros H last; [reflexivity|]. cbn [forallb] in H. apply andb_prop in H as [H1 H2]. apply andb_prop in H1 as [Ha Hb].
  apply dot_name_word in Ha as (_ & _ & Ka & _), Hb as (_ & _ & Kb & _). cbn [flat_map edge_tokens app]. rewrite st_edge; auto.
  - rewrite IH by exact H2. reflexivity.
  - destruct es; reflexivity.
Qed.
Lemma st_nodes ns es : forallb (fun n => dot_name (n_name n)) ns = true -> forallb (fun e => dot_name (leaf_name (e_src e)) && dot_name (leaf_name (e_dst e))) es = true -> forall last,
  statements last (map (fun n => Word (n_name n)) ns ++ flat_map edge_tokens es ++ [Close]) = Some (map n_name ns, map (fun e => (leaf_name (e_src e), leaf_name (e_dst e))) es).
Proof.
  intros H HE. induction ns as [|n ns IH]; intros last; [now apply st_edges|]. cbn [forallb] in H. apply andb_prop in H as [H1 H2]. apply dot_name_word in H1 as (_ & _ & K & _).
  cbn [map app]. rewrite st_node; [|exact K|]. 2: { destruct ns; [destruct es|]; reflexivity. }
  rewrite IH by exact H2. reflexivity.
Qed.
Lemma read_graphviz name ns es : dot_name name = true -> forallb (fun n => dot_name (n_name n)) ns = true ->
  forallb (fun e => dot_name (leaf_name (e_src e)) && dot_name (leaf_name (e_dst e))) es = true ->
  read_dot (visualize graphviz name ns es) = Some (name, map n_name ns, map (fun e => (leaf_name (e_src e), leaf_name (e_dst e))) es).
Proof.
  intros N HN HE. unfold read_dot, visualize. change (prologue graphviz name) with ("digraph " ++ name ++ " {"). change (epilogue graphviz name) with "}".
  match goal with |- context [tokens "" ?t] => replace t with ("digraph" ++ String " " (name ++ String " " (String "{" (String nl (join_lines (map (render_node graphviz) ns) ++ newline ++
    join_lines (map (render_edge graphviz) es) ++ newline ++ "}"))))) by (rewrite !sapp_assoc; cbn; rewrite ?sapp_assoc; reflexivity) end.
  rewrite tok_word; [|reflexivity|right; reflexivity]. cbn [String.append]. rewrite tok_blank by reflexivity.
  rewrite tok_name by auto.
  assert (O : forall s, tokens "" (String "{" s) = option_map (cons Open) (tokens "" s)) by reflexivity.
  rewrite O. rewrite tok_blank by reflexivity. cbn [flush]. rewrite tok_nodes, tok_edges by assumption.
  change (tokens "" "}") with (Some [Close]). cbn [option_map flush String.append]. 
  change (lower_case "digraph" =? "digraph") with true. apply dot_name_word in N as (_ & _ & K & _). rewrite K. cbn [negb andb].
  rewrite st_nodes by assumption. reflexivity.
Qed.

(** ** Mermaid *)
Lemma span_all f n a s : every f n = true -> f a = false -> span f (n ++ String a s) = (n, String a s).
Proof.
  induction n as [|x n IH]; intros E A; cbn [String.append span]; [now rewrite A|]. cbn in E. apply andb_prop in E as [X E]. rewrite X, IH by auto. reflexivity.
Qed.
Lemma span_end f n : every f n = true -> span f n = (n, "").
Proof. induction n as [|x n IH]; intros E; [reflexivity|]. cbn in E. apply andb_prop in E as [X E]. cbn [span]. now rewrite X, IH. Qed.
Lemma to_id_word n : every plain_char n = true -> every word_char (to_id n) = true.
Proof.
  intros E. unfold to_id. cbn [String.append every]. change (word_char "_") with true. cbn [andb]. induction n as [|a n IH]; [reflexivity|].
  cbn [every] in E. apply andb_prop in E as [A E]. cbn [spaces_to_underscores every]. rewrite (IH E), andb_true_r. unfold plain_char in A.
  destruct (Ascii.eqb_spec a " "); [reflexivity|]. now rewrite orb_false_r in A.
Qed.
Lemma to_id_ne n : nonempty (to_id n) = true. Proof. reflexivity. Qed.
Lemma plain_name_split n : plain_name n = true -> nonempty n = true /\ every plain_char n = true.
Proof. apply andb_prop. Qed.
Definition shape_of (n : node) : shape := if (n_name n =? "start") || (n_name n =? "end") then Circle else match n_type n with Milestone => Box | Action => Round end.
Definition condition_of (c : cond) : option string := if c_name c =? "always" then None else Some (c_name c).
Definition node_drawn (n : node) : drawn := Node (to_id (n_name n)) (shape_of n) (n_name n).
Definition edge_drawn (e : edge) : drawn := Edge (to_id (leaf_name (e_src e))) (condition_of (e_cond e)) (to_id (leaf_name (e_dst e))).
Lemma read_id n s : every plain_char n = true -> word_char (match s with String a _ => a | _ => " " end) = false ->
  span word_char (to_id n ++ s) = (to_id n, s).
Proof.
  intros E W. destruct s as [|a s]; [rewrite sapp_nil; apply span_end, to_id_word, E|]. apply span_all; [apply to_id_word, E|exact W].
Qed.
Lemma skip_spaces n s : span (Ascii.eqb " ") ("  " ++ to_id n ++ s) = ("  ", to_id n ++ s).
Proof. reflexivity. Qed.
Lemma bracketed_other l r s : dropped l s = None -> bracketed l r s = None.
Proof. unfold bracketed. now intros ->. Qed.
Lemma bracketed_is l r b n : plain_name n = true -> r = String b "" \/ r = String b (String b "") -> plain_char b = false -> bracketed l r (l ++ n ++ r) = Some n.
Proof.
  intros P R B. apply plain_name_split in P as [P1 P2]. unfold bracketed. assert (D : dropped l (l ++ n ++ r) = Some (n ++ r)).
  { clear. induction l as [|a l IH]; [reflexivity|]. cbn [String.append dropped]. now rewrite Ascii.eqb_refl. }
  rewrite D. destruct R as [-> | ->]; rewrite span_all by auto; rewrite P1, String.eqb_refl; reflexivity.
Qed.
Lemma bracketed_not l r n b rest : plain_char b = false -> every plain_char n = true -> String b rest <> r -> bracketed l r (l ++ n ++ String b rest) = None.
Proof.
  intros B P R. unfold bracketed. assert (D : dropped l (l ++ n ++ String b rest) = Some (n ++ String b rest)).
  { clear. induction l as [|a l IH]; [reflexivity|]. cbn [String.append dropped]. now rewrite Ascii.eqb_refl. }
  rewrite D, span_all by auto. destruct (String.eqb_spec (String b rest) r); [contradiction|]. now rewrite andb_false_r.
Qed.
Lemma plain_not_paren n : plain_name n = true -> exists a r, n = String a r /\ plain_char a = true.
Proof. intros P. apply plain_name_split in P as [P1 P2]. destruct n as [|a r]; [discriminate|]. cbn in P2. apply andb_prop in P2 as [P2 _]. eauto. Qed.
Lemma read_node n : plain_name (n_name n) = true -> read_line (render_node mermaid n) = Some (node_drawn n).
Proof.
  intros P. assert (P' := P). apply plain_name_split in P' as [P1 P2]. unfold node_drawn, shape_of. cbn [render_node mermaid].
  unfold read_line. destruct ((n_name n =? "start") || (n_name n =? "end")).
  - rewrite skip_spaces, read_id by auto. cbv iota beta zeta. rewrite to_id_ne. cbn [negb].
    change ("((" ++ n_name n ++ "))") with ("((" ++ n_name n ++ "))"). rewrite (bracketed_is "((" "))" ")") by auto. reflexivity.
  - unfold to_box. rewrite skip_spaces. destruct (n_type n).
    + rewrite read_id by auto. cbv iota beta zeta. rewrite to_id_ne. cbn [negb].
      assert (D : bracketed "((" "))" ("(" ++ n_name n ++ ")") = None).
      { apply bracketed_other. destruct (plain_not_paren _ P) as (a & r & -> & A). cbn [String.append dropped]. change (Ascii.eqb "(" "(") with true. cbv iota.
        destruct (Ascii.eqb_spec "(" a); [subst a; discriminate|reflexivity]. }
      rewrite D, (bracketed_is "(" ")" ")") by auto. reflexivity.
    + rewrite read_id by auto. cbv iota beta zeta. rewrite to_id_ne. cbn [negb].
      assert (D1 : bracketed "((" "))" ("[" ++ n_name n ++ "]") = None) by reflexivity.
      assert (D2 : bracketed "(" ")" ("[" ++ n_name n ++ "]") = None) by reflexivity.
      rewrite D1, D2, (bracketed_is "[" "]" "]") by auto. reflexivity.
Qed.
Lemma read_edge e : plain_name (leaf_name (e_src e)) = true -> plain_name (leaf_name (e_dst e)) = true -> plain_name (c_name (e_cond e)) = true ->
  read_line (render_edge mermaid e) = Some (edge_drawn e).
Proof.
  intros A B C. apply plain_name_split in A as [A1 A2], B as [B1 B2], C as [C1 C2]. unfold edge_drawn, condition_of. cbn [render_edge mermaid]. unfold read_line.
  assert (E : forall n, every plain_char n = true -> span word_char (to_id n) = (to_id n, "")) by (intros n H; apply span_end, to_id_word, H).
  destruct (c_name (e_cond e) =? "always").
  - rewrite skip_spaces, read_id by auto. cbv iota beta zeta. rewrite to_id_ne. cbn [negb].
    change (bracketed "((" "))" (" --> " ++ to_id (leaf_name (e_dst e)))) with (@None string).
    change (bracketed "(" ")" (" --> " ++ to_id (leaf_name (e_dst e)))) with (@None string).
    change (bracketed "[" "]" (" --> " ++ to_id (leaf_name (e_dst e)))) with (@None string).
    change (dropped " --" (" --> " ++ to_id (leaf_name (e_dst e)))) with (Some ("> " ++ to_id (leaf_name (e_dst e)))). cbv iota.
    change (span plain_char ("> " ++ to_id (leaf_name (e_dst e)))) with ("", "> " ++ to_id (leaf_name (e_dst e))). cbv iota beta.
    change (nonempty "") with false. cbv iota. change (dropped "> " ("> " ++ to_id (leaf_name (e_dst e)))) with (Some (to_id (leaf_name (e_dst e)))). cbv iota.
    rewrite E by auto. reflexivity.
  - rewrite skip_spaces, read_id by auto. cbv iota beta zeta. rewrite to_id_ne. cbn [negb].
    set (x := " --" ++ c_name (e_cond e) ++ "--> " ++ to_id (leaf_name (e_dst e))).
    change (bracketed "((" "))" x) with (@None string). change (bracketed "(" ")" x) with (@None string). change (bracketed "[" "]" x) with (@None string).
    change (dropped " --" x) with (Some (c_name (e_cond e) ++ "--> " ++ to_id (leaf_name (e_dst e)))). cbv iota.
    change ("--> " ++ to_id (leaf_name (e_dst e))) with (String "-" ("-> " ++ to_id (leaf_name (e_dst e)))). rewrite span_all by auto. cbv iota beta. rewrite C1. cbv iota.
    change (dropped "--> " (String "-" ("-> " ++ to_id (leaf_name (e_dst e))))) with (Some (to_id (leaf_name (e_dst e)))). cbv iota. rewrite E by auto. reflexivity.
Qed.
Definition no_nl (s : string) : bool := every (fun a => negb (Ascii.eqb a nl)) s.
Lemma lines_step x t : no_nl x = true -> text_lines (x ++ newline ++ t) = x :: text_lines t.
Proof.
  unfold no_nl. induction x as [|a x IH]; intros N; [reflexivity|]. cbn [every] in N. apply andb_prop in N as [A N]. cbn [String.append text_lines]. destruct (Ascii.eqb a nl); [discriminate|]. now rewrite IH.
Qed.
Lemma lines_join ls t : forallb no_nl ls = true -> text_lines (join_lines ls ++ newline ++ t) = (match ls with [] => [""] | _ => ls end ++ text_lines t)%list.
Proof.
  induction ls as [|x ls IH]; intros N; [reflexivity|]. cbn [forallb] in N. apply andb_prop in N as [X N]. rewrite join_step, lines_step by exact X.
  destruct ls as [|y ls]; [reflexivity|]. rewrite (IH N). reflexivity.
Qed.
Lemma every_app f a b : every f (a ++ b) = every f a && every f b.
Proof. induction a as [|x a IH]; cbn; [reflexivity|]. now rewrite IH, andb_assoc. Qed.
Lemma plain_no_nl s : every plain_char s = true -> no_nl s = true.
Proof.
  unfold no_nl. induction s as [|a s IH]; intros E; [reflexivity|]. cbn [every] in *. apply andb_prop in E as [A E]. rewrite IH by exact E. rewrite andb_true_r.
  destruct (Ascii.eqb_spec a nl); [subst a; vm_compute in A; discriminate|reflexivity].
Qed.
Lemma word_no_nl s : every word_char s = true -> no_nl s = true.
Proof.
  intros E. apply plain_no_nl. revert E. induction s as [|a s IH]; intros E; [reflexivity|]. cbn [every] in *. apply andb_prop in E as [A E]. unfold plain_char at 1. now rewrite A, IH.
Qed.
Lemma node_no_nl n : plain_name (n_name n) = true -> no_nl (render_node mermaid n) = true.
Proof.
  intros P. apply plain_name_split in P as [_ P]. assert (I := word_no_nl _ (to_id_word _ P)). assert (Q := plain_no_nl _ P). unfold no_nl in *.
  cbn [render_node mermaid]. destruct (_ || _); [|unfold to_box; destruct (n_type n)]; rewrite !every_app, I, Q; reflexivity.
Qed.
Lemma edge_no_nl e : plain_name (leaf_name (e_src e)) = true -> plain_name (leaf_name (e_dst e)) = true -> plain_name (c_name (e_cond e)) = true -> no_nl (render_edge mermaid e) = true.
Proof.
  intros A B C. apply plain_name_split in A as [_ A], B as [_ B], C as [_ C]. apply to_id_word in A, B. apply word_no_nl in A, B. apply plain_no_nl in C. unfold no_nl in *.
  cbn [render_edge mermaid]. destruct (_ =? _); rewrite !every_app, ?A, ?B, ?C; reflexivity.
Qed.
Lemma read_lines_app a b : forall x y, read_lines a = Some x -> read_lines b = Some y -> read_lines (a ++ b) = Some (x ++ y)%list.
Proof.
  induction a as [|l a IH]; intros x y A B; [injection A as <-; exact B|]. cbn [read_lines app] in *. destruct (l =? ""); [auto|].
  destruct (read_line l); [|discriminate]. destruct (read_lines a) eqn:E; [|discriminate]. injection A as <-. rewrite (IH _ y eq_refl B). reflexivity.
Qed.
Definition edge_plain (e : edge) : bool := plain_name (leaf_name (e_src e)) && plain_name (leaf_name (e_dst e)) && plain_name (c_name (e_cond e)).
Lemma read_nodes ns : forallb (fun n => plain_name (n_name n)) ns = true -> read_lines (match map (render_node mermaid) ns with [] => [""] | _ => map (render_node mermaid) ns end) = Some (map node_drawn ns).
Proof.
  destruct ns as [|n0 ns0]; [reflexivity|]. intros H. change (match map (render_node mermaid) (n0 :: ns0) with [] => [""] | _ => map (render_node mermaid) (n0 :: ns0) end) with (map (render_node mermaid) (n0 :: ns0)).
  revert H. induction (n0 :: ns0) as [|n ns IH]; intros H; [reflexivity|]. cbn [forallb] in H. apply andb_prop in H as [H1 H2]. cbn [map read_lines].
  rewrite read_node, (IH H2) by exact H1. cbn [render_node mermaid]. destruct (_ || _); reflexivity.
Qed.
Lemma read_edges es : forallb edge_plain es = true -> read_lines (match map (render_edge mermaid) es with [] => [""] | _ => map (render_edge mermaid) es end) = Some (map edge_drawn es).
Proof.
  destruct es as [|n0 ns0]; [reflexivity|]. intros H. change (match map (render_edge mermaid) (n0 :: ns0) with [] => [""] | _ => map (render_edge mermaid) (n0 :: ns0) end) with (map (render_edge mermaid) (n0 :: ns0)).
  revert H. induction (n0 :: ns0) as [|n ns IH]; intros H; [reflexivity|]. cbn [forallb] in H. apply andb_prop in H as [H1 H2]. unfold edge_plain in H1. apply andb_prop in H1 as [H1 Hc]. apply andb_prop in H1 as [Ha Hb].
  cbn [map read_lines]. rewrite read_edge, (IH H2) by assumption. cbn [render_edge mermaid]. destruct (_ =? "always"); reflexivity.
Qed.
Lemma read_visualize name ns es : every plain_char name = true -> forallb (fun n => plain_name (n_name n)) ns = true -> forallb edge_plain es = true ->
  read_mermaid (visualize mermaid name ns es) = Some (name, map node_drawn ns ++ map edge_drawn es)%list.
Proof.
  intros N HN HE. unfold read_mermaid, visualize.
  change (prologue mermaid name) with ("---" ++ newline ++ "title: " ++ name ++ newline ++ "---" ++ newline ++ "flowchart TD"). change (epilogue mermaid name) with "".
  match goal with |- context [text_lines ?t] => replace t with ("---" ++ newline ++ ("title: " ++ name) ++ newline ++ "---" ++ newline ++ "flowchart TD" ++ newline ++
    (join_lines (map (render_node mermaid) ns) ++ newline ++ (join_lines (map (render_edge mermaid) es) ++ newline ++ ""))) by (rewrite !sapp_assoc; reflexivity) end.
  rewrite (lines_step "---") by reflexivity. rewrite (lines_step ("title: " ++ name)) by (unfold no_nl; rewrite every_app; change (every _ name) with (no_nl name); now rewrite (plain_no_nl name N)).
  rewrite (lines_step "---"), (lines_step "flowchart TD") by reflexivity.
  rewrite !lines_join.
  2: { apply forallb_forall. intros x I. apply in_map_iff in I as (e & <- & I). rewrite forallb_forall in HE. apply HE in I. unfold edge_plain in I. apply andb_prop in I as [I Ic]. apply andb_prop in I as [Ia Ib]. now apply edge_no_nl. }
  2: { apply forallb_forall. intros x I. apply in_map_iff in I as (n & <- & I). rewrite forallb_forall in HN. apply HN in I. now apply node_no_nl. }
  cbv iota. change (("---" =? "---") && ("---" =? "---") && ("flowchart TD" =? "flowchart TD")) with true. cbv iota.
  change (dropped "title: " ("title: " ++ name)) with (Some name). cbv iota.
  erewrite read_lines_app; [|apply read_nodes; exact HN|eapply read_lines_app; [apply read_edges; exact HE|reflexivity]].
  now rewrite app_nil_r.
Qed.
Lemma label_app a b id : label_of (a ++ b) id = match label_of b id with Some x => Some x | None => label_of a id end.
Proof. induction a as [|d a IH]; cbn [app label_of]; [now destruct (label_of b id)|]. destruct d; rewrite IH; [|reflexivity]. destruct (label_of b id); reflexivity. Qed.
Lemma label_edges es id : label_of (map edge_drawn es) id = None.
Proof. induction es as [|e es IH]; [reflexivity|exact IH]. Qed.
Lemma label_nodes ns n : In n (map n_name ns) -> (forall a b, In a (map n_name ns) -> In b (map n_name ns) -> to_id a = to_id b -> a = b) -> label_of (map node_drawn ns) (to_id n) = Some n.
Proof.
  induction ns as [|m ns IH]; intros I J; [destruct I|]. cbn [map label_of node_drawn].
  destruct (label_of (map node_drawn ns) (to_id n)) as [x|] eqn:L.
  - assert (exists m', In m' ns /\ to_id (n_name m') = to_id n /\ n_name m' = x) as (m' & I' & E & <-).
    { clear - L. induction ns as [|k ns IH]; [discriminate|]. cbn [map label_of node_drawn] in L. destruct (label_of (map node_drawn ns) (to_id n)) as [y|].
      - destruct (IH L) as (m' & A & B). exists m'. cbn. auto.
      - destruct (to_id (n_name k) =? to_id n) eqn:Q; [|discriminate]. apply String.eqb_eq in Q. injection L as <-. exists k. cbn. auto. }
    f_equal. apply J; auto. cbn [map]. right. now apply in_map.
  - destruct I as [<-|I]; [now rewrite String.eqb_refl|]. exfalso. assert (X : None = Some n); [|discriminate].
    apply IH; [exact I|]. intros a b A B. apply J; cbn [map]; right; auto.
Qed.
Lemma picture ns es : (forall a b, In a (map n_name ns) -> In b (map n_name ns) -> to_id a = to_id b -> a = b) ->
  (forall e, In e es -> In (leaf_name (e_src e)) (map n_name ns) /\ In (leaf_name (e_dst e)) (map n_name ns)) ->
  let ds := (map node_drawn ns ++ map edge_drawn es)%list in
  boxes ds = map (fun n => (n_name n, shape_of n)) ns /\
  arrows ds = map (fun e => (Some (leaf_name (e_src e)), condition_of (e_cond e), Some (leaf_name (e_dst e)))) es.
Proof.
  intros J E ds. split.
  - unfold boxes, ds. rewrite flat_map_app. replace (flat_map _ (map edge_drawn es)) with (@nil (string * shape)); [|clear; induction es as [|e es IH]; [reflexivity|exact IH]].
    rewrite app_nil_r. clear. induction ns as [|n ns IH]; [reflexivity|]. cbn. now rewrite IH.
  - unfold arrows. assert (L : forall x, In x (map n_name ns) -> label_of ds (to_id x) = Some x).
    { intros x I. unfold ds. rewrite label_app, label_edges. now apply label_nodes. }
    unfold ds at 3. rewrite flat_map_app. replace (flat_map _ (map node_drawn ns)) with (@nil (option string * option string * option string)).
    2: { generalize ds. clear. intros ds. induction ns as [|n ns IH]; [reflexivity|exact IH]. }
    cbn [app]. revert E L. generalize ds. clear. intros ds E L. induction es as [|e es IH]; [reflexivity|]. cbn [map flat_map edge_drawn app].
    destruct (E e (or_introl eq_refl)) as [A B]. rewrite !L by assumption. f_equal. apply IH. intros e' I. apply E. now right.
Qed.

(** Theorems about the log and the drawings of flows. *)
From Coq Require Import Ascii String Bool Arith List Permutation Relations Lia.
From Verif Require Import FlowModel FlowSpec FlowProofs2 FlowProofs5 FlowProps ShowModel ShowSpec ShowProofs.
Import ListNotations.
Local Open Scope string_scope.

(** ** C89 *)
(** Which steps run is determined, and the log of a named flow has a line for its
    start, one for each of them, just before its function is called, and one for its
    end. *)
Theorem C89_log {St} (pred : nat -> St -> bool) (step : nat -> St -> St) name o s : name <> "" ->
  exists l s', (forall l2 s2, ran pred step s o l2 s2 <-> l2 = l /\ s2 = s') /\
  run_flow pred step name o s = (Log ("flow.start(" ++ name ++ ")") :: flat_map (fun n => [Log (step_line n); Call (n_func n)]) l ++ [Log ("flow.end(" ++ name ++ ")")], s')%list.
Proof.
  intros N. unfold run_flow. destruct (String.eqb_spec name ""); [contradiction|]. cbn [negb].
  destruct (run_nodes pred step true o s) as [es s'] eqn:R. destruct (run_nodes_log pred step true o s es s' R) as (l & L & ->).
  exists l, s'. split; [|reflexivity]. intros l2 s2. split; [intros H; destruct (ran_fun _ _ _ _ _ _ L _ _ H); auto|intros [-> ->]; exact L].
Qed.
Print Assumptions C89_log.
(** A flow without a name runs the same steps and logs nothing. *)
Theorem C89_silent {St} (pred : nat -> St -> bool) (step : nat -> St -> St) o s :
  exists l s', ran pred step s o l s' /\ run_flow pred step "" o s = (map (fun n => Call (n_func n)) l, s').
Proof.
  unfold run_flow. cbn [String.eqb negb]. destruct (run_nodes pred step false o s) as [es s'] eqn:R. destruct (run_nodes_log pred step false o s es s' R) as (l & L & ->).
  exists l, s'. split; [exact L|]. cbn [log_text app]. rewrite app_nil_r. reflexivity.
Qed.
Print Assumptions C89_silent.
(** A line tells the kind and the name of its step. *)
Theorem C89_lines n m : step_line n = step_line m -> n_type n = n_type m /\ n_name n = n_name m.
Proof.
  unfold step_line. destruct (n_type n), (n_type m); cbn; intros E; try discriminate; split; try reflexivity.
  - apply (suffix_inj _ _ ")"). congruence.
  - apply (suffix_inj _ _ ")"). congruence.
Qed.
Print Assumptions C89_lines.
Example C89_case : run_flow (fun p s => Nat.eqb p s) (fun f s => f) "F"
  [{| n_type := Action; n_name := "a"; n_value := true; n_cond := always; n_func := 1 |};
   {| n_type := Action; n_name := "b"; n_value := true; n_cond := {| c_name := "two"; c_preds := [2] |}; n_func := 3 |};
   {| n_type := Milestone; n_name := "m"; n_value := true; n_cond := {| c_name := "one"; c_preds := [1] |}; n_func := 4 |}] 0
  = ([Log "flow.start(F)"; Log "flow.action(a)"; Call 1; Log "flow.milestone(m)"; Call 4; Log "flow.end(F)"], 4).
Proof. reflexivity. Qed.

(** ** C90 *)
(** Read as DOT, the text is the drawing, if all names are identifiers. *)
Theorem C90_text_partial name ns es : dot_name name = true -> (forall n, In n ns -> dot_name (n_name n) = true) ->
  (forall e, In e es -> dot_name (leaf_name (e_src e)) = true /\ dot_name (leaf_name (e_dst e)) = true) ->
  read_dot (visualize graphviz name ns es) = Some (name, map n_name ns, map (fun e => (leaf_name (e_src e), leaf_name (e_dst e))) es).
Proof.
  intros N HN HE. apply read_graphviz; [exact N|now apply forallb_forall|]. apply forallb_forall. intros e I. destruct (HE e I) as [-> ->]. reflexivity.
Qed.
Print Assumptions C90_text_partial.
(** And in no other case: every name a reader finds is such an identifier, so that the text reads as the
    drawing exactly if all names are. *)
Lemma every_snoc s a : every word_char (s ++ String a "") = (every word_char s && word_char a)%bool.
Proof. induction s as [|b s IH]; cbn [append every]; [rewrite andb_true_r; reflexivity|]. rewrite IH, andb_assoc. reflexivity. Qed.
Definition word_ok (s : string) : Prop := match s with EmptyString => False | String a r => letter a = true /\ every word_char r = true end.
Lemma word_ok_snoc s a : word_ok s -> word_char a = true -> word_ok (s ++ String a "").
Proof. destruct s as [|b s]; [intros []|]. intros [H1 H2] H3. split; [exact H1|]. rewrite every_snoc, H2, H3. reflexivity. Qed.
Lemma flush_words w o ts : flush w o = Some ts -> (w = "" \/ word_ok w) -> (forall ts', o = Some ts' -> forall x, In (Word x) ts' -> word_ok x) -> forall x, In (Word x) ts -> word_ok x.
Proof.
  unfold flush. intros E Hw Ho x I. destruct w as [|a w]; [exact (Ho ts E x I)|]. destruct o as [ts'|]; [|discriminate]. cbn in E. injection E as <-. destruct I as [[= <-]|I]; [|exact (Ho ts' eq_refl x I)]. destruct Hw as [D|H]; [discriminate|exact H].
Qed.
Lemma tokens_words n : forall s, String.length s <= n -> forall w ts, tokens w s = Some ts -> (w = "" \/ word_ok w) -> forall x, In (Word x) ts -> word_ok x.
Proof.
  induction n as [|n IH]; intros s L w ts E Hw; (destruct s as [|a r]; [cbn [tokens] in E; apply (flush_words w (Some []) ts E Hw); intros ts' [= <-] x []|]); cbn [String.length] in L; [lia|].
  cbn [tokens] in E. assert (Lr : String.length r <= n) by lia.
  assert (M : forall c ts', option_map (cons c) (tokens "" r) = Some ts' -> (forall x, c <> Word x) -> forall x, In (Word x) ts' -> word_ok x).
  { intros c ts' Ec Hc x I. destruct (tokens "" r) as [t|] eqn:T; [|discriminate]. injection Ec as <-. destruct I as [D|I]; [destruct (Hc x D)|]. exact (IH r Lr "" t T (or_introl eq_refl) x I). }
  destruct (letter a) eqn:La.
  - apply (IH r Lr _ ts E). right. destruct Hw as [->|Hw]; [split; [exact La|reflexivity]|]. apply word_ok_snoc; [exact Hw|]. unfold word_char. rewrite La. reflexivity.
  - destruct (digit a) eqn:Da.
    + destruct w as [|b w]; [discriminate|]. apply (IH r Lr _ ts E). right. destruct Hw as [D|Hw]; [discriminate|]. apply word_ok_snoc; [exact Hw|]. unfold word_char. rewrite Da. apply orb_true_r.
    + destruct (blank a).
      * apply (flush_words w _ ts E Hw). intros ts' T. exact (IH r Lr "" ts' T (or_introl eq_refl)).
      * destruct (Ascii.eqb a "{"); [apply (flush_words w _ ts E Hw); intros ts' T; apply (M Open ts' T); discriminate|].
        destruct (Ascii.eqb a "}"); [apply (flush_words w _ ts E Hw); intros ts' T; apply (M Close ts' T); discriminate|].
        destruct (Ascii.ascii_dec a "-") as [->|Na].
        -- destruct r as [|c r']; [discriminate|]. destruct (Ascii.ascii_dec c ">") as [->|Nc].
           ++ apply (flush_words w _ ts E Hw). intros ts' T x I. destruct (tokens "" r') as [t|] eqn:T'; [|discriminate]. injection T as <-. destruct I as [D|I]; [discriminate|]. cbn [String.length] in Lr. exact (IH r' ltac:(lia) "" t T' (or_introl eq_refl) x I).
           ++ exfalso. clear - E Nc. destruct c as [[] [] [] [] [] [] [] []]; try discriminate. apply Nc. reflexivity.
        -- exfalso. clear - E Na. destruct a as [[] [] [] [] [] [] [] []]; try discriminate. apply Na. reflexivity.
Qed.
Lemma statements_words ts : forall last ns es, statements last ts = Some (ns, es) -> (forall x, In (Word x) ts -> word_ok x) -> (forall a, last = Some a -> word_ok a /\ keyword a = false) ->
  (forall x, In x ns -> word_ok x /\ keyword x = false) /\ forall x y, In (x, y) es -> (word_ok x /\ keyword x = false) /\ word_ok y /\ keyword y = false.
Proof.
  remember (List.length ts) as n eqn:L. revert ts L. induction n as [n IH] using lt_wf_ind. intros ts -> last ns es E W Hl. destruct ts as [|c ts]; [discriminate|].
  destruct c as [a| | |]; [| |discriminate|].
  - assert (E' : (if keyword a then None else match ts with Arrow :: _ => statements (Some a) ts | _ => option_map (fun g => (a :: fst g, snd g)) (statements (Some a) ts) end) = Some (ns, es)) by exact E. clear E.
    destruct (keyword a) eqn:K; [discriminate|]. assert (Wa : word_ok a) by (apply W; left; reflexivity). assert (W' : forall x, In (Word x) ts -> word_ok x) by (intros x I; apply W; right; exact I).
    assert (Ha : forall b, Some a = Some b -> word_ok b /\ keyword b = false) by (intros b [= <-]; auto).
    assert (G : option_map (fun g => (a :: fst g, snd g)) (statements (Some a) ts) = Some (ns, es) -> (forall x, In x ns -> word_ok x /\ keyword x = false) /\ forall x y, In (x, y) es -> (word_ok x /\ keyword x = false) /\ word_ok y /\ keyword y = false).
    { intros G. destruct (statements (Some a) ts) as [[ns' es']|] eqn:S; [|discriminate]. injection G as <- <-. destruct (IH (List.length ts) (Nat.lt_succ_diag_r _) ts eq_refl (Some a) ns' es' S W' Ha) as [I1 I2]. split; [|exact I2]. intros x [<-|I]; auto. }
    destruct ts as [|c' ts']; [exact (G E')|]. destruct c' as [b| | |]; [exact (G E')| |exact (G E')|exact (G E')]. exact (IH (List.length (Arrow :: ts')) (Nat.lt_succ_diag_r _) _ eq_refl (Some a) ns es E' W' Ha).
  - destruct ts as [|c' r]; [discriminate|]. destruct c' as [b| | |]; try discriminate.
    assert (E' : match last with None => None | Some a => if keyword b then None else match r with Arrow :: _ => option_map (fun g => (fst g, (a, b) :: snd g)) (statements (Some b) r) | _ => option_map (fun g => (fst g, (a, b) :: snd g)) (statements None r) end end = Some (ns, es)) by exact E. clear E.
    destruct last as [a|]; [|discriminate]. destruct (keyword b) eqn:K; [discriminate|]. assert (Wb : word_ok b) by (apply W; right; left; reflexivity). assert (W' : forall x, In (Word x) r -> word_ok x) by (intros x I; apply W; right; right; exact I).
    assert (G : forall o, (forall c, o = Some c -> word_ok c /\ keyword c = false) -> option_map (fun g => (fst g, (a, b) :: snd g)) (statements o r) = Some (ns, es) -> (forall x, In x ns -> word_ok x /\ keyword x = false) /\ forall x y, In (x, y) es -> (word_ok x /\ keyword x = false) /\ word_ok y /\ keyword y = false).
    { intros o Ho G. destruct (statements o r) as [[ns' es']|] eqn:S; [|discriminate]. injection G as <- <-. destruct (IH (List.length r) ltac:(cbn; lia) r eq_refl o ns' es' S W' Ho) as [I1 I2]. split; [exact I1|]. intros x y [[= <- <-]|I]; [|exact (I2 x y I)]. split; [apply Hl; reflexivity|auto]. }
    assert (GN := G None ltac:(discriminate)). destruct r as [|c' r']; [exact (GN E')|]. destruct c' as [b'| | |]; [exact (GN E')| |exact (GN E')|exact (GN E')]. apply (G (Some b)); [|exact E']. intros c [= <-]. auto.
  - destruct ts as [|c' ts']; [injection E as <- <-; split; [intros x []|intros x y []]|discriminate].
Qed.
Lemma dot_word s : word_ok s /\ keyword s = false <-> dot_name s = true.
Proof. destruct s as [|a r]; [split; [intros [[] _]|discriminate]|]. unfold word_ok, dot_name. rewrite !andb_true_iff, negb_true_iff. tauto. Qed.
Theorem C90_exact name ns es :
  read_dot (visualize graphviz name ns es) = Some (name, map n_name ns, map (fun e => (leaf_name (e_src e), leaf_name (e_dst e))) es) <->
  dot_name name = true /\ (forall n, In n ns -> dot_name (n_name n) = true) /\ (forall e, In e es -> dot_name (leaf_name (e_src e)) = true /\ dot_name (leaf_name (e_dst e)) = true).
Proof.
  split; [|intros (N & HN & HE); apply C90_text_partial; auto]. unfold read_dot. destruct (tokens "" (visualize graphviz name ns es)) as [ts|] eqn:T; [|discriminate].
  pose proof (tokens_words _ _ (le_n _) "" ts T (or_introl eq_refl)) as W. destruct ts as [|[d| | |] [|[nm| | |] [|[x| | |] r]]]; try discriminate.
  destruct ((lower_case d =? "digraph") && negb (keyword nm))%bool eqn:K; [|discriminate]. apply andb_prop in K as [_ K]. apply negb_true_iff in K.
  destruct (statements None r) as [[ns' es']|] eqn:S; [|discriminate]. cbn [option_map fst snd]. intros E. injection E as -> -> ->.
  destruct (statements_words r None _ _ S) as [I1 I2]; [intros x I; apply W; right; right; right; exact I|discriminate|].
  split; [apply dot_word; split; [apply W; right; left; reflexivity|exact K]|]. split.
  - intros n I. apply dot_word, I1, in_map, I.
  - intros e I. destruct (I2 (leaf_name (e_src e)) (leaf_name (e_dst e))) as [J1 J2]; [apply in_map_iff; exists e; auto|]. split; apply dot_word; assumption.
Qed.
Print Assumptions C90_exact.
Lemma sequence_mentions b c p q : in_sequence b c p q -> step_mentioned b (leaf_name p) /\ step_mentioned b (leaf_name q).
Proof.
  intros (g & l & r & v & G & P & E & S).
  assert (T : forall a x, starts_with a x -> mentions a x) by (induction 1; [constructor|apply part_seq_l|apply part_par_l|apply part_par_r]; assumption).
  assert (U : forall a x, ends_with a x -> mentions a x) by (induction 1; [constructor|apply part_seq_r|apply part_par_l|apply part_par_r]; assumption).
  assert (W : forall a m, part a m -> forall x, mentions m x -> mentions a x) by (induction 1; auto; intros x X; [apply part_seq_l|apply part_seq_r|apply part_par_l|apply part_par_r]; now apply IHpart).
  split.
  - exists g, p. split; [exact G|]. split; [|reflexivity]. apply (W _ _ P). apply part_seq_l. now apply U.
  - exists g, q. split; [exact G|]. split; [|reflexivity]. apply (W _ _ P). apply part_seq_r. now apply T.
Qed.
(** What a reader of the DOT text of a flow sees: its steps, its sequences, and the
    edges from the start and to the end. *)
Theorem C90_flow_partial sort_nodes sort_edges b vn ve name : (forall l, Permutation (sort_nodes l) l) -> (forall l, Permutation (sort_edges l) l) ->
  viz_build sort_nodes sort_edges b = Some (vn, ve) -> dot_name name = true -> (forall x, step_mentioned b x -> dot_name x = true) ->
  exists nodes edges, read_dot (visualize graphviz name vn ve) = Some (name, nodes, edges) /\
  (forall x, In x nodes <-> x = "start" \/ x = "end" \/ exists n g own, In g b /\ adds g n own /\ n_name n = x) /\
  (forall x y, In (x, y) edges <-> declared b x y \/
     (x = "start" /\ (exists n g own, In g b /\ adds g n own /\ n_name n = y) /\ forall z, ~ declared b z y) \/
     (y = "end" /\ (exists n g own, In g b /\ adds g n own /\ n_name n = x) /\ forall z, ~ declared b x z)).
Proof.
  intros Hn He V N D. destruct (C34_shown_partial sort_nodes sort_edges b vn ve Hn He V) as ((ns & -> & _ & HN) & HE).
  assert (AM : forall n g own, In g b -> adds g n own -> dot_name (n_name n) = true).
  { intros n g own G A. apply D. apply adds_mentions in A.
    destruct A as (m & M & -> & _). exists g, (LNode m). auto. }
  assert (SH : forall e, In e ve -> In (leaf_name (e_src e), leaf_name (e_dst e), e_cond e) (map shown ve)) by (intros e I; apply in_map_iff; exists e; split; [reflexivity|exact I]).
  eexists. eexists. split; [apply C90_text_partial; [exact N| |]|split].
  - intros n [<-|[<-|I]]; [reflexivity..|]. apply HN in I as (g & own & G & A). eauto.
  - intros e I. apply SH, HE in I as [(p & q & S & <- & <-)|[(-> & n & (g & own & G & A) & <- & _)|(-> & n & (g & own & G & A) & <- & _)]].
    + apply sequence_mentions in S as [S1 S2]. auto.
    + split; [reflexivity|eauto].
    + split; [eauto|reflexivity].
  - intros x. cbn [map In]. split.
    + intros [<-|[<-|I]]; auto. apply in_map_iff in I as (n & <- & I). apply HN in I as (g & own & G & A). right. right. eauto 6.
    + intros [->|[->|(n & g & own & G & A & <-)]]; auto. right. right. apply in_map. apply HN. eauto.
  - intros x y. split.
    + intros I. apply in_map_iff in I as (e & [= <- <-] & I). apply SH, HE in I as [(p & q & S & <- & <-)|[(E & n & (g & own & G & A) & F & _ & Z)|(E & n & (g & own & G & A) & F & _ & Z)]].
      * left. exists (e_cond e), p, q. auto.
      * right. left. split; [exact E|]. split; [eauto 6|exact Z].
      * right. right. split; [exact E|]. split; [eauto 6|exact Z].
    + assert (X : forall c, In (x, y, c) (map shown ve) -> In (x, y) (map (fun e => (leaf_name (e_src e), leaf_name (e_dst e))) ve)).
      { intros c I. apply in_map_iff in I as (e & E & I). apply in_map_iff. exists e. split; [|exact I]. unfold shown in E. congruence. }
      intros [(c & p & q & S & <- & <-)|[(E & (n & g & own & G & A & F) & Z)|(E & (n & g & own & G & A & F) & Z)]].
      * apply (X c), HE. left. exists p, q. auto.
      * apply (X (n_cond n)), HE. right. left. split; [exact E|]. exists n. split; [exists g, own; auto|auto].
      * apply (X (n_cond n)), HE. right. right. split; [exact E|]. exists n. split; [exists g, own; auto|auto].
Qed.
Print Assumptions C90_flow_partial.
(** A step whose name has a space is drawn as two... *)
Theorem C90_space_refuted : exists b vn ve nodes edges, viz_build keep keep b = Some (vn, ve) /\ (exists o, build pop_last in_order b = Built o) /\
  read_dot (visualize graphviz "F" vn ve) = Some ("F", nodes, edges) /\ exists x, In x nodes /\ x <> "start" /\ x <> "end" /\ ~ step_mentioned b x.
Proof.
  exists [lf "send reply" 1 true]. do 4 eexists. split; [vm_compute; reflexivity|]. split; [eexists; vm_compute; reflexivity|]. split; [vm_compute; reflexivity|].
  exists "send". split; [right; right; left; reflexivity|]. split; [discriminate|]. split; [discriminate|].
  intros (g & l & [<-|[]] & M & E). inversion M; subst. discriminate.
Qed.
Print Assumptions C90_space_refuted.
(** ...and one called like a word of the language, or with other characters, makes the
    text unreadable. *)
Theorem C90_keyword_refuted : exists b vn ve, viz_build keep keep b = Some (vn, ve) /\ (exists o, build pop_last in_order b = Built o) /\ read_dot (visualize graphviz "F" vn ve) = None.
Proof. exists [lf "edge" 1 true]. do 2 eexists. split; [vm_compute; reflexivity|]. split; [eexists; vm_compute; reflexivity|]. vm_compute. reflexivity. Qed.
Print Assumptions C90_keyword_refuted.
Example C90_case : exists vn ve, viz_build keep keep [seq_of (lf "a" 1 true) (par_of (lf "b_2" 2 true) (lf "C" 3 true))] = Some (vn, ve) /\
  read_dot (visualize graphviz "F" vn ve) = Some ("F", ["start"; "end"; "a"; "b_2"; "C"], [("a", "b_2"); ("a", "C"); ("start", "a"); ("b_2", "end"); ("C", "end")]).
Proof. do 2 eexists. split; vm_compute; reflexivity. Qed.

(** ** C91 *)
(** Read as mermaid, the text has the nodes with their names and shapes, the start and
    the end as circles, and the edges between them with their conditions: if names
    and conditions are letters, digits, underscores and spaces and no two names differ
    only in spaces and underscores. *)
Definition expected_shape (n : node) : shape :=
  match n_name n with
  | "start" | "end" => Circle
  | _ => match n_type n with Milestone => Box | Action => Round end
  end.
Definition expected_condition (c : cond) : option string := match c_name c with "always" => None | x => Some x end.
Lemma expected_shape_eq n : shape_of n = expected_shape n.
Proof.
  unfold shape_of, expected_shape. destruct (String.eqb_spec (n_name n) "start") as [->|A]; [reflexivity|]. destruct (String.eqb_spec (n_name n) "end") as [->|B]; [reflexivity|]. cbn [orb].
  destruct (n_name n) as [|c x]; [reflexivity|].
  repeat match goal with
  | |- _ = (match ?a with _ => _ end) => is_var a; destruct a; try reflexivity
  end; exfalso; auto.
Qed.
Lemma expected_condition_eq c : condition_of c = expected_condition c.
Proof.
  unfold condition_of, expected_condition. destruct (String.eqb_spec (c_name c) "always") as [->|A]; [reflexivity|].
  destruct (c_name c) as [|a x]; [reflexivity|].
  repeat match goal with
  | |- _ = (match ?a with _ => _ end) => is_var a; destruct a; try reflexivity
  end; exfalso; auto.
Qed.
Theorem C91_text_partial name ns es : every plain_char name = true -> (forall n, In n ns -> plain_name (n_name n) = true) ->
  (forall e, In e es -> In (leaf_name (e_src e)) (map n_name ns) /\ In (leaf_name (e_dst e)) (map n_name ns) /\ plain_name (c_name (e_cond e)) = true) ->
  (forall a b, In a (map n_name ns) -> In b (map n_name ns) -> spaces_to_underscores a = spaces_to_underscores b -> a = b) ->
  exists ds, read_mermaid (visualize mermaid name ns es) = Some (name, ds) /\
  boxes ds = map (fun n => (n_name n, expected_shape n)) ns /\
  arrows ds = map (fun e => (Some (leaf_name (e_src e)), expected_condition (e_cond e), Some (leaf_name (e_dst e)))) es.
Proof.
  intros N HN HE J. eexists. split; [apply read_visualize; [exact N|now apply forallb_forall|]|].
  - apply forallb_forall. intros e I. destruct (HE e I) as (A & B & C). apply in_map_iff in A as (n & En & A), B as (m & Em & B). unfold edge_plain. now rewrite <- En, <- Em, (HN n A), (HN m B), C.
  - destruct (picture ns es) as [P Q].
    + intros a b A B E. apply J; auto. unfold to_id in E. cbn in E. congruence.
    + intros e I. destruct (HE e I) as (A & B & _). auto.
    + rewrite P, Q. split; apply map_ext; intros x; [now rewrite expected_shape_eq|now rewrite expected_condition_eq].
Qed.
Print Assumptions C91_text_partial.
(** With such names, where every node has an edge (as in the graphs of flows), the picture is right exactly if
    no two names differ only in spaces and underscores. *)
Theorem C91_exact name ns es : every plain_char name = true -> (forall n, In n ns -> plain_name (n_name n) = true) ->
  (forall e, In e es -> In (leaf_name (e_src e)) (map n_name ns) /\ In (leaf_name (e_dst e)) (map n_name ns) /\ plain_name (c_name (e_cond e)) = true) ->
  (forall n, In n ns -> exists e, In e es /\ (leaf_name (e_src e) = n_name n \/ leaf_name (e_dst e) = n_name n)) ->
  ((exists ds, read_mermaid (visualize mermaid name ns es) = Some (name, ds) /\ boxes ds = map (fun n => (n_name n, expected_shape n)) ns /\
      arrows ds = map (fun e => (Some (leaf_name (e_src e)), expected_condition (e_cond e), Some (leaf_name (e_dst e)))) es) <->
   forall a b, In a (map n_name ns) -> In b (map n_name ns) -> spaces_to_underscores a = spaces_to_underscores b -> a = b).
Proof.
  intros N HN HE T. split; [|now apply C91_text_partial]. intros (ds & R & _ & A). rewrite read_visualize in R; [|exact N|now apply forallb_forall|].
  2: { apply forallb_forall. intros e I. destruct (HE e I) as (A1 & B & C). apply in_map_iff in A1 as (n & En & A1), B as (m & Em & B). unfold edge_plain. now rewrite <- En, <- Em, (HN n A1), (HN m B), C. }
  injection R as D.
  assert (L : forall e, In e es -> label_of ds (to_id (leaf_name (e_src e))) = Some (leaf_name (e_src e)) /\ label_of ds (to_id (leaf_name (e_dst e))) = Some (leaf_name (e_dst e))).
  { assert (A' : map (fun e => (label_of ds (to_id (leaf_name (e_src e))), condition_of (e_cond e), label_of ds (to_id (leaf_name (e_dst e))))) es = map (fun e => (Some (leaf_name (e_src e)), expected_condition (e_cond e), Some (leaf_name (e_dst e)))) es).
    { rewrite <- A. unfold arrows. match goal with |- _ = flat_map ?f ds => replace (flat_map f ds) with (flat_map f (map node_drawn ns ++ map edge_drawn es)%list) by (now rewrite D) end. rewrite flat_map_app. replace (flat_map _ (map node_drawn ns)) with (@nil (option string * option string * option string)); [|generalize ds; clear; intros ds; induction ns as [|n ns IH]; [reflexivity|exact IH]].
      cbn [app]. generalize ds. clear. intros ds. induction es as [|e es IH]; [reflexivity|]. cbn [map flat_map edge_drawn app]. now rewrite IH. }
    clear - A'. induction es as [|e es IH]; [intros e []|]. cbn [map] in A'. injection A' as E1 E2 E3 A'. intros e' [<-|I]; [auto|]. now apply IH. }
  assert (K : forall a, In a (map n_name ns) -> label_of ds (to_id a) = Some a).
  { intros a I. apply in_map_iff in I as (n & <- & I). destruct (T n I) as (e & Ie & [<-|<-]); apply L; exact Ie. }
  intros a b Ia Ib E. apply K in Ia, Ib. unfold to_id in Ia, Ib. rewrite E in Ia. congruence.
Qed.
Print Assumptions C91_exact.
Example C91_exact_case : let a := st "a b" 1 true in let b := st "a_b" 2 true in let c := st "c" 3 true in
  exists ds, read_mermaid (visualize mermaid "F" [a; b; c] [{| e_src := LNode a; e_dst := LNode c; e_cond := always |}; {| e_src := LNode b; e_dst := LNode c; e_cond := always |}]) = Some ("F", ds) /\
  arrows ds = [(Some "a_b", None, Some "c"); (Some "a_b", None, Some "c")].
Proof. eexists. split; vm_compute; reflexivity. Qed.
(** Steps that differ only in a space and an underscore become one node. *)
Theorem C91_ids_refuted : exists b vn ve ds, viz_build keep keep b = Some (vn, ve) /\ (exists o, build pop_last in_order b = Built o) /\
  read_mermaid (visualize mermaid "F" vn ve) = Some ("F", ds) /\ declared b "a b" "c" /\ ~ In (Some "a b", None, Some "c") (arrows ds).
Proof.
  exists [seq_of (lf "a b" 1 true) (lf "c" 2 true); lf "a_b" 3 true]. do 3 eexists. split; [vm_compute; reflexivity|]. split; [eexists; vm_compute; reflexivity|]. split; [vm_compute; reflexivity|]. split.
  - do 3 eexists. split; [exists (seq_of (lf "a b" 1 true) (lf "c" 2 true)); do 3 eexists; split; [now left|]; split; [apply part_self|]; split; constructor|]. split; reflexivity.
  - vm_compute. intuition discriminate.
Qed.
Print Assumptions C91_ids_refuted.
(** A condition called "always" is drawn as none. *)
Theorem C91_always_refuted : exists c n, c_preds c <> [] /\ c_name c = "always" /\
  visualize mermaid "F" [n] [{| e_src := LNode n; e_dst := LNode n; e_cond := c |}] = visualize mermaid "F" [n] [{| e_src := LNode n; e_dst := LNode n; e_cond := always |}].
Proof. exists {| c_name := "always"; c_preds := [1] |}, (st "a" 1 true). split; [discriminate|]. split; reflexivity. Qed.
Print Assumptions C91_always_refuted.
Example C91_case : let c := {| c_name := "debug build"; c_preds := [1] |} in let a := st "send reply" 1 true in
  let m := {| n_type := Milestone; n_name := "done"; n_value := true; n_cond := c; n_func := 2 |} in
  exists ds, read_mermaid (visualize mermaid "F" [milestone "start"; a; m] [{| e_src := LNode a; e_dst := LNode m; e_cond := c |}]) = Some ("F", ds) /\
  boxes ds = [("start", Circle); ("send reply", Round); ("done", Box)] /\ arrows ds = [(Some "send reply", Some "debug build", Some "done")].
Proof. eexists. split; [vm_compute; reflexivity|]. split; reflexivity. Qed.

(** ** C92 *)
(** A step logs with the environment declared for its name, or for its flow, or for
    "default", or else with the library's: if no environment that is declared is the
    library's own. *)
Theorem C92_partial {Env} same (d : Env) special flow step : (forall x, special x <> Some d) ->
  env_of_step Env same d special flow step = first_declared special d [step; flow; "default"] /\
  env_of_flow Env same d special flow = first_declared special d [flow; "default"].
Proof.
  intros N. unfold env_of_step, env_of_flow, log_env, first_declared.
  assert (X : forall x e, special x = Some e -> e <> d) by (intros x e E ->; now apply (N x)).
  destruct (special step) as [e|] eqn:Es.
  - destruct (same e d) as [->|_]; [now apply N in Es|]. split; [reflexivity|].
    destruct (special flow) as [f|] eqn:Ef; [destruct (same f d) as [->|_]; [now apply N in Ef|reflexivity]|]. destruct (same d d); [reflexivity|contradiction].
  - destruct (same d d) as [_|]; [|contradiction]. destruct (special flow) as [f|] eqn:Ef.
    + destruct (same f d) as [->|_]; [now apply N in Ef|]. split; [|reflexivity]. destruct (String.eqb_spec flow "default") as [->|]; [now rewrite Ef|reflexivity].
    + destruct (same d d) as [_|]; [|contradiction]. split; [|reflexivity]. destruct (flow =? "default"); reflexivity.
Qed.
Print Assumptions C92_partial.
(** The library's environment declared again for a step is ignored: here the flow is
    declared to log at another level and the step at the library's. *)
Theorem C92_refuted : exists (d : nat) special flow step, special step = Some d /\ env_of_step nat Nat.eq_dec d special flow step <> d.
Proof. exists 0, (fun x => if x =? "step" then Some 0 else if x =? "F" then Some 1 else None), "F", "step". split; [reflexivity|discriminate]. Qed.
Print Assumptions C92_refuted.
(** Exactly: what is declared to be the library's own counts as not declared. *)
Theorem C92_exact {Env} (same : forall a b : Env, {a = b} + {a <> b}) (d : Env) (special : string -> option Env) flow step :
  let counts := fun x : string => match special x with Some e => if same e d then None else Some e | None => None end in
  env_of_step Env same d special flow step = first_declared counts d [step; flow; "default"].
Proof.
  cbv zeta. unfold env_of_step, env_of_flow, log_env, first_declared.
  destruct (special step) as [e|].
  - destruct (same e d) as [->|]; [|reflexivity]. destruct (String.eqb_spec flow "default") as [->|].
    + destruct (special "default") as [f|]; [destruct (same f d); auto|reflexivity].
    + destruct (special flow) as [f|]; [destruct (same f d) as [->|]; [|reflexivity]|destruct (same d d); [|contradiction]]; destruct (special "default") as [g|]; auto; destruct (same g d); auto.
  - destruct (same d d) as [_|]; [|contradiction]. destruct (String.eqb_spec flow "default") as [->|].
    + destruct (special "default") as [f|]; [destruct (same f d); auto|reflexivity].
    + destruct (special flow) as [f|]; [destruct (same f d) as [->|]; [|reflexivity]|destruct (same d d) as [_|]; [|contradiction]]; destruct (special "default") as [g|]; auto; destruct (same g d); auto.
Qed.
Print Assumptions C92_exact.
Example C92_case : let special := fun x => if x =? "B" then Some 1 else if x =? "msB" then Some 2 else if x =? "default" then Some 3 else None in
  env_of_step nat Nat.eq_dec 0 special "B" "msB" = 2 /\ env_of_step nat Nat.eq_dec 0 special "B" "x" = 1 /\ env_of_step nat Nat.eq_dec 0 special "A" "x" = 3 /\ env_of_flow nat Nat.eq_dec 0 special "A" = 3.
Proof. repeat split. Qed.

(** ** C34: when everything is shown once *)
Lemma nodup_map_iff {A B} (f : A -> B) l : NoDup l -> (NoDup (map f l) <-> forall x y, In x l -> In y l -> f x = f y -> x = y).
Proof.
  intros D. split; [|apply nodup_map_of; auto]. intros N. induction l as [|a l IH]; cbn [map] in N; [intros x y []|].
  apply NoDup_cons_iff in N, D. destruct N as [N1 N2], D as [_ D]. intros x y [<-|X] [<-|Y] E; auto.
  - exfalso. apply N1. rewrite E. apply in_map, Y.
  - exfalso. apply N1. rewrite <- E. apply in_map, X.
Qed.
Lemma nodup_app_iff {A} (a c : list A) : NoDup (a ++ c) <-> NoDup a /\ NoDup c /\ (forall t, In t a -> ~ In t c).
Proof.
  induction a as [|x a IH]; cbn [app].
  - split; [intros H; repeat split; auto; constructor|intros (_ & H & _); exact H].
  - rewrite !NoDup_cons_iff, IH, in_app_iff. cbn [In]. split.
    + intros (H1 & H2 & H3 & H4). repeat split; auto. intros t [<-|T]; auto.
    + intros ((H1 & H2) & H3 & H4). repeat split; auto. intros [H|H]; [auto|apply (H4 x); auto].
Qed.
(** A node is added to the flow by a fragment. *)
Definition added (b : builder) (n : node) : Prop := exists g own, In g b /\ adds g n own.
(** The names of the nodes drawn are distinct exactly if no two nodes added have the same name and none is called "start" or
    "end". The edges drawn are distinct exactly if no sequence is written in two ways, no name and condition is
    that of two nodes without a predecessor, or of two without a successor, and there are not, under the same condition, a
    node "end" without a predecessor and a node "start" without a successor. *)
Theorem C34_exact : forall sort_nodes sort_edges b vn ve, (forall l, Permutation (sort_nodes l) l) -> (forall l, Permutation (sort_edges l) l) ->
  viz_build sort_nodes sort_edges b = Some (vn, ve) ->
  (NoDup (map n_name vn) <-> (forall n m, added b n -> added b m -> n_name n = n_name m -> n = m) /\ (forall n, added b n -> n_name n <> "start" /\ n_name n <> "end")) /\
  (NoDup (map shown ve) <->
    (forall c p q p' q', in_sequence b c p q -> in_sequence b c p' q' -> leaf_name p = leaf_name p' -> leaf_name q = leaf_name q' -> p = p' /\ q = q') /\
    (forall n m, added b n -> added b m -> n_name n = n_name m -> n_cond n = n_cond m -> (forall z, ~ declared b z (n_name n)) -> n = m) /\
    (forall n m, added b n -> added b m -> n_name n = n_name m -> n_cond n = n_cond m -> (forall z, ~ declared b (n_name n) z) -> n = m) /\
    ~ (exists n m, added b n /\ added b m /\ n_name n = "end" /\ n_name m = "start" /\ n_cond n = n_cond m /\ (forall z, ~ declared b z "end") /\ (forall z, ~ declared b "start" z))).
Proof.
  intros sn se b vn ve Hsn Hse H. destruct (b_nodes b) as [ns|] eqn:Hns; [|unfold viz_build in H; rewrite Hns in H; discriminate].
  rewrite (viz_build_eq sn se b ns Hns) in H. injection H as <- <-.
  pose proof (viz_nodes_in sn Hsn b ns Hns) as VI. pose proof (viz_nodes_nodup sn Hsn ns) as VN. set (vs := sn (unique node_eq_dec ns)) in *.
  split.
  - cbn [map n_name milestone]. rewrite !NoDup_cons_iff, (nodup_map_iff n_name vs VN). cbn [In]. rewrite !in_map_iff. split.
    + intros (A & B & C). split; [intros n m N M; apply C; apply VI; assumption|]. intros n N. apply VI in N. split; intros E; [apply A; right|apply B]; exists n; auto.
    + intros (C & D). split; [|split].
      * intros [E|(n & E & N)]; [discriminate|]. apply VI in N. apply D in N. tauto.
      * intros (n & E & N). apply VI in N. apply D in N. tauto.
      * intros n m N M. apply C; apply VI; assumption.
  - rewrite !map_app, !nodup_app_iff. pose proof (viz_edges_in se Hse b) as EI. pose proof (viz_edges_nodup se Hse b) as EN.
    pose proof (shown_es se Hse b) as SE. pose proof (shown_start sn se Hsn Hse b ns Hns) as SS. pose proof (shown_end sn se Hsn Hse b ns Hns) as ST.
    assert (D1 : NoDup (map shown (se (unique edge_eq_dec (b_edges b)))) <->
      (forall c p q p' q', in_sequence b c p q -> in_sequence b c p' q' -> leaf_name p = leaf_name p' -> leaf_name q = leaf_name q' -> p = p' /\ q = q')).
    { rewrite (nodup_map_iff shown _ EN). split.
      - intros K c p q p' q' P Q E1 E2. assert (X : {| e_src := p; e_dst := q; e_cond := c |} = {| e_src := p'; e_dst := q'; e_cond := c |}).
        { apply K; [apply EI; exact P|apply EI; exact Q|]. unfold shown. cbn. congruence. }
        injection X as -> ->. auto.
      - intros K [p q c] [p' q' c'] P Q E. apply EI in P, Q. cbn in P, Q. unfold shown in E. cbn in E. injection E as E1 E2 <-. destruct (K c p q p' q' P Q E1 E2) as [-> ->]. reflexivity. }
    assert (D2 : NoDup (map shown (from_start sn se b ns)) <->
      (forall n m, added b n -> added b m -> n_name n = n_name m -> n_cond n = n_cond m -> (forall z, ~ declared b z (n_name n)) -> n = m)).
    { unfold from_start. rewrite map_map. fold vs. rewrite nodup_map_iff by (apply NoDup_filter, VN). split.
      - intros K n m N M E1 E2 Z. apply K.
        + apply filter_In. split; [apply VI, N|]. apply (proj2 (no_pred se Hse b (n_name n))), Z.
        + apply filter_In. split; [apply VI, M|]. apply (proj2 (no_pred se Hse b (n_name m))). rewrite <- E1. exact Z.
        + unfold shown. cbn. congruence.
      - intros K n m N M E. apply filter_In in N, M. destruct N as [N Z], M as [M _]. pose proof (proj1 (no_pred se Hse b (n_name n)) Z) as Z'. unfold shown in E. cbn in E. injection E as E1 E2.
        apply K; auto; apply VI; assumption. }
    assert (D3 : NoDup (map shown (to_end sn se b ns)) <->
      (forall n m, added b n -> added b m -> n_name n = n_name m -> n_cond n = n_cond m -> (forall z, ~ declared b (n_name n) z) -> n = m)).
    { unfold to_end. rewrite map_map. fold vs. rewrite nodup_map_iff by (apply NoDup_filter, VN). split.
      - intros K n m N M E1 E2 Z. apply K.
        + apply filter_In. split; [apply VI, N|]. apply (proj2 (no_succ se Hse b (n_name n))), Z.
        + apply filter_In. split; [apply VI, M|]. apply (proj2 (no_succ se Hse b (n_name m))). rewrite <- E1. exact Z.
        + unfold shown. cbn. congruence.
      - intros K n m N M E. apply filter_In in N, M. destruct N as [N Z], M as [M _]. pose proof (proj1 (no_succ se Hse b (n_name n)) Z) as Z'. unfold shown in E. cbn in E. injection E as E1 E2.
        apply K; auto; apply VI; assumption. }
    assert (D4 : (forall t, In t (map shown (from_start sn se b ns)) -> ~ In t (map shown (to_end sn se b ns))) <->
      ~ (exists n m, added b n /\ added b m /\ n_name n = "end" /\ n_name m = "start" /\ n_cond n = n_cond m /\ (forall z, ~ declared b z "end") /\ (forall z, ~ declared b "start" z))).
    { split.
      - intros K (n & m & N & M & E1 & E2 & E3 & Z1 & Z2). apply (K ("start", "end", n_cond n)).
        + apply SS. split; [reflexivity|]. exists n. auto.
        + apply ST. split; [reflexivity|]. exists m. auto.
      - intros K [[x y] c] A B. apply SS in A. apply ST in B. destruct A as (-> & n & N & E1 & E3 & Z1), B as (-> & m & M & E2 & E4 & Z2). apply K. exists n, m.
        repeat split; auto. congruence. }
    assert (D5 : forall t, In t (map shown (se (unique edge_eq_dec (b_edges b)))) -> ~ In t (map shown (from_start sn se b ns) ++ map shown (to_end sn se b ns))).
    { intros [[x y] c] A B. apply SE in A. destruct A as (p & q & P & <- & <-). assert (X : declared b (leaf_name p) (leaf_name q)) by (exists c, p, q; auto).
      apply in_app_iff in B. destruct B as [B|B]; [apply SS in B; destruct B as (_ & n & _ & _ & _ & Z)|apply ST in B; destruct B as (_ & n & _ & _ & _ & Z)]; eapply Z, X. }
    rewrite D1, D2, D3, D4. tauto.
Qed.
Print Assumptions C34_exact.
(** A step "start" alone and a step "end" alone: the edge from start to end is drawn twice, and is right both times. *)
Example C34_exact_case : exists vn ve, viz_build keep keep [lf "start" 1 true; lf "end" 2 true] = Some (vn, ve) /\ ~ NoDup (map shown ve) /\
  (exists vn ve, viz_build keep keep [seq_of (lf "start" 1 true) (lf "end" 2 true)] = Some (vn, ve) /\ NoDup (map shown ve)).
Proof.
  do 2 eexists. split; [vm_compute; reflexivity|]. split; [intros H; repeat (apply NoDup_cons_iff in H as [? H]); vm_compute in *; tauto|].
  do 2 eexists. split; [vm_compute; reflexivity|]. vm_compute. repeat (apply NoDup_cons_iff; split; [cbn; intuition discriminate|]). constructor.
Qed.

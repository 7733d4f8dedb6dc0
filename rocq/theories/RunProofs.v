(** Proofs: the enumerations found, the lines of the C++ file. *)
From Coq Require Import String Ascii Bool Arith ZArith NArith List Lia.
From Verif Require Import CatalogModel GenModel GenSpec SymbolModel ChainModel OutputModel OutputSpec RunModel RunSpec.
From Verif Require GenProofs GenProofs2 OutputProofs.
Import ListNotations.
Local Open Scope string_scope.
Local Open Scope list_scope.

(** ** Walking *)
Section CursorInd.
  Variable P : cursor -> Prop.
  Hypothesis H : forall k s sc v l, Forall P l -> P (Cursor k s sc v l).
  Fixpoint cursor_ind' (c : cursor) : P c :=
    match c with
    | Cursor k s sc v l => H k s sc v l ((fix go l : Forall P l := match l with [] => Forall_nil _ | x :: r => Forall_cons x (cursor_ind' x) (go r) end) l)
    end.
End CursorInd.
Lemma walk_inside u c : In c (walk_preorder u) <-> inside c u.
Proof.
  split.
  - revert c. induction u as [k s sc v l IH] using cursor_ind'. intros c [<-|I]; [constructor|].
    apply in_concat in I as (w & I & J). apply in_map_iff in I as (d & <- & I). rewrite Forall_forall in IH.
    eapply inside_child; [exact I|]. apply IH; assumption.
  - induction 1 as [c|c k s sc v l d I _ IH]; [destruct c; left; reflexivity|]. right. apply in_concat. exists (walk_preorder d). split; [apply in_map; exact I|exact IH].
Qed.
Lemma join_concat sep l : join_with sep l = String.concat sep l.
Proof. induction l as [|x [|y r] IH]; [reflexivity|reflexivity|]. cbn [join_with String.concat] in *. rewrite IH. reflexivity. Qed.
Lemma fq_qualified c : fq_name c = qualified c.
Proof. apply join_concat. Qed.
Lemma is_kind_iff k c : is_kind k c = true <-> c_kind c = k.
Proof. unfold is_kind. destruct k, (c_kind c); split; congruence. Qed.

(** ** Dictionaries *)
Lemma put_keys {A} k (v : A) d : forall x, In x (map fst (put String.eqb k v d)) <-> x = k \/ In x (map fst d).
Proof.
  induction d as [|[k' v'] d IH]; intros x; cbn; [intuition|]. destruct (String.eqb_spec k' k) as [->|N]; cbn; [intuition|]. rewrite IH. intuition.
Qed.
Lemma put_nodup {A} k (v : A) d : NoDup (map fst d) -> NoDup (map fst (put String.eqb k v d)).
Proof.
  induction d as [|[k' v'] d IH]; cbn; intros N; [repeat constructor; auto|]. inversion N as [|? ? N1 N2]; subst.
  destruct (String.eqb_spec k' k) as [->|E]; cbn; [exact N|]. constructor; [|apply IH, N2]. rewrite put_keys. intros [C|C]; congruence.
Qed.
Lemma put_in {A} k (v : A) d x w : In (x, w) (put String.eqb k v d) -> x = k /\ w = v \/ x <> k /\ In (x, w) d \/ In (x, w) d /\ ~ NoDup (map fst d).
Proof.
  induction d as [|[k' v'] d IH]; cbn; [intuition congruence|]. destruct (String.eqb_spec k' k) as [->|E]; cbn.
  - intros [C|C]; [left; split; congruence|]. destruct (string_dec x k) as [->|]; [|tauto].
    right. right. split; [auto|]. intros N. inversion N as [|? ? N1 _]; subst. apply N1. apply in_map_iff. exists (k, w). auto.
  - intros [C|C]; [injection C as -> ->; tauto|]. apply IH in C as [C|[C|[C1 C2]]]; [tauto|tauto|]. right. right. split; [auto|].
    intros N. inversion N; subst. auto.
Qed.
Lemma put_in' {A} k (v : A) d x w : NoDup (map fst d) -> In (x, w) (put String.eqb k v d) <-> x = k /\ w = v \/ x <> k /\ In (x, w) d.
Proof.
  intros N. split.
  - intros I. apply put_in in I. tauto.
  - intros [[-> ->]|[E I]].
    + clear N. induction d as [|[k' v'] d IH]; cbn; [auto|]. destruct (String.eqb_spec k' k) as [->|E]; cbn; auto.
    + clear N. induction d as [|[k' v'] d IH]; cbn in *; [contradiction|]. destruct (String.eqb_spec k' k) as [->|E']; cbn; [|destruct I; auto].
      destruct I as [I|I]; [congruence|auto].
Qed.
Lemma get_in {A} k (d : list (string * A)) v : NoDup (map fst d) -> get String.eqb k d = Some v <-> In (k, v) d.
Proof.
  induction d as [|[k' v'] d IH]; cbn; intros N; [split; [discriminate|contradiction]|]. inversion N as [|? ? N1 N2]; subst.
  destruct (String.eqb_spec k' k) as [->|E].
  - split; [intros [= ->]; auto|]. intros [I|I]; [congruence|]. exfalso. apply N1. apply in_map_iff. exists (k, v). auto.
  - rewrite IH by exact N2. split; [auto|]. intros [I|I]; [congruence|exact I].
Qed.
Lemma get_none {A} k (d : list (string * A)) : get String.eqb k d = None <-> ~ In k (map fst d).
Proof.
  induction d as [|[k' v'] d IH]; cbn; [tauto|]. destruct (String.eqb_spec k' k) as [->|E]; [split; [discriminate|tauto]|]. rewrite IH. tauto.
Qed.
(** Many assignments: the keys, and where the values are from. *)
Lemma puts {A B} (f : B -> string) (g : B -> A) l : forall d, NoDup (map fst d) ->
  let d' := fold_left (fun d b => put String.eqb (f b) (g b) d) l d in
  NoDup (map fst d') /\ (forall x, In x (map fst d') <-> In x (map fst d) \/ exists b, In b l /\ f b = x) /\
  (forall x w, In (x, w) d' -> In (x, w) d \/ exists b, In b l /\ f b = x /\ g b = w).
Proof.
  induction l as [|b l IH]; intros d N; cbn [fold_left].
  - split; [exact N|]. split; [intros x; split; [auto|intros [I|(b & [] & _)]; exact I]|auto].
  - destruct (IH (put String.eqb (f b) (g b) d) (put_nodup _ _ _ N)) as (N' & K & V). split; [exact N'|]. split.
    + intros x. rewrite K, put_keys. split.
      * intros [[->|I]|(c & I & E)]; [right; exists b; cbn; auto|auto|right; exists c; cbn; auto].
      * intros [I|(c & [->|I] & E)]; [auto|left; left; auto|right; exists c; auto].
    + intros x w I. apply V in I as [I|(c & I & E)]; [|right; exists c; cbn; tauto].
      apply put_in' in I as [[-> ->]|[_ I]]; [right; exists b; cbn; auto|auto|exact N].
Qed.

(** ** extract_enums *)
Definition constant_of (node : cursor) (n : string) (v : Z) : Prop := exists c, inside c node /\ c_kind c = EnumConstant /\ c_spelling c = n /\ c_value c = v.
Lemma new_decl_spec node : NoDup (map fst (new_decl node)) /\ (forall n, In n (map fst (new_decl node)) <-> exists v, constant_of node n v) /\
  (forall n v, In (n, v) (new_decl node) -> constant_of node n v).
Proof.
  unfold new_decl. destruct (puts c_spelling c_value (filter (is_kind EnumConstant) (walk_preorder node)) [] ltac:(constructor)) as (N & K & V).
  split; [exact N|]. split.
  - intros n. rewrite K. split.
    + intros [[]|(c & I & E)]. apply filter_In in I as [I J]. apply walk_inside in I. apply is_kind_iff in J. exists (c_value c), c. auto.
    + intros (v & c & I & J & E & _). right. exists c. split; [|exact E]. apply filter_In. split; [apply walk_inside; exact I|apply is_kind_iff; exact J].
  - intros n v I. apply V in I as [[]|(c & I & E & E')]. apply filter_In in I as [I J]. apply walk_inside in I. apply is_kind_iff in J. exists c. auto.
Qed.
Section Extract.
Variable nodes : list cursor.
Definition declared_in l q n v := exists node, In node l /\ fq_name node = q /\ constant_of node n v.
Definition found (l : list cursor) (d : list (string * list (string * Z))) : Prop :=
  NoDup (map fst d) /\ (forall q, In q (map fst d) <-> exists node, In node l /\ fq_name node = q) /\
  forall q e, In (q, e) d -> NoDup (map fst e) /\ (forall n, In n (map fst e) <-> exists v, declared_in l q n v) /\ forall n v, In (n, v) e -> declared_in l q n v.
Lemma found_step l d node : found l d -> found (l ++ [node]) (add_decl d node).
Proof.
  intros (N & K & V). unfold add_decl. set (q0 := fq_name node). set (old := match get String.eqb q0 d with Some e => e | None => [] end).
  destruct (new_decl_spec node) as (Nn & Kn & Vn).
  assert (O : NoDup (map fst old) /\ (forall n, In n (map fst old) <-> exists v, declared_in l q0 n v) /\ forall n v, In (n, v) old -> declared_in l q0 n v).
  { unfold old. destruct (get String.eqb q0 d) as [e|] eqn:G.
    - apply get_in in G; [|exact N]. exact (V _ _ G).
    - apply get_none in G. split; [constructor|]. split; [|contradiction]. intros n. cbn. split; [contradiction|].
      intros (v & nd & I & E & _). exfalso. apply G. apply K. exists nd. auto. }
  destruct O as (No & Ko & Vo).
  destruct (puts fst snd (new_decl node) old No) as (Nu & Ku & Vu). fold (update String.eqb old (new_decl node)) in Nu, Ku, Vu.
  assert (M : forall q n v, declared_in l q n v -> declared_in (l ++ [node]) q n v).
  { intros q n v (nd & I & E & C). exists nd. split; [apply in_or_app; auto|auto]. }
  assert (M0 : forall n v, constant_of node n v -> declared_in (l ++ [node]) q0 n v).
  { intros n v C. exists node. split; [apply in_or_app; right; left; reflexivity|auto]. }
  split; [apply put_nodup, N|]. split.
  - intros q. rewrite put_keys, K. split.
    + intros [->|(nd & I & E)]; [exists node; split; [apply in_or_app; right; left; reflexivity|reflexivity]|exists nd; split; [apply in_or_app; auto|exact E]].
    + intros (nd & I & E). apply in_app_or in I as [I|[<-|[]]]; [right; exists nd; auto|left; auto].
  - intros q e I. apply put_in' in I as [[-> ->]|[E I]]; [| |exact N].
    + split; [exact Nu|]. split.
      * intros n. rewrite Ku, Ko. split.
        -- intros [(v & D)|([n' v] & I & E)]; [exists v; apply M; exact D|]. cbn in E. subst n'. exists v. apply M0. apply Vn. exact I.
        -- intros (v & nd & I & E & C). apply in_app_or in I as [I|[<-|[]]]; [left; exists v, nd; auto|].
           right. assert (In n (map fst (new_decl node))) by (apply Kn; exists v; exact C). apply in_map_iff in H as ([n' v'] & E1 & I). exists (n', v'). auto.
      * intros n v I. apply Vu in I as [I|([n' v'] & I & E1 & E2)]; [apply M, Vo, I|]. cbn in E1, E2. subst. apply M0, Vn, I.
    + destruct (V q e I) as (Ne & Ke & Ve). split; [exact Ne|]. split; [|intros n v J; apply M, Ve, J].
      intros n. rewrite Ke. split; intros (v & D); exists v; [apply M; exact D|].
      destruct D as (nd & J & F & C). apply in_app_or in J as [J|[<-|[]]]; [exists nd; auto|]. elim E. symmetry. exact F.
Qed.
Lemma found_all l2 : forall l1 d, found l1 d -> found (l1 ++ l2) (fold_left add_decl l2 d).
Proof.
  induction l2 as [|x l2 IH]; intros l1 d F; cbn [fold_left]; [rewrite app_nil_r; exact F|].
  replace (l1 ++ x :: l2) with ((l1 ++ [x]) ++ l2) by (rewrite <- app_assoc; reflexivity). apply IH. apply found_step. exact F.
Qed.
End Extract.
Theorem extract_found u : found (filter (is_kind EnumDecl) (walk_preorder u)) (extract_enums u).
Proof.
  apply (found_all _ [] []). split; [constructor|]. split; [|intros q e []]. intros q. split; [intros []|intros (n & [] & _)].
Qed.
Lemma declared_iff u q n v : declared_in (filter (is_kind EnumDecl) (walk_preorder u)) q n v <-> declares u q n v.
Proof.
  unfold declared_in, declares, an_enum, constant_of. split.
  - intros (node & I & E & c & C). apply filter_In in I as [I J]. apply walk_inside in I. apply is_kind_iff in J. exists node, c. rewrite <- fq_qualified. auto.
  - intros (node & c & (I & J & E) & C). exists node. rewrite fq_qualified. split; [|split; [exact E|exists c; exact C]]. apply filter_In. split; [apply walk_inside; exact I|apply is_kind_iff; exact J].
Qed.

(** ** Lines *)
Lemma lines_nonempty s : lines s <> [].
Proof.
  induction s as [|a s IH]; cbn [lines]; [discriminate|]. destruct (Ascii.eqb a (ascii_of_nat 10)); [discriminate|].
  destruct (lines s) as [|x l]; [exact IH|discriminate].
Qed.
Lemma lines_app a b : lines (a ++ newline ++ b)%string = lines a ++ lines b.
Proof.
  induction a as [|c a IH].
  - reflexivity.
  - cbn [append lines]. destruct (Ascii.eqb c (ascii_of_nat 10)).
    + rewrite IH. reflexivity.
    + rewrite IH. destruct (lines a) as [|x l] eqn:E; [destruct (lines_nonempty a E)|]. reflexivity.
Qed.
Lemma program_app a b : program_lines (a ++ newline ++ b)%string = program_lines a ++ program_lines b.
Proof. unfold program_lines, code. rewrite lines_app, !filter_app. reflexivity. Qed.
Lemma program_join2 l : program_lines (join_with (newline ++ newline) l) = flat_map program_lines l.
Proof.
  induction l as [|x [|y r] IH]; [reflexivity|cbn; rewrite app_nil_r; reflexivity|].
  change (join_with (newline ++ newline) (x :: y :: r)) with (x ++ (newline ++ newline) ++ join_with (newline ++ newline) (y :: r))%string.
  rewrite OutputProofs.app_assoc_s. rewrite program_app. change (newline ++ join_with (newline ++ newline) (y :: r))%string with ("" ++ newline ++ join_with (newline ++ newline) (y :: r))%string.
  rewrite program_app. change (program_lines "") with (@nil string). cbn [app]. rewrite IH. reflexivity.
Qed.
Lemma program_lines_of l : program_lines (lines_of l) = flat_map program_lines l.
Proof.
  unfold lines_of. induction l as [|x [|y r] IH]; [reflexivity|cbn; rewrite app_nil_r; reflexivity|].
  change (join_with newline (x :: y :: r)) with (x ++ newline ++ join_with newline (y :: r))%string. rewrite program_app, IH. reflexivity.
Qed.
Lemma one_line_all s : one_line s -> GenProofs.all (fun c => negb (Ascii.eqb c (ascii_of_nat 10))) s = true.
Proof. apply GenProofs2.not_char_in. Qed.
Definition code_line (s : string) : Prop := one_line s /\ is_comment s = false /\ s <> "".
Lemma program_line s : code_line s -> program_lines s = [s].
Proof.
  intros (O & C & N). unfold program_lines, code. rewrite GenProofs2.lines_last by (apply one_line_all; exact O). cbn. rewrite C. cbn.
  destruct (String.eqb_spec s ""); [contradiction|reflexivity].
Qed.
Lemma program_comment s : one_line s -> is_comment s = true -> program_lines s = [].
Proof. intros O C. unfold program_lines, code. rewrite GenProofs2.lines_last by (apply one_line_all; exact O). cbn. rewrite C. reflexivity. Qed.
Lemma program_code l : Forall code_line l -> flat_map program_lines l = l.
Proof. induction 1 as [|x l H _ IH]; [reflexivity|]. cbn. rewrite (program_line _ H), IH. reflexivity. Qed.

(** C151: the environments of messages. *)
From Coq Require Import NArith Bool Arith List Lia.
From Verif Require FieldModel MatchModel.
From Verif Require Import MessageModel LogModel LogSpec LogProofs MsgEnvModel MsgEnvSpec MsgEnvProofs.
Import ListNotations.

(** ** C151: messages log with the environments they were given *)
(** What a message's environment answers is what the last environment in the text of
    its definition that has an answer answers. *)
Theorem C151_env x m : define x = Some m -> answers (d_env m) (given x).
Proof. intros H. apply answers_append. apply define_env. auto. Qed.
Print Assumptions C151_env.
(** Environments make no difference to which definitions compile, nor to the fields. *)
Theorem C151_layout x : (define x = None <-> define (bare x) = None) /\
  forall m m', define x = Some m -> define (bare x) = Some m' -> d_fields m = d_fields m'.
Proof.
  pose proof (define_bare x) as H. destruct (define x), (define (bare x)); simpl in H; try discriminate; split; try tauto; try (split; discriminate).
  - intros a b Ha Hb. injection Ha as <-. injection Hb as <-. injection H as H. auto.
  - discriminate.
Qed.
Print Assumptions C151_layout.
(** A callback logs one line, at level INFO unless the definition says otherwise. *)
Theorem C151_log i x m : define x = Some m -> exists e, callback_calls i (d_env m) = Some [(i, e)] /\ answers e ([(k_level, lv_info)] :: given x).
Proof.
  intros H. destruct (callback_calls_ok i (d_env m)) as (e & E & Q). exists e. split; auto. apply answers_append. intros k. rewrite append_cons, Q, (define_env x m H k). reflexivity.
Qed.
Print Assumptions C151_log.

Section Handlers.
(** A callback with the text of its message, and the lines expected of it. *)
Definition built (xc : mexp * bool) (c : cbk) : Prop := define (fst xc) = Some (c_msg c) /\ c_matches c = snd xc.
Definition line_of (p : nat * (mexp * bool)) (q : nat * env) : Prop := fst q = fst p /\ answers (snd q) ([(k_level, lv_info)] :: given (fst (snd p))).
Definition numbered {A} (l : list A) : list (nat * A) := combine (seq 0 (length l)) l.
Lemma built_lines sel sel' xs cs : Forall2 built xs cs -> (forall x c, built x c -> sel c = sel' x) -> forall i l,
  Forall2 (fun (p : nat * cbk) q => fst p = fst q /\ forall k, query (snd q) k = later (query [(k_level, lv_info)] k) (query (d_env (c_msg (snd p))) k))
    (filter (fun p => sel (snd p)) (combine (seq i (length cs)) cs)) l ->
  Forall2 line_of (filter (fun p => sel' (snd p)) (combine (seq i (length xs)) xs)) l.
Proof.
  intros H S. induction H as [|x c xs cs B _ IH]; intros i l F. simpl in *. inversion F. constructor.
  cbn [length seq combine filter snd] in *. rewrite <- (S x c B). destruct (sel c); auto. inversion F as [|? ? ? ? [F1 F2] F3]; subst. constructor; auto.
  split; auto. apply answers_append. intros k. rewrite append_cons, F2. cbn [snd]. rewrite (define_env (fst x) (c_msg c) (proj1 B) k). reflexivity.
Qed.
Lemma filter_all {A} (l : list A) : filter (fun _ => true) l = l.
Proof. induction l; simpl; congruence. Qed.
Lemma built_exists xs cs : Forall2 built xs cs -> existsb c_matches cs = existsb snd xs.
Proof. induction 1 as [|x c xs cs [_ B] _ IH]; simpl; auto. rewrite B, IH. reflexivity. Qed.

(** A handler: a line for each callback that matches; when none does, its own at level
    ERROR, with nothing of the environments of the messages, and one for each callback. *)
Theorem C151_handler xs cs : Forall2 built xs cs -> exists lines, handler_lines cs = Some lines /\
  if existsb snd xs then Forall2 line_of (filter (fun p => snd (snd p)) (numbered xs)) lines
  else exists e r, lines = (length xs, e) :: r /\ answers e [[(k_level, lv_error)]] /\ Forall2 line_of (numbered xs) r.
Proof.
  intros H. unfold handler_lines. rewrite (built_exists _ _ H). assert (L : length cs = length xs) by (clear -H; induction H; simpl; auto). destruct (existsb snd xs).
  - destruct (cb_lines_ok c_matches cs 0) as (l & E & F). exists l. split; auto. apply (built_lines c_matches snd xs cs H); auto. intros x c B. apply B.
  - destruct (cb_lines_ok (fun _ => true) cs 0) as (l & E & F). rewrite E, none_claimed_ok. eexists. split. reflexivity. eexists. eexists. split; [|split].
    + rewrite L. reflexivity.
    + apply answers_append. intros k. rewrite append_one. reflexivity.
    + pose proof (built_lines (fun _ => true) (fun _ => true) xs cs H (fun _ _ _ => eq_refl) 0 l F) as G. unfold numbered. rewrite filter_all in G. exact G.
Qed.
Print Assumptions C151_handler.

(** A handler with an index: the same, for the candidates of the index that match; when
    none does, only its own line. *)
Theorem C151_indexed cand xs cs : Forall2 built xs cs -> let hit := fun p : nat * (mexp * bool) => cand (fst p) && snd (snd p) in
  exists lines, indexed_lines cand cs = Some lines /\
  if existsb hit (numbered xs) then Forall2 line_of (filter hit (numbered xs)) lines
  else exists e, lines = [(length xs, e)] /\ answers e [[(k_level, lv_error)]].
Proof.
  intros H hit. unfold indexed_lines. assert (L : length cs = length xs) by (clear -H; induction H; simpl; auto).
  set (cs' := map _ _). set (xs' := map (fun p : nat * (mexp * bool) => (fst (snd p), cand (fst p) && snd (snd p))) (numbered xs)).
  assert (B : Forall2 built xs' cs').
  { unfold xs', cs', numbered. clear -H. generalize 0. induction H as [|x c xs cs [B1 B2] _ IH]; intros i; simpl; constructor; auto. split; simpl; auto. rewrite B2. reflexivity. }
  assert (X : existsb c_matches cs' = existsb hit (numbered xs)).
  { rewrite (built_exists _ _ B). unfold xs'. clear. induction (numbered xs) as [|p r IH]; auto. cbn [map existsb snd]. rewrite IH. reflexivity. }
  rewrite X. destruct (existsb hit (numbered xs)).
  - destruct (cb_lines_ok c_matches cs' 0) as (l & E & F). exists l. split; auto. pose proof (built_lines c_matches snd xs' cs' B (fun x c b => proj2 b) 0 l F) as G.
    unfold xs', numbered in G. unfold numbered. clear -G. revert G. rewrite map_length, combine_length, seq_length, Nat.min_id. generalize 0 l. induction xs as [|x r IH]; intros i ls G; simpl in *. inversion G. constructor.
    cbn [hit fst snd] in *. unfold hit at 1. cbn [fst snd]. destruct (cand i && snd x); auto. inversion G as [|? ? ? ? G1 G2]; subst. constructor; auto.
  - rewrite none_claimed_ok. eexists. split. reflexivity. eexists. split. rewrite L. reflexivity. apply answers_append. intros k. rewrite append_one. reflexivity.
Qed.
Print Assumptions C151_indexed.
End Handlers.

(** A message given a module, packed after a relaxed one given a level and a module, the
    pack given a unit, then extended: the later module, the level of the first. *)
Definition f_of (n : nat) (ats : list FieldModel.at_) : mfield := {| f_name := n; f_bytes := 1; f_default := DDefault 0; f_match := MatchModel.Always; f_ats := ats |}.
Definition byte_at (n : N) : list FieldModel.at_ := [ {| FieldModel.a_msb := n + 7; FieldModel.a_lsb := n |} ].
Definition ex_msg : mexp :=
  Extend (WithEnv (Pack 8 [Relaxed [(k_level, 3); (k_module, 5)] [f_of 1 (byte_at 0); f_of 2 []; f_of 3 []]; Rename (Shift 8 (Message [(k_module, 6)] [f_of 4 (byte_at 0)])) 4 7]) [(k_unit, 9)]) [f_of 8 (byte_at 40)].
Example C151_case : option_map (fun m => (query (d_env m) k_level, query (d_env m) k_module, query (d_env m) k_unit, query (d_env m) k_flavor, map f_name (d_fields m))) (define ex_msg) =
  Some (Some 3, Some 6, Some 9, None, [1; 2; 3; 7; 8]).
Proof. vm_compute. reflexivity. Qed.
(** A handler of that message and of one without environment. *)
Definition ex_cbs (a b : bool) : list cbk :=
  match define ex_msg, define (Message [] [f_of 1 (byte_at 0)]) with Some m, Some n => [ {| c_msg := m; c_matches := a |}; {| c_msg := n; c_matches := b |} ] | _, _ => [] end.
Example C151_case_handler : let show := option_map (map (fun l : nat * env => (fst l, query (snd l) k_level, query (snd l) k_module))) in
  show (handler_lines (ex_cbs true true)) = Some [(0, Some 3, Some 6); (1, Some 4, None)] /\
  show (handler_lines (ex_cbs false true)) = Some [(1, Some 4, None)] /\
  show (handler_lines (ex_cbs false false)) = Some [(2, Some 2, None); (0, Some 3, Some 6); (1, Some 4, None)] /\
  show (indexed_lines (Nat.eqb 0) (ex_cbs true true)) = Some [(0, Some 3, Some 6)] /\
  show (indexed_lines (Nat.eqb 0) (ex_cbs false true)) = Some [(2, Some 2, None)].
Proof. vm_compute. repeat split; reflexivity. Qed.

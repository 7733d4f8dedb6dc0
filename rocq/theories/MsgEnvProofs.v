(** Proofs about the environments of messages. *)
From Coq Require Import NArith Bool Arith List.
From Verif Require Import MessageModel LogModel LogSpec LogProofs MsgEnvModel MsgEnvSpec.
Import ListNotations.

Lemma mexp_ind' (P : mexp -> Prop) : (forall e fs, P (Message e fs)) -> (forall e fs, P (Relaxed e fs)) -> (forall x e, P x -> P (WithEnv x e)) ->
  (forall x news, P x -> P (Extend x news)) -> (forall n x, P x -> P (Shift n x)) -> (forall x old new, P x -> P (Rename x old new)) ->
  (forall xs, Forall P xs -> P (Overlay xs)) -> (forall A xs, Forall P xs -> P (Pack A xs)) -> forall x, P x.
Proof.
  intros H1 H2 H3 H4 H5 H6 H7 H8. fix IH 1. intros [e fs|e fs|x e|x news|n x|x old new|xs|A xs].
  - apply H1. - apply H2. - apply H3, IH. - apply H4, IH. - apply H5, IH. - apply H6, IH.
  - apply H7. induction xs; constructor; auto.
  - apply H8. induction xs; constructor; auto.
Qed.

(** The later of two answers. *)
Definition later (a b : option value) : option value := match b with Some v => Some v | None => a end.
Lemma query_extend e d k : query (extend e d) k = later (query e k) (query d k).
Proof. unfold extend. rewrite query_app. destruct (query d k); reflexivity. Qed.
Lemma later_assoc a b c : later (later a b) c = later a (later b c).
Proof. destruct c; reflexivity. Qed.
Lemma fold_extend es : forall e k, query (fold_left extend es e) k = later (query e k) (query (append_env es) k).
Proof.
  unfold append_env. induction es as [|a r IH]; intros e k. reflexivity.
  cbn [fold_left]. rewrite IH, (IH (extend [] a)), !query_extend, later_assoc. f_equal. change (query [] k) with (@None value).
  destruct (query a k); reflexivity.
Qed.
Lemma append_app a b k : query (append_env (a ++ b)) k = later (query (append_env a) k) (query (append_env b) k).
Proof. unfold append_env at 1. rewrite fold_left_app. apply fold_extend. Qed.
Lemma append_one e k : query (append_env [e]) k = query e k.
Proof. unfold append_env, extend. simpl. rewrite query_app. destruct (query e k); reflexivity. Qed.
Lemma append_cons e es k : query (append_env (e :: es)) k = later (query e k) (query (append_env es) k).
Proof. change (e :: es) with ([e] ++ es). rewrite append_app, append_one. reflexivity. Qed.
Lemma env_of_append ds : forall k, query (env_of ds) k = query (append_env ds) k.
Proof. induction ds as [|d r IH] using rev_ind; intros k; auto. rewrite env_of_snoc, append_app, append_one. unfold extend. rewrite query_app, IH. destruct (query d k); reflexivity. Qed.
Lemma answers_append ds e : same_env e (append_env ds) -> answers e ds.
Proof. intros H k. rewrite (H k), <- env_of_append. split; [intros v; apply query_setting|apply query_unset]. Qed.

Lemma all_some_ok {A B} (f : A -> option B) l r : all_some f l = Some r -> Forall2 (fun x y => f x = Some y) l r.
Proof. revert r. induction l as [|x l IH]; simpl; intros r H. injection H as <-. constructor. destruct (f x) eqn:E; [|discriminate]. destruct (all_some f l) eqn:F; [|discriminate]. injection H as <-. constructor; auto. Qed.
Lemma append_flat xs ms : Forall2 (fun x m => same_env (d_env m) (append_env (given x))) xs ms -> same_env (append_env (map d_env ms)) (append_env (flat_map given xs)).
Proof. intros H k. induction H as [|x m xs ms H _ IH]; simpl; auto. rewrite append_cons, append_app, IH, (H k). reflexivity. Qed.

Lemma shifted_from_len A : forall ms off, length (shifted_from A off ms) = length ms.
Proof. induction ms; simpl; auto. Qed.
Lemma with_fields_env ms : forall fss, length fss = length ms -> map d_env (with_fields ms fss) = map d_env ms.
Proof. induction ms as [|m r IH]; intros [|f s] H; simpl in *; try discriminate; auto. rewrite IH; auto. Qed.
Lemma with_fields_fields ms : forall fss, length fss = length ms -> map d_fields (with_fields ms fss) = fss.
Proof. induction ms as [|m r IH]; intros [|f s] H; simpl in *; try discriminate; auto. rewrite IH; auto. Qed.

(** Overlays and packs, as environments and as fields. *)
Lemma overlay_msgs_eq ms : overlay_msgs ms = match ms with [] => None | _ => option_map (fun fs => {| d_env := append_env (map d_env ms); d_fields := fs |}) (overlay (map d_fields ms)) end.
Proof. destruct ms; reflexivity. Qed.
Lemma pack_msgs_eq A ms : pack_msgs A ms = match ms with [] => None | _ => option_map (fun fs => {| d_env := append_env (map d_env ms ++ [[]]); d_fields := fs |}) (pack A (map d_fields ms)) end.
Proof.
  destruct ms as [|m r]; auto. unfold pack_msgs. set (l := m :: r).
  assert (L : length (shifted_msgs A (map d_fields l)) = length l) by (unfold shifted_msgs; rewrite shifted_from_len, map_length; auto).
  assert (E : overlay_msgs (with_fields l (shifted_msgs A (map d_fields l)) ++ [end_msg]) =
    option_map (fun fs => {| d_env := append_env (map d_env (with_fields l (shifted_msgs A (map d_fields l)) ++ [end_msg])); d_fields := fs |})
      (overlay (map d_fields (with_fields l (shifted_msgs A (map d_fields l)) ++ [end_msg])))).
  { rewrite overlay_msgs_eq. destruct (with_fields _ _); reflexivity. }
  rewrite E. rewrite !map_app, with_fields_env, with_fields_fields by auto. simpl map. unfold pack, overlay. rewrite concat_app. simpl concat at 2. rewrite app_nil_r. reflexivity.
Qed.
Lemma append_end l k : query (append_env (l ++ [[]])) k = query (append_env l) k.
Proof. rewrite append_app, append_one. reflexivity. Qed.

Lemma append_repeat e n k : query (append_env (repeat e n)) k = match n with O => None | _ => query e k end.
Proof. induction n as [|n IH]; auto. simpl repeat. rewrite append_cons, IH. destruct n; destruct (query e k); reflexivity. Qed.
Lemma map_const {A} (l : list A) (f : A -> msgdef) e : (forall x, d_env (f x) = e) -> map d_env (map f l) = repeat e (length l).
Proof. intros H. induction l; simpl; auto. rewrite H, IHl. reflexivity. Qed.
Lemma relaxed_env e fs m : relaxed_def e fs = Some m -> same_env (d_env m) e.
Proof.
  unfold relaxed_def. destruct (message_def [] _) as [lm|] eqn:E; [|discriminate]. rewrite pack_msgs_eq. destruct (pack 8 _); [|discriminate]. cbn [option_map]. intros H. injection H as <-. intros k.
  change (query (append_env [append_env ((d_env lm :: map d_env (map (fun f => {| d_env := e; d_fields := [default_located f] |}) (mp_sort size_gt (filter (fun f => negb (locatable f)) fs)))) ++ [[]]); e]) k = query e k). rewrite append_cons, append_one, append_end, append_cons, (map_const _ _ e) by auto. rewrite append_repeat.
  unfold message_def in E. destruct (message _); [|discriminate]. injection E as <-. simpl. destruct (length _), (query e k); reflexivity.
Qed.
Lemma pack_fields A ms : option_map d_fields (pack_msgs A ms) = match map d_fields ms with [] => None | l => pack A l end.
Proof. rewrite pack_msgs_eq. destruct ms as [|m r]; auto. destruct (pack A (map d_fields (m :: r))) eqn:E; simpl in *; rewrite E; reflexivity. Qed.
Lemma relaxed_fields e fs : option_map d_fields (relaxed_def e fs) = relaxed_message fs.
Proof.
  unfold relaxed_def, relaxed_message, message_def. destruct (message (filter locatable fs)) as [l|]; auto. cbn [option_map].
  match goal with |- option_map d_fields (option_map _ ?o) = _ => transitivity (option_map d_fields o); [destruct o; reflexivity|] end.
  rewrite pack_fields. cbn [map d_fields]. rewrite map_map. reflexivity.
Qed.

Lemma define_env x : forall m, define x = Some m -> same_env (d_env m) (append_env (given x)).
Proof.
  induction x as [e fs|e fs|x e IH|x news IH|n x IH|x old new IH|xs IH|A xs IH] using mexp_ind'; simpl; intros m H.
  - unfold message_def in H. destruct (message fs); [|discriminate]. injection H as <-. intros k. rewrite append_one. reflexivity.
  - intros k. rewrite append_one. exact (relaxed_env e fs m H k).
  - destruct (define x) as [y|] eqn:E; [|discriminate]. injection H as <-. intros k. unfold with_env. cbn [d_env]. rewrite append_cons, append_one, append_app, append_one, (IH _ eq_refl k). reflexivity.
  - destruct (define x) as [y|] eqn:E; [|discriminate]. unfold extension_def in H. destruct (extension _ _); [|discriminate]. injection H as <-. exact (IH _ eq_refl).
  - destruct (define x) as [y|] eqn:E; [|discriminate]. injection H as <-. exact (IH _ eq_refl).
  - destruct (define x) as [y|] eqn:E; [|discriminate]. unfold rename_def in H. destruct (rename_field _ _ _); [|discriminate]. injection H as <-. exact (IH _ eq_refl).
  - destruct (all_some define xs) as [ms|] eqn:E; [|discriminate]. rewrite overlay_msgs_eq in H. destruct ms as [|y r]; [discriminate|]. destruct (overlay _); [|discriminate]. injection H as <-.
    apply (append_flat xs (y :: r)). apply all_some_ok in E. clear -E IH. induction E; inversion IH; subst; constructor; auto.
  - destruct (all_some define xs) as [ms|] eqn:E; [|discriminate]. rewrite pack_msgs_eq in H. destruct ms as [|y r]; [discriminate|]. destruct (pack _ _); [|discriminate]. injection H as <-.
    intros k. cbn [d_env]. change (query (append_env (map d_env (y :: r) ++ [[]])) k = query (append_env (flat_map given xs)) k). rewrite append_end. apply (append_flat xs (y :: r)). apply all_some_ok in E. clear -E IH. induction E; inversion IH; subst; constructor; auto.
Qed.

Lemma all_some_fields (f g : mexp -> option msgdef) xs : Forall (fun x => option_map d_fields (f x) = option_map d_fields (g x)) xs ->
  option_map (map d_fields) (all_some f xs) = option_map (map d_fields) (all_some g xs).
Proof.
  induction 1 as [|x xs H _ IH]; simpl; auto. destruct (f x), (g x); simpl in H; try discriminate; auto. injection H as H.
  destruct (all_some f xs), (all_some g xs); simpl in IH |- *; try discriminate; auto. injection IH as IH. rewrite H, IH. reflexivity.
Qed.
Lemma all_some_map (h : mexp -> mexp) (f : mexp -> option msgdef) xs : all_some f (map h xs) = all_some (fun x => f (h x)) xs.
Proof. induction xs as [|x r IH]; simpl; auto. rewrite IH. reflexivity. Qed.
Lemma overlay_fields ms : option_map d_fields (overlay_msgs ms) = match map d_fields ms with [] => None | l => overlay l end.
Proof. rewrite overlay_msgs_eq. destruct ms as [|m r]; auto. destruct (overlay (map d_fields (m :: r))) eqn:E; simpl in *; rewrite E; reflexivity. Qed.
Lemma define_bare x : option_map d_fields (define x) = option_map d_fields (define (bare x)).
Proof.
  induction x as [e fs|e fs|x e IH|x news IH|n x IH|x old new IH|xs IH|A xs IH] using mexp_ind'; simpl.
  - unfold message_def. destruct (message fs); reflexivity.
  - rewrite !relaxed_fields. reflexivity.
  - rewrite <- IH. destruct (define x); reflexivity.
  - destruct (define x), (define (bare x)); simpl in IH; try discriminate; auto. injection IH as IH. unfold extension_def. rewrite IH. destruct (extension _ _); reflexivity.
  - destruct (define x), (define (bare x)); simpl in IH |- *; try discriminate; auto. injection IH as IH. rewrite IH. reflexivity.
  - destruct (define x), (define (bare x)); simpl in IH; try discriminate; auto. injection IH as IH. unfold rename_def. rewrite IH. destruct (rename_field _ _ _); reflexivity.
  - apply all_some_fields in IH. rewrite all_some_map. destruct (all_some define xs), (all_some _ xs); simpl in IH; try discriminate; auto. injection IH as IH. rewrite !overlay_fields, IH. reflexivity.
  - apply all_some_fields in IH. rewrite all_some_map. destruct (all_some define xs), (all_some _ xs); simpl in IH; try discriminate; auto. injection IH as IH. rewrite !pack_fields, IH. reflexivity.
Qed.

(** Logs *)
Lemma callback_calls_ok i e : exists e', callback_calls i e = Some [(i, e')] /\ forall k, query e' k = later (query [(k_level, lv_info)] k) (query e k).
Proof. eexists. split. reflexivity. intros k. unfold extend. simpl app. rewrite query_app. destruct (query e k); reflexivity. Qed.
Lemma none_claimed_ok n : none_claimed n = Some [(n, [(k_level, lv_error)])].
Proof. reflexivity. Qed.
Lemma cb_lines_ok sel cbs : forall i, exists l, cb_lines i sel cbs = Some l /\
  Forall2 (fun (p : nat * cbk) q => fst p = fst q /\ forall k, query (snd q) k = later (query [(k_level, lv_info)] k) (query (d_env (c_msg (snd p))) k))
    (filter (fun p => sel (snd p)) (combine (seq i (length cbs)) cbs)) l.
Proof.
  induction cbs as [|c r IH]; intros i. exists []. split; auto. constructor.
  destruct (IH (S i)) as (l & E & F). cbn [cb_lines]. rewrite E. cbn [length seq combine filter]. cbn [snd]. destruct (sel c).
  - destruct (callback_calls_ok i (d_env (c_msg c))) as (e' & H & Q). rewrite H. eexists. split. reflexivity. simpl app. constructor; auto.
  - eexists. split. reflexivity. auto.
Qed.

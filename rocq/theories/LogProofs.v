(** Proofs about logging. *)
From Coq Require Import String Ascii Bool Arith List Lia.
From Verif Require Import LogModel LogSpec.
Import ListNotations.

(** ** Environments *)
Lemma query_app a b k : query (a ++ b) k = match query a k with Some v => Some v | None => query b k end.
Proof. unfold query. induction a as [|[k' v] a IH]; cbn; auto. destruct (k' =? k); auto. Qed.
Lemma stmt_ind' (P : stmt -> Prop) : (forall kvs, P (Decl kvs)) -> (forall b, Forall P b -> P (Block b)) -> (forall kvs b, Forall P b -> P (With kvs b)) ->
  (forall id kvs, P (LogCall id kvs)) -> forall s, P s.
Proof.
  intros H1 H2 H3 H4. fix IH 1. intros [kvs|b|kvs b|id kvs]; [apply H1|apply H2|apply H3|apply H4].
  - induction b as [|s b IHb]; constructor; auto.
  - induction b as [|s b IHb]; constructor; auto.
Qed.
(** The environment made of declarations in the order of the text. *)
Definition env_of (ds : list env) : env := concat (rev ds).
Lemma env_of_snoc ds kvs : env_of (ds ++ [kvs]) = extend (env_of ds) kvs.
Proof. unfold env_of, extend. rewrite rev_app_distr. reflexivity. Qed.
Definition as_env (p : nat * list env) : nat * env := (fst p, env_of (snd p)).
Lemma body_calls_ok b : Forall (fun s => forall ds, stmt_calls (env_of ds) s = Some (map as_env (scopes ds s)) \/ (stmt_calls (env_of ds) s = None /\ ~ scoped s)) b ->
  forall fresh ds, body_calls stmt_calls fresh (env_of ds) b = Some (map as_env (body_scopes scopes ds b)) \/
    (body_calls stmt_calls fresh (env_of ds) b = None /\ ~ (Forall scoped b /\ decls b <= (if fresh then 1 else 0))).
Proof.
  induction 1 as [|s b Hs Hb IH]; intros fresh ds; [left; reflexivity|]. cbn [body_calls body_scopes].
  destruct (is_decl s) eqn:Ed.
  - destruct s as [kvs| | |]; try discriminate. destruct fresh.
    + rewrite <- env_of_snoc. destruct (IH false (ds ++ [kvs])) as [->|[-> H]].
      * left. reflexivity.
      * right. split; auto. intros [H1 H2]. apply H. inversion H1; subst. split; auto. cbn in H2. lia.
    + right. split; auto. intros [_ H]. cbn in H. lia.
  - assert (E : decls (s :: b) = decls b) by (cbn; rewrite Ed; auto).
    assert (G : match s with Decl kvs => if fresh then body_calls stmt_calls false (extend (env_of ds) kvs) b else None
      | _ => match stmt_calls (env_of ds) s, body_calls stmt_calls fresh (env_of ds) b with Some a, Some c => Some (a ++ c) | _, _ => None end end =
      match stmt_calls (env_of ds) s, body_calls stmt_calls fresh (env_of ds) b with Some a, Some c => Some (a ++ c) | _, _ => None end) by (destruct s; try discriminate; reflexivity).
    rewrite G. clear G. replace (match s with Decl kvs => ds ++ [kvs] | _ => ds end) with ds by (destruct s; try discriminate; reflexivity).
    destruct (Hs ds) as [->|[-> H]].
    + destruct (IH fresh ds) as [->|[-> H]].
      * left. rewrite map_app. reflexivity.
      * right. split; auto. rewrite E. intros [H1 H2]. apply H. inversion H1; subst. auto.
    + right. split; auto. intros [H1 _]. inversion H1; subst. auto.
Qed.
Lemma stmt_calls_ok s : forall ds, stmt_calls (env_of ds) s = Some (map as_env (scopes ds s)) \/ (stmt_calls (env_of ds) s = None /\ ~ scoped s).
Proof.
  induction s as [kvs|b IH|kvs b IH|id kvs] using stmt_ind'; intros ds; cbn [stmt_calls scopes].
  - left. reflexivity.
  - destruct (body_calls_ok b IH true ds) as [H|[H1 H2]]; auto. right. split; auto. intros H. inversion H; subst. auto.
  - rewrite <- env_of_snoc. destruct (body_calls_ok b IH false (ds ++ [kvs])) as [H|[H1 H2]]; auto. right. split; auto. intros H. inversion H; subst. apply H2. split; auto. lia.
  - left. unfold as_env. cbn [map fst snd]. rewrite env_of_snoc. reflexivity.
Qed.
Lemma calls_scopes fresh b cs : calls fresh [] b = Some cs -> cs = map as_env (body_scopes scopes [] b).
Proof.
  intros H. change (@nil (key * value)) with (env_of []) in H. destruct (body_calls_ok b (proj2 (Forall_forall _ b) (fun s _ => stmt_calls_ok s)) fresh []) as [E|[E _]]; unfold calls in H; rewrite E in H; congruence.
Qed.
Lemma body_none b : Forall (fun s => forall e, stmt_calls e s <> None -> scoped s) b -> forall fresh e, body_calls stmt_calls fresh e b <> None -> Forall scoped b /\ decls b <= (if fresh then 1 else 0).
Proof.
  induction 1 as [|s b Hs Hb IH]; intros fresh e; [split; [constructor|cbn; lia]|]. cbn [body_calls decls].
  destruct s as [kvs|l|kvs l|id kvs]; cbn [is_decl].
  - destruct fresh; [|congruence]. intros H. apply IH in H as [H1 H2]. split; [constructor; auto; constructor|lia].
  - specialize (Hs e). destruct (stmt_calls e (Block l)); [|congruence]. specialize (IH fresh e). destruct (body_calls stmt_calls fresh e b); [|congruence]. intros _.
    destruct IH as [H1 H2]; [discriminate|]. split; auto. constructor; auto. apply Hs. discriminate.
  - specialize (Hs e). destruct (stmt_calls e (With kvs l)); [|congruence]. specialize (IH fresh e). destruct (body_calls stmt_calls fresh e b); [|congruence]. intros _.
    destruct IH as [H1 H2]; [discriminate|]. split; auto. constructor; auto. apply Hs. discriminate.
  - specialize (IH fresh e). cbn [stmt_calls]. destruct (body_calls stmt_calls fresh e b); [|congruence]. intros _. destruct IH as [H1 H2]; [discriminate|]. split; auto. constructor; auto. constructor.
Qed.
Lemma stmt_none s : forall e, stmt_calls e s <> None -> scoped s.
Proof.
  induction s as [kvs|b IH|kvs b IH|id kvs] using stmt_ind'; intros e; cbn [stmt_calls]; try constructor.
  - apply (body_none b IH) in H as [_ H]. exact H.
  - apply (body_none b IH) in H as [H _]. exact H.
  - apply (body_none b IH) in H as [_ H]. lia.
  - apply (body_none b IH) in H as [H _]. exact H.
Qed.
Lemma source_scoped b : source_calls b <> None <-> Forall scoped b /\ decls b = 0.
Proof.
  unfold source_calls, calls. split.
  - intros H. destruct (body_none b (proj2 (Forall_forall _ b) (fun s _ => stmt_none s)) false [] H). split; auto. lia.
  - intros [H1 H2]. change (@nil (key * value)) with (env_of []). destruct (body_calls_ok b (proj2 (Forall_forall _ b) (fun s _ => stmt_calls_ok s)) false []) as [E|[E H]].
    + rewrite E. discriminate.
    + exfalso. apply H. split; auto. lia.
Qed.
Lemma query_setting ds k v : query (env_of ds) k = Some v <-> setting ds k v.
Proof.
  induction ds as [|kvs ds IH] using rev_ind.
  - split; [discriminate|]. intros (pre & kvs & post & E & _). destruct pre; discriminate.
  - rewrite env_of_snoc. unfold extend. rewrite query_app. destruct (query kvs k) as [v'|] eqn:E.
    + split.
      * intros [= <-]. exists ds, kvs, []. split; auto. split; auto. intros _ [].
      * intros (pre & kvs' & post & H1 & H2 & H3). f_equal. destruct (exists_last (l := kvs' :: post)) as (m & x & Hx); [discriminate|]. rewrite Hx, app_assoc in H1.
        apply app_inj_tail in H1 as [_ <-]. destruct post as [|y post].
        -- destruct m; [|destruct m; discriminate]. injection Hx as ->. congruence.
        -- exfalso. assert (In kvs (y :: post)). { destruct m as [|z m]; [discriminate|]. injection Hx as -> Hx. rewrite Hx. apply in_or_app. right. left. auto. } rewrite (H3 kvs) in E; congruence || auto.
    + rewrite IH. split.
      * intros (pre & kvs' & post & -> & H2 & H3). exists pre, kvs', (post ++ [kvs]). rewrite <- app_assoc. split; auto. split; auto. intros x Hx. apply in_app_iff in Hx as [Hx|[<-|[]]]; auto.
      * intros (pre & kvs' & post & H1 & H2 & H3). destruct post as [|y post] using rev_ind.
        -- apply app_inj_tail in H1 as [_ <-]. congruence.
        -- clear IHpost. rewrite app_comm_cons, app_assoc in H1. apply app_inj_tail in H1 as [-> ->]. exists pre, kvs', post. split; auto. split; auto. intros x Hx. apply H3. apply in_or_app. auto.
Qed.
Lemma query_unset ds k : query (env_of ds) k = None <-> unset ds k.
Proof.
  induction ds as [|kvs ds IH] using rev_ind.
  - split; auto. intros _ x [].
  - rewrite env_of_snoc. unfold extend. rewrite query_app. destruct (query kvs k) eqn:E.
    + split; [discriminate|]. intros H. rewrite (H kvs) in E; [discriminate|]. apply in_or_app. right. left. auto.
    + rewrite IH. split; intros H x Hx; [apply in_app_iff in Hx as [Hx|[<-|[]]]; auto|]. apply H, in_or_app. auto.
Qed.

(** ** Format strings *)
Lemma specifiers_none s : ~ has_char "{" s -> specifiers s = 0.
Proof.
  induction s as [|a s IH]; cbn [specifiers has_char]; auto. intros H. destruct (Ascii.eqb_spec a "{") as [->|_]; [exfalso; auto|]. apply IH. auto.
Qed.
Lemma has_char_app a s t : has_char a (s ++ t) <-> has_char a s \/ has_char a t.
Proof. induction s as [|b s IH]; cbn; [tauto|]. rewrite IH. tauto. Qed.

(** ** Text *)
Lemma append_assoc (a b c : string) : ((a ++ b) ++ c)%string = (a ++ b ++ c)%string.
Proof. induction a; cbn; congruence. Qed.
Lemma append_nil (a : string) : (a ++ "")%string = a.
Proof. induction a; cbn; congruence. Qed.
Lemma text_app a b : text (a ++ b) = (text a ++ text b)%string.
Proof. induction a; cbn; auto. rewrite append_assoc. f_equal. auto. Qed.
Definition inserts (s : nat) (out : iterator) : bool := match out with Inserter s' => s' =? s | Place _ _ => false end.
Lemma write_line_stream out p m w s : streams (write_line out p m w) s = (streams w s ++ (if inserts s out then line (p, m) else ""))%string.
Proof.
  unfold write_line, line. cbn [fst snd]. destruct out as [s'|b at_]; cbn [format_to inserts].
  - unfold put_stream. cbn [streams]. rewrite (Nat.eqb_sym s s'). destruct (Nat.eqb_spec s' s) as [->|H].
    + rewrite !Nat.eqb_refl, !append_assoc. reflexivity.
    + rewrite append_nil. reflexivity.
  - rewrite append_nil. assert (G : forall t w b at_, streams (put_buffer w b at_ t) = streams w) by (induction t; intros; cbn [put_buffer]; auto; rewrite IHt; reflexivity). rewrite !G. reflexivity.
Qed.
Lemma fmt_log_stream outs c w s : streams (fmt_log outs c w) s = (streams w s ++ text (map (fun _ => line c) (filter (inserts s) outs)))%string.
Proof.
  revert w. induction outs as [|o outs IH]; intros w; unfold fmt_log; cbn [fold_left filter].
  - cbn. rewrite append_nil. reflexivity.
  - fold (fmt_log outs c (write_line o (fst c) (snd c) w)). rewrite IH, write_line_stream. destruct c as [p m]. cbn [fst snd]. destruct (inserts s o); cbn [map text fold_right]; rewrite ?append_assoc, ?append_nil; reflexivity.
Qed.
Lemma fmt_logs_stream outs cs w s : streams (fmt_logs outs cs w) s = (streams w s ++ text (flat_map (fun c => map (fun _ => line c) (filter (inserts s) outs)) cs))%string.
Proof.
  revert w. induction cs as [|c cs IH]; intros w; unfold fmt_logs; cbn [fold_left flat_map].
  - cbn. rewrite append_nil. reflexivity.
  - fold (fmt_logs outs cs (fmt_log outs c w)). rewrite IH, fmt_log_stream, text_app, append_assoc. reflexivity.
Qed.
Lemma cut_line t : ~ has_char newline t -> forall acc r, cut acc (t ++ String newline r)%string = (acc ++ t)%string :: cut EmptyString r.
Proof.
  induction t as [|a t IH]; intros H acc r; cbn [append cut].
  - rewrite Ascii.eqb_refl, append_nil. reflexivity.
  - destruct (Ascii.eqb_spec a newline) as [->|_]; [exfalso; apply H; cbn; auto|]. rewrite IH; [|intros G; apply H; cbn; auto]. rewrite append_assoc. reflexivity.
Qed.
Lemma cut_lines cs : (forall c, In c cs -> ~ has_char newline (fst c) /\ ~ has_char newline (snd c)) ->
  cut EmptyString (text (map line cs)) = map (fun c => (fst c ++ snd c)%string) cs.
Proof.
  induction cs as [|[p m] cs IH]; intros H; auto. cbn [map text fold_right]. unfold line at 1. cbn [fst snd].
  rewrite <- append_assoc, append_assoc. cbn [append]. destruct (H (p, m)) as [H1 H2]; [left; auto|]. cbn [fst snd] in *.
  rewrite cut_line by (rewrite has_char_app; tauto). cbn [append]. f_equal. apply IH. intros c Hc. apply H. right. auto.
Qed.
(** The prefix has no newline when level and module have none. *)
Lemma digit_not_newline n : n < 10 -> digit n <> newline.
Proof. intros H. do 10 (destruct n as [|n]; [discriminate|]). lia. Qed.
Lemma decimal_no_newline fuel : forall n acc, ~ has_char newline acc -> ~ has_char newline (decimal_aux fuel n acc).
Proof.
  induction fuel as [|f IH]; intros n acc H; cbn [decimal_aux]; auto.
  assert (G : ~ has_char newline (String (digit (n mod 10)) acc)). { cbn [has_char]. intros [E|E]; auto. symmetry in E. revert E. apply digit_not_newline, Nat.mod_upper_bound. lia. }
  destruct (n <? 10); auto.
Qed.
Lemma prefix_no_newline t l m : ~ has_char newline l -> ~ has_char newline m -> ~ has_char newline (prefix t l m).
Proof.
  intros Hl Hm. unfold prefix. rewrite !has_char_app. assert (S : forall n, ~ has_char newline (spaces n)) by (induction n; cbn; [tauto|intros [E|E]; [discriminate|auto]]).
  assert (D : ~ has_char newline (decimal t)) by (apply decimal_no_newline; cbn; tauto). cbn. intros H. repeat (destruct H as [H|H]); try discriminate; auto; try (apply (S _ H)); contradiction.
Qed.

(** ** Destinations *)
Lemma log_packets_eq {D P O} (op : D -> P -> D * O) ds ps : log_packets op ds ps = (ds, map (fun p => map (fun d => snd (op d p)) ds) ps).
Proof. induction ps as [|p ps IH]; auto. cbn [log_packets log_packet map]. rewrite IH. reflexivity. Qed.
Lemma digit_value n : n < 10 -> nat_of_ascii (digit n) - 48 = n.
Proof. intros H. do 10 (destruct n as [|n]; [reflexivity|]). lia. Qed.
Lemma decimal_number fuel : forall n acc, n < fuel -> number 0 (decimal_aux fuel n acc) = number n acc.
Proof.
  induction fuel as [|f IH]; intros n acc H; [lia|]. cbn [decimal_aux]. pose proof (Nat.div_mod n 10). pose proof (Nat.mod_upper_bound n 10). destruct (Nat.ltb_spec n 10) as [L|L].
  - cbn [number]. rewrite digit_value by lia. rewrite Nat.mod_small by lia. reflexivity.
  - rewrite IH by (assert (n / 10 < n) by (apply Nat.div_lt; lia); lia). cbn [number]. rewrite digit_value by lia. f_equal. lia.
Qed.

Lemma specifiers_text s r : ~ has_char "{" s -> specifiers (s ++ r) = specifiers r.
Proof.
  induction s as [|a s IH]; cbn [append specifiers has_char]; auto. intros H. destruct (Ascii.eqb_spec a "{") as [->|_]; [exfalso; auto|]. apply IH. auto.
Qed.
Lemma specifiers_pieces l : Forall piece_ok l -> specifiers (text (map render l)) = length (filter is_field l).
Proof.
  induction 1 as [|p l Hp Hl IH]; auto. cbn [map text fold_right filter]. destruct p as [s| |s]; cbn [render is_field].
  - rewrite specifiers_text by exact Hp. exact IH.
  - cbn. exact IH.
  - cbn [length]. cbn [append]. rewrite append_assoc. destruct s as [|a s].
    + cbn. f_equal. exact IH.
    + cbn [append specifiers]. cbn in Hp. replace (Ascii.eqb "{" "{") with true by reflexivity. destruct (Ascii.eqb_spec a "{") as [->|_]; [exfalso; auto|]. f_equal. rewrite specifiers_text by tauto. cbn. exact IH.
Qed.

(** ** Layout of a line *)
Definition is_digit (a : ascii) : Prop := 48 <= nat_of_ascii a <= 57.
Lemma decimal_digits fuel : forall n acc, only is_digit acc -> only is_digit (decimal_aux fuel n acc).
Proof.
  induction fuel as [|f IH]; intros n acc H; cbn [decimal_aux]; auto.
  assert (G : only is_digit (String (digit (n mod 10)) acc)).
  { cbn [only]. split; auto. unfold is_digit, digit. pose proof (Nat.mod_upper_bound n 10). rewrite nat_ascii_embedding by lia. lia. }
  destruct (n <? 10); auto.
Qed.
Lemma spaces_only n : only (fun a => a = " "%char) (spaces n) /\ String.length (spaces n) = n.
Proof. induction n as [|n [IH1 IH2]]; cbn; auto. Qed.
Lemma length_append a b : String.length (a ++ b) = String.length a + String.length b.
Proof. induction a as [|c a IH]; cbn; auto. Qed.

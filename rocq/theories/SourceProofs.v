(** Lemmas for SourceProps. *)
From Coq Require Import String Ascii Bool Arith List NArith ZArith Lia.
From Verif Require Import LogModel LogSpec LogProofs CatalogModel CatalogSpec CatalogProofs CatalogProofs2 CatalogProps GenModel GenSpec GenProofs SymbolModel SymbolSpec MipiModel MipiSpec MipiProofs MipiProofs2 MipiProofs3 MipiProps.
From Verif Require Import ChainModel ChainSpec ChainProofs ChainProofs2 ChainProofs3 ChainProps SourceModel SourceSpec.
Import ListNotations.

Lemma compile_scopes config lg src cs : compile config lg src = Some cs -> cs = map as_env (body_scopes scopes [] src).
Proof. unfold compile. destruct (source_calls src) as [l|] eqn:E; [|discriminate]. destruct (forallb _ l); [|discriminate]. intros [= <-]. apply (calls_scopes false), E. Qed.
Lemma setting_fun ds k v w : setting ds k v -> setting ds k w -> v = w.
Proof. intros H1 H2. apply query_setting in H1, H2. congruence. Qed.
Lemma sent_goes config lg ds : sent_here config lg (env_of ds) = true <-> goes_to config ds lg.
Proof.
  unfold sent_here, get_config, flavor, goes_to. destruct (query (env_of ds) k_flavor) as [f|] eqn:E.
  - apply query_setting in E. destruct (Nat.eqb_spec f default_flavor) as [->|N].
    + destruct (config None) as [g|] eqn:C.
      * rewrite Nat.eqb_eq. split; [intros ->; auto|]. intros [(f & H1 & H2 & _)|[_ H]]; [|congruence]. exfalso. apply H2, (setting_fun ds k_flavor); auto.
      * split; [discriminate|]. intros [(f & H1 & H2 & _)|[_ H]]; [|congruence]. exfalso. apply H2, (setting_fun ds k_flavor); auto.
    + assert (U : ~ unset ds k_flavor) by (intros U; apply query_unset in U; apply query_setting in E; congruence).
      destruct (config (Some f)) as [g|] eqn:C.
      * rewrite Nat.eqb_eq. split; [intros ->; left; eauto|]. intros [(f' & H1 & _ & H3)|[[H|H] _]]; [|tauto|].
        -- rewrite (setting_fun ds k_flavor f' f) in H3 by auto. congruence.
        -- exfalso. apply N, (setting_fun ds k_flavor); auto.
      * split; [discriminate|]. intros [(f' & H1 & _ & H3)|[[H|H] _]]; [|tauto|].
        -- rewrite (setting_fun ds k_flavor f' f) in H3 by auto. congruence.
        -- exfalso. apply N, (setting_fun ds k_flavor); auto.
  - apply query_unset in E. rewrite Nat.eqb_refl. assert (U : forall f, ~ setting ds k_flavor f) by (intros f U; apply query_unset in E; apply query_setting in U; congruence).
    destruct (config None) as [g|] eqn:C.
    + rewrite Nat.eqb_eq. split; [intros ->; auto|]. intros [(f & H & _)|[_ H]]; [destruct (U f H)|congruence].
    + split; [discriminate|]. intros [(f & H & _)|[_ H]]; [destruct (U f H)|congruence].
Qed.
Lemma find_call (l : list (nat * list env)) id ds : NoDup (map fst l) -> In (id, ds) l -> find (fun c => fst c =? id) (map as_env l) = Some (id, env_of ds).
Proof.
  induction l as [|[i d] l IH]; intros N H; [destruct H|]. cbn [map find as_env fst]. cbn [map fst] in N. inversion_clear N as [|? ? N1 N2]. destruct H as [[= -> ->]|H].
  - cbn. rewrite Nat.eqb_refl. reflexivity.
  - cbn. destruct (Nat.eqb_spec i id) as [->|]; [|apply IH; auto]. exfalso. apply N1, in_map_iff. exists (id, ds). auto.
Qed.
Lemma combine_length_eq {A B} (l : list A) (m : list B) : length m = length l -> length (combine l m) = length l.
Proof. intros H. rewrite combine_length. lia. Qed.
Lemma map_combine {A B C} (f : A -> C) (l : list A) (m : list B) : length m = length l -> map (fun a => f (fst a)) (combine l m) = map f l.
Proof. revert m. induction l as [|x l IH]; intros [|y m] H; try discriminate; [reflexivity|]. cbn [combine map fst]. rewrite IH; auto. Qed.

Section Source.
Variables (p : platform) (vs : values) (sites : nat -> site) (config : option value -> option nat) (lg : nat) (src : list stmt) (cs : list (nat * env)).
Hypothesis Hc : compile config lg src = Some cs.
Hypothesis Hn : NoDup (map fst (body_scopes scopes [] src)).
Lemma occurs_unique id ds ds' : occurs_with src id ds -> occurs_with src id ds' -> ds = ds'.
Proof.
  unfold occurs_with. intros H1 H2. pose proof (find_call _ _ _ Hn H1) as F1. revert Hn H1 H2. generalize (body_scopes scopes [] src). clear. intros l N H1 H2.
  induction l as [|[i d] l IH]; [destruct H1|]. inversion_clear N as [|? ? N1 N2]. cbn [fst] in N1. destruct H1 as [[= -> ->]|H1], H2 as [[= E]|H2]; auto; try (exfalso; apply N1, in_map_iff; eexists; split; [|eassumption]; reflexivity).
  exfalso. subst. apply N1, in_map_iff. eexists. split; [|exact H1]. reflexivity.
Qed.
Lemma has_level id ds : occurs_with src id ds -> goes_to config ds lg -> exists l, setting ds k_level l.
Proof.
  intros H G. pose proof (compile_scopes _ _ _ _ Hc) as E. unfold compile in Hc. destruct (source_calls src) as [l|]; [|discriminate]. destruct (forallb _ l) eqn:F; [|discriminate]. injection Hc as ->.
  rewrite forallb_forall in F. specialize (F (id, env_of ds)). rewrite E in F. specialize (F (in_map as_env _ (id, ds) H)). cbn [snd fst] in F. rewrite (proj2 (sent_goes _ _ _) G) in F. cbn [negb orb] in F.
  destruct (query (env_of ds) k_level) as [v|] eqn:Q; [|discriminate]. exists v. apply query_setting, Q.
Qed.
Lemma module_spelled ds m : spells (so_text (module_sym vs (env_of ds))) m -> module_text vs ds m.
Proof.
  unfold module_sym. cbn [so_text]. destruct (query (env_of ds) k_module) as [v|] eqn:Q.
  - intros H. left. exists v. split; auto. apply query_setting, Q.
  - intros H. right. split; [apply query_unset, Q|]. unfold spells, default_module in H. clear - H.
    assert (I : forall l l', map (fun a => Z.of_nat (nat_of_ascii a)) l = map (fun a => Z.of_nat (nat_of_ascii a)) l' -> l = l').
    { induction l as [|a l IH]; intros [|b l'] E; try discriminate; auto. injection E as E1 E2. f_equal; auto. apply Nat2Z.inj in E1. rewrite <- (ascii_nat_embedding a), <- (ascii_nat_embedding b). congruence. }
    apply I in H. rewrite <- (string_of_list_ascii_of_string m), H. reflexivity.
Qed.
(** A call of the source is a call as for C103. *)
Lemma execution_call x ps ds : good_execution p vs sites src x ps -> occurs_with src (x_call x) ds -> goes_to config ds lg ->
  exists c, call_of p vs (sites (x_call x)) (env_of ds) x = Some c /\ good_call p c ps /\ l_args c = combine (s_types (sites (x_call x))) (x_args x) /\
    In (IMessage (l_message c)) (symbols_of p vs sites config lg cs) /\ In (IModule (l_module c)) (symbols_of p vs sites config lg cs) /\
    forall enums l, call_line p enums c ps l -> source_line p enums vs (sites (x_call x)) ds x ps l.
Proof.
  intros ((ds' & O & L & U) & G1 & G2 & G3 & G4 & G5 & G6) H G. assert (ds' = ds) by (eapply occurs_unique; eauto). subst ds'.
  destruct (has_level _ _ H G) as (lv & Hl). specialize (L lv Hl). unfold call_of. rewrite (proj2 (query_setting _ _ _) Hl). eexists. split; [reflexivity|].
  split; [|split; [reflexivity|split; [|split]]].
  - unfold good_call. cbn [l_level l_unit l_message l_args message_of sm_text sm_args]. split; [lia|]. split.
    { destruct (query (env_of ds) k_unit) as [u|] eqn:Q; [apply U, query_setting, Q|lia]. }
    split; [exact G1|]. split; [rewrite combine_length_eq; auto|]. split; [exact G4|]. split; [exact G5|]. split; [|exact G6]. rewrite map_combine; auto.
  - apply in_flat_map. exists (x_call x, env_of ds). split.
    + rewrite (compile_scopes _ _ _ _ Hc). apply (in_map as_env _ (x_call x, ds) H).
    + cbn [snd fst]. rewrite (proj2 (sent_goes _ _ _) G). left. reflexivity.
  - apply in_flat_map. exists (x_call x, env_of ds). split.
    + rewrite (compile_scopes _ _ _ _ Hc). apply (in_map as_env _ (x_call x, ds) H).
    + cbn [snd fst]. rewrite (proj2 (sent_goes _ _ _) G). right. left. reflexivity.
  - intros enums l (level & m & words & body & H1 & H2 & H3 & H4 & ->). cbn [l_level l_module l_args] in *. rewrite Nat2N.id in H1.
    exists lv, level, m, body. split; auto. split; auto. split; [apply module_spelled, H2|]. split; auto. exists words. auto.
Qed.
Definition exact_line (enums : enumerations) (x : execution) (ps : list part) (ds : list env) (l : string) : Prop :=
  match s_types (sites (x_call x)) with [] => l = format_text ps | _ => source_line p enums vs (sites (x_call x)) ds x ps l end.
Lemma executions_calls enums xs : Forall (fun x => good_execution p vs sites src (fst x) (snd x)) xs ->
  exists cps, run_calls p vs sites config lg cs (map fst xs) = Some (map fst cps) /\
    Forall (fun cp => good_call p (fst cp) (snd cp) /\ In (IMessage (l_message (fst cp))) (symbols_of p vs sites config lg cs) /\ In (IModule (l_module (fst cp))) (symbols_of p vs sites config lg cs)) cps /\
    forall ls, Forall2 (fun cp l => match l_args (fst cp) with [] => l = format_text (snd cp) | _ => call_line p enums (fst cp) (snd cp) l end) cps ls ->
      shown_lines (exact_line enums) config lg src xs ls.
Proof.
  induction 1 as [|[x ps] xs Hx _ (cps & R & F & S)]; cbn [fst snd] in *.
  - exists []. split; [reflexivity|]. split; [constructor|]. intros ls H. inversion H. constructor.
  - assert (Hx0 := Hx). destruct Hx as ((ds0 & O0 & _) & _).
    cbn [map run_calls fst]. rewrite (compile_scopes _ _ _ _ Hc) in *. rewrite (find_call _ _ _ Hn O0). rewrite R. cbn [snd fst].
    destruct (sent_here config lg (env_of ds0)) eqn:G.
    + apply sent_goes in G. rewrite <- (compile_scopes _ _ _ _ Hc) in *. destruct (execution_call x ps ds0 Hx0 O0 G) as (c & C1 & C2 & C3 & C4 & C5 & C6). rewrite C1. exists ((c, ps) :: cps). split; [reflexivity|]. split; [constructor; auto|].
      intros ls H. inversion H as [|? l ? ls' H1 H2]; subst. cbn [fst snd] in H1. apply (shown_line _ _ _ _ x ps ds0); auto. unfold exact_line. rewrite C3 in H1.
      destruct Hx0 as (_ & _ & _ & L & _). destruct (s_types (sites (x_call x))) as [|t ts] eqn:Et; [exact H1|]. destruct (x_args x) as [|a args] eqn:Ea; [discriminate|]. cbn [combine] in H1. apply C6, H1.
    + exists cps. split; [reflexivity|]. split; auto. intros ls H. apply (shown_other _ _ _ _ x ps ds0); auto. intros N. apply sent_goes in N. congruence.
Qed.
(** The same for the first so many calls. *)
Lemma executions_prefix enums xs : Forall (fun x => good_execution p vs sites src (fst x) (snd x)) xs ->
  exists cps, run_calls p vs sites config lg cs (map fst xs) = Some (map fst cps) /\
    Forall (fun cp => good_call p (fst cp) (snd cp) /\ In (IMessage (l_message (fst cp))) (symbols_of p vs sites config lg cs) /\ In (IModule (l_module (fst cp))) (symbols_of p vs sites config lg cs)) cps /\
    forall n ls, Forall2 (fun cp l => match l_args (fst cp) with [] => l = format_text (snd cp) | _ => call_line p enums (fst cp) (snd cp) l end) (firstn n cps) ls ->
      exists done later, xs = (done ++ later)%list /\ shown_lines (exact_line enums) config lg src done ls.
Proof.
  induction 1 as [|[x ps] xs Hx _ (cps & R & F & S)]; cbn [fst snd] in *.
  - exists []. split; [reflexivity|]. split; [constructor|]. intros n ls H. rewrite firstn_nil in H. inversion H. exists [], []. split; [reflexivity|constructor].
  - assert (Hx0 := Hx). destruct Hx as ((ds0 & O0 & _) & _).
    cbn [map run_calls fst]. rewrite (compile_scopes _ _ _ _ Hc) in *. rewrite (find_call _ _ _ Hn O0). rewrite R. cbn [snd fst].
    destruct (sent_here config lg (env_of ds0)) eqn:G.
    + apply sent_goes in G. rewrite <- (compile_scopes _ _ _ _ Hc) in *. destruct (execution_call x ps ds0 Hx0 O0 G) as (c & C1 & C2 & C3 & C4 & C5 & C6). rewrite C1. exists ((c, ps) :: cps). split; [reflexivity|]. split; [constructor; auto|].
      intros n ls H. destruct n as [|n]; [inversion H; exists [], ((x, ps) :: xs); split; [reflexivity|constructor]|]. cbn [firstn] in H. inversion H as [|? l ? ls' H1 H2]; subst. cbn [fst snd] in H1.
      destruct (S n ls' H2) as (done & later & -> & Sd). exists ((x, ps) :: done), later. split; [reflexivity|]. apply (shown_line _ _ _ _ x ps ds0); auto. unfold exact_line. rewrite C3 in H1.
      destruct Hx0 as (_ & _ & _ & L & _). destruct (s_types (sites (x_call x))) as [|t ts] eqn:Et; [exact H1|]. destruct (x_args x) as [|a args] eqn:Ea; [discriminate|]. cbn [combine] in H1. apply C6, H1.
    + exists cps. split; [reflexivity|]. split; auto. intros n ls H. destruct (S n ls H) as (done & later & -> & Sd). exists ((x, ps) :: done), later. split; [reflexivity|]. apply (shown_other _ _ _ _ x ps ds0); auto. intros N. apply sent_goes in N. congruence.
Qed.
End Source.

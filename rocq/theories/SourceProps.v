(** Properties of the way of a log call from the source text to the printed line. *)
From Coq Require Import String Ascii Bool Arith List NArith ZArith Lia.
From Verif Require Import LogModel LogSpec LogProofs LogProofs2 LogProps CatalogModel CatalogSpec CatalogProofs CatalogProofs2 CatalogProps GenModel GenSpec GenProofs SymbolModel SymbolSpec SymbolProofs SymbolProofs2 SymbolProofs3 SymbolProofs4 SymbolProps MipiModel MipiSpec MipiProofs MipiProofs2 MipiProofs3 MipiProps.
From Verif Require Import ChainModel ChainSpec ChainProofs ChainProofs2 ChainProofs3 ChainProps SourceModel SourceSpec SourceProofs SourceProofs2.
Import ListNotations.

(** ** C105: the log shows the source *)
(** Whatever calls of the source are executed, the decoder prints one line for each
    that goes to the binary logger, in order, with the level and module in force
    at the call in the source text; of a call without arguments only the text. *)
Theorem C105_exact ft turns p vs sites config lg src cs o j lines is g xs : compile config lg src = Some cs -> NoDup (map fst (body_scopes scopes [] src)) ->
  good_generate o j lines is g -> (forall i, In i (symbols_of p vs sites config lg cs) -> In i is) -> consistent j -> good_symbols is -> ids_fit g ->
  Forall (fun x => good_execution p vs sites src (fst x) (snd x)) xs ->
  exists calls bytes ls, run_calls p vs sites config lg cs (map fst xs) = Some calls /\ program p g calls = Some bytes /\ decode ft turns (g_json g) bytes = (ls, false) /\
    shown_lines (fun x ps ds l => match s_types (sites (x_call x)) with [] => l = format_text ps | _ => source_line p (o_enums o) vs (sites (x_call x)) ds x ps l end) config lg src xs ls.
Proof.
  intros Hc Hn G I C S F H. destruct (executions_calls p vs sites config lg src cs Hc Hn (o_enums o) xs H) as (cps & R & K & Sh).
  destruct (C103_exact ft turns p o j lines is g cps G C S F) as (bytes & ls & P & D & L).
  { eapply Forall_impl; [|exact K]. intros cp (K1 & K2 & K3). auto. }
  exists (map fst cps), bytes, ls. split; auto.
Qed.
Print Assumptions C105_exact.
Theorem C105_partial ft turns p vs sites config lg src cs o j lines is g xs : compile config lg src = Some cs -> NoDup (map fst (body_scopes scopes [] src)) ->
  good_generate o j lines is g -> (forall i, In i (symbols_of p vs sites config lg cs) -> In i is) -> consistent j -> good_symbols is -> ids_fit g ->
  Forall (fun x => good_execution p vs sites src (fst x) (snd x)) xs -> (forall x, In x xs -> s_types (sites (x_call (fst x))) <> []) ->
  exists calls bytes ls, run_calls p vs sites config lg cs (map fst xs) = Some calls /\ program p g calls = Some bytes /\ decode ft turns (g_json g) bytes = (ls, false) /\
    shown_lines (fun x ps ds l => source_line p (o_enums o) vs (sites (x_call x)) ds x ps l) config lg src xs ls.
Proof.
  intros Hc Hn G I C S F H A. destruct (C105_exact ft turns p vs sites config lg src cs o j lines is g xs Hc Hn G I C S F H) as (calls & bytes & ls & R & P & D & L).
  exists calls, bytes, ls. split; auto. split; auto. split; auto. clear - A L. induction L as [|x ps ds r l ls H1 H2 H3 _ IH|x ps ds r ls H1 H2 _ IH]; [constructor| |].
  - apply (shown_line _ _ _ _ x ps ds); auto.
    + specialize (A (x, ps) (or_introl eq_refl)). cbn [fst] in A. destruct (s_types (sites (x_call x))); [congruence|exact H3].
    + apply IH. intros y Hy. apply A. right. exact Hy.
  - apply (shown_other _ _ _ _ x ps ds); auto. apply IH. intros y Hy. apply A. right. exact Hy.
Qed.
Print Assumptions C105_partial.
(** The call made is the one written: level, unit, module, message, ids and tag are
    those in force, with the documented defaults; and the undefined symbols are
    those of its message and module. *)
Theorem C105_calls p vs sites config lg src cs x ds : compile config lg src = Some cs -> NoDup (map fst (body_scopes scopes [] src)) ->
  occurs_with src (x_call x) ds -> goes_to config ds lg ->
  exists c, run_calls p vs sites config lg cs [x] = Some [c] /\
    In (IMessage (l_message c)) (symbols_of p vs sites config lg cs) /\ In (IModule (l_module c)) (symbols_of p vs sites config lg cs) /\
    (exists l, setting ds k_level l /\ l_level c = N.of_nat l) /\
    ((exists u, setting ds k_unit u /\ l_unit c = v_unit vs u (x_time x)) \/ unset ds k_unit /\ l_unit c = 0%N) /\
    ((exists m, setting ds k_module m /\ so_text (l_module c) = v_module vs m) \/ unset ds k_module /\ spells (so_text (l_module c)) "default"%string) /\
    ((exists i, setting ds k_module_id i /\ (so_id (l_module c), so_suffix (l_module c)) = v_module_id vs i) \/ unset ds k_module_id /\ so_id (l_module c) = (-1)%Z /\ so_suffix (l_module c) = EmptyString) /\
    ((exists i, setting ds k_string_id i /\ (sm_id (l_message c), sm_suffix (l_message c)) = v_string_id vs i) \/ unset ds k_string_id /\ sm_id (l_message c) = (-1)%Z /\ sm_suffix (l_message c) = EmptyString) /\
    ((exists t, setting ds k_tag t /\ sm_tags (l_message c) = [v_tag vs t]) \/ unset ds k_tag /\ sm_tags (l_message c) = []) /\
    sm_text (l_message c) = s_text (sites (x_call x)) /\ sm_named (l_message c) = s_named (sites (x_call x)) /\ sm_args (l_message c) = map (encode_text p) (s_types (sites (x_call x))) /\
    l_args c = combine (s_types (sites (x_call x))) (x_args x).
Proof.
  intros Hc Hn O G. destruct (has_level config lg src cs Hc _ _ O G) as (l & Hl). assert (E := compile_scopes _ _ _ _ Hc).
  assert (Hs : sent_here config lg (env_of ds) = true) by (apply sent_goes, G). pose proof (proj2 (query_setting _ _ _) Hl) as Ql.
  assert (F : find (fun c => fst c =? x_call x) cs = Some (x_call x, env_of ds)) by (rewrite E; apply find_call; auto).
  cbn [run_calls]. rewrite F. cbn [snd fst]. rewrite Hs. unfold call_of. rewrite Ql. eexists. split; [reflexivity|]. cbn [l_message l_module l_level l_unit l_args].
  assert (M : forall i, In i [IMessage (message_of p vs (sites (x_call x)) (env_of ds)); IModule (module_sym vs (env_of ds))] -> In i (symbols_of p vs sites config lg cs)).
  { intros i Hi. apply in_flat_map. exists (x_call x, env_of ds). split; [apply find_some in F as [F _]; exact F|]. cbn [snd fst]. rewrite Hs. exact Hi. }
  split; [apply M; left; auto|]. split; [apply M; right; left; auto|]. split; [eauto|].
  assert (Q : forall k, (exists v, setting ds k v /\ query (env_of ds) k = Some v) \/ unset ds k /\ query (env_of ds) k = None).
  { intros k. destruct (query (env_of ds) k) as [v|] eqn:Eq; [left; exists v; split; auto; apply query_setting, Eq|right; split; auto; apply query_unset, Eq]. }
  unfold message_of, module_sym. cbn [sm_text sm_args sm_id sm_suffix sm_named sm_tags so_text so_id so_suffix].
  split; [destruct (Q k_unit) as [(v & H & ->)|[H ->]]; eauto|]. split; [destruct (Q k_module) as [(v & H & ->)|[H ->]]; [eauto|right; split; auto; reflexivity]|].
  split; [destruct (Q k_module_id) as [(v & H & ->)|[H ->]]; [left; exists v; split; auto; symmetry; apply surjective_pairing|right; auto]|].
  split; [destruct (Q k_string_id) as [(v & H & ->)|[H ->]]; [left; exists v; split; auto; symmetry; apply surjective_pairing|right; auto]|].
  split; [destruct (Q k_tag) as [(v & H & ->)|[H ->]]; eauto|]. auto.
Qed.
Print Assumptions C105_calls.
(** The ids set in the source are the ids in the catalog. *)
Theorem C105_ids p vs sites config lg src cs o j lines is g id ds : compile config lg src = Some cs -> 
  good_generate o j lines is g -> (forall i, In i (symbols_of p vs sites config lg cs) -> In i is) -> consistent j -> good_symbols is ->
  occurs_with src id ds -> goes_to config ds lg ->
  (forall v, setting ds k_string_id v -> fst (v_string_id vs v) <> -1 -> holds (j_messages (g_json g)) (text_of_codes (s_text (sites id)), map (encode_text p) (s_types (sites id))) (fst (v_string_id vs v)))%Z /\
  (forall v m, setting ds k_module_id v -> fst (v_module_id vs v) <> -1 -> module_text vs ds m -> holds (j_modules (g_json g)) (m, []) (fst (v_module_id vs v)))%Z.
Proof.
  intros Hc G I C S O Go. destruct (C103_explicit o j lines is g G C S) as [E1 E2]. apply sent_goes in Go.
  assert (M : forall i, In i [IMessage (message_of p vs (sites id) (env_of ds)); IModule (module_sym vs (env_of ds))] -> In i is).
  { intros i Hi. apply I, in_flat_map. exists (id, env_of ds). split; [rewrite (compile_scopes _ _ _ _ Hc); apply (in_map as_env _ (id, ds) O)|]. cbn [snd fst]. rewrite Go. exact Hi. }
  split.
  - intros v Hv Hi. assert (Im : sm_id (message_of p vs (sites id) (env_of ds)) = fst (v_string_id vs v)) by (unfold message_of; cbn [sm_id]; rewrite (proj2 (query_setting _ _ _) Hv); reflexivity).
    rewrite <- Im in *. apply (E1 _ (M _ (or_introl eq_refl)) Hi).
  - intros v m Hv Hi Hm. assert (Im : so_id (module_sym vs (env_of ds)) = fst (v_module_id vs v)) by (unfold module_sym; cbn [so_id]; rewrite (proj2 (query_setting _ _ _) Hv); reflexivity).
    rewrite <- Im in *. destruct (E2 _ (M _ (or_intror (or_introl eq_refl))) Hi) as [_ H]. replace m with (text_of_codes (so_text (module_sym vs (env_of ds)))); [exact H|]. apply spells_text.
    unfold module_sym. cbn [so_text]. destruct Hm as [(w & Hw & Sp)|[U ->]]; [rewrite (proj2 (query_setting _ _ _) Hw); exact Sp|]. rewrite (proj2 (query_unset _ _) U). reflexivity.
Qed.
Print Assumptions C105_ids.
(** The source is accepted iff no scope declares the environment twice and every
    call for the logger has a level. *)
Theorem C105_accepts config lg src : compile config lg src <> None <->
  Forall scoped src /\ decls src = 0 /\ forall id ds, occurs_with src id ds -> goes_to config ds lg -> exists l, setting ds k_level l.
Proof.
  split.
  - intros H. destruct (compile config lg src) as [cs|] eqn:E; [|congruence]. assert (A : Forall scoped src /\ decls src = 0).
    { apply C71_accepts. unfold compile in E. destruct (source_calls src); [discriminate|discriminate E]. }
    split; [apply A|]. split; [apply A|]. intros id ds. apply (has_level config lg src cs E).
  - intros (A1 & A2 & A3). assert (A : source_calls src <> None) by (apply C71_accepts; auto). unfold compile. destruct (source_calls src) as [cs|] eqn:E; [|congruence].
    assert (F : forallb (fun c => negb (sent_here config lg (snd c)) || match query (snd c) k_level with Some _ => true | None => false end) cs = true); [|rewrite F; discriminate].
    apply forallb_forall. intros c Hc. apply (calls_scopes false) in E. subst cs. apply in_map_iff in Hc as ([id ds] & <- & Hd). cbn [snd].
    unfold as_env. cbn [snd fst]. destruct (sent_here config lg (env_of ds)) eqn:Sh; [|reflexivity]. destruct (A3 id ds Hd) as (l & Hl); [apply sent_goes, Sh|]. rewrite (proj2 (query_setting _ _ _) Hl). reflexivity.
Qed.
Print Assumptions C105_accepts.

(** A source with a call in the default module, one in a scope with a module, one in
    a nested scope with another module and a string id, one for another logger. *)
Definition ex_src : list stmt :=
  [LogCall 1 [(k_level, 4)];
   Block [Decl [(k_module, 5)]; LogCall 2 [(k_level, 3)]; With [(k_module, 6); (k_string_id, 1)] [LogCall 3 [(k_level, 7)]]; With [(k_flavor, 9)] [LogCall 4 [(k_level, 1)]]; LogCall 5 [(k_level, 2)]]].
Definition ex_values : values :=
  {| v_module := fun v => codes (if v =? 5 then "net" else "usb"); v_module_id := fun _ => (9%Z, EmptyString); v_string_id := fun _ => (40%Z, EmptyString); v_tag := fun _ => {| st_name := []; st_value := [] |}; v_unit := fun _ _ => 0%N |}.
Definition ex_sites (i : nat) : site :=
  if i =? 3 then {| s_text := codes "port {}"; s_named := []; s_types := [MipiModel.Plain Int] |} else {| s_text := codes "got {} of {{{}}}"; s_named := []; s_types := [MipiModel.Plain Int; MipiModel.Plain UInt] |}.
Definition ex_config (f : option value) : option nat := match f with None => Some 0 | Some 9 => Some 1 | Some _ => None end.
Definition ex_calls : list (nat * env) := match compile ex_config 0 ex_src with Some cs => cs | None => [] end.
Definition ex_symbols : list item := symbols_of x64 ex_values ex_sites ex_config 0 ex_calls.
Definition ex_build : generated := made opts nothing (map (line_of true) ex_symbols).
Definition got := [Chars "got "; Hole; Chars " of "; OpenBrace; Hole; CloseBrace]%string.
Definition ex_run : list (execution * list part) :=
  [({| x_call := 1; x_time := 0; x_args := [5; 7]%N |}, got); ({| x_call := 3; x_time := 1; x_args := [4294967295]%N |}, [Chars "port "; Hole]%string);
   ({| x_call := 4; x_time := 2; x_args := [1; 1]%N |}, got); ({| x_call := 2; x_time := 3; x_args := [8; 9]%N |}, got); ({| x_call := 1; x_time := 4; x_args := [6; 7]%N |}, got)].
Definition ex_logged : list N := match run_calls x64 ex_values ex_sites ex_config 0 ex_calls (map fst ex_run) with Some l => sent_bytes ex_build l | None => [] end.
Lemma ex_items : ex_symbols = [IMessage (msg "got {} of {{{}}}" ["encode_32<int>"; "encode_u32<unsigned int>"] (-1)); IModule (mod_ "default");
    IMessage (msg "got {} of {{{}}}" ["encode_32<int>"; "encode_u32<unsigned int>"] (-1)); IModule (mod_ "net"); IMessage (msg "port {}" ["encode_32<int>"] 40); IModule (mod_ "usb");
    IMessage (msg "got {} of {{{}}}" ["encode_32<int>"; "encode_u32<unsigned int>"] (-1)); IModule (mod_ "net")]%string.
Proof. vm_compute. reflexivity. Qed.
Lemma ex_listed : listing true (map (line_of true) ex_symbols) ex_symbols.
Proof.
  assert (A : SymbolSpec.arg_ok "encode_32<int>") by (apply (arg_plain "encode_32" "int"); repeat split; reflexivity).
  assert (B : SymbolSpec.arg_ok "encode_u32<unsigned int>") by (apply (arg_plain "encode_u32" "unsigned int"); repeat split; reflexivity).
  rewrite ex_items. cbn [map].
  repeat match goal with |- listing true (line_of true ?i :: _) _ => sym i; [first [reflexivity|split; [repeat (constructor; auto)|reflexivity]]|] end. constructor.
Qed.
Lemma ex_good : good_generate opts nothing (map (line_of true) ex_symbols) ex_symbols ex_build.
Proof.
  split; [exists true; apply ex_listed|]. split; [reflexivity|]. split; [|split; [constructor; [intros []|constructor]|split; [reflexivity|]]].
  - rewrite ex_items. split; [|split; [|split]].
    + intros a b Ha Hb. cbn in Ha, Hb. all_cases; vm_compute; intros; congruence.
    + intros m Hm Hi. split; [intros s i (x & [] & _)|]. intros m' Hm' Hi'. cbn in Hm, Hm'. all_cases; vm_compute in Hi, Hi' |- *; try congruence; tauto.
    + intros a b Ha Hb. cbn in Ha, Hb. all_cases; vm_compute; intros; congruence.
    + intros m Hm Hi. cbn in Hm. all_cases; vm_compute in Hi; congruence.
  - unfold ex_build, made. destruct (generate opts [nothing] (map (line_of true) ex_symbols)) eqn:E; [reflexivity|]. vm_compute in E. discriminate.
Qed.
Lemma ex_symbols_ok : good_symbols ex_symbols.
Proof.
  rewrite ex_items. split; [|split; [|split]].
  - intros m H. cbn in H. repeat destruct H as [H|H]; try discriminate H; try contradiction; injection H as <-; repeat constructor; vm_compute; congruence.
  - intros m H. cbn in H. repeat destruct H as [H|H]; try discriminate H; try contradiction; injection H as <-; repeat constructor; vm_compute; congruence.
  - intros m n H H'. cbn in H, H'. repeat destruct H as [H|H]; try discriminate H; try contradiction; repeat destruct H' as [H'|H']; try discriminate H'; try contradiction;
    injection H as <-; injection H' as <-; vm_compute; intros; congruence.
  - intros m n H H'. cbn in H, H'. repeat destruct H as [H|H]; try discriminate H; try contradiction; repeat destruct H' as [H'|H']; try discriminate H'; try contradiction;
    injection H as <-; injection H' as <-; vm_compute; intros; congruence.
Qed.
Lemma ex_ids : ids_fit ex_build.
Proof.
  assert (B : map snd (g_messages ex_build) = [3; 40]%Z /\ map snd (g_modules ex_build) = [0; 1; 2]%Z) by (vm_compute; auto).
  destruct B as [B1 B2]. split; intros d Hd; apply (in_map snd) in Hd; [rewrite B1 in Hd|rewrite B2 in Hd]; cbn [In] in Hd; lia.
Qed.
Lemma ex_run_ok : Forall (fun x => good_execution x64 ex_values ex_sites ex_src (fst x) (snd x)) ex_run.
Proof.
  assert (S : forall ds k v, setting ds k v -> query (env_of ds) k = Some v) by (intros; apply query_setting; auto).
  assert (I : forall n, (n < 2 ^ 32)%N -> type_ok (MipiModel.Plain Int) /\ name_ok (MipiModel.Plain Int) /\ MipiSpec.arg_ok x64 (MipiModel.Plain Int, n) /\ number_or_enum (MipiModel.Plain Int) /\ shows_right x64 (MipiModel.Plain Int, n)).
  { intros n H. split; [exact I|]. split; [exact I|]. split; [split; [exact H|discriminate]|]. split; [repeat split; discriminate|exact I]. }
  assert (U : forall n, (n < 2 ^ 32)%N -> type_ok (MipiModel.Plain UInt) /\ name_ok (MipiModel.Plain UInt) /\ MipiSpec.arg_ok x64 (MipiModel.Plain UInt, n) /\ number_or_enum (MipiModel.Plain UInt) /\ shows_right x64 (MipiModel.Plain UInt, n)).
  { intros n H. split; [exact Logic.I|]. split; [exact Logic.I|]. split; [split; [exact H|discriminate]|]. split; [repeat split; discriminate|exact Logic.I]. }
  repeat (apply Forall_cons || apply Forall_nil); cbn [fst snd x_call]; (split; [eexists; split; [cbn; auto 10|split; [intros l Hl; apply S in Hl; vm_compute in Hl; injection Hl as <-; lia|intros u Hu; cbn; lia]]|]);
    (split; [repeat constructor; apply braceless_b; reflexivity|]); (split; [reflexivity|]); (split; [reflexivity|]); (split; [reflexivity|]); (split; [apply unmentioned; reflexivity|]);
    cbn; repeat (apply Forall_cons || apply Forall_nil); (apply I || apply U); reflexivity.
Qed.
Lemma ex_catalog : j_messages (g_json ex_build) = [mk "got {} of {{{}}}" ["encode_32<int>"; "encode_u32<unsigned int>"] 3; mk "port {}" ["encode_32<int>"] 40]%string.
Proof. vm_compute. reflexivity. Qed.
Example C105_case : compile ex_config 0 ex_src = Some ex_calls /\ NoDup (map fst (body_scopes scopes [] ex_src)) /\
  good_generate opts nothing (map (line_of true) ex_symbols) ex_symbols ex_build /\ good_symbols ex_symbols /\ ids_fit ex_build /\
  Forall (fun x => good_execution x64 ex_values ex_sites ex_src (fst x) (snd x)) ex_run /\
  decode (fun _ => EmptyString) 0 (g_json ex_build) ex_logged =
    (["INFO [default] got 5 of {7}"; "TRACE [usb] port -1"; "WARN [net] got 8 of {9}"; "INFO [default] got 6 of {7}"], false)%string /\
  holds (j_messages (g_json ex_build)) ("port {}", ["encode_32<int>"])%string 40%Z.
Proof.
  split; [reflexivity|]. split; [repeat constructor; cbn; lia|]. split; [apply ex_good|]. split; [apply ex_symbols_ok|]. split; [apply ex_ids|]. split; [apply ex_run_ok|]. split; [vm_compute; reflexivity|].
  rewrite ex_catalog. eexists. split; [right; left; reflexivity|split; reflexivity].
Qed.
(** A message logged in one place with a string id and in another without: one of
    the two has no definition, the program does not link. So for modules with and
    without a module id. *)
Definition twice (k : key) : list stmt := [With [(k, 1)] [LogCall 3 [(k_level, 4)]]; LogCall 6 [(k_level, 4)]].
Definition same_site (_ : nat) : site := {| s_text := codes "port {}"; s_named := []; s_types := [MipiModel.Plain Int] |}.
Definition twice_symbols (k : key) : list item := match compile ex_config 0 (twice k) with Some cs => symbols_of x64 ex_values same_site ex_config 0 cs | None => [] end.
Definition twice_run : execution * list part := ({| x_call := 3; x_time := 0; x_args := [5%N] |}, [Chars "port "; Hole]%string).
Lemma twice_refuted k is : k = k_string_id \/ k = k_module_id -> is = twice_symbols k -> exists cs calls,
  compile ex_config 0 (twice k) = Some cs /\ NoDup (map fst (body_scopes scopes [] (twice k))) /\
  good_generate opts nothing (map (line_of true) is) is (made opts nothing (map (line_of true) is)) /\ symbols_of x64 ex_values same_site ex_config 0 cs = is /\
  good_execution x64 ex_values same_site (twice k) (fst twice_run) (snd twice_run) /\
  run_calls x64 ex_values same_site ex_config 0 cs [fst twice_run] = Some calls /\ program x64 (made opts nothing (map (line_of true) is)) calls = None.
Proof.
  assert (A : SymbolSpec.arg_ok "encode_32<int>") by (apply (arg_plain "encode_32" "int"); repeat split; reflexivity).
  intros Hk His. destruct (compile ex_config 0 (twice k)) as [cs|] eqn:Ec; [|destruct Hk; subst k; discriminate].
  destruct (run_calls x64 ex_values same_site ex_config 0 cs [fst twice_run]) as [calls|] eqn:Er; [|destruct Hk; subst k; injection Ec as <-; discriminate].
  exists cs, calls. split; [reflexivity|]. split; [repeat constructor; cbn; lia|]. 
  assert (Ei : is = [IMessage (msg "port {}" ["encode_32<int>"%string] (if k =? k_string_id then 40 else -1)); IModule (if k =? k_module_id then {| so_text := codes "default"; so_id := 9; so_suffix := "" |} else mod_ "default");
    IMessage (msg "port {}" ["encode_32<int>"%string] (-1)); IModule (mod_ "default")]) by (subst is; destruct Hk; subst k; vm_compute; reflexivity).
  split; [split; [exists true|split; [|split; [|split; [constructor; [intros []|constructor]|split; [reflexivity|]]]]]|split; [|split; [|split]]].
  - rewrite Ei. destruct Hk; subst k; cbn [map Nat.eqb k_string_id k_module_id];
    repeat match goal with |- listing true (line_of true ?i :: _) _ => sym i; [first [reflexivity|split; [repeat (constructor; auto)|reflexivity]]|] end; constructor.
  - rewrite Ei. destruct Hk; subst k; reflexivity.
  - rewrite Ei. destruct Hk; subst k; (split; [|split; [|split]]).
    all: try (intros a b Ha Hb; cbn in Ha, Hb; all_cases; vm_compute; intros; congruence).
    all: intros m Hm Hi; (split; [intros s i (x & [] & _)|]); intros m' Hm' Hi'; cbn in Hm, Hm'; all_cases; vm_compute in Hi, Hi' |- *; try congruence; tauto.
  - rewrite Ei. unfold made. destruct Hk; subst k; (match goal with |- generate ?o ?j ?l = _ => destruct (generate o j l) eqn:E; [reflexivity|vm_compute in E; discriminate] end).
  - subst is. unfold twice_symbols. rewrite Ec. reflexivity.
  - split.
    + eexists. split; [left; reflexivity|]. split; [intros l Hl; apply query_setting in Hl; destruct Hk; subst k; vm_compute in Hl; injection Hl as <-; lia|intros u Hu; cbn; lia].
    + split; [repeat constructor; apply braceless_b; reflexivity|]. split; [reflexivity|]. split; [reflexivity|]. split; [reflexivity|]. split; [apply unmentioned; reflexivity|].
      constructor; [|constructor]. split; [exact I|]. split; [exact I|]. split; [split; [reflexivity|discriminate]|]. split; [repeat split; discriminate|exact I].
  - exact Er.
  - rewrite Ei. destruct Hk; subst k; injection Ec as <-; injection Er as <-; vm_compute; reflexivity.
Qed.
Theorem C105_refuted : exists src cs calls sites x ps is g lines, compile ex_config 0 src = Some cs /\ NoDup (map fst (body_scopes scopes [] src)) /\
  good_generate opts nothing lines is g /\ symbols_of x64 ex_values sites ex_config 0 cs = is /\ good_execution x64 ex_values sites src x ps /\
  run_calls x64 ex_values sites ex_config 0 cs [x] = Some calls /\ program x64 g calls = None.
Proof. destruct (twice_refuted k_string_id _ (or_introl eq_refl) eq_refl) as (cs & calls & H). do 9 eexists. exact H. Qed.
Print Assumptions C105_refuted.
Theorem C105_module_refuted : exists src cs calls sites x ps is g lines, compile ex_config 0 src = Some cs /\ NoDup (map fst (body_scopes scopes [] src)) /\
  good_generate opts nothing lines is g /\ symbols_of x64 ex_values sites ex_config 0 cs = is /\ good_execution x64 ex_values sites src x ps /\
  run_calls x64 ex_values sites ex_config 0 cs [x] = Some calls /\ program x64 g calls = None.
Proof. destruct (twice_refuted k_module_id _ (or_intror eq_refl) eq_refl) as (cs & calls & H). do 9 eexists. exact H. Qed.
Print Assumptions C105_module_refuted.

(** ** C106: the logs of several threads *)
(** Threads execute calls of the source at the same time, their packets go to the
    same destinations. At any time at which no thread is writing to a destination,
    the decoder makes of what the destination has got the lines of the first calls
    of each thread, in order, mixed in some way. *)
Theorem C106_any_time ft turns p vs sites config lg src cs o j lines is g (xs : nat -> list (execution * list part)) (msgs : nat -> list (list N)) dests s d ty :
  compile config lg src = Some cs -> NoDup (map fst (body_scopes scopes [] src)) ->
  good_generate o j lines is g -> (forall i, In i (symbols_of p vs sites config lg cs) -> In i is) -> consistent j -> good_symbols is -> ids_fit g ->
  (forall t, Forall (fun x => good_execution p vs sites src (fst x) (snd x)) (xs t)) ->
  (forall t calls, run_calls p vs sites config lg cs (map fst (xs t)) = Some calls -> Forall2 (fun c b => send p g c = Some b) calls (msgs t)) ->
  NoDup (map d_sink dests) -> (forall d, In d dests -> d_type d <> None) -> reachable (fun t => flat_map (log_writes dests) (msgs t)) s ->
  In d dests -> d_type d = Some ty -> locks s ty = None ->
  exists h : list (nat * string), decode ft turns (g_json g) (sinks s (d_sink d)) = (map snd h, false) /\
    forall t, exists done later, xs t = done ++ later /\
      shown_lines (fun x ps ds l => match s_types (sites (x_call x)) with [] => l = format_text ps | _ => source_line p (o_enums o) vs (sites (x_call x)) ds x ps l end) config lg src done (map snd (filter (fun x => fst x =? t) h)).
Proof.
  intros Hc Hn G I C S F Hx Hm N T R Hd Ht L. destruct (sink_prefix dests msgs s N T R d ty Hd Ht L) as (hp & Hp & E).
  set (line := fun (cp : log_call * list part) l => match l_args (fst cp) with [] => l = format_text (snd cp) | _ => call_line p (o_enums o) (fst cp) (snd cp) l end).
  destruct (lift_history (fun (cp : log_call * list part) b => send p g (fst cp) = Some b) hp
    (fun t cps => Forall (fun cp => good_call p (fst cp) (snd cp) /\ In (IMessage (l_message (fst cp))) (symbols_of p vs sites config lg cs) /\ In (IModule (l_module (fst cp))) (symbols_of p vs sites config lg cs)) cps /\
      forall ls, Forall2 line cps ls -> exists done later, xs t = done ++ later /\ shown_lines (exact_line p vs sites (o_enums o)) config lg src done ls)) as (hc & F2 & Hq).
  { intros t. destruct (Hp t) as (later & El). destruct (executions_prefix p vs sites config lg src cs Hc Hn (o_enums o) (xs t) (Hx t)) as (cps & Rc & Kc & Sc). specialize (Sc (length (part_of t hp))).
    specialize (Hm t _ Rc). rewrite <- El in Hm. assert (Hm' : Forall2 (fun cp b => send p g (fst cp) = Some b) cps (part_of t hp ++ later)).
    { clear - Hm. revert Hm. generalize (part_of t hp ++ later). induction cps as [|a cps IH]; intros l H; cbn [map] in H; inversion H; subst; constructor; auto. }
    apply Forall2_app_inv_r in Hm' as (c1 & c2 & H1 & _ & ->). assert (Lc : length c1 = length (part_of t hp)) by (clear - H1; induction H1; cbn; auto).
    rewrite firstn_app, <- Lc, firstn_all, Nat.sub_diag, firstn_O, app_nil_r in Sc. exists c1. split; [split|exact H1].
    - apply Forall_app in Kc as [Kc _]. exact Kc.
    - exact Sc. }
  destruct (C103_exact ft turns p o j lines is g (map snd hc) G C S F) as (bytes & ls & P & D & Ls).
  { apply Forall_forall. intros cp Hin. apply in_map_iff in Hin as (c & <- & Hin). destruct (Hq (fst c)) as [K _]. rewrite Forall_forall in K. destruct (K _ (part_in _ _ Hin)) as (K1 & K2 & K3). auto. }
  assert (bytes = sinks s (d_sink d)).
  { rewrite E. clear - P F2. revert bytes P. induction F2 as [|[t1 c] [t2 b] hc hp [_ H] _ IH]; intros bytes P; cbn [map snd fst program concat] in *; [congruence|]. rewrite H in P. destruct (program p g (map fst (map snd hc))) as [r|]; [|discriminate]. injection P as <-. rewrite (IH r eq_refl). reflexivity. }
  subst bytes. destruct (part_combine line hc ls Ls) as (h & Eh & Fh). exists h. split; [rewrite Eh; exact D|]. intros t. destruct (Hq t) as [_ Sq]. apply (Sq _ (Fh t)).
Qed.
Print Assumptions C106_any_time.
(** When all threads are done, each thread's lines are all there. *)
Theorem C106_exact ft turns p vs sites config lg src cs o j lines is g (xs : nat -> list (execution * list part)) (msgs : nat -> list (list N)) dests s d :
  compile config lg src = Some cs -> NoDup (map fst (body_scopes scopes [] src)) ->
  good_generate o j lines is g -> (forall i, In i (symbols_of p vs sites config lg cs) -> In i is) -> consistent j -> good_symbols is -> ids_fit g ->
  (forall t, Forall (fun x => good_execution p vs sites src (fst x) (snd x)) (xs t)) ->
  (forall t calls, run_calls p vs sites config lg cs (map fst (xs t)) = Some calls -> Forall2 (fun c b => send p g c = Some b) calls (msgs t)) ->
  NoDup (map d_sink dests) -> (forall d, In d dests -> d_type d <> None) -> reachable (fun t => flat_map (log_writes dests) (msgs t)) s ->
  finished s -> In d dests ->
  exists h : list (nat * string), decode ft turns (g_json g) (sinks s (d_sink d)) = (map snd h, false) /\
    forall t, shown_lines (fun x ps ds l => match s_types (sites (x_call x)) with [] => l = format_text ps | _ => source_line p (o_enums o) vs (sites (x_call x)) ds x ps l end) config lg src (xs t) (map snd (filter (fun x => fst x =? t) h)).
Proof.
  intros Hc Hn G I C S F Hx Hm N T R Fi Hd. destruct (C67_everywhere dests msgs s N T R Fi d Hd) as (hp & Hp & E).
  set (line := fun (cp : log_call * list part) l => match l_args (fst cp) with [] => l = format_text (snd cp) | _ => call_line p (o_enums o) (fst cp) (snd cp) l end).
  destruct (lift_history (fun (cp : log_call * list part) b => send p g (fst cp) = Some b) hp
    (fun t cps => Forall (fun cp => good_call p (fst cp) (snd cp) /\ In (IMessage (l_message (fst cp))) (symbols_of p vs sites config lg cs) /\ In (IModule (l_module (fst cp))) (symbols_of p vs sites config lg cs)) cps /\
      forall ls, Forall2 line cps ls -> shown_lines (exact_line p vs sites (o_enums o)) config lg src (xs t) ls)) as (hc & F2 & Hq).
  { intros t. destruct (executions_calls p vs sites config lg src cs Hc Hn (o_enums o) (xs t) (Hx t)) as (cps & Rc & Kc & Sc). exists cps. split; [split; auto|].
    specialize (Hm t _ Rc). fold (part_of t hp) in Hp. unfold part_of. rewrite Hp. clear - Hm. revert Hm. generalize (msgs t). induction cps as [|a cps IH]; intros l H; cbn [map] in H; inversion H; subst; constructor; auto. }
  destruct (C103_exact ft turns p o j lines is g (map snd hc) G C S F) as (bytes & ls & P & D & Ls).
  { apply Forall_forall. intros cp Hin. apply in_map_iff in Hin as (c & <- & Hin). destruct (Hq (fst c)) as [K _]. rewrite Forall_forall in K. destruct (K _ (part_in _ _ Hin)) as (K1 & K2 & K3). auto. }
  assert (bytes = sinks s (d_sink d)).
  { rewrite E. clear - P F2. revert bytes P. induction F2 as [|[t1 c] [t2 b] hc hp [_ H] _ IH]; intros bytes P; cbn [map snd fst program concat] in *; [congruence|]. rewrite H in P. destruct (program p g (map fst (map snd hc))) as [r|]; [|discriminate]. injection P as <-. rewrite (IH r eq_refl). reflexivity. }
  subst bytes. destruct (part_combine line hc ls Ls) as (h & Eh & Fh). exists h. split; [rewrite Eh; exact D|]. intros t. destruct (Hq t) as [_ Sq]. apply (Sq _ (Fh t)).
Qed.
Print Assumptions C106_exact.
(** Two threads, one destination: the second thread's line comes between the two of
    the first. *)
Definition ex_threads (t : nat) : list (execution * list part) := match t with 0 => firstn 2 ex_run | 1 => firstn 2 (skipn 2 ex_run) | _ => [] end.
Definition ex_packets (t : nat) : list (list N) :=
  match run_calls x64 ex_values ex_sites ex_config 0 ex_calls (map fst (ex_threads t)) with Some l => map (fun c => sent_bytes ex_build [c]) l | None => [] end.
Definition ex_port : dest := {| d_type := Some 0; d_sink := 0 |}.
Lemma maps_all {A B} (f : A -> option B) (h : A -> B) l : map f l = map (fun c => Some (h c)) l -> Forall2 (fun c b => f c = Some b) l (map h l).
Proof. induction l as [|c l IH]; cbn [map]; intros E; [constructor|]. injection E as E1 E2. constructor; auto. Qed.
Example C106_case : (forall t, Forall (fun x => good_execution x64 ex_values ex_sites ex_src (fst x) (snd x)) (ex_threads t)) /\
  (forall t calls, run_calls x64 ex_values ex_sites ex_config 0 ex_calls (map fst (ex_threads t)) = Some calls -> Forall2 (fun c b => send x64 ex_build c = Some b) calls (ex_packets t)) /\
  NoDup (map d_sink [ex_port]) /\ exists s, reachable (fun t => flat_map (log_writes [ex_port]) (ex_packets t)) s /\ finished s /\
  decode (fun _ => EmptyString) 0 (g_json ex_build) (sinks s 0) = (["INFO [default] got 5 of {7}"; "WARN [net] got 8 of {9}"; "TRACE [usb] port -1"], false)%string.
Proof.
  assert (R : Forall (fun x => good_execution x64 ex_values ex_sites ex_src (fst x) (snd x)) ex_run) by apply ex_run_ok.
  split; [|split; [|split; [repeat constructor; intros []|]]].
  - intros [|[|t]]; cbn [ex_threads]; [| |constructor].
    + apply Forall_forall. intros x Hx. rewrite Forall_forall in R. apply R. destruct Hx as [<-|[<-|[]]]; cbn; auto.
    + apply Forall_forall. intros x Hx. rewrite Forall_forall in R. apply R. destruct Hx as [<-|[<-|[]]]; cbn; auto.
  - intros t calls E. unfold ex_packets. rewrite E. assert (B : map (send x64 ex_build) calls = map (fun c => Some (sent_bytes ex_build [c])) calls).
    { destruct t as [|[|t]]; [| |cbn in E; injection E as <-; reflexivity].
      - assert (X : option_map (map (send x64 ex_build)) (run_calls x64 ex_values ex_sites ex_config 0 ex_calls (map fst (ex_threads 0))) = option_map (map (fun c => Some (sent_bytes ex_build [c]))) (run_calls x64 ex_values ex_sites ex_config 0 ex_calls (map fst (ex_threads 0)))) by (vm_compute; reflexivity).
        rewrite E in X. injection X as X. exact X.
      - assert (X : option_map (map (send x64 ex_build)) (run_calls x64 ex_values ex_sites ex_config 0 ex_calls (map fst (ex_threads 1))) = option_map (map (fun c => Some (sent_bytes ex_build [c]))) (run_calls x64 ex_values ex_sites ex_config 0 ex_calls (map fst (ex_threads 1)))) by (vm_compute; reflexivity).
        rewrite E in X. injection X as X. exact X. }
    exact (maps_all _ (fun c => sent_bytes ex_build [c]) _ B).
  - destruct (exec_all_ok (fun t => flat_map (log_writes [ex_port]) (ex_packets t)) (repeat 0 18 ++ repeat 1 18 ++ repeat 0 14) (fun s => (decode (fun _ => EmptyString) 0 (g_json ex_build) (sinks s 0), threads s 0, threads s 1))
      ((["INFO [default] got 5 of {7}"; "WARN [net] got 8 of {9}"; "TRACE [usb] port -1"], false)%string, {| t_phase := Idle; t_todo := [] |}, {| t_phase := Idle; t_todo := [] |})) as (s & Rs & E & Ht).
    { vm_compute. reflexivity. }
    apply pair_equal_spec in E as [E E3]. apply pair_equal_spec in E as [E1 E2]. exists s. split; [exact Rs|]. split; [|exact E1]. intros [|[|t]]; [exact E2|exact E3|]. rewrite Ht; [reflexivity|]. intros Hin. apply in_app_or in Hin as [Hin|Hin]; [apply repeat_spec in Hin; discriminate|]. apply in_app_or in Hin as [Hin|Hin]; apply repeat_spec in Hin; discriminate.
Qed.

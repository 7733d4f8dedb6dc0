(** The CMake function that runs the generator: what of a call reaches it, and when it is run. *)
From Coq Require Import String Ascii Bool Arith List ZArith Permutation Lia.
From Verif Require Import CatalogModel GenModel GenSpec WrapModel WrapSpec WrapProofs.
Import ListNotations.
Local Open Scope string_scope.

(** ** C142: what a call of gen_str_catalog says reaches the generator *)
(** In whatever order it is said, if all values are plain and none of the optional ones is
    one of CMake's words for no. *)
Theorem C142_partial : forall outer real dir python r argn script m l,
  says r argn -> good_call outer real dir python r ->
  (forall v, In v (flat_map (fun o => match o with Some v => [v] | None => [] end) [q_script r; q_client r; q_version r; q_guid_id r; q_guid_mask r; q_module_max r; q_reserved r]) -> ~ means_no v) ->
  match q_script r with Some v => script = v | None => outer "GEN_STR_CATALOG" = [script] end -> plain script ->
  match q_module_max r with Some v => int10 v = Some m | None => m = 127%Z end -> match q_reserved r with Some v => intervals v = Some l | None => l = [] end ->
  exists p, generator_run outer real dir python argn = Some (script, Some p) /\
    g_input p = map (symbols_file dir) (q_libs r) /\ g_json_input p = map real (q_json_input r) /\ g_headers p = map real (q_headers r) /\ g_stable p = map real (q_stable r) /\
    g_cpp p = Some (q_cpp r) /\ g_json p = Some (q_json r) /\ g_xml p = Some (q_xml r) /\ g_forget p = q_forget r /\ g_module_max p = m /\ g_reserved p = l /\
    g_client p = match q_client r with Some v => v | None => "CIB Framework FW" end /\ g_version p = match q_version r with Some v => v | None => "VERSION" end /\
    g_guid_id p = match q_guid_id r with Some v => v | None => "00000000-0017-0001-0000-000000000000" end /\
    g_guid_mask p = match q_guid_mask r with Some v => v | None => "00000000-FFFF-FFFF-8000-000000000000" end.
Proof.
  intros outer real dir python r argn script m l Hs G Hno Hc Pc Hm Hl.
  assert (K : forall o, In o [q_script r; q_client r; q_version r; q_guid_id r; q_guid_mask r; q_module_max r; q_reserved r] -> kept_if o = o).
  { intros [v|] Ho; [|reflexivity]. cbn. destruct (is_off v) eqn:E; [|reflexivity]. exfalso. apply (Hno v); [|now apply off_iff].
    apply in_flat_map. exists (Some v). split; [exact Ho|left; reflexivity]. }
  rewrite (run_said outer real dir python r argn script Hs G); [|unfold script_of; rewrite (K (q_script r)) by (cbn; tauto); destruct (q_script r); [now subst|exact Hc]|exact Pc].
  rewrite (K (q_client r)), (K (q_version r)), (K (q_guid_id r)), (K (q_guid_mask r)), (K (q_module_max r)), (K (q_reserved r)) by (cbn; tauto).
  unfold program_for. assert (E1 : match q_module_max r with Some v => int10 v | None => Some 127%Z end = Some m) by (destruct (q_module_max r); [exact Hm|now subst]).
  assert (E2 : intervals (or_default "" (q_reserved r)) = Some l) by (destruct (q_reserved r); [exact Hl|subst; reflexivity]). rewrite E1, E2.
  eexists. split; [reflexivity|]. cbn. destruct (q_client r), (q_version r), (q_guid_id r), (q_guid_mask r); repeat split.
Qed.
Print Assumptions C142_partial.
(** A word for no drops the option, and the program uses its default. *)
Theorem C142_exact : forall outer real dir python r argn script given client version guid_id guid_mask module_max reserved,
  says r argn -> good_call outer real dir python r ->
  heeded (q_script r) given -> match given with Some v => script = v | None => outer "GEN_STR_CATALOG" = [script] end -> plain script ->
  heeded (q_client r) client -> heeded (q_version r) version -> heeded (q_guid_id r) guid_id -> heeded (q_guid_mask r) guid_mask ->
  heeded (q_module_max r) module_max -> heeded (q_reserved r) reserved ->
  generator_run outer real dir python argn = Some (script,
    match match module_max with Some v => int10 v | None => Some 127%Z end, match reserved with Some v => intervals v | None => Some [] end with
    | Some m, Some l =>
      Some {| g_input := map (symbols_file dir) (q_libs r); g_cpp := Some (q_cpp r); g_json := Some (q_json r); g_xml := Some (q_xml r);
              g_json_input := map real (q_json_input r); g_headers := map real (q_headers r); g_stable := map real (q_stable r); g_forget := q_forget r;
              g_client := match client with Some v => v | None => "CIB Framework FW" end; g_version := match version with Some v => v | None => "VERSION" end;
              g_guid_id := match guid_id with Some v => v | None => "00000000-0017-0001-0000-000000000000" end;
              g_guid_mask := match guid_mask with Some v => v | None => "00000000-FFFF-FFFF-8000-000000000000" end;
              g_module_max := m; g_reserved := l |}
    | _, _ => None
    end).
Proof.
  intros outer real dir python r argn script given client version guid_id guid_mask module_max reserved Hs G H0 Hc Pc H1 H2 H3 H4 H5 H6.
  apply heeded_kept in H0, H1, H2, H3, H4, H5, H6. subst.
  rewrite (run_said outer real dir python r argn script Hs G); [|unfold script_of; destruct (kept_if (q_script r)); [now subst|exact Hc]|exact Pc].
  unfold program_for, or_default. destruct (kept_if (q_reserved r)); reflexivity.
Qed.
Print Assumptions C142_exact.

(** *** A call *)
Definition no_variables (x : string) : list string := if x =? "GEN_STR_CATALOG" then ["/src/gen_str_catalog.py"] else [].
Definition in_source (f : string) : string := "/src/" ++ f.
Definition a_request (reserved client : option string) : request :=
  {| q_cpp := "/b/strings.cpp"; q_json := "/b/strings.json"; q_xml := "/b/strings.xml"; q_libs := ["lib1"; "lib2"];
     q_json_input := ["extra.json"]; q_headers := ["enums.hpp"]; q_stable := ["old.json"; "older.json"]; q_client := client; q_version := Some "test version";
     q_guid_id := None; q_guid_mask := Some "ffffffff"; q_module_max := Some "63"; q_reserved := reserved; q_script := None; q_lib := None; q_target := Some "all_strings"; q_forget := true |}.
(** The keywords, the last first. *)
Definition a_call (r : request) : list string := concat (rev (flat_map phrase (said r))).
Lemma a_call_says r : says r (a_call r).
Proof. exists (rev (flat_map phrase (said r))). split; [symmetry; apply Permutation_rev|reflexivity]. Qed.
Lemma undash v : dashed v = false -> undashed v.
Proof. apply undashed_iff. Qed.
Lemma good_values vs : forallb (fun v => plainb v && negb (dashed v) && negb (listed keywords v))%bool vs = true -> forall v, In v vs -> good_value v.
Proof.
  intros H v Hv. rewrite forallb_forall in H. specialize (H v Hv). rewrite !andb_true_iff, !negb_true_iff in H. destruct H as [[H1 H2] H3].
  split; [now apply plainb_ok|]. split; [now apply undash|]. intros K. assert (X : listed keywords v = true) by (apply existsb_exists; exists v; split; [exact K|apply String.eqb_refl]). congruence.
Qed.
Lemma a_call_good r : forallb (fun v => plainb v && negb (dashed v) && negb (listed keywords v))%bool (all_values r) = true -> q_libs r <> [] ->
  forallb (fun v => plainb (in_source v) && negb (dashed (in_source v)))%bool (q_json_input r ++ q_headers r ++ q_stable r) = true ->
  good_call no_variables in_source "/b" "/usr/bin/python3" r.
Proof.
  intros V L R. split; [intros x Hx; unfold leaks in Hx; cbn [In] in Hx; repeat (destruct Hx as [<-|Hx]; [reflexivity|]); destruct Hx|].
  split; [exact (good_values _ V)|]. split; [exact L|]. split; [apply plainb_ok; reflexivity|]. split; [apply undash; reflexivity|]. split; [apply plainb_ok; reflexivity|].
  intros v Hv. rewrite forallb_forall in R. specialize (R v Hv). rewrite andb_true_iff, negb_true_iff in R. split; [apply plainb_ok; tauto|apply undash; tauto].
Qed.
Example C142_case : let r := a_request (Some "1,1000-1005") (Some "my firmware") in
  says r (a_call r) /\ good_call no_variables in_source "/b" "/usr/bin/python3" r /\
  (forall v, In v ["test version"; "ffffffff"; "63"; "1,1000-1005"; "my firmware"] -> ~ means_no v) /\
  exists p, generator_run no_variables in_source "/b" "/usr/bin/python3" (a_call r) = Some ("/src/gen_str_catalog.py", Some p) /\
    g_reserved p = [(1, 1); (1000, 1005)]%Z /\ g_module_max p = 63%Z /\ g_client p = "my firmware" /\ g_guid_id p = "00000000-0017-0001-0000-000000000000" /\
    g_stable p = ["/src/old.json"; "/src/older.json"] /\ g_input p = ["/b/undefined_symbols_lib1.txt"; "/b/undefined_symbols_lib2.txt"] /\ g_forget p = true.
Proof.
  split; [apply a_call_says|]. split; [apply a_call_good; try reflexivity; discriminate|]. split.
  - intros v Hv X. apply off_iff in X. cbn [In] in Hv. repeat (destruct Hv as [<-|Hv]; [discriminate|]). destruct Hv.
  - eexists. split; [vm_compute; reflexivity|]. repeat split.
Qed.
(** A value given again at the end of a call wins over those before it. *)
Theorem C142_override : forall k v argn, In k one_words -> v <> "" -> ~ In v keywords -> one k (arguments (argn ++ [k; v])) = Some v.
Proof.
  intros k v argn Hk Hv Hn.
  assert (K : listed option_words k = false /\ (listed one_words k || listed multi_words k)%bool = true /\ k <> "").
  { unfold one_words in Hk. cbn [In] in Hk. repeat (destruct Hk as [<-|Hk]; [repeat split; discriminate|]). destruct Hk. }
  assert (V : listed option_words v = false /\ (listed one_words v || listed multi_words v)%bool = false).
  { assert (X : forall ws, incl ws keywords -> listed ws v = false).
    { intros ws Hw. destruct (listed ws v) eqn:E; [|reflexivity]. exfalso. apply existsb_exists in E as (w & Hw' & E). apply String.eqb_eq in E as <-. apply Hn, Hw, Hw'. }
    rewrite !X; [split; reflexivity|..]; intros w Hw; cbn [option_words one_words multi_words In] in Hw; unfold keywords; cbn; tauto. }
  destruct K as (K1 & K2 & K3), V as (V1 & V2). unfold arguments. rewrite filter_app. cbn [filter].
  apply String.eqb_neq in K3, Hv. rewrite K3, Hv. cbn [negb]. generalize (@None string). generalize (filter (fun t => negb (t =? "")) argn). intros ts.
  assert (R : forall o, exists a, read_words o (ts ++ [k; v]) = (a ++ [(k, None); (k, Some v)])%list).
  { induction ts as [|t ts IH]; intros o.
    - exists []. cbn [app read_words]. rewrite K1, K2, V1, V2. reflexivity.
    - cbn [app read_words]. destruct (listed option_words t); [destruct (IH None) as [a ->]; now exists ((t, None) :: a)|].
      destruct (listed one_words t || listed multi_words t)%bool; [destruct (IH (Some t)) as [a ->]; now exists ((t, None) :: a)|].
      destruct o as [o|]; [destruct (IH (if listed one_words o then None else Some o)) as [a ->]; now exists ((o, Some t) :: a)|apply IH]. }
  intros o. destruct (R o) as [a ->]. unfold one, many. rewrite flat_map_app. cbn. rewrite String.eqb_refl. cbn. rewrite rev_app_distr. reflexivity.
Qed.
Print Assumptions C142_override.
Example C142_override_case : one "VERSION" (arguments ["VERSION"; "1.0"; "FORGET_OLD_IDS"; "VERSION"; "2.0"]) = Some "2.0".
Proof. reflexivity. Qed.
(** To reserve the id 0, or to allow only the module id 0, is to ask for nothing. *)
Theorem C142_refuted : exists outer real dir python r argn script p,
  says r argn /\ good_call outer real dir python r /\ q_reserved r = Some "0" /\ intervals "0" = Some [(0, 0)]%Z /\
  generator_run outer real dir python argn = Some (script, Some p) /\ g_reserved p = [].
Proof.
  exists no_variables, in_source, "/b", "/usr/bin/python3", (a_request (Some "0") None), (a_call (a_request (Some "0") None)). eexists. eexists.
  split; [apply a_call_says|]. split; [apply a_call_good; try reflexivity; discriminate|]. split; [reflexivity|]. split; [reflexivity|]. split; [vm_compute; reflexivity|reflexivity].
Qed.
Print Assumptions C142_refuted.
Theorem C142_module_max_refuted : exists outer real dir python r argn script p,
  says r argn /\ good_call outer real dir python r /\ q_module_max r = Some "0" /\ int10 "0" = Some 0%Z /\
  generator_run outer real dir python argn = Some (script, Some p) /\ g_module_max p = 127%Z.
Proof.
  set (r := {| q_cpp := "a.cpp"; q_json := "a.json"; q_xml := "a.xml"; q_libs := ["lib"]; q_json_input := []; q_headers := []; q_stable := []; q_client := None; q_version := None;
     q_guid_id := None; q_guid_mask := None; q_module_max := Some "0"; q_reserved := None; q_script := None; q_lib := None; q_target := None; q_forget := false |}).
  exists no_variables, in_source, "/b", "/usr/bin/python3", r, (a_call r). eexists. eexists.
  split; [apply a_call_says|]. split; [apply a_call_good; try reflexivity; discriminate|]. split; [reflexivity|]. split; [reflexivity|]. split; [vm_compute; reflexivity|reflexivity].
Qed.
Print Assumptions C142_module_max_refuted.
(** The values must be plain: what follows an ampersand is another command, and the ids reserved
    are lost. *)
Theorem C142_shell_refuted : exists outer real dir python r argn script p,
  says r argn /\ q_client r = Some "R&D" /\ q_reserved r = Some "1-5" /\ (forall v, In v (all_values r) -> good_value v \/ v = "R&D") /\
  generator_run outer real dir python argn = Some (script, Some p) /\ g_client p = "R" /\ g_reserved p = [].
Proof.
  exists no_variables, in_source, "/b", "/usr/bin/python3", (a_request (Some "1-5") (Some "R&D")), (a_call (a_request (Some "1-5") (Some "R&D"))). eexists. eexists.
  split; [apply a_call_says|]. split; [reflexivity|]. split; [reflexivity|]. split.
  - intros v Hv. destruct (v =? "R&D") eqn:E; [right; now apply String.eqb_eq|left].
    apply (good_values (filter (fun v => negb (v =? "R&D")) (all_values (a_request (Some "1-5") (Some "R&D"))))); [reflexivity|]. apply filter_In. rewrite E. auto.
  - split; [vm_compute; reflexivity|]. split; reflexivity.
Qed.
Print Assumptions C142_shell_refuted.
(** The variables of the caller must be others: one called STABLE_JSON goes to the generator though
    the call does not say so. *)
Theorem C142_scope_refuted : exists outer real dir python r argn script p,
  says r argn /\ q_stable r = [] /\ (forall v, In v (all_values r) -> good_value v) /\ (forall x, In x leaks -> x <> "STABLE_JSON" -> outer x = []) /\
  generator_run outer real dir python argn = Some (script, Some p) /\ g_stable p = ["mine.json"].
Proof.
  set (r := {| q_cpp := "a.cpp"; q_json := "a.json"; q_xml := "a.xml"; q_libs := ["lib"]; q_json_input := []; q_headers := []; q_stable := []; q_client := None; q_version := None;
     q_guid_id := None; q_guid_mask := None; q_module_max := None; q_reserved := None; q_script := None; q_lib := None; q_target := None; q_forget := false |}).
  exists (fun x => if x =? "STABLE_JSON" then ["mine.json"] else no_variables x), in_source, "/b", "/usr/bin/python3", r, (a_call r). eexists. eexists.
  split; [apply a_call_says|]. split; [reflexivity|]. split; [apply good_values; reflexivity|]. split.
  - intros x Hx Hn. destruct (x =? "STABLE_JSON") eqn:E; [apply String.eqb_eq in E; contradiction|]. unfold leaks in Hx. cbn [In] in Hx. repeat (destruct Hx as [<-|Hx]; [reflexivity|]). destruct Hx.
  - split; [vm_compute; reflexivity|reflexivity].
Qed.
Print Assumptions C142_scope_refuted.

(** ** C143: after a build the files are those the generator makes of what it reads now *)
Definition all_read (undefs input_json headers stable : list string) (script : string) : list string := (undefs ++ input_json ++ headers ++ stable ++ [script])%list.
(** After any history of edits and builds that ends with a build, if between two builds a header
    is edited only along with one of the other files. *)
Theorem C143_partial : forall undefs input_json headers stable script gen t ss,
  let deps := depends undefs input_json stable script in let reads := all_read undefs input_json headers stable script in
  nothing_made t -> covered deps reads true False False ss -> ss <> [] -> last ss Build = Build -> up_to_date reads gen (history deps reads gen t ss).
Proof.
  intros undefs input_json headers stable script gen t ss deps reads [M C] Hc Hne Hl.
  apply (history_covered deps reads gen ss t true False False); auto; [intros m o E; rewrite M in E; discriminate|discriminate].
Qed.
Print Assumptions C143_partial.
(** So always, when there are no headers. *)
Theorem C143_no_headers : forall undefs input_json stable script gen t ss,
  let deps := depends undefs input_json stable script in let reads := all_read undefs input_json [] stable script in
  nothing_made t -> ss <> [] -> last ss Build = Build -> up_to_date reads gen (history deps reads gen t ss).
Proof.
  intros undefs input_json stable script gen t ss deps reads Hm Hne Hl. apply C143_partial; auto.
  assert (X : forall first (other dep : Prop), (other -> dep) -> covered deps reads first other dep ss).
  { clear. induction ss as [|[f text|] ss IH]; intros first other dep H; cbn [covered]; [exact I| |split; [auto|apply IH; tauto]].
    apply IH. intros [A|[A B]]; [auto|]. exfalso. apply B. unfold deps, reads, depends, all_read in *. rewrite !in_app_iff in *. cbn in *. tauto. }
  apply X. tauto.
Qed.
Print Assumptions C143_no_headers.
(** What is edited without being a dependency is not noticed. *)
Theorem C143_exact : forall deps reads gen t es, let t1 := build deps reads gen t in
  (forall f, changed_at t f <= now t) -> (forall m o, made t = Some (m, o) -> m <= now t) ->
  (forall f text, In (Edit f text) es -> ~ In f deps) -> (forall s, In s es -> s <> Build) ->
  made (history deps reads gen t1 (es ++ [Build])) = made t1.
Proof.
  intros deps reads gen t es t1 H1 H2 He Hb.
  assert (Hm : exists m o, made t1 = Some (m, o) /\ forall f, In f deps -> changed_at t1 f <= m).
  { unfold t1, build. destruct (made t) as [[m o]|] eqn:E.
    - destruct (forallb _ deps) eqn:F.
      + exists m, o. split; [exact E|]. intros f Hf. rewrite forallb_forall in F. apply Nat.leb_le, F, Hf.
      + cbn. eexists. eexists. split; [reflexivity|]. intros f _. specialize (H1 f). lia.
    - cbn. eexists. eexists. split; [reflexivity|]. intros f _. specialize (H1 f). lia. }
  clearbody t1. clear H1 H2 t. destruct Hm as (m & o & M & C). rewrite M.
  unfold history. rewrite fold_left_app. cbn [fold_left do_step].
  assert (X : forall es t1, (forall f text, In (Edit f text) es -> ~ In f deps) -> (forall s, In s es -> s <> Build) -> made t1 = Some (m, o) -> (forall f, In f deps -> changed_at t1 f <= m) ->
    made (fold_left (do_step deps reads gen) es t1) = Some (m, o) /\ forall f, In f deps -> changed_at (fold_left (do_step deps reads gen) es t1) f <= m).
  { clear. induction es as [|s es IH]; intros t1 He Hb M C; [auto|]. cbn [fold_left]. apply IH.
    - intros f text H. apply (He f text). right. exact H.
    - intros s' H. apply Hb. right. exact H.
    - destruct s as [f text|]; [exact M|]. exfalso. apply (Hb Build); [left|]; reflexivity.
    - intros g Hg. destruct s as [f text|]; [|exfalso; apply (Hb Build); [left|]; reflexivity]. cbn. destruct (g =? f) eqn:E; [|auto].
      apply String.eqb_eq in E. subst g. exfalso. apply (He f text); [left; reflexivity|exact Hg]. }
  destruct (X es t1 He Hb M C) as [M' C']. unfold build. rewrite M'.
  replace (forallb _ deps) with true; [exact M'|]. symmetry. apply forallb_forall. intros f Hf. apply Nat.leb_le. auto.
Qed.
Print Assumptions C143_exact.
(** An enumeration is edited in a header and the build is run again: the catalog still has the names
    of before. *)
Theorem C143_refuted : exists undefs input_json headers stable script gen t ss,
  nothing_made t /\ last ss Build = Build /\
  ~ up_to_date (all_read undefs input_json headers stable script) gen
      (history (depends undefs input_json stable script) (all_read undefs input_json headers stable script) gen t ss).
Proof.
  exists ["lib.txt"], [], ["enums.hpp"], ["old.json"], "gen.py", (fun l => l),
    {| contents := fun f => if f =? "enums.hpp" then "enum E { a };" else ""; changed_at := fun _ => 0; now := 0; made := None |},
    [Build; Edit "enums.hpp" "enum E { b };"; Build].
  split; [split; [reflexivity|intros; cbn; lia]|]. split; [reflexivity|]. intros (m & H). vm_compute in H. discriminate.
Qed.
Print Assumptions C143_refuted.
Example C143_case : let deps := depends ["lib.txt"] [] [] "gen.py" in let reads := all_read ["lib.txt"] [] ["enums.hpp"] [] "gen.py" in
  covered deps reads true False False [Edit "enums.hpp" "x"; Build; Edit "enums.hpp" "y"; Edit "lib.txt" "z"; Build; Build] /\
  ~ covered deps reads true False False [Build; Edit "enums.hpp" "y"; Build].
Proof.
  cbn. split; [|intros (_ & [H|H] & _); [discriminate|]].
  - split; [auto|]. split; [right; tauto|]. split; [right; tauto|exact I].
  - destruct H as [[]|[H|[H|[]]]]; [right; split; [auto|]; intros [H|[H|[]]]; discriminate|discriminate|discriminate].
Qed.

(** Computed cases for projects, errors of flows, sending with triggers, graphs, benchmark tables, the decoder,
    log destinations, the release header, sources,
    descriptions in logs and policies (see CasesProps.v). Tests, not proofs. *)
From Coq Require Import String Ascii Bool Arith List NArith ZArith.
From Verif Require FlowModel FlowProps NexusModel ProjectModel DiagnoseModel SendModel GraphModel GenModel BenchModel ChainModel DecodeModel LogModel ReleaseModel RelBuildModel SymbolModel MipiModel MipiProps SourceModel FieldModel MessageModel MessageProps SummaryModel IrqModel PolicyModel CasesRunProps.
Import ListNotations.
Local Open Scope string_scope.

(** ** C108, C112: projects *)
Section Project.
Import FlowModel FlowProps NexusModel ProjectModel.
Definition flow (i : nat) (n : string) : svc := {| s_id := i; s_name := Some n; s_ret := 0 |}.
Definition ticks : svc := {| s_id := 9; s_name := None; s_ret := 0 |}.
Definition odd_world : cond := {| c_name := "odd"; c_preds := [1] |}.
Definition one : config element :=
  Many [Exports [flow 1 "a"; flow 2 ""; ticks]; Extend (ByType (flow 1 "a")) [Frag (lf "x" 1 true); Frag (seq_of (lf "x" 1 false) (lf "y" 2 true))]; When odd_world [Extend (ByType (flow 1 "a")) [Frag (lf "z" 3 true)]];
        Extend (ByType ticks) [Function 4; Function 5]].
Definition other : config element := Many [Exports [ticks]; Extend (ByType ticks) [Function 6]].
Definition cyclic : config element := Many [Exports [flow 1 "a"]; Extend (ByType (flow 1 "a")) [Frag (seq_of (lf "x" 1 true) (lf "y" 2 true)); Frag (seq_of (lf "y" 2 false) (lf "x" 1 false))]].
Definition nexus (n : nat) : config element :=
  match n with 0 => one | 1 => other | 2 => cyclic | _ => Many [Exports [ticks]; When odd_world [Extend (ByType ticks) [Function 4]]] end.
(* 1 runs ticks of the nexus started last, 2 those of its own, 4 and 6 act, 5 runs a service that was never started *)
Definition body (f : nat) : list op := match f with 1 => [Do 1; Run ticks] | 2 => [RunOwn ticks; Do 2] | 3 => [Do 3] | 4 => [Do 4] | 5 => [Do 5] | _ => [Do 6] end.
Definition ran (l : list op) := option_map (fun r => (fst r, world (snd r), panicked (snd r))) (run_program pop_last in_order (fun _ w => Nat.odd w) Nat.add body nexus 4 l 0).
Example C108_case_runs :
  map ran [[Start 0; Run (flow 1 "a")]; [Start 0; Start 1; RunName "a"]; [Start 1; Run ticks; Start 0; Run ticks]; [Run ticks; Do 1]; [Start 2]; [Start 3]; [RunName "a"]; [Start 1; Run (flow 1 "a"); Do 7]] =
  [Some ([Said "flow.start(a)"; Said "flow.action(x)"; Did 1; Did 4; Did 5; Said "flow.action(y)"; Did 4; Did 5; Did 2; Said "flow.action(z)"; Did 3; Said "flow.end(a)"], 24, false);
   Some ([Said "flow.start(a)"; Said "flow.action(x)"; Did 1; Did 6; Said "flow.action(y)"; Did 4; Did 5; Did 2; Said "flow.end(a)"], 18, false);
   Some ([Did 6; Did 4; Did 5], 15, false); Some ([Panicked], 0, true); None; None; Some ([Panicked], 0, true); Some ([Panicked], 0, true)].
Proof. vm_compute. reflexivity. Qed.
Example C108_case_rejected :
  (element_when odd_world (Function 4), build_service pop_last in_order (flow 1 "a") [Frag (seq_of (lf "x" 1 true) (lf "y" 2 true)); Frag (seq_of (lf "y" 2 false) (lf "x" 1 false))]) = (None, None).
Proof. vm_compute. reflexivity. Qed.
Definition nexus' (n : nat) : config element := match n with 1 => Many [Exports [ticks; flow 5 "b"]; Extend (ByType ticks) [Function 6]; Extend (ByType (flow 5 "b")) [Frag (lf "w" 2 true)]] | _ => nexus n end.
Definition served (n : nat) (s : svc) (a : @sys nat * list happening) := serve_project pop_last in_order (fun _ w => Nat.odd w) Nat.add body nexus' 4 n s a.
Definition i0 : @sys nat := {| ptrs := uninitialized; world := 0; panicked := false |}.
Example C112_case_served :
  map (fun a : @sys nat * list happening => (snd a, world (fst a))) [served 1 (flow 5 "b") (i0, [Did 9]); served 0 (flow 1 "a") (i0, [Did 9]); served 1 ticks (served 0 (flow 1 "a") (i0, []))] =
  [([Did 9; Said "flow.start(b)"; Said "flow.action(w)"; Did 6; Did 2; Said "flow.end(b)"], 8); ([Did 9; Said "flow.start(a)"; Said "flow.action(x)"; Did 1; Panicked], 1);
   ([Said "flow.start(a)"; Said "flow.action(x)"; Did 1; Panicked], 1)].
Proof. vm_compute. reflexivity. Qed.
End Project.

(** ** C137: the errors of a flow *)
Section Diagnose.
Import FlowModel FlowProps DiagnoseModel.
Definition c (n : string) (ps : list nat) : cond := {| c_name := n; c_preds := ps |}.
Definition nd (n : string) (k : cond) : node := {| n_type := Action; n_name := n; n_value := true; n_cond := k; n_func := 0 |}.
Definition pn (p : nat) : string := match p with 1 => "one" | 2 => "two" | _ => "three" end.
Definition weak : builder := [Leaf (LNode (nd "a" (c "A" [1; 2]))); Leaf (LNode (nd "b" (c "B" [3]))); Seq (Leaf (LRef "a")) (Leaf (LRef "b")) false (c "E" [1])].
Example C137_case_errors : let text x := "The conditions on the sequence (a >> b)[E] are weaker than those on a[A] or b[B]. Specifically, the sequence is missing the predicate: " ++ x in
  (duplicate_names (fun l => l) ["a"; "b"; "a"; "c"; "b"], errors (fun l => l) pn "f" pop_last in_order weak,
   errors (fun l => l) pn "f" pop_last in_order [lf "a" 1 true; lf "b" 1 true; lf "a" 1 true; lf "b" 1 false; lf "b" 1 false]) =
  (["a"; "b"], [text "two"; text "three"], ["One or more steps in the flow (f) are explicitly added more than once using the * operator. The duplicate steps are: a."]).
Proof. vm_compute. reflexivity. Qed.
End Diagnose.

(** ** C139: requests and triggers *)
Section Send.
Import SendModel.
Fixpoint go (n : nat) (s : state nat) : state nat := match n with O => s | S k => match step s with Some s' => go k s' | None => s end end.
Example C139_case_trace :
  trace (go 20 (initial [Start (fun _ => []) [1] 5 (fun vs => match vs with [a; b] => [Run 7 [a; b; a]] | _ => [] end) [9]; Start (fun a => [Run 6 a]) [2] 7 (fun _ => []) []; Run 5 [3]])) =
  [Started 0 5 [9]; Sent 0 [1]; Started 1 7 []; Sent 1 [2]; Ran 6 [2]; Ran 5 [3]; Received 0 [3; 9]; Ran 7 [3; 9; 3]; Received 1 [3; 9; 3]].
Proof. vm_compute. reflexivity. Qed.
End Send.

(** ** C144: the graph file *)
Section Graph.
Import FlowModel GraphModel.
Definition lines (l : list string) : string := fold_right (fun a r => a ++ newline ++ r) "" l.
Example C144_case_files :
  (map graph_file [["FAILED: x"; "note: ~~~~START\nab"; "cd\n~~~~END"; "z"]; ["error: debug\n~~~~START\nab\ncd\n~~~~END"; "FAILED"]; ["no graph"; "x"]; []], sed ["a"; "b"], sed []) =
  ([lines ["note: ~~~~START"; "ab"; "cd"]; lines ["ab"; "cd"]; ""; ""], [], []).
Proof. vm_compute. reflexivity. Qed.
End Graph.

(** ** C158: benchmark tables *)
Section Bench.
Import BenchModel.
Definition ti (s : string) : option Z := if String.eqb s "10" then Some 10%Z else if String.eqb s "20" then Some 20%Z else None.
Definition tf (s : string) : option string := if String.eqb s "ns/op" then None else Some s.
Definition out : list string := ["  dataset: d1"; "algorithm: b"; "size: 10"; "| ns/op | x | x | x | benchmark"; " | 1.5 | x | x | x | chained independent |"; "size: 20"; "| 2.5 | x | x | x | independent |"; "algorithm: a"; "| 3.5 | x | x | x | chained |";
  "dataset: d2"; "| 4.5 | x | x | x | chained |"].
Example C158_case_tables :
  (tables tf ti (fun l => rev l) out, columns (fun l => l) [Some "a"; None], columns (fun l => l) [None; None], columns (fun l => l) [Some "b"; Some "a"; Some "b"]) =
  (Some ([Some "a"; Some "b"], [(Some "d1", [Some "3.5"; Some "1.5"]); (Some "d2", [Some "4.5"; None])], ([Some "a"; Some "b"], [(Some "d1", [None; Some "2.5"]); (Some "d2", [None; None])]),
         ([Some "a"; Some "b"], [(Some "d1", [Some 20%Z; Some 10%Z]); (Some "d2", [Some 20%Z; None])])), None, Some [None], Some [Some "a"; Some "b"]).
Proof. vm_compute. reflexivity. Qed.
End Bench.

(** ** C140: the decoder *)
Section Decode.
Import ChainModel DecodeModel.
Definition nothing : json_file := {| j_messages := []; j_modules := []; j_enums := [] |}.
Definition seen (o : outcome) := (printed o, failed o).
Definition fs (names : list string) (n : string) : option (list N) := if existsb (String.eqb n) names then Some [] else None.
Example C140_case_missing :
  map (fun names => seen (main (fun _ => "") 3 4 (fun _ => Some nothing) {| a_input := "in"; a_output := None; a_json := "json" |} (fs names))) [["in"; "json"]; ["json"]; ["in"]; []] =
  [([], false); ([], true); ([], true); ([], true)].
Proof. vm_compute. reflexivity. Qed.
End Decode.

(** ** C67, C70, C72: log destinations, levels and assertions *)
Section Log.
Import LogModel.
Example C70_case_levels : level_text = ["MAX"; "FATAL"; "ERROR"; "WARN"; "INFO"; "USER1"; "USER2"; "TRACE"].
Proof. vm_compute. reflexivity. Qed.
Example C72_case_assert : let a h := cib_assert (fun _ => None) (fun s (l : list nat) => (s, l)) [] "T{}" h [1; 2] in
  (a true, a false, cib_assert (fun _ => None) (fun s (l : list nat) => (s, l)) [] "T{}" true []) = (Some [], Some [Panicked ("Assertion failure: T{}", [1]) [2]], None).
Proof. vm_compute. reflexivity. Qed.
Example C67_case_writes : let d i := {| d_type := None; d_sink := i |} in log_writes [d 0; d 1; d 2] [7; 8] = [(d 0, [7; 8]); (d 1, [7; 8]); (d 2, [7; 8])].
Proof. vm_compute. reflexivity. Qed.
End Log.

(** ** C154: the release header *)
Section Release.
Import ReleaseModel RelBuildModel.
Definition src : files := [("a", [Once; Text "x"; Include "b" "#include <b>"]); ("b", [Text "y"])].
Definition t0 : tree := {| sources := src; changed_at := fun _ => 0; version := "v"; now := 0; made := None |}.
Definition build_ := build ["a"; "b"] "a".
Example C154_case_builds :
  map made [build_ t0; build_ (alter (build_ t0) (Remove "b")); build_ (alter t0 (Remove "b")); build_ (alter (build_ t0) (Write "b" [Text "z"])); build_ (alter (build_ t0) (Tag "w"))] =
  [Some (1, [Text "x"; Text "y"]); Some (1, [Text "x"; Text "y"]); None; Some (3, [Text "x"; Text "z"]); Some (1, [Text "x"; Text "y"])].
Proof. vm_compute. reflexivity. Qed.
End Release.

(** ** C105: the calls of a source *)
Section Source.
Import LogModel SymbolModel MipiModel ChainModel SourceModel.
Definition vals : values := {| v_module := fun v => [Z.of_nat v]; v_module_id := fun v => (Z.of_nat v, "m"); v_string_id := fun v => (Z.of_nat v, "s"); v_tag := fun v => {| st_name := [1%Z]; st_value := [Z.of_nat v] |}; v_unit := fun u t => N.of_nat (u + t) |}.
Definition site_ : site := {| s_text := [65%Z]; s_named := []; s_types := [MipiModel.Plain Int; MipiModel.Plain UInt] |}.
Definition all_keys : env := [(k_level, 3); (k_module, 11); (k_module_id, 12); (k_string_id, 13); (k_tag, 14); (k_unit, 15)].
Example C105_case_message : (message_of MipiProps.x64 vals site_ all_keys, message_of MipiProps.x64 vals site_ [], module_sym vals all_keys, module_sym vals [(k_string_id, 4)]) =
  ({| sm_text := [65%Z]; sm_args := ["encode_32<int>"; "encode_u32<unsigned int>"]; sm_id := 13; sm_suffix := "s"; sm_named := []; sm_tags := [{| st_name := [1%Z]; st_value := [14%Z] |}] |},
   {| sm_text := [65%Z]; sm_args := ["encode_32<int>"; "encode_u32<unsigned int>"]; sm_id := -1; sm_suffix := ""; sm_named := []; sm_tags := [] |},
   {| so_text := [11%Z]; so_id := 12; so_suffix := "m" |}, {| so_text := default_module; so_id := -1; so_suffix := "" |}).
Proof. vm_compute. reflexivity. Qed.
Definition x : execution := {| x_call := 0; x_time := 100; x_args := [7; 8]%N |}.
Example C105_case_call :
  map (fun e => option_map (fun k => (l_level k, l_unit k, map snd (l_args k))) (call_of MipiProps.x64 vals site_ e x)) [all_keys; [(k_level, 2)]; [(k_unit, 1)]] =
  [Some (3%N, 115%N, [7; 8]%N); Some (2%N, 0%N, [7; 8]%N); None].
Proof. vm_compute. reflexivity. Qed.
Definition cfg (f : option value) : option nat := match f with None => Some 0 | Some 9 => Some 1 | Some _ => None end.
Example C105_case_accepted :
  (map (sent_here cfg 0) [[]; [(k_flavor, 9)]; [(k_flavor, 8)]], map (fun src => option_map (map fst) (compile cfg 0 src)) [[LogCall 1 []]; [LogCall 1 [(k_flavor, 9)]]; [LogCall 1 [(k_level, 3)]; LogCall 2 [(k_flavor, 8)]]]) =
  ([true; false; false], [None; Some [1]; Some [1; 2]]).
Proof. vm_compute. reflexivity. Qed.
End Source.

(** ** C133, C134: descriptions in logs *)
Section Summary.
Import FieldModel MessageModel MipiModel SummaryModel MessageProps.
Definition shows := text_shows MipiProps.x64.
Example C133_case_shows : map shows [(MipiModel.Plain Char, 65%N); (MipiModel.Plain Float, 1%N); (MipiModel.Plain Double, 1%N); (MipiModel.Plain Int, 4294967295%N); (MipiModel.Plain UInt, 255%N)] = [Some "41"; None; None; Some "-1"; Some "ff"].
Proof. vm_compute. reflexivity. Qed.
Example C133_case_values : field_values (fun _ => MipiModel.Plain UInt) 32 ex_msg [0x12345678; 0x9ABCDEF0]%N = Done (map (pair (MipiModel.Plain UInt)) [0x78; 0x56; 0x1234; 0xB]%N).
Proof. vm_compute. reflexivity. Qed.
Definition db : database := {| db_messages := fun _ => Some []; db_modules := fun _ => None; db_enums := fun _ _ => None |}.
Example C134_case_short : (decoder_line db "hello" [1; 0; 0; 0]%N, decoder_line db "hello" [1; 0]%N) = (Some "hello", None).
Proof. vm_compute. reflexivity. Qed.
End Summary.

(** ** C135: policies of calls *)
Section Policy.
Import IrqModel PolicyModel.
Definition called (ps : list policy) := option_map (fun _ => tt) (call_names CasesRunProps.h [CasesRunProps.top] true ["zz"] ps CasesRunProps.blank).
Example C135_case_unknown_names : map called [[]; [ignore_unknowns]; [propagate; ignore_unknowns]; [propagate]; [error_unknowns; ignore_unknowns]; [no_propagate]] = [None; Some tt; Some tt; None; None; None].
Proof. vm_compute. reflexivity. Qed.
End Policy.

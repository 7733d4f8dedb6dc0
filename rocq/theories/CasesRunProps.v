(** Computed cases for flows, sequencers, interrupts and tables (see CasesProps.v).
    Tests, not proofs. *)
From Coq Require Import String Ascii List Bool Arith ZArith NArith.
From Verif Require FlowModel SeqModel IrqModel BakedModel MatchModel FieldMatchersModel HandlerModel FieldModel LookupModel LookupProps.
Import ListNotations.
Local Open Scope string_scope.

(** ** C27, C31, C34: flows *)
Definition p : FlowModel.cond := {| FlowModel.c_name := "p"; FlowModel.c_preds := [0] |}.
Definition q : FlowModel.cond := {| FlowModel.c_name := "q"; FlowModel.c_preds := [1] |}.
Definition st (x : string) (f : nat) (v : bool) (c : FlowModel.cond) : FlowModel.node := {| FlowModel.n_type := FlowModel.Action; FlowModel.n_name := x; FlowModel.n_value := v; FlowModel.n_cond := c; FlowModel.n_func := f |}.
Definition lf (x : string) (f : nat) (v : bool) : FlowModel.subgraph := FlowModel.Leaf (FlowModel.LNode (st x f v FlowModel.always)).
Example C31_case_both : map (fun ab => FlowModel.cond_and (fst ab) (snd ab)) [(FlowModel.always, FlowModel.always); (p, FlowModel.always); (FlowModel.always, q); (p, q)] =
  [FlowModel.always; p; q; {| FlowModel.c_name := "p and q"; FlowModel.c_preds := [0; 1] |}].
Proof. vm_compute. reflexivity. Qed.
Definition names (l : list FlowModel.leaf) : list string := map FlowModel.leaf_name l.
Example C27_case_ends : let g := FlowModel.seq_of (FlowModel.par_of (lf "a" 1 true) (lf "b" 2 true)) (FlowModel.par_of (lf "c" 3 true) (FlowModel.seq_of (lf "d" 4 true) (lf "e" 5 true))) in
  (names (FlowModel.initials g), names (FlowModel.finals g), map (fun e => (FlowModel.leaf_name (FlowModel.e_src e), FlowModel.leaf_name (FlowModel.e_dst e))) (FlowModel.edges g)) =
  (["a"; "b"], ["c"; "e"], [("d", "e"); ("a", "c"); ("a", "d"); ("b", "c"); ("b", "d")]).
Proof. vm_compute. reflexivity. Qed.
Definition pop_first {A} (_ : nat) (l : list A) : option (A * list A) := match l with [] => None | x :: r => Some (x, r) end.
Definition as_is {A} (_ : nat) (l : list A) : list A := l.
Definition order_of (r : FlowModel.build_result) : list string := match r with FlowModel.Built o => map FlowModel.n_name o | _ => [] end.
Example C27_case_wide : order_of (FlowModel.build pop_first as_is
    [FlowModel.seq_of (lf "a" 1 true) (FlowModel.par_of (FlowModel.seq_of (lf "b" 2 true) (lf "e" 5 true)) (FlowModel.par_of (lf "c" 3 true) (lf "d" 4 true))); FlowModel.seq_of (lf "c" 3 false) (lf "b" 2 false)]) =
  ["a"; "c"; "d"; "b"; "e"].
Proof. vm_compute. reflexivity. Qed.
Definition two_steps : list FlowModel.node := [st "a" 1 true FlowModel.always; st "b" 2 true p].
Definition ran (name : string) (on : bool) : list FlowModel.event * nat := FlowModel.run_flow (fun _ _ => on) (fun f s => s * 10 + f) name two_steps 0.
Example C30_case_runs : (ran "f" true, ran "f" false, ran "" true) =
  (([FlowModel.Log "flow.start(f)"; FlowModel.Log "flow.action(a)"; FlowModel.Call 1; FlowModel.Log "flow.action(b)"; FlowModel.Call 2; FlowModel.Log "flow.end(f)"], 12),
   ([FlowModel.Log "flow.start(f)"; FlowModel.Log "flow.action(a)"; FlowModel.Call 1; FlowModel.Log "flow.end(f)"], 1),
   ([FlowModel.Call 1; FlowModel.Call 2], 12)).
Proof. vm_compute. reflexivity. Qed.
Definition same {A} (l : list A) : list A := l.
Definition picture (b : FlowModel.builder) : list string :=
  match FlowModel.viz_build same same b with
  | Some (ns, es) => (map (FlowModel.render_node FlowModel.mermaid) ns ++ map (FlowModel.render_edge FlowModel.mermaid) es)%list
  | None => []
  end.
Example C34_case_once : picture [FlowModel.seq_of (lf "a" 1 true) (lf "b" 2 true); FlowModel.seq_of (lf "a" 1 true) (lf "b" 2 true)] =
  ["  _start((start))"; "  _end((end))"; "  _a(a)"; "  _b(b)"; "  _a --> _b"; "  _start --> _a"; "  _b --> _end"].
Proof. vm_compute. reflexivity. Qed.

(** ** C35, C57: sequencers *)
(** The step functions return what a list says, one after the other, and Done after it. *)
Definition scripted (_ : SeqModel.direction) (_ : nat) (l : list SeqModel.status) : SeqModel.status * list SeqModel.status :=
  match l with [] => (SeqModel.Done, []) | x :: r => (x, r) end.
Definition played (ds : list SeqModel.direction) (l : list SeqModel.status) : option (list (SeqModel.status * list (SeqModel.direction * nat))) :=
  option_map (fun r => map (fun x => (snd (fst x), map (fun v => (SeqModel.i_dir v, SeqModel.i_step v)) (snd x))) (fst (fst r)))
    (SeqModel.history 2 scripted ds SeqModel.initial l).
Definition F := SeqModel.Forward.
Definition B := SeqModel.Backward.
Definition D := SeqModel.Done.
Definition U := SeqModel.NotDone.
Example C35_case_script :
  played [F; F; B; B; F; B] [U; D; U; U; D; U; D; U; D; D; D; D] =
    Some [(U, [(F, 0)]); (U, [(F, 0); (F, 1)]); (U, [(F, 1)]); (U, [(F, 1); (B, 1)]); (U, [(B, 1); (F, 1)]) ; (D, [(F, 1); (B, 1); (B, 0)])] /\
  played [F; B; B; F] [D; D; U; D; D] = Some [(D, [(F, 0); (F, 1)]); (U, [(B, 1)]); (D, [(B, 1); (B, 0)]); (D, [(F, 0); (F, 1)])] /\
  played [B; F; F] [] = Some [(D, []); (D, [(F, 0); (F, 1)]); (D, [])].
Proof. vm_compute. auto. Qed.
(** Step 1 is never done backward; the step called is the one noted. *)
Definition noting (d : SeqModel.direction) (k : nat) (l : list nat) : SeqModel.status * list nat := (match d, k with SeqModel.Backward, 1 => U | _, _ => D end, (l ++ [k])%list).
Example C35_case_noted : option_map (fun r => (map (fun x => snd (fst x)) (fst (fst r)), snd r)) (SeqModel.history 3 noting [F; B; B] SeqModel.initial []) = Some ([D; U; U], [0; 1; 2; 2; 1; 1]).
Proof. vm_compute. reflexivity. Qed.
Definition sl (x : string) : SeqModel.description := SeqModel.SLeaf (SeqModel.star_step (SeqModel.step_of x 1 2)).
Definition ordered (b : list SeqModel.description) : option (list (option string)) :=
  option_map (fun r => map (option_map snd) (fst r)) (SeqModel.seq_build pop_first as_is b).
Example C57_case_builds :
  map ordered [[SeqModel.SSeq (sl "A") (sl "B") false]; [sl "A"; sl "A"]; [SeqModel.SSeq (sl "A") (SeqModel.SRef "B") false];
               [SeqModel.SPar (SeqModel.SPar (SeqModel.SLeaf (SeqModel.step_of "A" 1 2)) (SeqModel.SRef "A") false) (SeqModel.SLeaf (SeqModel.step_of "B" 3 4)) true]; [SeqModel.SPar (SeqModel.SSeq (sl "B") (sl "A") false) (SeqModel.SRef "A") false]] =
  [Some [Some "A"; Some "B"]; None; None; None; Some [Some "B"; Some "A"]].
Proof. vm_compute. reflexivity. Qed.

(** ** C36 to C39, C58, C59: interrupts *)
Definition irq (name : string) (en stt : option nat) (pol : IrqModel.clear_policy) (res flows : list nat) : IrqModel.info :=
  {| IrqModel.i_name := name; IrqModel.i_enable := en; IrqModel.i_status := stt; IrqModel.i_policy := pol; IrqModel.i_resources := res; IrqModel.i_flows := flows |}.
Definition ia := IrqModel.Irq (irq "a" (Some 2) (Some 12) IrqModel.DontClear [7] [1]) [].
Definition ib := IrqModel.Irq (irq "b" (Some 3) (Some 13) IrqModel.ClearLast [] [2]) [].
Definition ic := IrqModel.Irq (irq "c" (Some 4) (Some 14) IrqModel.ClearFirst [] [3]) [].
Definition top := IrqModel.Irq (irq "top" (Some 0) None IrqModel.ClearFirst [8] []) [ia; ib; ic].
Example C38_case_influence : let on p t := map IrqModel.name_of (filter (IrqModel.influences p t) (IrqModel.descendants [top])) in
  [on true (IrqModel.Resource 7); on false (IrqModel.Resource 7); on true (IrqModel.Resource 8); on false (IrqModel.Resource 8); on true (IrqModel.Flow 2); on false (IrqModel.Flow 2); on true (IrqModel.Name "a")] =
  [["top"; "a"]; ["a"]; ["top"]; ["top"]; ["top"; "b"]; ["b"]; []].
Proof. vm_compute. reflexivity. Qed.
Definition h : IrqModel.hal := {| IrqModel.reg_of := fun f => f mod 2; IrqModel.mask_of := fun f => N.shiftl 1 (N.of_nat f) |}.
Definition blank : IrqModel.state := {| IrqModel.enables := fun _ => false; IrqModel.shadow := fun _ => 0%N; IrqModel.registers := fun _ => 0%N; IrqModel.writes := [] |}.
Definition written (os : list IrqModel.operation) : option (list (nat * N)) := option_map (fun s => rev (IrqModel.writes s)) (IrqModel.perform_all h [top] os blank).
Definition start : IrqModel.operation := IrqModel.Init (fun _ => true) (fun _ => false).
Example C58_case_writes :
  map written [[start]; [start; IrqModel.Reset; IrqModel.Refresh true]; [start; IrqModel.Refresh true]; [start; IrqModel.Refresh false];
               [start; IrqModel.Switch false true false [IrqModel.Flow 9]]; [start; IrqModel.Switch false true true [IrqModel.Flow 9]]] =
  [Some [(1, 8%N); (0, 21%N)]; Some [(1, 8%N); (0, 21%N); (1, 0%N); (0, 0%N); (1, 0%N); (0, 0%N)]; Some [(1, 8%N); (0, 21%N); (1, 8%N); (0, 21%N)]; Some [(1, 8%N); (0, 21%N); (0, 21%N)];
   None; Some [(1, 8%N); (0, 21%N)]].
Proof. vm_compute. reflexivity. Qed.
Definition rd (f : nat) (e : nat -> bool) := (e f, e).
Definition clr (f : nat) (e : nat -> bool) := fun g => if Nat.eqb g f then false else e g.
Definition srv (n f : nat) (e : nat -> bool) := e.
(** Two nexuses; the flow 3 is active in neither. *)
Definition act (n f : nat) : bool := match f with 1 => Nat.eqb n 0 | 2 => true | _ => false end.
Definition ran_irq (x : IrqModel.irq) (l : list nat) : list IrqModel.event := snd (IrqModel.run rd clr srv act [0; 1] x (fun f => IrqModel.memb f l)).
Example C39_case_events :
  ran_irq top [0; 2; 3; 4; 12; 13; 14] =
    [IrqModel.Read 0 true; IrqModel.Read 2 true; IrqModel.Read 12 true; IrqModel.Serve 0 1; IrqModel.Serve 1 1;
     IrqModel.Read 3 true; IrqModel.Read 13 true; IrqModel.Serve 0 2; IrqModel.Serve 1 2; IrqModel.Clear 13] /\
  ran_irq top [0; 2; 3; 4; 13; 14] =
    [IrqModel.Read 0 true; IrqModel.Read 2 true; IrqModel.Read 12 false;
     IrqModel.Read 3 true; IrqModel.Read 13 true; IrqModel.Serve 0 2; IrqModel.Serve 1 2; IrqModel.Clear 13] /\
  ran_irq ic [4; 14] = [].
Proof. vm_compute. auto. Qed.
Example C59_case_manager : let tops := [(9, ia); (4, ib)] in let go n := snd (IrqModel.manager_run rd clr srv act [0] tops n (fun _ => false)) in
  (go 9, go 4, go 3, go 8, IrqModel.max_irq tops) = ([IrqModel.Read 2 false], [IrqModel.Read 3 false], [], [], 9).
Proof. vm_compute. reflexivity. Qed.

(** ** C122 to C125: the tables of indexed services *)
Import MatchModel FieldMatchersModel HandlerModel BakedModel.
Local Open Scope Z_scope.
Example C124_case_select : let yes {A} (x : A) := x in
  map (fun ab => (select true false 4 4 (fst ab) (snd ab) 1 2, select_lt true false 4 4 (fst ab) (snd ab) 1 2, select false false 4 4 (fst ab) (snd ab) 1 2, select_lt false false 4 4 (fst ab) (snd ab) 1 2))%nat
    [(5, 5); (5, 6); (6, 5); (65536, 131072); (131072, 65536); (-1, -1)] =
  [(1, 2, 1, 2); (2, 1, 2, 1); (2, 2, 2, 2); (2, 1, 2, 1); (2, 2, 2, 2); (1, 2, 1, 2)]%nat.
Proof. vm_compute. reflexivity. Qed.
Example C122_case_raw : [raw (CInt 8 true) (-3); raw (CInt 16 true) (-1); raw CBool 1; raw (CEnum 16 false) 300; raw (CInt 32 true) (-2147483648)] = [253; 65535; 1; 300; 2147483648]%N /\
  (width_of CBool, width_of (CEnum 16 false), width_of (CInt 64 true)) = (8, 16, 64)%N.
Proof. vm_compute. auto. Qed.
Definition cb (i : nat) (m : fexpr) : callback leaf := {| cb_id := i; cb_matcher := m |}.
Definition u16 (f : nat) : cty := CInt 16 false.
Definition two_fields (f : nat) (e : Z * Z) : Z := if Nat.eqb f 0 then fst e else snd e.
Definition eqf (f : nat) (v : Z) : fexpr := Leaf (Rel f REq v).
Definition served (fs : list nat) (cbs : list (callback leaf)) (e : Z * Z) : option (option (list event * bool) * option bool) :=
  option_map (fun ls => (baked_handle u16 two_fields (fun _ _ => true) ls fs cbs e, baked_is_match u16 two_fields ls fs e)) (bake LookupProps.sort_by u16 NullValidator fs cbs).

Example C122_case_served : let cbs := [cb 1 (eqf 0 5); cb 2 (And (eqf 0 5) (eqf 1 6)); cb 3 (eqf 1 7)] in
  map (served [0; 1]%nat cbs) [(5, 6); (5, 1); (4, 7); (4, 6)] =
  [Some (Some ([Ran 1; Ran 2], true), Some true); Some (Some ([Ran 1], true), Some true); Some (Some ([Ran 3], true), Some true); Some (Some ([LogUnclaimed], false), Some false)].
Proof. vm_compute. reflexivity. Qed.
Example C122_case_first_last : let cbs := (cb 0 (eqf 0 9) :: map (fun i => cb i (eqf 0 1)) (seq 1 99) ++ [cb 100 (eqf 0 2)])%list in
  map (fun e => option_map snd (served [0]%nat cbs e)) [(9, 0); (2, 0); (1, 0); (3, 0)] = [Some (Some true); Some (Some true); Some (Some true); Some (Some false)].
Proof. vm_compute. reflexivity. Qed.
Example C122_case_none : option_map fst (served [] [cb 1 (eqf 0 5)] (5, 6)) = Some (Some ([LogUnclaimed], false)).
Proof. vm_compute. reflexivity. Qed.
Example C123_case_full : match bake LookupProps.sort_by u16 NullValidator [0%nat] [cb 1 (fold_right (fun i m => And (eqf 0 (Z.of_nat i)) m) Always (seq 0 512))] with Some _ => true | None => false end = true.
Proof. vm_compute. reflexivity. Qed.
Example C125_case_never : map (validate NeverValidator) [Never; And Never Never; eqf 0 1; Always] = [false; true; true; true] /\ validate NullValidator Never = true.
Proof. vm_compute. auto. Qed.

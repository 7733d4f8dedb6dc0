(** Computed cases for the nexus, for services that send messages to services and for the steps of the
    interrupt controller (see CasesProps.v). Tests, not proofs. *)
From Coq Require Import String Bool Arith ZArith NArith List.
From Verif Require IrqModel ConcModel CasesRunProps.
From Verif Require Import FlowModel MatchModel FieldMatchersModel FieldMatchersSpec HandlerModel NexusModel DispatchModel.
Import ListNotations.

(** ** C48, C49, C52: the nexus *)
Definition s1 : svc := {| s_id := 1; s_name := None; s_ret := 0 |}.
Definition s2 : svc := {| s_id := 2; s_name := Some "two"%string; s_ret := 0 |}.
Definition s3 : svc := {| s_id := 3; s_name := None; s_ret := 0 |}.
Definition s4 : svc := {| s_id := 4; s_name := None; s_ret := 0 |}.
Definition keep_item (_ : cond) (x : nat) : option nat := Some x.
Example C48_case_builders :
  builders keep_item (Many [Exports [s1; s2]; NexusModel.Extend (ByType s1) [1; 2]; NexusModel.Extend (ByName "two"%string) [3]; NexusModel.Extend (ByType s1) [4]]) =
  Some [(s2, [3]); (s1, [4; 1; 2])].
Proof. vm_compute. reflexivity. Qed.
Example C52_case_start : @top_events s1 s2 s3 s4 7 PInit = [Init 0; Call s1; Call s2; Call s3; Call s4; Call s4; Call s4].
Proof. vm_compute. reflexivity. Qed.
Definition adds (n : nat) : NexusModel.callback nat := {| NexusModel.cb_id := n; cb_effect := Nat.add n |}.
Example C49_case_arguments :
  (run_move_only (@nil (NexusModel.callback nat)) 7, run_move_only [adds 1] 7, run_move_only [adds 1; adds 2] 7, run_callbacks [adds 1; adds 2; adds 4] 7) =
  (Some [], Some [(1, 7)], None, [(1, 7); (2, 8); (4, 10)]).
Proof. vm_compute. reflexivity. Qed.

(** ** C113: services that send messages *)
Definition c1 : cond := {| c_name := "one"%string; c_preds := [1] |}.
Definition c2 : cond := {| c_name := "two"%string; c_preds := [2] |}.
Definition is3 : fexpr := Leaf (Rel 0 REq 3%Z).
Definition low : fexpr := Leaf (Rel 1 RLt 9%Z).
Definition it (f : callable) : item := {| i_name := 7; i_user := Some is3; i_fields := [low]; i_conds := []; i_call := f |}.
Definition twice (f : callable) : option item := match item_when c1 (it f) with Some i => item_when c2 i | None => None end.
Example C113_case_when :
  (twice (Stateless 4), twice (Stateful 4), twice (Pointer (Some 4))) =
  (Some {| i_name := 7; i_user := Some is3; i_fields := [low]; i_conds := [c1; c2]; i_call := Stateless 4 |}, None,
   Some {| i_name := 7; i_user := Some is3; i_fields := [low]; i_conds := [c1; c2]; i_call := Pointer None |}).
Proof. vm_compute. reflexivity. Qed.
Definition reacts (name : nat) (x : fexpr) (fs : list fexpr) (c : callable) : item := {| i_name := name; i_user := Some x; i_fields := fs; i_conds := []; i_call := c |}.
Definition project (n : nat) : config item :=
  match n with
  | O => Many [Exports [s1; s2; s3; s4];
               NexusModel.Extend (ByType s1) [reacts 1 is3 [low] (Stateful 1); reacts 2 (Leaf (Rel 0 REq 4%Z)) [] (Stateful 2); reacts 5 (Leaf (Rel 0 REq 5%Z)) [] (Pointer None)];
               When c1 [NexusModel.Extend (ByType s2) [reacts 3 is3 [] (Stateless 3)]];
               NexusModel.Extend (ByType s3) [reacts 4 (Or is3 (Leaf (Rel 0 REq 4%Z))) [] (Stateful 3); reacts 6 (Leaf (Rel 0 REq 6%Z)) [] (Stateful 3)]]
  | _ => Many [Exports [s1; s4]; NexusModel.Extend (ByType s1) [reacts 8 is3 [] (Stateful 3)]]
  end.
Definition types (_ : nat) : cty := CInt 8 false.
Definition fld (f : nat) (m : nat * nat) : Z := Z.of_nat (match f with O => fst m | _ => snd m end).
Definition psem (p : nat) (e : (nat * nat) * nat) : bool := p <=? snd e.
(* 1 sends to s2 and does 10; 2 sends to a service no nexus has started; 3 says which nexus called it *)
Definition body (f n : nat) (m : nat * nat) : @prog (nat * nat) nat :=
  match f with
  | 1 => Do 1 (Send Current s2 m (fun b => if b then Do 10 End else Do 20 End))
  | 2 => Send Current {| s_id := 9; s_name := None; s_ret := 0 |} m (fun _ => Do 30 End)
  | _ => Do (100 + n) End
  end.
Definition kinds (s : svc) : kind := if svc_eqb s s3 then Indexed [0] else Plain.
Definition run (p : @prog (nat * nat) nat) := option_map fst (run_main types (fun c => hd 0 (c_preds c)) kinds fld psem Nat.add body project 3 (Start 0 p) 0).
Definition to (s : svc) (m : nat * nat) : @prog (nat * nat) nat := Send Current s m (fun b => Do (if b then 77 else 66) End).
Example C113_case_sends :
  map run [to s1 (3, 5); to s1 (3, 12); to s1 (4, 0); to s1 (5, 0); to s3 (4, 0); to s3 (6, 0); to s3 (7, 0); Send (Of 1) s1 (3, 0) (fun _ => End);
           Ask Current s1 (4, 0) (fun b => if b then Do 1 End else End); Ask Current s1 (9, 0) (fun b => if b then Do 1 End else End);
           Ask Current s3 (6, 0) (fun b => if b then Do 1 End else End)] =
  [Some [Matched 1; Did 1; Matched 3; Did 100; Did 10; Did 77]; Some [Unclaimed; Mismatch 1; Mismatch 2; Mismatch 5; Did 66]; Some [Matched 2; Panicked]; Some [Matched 5; Null];
   Some [Matched 4; Did 100; Did 77]; Some [Matched 6; Did 100; Did 77]; Some [Unclaimed; Did 66]; Some [Matched 8; Did 101]; Some [Did 1]; Some []; Some [Did 1]].
Proof. vm_compute. reflexivity. Qed.
(** What a handler is built of: under an index one entry for each term of a sum. *)
Example C113_case_handler :
  map (fun s => option_map (fun x => map (fun e => HandlerModel.cb_id (fst e)) (h_callbacks x)) (handler_of types (fun c => hd 0 (c_preds c)) kinds (project 0) s)) [s1; s2; s3] =
  [Some [1; 2; 5]; Some [3]; Some [4; 4; 6]].
Proof. vm_compute. reflexivity. Qed.

(** ** C107: the steps of the interrupt controller *)
Section Steps.
Import IrqModel ConcModel.
Let h := CasesRunProps.h.
Let r := [CasesRunProps.top].
Definition stepped (o : operation) (s : state) : state := fst (fold_left (fun sl m => micro_step h m sl) (steps_of h r o) (s, no_locals)).
Definition shown (s : state) := (rev (writes s), map (shadow s) [0; 1], map (registers s) [0; 1], map (enables s) [Resource 7; Flow 9; Flow 1; Flow 2; Name "a"%string; Name "b"%string]).
Definition os : list operation :=
  [Init (fun _ => true) (fun _ => false); Switch false true true [Flow 9; Flow 1]; Refresh true; Refresh false; SwitchNames false true ["a"%string; "b"%string];
   Init (fun t => match t with Flow 1 | Name _ => false | _ => true end) (fun x => match children_of x with [] => true | _ => false end);
   Init (fun _ => false) (fun x => String.eqb (name_of x) "c"); Reset; Refresh true].
Definition upto (n : nat) : state * option state := (fold_left (fun s o => stepped o s) (firstn n os) CasesRunProps.blank, perform_all h r (firstn n os) CasesRunProps.blank).
(** One step after another with no other thread in between: what the operations do. *)
Example C107_case_steps :
  map (fun n => Some (shown (fst (upto n)))) (seq 0 10) = map (fun n => option_map shown (snd (upto n))) (seq 0 10).
Proof. vm_compute. reflexivity. Qed.
Example C107_case_writes : (shown (fst (upto 7)), rev (writes (fst (upto 9)))) =
  (([(1%nat, 8); (0%nat, 21); (0%nat, 17); (1%nat, 8); (0%nat, 17); (0%nat, 17); (1%nat, 0); (0%nat, 21)], [16; 0], [21; 0], [false; false; false; false; true; true]),
   [(1%nat, 8); (0%nat, 21); (0%nat, 17); (1%nat, 8); (0%nat, 17); (0%nat, 17); (1%nat, 0); (0%nat, 21); (1%nat, 0); (0%nat, 0); (1%nat, 0); (0%nat, 0)])%N.
Proof. vm_compute. reflexivity. Qed.
Example C107_case_locked : map locked [Op Reset; Op (Refresh true); ReadEnable 2; Op CasesRunProps.start; Op (Switch true true true [])] = [false; true; true; true; true].
Proof. vm_compute. reflexivity. Qed.
Example C107_case_accepted :
  map (accepted r) [Switch true true true [Flow 9]; Switch true true false [Flow 9]; Switch true true false [Flow 1]; SwitchNames true true ["z"%string]; SwitchNames true false ["z"%string]; Reset] =
  [true; false; true; true; false; true].
Proof. vm_compute. reflexivity. Qed.
(** The order of the accesses: the shadow value is stored before the register is written. *)
Example C107_case_order :
  (steps_of h r (SwitchNames true true ["b"%string]), update_steps_of h true [CasesRunProps.ib] 1) =
  ([LoadBits KName; StoreBit (Name "b") true; ZeroValue; Compute CasesRunProps.ib; LoadShadow 1 8; ExchangeShadow 1; WriteChanged 1],
   [ZeroValue; Compute CasesRunProps.ib; LoadShadow 1 8; StoreShadow 1; WriteAlways 1]).
Proof. vm_compute. reflexivity. Qed.
End Steps.

(** Computed cases for the calls of matchers and callables (see CasesProps.v).
    Tests, not proofs. *)
From Coq Require Import List NArith ZArith Bool Arith.
From Verif Require Import FieldModel MatchModel FieldMatchersModel MessageModel AccessModel HandlerModel CallModel.
Import ListNotations.
Local Open Scope N_scope.

(** ** C126 to C130 *)
(** Message 0 has fields 0 and 1, message 1 has fields 2 and 1; the field 2 has the name of field 0 and another place. *)
Definition ftab (i : nat) : mfield :=
  match i with
  | 1%nat => {| f_name := 1; f_bytes := 2; f_default := DDefault 0; f_match := Always; f_ats := [at_dword 0 31 16] |}
  | 2%nat => {| f_name := 0; f_bytes := 1; f_default := DDefault 0; f_match := Always; f_ats := [at_dword 0 15 8] |}
  | _ => {| f_name := 0; f_bytes := 1; f_default := DDefault 0; f_match := Always; f_ats := [at_dword 0 7 0] |}
  end.
Definition ftype (i : nat) : cty := match i with 1%nat => CInt 16 false | _ => CInt 8 false end.
Definition dtab (d : nat) : list nat := match d with O => [0%nat; 1%nat] | 1%nat => [2%nat; 1%nat] | _ => [] end.
Definition pkind (p : nat) : param := match p with O => PView 0 1 false | 1%nat => PView 1 1 false | 2%nat => PAny | _ => PAnyView end.
(** Both predicates ask whether the field named 0 is 5. *)
Definition psem (p : nat) (v : nat -> Z) : bool := Z.eqb (v 0%nat) 5.
Example C127_case_accepts :
  map (fun a => accepts (fst a) (snd a))
    [(PArray 1, TArray 1); (PArray 1, TArray 2); (PArray 2, TArray 1); (PView 0 1 false, TView 0 2 true); (PView 0 2 false, TView 0 1 false); (PView 0 1 true, TView 0 1 false); (PView 0 1 true, TView 0 1 true);
     (PView 1 1 false, TView 0 1 false); (PView 0 9 true, TArray 1); (POwner 0 1, TOwner 0 1); (POwner 1 1, TOwner 0 1); (POwner 0 1, TOwner 0 2); (POwner 0 1, TArray 1); (PAnyView, TOwner 0 1); (PAnyOwner, TView 0 1 false)]%nat =
  [true; false; false; true; false; false; true; false; true; true; false; false; false; false; false].
Proof. vm_compute. reflexivity. Qed.
Example C127_case_types : map (view_type 1) [TArray 3; TView 1 2 true; TView 0 2 true; TOwner 1 2; TOwner 0 2]%nat = [Some (TView 1 3 false); Some (TView 1 2 true); None; Some (TView 1 2 false); None]%nat.
Proof. vm_compute. reflexivity. Qed.
Definition doing (p q : option param) (cs : list command) : callable := {| c_plain := p; c_templ := q; c_body := fun templ => fold_right (fun c b => Then c (fun _ => b)) Stop (if templ then rev cs else cs) |}.
Definition reads : list command := [Get 0 0; Get 0 1].
Definition told (p q : option param) (cs : list command) (msg : nat) (t : ty) := call 32 ftab dtab msg (doing p q cs) t [0x7B0605].
(** A view of message 0 reads 5 in field 0, one of message 1 reads 6; the plain operator is preferred to the
    template, which reads the fields the other way round. *)
Example C127_case_reads :
  [told (Some PAnyView) None reads 0 (TArray 1); told (Some PAnyView) None reads 1 (TArray 1); told (Some PAny) None reads 1 (TView 1 1 false); told (Some PAnyView) (Some PAnyView) reads 0 (TArray 1);
   told (Some PAnyOwner) (Some PAnyView) reads 0 (TArray 1); told None (Some PAnyView) reads 0 (TArray 1); told (Some (PView 0 1 true)) None reads 0 (TArray 1)]%nat =
  [Some (Done ([Value 5; Value 0x7B], [0x7B0605])); Some (Done ([Value 6; Value 0x7B], [0x7B0605])); Some (Done ([Value 6; Value 0x7B], [0x7B0605])); Some (Done ([Value 5; Value 0x7B], [0x7B0605]));
   Some (Done ([Value 5; Value 0x7B], [0x7B0605])); Some (Done ([Value 0x7B; Value 5], [0x7B0605])); None].
Proof. vm_compute. reflexivity. Qed.
(** Which of the things given can be changed, and how. *)
Example C128_case_changes :
  [told (Some PAny) None [Set_ 0 [(0%nat, 9%N)]] 0 (TView 0 1 true); told (Some PAny) None [Set_ 0 [(0%nat, 9%N)]] 0 (TView 0 1 false); told (Some PAny) None [Set_ 0 [(0%nat, 9%N)]; Get 0 0] 0 (TOwner 0 1);
   told (Some (PView 0 1 false)) None [Set_ 0 [(0%nat, 9%N)]] 0 (TOwner 0 1); told (Some PAny) None [Poke 0 0 7%N] 0 (TView 0 1 true); told (Some PAny) None [Poke 0 0 7%N] 0 (TView 0 1 false); told (Some PAny) None [Poke 0 0 7%N] 0 (TArray 1);
   told (Some PAny) None [View (map ftab [0; 1]) 1 true (FromArray 0) []] 0 (TArray 1); told (Some PAny) None [View (map ftab [0; 1]) 1 true (FromArray 0) []] 0 (TView 0 1 true);
   told (Some PAny) None [View (map ftab [0; 1]) 1 false (FromArray 1) []; Get 0 0] 0 (TArray 1); told (Some PAny) None [Poke 1 0 7%N; View (map ftab [0; 1]) 1 false (FromArray 1) []; Get 0 0] 0 (TArray 1); told (Some (PView 0 1 true)) None [Set_ 0 [(0%nat, 9%N)]] 0 (TOwner 0 1);
   told (Some PAnyOwner) None [Poke 0 0 7%N] 0 (TView 0 1 true); told (Some (PView 0 1 false)) None [Set_ 0 [(0, 9%N)]] 0 (TView 0 1 true)]%nat =
  [Some (Done ([], [0x7B0609])); None; Some (Done ([Value 9], [0x7B0605]));
   None; Some (Done ([], [7])); None; None;
   None; Some (Done ([], [0x7B0605]));
   Some (Done ([Value 5], [0x7B0605])); Some (Done ([Value 7], [0x7B0605])); None;
   Some (Done ([], [7])); None].
Proof. vm_compute. reflexivity. Qed.
Definition tested (msg : nat) (m : fexpr) (t : ty) (w : N) : option (outcome bool) := test 32 ftab ftype dtab pkind psem msg m t [w].
(** Predicates see the field of the message their parameter names. *)
Example C126_case_predicates :
  [tested 0 (Leaf (Pred 0)) (TArray 1) 0x0605; tested 0 (Leaf (Pred 1)) (TArray 1) 0x0605; tested 0 (Leaf (Pred 1)) (TArray 1) 0x0506; tested 1 (Leaf (Pred 0)) (TArray 1) 0x0506; tested 1 (Leaf (Pred 2)) (TView 1 1 false) 0x0506;
   tested 1 (And (Leaf (Pred 0)) (Leaf (Pred 1))) (TArray 1) 0x0506; tested 0 (Leaf (Pred 0)) (TView 1 1 false) 5]%nat =
  [Some (Done true); Some (Done false); Some (Done true); Some (Done false); Some (Done true); Some (Done false); None].
Proof. vm_compute. reflexivity. Qed.
Definition ent (id msg : nat) (m : fexpr) : entry := {| k_id := id; k_msg := msg; k_matcher := m; k_call := doing (Some PAnyView) None [Get 0 0] |}.
Definition eqf (f : nat) (v : Z) : fexpr := Leaf (Rel f REq v).
Definition happened {A B C} (o : option (outcome (A * B * C))) : option A := match o with Some (Done (a, _, _)) => Some a | _ => None end.
(** A service of two messages; the sum terms of a callback in order; two indices. *)
Example C128_case_messages : happened (serve 32 ftab ftype dtab pkind psem (TArray 1) [ent 1 0 (eqf 0 5); ent 2 1 (eqf 1 0); ent 3 1 (Leaf (Pred 3)); ent 4 0 (Leaf (Pred 3))]%nat [0x0605]) = Some [Called 1 [Value 5]; Called 2 [Value 6]; Called 4 [Value 5]] /\
  happened (serve 32 ftab ftype dtab pkind psem (TView 1 1 false) [ent 2 1 (eqf 1 0)]%nat [0x0605]) = Some [Called 2 [Value 6]].
Proof. vm_compute. auto. Qed.
Example C130_case_indices : map (fun w => happened (serve_indexed 32 ftab ftype dtab pkind psem [0; 1]%nat (TArray 1) [ent 1 0 (And (eqf 0 5) (eqf 1 1)); ent 2 0 (eqf 1 2)]%nat [w])) [0x10005; 0x20005; 0x30005] =
  [Some [Called 1 [Value 5]]; Some [Called 2 [Value 5]]; Some [Unclaimed]].
Proof. vm_compute. reflexivity. Qed.
Example C130_case_terms : map k_matcher (split_entry ftype (ent 1 0 (Or (eqf 0 5) (eqf 1 1)))) = [eqf 0 5; eqf 1 1].
Proof. vm_compute. reflexivity. Qed.

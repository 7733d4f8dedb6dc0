(** Computed cases for the lookups (see CasesProps.v): every key of eight bits is
    asked for in tables of each kind. Tests, not proofs. *)
From Coq Require Import List NArith Bool Arith.
From Verif Require Import FieldModel LookupModel.
Import ListNotations.
Local Open Scope N_scope.

Fixpoint put_in (h : N -> N) (x : entry N) (l : list (entry N)) : list (entry N) :=
  match l with [] => [x] | y :: r => if h (e_key x) <=? h (e_key y) then x :: l else y :: put_in h x r end.
Definition ordered (h : N -> N) (l : list (entry N)) : list (entry N) := fold_right (put_in h) [] l.
Definition of_keys (ks : list N) : input N := {| i_default := 999; i_entries := map (fun k => {| e_key := k; e_value := 2 * k + 1 |}) ks |}.
Definition key_sets : list (list N) :=
  [[]; [7]; [0]; [1; 2; 4; 8]; [238; 213; 44; 9; 4]; [238; 213; 44; 9; 4; 22; 8; 14; 110]; [0; 1; 2; 3; 4; 5; 6; 7; 8; 9; 10; 11; 12; 13; 14; 15];
   [255; 254; 253; 127; 63; 31; 15; 7; 3; 1; 0]; [16; 32; 48; 64; 80; 96; 112; 128; 144; 160; 176; 192; 208; 224; 240; 255]].
Definition asked : list N := map N.of_nat (seq 0 256).
Definition answers_right (ks : list N) (l : option (lookup_impl N)) : bool :=
  match l with
  | Some l => forallb (fun k => match query l k with Some (Done v, _) => v =? (if existsb (N.eqb k) ks then 2 * k + 1 else 999) | _ => false end) asked
  | None => false
  end.
Example C23_case_all : forallb (fun ks => let i := of_keys ks in
    answers_right ks (make ordered 8 i) && answers_right ks (pext_make ordered 8 true 1 i) && answers_right ks (pext_make ordered 8 true 2 i)
    && answers_right ks (pext_make ordered 8 true 3 i) && answers_right ks (pext_make ordered 8 false 1 i)) key_sets = true.
Proof. vm_compute. reflexivity. Qed.
Definition kind (l : option (lookup_impl N)) : option nat :=
  option_map (fun l => match l with Linear _ => 0 | Indirect _ _ _ _ _ _ _ => 1 | Direct _ _ _ _ => 2 | Empty _ => 3 | Failed => 4 end)%nat l.
Definition search_of (l : option (lookup_impl N)) : option N := match l with Some (Indirect _ _ _ _ n _ _) => Some n | _ => None end.
(** Four keys are searched one by one, five are not; the same key twice is refused
    by the compressed lookup, and means its last value in the other. *)
Example C23_case_kinds : map (fun ks => kind (make ordered 8 (of_keys ks))) [[1; 2; 4; 8]; [1; 2; 4; 8; 16]] = [Some 0; Some 1]%nat /\
  pext_make ordered 8 true 2 (of_keys [1; 2; 1]) = None /\ pext_make ordered 8 false 2 (of_keys [1; 2]) = None /\
  option_map (fun l => query l 3) (linear_make 4 {| i_default := 0; i_entries := [{| e_key := 3; e_value := 1 |}; {| e_key := 3; e_value := 2 |}] |}) = Some (Some (Done 2, 2%nat)).
Proof. vm_compute. auto. Qed.
Example C25_case_search : map (fun n => search_of (pext_make ordered 8 true n (of_keys [238; 213; 44; 9; 4; 22; 8; 14; 110]))) [1; 2; 3] = [Some 1; Some 3; Some 3].
Proof. vm_compute. reflexivity. Qed.
(** The mask loses bits only as long as no run gets longer than the maximum. *)
Example C25_case_dense : map (fun n => search_of (pext_make ordered 8 true n (of_keys (map N.of_nat (seq 0 64))))) [1; 2; 3] = [Some 1; Some 2; Some 4].
Proof. vm_compute. reflexivity. Qed.
(** Keys that need a table of 2^21 places. *)
Example C24_case_large : match pext_make ordered 32 false 1 (of_keys (map (fun i => 2 ^ N.of_nat i) (seq 0 22))) with Some _ => true | None => false end = true.
Proof. vm_compute. reflexivity. Qed.
Example C25_case_runs : map count_longest_run [[]; [5]; [1; 1; 2]; [1; 2; 2; 2; 3; 3]; [4; 1; 4; 1; 1]] = [0; 0; 1; 2; 2].
Proof. vm_compute. reflexivity. Qed.
Example C24_case_index : map uint_for [0; 255; 256; 65535; 65536] = [8; 8; 16; 16; 32].
Proof. vm_compute. reflexivity. Qed.

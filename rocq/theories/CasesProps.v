(** Computed cases beside the theorems of other files: each compares what the
    model computes with a fixed answer. Some answers were worked out by hand or by
    brute force; many, in all the files of cases, are the model's own output,
    recorded after a first guess was wrong or because the output is long. Of those,
    the ones for C48, C103, C107, C108, C119 to C121, C144 and C158 were afterwards
    followed through the source by hand; the others, such as those for C113, C149
    and C151, were not. So the cases fix what the model does and show that an edit changes
    it; those not followed are no evidence that the model agrees with the code. They are tests, not proofs. *)
From Coq Require Import List NArith ZArith Bool Arith.
From Verif Require Import FieldModel MatchModel MatchSpec FieldMatchersModel FieldMatchersSpec MessageModel HandlerModel.
From Verif Require FieldOpsModel.
Import ListNotations.

(** ** C02, C146: implication between conditions on a byte field *)
Definition ops : list relop := [RLt; RLe; RGt; RGe; REq; RNe].
Definition few : list Z := [2; 3; 4]%Z.
Definition values : list Z := [0; 1; 2; 3; 4; 5; 6; 7]%Z.
Definition truly (o1 : relop) (x : Z) (o2 : relop) (y : Z) : bool := forallb (fun v => negb (relb o1 v x) || relb o2 v y) values.
Definition said (o1 : relop) (x : Z) (o2 : relop) (y : Z) : bool := match rel_implies (CInt 8 false) o1 x o2 y with Some b => b | None => false end.
Definition pairs_where (p : relop -> Z -> relop -> Z -> bool) : list (relop * relop) :=
  filter (fun oo => existsb (fun x => existsb (fun y => p (fst oo) x (snd oo) y) few) few) (list_prod ops ops).
(** Said but not true: only for two inequalities. *)
Example C02_case_unsound : pairs_where (fun o1 x o2 y => said o1 x o2 y && negb (truly o1 x o2 y)) = [(RNe, RNe)].
Proof. vm_compute. reflexivity. Qed.
(** True but not said: never, for constants away from the ends of the type. *)
Example C146_case_missed : pairs_where (fun o1 x o2 y => negb (said o1 x o2 y) && truly o1 x o2 y) = [].
Proof. vm_compute. reflexivity. Qed.
Example C02_case_fields : map (fun g => leaf_implies (fun _ => CInt 8 false) (Rel 0 REq 3) (Rel g RLt 5)) [0; 1] = [true; false].
Proof. vm_compute. reflexivity. Qed.
Example C22_case_inverse : forallb (fun o => forallb (fun v => Bool.eqb (relb (inverse_op o) v 3) (negb (relb o v 3))) values) ops = true.
Proof. vm_compute. reflexivity. Qed.
Example C22_case_constraints : map (fun c => map (fun v => eval (leaf_sem (fun _ (e : Z) => e) (fun _ _ => true)) (constraint_matcher (fun _ => CInt 8 false) 0 c) v) [2; 3; 4]%Z)
    [WithEqualTo 3; WithIn [2; 4]; WithGreaterThan 3; WithGreaterThanOrEqualTo 3; WithLessThan 3; WithLessThanOrEqualTo 3]%Z =
  [[false; true; false]; [true; false; true]; [false; false; true]; [false; true; true]; [true; true; false]; [true; true; false]].
Proof. vm_compute. reflexivity. Qed.

(** ** C01, C03, C04: expressions over three unrelated leaves, for all events *)
Section Three.
Let lq : nat -> nat -> bool := Nat.eqb.
Let ln : nat -> option nat := fun _ => None.
Let a : mexpr nat := Leaf 0. Let b : mexpr nat := Leaf 1. Let c : mexpr nat := Leaf 2.
Definition events : list (nat * (nat * nat)) := list_prod [0; 1] (list_prod [0; 1] [0; 1]).
Definition holds (l : nat) (e : nat * (nat * nat)) : bool := Nat.eqb 1 (match l with 0 => fst e | 1 => fst (snd e) | _ => snd (snd e) end).
Definition small : list (mexpr nat) := [a; b; Not c; Always; Never; And a b; Or a c; Not (Or b c)].
Definition medium : list (mexpr nat) :=
  small ++ flat_map (fun x => Not x :: flat_map (fun y => [And x y; Or x y; And (Not x) (Not y); Or (Not x) (Not y); Not (And x y); Not (Or x y)]) small) small.
Definition alike (x y : mexpr nat) : bool := forallb (fun e => Bool.eqb (eval holds x e) (eval holds y e)) events.
Example C01_case_all : forallb (fun m => alike (simplify nat lq lq ln m) m && alike (op_not nat lq lq ln m) (Not m)) medium = true.
Proof. vm_compute. reflexivity. Qed.
Example C01_case_lists : forallb (fun x => forallb (fun y =>
    alike (match_all nat lq lq ln [x; y; a]) (And (And x y) a) && alike (match_any nat lq lq ln [x; y; a]) (Or (Or x y) a)) small) small = true /\
  match_all nat lq lq ln [] = Always /\ match_any nat lq lq ln [] = Never.
Proof. vm_compute. auto. Qed.
Example C04_case_sound : forallb (fun x => forallb (fun y => negb (implies nat lq lq x y) || forallb (fun e => negb (eval holds x e) || eval holds y e) events) medium) medium = true.
Proof. vm_compute. reflexivity. Qed.
(** What simplification finds: the parts of a conjunction and of a disjunction,
    contradictions, and De Morgan only where it is cheaper. *)
Example C01_case_found : map (simplify nat lq lq ln) [And a (Or a b); And (Or a b) a; And (And a b) a; Or a (And a b); Or (And a b) a; And a (Not a); Or a (Not a); And (Not a) (Not b); And (Not a) b; Or b (Not c)] =
  [a; a; And a b; a; a; Never; Always; Not (Or a b); And (Not a) b; Or b (Not c)].
Proof. vm_compute. reflexivity. Qed.
Example C03_case_all : forallb (fun m => alike (sum_of_products nat ln m) m && match sopF nat ln 200 m with Some s => meqb nat lq s (sum_of_products nat ln m) | None => false end) medium = true.
Proof. vm_compute. reflexivity. Qed.
End Three.
(** De Morgan at equal cost is not applied: the negation of a condition on a field
    is a condition, that of a predicate is not. *)
Example C131_case_equal : let ty := fun _ : nat => CInt 8 false in
  let p := Leaf (Pred 0) in let f := Leaf (Rel 0 RLt 3) in
  (fsimplify ty (And (Not p) f), fsimplify ty (Or (Not p) f)) = (And (Not p) f, Or (Not p) f).
Proof. vm_compute. reflexivity. Qed.

(** ** C08, C09, C10: fields of several places against bits read one by one *)
Definition bit_at (es : N) (st : list N) (k : N) : bool := N.testbit (nth (N.to_nat (k / es)) st 0%N) (k mod es).
Definition places (a : at_) : list N := map (fun i => (a_lsb a + N.of_nat i)%N) (rev (seq 0 (N.to_nat (at_size a)))).
Definition by_bits (es : N) (ats : list at_) (st : list N) : N :=
  fold_left (fun v k => (2 * v + if bit_at es st k then 1 else 0)%N) (flat_map places ats) 0%N.
Definition at2 (m l : N) : at_ := {| a_msb := m; a_lsb := l |}.
(** Places within an element, over two, over three and over all of them; fields of
    one place, of two in both orders, and of a whole element. *)
Definition fields_tried : list (N * list at_) :=
  [(8, [at2 6 2]); (8, [at2 7 0]); (8, [at2 11 5]); (16, [at2 18 4]); (16, [at2 23 8]); (32, [at2 30 1]); (32, [at2 31 0]);
   (8, [at2 2 0; at2 13 11]); (8, [at2 13 11; at2 2 0]); (16, [at2 27 20; at2 9 3]); (32, [at2 34 32; at2 21 3]); (64, [at2 60 2]); (64, [at2 40 9; at2 3 0])]%N.
Definition storages : list (N * list N) :=
  [(8, [0xA5; 0x3C; 0x71; 0x0F; 0x96; 0xE8; 0x1B; 0xD2]); (16, [0x5AC3; 0xE718; 0x0FF1; 0x9624]); (32, [0xC3A5E718; 0x9624F00D]); (8, [255; 255; 255; 255; 255; 255; 255; 255])]%N.
Definition done_with {A} (o : outcome A) (p : A -> bool) : bool := match o with Done x => p x | _ => false end.
Example C08_case_reads : forallb (fun f => forallb (fun s =>
    done_with (field_extract (fst s) (fst f) (map at_loc (snd f)) (snd s)) (fun v => N.eqb v (by_bits (fst s) (snd f) (snd s)))) storages) fields_tried = true.
Proof. vm_compute. reflexivity. Qed.
(** In elements of 64 bits, for places that start in an even dword. *)
Example C10_case_wide : forallb (fun f => done_with (field_extract 64 (fst f) (map at_loc (snd f)) [0xC3A5E7189624F00D; 0x1122334455667788]%N)
    (fun v => N.eqb v (by_bits 64 (snd f) [0xC3A5E7189624F00D; 0x1122334455667788]%N))) [(8, [at2 7 3]); (32, [at2 40 20]); (64, [at2 63 0]); (64, [at2 70 20]); (64, [at2 90 64; at2 31 2])]%N = true.
Proof. vm_compute. reflexivity. Qed.
(** A value written is there, and all other bits are as before. *)
Definition covered (ats : list at_) (k : N) : bool := existsb (N.eqb k) (flat_map places ats).
Example C08_case_writes : forallb (fun f => forallb (fun s => forallb (fun v =>
    let v := (v mod 2 ^ N.of_nat (length (flat_map places (snd f))))%N in
    done_with (field_insert (fst s) (fst f) (map at_loc (snd f)) v (snd s)) (fun st =>
      N.eqb (by_bits (fst s) (snd f) st) v && Nat.eqb (length st) (length (snd s)) && forallb (fun e => N.ltb e (2 ^ fst s)) st &&
      forallb (fun i => let k := N.of_nat i in covered (snd f) k || Bool.eqb (bit_at (fst s) st k) (bit_at (fst s) (snd s) k)) (seq 0 64)))
    [0; 1; 0x5A5A5A5A5A5A5A5A; 0xFFFFFFFFFFFFFFFF]%N) storages) fields_tried = true.
Proof. vm_compute. reflexivity. Qed.

(** ** C13, C18, C55: messages *)
Definition mf (n : nat) (b : N) (d : fdefault) (m l : N) : mfield := {| f_name := n; f_bytes := b; f_default := d; f_match := Always; f_ats := [at2 m l] |}.
Definition two : list mfield := [mf 1 1 (DDefault 5) 7 0; mf 2 1 DWithout 11 8]%N.
Example C13_case_order : construct 16 1 two [(2%nat, 3); (1%nat, 6); (1%nat, 7)]%N = Some (Done [0x0307]%N).
Proof. vm_compute. reflexivity. Qed.
Example C13_case_cast : m_set 16 two [(1%nat, 0x1FE)]%N [0]%N = Some (Done [0xFE]%N).
Proof. vm_compute. reflexivity. Qed.
Example C13_case_mutable : map (fun d => match m_set 16 [mf 1 1 d 7 0]%N [(1%nat, 1)]%N [0]%N with Some _ => true | None => false end) [DDefault 0; DConst 0; DWithout; DUninit]%N = [true; false; true; false].
Proof. vm_compute. reflexivity. Qed.
Example C13_case_copy : copy_storage 3 [1; 2]%N = [1; 2; 0]%N /\ copy_storage 1 [1; 2]%N = [1]%N.
Proof. vm_compute. auto. Qed.
Definition marked : mfield := {| f_name := 1; f_bytes := 1; f_default := DConst 9; f_match := Not Never; f_ats := [at2 7 0] |}%N.
Example C55_case_rename : option_map (map (fun f => (f_name f, f_default f, f_match f))) (rename_field [marked; mf 2 1 DUninit 15 8]%N 1 3) = Some [(3%nat, DConst 9, Not Never); (2%nat, DUninit, Always)]%N /\
  rename_field [marked; mf 2 1 DUninit 15 8]%N 1 1 <> None /\ rename_field [marked; mf 2 1 DUninit 15 8]%N 1 2 = None.
Proof. vm_compute. repeat split; discriminate. Qed.
Example C18_case_shift : shift_field 8 marked = {| f_name := 1; f_bytes := 1; f_default := DConst 9; f_match := Not Never; f_ats := [at2 15 8] |}%N.
Proof. vm_compute. reflexivity. Qed.

(** ** C19, C20, C21: handlers of callbacks on a byte *)
Definition byte_sem : leaf -> Z -> bool := leaf_sem (fun _ (e : Z) => e) (fun _ _ => true).
Definition cbs3 : list (callback leaf) :=
  [{| cb_id := 10; cb_matcher := Leaf (Rel 0 RLt 5) |}; {| cb_id := 11; cb_matcher := Leaf (Rel 0 REq 3) |}; {| cb_id := 12; cb_matcher := Leaf (Rel 0 REq 7) |}]%Z.
Example C19_case_runs : map (handle byte_sem cbs3) [3; 7; 9]%Z =
  [([Ran 10; Ran 11], true); ([Ran 12], true); ([LogUnclaimed; LogMismatch 10; LogMismatch 11; LogMismatch 12], false)].
Proof. vm_compute. reflexivity. Qed.
Example C19_case_added : map (fun c => cb_id c) (builder_add (builder_add [] (firstn 1 cbs3)) (skipn 1 cbs3)) = [10; 11; 12].
Proof. vm_compute. reflexivity. Qed.
(** Two fields, the first indexed: the value 1, the value 2 with a bound on the
    first field as well, and a condition on the second field only. *)
Definition pair_fld (f : nat) (e : Z * Z) : Z := match f with 0 => fst e | _ => snd e end.
Definition idx3 : list (callback leaf) :=
  [{| cb_id := 20; cb_matcher := Leaf (Rel 0 REq 1) |}; {| cb_id := 21; cb_matcher := And (Leaf (Rel 0 REq 2)) (Leaf (Rel 1 RLt 4)) |};
   {| cb_id := 22; cb_matcher := And (Leaf (Rel 1 REq 3)) (Leaf (Rel 0 RGt 1)) |}]%Z.
Example C20_case_runs : map (indexed_handle (fun _ => CInt 8 false) pair_fld (fun _ _ => true) [0] (indexed_add (fun _ => CInt 8 false) [] idx3)) [(1, 9); (1, 3); (2, 3); (2, 4); (3, 3); (3, 4)]%Z =
  [([Ran 20], true); ([Ran 20], true); ([Ran 21; Ran 22], true); ([LogUnclaimed], false); ([Ran 22], true); ([LogUnclaimed], false)].
Proof. vm_compute. reflexivity. Qed.
Example C21_case_match : map (fun e => indexed_is_match pair_fld [0] (firstn 2 idx3) e) [(1, 9); (2, 9); (3, 9)]%Z = [true; true; false].
Proof. vm_compute. reflexivity. Qed.
(** A callback that is candidate and refuses does not take back that another ran. *)
Example C20_case_later : indexed_handle (fun _ => CInt 8 false) pair_fld (fun _ _ => true) [0] (firstn 1 idx3 ++ [{| cb_id := 23; cb_matcher := Leaf (Rel 1 REq 5) |}]%Z) (1, 3)%Z = ([Ran 20], true).
Proof. vm_compute. reflexivity. Qed.

(** ** C150: field types made from others *)
Import FieldOpsModel.
Local Open Scope N_scope.
Definition made_by (os : list fop) : option (fdefault * option constraint) :=
  option_map (fun c => (f_default (c_field c), option_map snd (c_matcher c))) (frun os (fresh 1 1)).
Example C150_case_parts : map made_by
    [[]; [Constrained (KGt 3); Typed 2]; [Defaulted (DDefault 7); Typed 2]; [Required 9]; [Constrained (KEq 4); Defaulted (DDefault 8)]; [Defaulted (DDefault 256)]; [Defaulted (DConst 3); Constrained (KEq 4)]] =
  [Some (DDefault 0, None); Some (DDefault 0, None); Some (DDefault 0, None); Some (DConst 9, Some (KEq 9)); Some (DDefault 8, Some (KEq 4)); None; None].
Proof. vm_compute. reflexivity. Qed.
Example C150_case_meets : map (fun k => map (meets k) [2; 3; 4]) [KEq 3; KIn [2; 4]; KGt 3; KGe 3; KLe 3] =
  [[false; true; false]; [true; false; true]; [false; false; true]; [false; true; true]; [true; true; false]].
Proof. vm_compute. reflexivity. Qed.

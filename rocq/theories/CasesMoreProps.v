(** Computed cases for catalogs, JSON, descriptions, configurations, start-up and places (see CasesProps.v).
    Tests, not proofs. *)
From Coq Require Import String Ascii List Bool Arith ZArith NArith.
From Verif Require CatalogModel JsonModel DescribeModel NexusModel ConfigModel PlaceModel CycleModel MatchModel FieldMatchersModel MessageModel FieldModel.
Import ListNotations.
Local Open Scope string_scope.

(** ** C43 to C48: catalogs *)
Section Catalogs.
Import CatalogModel.
Local Open Scope Z_scope.
Definition m (t : string) (i : Z) : entry := {| m_text := t; m_args := []; m_id := i; m_extra := 0 |}.
Fixpoint letters (s : string) : Z := match s with EmptyString => 0 | String a r => Z.of_nat (nat_of_ascii a) + 256 * letters r end.
Definition key (e : entry) : Z := letters (m_text e).
(** An old entry (z, id 5) that is not used any more is kept unless it is to be forgotten; its id is not
    given away; an entry pinned in the source overrides; the new ones are numbered in the order of their texts. *)
Example C43_case_runs :
  run key false [(0, 1)] [Some [m "z" 5; m "b" 9]] [m "c" (-1); m "a" 2; m "b" (-1); m "d" (-1)] = ([m "a" 2; m "b" 9; m "c" 3; m "d" 4], [m "a" 2; m "b" 9; m "c" 3; m "d" 4; m "z" 5]) /\
  run key true [(0, 1)] [Some [m "z" 5; m "b" 9]] [m "c" (-1); m "a" 2; m "b" (-1); m "d" (-1)] = ([m "a" 2; m "b" 9; m "c" 3; m "d" 4], [m "a" 2; m "b" 9; m "c" 3; m "d" 4]).
Proof. vm_compute. auto. Qed.
Example C63_case_limit : map (check_limit 5) [[m "a" 5]; [m "a" 6]; []; [m "a" 1; m "b" 9]] = [true; false; true; false].
Proof. vm_compute. reflexivity. Qed.
Example C43_case_equal : map (fun ab => entry_eqb (fst ab) (snd ab)) [(m "a" 1, m "a" 1); (m "a" 1, m "a" 2); (m "a" 1, m "b" 1); (m "a" 1, {| m_text := "a"; m_args := ["x"]; m_id := 1; m_extra := 0 |});
    (m "a" 1, {| m_text := "a"; m_args := []; m_id := 1; m_extra := 7 |})] = [true; false; false; false; false].
Proof. vm_compute. reflexivity. Qed.
(** Two entries of one text keep the order in which they came. *)
Example C43_case_stable : map m_id (sorted [m "b" 1; m "a" 2; m "b" 3; m "a" 4]) = [2; 4; 1; 3].
Proof. vm_compute. reflexivity. Qed.
Example C47_case_spaces : map (fun n => is_space (ascii_of_nat n)) [8; 9; 13; 14; 27; 28; 31; 32; 33]%nat = [false; true; true; false; false; true; true; true; false].
Proof. vm_compute. reflexivity. Qed.
End Catalogs.

(** ** C153: JSON texts *)
Section Texts.
Import JsonModel.
Local Open Scope Z_scope.
Example C153_case_numbers : map (fun s => loads (lit s)) ["-15"; "120"; "[1, -2]"; "[1 2]"; "[1,]"; "07"; "[]"; "[1"; "[1,"; "[1, 2"] =
  [Some (VNum (-15)); Some (VNum 120); Some (VList [VNum 1; VNum (-2)]); None; None; None; Some (VList []); None; None; None].
Proof. vm_compute. reflexivity. Qed.
Example C153_case_keys : map key_text [KNum (-3); KNum 10; KText (lit "x")] = [lit "-3"; lit "10"; lit "x"].
Proof. vm_compute. reflexivity. Qed.
Example C153_case_lines : map from_file [[97; 13; 10; 98]; [13; 13; 10]; [10; 13]] = [[97; 10; 98]; [10; 10]; [10; 10]].
Proof. vm_compute. reflexivity. Qed.
Definition na (b e : Z) : named := {| n_name := lit "x"; n_begin := b; n_end := e |}.
Example C153_case_places : map (fun a => to_named (of_named a)) [na 2 2; na 2 1; na 2 7] = [Some (na 2 2); Some (na 2 1); Some (na 2 7)] /\
  map (fun a => match item "loc" (of_named a) with Some (VText t) => Some t | _ => None end) [na 2 2; na 2 1; na 12 70] = [Some (lit "[2:2]"); None; Some (lit "[12:70]")].
Proof. vm_compute. auto. Qed.
Example C153_case_members : match catalog [] [] [] with VDict l => map fst l | _ => [] end = [KText (lit "messages"); KText (lit "modules"); KText (lit "enums")].
Proof. vm_compute. reflexivity. Qed.
End Texts.

(** ** C76, C77: descriptions *)
Section Descriptions.
Import MatchModel FieldMatchersModel DescribeModel.
Local Open Scope Z_scope.
Definition is_ten : mexpr (dleaf Z) := Leaf (DRel "f" (fun e => e) REq 10).
Definition below : mexpr (dleaf Z) := And is_ten (Not (Leaf (DPred "g" (fun e => e + 1) (fun v => v <? 5)))).
Example C77_case_lines :
  handle_line "cb" below "" 10 true = Some "Incoming message matched [cb], because [(f == 0xa) and (not (<predicate>(g)))], executing callback" /\
  handle_line "cb" below "" 10 false = None /\ collapsed is_ten = " (collapsed by index from [f == 0xa])" /\
  mismatch_line "cb" below 17 = "    cb - F:((f (0x11) == 0xa) and (not (<predicate>(g(0x12)))))".
Proof. vm_compute. auto. Qed.
Example C77_case_meaning : map (fun o => (dsem (DRel "f" (fun e => e) o 10) 9, dsem (DRel "f" (fun e => e) o 10) 10, dsem (DRel "f" (fun e => e) o 10) 11)) [REq; RNe; RLt; RLe; RGt; RGe] =
  [(false, true, false); (true, false, true); (true, false, false); (true, true, false); (false, false, true); (false, true, true)].
Proof. vm_compute. reflexivity. Qed.
End Descriptions.

(** ** C132: the text of an interrupt configuration *)
Section Configurations.
Import ConfigModel.
Definition ty (c n : option string) (s : string) : type := {| t_config := c; t_name := n; t_spelling := s |}.
Definition en := ty None None "enable_t".
Example C132_case_text : manager_text [Container "top" (Mcu 300 7 en) (ty (Some "policies<>") (Some "no") "nope")
    [Element "a" (Fields en (ty None None "status_t")) (ty None None "policies_t") [ty None (Some "flow") "flow_t"]; Element "b" (Fields en en) en []]] =
  "interrupt::root<interrupt::shared_irq<""top"", 300_irq, 7, enable_t, policies<>, interrupt::sub_irq<""a"", enable_t, status_t, policies_t, flow>, interrupt::sub_irq<""b"", enable_t, enable_t, enable_t>>>".
Proof. vm_compute. reflexivity. Qed.
End Configurations.

(** ** C152: places *)
Section Places.
Import FieldModel MessageModel PlaceModel.
Local Open Scope N_scope.
Definition bits_at (l m : N) : at_ := {| a_lsb := l; a_msb := m |}.
Example C152_case_valid : map at32_valid [bits_at 0 63; bits_at 0 64; bits_at 5 4; bits_at 5 5; bits_at 6 4; bits_at 0 40] = [true; false; false; true; false; true].
Proof. vm_compute. reflexivity. Qed.
Definition f (n : nat) (l m : N) : mfield := {| f_name := n; f_bytes := 4; f_default := DDefault 0; f_match := MatchModel.Always; f_ats := [bits_at l m] |}.
Example C152_case_names : map (fun l => match message32 l with Some r => Some (map f_name r) | None => None end) [[f 1 0 3; f 2 4 7]; [f 1 0 3; f 1 4 7]; [f 1 0 3; f 1 0 3]] = [Some [1; 2]%nat; None; None].
Proof. vm_compute. reflexivity. Qed.
End Places.

(** ** C159: benchmark data *)
Example C159_case_cycle : CycleModel.values [3; 1; 4]%N = [1; 4; 3]%N /\
  CycleModel.table_text 2 CycleModel.Uint16 [(1, 2); (2, 1)]%N = "constexpr auto exp_uint16_2 = std::array<std::pair<std::uint16_t, std::uint16_t>, 2>{{" ++ CycleModel.nl ++
    "    " ++ CycleModel.pair_text (1, 2)%N ++ "," ++ CycleModel.nl ++ "    " ++ CycleModel.pair_text (2, 1)%N ++ CycleModel.nl ++ "}};" ++ CycleModel.nl.
Proof. vm_compute. auto. Qed.

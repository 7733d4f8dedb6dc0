(** Computed cases for catalog files, environments of messages and subscripts (see CasesProps.v). Tests, not
    proofs. *)
From Coq Require Import String Ascii Bool Arith List NArith ZArith.
From Verif Require CatalogModel CatalogProps GenModel SymbolModel JsonModel FileModel ManyModel FieldModel MessageModel MatchModel LogModel MsgEnvModel AccessModel SubscriptModel MessageProps.
Import ListNotations.

(** ** C155, C157: catalog files *)
Section Files.
Import CatalogModel CatalogProps GenModel SymbolModel JsonModel FileModel ManyModel.
Local Open Scope Z_scope.
Local Open Scope string_scope.
Definition of_num (n : N) : extras := if N.eqb n 0 then ([{| n_name := lit "level"; n_begin := 2; n_end := 4 |}], []) else ([], []).
Definition as_num (x : extras) : N := match fst x with [] => 1 | _ => 0 end%N.
Definition old_file : text := save false (catalog [{| g_text := lit "x {}"; g_args := [lit "encode_32<int>"]; g_id := 9; g_named := fst (of_num 0); g_tags := [] |}] [{| d_text := lit "p"; d_id := 4 |}; {| d_text := lit "q"; d_id := 8 |}] []).
Definition v : given := {| v_key := msg_key num; v_module_key := msg_key num; v_reserved := [(1, 2)]; v_messages := [CatalogProps.number; hello]; v_modules := [mk "m" [] (-1); mk "p" [] (-1)];
  v_enums := [(lit "E", [(lit "a", 0); (lit "b", 1)])]; v_crlf := false |}.
Definition w : given := {| v_key := msg_key num; v_module_key := msg_key num; v_reserved := []; v_messages := [hello]; v_modules := [mk "p" [] (-1)]; v_enums := []; v_crlf := false |}.
Definition shown (l : list entry) : list (string * list string * Z) := map (fun e => (m_text e, m_args e, m_id e)) l.
Definition ids_ (r : option (list entry * list entry * text)) := option_map (fun p => (shown (fst (fst p)), shown (snd (fst p)))) r.
Definition back (r : option (list entry * list entry * text)) := match r with Some (_, _, t) => option_map (fun p => (shown (fst p), shown (snd p))) (read_catalog as_num (Some t)) | None => None end.
Definition read (s : string) := option_map (fun p => (shown (fst p), shown (snd p))) (read_catalog as_num (Some (lit s))).
(** The file with an empty list is refused by this model but not by the code (UpdateModel.v, C157_empty_files). *)
Example C155_case_read : map read ["{""modules"": [{""string"": ""b"", ""id"": 4}]}"; "[]"; "{""modules"": [{""string"": 5}]}"; "{}"; "{"; "7"] = [Some ([], [("b", [], 4)]); None; None; Some ([], []); None; None].
Proof. vm_compute. reflexivity. Qed.
Definition x9 : string * list string * Z := ("x {}", ["encode_32<int>"], 9).
Definition x3 : string * list string * Z := ("x {}", ["encode_32<int>"], 3).
Example C155_case_ids : map (fun r => (ids_ r, back r)) [run_file as_num of_num None v; run_file as_num of_num (Some old_file) w; run_file as_num of_num (Some (lit "7")) w] =
  [(Some ([("hello", [], 0); x3], [("m", [], 0); ("p", [], 1)]), Some ([("hello", [], 0); x3], [("m", [], 0); ("p", [], 1)]));
   (Some ([("hello", [], 0)], [("p", [], 4)]), Some ([("hello", [], 0); x9], [("p", [], 4); ("q", [], 8)])); (None, None)].
Proof. vm_compute. reflexivity. Qed.
Example C157_case_ids : map (fun r => (ids_ r, back r)) [run_many as_num of_num [old_file] [] v; run_many as_num of_num [old_file] [] w; run_many as_num of_num [old_file; lit "{""modules"": []}"] [] w] =
  [(Some ([("hello", [], 0); x9], [("m", [], 0); ("p", [], 4)]), Some ([("hello", [], 0); x9], [("m", [], 0); ("p", [], 4); ("q", [], 8)]));
   (Some ([("hello", [], 0)], [("p", [], 4)]), Some ([("hello", [], 0); x9], [("p", [], 4); ("q", [], 8)])); (Some ([("hello", [], 0)], [("p", [], 0)]), Some ([("hello", [], 0); x9], [("p", [], 0)]))].
Proof. vm_compute. reflexivity. Qed.
Definition en := add_enums [(KText (lit "E"), [(KNum 1, VText (lit "a"))]); (KText (lit "F"), [])].
Example C157_case_enums : let made := Some [(KText (lit "enums"), VDict [(KText (lit "E"), VDict [(KNum 1, VText (lit "a"))]); (KText (lit "F"), VDict [])])] in
  map en [[(KText (lit "enums"), VDict [])]; [(KText (lit "enums"), VDict [(KText (lit "E"), VNum 3)])]; []] = [made; None; None].
Proof. vm_compute. reflexivity. Qed.
Example C157_case_names :
  (names_of [(lit "a", 1); (lit "b", 2); (lit "c", 1)],
   match run_many as_num of_num [] [] v with Some (_, _, t) => match load t with Some (VDict d) => GenModel.get key_eqb (KText (lit "enums")) d | _ => None end | None => None end) =
  ([(KNum 1, VText (lit "c")); (KNum 2, VText (lit "b"))], Some (VDict [(KText (lit "E"), VDict [(KText (lit "0"), VText (lit "a")); (KText (lit "1"), VText (lit "b"))])])).
Proof. vm_compute. reflexivity. Qed.
End Files.

(** ** C151: environments of messages *)
Section Env.
Import MessageModel LogModel MsgEnvModel.
Definition f_of (n : nat) (ats : list FieldModel.at_) : mfield := {| f_name := n; f_bytes := 1; f_default := DDefault 0; f_match := MatchModel.Always; f_ats := ats |}.
Definition byte_at (n : N) : list FieldModel.at_ := [ {| FieldModel.a_msb := n + 7; FieldModel.a_lsb := n |} ]%N.
Definition f0 := f_of 1 (byte_at 0).
Definition told (x : mexp) := option_map (fun m => (query (d_env m) k_level, query (d_env m) k_module, map f_name (d_fields m))) (define x).
Example C151_case_told :
  map told [WithEnv (Message [(k_level, 1)] [f0]) [(k_level, 2); (k_module, 7)]; Message [(k_level, 1); (k_module, 3)] [f0]; Relaxed [(k_level, 5)] [f0]; Relaxed [(k_level, 5)] [f_of 2 []; f0];
   Pack 8 []; Pack 8 [Message [(k_level, 1)] [f0]; Message [(k_level, 6)] [f_of 2 (byte_at 0)]]; Overlay []] =
  [Some (Some 2, Some 7, [1]); Some (Some 1, Some 3, [1]); Some (Some 5, None, [1]); Some (Some 5, None, [1; 2]); None; Some (Some 6, None, [1; 2]); None].
Proof. vm_compute. reflexivity. Qed.
End Env.

(** ** C148, C149: sets and subscripts *)
Section Sub.
Import FieldModel MessageModel AccessModel SubscriptModel MessageProps.
Local Open Scope N_scope.
Example C148_case_fields : map f_name (fields_named ex_msg [2; 9; 0; 1]%nat) = [2; 0; 1]%nat.
Proof. vm_compute. reflexivity. Qed.
Definition seen (p : list scommand) := option_map (fun o => match o with Done (_, l) => Some l | _ => None end) (srun 32 p sstart).
Definition two : list scommand := [Plain (Owner ex_msg 2 [(2%nat, 5)]); Plain (Owner ex_msg 2 [(2%nat, 6)]); Plain (View ex_msg 2 true (FromHandle 0) [])].
Example C149_case_copies :
  map (fun q => seen (two ++ q)) [[Copy false 0 2 1 2; Plain (Get 0 2)]; [Copy true 0 2 1 2; Plain (Get 0 2)]; [Copy false 0 2 1 1; Plain (Get 0 2)]; [Copy false 2 2 1 2; Plain (Get 0 2)];
   [Take true 0 2; Take true 1 2; Take false 0 2; Assign 0 2 7; Read 0; Read 1; Read 2]] =
  [None; Some (Some [Value 6]); Some (Some [Value 0xABC]); Some (Some [Value 6]); Some (Some [Value 5; Value 6; Value 7])].
Proof. vm_compute. reflexivity. Qed.
End Sub.

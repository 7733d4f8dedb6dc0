(** Computed cases for the log messages and their decoder, and for calls of matchers and callables
    (see CasesProps.v). Tests, not proofs. *)
From Coq Require Import String Ascii List Bool Arith ZArith NArith.
From Verif Require Import FieldModel MipiModel.
Import ListNotations.
Local Open Scope string_scope.
Local Open Scope N_scope.

(** ** C40, C41: log messages *)
Definition x64 : platform := {| long8 := true; char_signed := true |}.
(** The module id has seven bits, the short id twenty-eight. *)
Example C40_case_words :
  build x64 7 5 127 15 [] = Some (Done [5 * 16 + 1]) /\ build_short32 (2 ^ 28 - 1) = Some (Done [2 ^ 32 - 15]) /\
  build x64 7 5 127 15 [(Plain Int, 9)] = Some (Done [3 + 7 * 16 + 15 * 2 ^ 12 + 127 * 2 ^ 16 + 2 ^ 24; 5; 9]) /\
  build x64 7 5 255 15 [(Plain Int, 9)] = build x64 7 5 127 15 [(Plain Int, 9)].
Proof. vm_compute. auto. Qed.
Example C41_case_packed :
  map (fun a => packed x64 (fst a) (snd a)) [(Plain Short, 2 ^ 16 - 1); (Plain UShort, 2 ^ 16 - 1); (Plain SChar, 128); (Plain Int, 2 ^ 32 - 1); (Plain LongLong, 2 ^ 64 - 1)] =
  [2 ^ 32 - 1; 2 ^ 16 - 1; 2 ^ 32 - 128; 2 ^ 32 - 1; 2 ^ 64 - 1].
Proof. vm_compute. reflexivity. Qed.
Example C41_case_texts :
  map (encode_text x64) [Plain Int; Plain UInt; Plain LongLong; Plain ULong; Scoped "E" Int; Scoped "E" LongLong; Unscoped "U" UInt] =
  ["encode_32<int>"; "encode_u32<unsigned int>"; "encode_64<long long>"; "encode_u64<unsigned long>"; "encode_enum<E, int, 4>"; "encode_enum<E, long long, 8>"; "encode_u32<U>"].
Proof. vm_compute. reflexivity. Qed.
Definition ff (n : nat) : list N := repeat 255 n.
Example C41_case_convert :
  map (fun a => convert (fst a) (snd a)) [("short", ff 4); ("unsigned short", ff 4); ("long", ff 8); ("long", ff 4); ("unsigned long", ff 8); ("unsigned long", ff 4); ("int", ff 4); ("int", ff 3);
     ("bool", [1; 0; 0; 0]); ("int", ff 8); ("unknown", ff 4); ("long long", ff 4)] =
  [Ok (VInt (-1)); Ok (VInt 65535); Ok (VInt (-1)); Ok (VInt (-1)); Ok (VInt (2 ^ 64 - 1)); Ok (VInt (2 ^ 32 - 1)); Ok (VInt (-1)); Raised;
   Ok (VInt (-1)); Ok (VInt (-1)); Raised; Raised]%Z.
Proof. vm_compute. reflexivity. Qed.
Definition db : database := {|
  db_messages := fun i => if i =? 5 then Some [] else if i =? 6 then Some ["encode_32<int>"; "encode_u64<unsigned long>"] else if i =? 2 ^ 40 then Some [] else None;
  db_modules := fun m => if m <=? 127 then Some "m" else None; db_enums := fun _ _ => None |}.
Definition le4 (v : N) : list N := le_bytes 4 v.
Example C41_case_logs :
  map (fun ws => read_logs db (flat_map le4 ws))
    [[5 * 16 + 1; 5 * 16 + 1]; [3 + 7 * 16 + 2 ^ 7 + 15 * 2 ^ 12 + 127 * 2 ^ 16 + 2 ^ 24; 6; 2 ^ 32 - 1; 1; 1; 5 * 16 + 1]; [3 + 2 * 2 ^ 24; 5]; [7; 2 ^ 12]; [3 + 2 ^ 24]; [2]; []] =
  [([DShort 5; DShort 5], false); ([DCatalog 7 15 127 6 [VInt (-1); VInt (2 ^ 32 + 1)]; DShort 5], false); ([], true); ([DShort (2 ^ 40)], false); ([], true); ([], true); ([], false)].
Proof. vm_compute. reflexivity. Qed.

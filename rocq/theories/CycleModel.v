(** Model of tools/benchmark/gen_map_data.py: the data of the lookup benchmarks.

    Simplifications: the numbers int(random.expovariate(10) * (1 << n)) are given as a
    list ([draws]), which ends where the program is looked at; the order in which
    list() goes through a set is a parameter ([order]); the arguments are as argparse
    gives them. *)
From Coq Require Import String Ascii Bool Arith List NArith ZArith.
From Verif Require Import GenModel OutputModel.
Import ListNotations.
Local Open Scope N_scope.

(** The choices of --type (tools/benchmark/gen_map_data.py:33) *)
Inductive type := Uint32 | Uint16.
(** gen_fns (tools/benchmark/gen_map_data.py:52-55), of the number drawn *)
Definition gen_fn (t : type) (x : N) : N := match t with Uint16 => N.land x 65535 | Uint32 => x end.
(** The loop of gen_table (tools/benchmark/gen_map_data.py:9-11); None: it still goes on *)
Fixpoint collect (size : nat) (keys : list N) (draws : list N) : option (list N) :=
  if Nat.ltb (List.length keys) size then
    match draws with
    | [] => None
    | d :: r => collect size (if existsb (N.eqb d) keys then keys else d :: keys) r
    end
  else Some keys.
(** values (tools/benchmark/gen_map_data.py:16) *)
Definition values (keys : list N) : list N := (skipn 1 keys ++ firstn 1 keys)%list.
(** zip(keys, values) (tools/benchmark/gen_map_data.py:23) *)
Definition pairs (keys : list N) : list (N * N) := combine keys (values keys).
(** gen_table (tools/benchmark/gen_map_data.py:9-16, 23): the entries *)
Definition entries (order : list N -> list N) (size : nat) (t : type) (draws : list N) : option (list (N * N)) :=
  option_map (fun keys => pairs (order keys)) (collect size [] (map (gen_fn t) draws)).

(** ** The text *)
Local Open Scope string_scope.
(** {k:08x} has small letters where {k:08X} has capitals (tools/benchmark/gen_map_data.py:23) *)
Definition small (a : ascii) : ascii :=
  if ((65 <=? N_of_ascii a) && (N_of_ascii a <=? 70))%N%bool then ascii_of_N (N_of_ascii a + 32) else a.
(** tools/benchmark/gen_map_data.py:23 *)
Fixpoint smalls (s : string) : string := match s with EmptyString => EmptyString | String a r => String (small a) (smalls r) end.
(** 0x{k:08x}u (tools/benchmark/gen_map_data.py:23) *)
Definition literal (n : N) : string := smalls (hex8 n) ++ "u".
(** tools/benchmark/gen_map_data.py:23 *)
Definition pair_text (e : N * N) : string := "{" ++ literal (fst e) ++ ", " ++ literal (snd e) ++ "}".
(** tools/benchmark/gen_map_data.py:20, 54-55 *)
Definition type_text (t : type) : string := match t with Uint32 => "uint32" | Uint16 => "uint16" end.
(** A line feed (tools/benchmark/gen_map_data.py:20-25) *)
Definition nl : string := String "010"%char "".
(** The text of gen_table (tools/benchmark/gen_map_data.py:18-25) *)
Definition table_text (size : nat) (t : type) (es : list (N * N)) : string :=
  "constexpr auto exp_" ++ type_text t ++ "_" ++ str (Z.of_nat size) ++ " = std::array<std::pair<std::" ++ type_text t ++ "_t, std::"
  ++ type_text t ++ "_t>, " ++ str (Z.of_nat size) ++ ">{{" ++ nl ++ "    "
  ++ join_with ("," ++ nl ++ "    ") (map pair_text es) ++ nl ++ "}};" ++ nl.

(** What the data of the lookup benchmarks is for: a walk through all keys. *)
From Coq Require Import String Ascii Bool List NArith ZArith.
Import ListNotations.

(** From [a], looking up the last result [n] times gives [b]. *)
Inductive walk {A} (step : A -> A -> Prop) : nat -> A -> A -> Prop :=
| Stay a : walk step 0 a a
| Go n a b c : step a b -> walk step n b c -> walk step (S n) a c.
(** The walk from any member of [l] comes to every other in fewer steps than there are, one way only, and is back after as many steps
    as there are and not before. *)
Definition one_cycle {A} (step : A -> A -> Prop) (l : list A) : Prop :=
  (forall n a b b', walk step n a b -> walk step n a b' -> In a l -> b = b') /\
  (forall a b, In a l -> In b l -> exists n, n < List.length l /\ walk step n a b) /\
  (forall n a, In a l -> walk step n a a <-> exists m, n = m * List.length l).

(** A hexadecimal literal of C++ with the suffix u. *)
Local Open Scope string_scope.
Definition hex_value (a : ascii) : option N :=
  let n := N_of_ascii a in
  if ((48 <=? n) && (n <=? 57))%N%bool then Some (n - 48)%N
  else if ((97 <=? n) && (n <=? 102))%N%bool then Some (n - 87)%N
  else if ((65 <=? n) && (n <=? 70))%N%bool then Some (n - 55)%N else None.
Inductive hex_digits : N -> string -> N -> Prop :=
| HexEnd n : hex_digits n "" n
| HexMore n a d r m : hex_value a = Some d -> hex_digits (16 * n + d) r m -> hex_digits n (String a r) m.
Definition literal_is (s : string) (n : N) : Prop := exists d, s = "0x" ++ d ++ "u" /\ d <> "" /\ hex_digits 0 d n.
Definition pair_is (s : string) (e : N * N) : Prop :=
  exists a b, s = "{" ++ a ++ ", " ++ b ++ "}" /\ literal_is a (fst e) /\ literal_is b (snd e).
(** Initialisers, apart by commas and blanks. *)
Inductive initialisers : string -> list (N * N) -> Prop :=
| InitOne s e : pair_is s e -> initialisers s [e]
| InitMore s e gap r es : pair_is s e -> (forall a, In a (list_ascii_of_string gap) -> a = " "%char \/ a = "010"%char) ->
    initialisers r es -> initialisers (s ++ "," ++ gap ++ r) (e :: es).

(** What dict.update takes from a value read from a JSON file, said without the model's functions. *)
From Coq Require Import String Ascii Bool Arith List NArith ZArith.
From Verif Require Import JsonModel.
Import ListNotations.

(** A key as a value. *)
Inductive same : key -> value -> Prop :=
  | same_text t : same (KText t) (VText t)
  | same_num z : same (KNum z) (VNum z).
(** What counts as a key with a value. *)
Inductive is_pair : value -> key * value -> Prop :=
  | of_list k v x : same k v -> is_pair (VList [v; x]) (k, x)
  | of_text a b : is_pair (VText [a; b]) (KText [a], VText [b])
  | of_dict k u x w v : same x v -> is_pair (VDict [(k, u); (x, w)]) (k, v).
(** What a value gives. *)
Inductive gives : value -> list (key * value) -> Prop :=
  | from_dict d : gives (VDict d) d
  | from_list l e : Forall2 is_pair l e -> gives (VList l) e
  | from_empty : gives (VText []) [].

(** Specification of lookups: the map an input stands for. *)
From Coq Require Import List NArith Bool Permutation Sorting.Sorted.
From Verif Require Import LookupModel.
Import ListNotations.
Local Open Scope N_scope.

Section Spec.
Context {V : Type}.
(** [v] is the value the input gives to [k]. *)
Definition is_value (i : input V) (k : N) (v : V) : Prop :=
  In {| e_key := k; e_value := v |} (i_entries i) \/
  (~ In k (map e_key (i_entries i)) /\ v = i_default i).
Definition unique_keys (i : input V) : Prop := NoDup (map e_key (i_entries i)).
(** All keys are values of the key type. *)
Definition keys_in (w : N) (i : input V) : Prop := Forall (fun e => e_key e < 2 ^ w) (i_entries i).
(** What std::sort promises. *)
Definition sorts (srt : (N -> N) -> list (entry V) -> list (entry V)) : Prop :=
  forall h l, Permutation (srt h l) l /\ StronglySorted (fun a b => h (e_key a) <= h (e_key b)) (srt h l).
End Spec.

(** Key types. *)
Definition key_width (w : N) : Prop := w = 8 \/ w = 16 \/ w = 32 \/ w = 64.

(** The bits of [v] at the set bits of [mask], gathered to the bottom. *)
Fixpoint gather (n : nat) (mask v : N) : N :=
  match n with
  | O => 0
  | S n' => gather n' mask v +
            (if N.testbit mask (N.of_nat n') && N.testbit v (N.of_nat n')
             then 2 ^ popcount_upto n' mask else 0)
  end.

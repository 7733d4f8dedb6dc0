(** What the tables of an indexed service and its lookups are meant to do. *)
From Coq Require Import List Bool Arith ZArith NArith.
From Verif Require Import MatchModel MatchSpec FieldMatchersModel FieldMatchersSpec.
From Verif Require LookupModel LookupSpec.
Import ListNotations.
Local Open Scope Z_scope.

(** The value an association gives to a key. *)
Definition value_of {A} (d : A) (entries : list (Z * A)) (k : Z) (v : A) : Prop :=
  In (k, v) entries \/ (~ In k (map fst entries) /\ v = d).

(** The types of the fields a message can have. *)
Definition field_type (t : cty) : Prop :=
  match t with CInt w _ | CEnum w _ => w = 8 \/ w = 16 \/ w = 32 \/ w = 64 | CBool => True end.

(** The constants that matchers compare a field with: by == outside of negations, by != anywhere. *)
Inductive compares (f : nat) : fexpr -> Z -> Prop :=
| C_eq v : compares f (Leaf (Rel f REq v)) v
| C_ne v : compares f (Leaf (Rel f RNe v)) v
| C_and_l a b v : compares f a v -> compares f (And a b) v
| C_and_r a b v : compares f b v -> compares f (And a b) v
| C_or_l a b v : compares f a v -> compares f (Or a b) v
| C_or_r a b v : compares f b v -> compares f (Or a b) v
| C_not a v : differs f a v -> compares f (Not a) v
with differs (f : nat) : fexpr -> Z -> Prop :=
| D_ne v : differs f (Leaf (Rel f RNe v)) v
| D_and_l a b v : differs f a v -> differs f (And a b) v
| D_and_r a b v : differs f b v -> differs f (And a b) v
| D_or_l a b v : differs f a v -> differs f (Or a b) v
| D_or_r a b v : differs f b v -> differs f (Or a b) v
| D_not a v : differs f a v -> differs f (Not a) v.
(** [ks] lists them, each once. *)
Definition constants (f : nat) (ms : list fexpr) (ks : list Z) : Prop :=
  NoDup ks /\ forall k, In k ks <-> exists m, In m ms /\ compares f m k.

(** What handling a message is meant to do, in terms of what the user declared. *)
From Coq Require Import List Bool Arith ZArith.
From Verif Require Import MatchModel MatchSpec FieldMatchersModel FieldMatchersSpec HandlerModel.
Import ListNotations.

(** The callables that ran, in order, and the number of errors logged. *)
Definition ran (evs : list event) : list nat :=
  flat_map (fun ev => match ev with Ran i => [i] | _ => [] end) evs.
Definition errors (evs : list event) : nat :=
  length (filter (fun ev => match ev with LogUnclaimed => true | _ => false end) evs).

Section Declared.
Context {L E : Type}.
Variable sem : L -> E -> bool.

(** A callback as declared: an optional matcher, the matchers of the fields of
    its message, and the runtime conditions around it. *)
Record declaration := { d_id : nat; d_user : option (mexpr L); d_fields : list (mexpr L); d_conds : list L }.
Definition accepts (d : declaration) (e : E) : bool :=
  match d_user d with Some m => eval sem m e | None => true end
  && forallb (fun m => eval sem m e) (d_fields d)
  && forallb (fun c => sem c e) (d_conds d).
Definition decl_leaves (U : L -> Prop) (d : declaration) : Prop :=
  match d_user d with Some m => all_leaves U m | None => True end /\
  Forall (all_leaves U) (d_fields d) /\ Forall U (d_conds d).
End Declared.
Arguments declaration : clear implicits.

(** A conjunction of leaves and constants, and its leaves. *)
Fixpoint conj_of_leaves {L} (m : mexpr L) : Prop :=
  match m with
  | Leaf _ | Always | Never => True
  | And a b => conj_of_leaves a /\ conj_of_leaves b
  | _ => False
  end.
Fixpoint leaves {L} (m : mexpr L) : list L :=
  match m with
  | Leaf l => [l]
  | Always | Never => []
  | And a b | Or a b => leaves a ++ leaves b
  | Not a => leaves a
  end.

(** Conjunction of literals: the shape of a product term. *)
Fixpoint conj_of_literals (m : fexpr) : Prop :=
  match m with
  | Leaf _ | Always | Never | Not (Leaf (Pred _)) => True
  | And a b => conj_of_literals a /\ conj_of_literals b
  | _ => False
  end.

(** Conditions on the product terms for one indexed field. *)
Record index_clean (f : nat) (ms : list fexpr) : Prop := {
  one_eq : forall m v w, In m ms -> In (Rel f REq v) (leaves m) -> In (Rel f REq w) (leaves m) -> v = w;
  eq_or_ne : forall m v w, In m ms -> In (Rel f REq v) (leaves m) -> In (Rel f RNe w) (leaves m) -> False;
  one_ne : forall m v w, In m ms -> In (Rel f RNe v) (leaves m) -> In (Rel f RNe w) (leaves m) -> v = w;
  ne_distinct : forall i j m m' v, nth_error ms i = Some m -> nth_error ms j = Some m' ->
    In (Rel f RNe v) (leaves m) -> In (Rel f RNe v) (leaves m') -> i = j
}.

(** A leaf the index does not decide. *)
Definition kept (fs : list nat) (l : leaf) : Prop :=
  match l with Rel f (REq | RNe) _ => ~ In f fs | _ => True end.

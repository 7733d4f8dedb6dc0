(** Specification of requests and replies. *)
From Coq Require Import List Arith.
From Verif Require Import SendModel.
Import ListNotations.

Section Spec.
Context {V : Type}.
(** The values of the first run of a trigger. *)
Fixpoint first_run (t : nat) (es : list (event V)) : option (list V) :=
  match es with
  | [] => None
  | Ran u vs :: r => if Nat.eqb u t then Some vs else first_run t r
  | _ :: r => first_run t r
  end.
(** What a request should receive: the values of the first run of its trigger after
    it was started, and then its own. *)
Fixpoint answer (i : nat) (es : list (event V)) : option (list V) :=
  match es with
  | [] => None
  | Started j t extra :: r => if Nat.eqb j i then option_map (fun vs => vs ++ extra) (first_run t r) else answer i r
  | _ :: r => answer i r
  end.
(** What it received. *)
Definition received (i : nat) (es : list (event V)) : list (list V) :=
  flat_map (fun e => match e with Received j vs => if Nat.eqb j i then [vs] else [] | _ => [] end) es.
Definition as_list {A} (o : option A) : list A := match o with Some x => [x] | None => [] end.
(** How often a request was sent. *)
Definition sent (i : nat) (es : list (event V)) : list (list V) :=
  flat_map (fun e => match e with Sent j vs => if Nat.eqb j i then [vs] else [] | _ => [] end) es.
Definition finished (s : state V) : Prop := todo s = [].
End Spec.

(** What a log of benchmarks says, in terms of its lines alone. *)
From Coq Require Import String Ascii Bool List ZArith.
Import ListNotations.
Local Open Scope string_scope.

Section Log.
Context {F : Type}.
(** What Python's float(), int() and str.strip() make of a text. *)
Variable to_float : string -> option F.
Variable to_int : string -> option Z.
Variable strip : string -> string.

Fixpoint chars (s : string) : list ascii := match s with EmptyString => [] | String a r => a :: chars r end.
(** The text is cut at the first [c]: nothing, or [c] and more, follows. *)
Definition ends_at (c : ascii) (s tail : string) : Prop := ~ In c (chars s) /\ (tail = "" \/ exists t, tail = String c t).
(** A line "word: name". *)
Definition titled (word line n : string) : Prop :=
  exists s tail, strip line = word ++ ":" ++ s ++ tail /\ ends_at ":" s tail /\ n = strip s.
Definition inside (p s : string) : Prop := exists a b, s = a ++ p ++ b.
Inductive kind := Chained | Independent | Other.
Definition of_kind (label : string) (k : kind) : Prop :=
  match k with
  | Chained => inside "chained" label
  | Independent => ~ inside "chained" label /\ inside "independent" label
  | Other => ~ inside "chained" label /\ ~ inside "independent" label
  end.
(** A line "| time | … | … | … | label |…". *)
Definition times (line : string) (k : kind) (v : F) : Prop :=
  exists f0 f1 f2 f3 f4 tail,
    strip line = "|" ++ f0 ++ "|" ++ f1 ++ "|" ++ f2 ++ "|" ++ f3 ++ "|" ++ f4 ++ tail /\
    ~ In "|"%char (chars (f0 ++ f1 ++ f2 ++ f3)) /\ ends_at "|" f4 tail /\
    to_float (strip f0) = Some v /\ of_kind (strip f4) k.

(** The last line of the log titled [word], if there is one. *)
Definition untitled (word : string) (lines : list string) : Prop := forall l n, In l lines -> ~ titled word l n.
Definition current (word : string) (lines : list string) (o : option string) : Prop :=
  match o with
  | Some n => exists a l b, lines = (a ++ l :: b)%list /\ titled word l n /\ untitled word b
  | None => untitled word lines
  end.
(** The log, up to and including [l], ends with a time of an algorithm with a dataset. *)
Definition timed (before : list string) (l : string) (ds alg : option string) (k : kind) (v : F) : Prop :=
  times l k v /\ current "dataset" before ds /\ current "algorithm" before alg.
(** The last time of that kind. *)
Definition last_time (lines : list string) (ds alg : option string) (k : kind) (v : F) : Prop :=
  exists a l b, lines = (a ++ l :: b)%list /\ timed a l ds alg k v /\
    forall a' l' b' v', b = (a' ++ l' :: b')%list -> ~ timed (a ++ l :: a')%list l' ds alg k v'.
Definition some_time (lines : list string) (ds alg : option string) : Prop :=
  exists a l b k v, lines = (a ++ l :: b)%list /\ timed a l ds alg k v.
(** The size last written when the first time of any kind came. *)
Definition size_then (lines : list string) (ds alg : option string) (n : Z) : Prop :=
  exists a l b k v, lines = (a ++ l :: b)%list /\ timed a l ds alg k v /\ ~ some_time a ds alg /\
    exists t, current "size" a (Some t) /\ to_int t = Some n.
(** The size written since the algorithm was named. *)
Definition own_size (lines : list string) (ds : option string) (alg : string) (n : Z) : Prop :=
  exists a l b k v, lines = (a ++ l :: b)%list /\ timed a l ds (Some alg) k v /\ ~ some_time a ds (Some alg) /\
    exists a1 la a2 t, a = (a1 ++ la :: a2)%list /\ titled "algorithm" la alg /\ untitled "algorithm" a2 /\
      current "size" a2 (Some t) /\ to_int t = Some n.

(** A table, its columns and its rows with their names, has just the datasets and algorithms with times, each
    once, and shows in each cell what [P] says. *)
Definition shows {A} (lines : list string) (t : list (option string) * list (option string * list (option A)))
  (P : option string -> option string -> A -> Prop) : Prop :=
  NoDup (fst t) /\ (forall alg, In alg (fst t) <-> exists ds, some_time lines ds alg) /\
  NoDup (map fst (snd t)) /\ (forall ds, In ds (map fst (snd t)) <-> exists alg, some_time lines ds alg) /\
  forall ds cells, In (ds, cells) (snd t) -> List.length cells = List.length (fst t) /\
    forall i alg v, nth_error (fst t) i = Some alg -> nth_error cells i = Some (Some v) <-> P ds alg v.
(** A line "size:" that is not a number. *)
Definition no_number (lines : list string) : Prop := exists l n, In l lines /\ titled "size" l n /\ to_int n = None.
End Log.

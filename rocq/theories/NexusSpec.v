(** Specification of the nexus. *)
From Coq Require Import String Bool Arith List.
From Verif Require Import FlowModel NexusModel.
Import ListNotations.

Section Spec.
Context {A : Type} (item_when : cond -> A -> option A).

(** The extensions written in a configuration, from left to right, leaving out
    what is under a false constexpr condition; each with the runtime conditions
    around it, the innermost first. *)
Fixpoint offers (cs : list cond) (x : config A) : list (target * list cond * list A) :=
  match x with
  | Exports _ => []
  | Extend t a => [(t, cs, a)]
  | Many l => flat_map (offers cs) l
  | IfConst b l => if b then flat_map (offers cs) l else []
  | When c l => flat_map (offers (c :: cs)) l
  end.
(** A service exported in the configuration, not under a false constexpr
    condition. *)
Inductive exported (s : svc) : config A -> Prop :=
| exported_here l : In s l -> exported s (Exports l)
| exported_many y l : In y l -> exported s y -> exported s (Many l)
| exported_if y l : In y l -> exported s y -> exported s (IfConst true l)
| exported_when c y l : In y l -> exported s y -> exported s (When c l).
(** An item under conditions. *)
Fixpoint when_all (cs : list cond) (a : A) : option A :=
  match cs with [] => Some a | c :: r => match item_when c a with Some a' => when_all r a' | None => None end end.
(** The service a target means, given the exported services: a name means the
    first with that name. *)
Inductive means (ex : list svc) : target -> svc -> Prop :=
| means_type s : In s ex -> means ex (ByType s) s
| means_name n s pre post : ex = pre ++ s :: post -> s_name s = Some n -> (forall s', In s' pre -> s_name s' <> Some n) -> means ex (ByName n) s.
(** A configuration that makes sense: every extension means an exported service,
    every item takes the conditions around it, and extensions by name are under
    no runtime condition. *)
Definition sensible (x : config A) : Prop := forall t cs a, In (t, cs, a) (offers [] x) ->
  (exists s, means (exports x) t s) /\ (cs <> [] -> exists s, t = ByType s) /\ (forall i, In i a -> when_all cs i <> None).
(** The lists of items that extensions give to a service, in order. *)
Inductive contributions (ex : list svc) (s : svc) : list (target * list cond * list A) -> list (list A) -> Prop :=
| contributions_nil : contributions ex s [] []
| contributions_own t cs a a' o l : means ex t s -> map (when_all cs) a = map Some a' -> contributions ex s o l -> contributions ex s ((t, cs, a) :: o) (a' :: l)
| contributions_other t cs a s' o l : means ex t s' -> s' <> s -> contributions ex s o l -> contributions ex s ((t, cs, a) :: o) l.
End Spec.

(** ** Calls *)
Section Calls.
Context {A : Type} (nexus : nat -> config A).
(** The last nexus initialised that satisfies p. *)
Fixpoint last_init (p : nat -> bool) (h : list event) : option nat :=
  match h with
  | [] => None
  | Init n :: r => match last_init p r with Some m => Some m | None => if p n then Some n else None end
  | _ :: r => last_init p r
  end.
Definition exportsb (n : nat) (s : svc) : bool := existsb (svc_eqb s) (exports (nexus n)).
(** The nexus exports a service with this name and return type. *)
Definition names_returning (m : string) (r : nat) (n : nat) : bool :=
  existsb (fun s => has_name m s && (s_ret s =? r))%bool (exports (nexus n)).
(** No two exported services have one name. *)
Definition unique_names (x : config A) : Prop := forall s t n, In s (exports x) -> In t (exports x) -> s_name s = Some n -> s_name t = Some n -> s = t.
End Calls.

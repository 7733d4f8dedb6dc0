(** What policies should do. *)
From Coq Require Import String Bool Arith List.
From Verif Require Import IrqModel IrqSpec PolicyModel.
Import ListNotations.

(** [says f ps b]: b is what the first policy that has something to say on f says. *)
Inductive says (f : policy -> option bool) : list policy -> option bool -> Prop :=
| says_nothing : says f [] None
| says_first p ps b : f p = Some b -> says f (p :: ps) (Some b)
| says_later p ps o : f p = None -> says f ps o -> says f (p :: ps) o.
(** At most one policy speaks on f. *)
Definition at_most_one (f : policy -> option bool) (ps : list policy) : Prop :=
  forall p q pre mid post, ps = pre ++ p :: mid ++ q :: post -> f p = None \/ f q = None.

(** What an initialization policy makes active. *)
Definition listed {A} (l : option (list A)) (x : A) : Prop := match l with Some l => In x l | None => True end.
Definition chosen (p : init_policy) (t : item) : Prop :=
  match t with Resource n => listed (for_resources p) n | Flow n => listed (for_flows p) n | Name s => listed (for_irqs p) s end.
(** An interrupt is on when its name and all its resources are active, and a flow of
    its own is or an interrupt below it is on. *)
Inductive starts_on (p : init_policy) : irq -> Prop :=
| starts_by_flow i cs f : chosen p (Name (i_name i)) -> (forall n, In n (i_resources i) -> chosen p (Resource n)) ->
    In f (i_flows i) -> chosen p (Flow f) -> starts_on p (Irq i cs)
| starts_by_child i cs c : chosen p (Name (i_name i)) -> (forall n, In n (i_resources i) -> chosen p (Resource n)) ->
    In c cs -> starts_on p c -> starts_on p (Irq i cs).

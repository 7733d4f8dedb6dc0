(** Specification of the interrupt library. *)
From Coq Require Import String Bool Arith List NArith.
From Verif Require Import IrqModel.
Import ListNotations.
Local Open Scope nat_scope.

(** [below x y]: y is x or lies below it. *)
Inductive below : irq -> irq -> Prop :=
| below_self x : below x x
| below_child i cs c y : In c cs -> below c y -> below (Irq i cs) y.
Definition in_tree (r : root) (y : irq) : Prop := exists x, In x r /\ below x y.

(** The documented rule (policies.hpp:88-108). *)
Inductive should_be_on (e : item -> bool) : irq -> Prop :=
| on_by_flow i cs f : e (Name (i_name i)) = true -> (forall n, In n (i_resources i) -> e (Resource n) = true) ->
    In f (i_flows i) -> e (Flow f) = true -> should_be_on e (Irq i cs)
| on_by_child i cs c : e (Name (i_name i)) = true -> (forall n, In n (i_resources i) -> e (Resource n) = true) ->
    In c cs -> should_be_on e c -> should_be_on e (Irq i cs).
(** What an interrupt itself says it depends on. *)
Definition mentions (x : irq) (t : item) : Prop :=
  match t with Resource n => In n (i_resources (info_of x)) | Flow f => In f (i_flows (info_of x)) | Name s => i_name (info_of x) = s end.
Definition depends_on (x : irq) (t : item) : Prop := exists y, below x y /\ mentions y t.

(** Fields in registers: masks are not empty, and different interrupts have
    different bits. *)
Definition layout_ok (h : hal) (r : root) : Prop :=
  forall x y f g, in_tree r x -> in_tree r y -> i_enable (info_of x) = Some f -> i_enable (info_of y) = Some g ->
    mask_of h f <> 0%N /\ (x = y \/ reg_of h f <> reg_of h g \/ N.land (mask_of h f) (mask_of h g) = 0%N).
(** The enable field of x in the register contents. *)
Definition field_on (h : hal) (regs : nat -> N) (f : nat) : Prop := N.land (regs (reg_of h f)) (mask_of h f) = mask_of h f.
Definition field_off (h : hal) (regs : nat -> N) (f : nat) : Prop := N.land (regs (reg_of h f)) (mask_of h f) = 0%N.
(** The hardware agrees with the rule on x. *)
Definition agrees (h : hal) (s : state) (x : irq) : Prop :=
  forall f, i_enable (info_of x) = Some f ->
    (should_be_on (enables s) x -> field_on h (registers s) f) /\ (~ should_be_on (enables s) x -> field_off h (registers s) f).
(** Register g holds the enable field of some interrupt. *)
Definition enable_register (h : hal) (r : root) (g : nat) : Prop :=
  exists x f, in_tree r x /\ i_enable (info_of x) = Some f /\ reg_of h f = g.
Definition synced (h : hal) (r : root) (s : state) : Prop := forall g, enable_register h r g -> registers s g = shadow s g.

(** Before init, the enable registers hold exactly the fields of the interrupts
    that are already enabled. *)
Definition before_init (h : hal) (r : root) (already : irq -> bool) (s : state) : Prop :=
  forall g, enable_register h r g -> forall k,
    N.testbit (registers s g) k = true <->
    exists x f, in_tree r x /\ already x = true /\ i_enable (info_of x) = Some f /\ reg_of h f = g /\ N.testbit (mask_of h f) k = true.

(** The operation recomputes every interrupt that depends on what it changes. *)
Definition reaches_all (r : root) (o : operation) : Prop :=
  match o with
  | Switch v p i ts => forall t x, In t ts -> in_tree r x -> depends_on x t ->
      match t with
      | Flow f => p = true \/ In f (i_flows (info_of x))
      | Resource n => In n (i_resources (info_of x)) \/ (p = true /\ exists c, In c (children_of x) /\ In n (i_resources (info_of c)))
      | Name _ => False
      end
  | SwitchNames v i ns => forall n x, In n ns -> in_tree r x -> depends_on x (Name n) -> In (i_name (info_of x)) ns
  | Refresh _ | Reset => True
  | Init _ _ => False
  end.
(** What an operation touches. *)
Definition touched (r : root) (o : operation) (x : irq) : Prop :=
  in_tree r x /\
  match o with
  | Switch v p i ts => exists t y, In t ts /\ in_tree r y /\ i_name (info_of y) = i_name (info_of x) /\
      match t with
      | Flow f => In f (i_flows (info_of y)) \/ (p = true /\ depends_on y t)
      | Resource n => In n (i_resources (info_of y)) \/ (p = true /\ exists c, In c (children_of y) /\ In n (i_resources (info_of c)))
      | Name _ => False
      end
  | SwitchNames v i ns => In (i_name (info_of x)) ns
  | Refresh false => In x r
  | Refresh true | Reset => True
  | Init _ already => already x = false
  end.
Definition is_switch (o : operation) : Prop := match o with Switch _ _ _ _ | SwitchNames _ _ _ => True | _ => False end.

(** ** Running *)
Definition served (t : list event) : list (nat * nat) := flat_map (fun e => match e with Serve n f => [(n, f)] | _ => [] end) t.
Definition cleared (t : list event) : list nat := flat_map (fun e => match e with Clear f => [f] | _ => [] end) t.
(** Some flow of the tree is active in some nexus. *)
Definition has_active (service_active : nat -> nat -> bool) (nexi : list nat) (x : irq) : Prop :=
  exists y f n, below x y /\ In f (i_flows (info_of y)) /\ In n nexi /\ service_active n f = true.
Definition field_reads (bit : nat -> bool) (f : option nat) : Prop := forall g, f = Some g -> bit g = true.
Section Serviced.
Variable service_active : nat -> nat -> bool.
Variable nexi : list nat.
Variable bit : nat -> bool.
(** x is active, enabled and pending. *)
Definition ready (x : irq) : Prop :=
  has_active service_active nexi x /\ field_reads bit (i_enable (info_of x)) /\ field_reads bit (i_status (info_of x)).
(** y is ready and so is everything from x down to it. *)
Inductive serviced : irq -> irq -> Prop :=
| serviced_self x : ready x -> serviced x x
| serviced_below i cs c y : ready (Irq i cs) -> In c cs -> serviced c y -> serviced (Irq i cs) y.
End Serviced.
(** The fields of a tree are all different. *)
Definition fields_of (x : irq) : list nat :=
  match i_enable (info_of x) with Some f => [f] | None => [] end ++ match i_status (info_of x) with Some f => [f] | None => [] end.
Definition all_fields (x : irq) : list nat := flat_map fields_of (x :: descendants_of x).
(** Hardware that only changes by clearing. *)
Record plain_hardware {Env} (read : nat -> Env -> bool * Env) (clear : nat -> Env -> Env) (serve : nat -> nat -> Env -> Env) (bit : Env -> nat -> bool) : Prop := {
  ph_read : forall f e, fst (read f e) = bit e f /\ forall g, bit (snd (read f e)) g = bit e g;
  ph_clear : forall f e g, bit (clear f e) g = if Nat.eqb g f then false else bit e g;
  ph_serve : forall n f e g, bit (serve n f e) g = bit e g;
}.
(** A way down the tree. *)
Inductive path : irq -> irq -> list irq -> Prop :=
| path_self x : path x x [x]
| path_child i cs c y p : In c cs -> path c y p -> path (Irq i cs) y (Irq i cs :: p).
(** The tree, parents first. *)
Fixpoint preorder (x : irq) : list irq := match x with Irq i cs => Irq i cs :: flat_map preorder cs end.
(** What servicing y runs. *)
Definition own_services (nexi : list nat) (y : irq) : list (nat * nat) := flat_map (fun f => map (fun n => (n, f)) nexi) (i_flows (info_of y)).
(** What servicing y clears. *)
Definition own_clears (y : irq) : list nat :=
  match i_policy (info_of y), i_status (info_of y) with DontClear, _ | _, None => [] | _, Some f => [f] end.
(** An active flow can be reached without needing a resource. *)
Inductive open_to (flow_on : nat -> Prop) : irq -> Prop :=
| open_flow i cs f : i_resources i = [] -> In f (i_flows i) -> flow_on f -> open_to flow_on (Irq i cs)
| open_child i cs c : i_resources i = [] -> In c cs -> open_to flow_on c -> open_to flow_on (Irq i cs).
(** The operation turns the item on. *)
Definition turns_on (o : operation) (t : item) : Prop :=
  match o with Switch true _ _ ts => In t ts | SwitchNames true _ ns => In t (map Name ns) | Init _ _ => True | _ => False end.
(** Some of a list, in order. *)
Inductive subseq {A} : list A -> list A -> Prop :=
| subseq_nil : subseq [] []
| subseq_skip x l m : subseq l m -> subseq l (x :: m)
| subseq_take x l m : subseq l m -> subseq (x :: l) (x :: m).

(** Specification of sequencers. *)
From Coq Require Import String Bool Arith List Permutation Relations.
From Verif Require Import SeqModel.
Import ListNotations.

(** ** Running *)
(** Where a sequencer stands: how many steps are done, and which step function
    (if any) has been started and is not done. *)
Record place := { position : nat; pending : option direction }.
Definition start : place := {| position := 0; pending := None |}.
Definition after (r : status) (p p' : nat) (d : direction) : place :=
  match r with Done => {| position := p'; pending := None |} | NotDone => {| position := p; pending := Some d |} end.
(** The invocations that make sense at a place: the next step forward or the
    last one backward; what is pending must be finished first. *)
Inductive invokes (n : nat) : place -> invocation -> place -> Prop :=
| inv_forward p w r : p < n -> w = None \/ w = Some Forward ->
    invokes n {| position := p; pending := w |} {| i_dir := Forward; i_step := p; i_result := r |} (after r p (S p) Forward)
| inv_backward p w r : p < n -> w = None \/ w = Some Backward ->
    invokes n {| position := S p; pending := w |} {| i_dir := Backward; i_step := p; i_result := r |} (after r (S p) p Backward).
Inductive invoke_all (n : nat) : place -> list invocation -> place -> Prop :=
| ia_none p : invoke_all n p [] p
| ia_more p x p' l p'' : invokes n p x p' -> invoke_all n p' l p'' -> invoke_all n p (x :: l) p''.
(** The results are what the functions return. *)
Inductive answered {Env} (call : direction -> nat -> Env -> status * Env) : Env -> list invocation -> Env -> Prop :=
| an_none e : answered call e [] e
| an_more e x e' l e'' : call (i_dir x) (i_step x) e = (i_result x, e') -> answered call e' l e'' -> answered call e (x :: l) e''.
Definition end_of (n : nat) (d : direction) : nat := match d with Forward => n | Backward => 0 end.
(** A correct answer to forward() (or backward()): sensible invocations, all in
    the asked direction except finishing what was pending, stopping at the first
    that is not done; done means that nothing is pending and all steps are done
    (undone), not done means that a step is pending. *)
Definition serves (n : nat) (p : place) (d : direction) (s : status) (evs : list invocation) (p' : place) : Prop :=
  invoke_all n p evs p' /\
  (forall a x b, evs = a ++ x :: b -> i_result x = NotDone -> b = []) /\
  (forall a x b, evs = a ++ x :: b -> i_dir x = d \/ (a = [] /\ pending p = Some (opposite d))) /\
  (s = Done <-> pending p' = None /\ position p' = end_of n d) /\
  (s = NotDone <-> pending p' <> None).
Inductive serves_all {Env} (n : nat) (call : direction -> nat -> Env -> status * Env) :
  place -> Env -> list (direction * status * list invocation) -> place -> Env -> Prop :=
| sa_none p e : serves_all n call p e [] p e
| sa_more p e d s evs p' e' l p'' e'' : serves n p d s evs p' -> answered call e evs e' -> serves_all n call p' e' l p'' e'' ->
    serves_all n call p e ((d, s, evs) :: l) p'' e''.

(** ** Building *)
Inductive occurs : description -> description -> Prop :=
| oc_self g : occurs g g
| oc_seq_l l r v h : occurs h l -> occurs h (SSeq l r v)
| oc_seq_r l r v h : occurs h r -> occurs h (SSeq l r v)
| oc_par_l l r v h : occurs h l -> occurs h (SPar l r v)
| oc_par_r l r v h : occurs h r -> occurs h (SPar l r v).
Inductive begins : description -> string -> Prop :=
| be_leaf s : begins (SLeaf s) (s_name s)
| be_ref x : begins (SRef x) x
| be_seq l r v x : begins l x -> begins (SSeq l r v) x
| be_par_l l r v x : begins l x -> begins (SPar l r v) x
| be_par_r l r v x : begins r x -> begins (SPar l r v) x.
Inductive finishes : description -> string -> Prop :=
| fi_leaf s : finishes (SLeaf s) (s_name s)
| fi_ref x : finishes (SRef x) x
| fi_seq l r v x : finishes r x -> finishes (SSeq l r v) x
| fi_par_l l r v x : finishes l x -> finishes (SPar l r v) x
| fi_par_r l r v x : finishes r x -> finishes (SPar l r v) x.
(** The steps declared in a sequencer, and the sequences between their names. *)
Definition declares (b : list description) (s : seq_step) : Prop := exists g, In g b /\ occurs (SLeaf s) g.
Definition sequenced (b : list description) (x y : string) : Prop :=
  exists g l r v, In g b /\ occurs (SSeq l r v) g /\ finishes l x /\ begins r y.
(** Every step is written as [*step], and no composite is starred. *)
Definition each_starred (b : list description) : Prop :=
  (forall s, declares b s -> s_starred s = true /\ s_funcs s <> None) /\
  (forall g l r v, In g b -> occurs (SSeq l r v) g \/ occurs (SPar l r v) g -> v = false).
(** What a step of the built sequencer calls. *)
Definition calls_of (s : seq_step) (k : rt_step) : Prop := exists f, s_funcs s = Some f /\ k = Some (f, s_name s).

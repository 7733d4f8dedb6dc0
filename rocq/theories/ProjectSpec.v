(** Specification of a running project, from the configuration as written. *)
From Coq Require Import String Bool Arith List Permutation Relations.
From Verif Require Import FlowModel FlowSpec NexusModel NexusSpec ProjectModel.
Import ListNotations.

(** ** What components say about a service *)
(** An element given to the service under runtime conditions. *)
Definition given (x : config element) (s : svc) (cs : list cond) (e : element) : Prop :=
  exists t a, In (t, cs, a) (offers [] x) /\ means (exports x) t s /\ In e a.
(** A step a component adds: the step as written, whether it is starred itself, and
    the conditions around it. *)
Record step := { st_node : node; st_own : bool; st_conds : list cond }.
Definition st_name (d : step) : string := n_name (st_node d).
Definition adds_step (x : config element) (s : svc) (d : step) : Prop :=
  exists g, given x s (st_conds d) (Frag g) /\ adds g (st_node d) (st_own d).
(** When it runs: its own condition holds and, if it is starred itself, those
    around it. *)
Definition wanted (pred : nat -> bool) (d : step) : bool :=
  holds pred (n_cond (st_node d)) && (if st_own d then forallb (holds pred) (st_conds d) else true).
(** A component puts the step p before the step q. *)
Definition puts_before (x : config element) (s : svc) (p q : string) : Prop :=
  exists cs g c a b, given x s cs (Frag g) /\ in_sequence [g] c a b /\ leaf_name a = p /\ leaf_name b = q.
Definition alike (d d' : step) : Prop :=
  n_name (st_node d) = n_name (st_node d') /\ n_func (st_node d) = n_func (st_node d') /\ n_type (st_node d) = n_type (st_node d') /\
  forall pred, wanted pred d = wanted pred d'.
(** An order that does what the components say: the added steps, each once, as
    they are put in sequence. *)
Record lawful (x : config element) (s : svc) (o : list step) : Prop := {
  lf_once : NoDup (map st_name o);
  lf_added : forall d, In d o -> adds_step x s d;
  lf_all : forall d, adds_step x s d -> exists d', In d' o /\ alike d d';
  lf_order : forall p q, puts_before x s p q -> before (map st_name o) p q }.
(** The functions added to a callback service, in some order. *)
Definition callbacks (x : config element) (s : svc) (fs : list nat) : Prop :=
  exists l, contributions element_when (exports x) s (offers [] x) l /\ map Function fs = concat (rev l).

(** ** Running *)
Section Spec.
Context {W : Type} (pred : nat -> W -> bool) (act : nat -> W -> W) (body : nat -> list op) (nexus : nat -> config element).
(** The nexuses initialised so far, in order, and the world. *)
Record moment := { started : list nat; now : W; over : bool }.
Definition serving (m : moment) (s : svc) : option nat := last_init (fun n => exportsb nexus n s) (map Init (started m)).
Definition serving_name (m : moment) (k : string) : option nat := last_init (names_returning nexus k 0) (map Init (started m)).
Definition acted (a : nat) (m : moment) : moment := {| started := started m; now := act a (now m); over := over m |}.
Definition with_nexus (n : nat) (m : moment) : moment := {| started := started m ++ [n]; now := now m; over := over m |}.
Definition stop (m : moment) : moment := {| started := started m; now := now m; over := true |}.
Inductive task :=
| TSay (logged : bool) (text : string)
| TOp (own : nat) (o : op)
| TStep (own : nat) (logged : bool) (d : step)
| TService (n : nat) (s : svc)
| TSeq (l : list task).
Definition ops_task (own : nat) (l : list op) : task := TSeq (map (TOp own) l).
(** [does k m t m']: doing k at m can show t and lead to m'. *)
Inductive does : task -> moment -> list happening -> moment -> Prop :=
| does_say m x : does (TSay true x) m [Said x] m
| does_not_say m x : does (TSay false x) m [] m
| does_nothing m : does (TSeq []) m [] m
| does_next k l m t m1 t' m2 : does k m t m1 -> over m1 = false -> does (TSeq l) m1 t' m2 -> does (TSeq (k :: l)) m (t ++ t') m2
| does_stop k l m t m1 : does k m t m1 -> over m1 = true -> does (TSeq (k :: l)) m t m1
| does_act own a m : does (TOp own (Do a)) m [Did a] (acted a m)
| does_run own s n m t m' : serving m s = Some n -> does (TService n s) m t m' -> does (TOp own (Run s)) m t m'
| does_panic own s m : serving m s = None -> does (TOp own (Run s)) m [Panicked] (stop m)
| does_run_name own k n s m t m' : serving_name m k = Some n -> means (exports (nexus n)) (ByName k) s -> does (TService n s) m t m' -> does (TOp own (RunName k)) m t m'
| does_panic_name own k m : serving_name m k = None -> does (TOp own (RunName k)) m [Panicked] (stop m)
| does_run_own own s m t m' : does (TService own s) m t m' -> does (TOp own (RunOwn s)) m t m'
| does_start own n m : does (TOp own (Start n)) m [] (with_nexus n m)
| does_step own lg d m t m' : wanted (fun p => pred p (now m)) d = true ->
    does (TSeq (TSay lg ("flow." ++ type_text (n_type (st_node d)) ++ "(" ++ st_name d ++ ")") :: [ops_task own (body (n_func (st_node d)))])) m t m' ->
    does (TStep own lg d) m t m'
| does_skip own lg d m : wanted (fun p => pred p (now m)) d = false -> does (TStep own lg d) m [] m
| does_flow n s name o m t m' : exported s (nexus n) -> s_name s = Some name -> lawful (nexus n) s o ->
    let lg := negb (String.eqb name "") in
    does (TSeq (TSay lg ("flow.start(" ++ name ++ ")") :: map (TStep n lg) o ++ [TSay lg ("flow.end(" ++ name ++ ")")])) m t m' ->
    does (TService n s) m t m'
| does_callbacks n s fs m t m' : exported s (nexus n) -> s_name s = None -> callbacks (nexus n) s fs ->
    does (TSeq (map (fun f => ops_task n (body f)) fs)) m t m' ->
    does (TService n s) m t m'.
Definition at_first (w : W) : moment := {| started := []; now := w; over := false |}.
End Spec.

(** Services that functions run, directly or in turn, can be ranked. *)
Definition runs_below (rank : svc -> nat) (nexus : nat -> config element) (n k : nat) (o : op) : Prop :=
  match o with
  | Do _ => True
  | Run s => rank s < k
  | RunName m => forall n' s, means (exports (nexus n')) (ByName m) s -> rank s < k
  | RunOwn s => exported s (nexus n) /\ rank s < k
  | Start n' => True
  end.
(** The function belongs to the service. *)
Definition belongs (x : config element) (s : svc) (f : nat) : Prop :=
  (exists d, adds_step x s d /\ n_func (st_node d) = f) \/ (exists cs, given x s cs (Function f)).
Definition ranked (rank : svc -> nat) (nexus : nat -> config element) (body : nat -> list op) : Prop :=
  forall n s f o, exported s (nexus n) -> belongs (nexus n) s f -> In o (body f) -> runs_below rank nexus n (rank s) o.

(** ** Rearranging a configuration *)
Inductive rearranged {A} : config A -> config A -> Prop :=
| re_same x : rearranged x x
| re_sym x y : rearranged x y -> rearranged y x
| re_trans x y z : rearranged x y -> rearranged y z -> rearranged x z
| re_order l l' : Permutation l l' -> rearranged (Many l) (Many l')
| re_inside x y l r : rearranged x y -> rearranged (Many (l ++ x :: r)) (Many (l ++ y :: r))
| re_nest l m r : rearranged (Many (l ++ Many m :: r)) (Many (l ++ m ++ r))
| re_single x : rearranged (Many [x]) x
| re_true l : rearranged (IfConst true l) (Many l)
| re_false l : rearranged (IfConst false l) (Many [])
| re_when c l : rearranged (When c l) (Many (map (fun x => When c [x]) l))
| re_when_inside c x y : rearranged x y -> rearranged (When c [x]) (When c [y])
| re_extend t a b : rearranged (Extend t (a ++ b)) (Many [Extend t a; Extend t b])
| re_exports l m : rearranged (Exports (l ++ m)) (Many [Exports l; Exports m]).
(** A name extended means one service. *)
Definition clear_target (ex : list svc) (t : target) : Prop :=
  match t with ByType _ => True | ByName n => forall s s', In s ex -> In s' ex -> s_name s = Some n -> s_name s' = Some n -> s = s' end.
Definition clear_names {A} (x : config A) : Prop := forall t cs a, In (t, cs, a) (offers [] x) -> clear_target (exports x) t.

(** ** Steps in any order *)
Section Orders.
Context {W : Type} (pred : nat -> W -> bool) (effect : nat -> W -> W).
Definition performs (d : step) (w : W) : W := if wanted (fun p => pred p w) d then effect (n_func (st_node d)) w else w.
Fixpoint follow (o : list step) (w : W) : W := match o with [] => w | d :: r => follow r (performs d w) end.
(** How often the function is called. *)
Fixpoint times_called (f : nat) (o : list step) (w : W) : nat :=
  match o with
  | [] => 0
  | d :: r => (if wanted (fun p => pred p w) d && (n_func (st_node d) =? f) then 1 else 0) + times_called f r (performs d w)
  end.
(** Neither changes what the other does or whether it is done. *)
Definition independent (d d' : step) : Prop := forall w,
  performs d (performs d' w) = performs d' (performs d w) /\
  wanted (fun p => pred p (performs d' w)) d = wanted (fun p => pred p w) d /\
  wanted (fun p => pred p (performs d w)) d' = wanted (fun p => pred p w) d'.
(** Steps that components put in no order, not even through others. *)
Definition unordered (x : config element) (s : svc) (d d' : step) : Prop :=
  st_name d <> st_name d' /\ ~ clos_trans string (puts_before x s) (st_name d) (st_name d') /\ ~ clos_trans string (puts_before x s) (st_name d') (st_name d).
Definition unordered_independent (x : config element) (s : svc) : Prop :=
  forall d d', adds_step x s d -> adds_step x s d' -> unordered x s d d' -> independent d d'.
End Orders.
(** The effect of functions that only act. *)
Definition acts_only (body : nat -> list op) : Prop := forall f o, In o (body f) -> exists a, o = Do a.
Definition effect_of {W} (act : nat -> W -> W) (body : nat -> list op) (f : nat) (w : W) : W :=
  fold_left (fun w o => match o with Do a => act a w | _ => w end) (body f) w.

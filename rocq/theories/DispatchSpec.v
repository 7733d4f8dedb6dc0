(** Specification of a project with message services, from the configuration as
    written. *)
From Coq Require Import String Bool Arith ZArith List.
From Coq Require Import NArith.
From Verif Require Import MatchModel MatchSpec FieldMatchersModel FieldMatchersSpec FieldModel FieldSpec MessageModel MessageSpec AccessModel AccessSpec HandlerSpec FlowModel NexusModel NexusSpec DispatchModel.
Import ListNotations.
Local Notation leaf := FieldMatchersModel.leaf.

(** ** Who listens *)
(** A callback as a component wrote it, with the runtime conditions around it. *)
Record listener := { l_item : item; l_conds : list cond }.
(** The callbacks that the extensions give to a service, extension by extension. *)
Inductive gathered (ex : list svc) (s : svc) : list (target * list cond * list item) -> list (list listener) -> Prop :=
| gathered_nil : gathered ex s [] []
| gathered_own t cs a o l : means ex t s -> gathered ex s o l ->
    gathered ex s ((t, cs, a) :: o) (map (fun i => {| l_item := i; l_conds := cs |}) a :: l)
| gathered_other t cs a s' o l : means ex t s' -> s' <> s -> gathered ex s o l -> gathered ex s ((t, cs, a) :: o) l.
(** Later extensions come first. *)
Definition listeners (x : config item) (s : svc) (l : list listener) : Prop :=
  exists g, gathered (exports x) s (offers [] x) g /\ l = concat (rev g).

Section Spec.
Context {M W : Type} (fld : nat -> M -> Z) (psem : nat -> M * W -> bool) (pred : nat -> W -> bool) (act : nat -> W -> W)
  (body : nat -> nat -> M -> @prog M W) (nexus : nat -> config item) (kind_of : svc -> kind).
(** A callback wants a message: its matcher accepts it, the fields of its message
    type do, and all conditions around it hold, at this moment. *)
Definition holds_of (m : M) (w : W) (x : fexpr) : bool := eval (leaf_sem (fun f (e : M * W) => fld f (fst e)) psem) x (m, w).
Definition wants (a : listener) (m : M) (w : W) : bool :=
  match i_user (l_item a) with Some x => holds_of m w x | None => true end
  && forallb (holds_of m w) (i_fields (l_item a))
  && forallb (holds (fun p => pred p w)) (l_conds a).

(** ** What happens *)
(** The nexuses initialised so far, in order, and the world. *)
Record moment := { started : list nat; now : W; over : bool }.
Definition current (x : moment) (s : svc) : option nat := last_init (fun n => exportsb nexus n s) (map Init (started x)).
Definition asked (v : via) (s : svc) (x : moment) : option nat := match v with Current => current x s | Of n => Some n end.
Definition stop (x : moment) : moment := {| started := started x; now := now x; over := true |}.
(** The answer of is_match: exact, but for an indexed service only a promise not to
    miss a callback. *)
Definition answer (v : via) (s : svc) (m : M) (x : moment) (b : bool) : Prop :=
  match asked v s x with
  | None => b = false
  | Some n => exists l, exported s (nexus n) /\ listeners (nexus n) s l /\
      match kind_of s with
      | Plain => b = existsb (fun a => wants a m (now x)) l
      | Indexed _ => existsb (fun a => wants a m (now x)) l = true -> b = true
      end
  end.
Definition nobody (s : svc) (l : list listener) : list happening :=
  Unclaimed :: match kind_of s with Plain => map (fun a => Mismatch (i_name (l_item a))) l | Indexed _ => [] end.
(** [does p x t y]: doing p at x can show t and lead to y.
    [handles n s m x t y b]: service s of nexus n handles m and returns b.
    [hears n m l x t y b]: of these listeners in turn, those that want m are called;
    b tells whether there were any. *)
Inductive does : prog -> moment -> list happening -> moment -> Prop :=
| does_end x : does End x [] x
| does_act a k x t y : does k {| started := started x; now := act a (now x); over := over x |} t y -> does (Do a k) x (Did a :: t) y
| does_look k x t y : does (k (now x)) x t y -> does (Look k) x t y
| does_send v s m k x n t y b t' z : asked v s x = Some n -> handles n s m x t y b -> over y = false -> does (k b) y t' z ->
    does (Send v s m k) x (t ++ t') z
| does_send_over v s m k x n t y b : asked v s x = Some n -> handles n s m x t y b -> over y = true -> does (Send v s m k) x t y
| does_panic v s m k x : asked v s x = None -> does (Send v s m k) x [Panicked] (stop x)
| does_ask v s m k x b t y : answer v s m x b -> does (k b) x t y -> does (Ask v s m k) x t y
| does_start n k x t y : does k {| started := started x ++ [n]; now := now x; over := over x |} t y -> does (Start n k) x t y
with handles : nat -> svc -> M -> moment -> list happening -> moment -> bool -> Prop :=
| handles_claimed n s m l x t y : exported s (nexus n) -> listeners (nexus n) s l -> hears n m l x t y true -> handles n s m x t y true
| handles_unclaimed n s m l x t y : exported s (nexus n) -> listeners (nexus n) s l -> hears n m l x t y false -> handles n s m x (t ++ nobody s l) y false
with hears : nat -> M -> list listener -> moment -> list happening -> moment -> bool -> Prop :=
| hears_end n m x : hears n m [] x [] x false
| hears_skip n m a l x t y b : wants a m (now x) = false -> hears n m l x t y b -> hears n m (a :: l) x t y b
| hears_call n m a l f x t y t' z b : wants a m (now x) = true -> called (i_call (l_item a)) = Some f ->
    does (body f n m) x t y -> over y = false -> hears n m l y t' z b ->
    hears n m (a :: l) x (Matched (i_name (l_item a)) :: t ++ t') z true
| hears_over n m a l f x t y : wants a m (now x) = true -> called (i_call (l_item a)) = Some f ->
    does (body f n m) x t y -> over y = true -> hears n m (a :: l) x (Matched (i_name (l_item a)) :: t) y true.
Definition at_first (w : W) : moment := {| started := []; now := w; over := false |}.
End Spec.

(** ** Projects the theorems are about *)
Definition listens (x : config item) (s : svc) (a : listener) : Prop :=
  exists t l, In (t, l_conds a, l) (offers [] x) /\ means (exports x) t s /\ In (l_item a) l.
Section Sound.
Context (ftype : nat -> cty).
(** The leaves of what a callback asks of the message. *)
Definition asks_leaves (i : item) : list leaf := match i_user i with Some m => leaves m | None => [] end ++ flat_map leaves (i_fields i).
Fixpoint negation_free (m : fexpr) : Prop :=
  match m with MatchModel.Leaf _ | Always | Never => True | And a b | Or a b => negation_free a /\ negation_free b | Not _ => False end.
Definition each_matcher (P : fexpr -> Prop) (i : item) : Prop := (forall m, i_user i = Some m -> P m) /\ Forall P (i_fields i).
(** The library simplifies matchers correctly if they use no [not] and no !=, or if
    one constant only is used with == and != for each field (C02, C19). *)
Definition sound_item (i : item) : Prop :=
  (forall l, In l (asks_leaves i) -> leaf_in_range ftype l) /\
  ((each_matcher negation_free i /\ forall l, In l (asks_leaves i) -> not_ne l) \/
   exists c, forall l, In l (asks_leaves i) -> one_eq_constant c l).
(** Written by a component: without conditions of its own, and not calling through a
    pointer under conditions or through null (C66). *)
Definition written (a : listener) : Prop :=
  i_conds (l_item a) = [] /\
  match i_call (l_item a) with Stateless _ | Stateful _ => True | Pointer (Some _) => l_conds a = [] | Pointer None => False end.
(** Callbacks of an indexed service (C20): conjunctions, and for each indexed field
    at most one constant, with == or with !=, and no != shared with another callback. *)
Definition indexable (fs : list nat) (l : list listener) : Prop :=
  fs <> [] /\ Forall (fun a => each_matcher conj_of_leaves (l_item a)) l /\
  (forall f a v w, In f fs -> In a l -> In (Rel f REq v) (asks_leaves (l_item a)) -> In (Rel f REq w) (asks_leaves (l_item a)) -> v = w) /\
  (forall f a v w, In f fs -> In a l -> In (Rel f REq v) (asks_leaves (l_item a)) -> In (Rel f RNe w) (asks_leaves (l_item a)) -> False) /\
  (forall f a v w, In f fs -> In a l -> In (Rel f RNe v) (asks_leaves (l_item a)) -> In (Rel f RNe w) (asks_leaves (l_item a)) -> v = w) /\
  (forall f i j a b v, In f fs -> nth_error l i = Some a -> nth_error l j = Some b ->
     In (Rel f RNe v) (asks_leaves (l_item a)) -> In (Rel f RNe v) (asks_leaves (l_item b)) -> i = j).
End Sound.
Record clear_project {M W} (ftype : nat -> cty) (fld : nat -> M -> Z) (psem : nat -> M * W -> bool) (pred : nat -> W -> bool)
  (cond_no : cond -> nat) (kind_of : svc -> kind) (nexus : nat -> config item) : Prop := {
  cp_types : forall f, cty_ok (ftype f);
  cp_values : forall f m, in_range (ftype f) (fld f m);
  cp_written : forall n s a, exported s (nexus n) -> listens (nexus n) s a -> written a /\ sound_item ftype (l_item a);
  cp_conds : forall n s a c, exported s (nexus n) -> listens (nexus n) s a -> In c (l_conds a) ->
    forall m w, psem (cond_no c) (m, w) = holds (fun p => pred p w) c;
  cp_indexed : forall n s fs l, exported s (nexus n) -> kind_of s = Indexed fs -> listeners (nexus n) s l -> indexable fs l }.

(** Messages that callables send while handling one can be ranked below it. *)
Section Ranked.
Context {M W : Type} (rank : svc -> M -> nat) (nexus : nat -> config item).
Fixpoint below (k : nat) (p : @prog M W) : Prop :=
  match p with
  | End => True
  | Do _ q => below k q
  | Look q => forall w, below k (q w)
  | Send v s m q => rank s m < k /\ (match v with Current => True | Of n => exported s (nexus n) end) /\ forall b, below k (q b)
  | Ask v s m q => (match v with Current => True | Of n => exported s (nexus n) end) /\ forall b, below k (q b)
  | Start n q => below k q
  end.
Definition ranked (body : nat -> nat -> M -> @prog M W) : Prop :=
  forall n s a f m, exported s (nexus n) -> listens (nexus n) s a -> called (i_call (l_item a)) = Some f -> below (rank s m) (body f n m).
End Ranked.
(** Never asks whether there is a match. *)
Fixpoint asks_nothing {M W} (p : @prog M W) : Prop :=
  match p with
  | End => True
  | Do _ q | Start _ q => asks_nothing q
  | Look q => forall w, asks_nothing (q w)
  | Send _ _ _ q => forall b, asks_nothing (q b)
  | Ask _ _ _ _ => False
  end.
(** All but the lines that say why each callback did not match. *)
Definition without_reasons (t : list happening) : list happening := filter (fun h => match h with Mismatch _ => false | _ => true end) t.

(** ** The same program over other messages *)
(** [carried m1 m2]: m2 is m1 in another form. *)
Section Retold.
Context {M1 M2 W : Type} (carried : M1 -> M2 -> Prop).
Inductive retold : @prog M1 W -> @prog M2 W -> Prop :=
| retold_end : retold End End
| retold_do a k k' : retold k k' -> retold (Do a k) (Do a k')
| retold_look k k' : (forall w, retold (k w) (k' w)) -> retold (Look k) (Look k')
| retold_send v s m m' k k' : carried m m' -> (forall b, retold (k b) (k' b)) -> retold (Send v s m k) (Send v s m' k')
| retold_ask v s m m' k k' : carried m m' -> (forall b, retold (k b) (k' b)) -> retold (Ask v s m k) (Ask v s m' k')
| retold_start n k k' : retold k k' -> retold (Start n k) (Start n k').
End Retold.

(** ** Messages in storage *)
(** The storage of a message: n elements of es bits. *)
Definition buffer (es : N) (n : nat) : Type := { st : list N | length st = n /\ storage_ok es st }.
Section Storage.
Context (ftab : nat -> mfield) (ftype : nat -> cty) (es : N) (n : nat) (ids : list nat).
(** What a matcher reads from the storage of a message with the fields [ids]. *)
Definition read_from (i : nat) (b : buffer es n) : Z := extract_field ftab ftype es i (Message ids (proj1_sig b)).
(** The storage of the message constructed with these values. *)
Definition constructed (vs : list (nat * N)) (b : buffer es n) : Prop := construct es n (map ftab ids) vs = Some (Done (proj1_sig b)).
(** The value of a field of that message: the one given, or else the default. *)
Definition given (i : nat) (vs : list (nat * N)) : Z := typed (signed_type (ftype i)) (f_bytes (ftab i)) (expected vs (ftab i)).
(** Callbacks ask about fields of the message. *)
Definition asks_own (a : listener) : Prop := forall f o v, In (Rel f o v) (asks_leaves (l_item a)) -> In f ids.
End Storage.

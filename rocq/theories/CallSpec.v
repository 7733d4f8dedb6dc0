(** What services are meant to do with what they are given: conditions and callables
    see the values of the message's fields as they stand in the storage. *)
From Coq Require Import List NArith ZArith Bool Arith.
From Verif Require Import FieldModel FieldSpec MatchModel MatchSpec FieldMatchersModel FieldMatchersSpec MessageModel MessageSpec AccessModel AccessSpec CallModel.
Import ListNotations.
Local Open Scope N_scope.

Section Spec.
Variable es : N.
Variable ftab : nat -> mfield.
Variable ftype : nat -> cty.
Variable dtab : nat -> list nat.
Variable pkind : nat -> param.
Variable psem : nat -> (nat -> Z) -> bool.
Definition fields_of (d : nat) : list mfield := map ftab (dtab d).

(** Field types accepted by the library, with C++ types that fit them; definitions
    with distinct names and no overlapping fields (elements of at most 32 bits, see C10). *)
Definition tables_good : Prop :=
  (es = 8 \/ es = 16 \/ es = 32) /\ (forall i, field_valid (ftab i) = true /\ type_fits (ftype i) (ftab i)) /\
  (forall d, msg_good (fields_of d)).
(** What is given suits a definition: a long enough array, or a message of it. *)
Definition suits (d : nat) (t : ty) (st : list N) : Prop :=
  storage_ok es st /\
  match t with
  | TArray n => length st = n /\ fields_fit (es * N.of_nat n) (fields_of d)
  | TView d' n _ => d' = d /\ (n <= length st)%nat /\ fields_fit (es * N.of_nat n) (fields_of d)
  | TOwner d' n => d' = d /\ length st = n /\ fields_fit (es * N.of_nat n) (fields_of d)
  end.
(** Arrays, owners and const views are given as const. *)
Definition given_const (t : ty) : Prop := match t with TArray _ | TOwner _ _ => True | TView _ _ m => m = false end.
(** How a parameter can be had of what is given for definition [d], the object itself
    preferred to a view of it and this to an owner of its data: a view from an array,
    from an owner or from a view that is not smaller, if elements that are const there
    are not to be changed; an owner where one is given, or made of an array, or of the
    size of the message of a view. *)
Definition offered (d default_size : nat) (t : ty) (p : param) : option how :=
  match t, p with
  | _, PAny => Some AsIs
  | TArray n, PArray k => if Nat.eqb k n then Some AsIs else None
  | TArray n, PView _ _ _ => Some AsIs
  | TArray n, POwner d' k => if Nat.eqb d' d && Nat.eqb k n then Some AsOwner else None
  | TArray _, PAnyView | TOwner _ _, PAnyView => Some AsView
  | TArray _, PAnyOwner | TView _ _ _, PAnyOwner => Some AsOwner
  | TView _ _ _, PAnyView | TOwner _ _, PAnyOwner => Some AsIs
  | TView _ n false, PView d' k false => if Nat.eqb d' d then Some (if Nat.leb k n then AsIs else AsOwner) else None
  | TView _ n false, PView d' k true => if Nat.eqb d' d then Some AsOwner else None
  | TView _ n true, PView d' k false => if Nat.eqb d' d then Some (if Nat.leb k n then AsIs else AsOwner) else None
  | TView _ n true, PView d' k true => if Nat.eqb d' d then Some (if Nat.eqb k n then AsIs else AsOwner) else None
  | TView _ _ _, POwner d' k => if Nat.eqb d' d && Nat.eqb k default_size then Some AsOwner else None
  | TOwner _ _, PView d' _ _ => if Nat.eqb d' d then Some AsIs else None
  | TOwner _ n, POwner d' k => if Nat.eqb d' d && Nat.eqb k n then Some AsIs else None
  | _, PArray _ => None
  end.
(** A parameter for the messages of a definition: its type has room for the fields. *)
Definition param_for (d : nat) (p : param) : Prop :=
  match p with
  | PView d' n _ | POwner d' n => d' = d /\ fields_fit (es * N.of_nat n) (fields_of d)
  | _ => True
  end.
(** The typed value of field type [i] in a storage. *)
Definition value_at (st : list N) (i : nat) : Z :=
  typed (signed_type (ftype i)) (f_bytes (ftab i)) (value_in es st (ftab i)).
(** A predicate that looks at the fields of the definition only. *)
Definition looks_at (d : nat) (q : (nat -> Z) -> bool) : Prop :=
  forall v w, (forall i, In i (dtab d) -> v i = w i) -> q v = q w.
(** The condition on the storage. *)
Definition holds_on (m : fexpr) (st : list N) : bool :=
  eval (leaf_sem (fun i (_ : unit) => value_at st i) (fun p _ => psem p (value_at st))) m tt.
(** A condition on the fields of a definition. *)
Definition about (d : nat) (m : fexpr) : Prop :=
  (forall f, In f (rels m) -> In f (dtab d)) /\
  (forall p, In p (preds m) -> param_for d (pkind p) /\ looks_at d (psem p)).

(** The body of a callable uses definitions that suit. *)
Inductive body_good : body -> Prop :=
| good_stop : body_good Stop
| good_then c k : command_good es c -> (forall o, body_good (k o)) -> body_good (Then c k).
(** A callable whose parameters are for its message. *)
Definition callable_for (d : nat) (c : callable) : Prop :=
  (forall p, c_plain c = Some p \/ c_templ c = Some p -> param_for d p) /\ forall b, body_good (c_body c b).
(** What an entry needs of what is given. *)
Definition entry_for (t : ty) (st : list N) (k : entry) : Prop :=
  suits (k_msg k) t st /\ about (k_msg k) (k_matcher k) /\ callable_for (k_msg k) (k_call k).
(** A field that lies within what is given. *)
Definition within (t : ty) (f : nat) : Prop :=
  match t with TArray n | TView _ n _ | TOwner _ n => fits (es * N.of_nat n) (f_locs (ftab f)) end.
(** A body that reads fields of its parameter, by name, then goes on. *)
Fixpoint reading (l : list nat) (k : list observation -> body) : body :=
  match l with [] => k [] | f :: r => Then (Get 0 f) (fun o => reading r (fun q => k (o ++ q))) end.

(** The callables called, in order. *)
Definition called (evs : list happening) : list nat :=
  flat_map (fun ev => match ev with Called i _ => [i] | _ => [] end) evs.
Definition complaints (evs : list happening) : nat :=
  length (filter (fun ev => match ev with Unclaimed => true | _ => false end) evs).

(** One callable after the other, each when its condition holds of what is there by
    then; [what] relates storages before and after a call and what is seen. *)
Inductive turns (what : entry -> list N -> list observation -> list N -> Prop) : list entry -> list N -> list happening -> list N -> Prop :=
| turns_nil st : turns what [] st [] st
| turns_skip k r st evs st' : holds_on (k_matcher k) st = false -> turns what r st evs st' -> turns what (k :: r) st evs st'
| turns_call k r st saw st1 evs st' : holds_on (k_matcher k) st = true -> what k st saw st1 -> turns what r st1 evs st' ->
    turns what (k :: r) st (Called (k_id k) saw :: evs) st'.
End Spec.

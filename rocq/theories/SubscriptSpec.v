(** What set and subscripts of messages are meant to do, on storages as sequences
    of bits. *)
From Coq Require Import List NArith ZArith Bool Arith.
From Verif Require Import FieldModel FieldSpec MessageModel MessageSpec AccessModel AccessSpec SubscriptModel.
Import ListNotations.
Local Open Scope N_scope.

(** ** set *)
(** Bits after one argument is set: a value in its field, or the default where only
    the field is given. *)
Definition given (d : list mfield) (a : argument) (b : bits) : bits :=
  match find (fun f => Nat.eqb (f_name f) (arg_name a)) d with
  | None => b
  | Some f =>
    match a with
    | AValue _ v => written f v b
    | AName _ | AType _ => match default_of (f_default f) with Some v => written f v b | None => b end
    end
  end.
(** One argument after the other. *)
Definition all_given (d : list mfield) (args : list argument) (b : bits) : bits :=
  fold_left (fun b a => given d a b) args b.
(** What may be given: fields of the message; values only for those that may change. *)
Definition may_give (d : list mfield) (a : argument) : Prop :=
  exists f, In f d /\ f_name f = arg_name a /\
    match a with AValue _ _ => match f_default f with DDefault _ | DWithout => True | _ => False end | _ => True end.

(** ** Subscripts *)
(** The value a field has. *)
Definition has_value (a : astate) (v n : nat) (x : N) : Prop :=
  exists h f, nth_error (names a) v = Some h /\ In f (h_def h) /\ f_name f = n /\ holds_value (bits_of a (h_store h)) f x.

Section Meaning.
Variable es : N.
(** As meant: a subscript is the value the field has when it is evaluated. *)
Inductive meant : list scommand -> astate -> list N -> list observation -> Prop :=
| meant_nil a ys : meant [] a ys []
| meant_plain c r a ys o q : shows c a o -> meant r (effect es c a) ys q -> meant (Plain c :: r) a ys (o ++ q)
| meant_assign v n x r a ys q : meant r (effect es (Set_ v [(n, x)]) a) ys q -> meant (Assign v n x :: r) a ys q
| meant_take c v n x r a ys q : has_value a v n x -> meant r a (ys ++ [x]) q -> meant (Take c v n :: r) a ys q
| meant_read t x r a ys q : nth_error ys t = Some x -> meant r a ys q -> meant (Read t :: r) a ys (Value x :: q)
| meant_copy c v n w k x r a ys q : has_value a w k x -> meant r (effect es (Set_ v [(n, x)]) a) ys q -> meant (Copy c v n w k :: r) a ys q.

(** As it is: what is taken from a message that is not const stands for the field. *)
Inductive thing := AnN (x : N) | TheField (v n : nat).
Inductive behaves : list scommand -> astate -> list thing -> list observation -> Prop :=
| behaves_nil a ys : behaves [] a ys []
| behaves_plain c r a ys o q : shows c a o -> behaves r (effect es c a) ys q -> behaves (Plain c :: r) a ys (o ++ q)
| behaves_assign v n x r a ys q : behaves r (effect es (Set_ v [(n, x)]) a) ys q -> behaves (Assign v n x :: r) a ys q
| behaves_take_const v n x r a ys q : has_value a v n x -> behaves r a (ys ++ [AnN x]) q -> behaves (Take true v n :: r) a ys q
| behaves_take v n r a ys q : behaves r a (ys ++ [TheField v n]) q -> behaves (Take false v n :: r) a ys q
| behaves_read t x r a ys q : nth_error ys t = Some (AnN x) -> behaves r a ys q -> behaves (Read t :: r) a ys (Value x :: q)
| behaves_read_field t v n x r a ys q : nth_error ys t = Some (TheField v n) -> has_value a v n x -> behaves r a ys q -> behaves (Read t :: r) a ys (Value x :: q)
| behaves_copy c v n w k x r a ys q : has_value a w k x -> behaves r (effect es (Set_ v [(n, x)]) a) ys q -> behaves (Copy c v n w k :: r) a ys q.

(** The conditions of C97 on commands. *)
Definition scommand_good (c : scommand) : Prop := match c with Plain b => command_good es b | _ => True end.
(** Comparisons are of messages of one definition. *)
Fixpoint salike (p : list scommand) (s : sstate) : Prop :=
  match p with
  | [] => True
  | c :: r => match c with Plain b => compares_alike (vars (base s)) b | _ => True end /\
              forall s' o, sstep es c s = Some (Done (s', o)) -> salike r s'
  end.
(** The storages a command writes to. *)
Definition swrites (s : state) (c : scommand) (i : nat) : Prop :=
  match c with
  | Plain b => writes_to s b i
  | Assign v _ _ | Copy _ v _ _ _ => exists h, nth_error (vars s) v = Some h /\ h_store h = i
  | Take _ _ _ | Read _ => False
  end.
(** After something is taken from a message that is not const, its storage is not
    written to. *)
Fixpoint left_alone (p : list scommand) (s : sstate) (is : list nat) : Prop :=
  match p with
  | [] => True
  | c :: r =>
    (forall i, In i is -> ~ swrites (base s) c i) /\
    forall s' o, sstep es c s = Some (Done (s', o)) ->
      left_alone r s' (match c with
                       | Take false v _ => match nth_error (vars (base s)) v with Some h => h_store h :: is | None => is end
                       | _ => is
                       end)
  end.
End Meaning.

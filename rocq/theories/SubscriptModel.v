(** Model of the arguments of set and of subscripts of messages:
    include/msg/message.hpp (field_name, msg_access::set, msg_base::set,
    msg_base::proxy, msg_base::operator[]).

    Simplifications: those of AccessModel; values are unsigned integers, messages
    with the same fields are of the same type (names and environments of messages
    are left out); a variable is used as const or not at each place, and what is
    taken from a subscript lives to the end of the program. *)
From Coq Require Import List NArith ZArith Bool Arith.
From Verif Require Import FieldModel MatchModel FieldMatchersModel MessageModel AccessModel.
Import ListNotations.
Local Open Scope N_scope.

(** ** The arguments of set *)
(** What may be given to set: "f"_field = v (field_value, include/msg/message.hpp:122-133),
    "f"_field (field_name, include/msg/message.hpp:127-128), and an object of a
    field type (include/msg/message.hpp:246-249). *)
Inductive argument :=
| AValue (n : nat) (v : N)
| AName (n : nat)
| AType (n : nat).
(** The name_t of each (include/msg/message.hpp:123, 128, 195). *)
Definition arg_name (a : argument) : nat := match a with AValue n _ | AName n | AType n => n end.
(** some_field_value (include/msg/message.hpp:183-187). *)
Definition is_value (a : argument) : bool := match a with AValue _ _ => true | _ => false end.
(** Whether the argument is a field_name (include/msg/message.hpp:236-239). *)
Definition is_name (a : argument) : bool := match a with AName _ => true | _ => false end.
(** include/msg/message.hpp:213-219 *)
Definition value_given (a : argument) : nat * N := match a with AValue n v => (n, v) | AName n | AType n => (n, 0) end.

(** check<N, R> for a default (include/msg/message.hpp:200-211, 221-225): the name is one of
    the message's and the field fits. *)
Definition resettable (es : N) (fs : list mfield) (n : N) (k : nat) : bool :=
  match find_field k fs with Some f => field_fits (es * n) (f_locs f) | None => false end.
(** The fields of some names (include/msg/message.hpp:233-234). *)
Definition fields_named (fs : list mfield) (ns : list nat) : list mfield :=
  flat_map (fun k => match find_field k fs with Some f => [f] | None => [] end) ns.

(** msg_base::set (include/msg/message.hpp:348-351) and the three msg_access::set it may
    mean (include/msg/message.hpp:236-249): values only are set; for names only
    set_default<Ns> is given a string where it takes a type, which does not
    compile; anything else is taken by its names, and defaults are set. *)
Definition set_call (es : N) (fs : list mfield) (args : list argument) (st : list N) : option (outcome (list N)) :=
  if forallb is_value args then m_set es fs (map value_given args) st
  else if forallb is_name args then None
  else if forallb (fun a => resettable es fs (N.of_nat (length st)) (arg_name a)) args
  then Some (run_defaults es (fields_named fs (map arg_name args)) st)
  else None.

(** ** Subscripts *)
(** What auto y = m["f"_field] is: a value, from a const message
    (include/msg/message.hpp:369-372), or a proxy, which has a reference to the message
    (include/msg/message.hpp:353-367, 373-376). *)
Inductive taken := Held (x : N) | Proxy (v n : nat).
(** Equality of field types (include/msg/field.hpp:397-404). *)
Definition mfield_eq_dec (a b : mfield) : {a = b} + {a <> b}.
Proof. repeat decide equality. Defined.
(** The variables of a program, which of them are owners, and what was taken
    (include/msg/message.hpp:417-587). *)
Record sstate := { base : state; owners : list bool; held : list taken }.
(** include/msg/message.hpp:353-376 *)
Inductive scommand :=
| Plain (c : command)
| Assign (v n : nat) (x : N)             (* m["n"_field] = x *)
| Take (const : bool) (v n : nat)        (* auto y = m["n"_field], on m as const or not *)
| Read (t : nat)                         (* y as a value *)
| Copy (const : bool) (v n w k : nat).   (* m["n"_field] = m2["k"_field], on m2 as const or not *)
(** The owners that a command declares (include/msg/message.hpp:490-587). *)
Definition declares (c : command) : list bool :=
  match c with Owner _ _ _ | OwnerFrom _ _ _ _ => [true] | View _ _ _ _ _ => [false] | _ => [] end.
(** Whether two variables have the same type, so that their subscripts of one name
    do (include/msg/message.hpp:337, 353-355). *)
Definition same_type (s : sstate) (v w : nat) : bool :=
  match nth_error (vars (base s)) v, nth_error (vars (base s)) w, nth_error (owners s) v, nth_error (owners s) w with
  | Some h, Some g, Some a, Some b =>
    (if list_eq_dec mfield_eq_dec (h_def h) (h_def g) then true else false) &&
    Nat.eqb (h_extent h) (h_extent g) && Bool.eqb (h_mut h) (h_mut g) && Bool.eqb a b
  | _, _, _, _ => false
  end.

Section Run.
Variable es : N.
(** One get (include/msg/message.hpp:344-346). *)
Definition got (v n : nat) (s : state) : option (outcome N) :=
  match step es (Get v n) s with
  | Some (Done (_, [Value x])) => Some (Done x)
  | Some (Done _) => None
  | Some OutOfBounds => Some OutOfBounds
  | Some BadShift => Some BadShift
  | Some OutOfFuel => Some OutOfFuel
  | None => None
  end.
(** proxy::operator= (include/msg/message.hpp:358-360): set with the value. *)
Definition assign (v n : nat) (x : N) (s : sstate) : option (outcome (sstate * list observation)) :=
  match step es (Set_ v [(n, x)]) (base s) with
  | Some o => Some (let! r := o in Done ({| base := fst r; owners := owners s; held := held s |}, []))
  | None => None
  end.
(** include/msg/message.hpp:353-376: the conversion of a proxy reads the field then
    (include/msg/message.hpp:365-366); that a proxy can be had needs a field that can be read
    (include/msg/message.hpp:362). An assignment between subscripts of one type means the
    assignment of proxies, which is deleted since they have a reference
    (include/msg/message.hpp:353-355); otherwise the proxy is converted by set1
    (include/msg/message.hpp:213-219). *)
Definition sstep (c : scommand) (s : sstate) : option (outcome (sstate * list observation)) :=
  match c with
  | Plain b =>
    match step es b (base s) with
    | Some o => Some (let! r := o in Done ({| base := fst r; owners := owners s ++ declares b; held := held s |}, snd r))
    | None => None
    end
  | Assign v n x => assign v n x s
  | Take const v n =>
    match got v n (base s) with
    | Some o =>
      if const then Some (let! x := o in Done ({| base := base s; owners := owners s; held := held s ++ [Held x] |}, []))
      else Some (Done ({| base := base s; owners := owners s; held := held s ++ [Proxy v n] |}, []))
    | None => None
    end
  | Read t =>
    match nth_error (held s) t with
    | Some (Held x) => Some (Done (s, [Value x]))
    | Some (Proxy v n) => match got v n (base s) with Some o => Some (let! x := o in Done (s, [Value x])) | None => None end
    | None => None
    end
  | Copy const v n w k =>
    if negb const && Nat.eqb n k && same_type s v w then None
    else match got w k (base s) with
         | Some (Done x) => assign v n x s
         | Some OutOfBounds => Some OutOfBounds
         | Some BadShift => Some BadShift
         | Some OutOfFuel => Some OutOfFuel
         | None => None
         end
  end.
(** include/msg/message.hpp:353-376 *)
Fixpoint srun (p : list scommand) (s : sstate) : option (outcome (sstate * list observation)) :=
  match p with
  | [] => Some (Done (s, []))
  | c :: r =>
    match sstep c s with
    | Some (Done (s', o)) =>
      match srun r s' with
      | Some q => Some (let! z := q in Done (fst z, o ++ snd z))
      | None => None
      end
    | Some e => Some e
    | None => None
    end
  end.
End Run.
(** include/msg/message.hpp:417-587 *)
Definition sstart : sstate := {| base := start; owners := []; held := [] |}.

(** Model of the message field matchers (include/msg/field_matchers.hpp) and of
    the with_* field constraints (include/msg/field.hpp:489-531).

    A field is identified by a natural number standing for its C++ type; two
    matchers are on "the same field" iff the field types are the same.
    Simplification: field values are integers; fields of class type (any
    trivially copyable T) are not modelled. *)
From Coq Require Import List Bool ZArith.
From Verif Require Import MatchModel.
Import ListNotations.
Local Open Scope Z_scope.

(** std::less<>, less_equal<>, greater<>, greater_equal<>, equal_to<>,
    not_equal_to<> (include/msg/field_matchers.hpp:101-115). *)
Inductive relop := RLt | RLe | RGt | RGe | REq | RNe.

(** Equality of the above: include/msg/field_matchers.hpp:101-115 *)
Definition relop_eqb (a b : relop) : bool :=
  match a, b with
  | RLt, RLt | RLe, RLe | RGt, RGt | RGe, RGe | REq, REq | RNe, RNe => true
  | _, _ => false
  end.

(** RelOp{}(a, b) on two values of the field's type (the types agree, so the
    usual arithmetic conversions preserve both values)
    (include/msg/field_matchers.hpp:143-151). *)
Definition relb (o : relop) (a b : Z) : bool :=
  match o with
  | RLt => a <? b
  | RLe => a <=? b
  | RGt => b <? a
  | RGe => b <=? a
  | REq => a =? b
  | RNe => negb (a =? b)
  end.

(** detail::inverse_op (include/msg/field_matchers.hpp:101-115). *)
Definition inverse_op (o : relop) : relop :=
  match o with
  | RLt => RGe | RLe => RGt | RGt => RLe | RGe => RLt | REq => RNe | RNe => REq
  end.

(** The field's value type: an integer type of some width and signedness,
    bool, or a scoped enumeration with such an underlying type
    (include/msg/field_matchers.hpp:143-151). *)
Inductive cty :=
| CInt (width : Z) (signed : bool)
| CBool
| CEnum (width : Z) (signed : bool).

(** include/msg/field_matchers.hpp:143-151 *)
Definition cmin (t : cty) : Z :=
  match t with
  | CInt w true | CEnum w true => - 2 ^ (w - 1)
  | _ => 0
  end.
(** include/msg/field_matchers.hpp:143-151 *)
Definition cmax (t : cty) : Z :=
  match t with
  | CInt w true | CEnum w true => 2 ^ (w - 1) - 1
  | CInt w false | CEnum w false => 2 ^ w - 1
  | CBool => 1
  end.

(** [Y + ++inc] with [auto inc = decltype(X){}] (include/msg/field_matchers.hpp:229-230,
    244-245).  Types narrower than int are promoted and cannot overflow;
    unsigned types of at least 32 bits wrap; signed overflow in a constant
    expression, [++] on bool and [++] on a scoped enumeration do not compile
    ([None]). *)
Definition add_one (t : cty) (y : Z) : option Z :=
  match t with
  | CInt w true => if y + 1 <=? 2 ^ (Z.max w 32 - 1) - 1 then Some (y + 1) else None
  | CInt w false => if w <? 32 then Some (y + 1) else Some ((y + 1) mod 2 ^ w)
  | CBool | CEnum _ _ => None
  end.

(** The overload set of match::implies on two relational matchers on the same
    field (include/msg/field_matchers.hpp:185-191, 218-259, 304-332); pairs without an
    overload fall back to std::is_same_v, which is false for different
    operators (include/match/implies.hpp:9-13).  [None]: does not compile. *)
Definition rel_implies (t : cty) (o1 : relop) (x : Z) (o2 : relop) (y : Z) : option bool :=
  match o1, o2 with
  | RLe, RLt => Some (x <? y)
  | RLt, RLe => option_map (fun y' => x <=? y') (add_one t y)
  | RGe, RGt => Some (y <? x)
  | RGt, RGe => option_map (fun x' => y <=? x') (add_one t x)
  | REq, _ => Some (relb o2 x y)
  | RLt, RNe => Some (x <=? y)
  | RGt, RNe => Some (y <=? x)
  | RLe, RNe => Some (x <? y)
  | RGe, RNe => Some (y <? x)
  | _, _ => if relop_eqb o1 o2 then Some ((x =? y) || relb o1 x y) else Some false
  end.

(** Leaf matchers used by messages: rel_matcher_t (include/msg/field_matchers.hpp:143-192)
    and the opaque predicate matchers pred_matcher_t (include/msg/field_matchers.hpp:345-367) and
    match::predicate_t (include/match/predicate.hpp:12-29), the latter two
    identified by their C++ type. *)
Inductive leaf :=
| Rel (f : nat) (o : relop) (v : Z)
| Pred (p : nat).

(** Equality of the above: include/match/implies.hpp:9-13 *)
Definition leaf_eqb (a b : leaf) : bool :=
  match a, b with
  | Rel f o v, Rel g p w => Nat.eqb f g && relop_eqb o p && (v =? w)
  | Pred p, Pred q => Nat.eqb p q
  | _, _ => false
  end.

(** match::negate on leaves (include/msg/field_matchers.hpp:179-183; default for
    predicates). *)
Definition leaf_neg (a : leaf) : option leaf :=
  match a with
  | Rel f o v => Some (Rel f (inverse_op o) v)
  | Pred _ => None
  end.

Section Leaves.
(** The value type of each field. *)
Variable ftype : nat -> cty.

(** match::implies on leaves.  A pair on which the overload does not compile
    makes the program ill-formed; it is given the answer [false] here, and
    theorems about compiling programs are not affected
    (include/msg/field_matchers.hpp:218-259). *)
Definition leaf_implies (a b : leaf) : bool :=
  match a, b with
  | Rel f o x, Rel g p y =>
      if Nat.eqb f g then
        match rel_implies (ftype f) o x p y with Some r => r | None => false end
      else false
  | Pred p, Pred q => Nat.eqb p q
  | _, _ => false
  end.

(** include/match/ops.hpp:14-30 *)
Definition fexpr := mexpr leaf.
(** include/match/simplify.hpp:9-13 *)
Definition fsimplify : fexpr -> fexpr := simplify leaf leaf_eqb leaf_implies leaf_neg.
(** include/match/ops.hpp:14-30 *)
Definition fand : fexpr -> fexpr -> fexpr := op_and leaf leaf_eqb leaf_implies leaf_neg.
(** include/match/ops.hpp:14-30 *)
Definition for_ : fexpr -> fexpr -> fexpr := op_or leaf leaf_eqb leaf_implies leaf_neg.
(** include/match/ops.hpp:14-30 *)
Definition fnot : fexpr -> fexpr := op_not leaf leaf_eqb leaf_implies leaf_neg.
(** include/match/and.hpp:84-86 *)
Definition fall : list fexpr -> fexpr := match_all leaf leaf_eqb leaf_implies leaf_neg.
(** include/match/sum_of_products.hpp:9-13 *)
Definition fsop : fexpr -> fexpr := sum_of_products leaf leaf_neg.

(** in_t: right fold of [or] ending in never (include/msg/field_matchers.hpp:334-336). *)
Definition in_matcher (f : nat) (vs : list Z) : fexpr :=
  fold_right (fun v acc => for_ (Leaf (Rel f REq v)) acc) Never vs.

(** The constraint vocabulary of a field declaration
    (include/msg/field.hpp:489-531). *)
Inductive constraint :=
| WithEqualTo (v : Z)
| WithIn (vs : list Z)
| WithGreaterThan (v : Z)
| WithGreaterThanOrEqualTo (v : Z)
| WithLessThan (v : Z)
| WithLessThanOrEqualTo (v : Z)
| WithPredicate (p : nat)
| WithRequired (v : Z).

(** The matcher each declaration attaches to the field (include/msg/field.hpp:494-531). *)
Definition constraint_matcher (f : nat) (c : constraint) : fexpr :=
  match c with
  | WithEqualTo v => Leaf (Rel f REq v)                (* 494-497 *)
  | WithIn vs => in_matcher f vs                       (* 499-502 *)
  | WithGreaterThan v => Leaf (Rel f RGt v)            (* 504-506 *)
  | WithGreaterThanOrEqualTo v => Leaf (Rel f RGe v)   (* 508-511 *)
  | WithLessThan v => Leaf (Rel f RLe v)               (* 513-516 *)
  | WithLessThanOrEqualTo v => Leaf (Rel f RLe v)      (* 518-521 *)
  | WithPredicate p => Leaf (Pred p)                   (* 523-525 *)
  | WithRequired v => Leaf (Rel f REq v)               (* 529-531 *)
  end.
End Leaves.

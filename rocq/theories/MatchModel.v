(** Model of the match library (include/match/*.hpp).

    A matcher type is modelled by a tree over an arbitrary type [L] of leaf
    matchers.  The C++ computes on types; two leaves are "the same type" iff
    [leqb] says so.  The two customisation points a leaf can provide,
    [match::implies] and [match::negate], are the parameters [limpl] and
    [lneg].

    Simplifications: the human-readable [describe] functions are not
    here but in DescribeModel.v; overload combinations that are ambiguous (a
    compile error, e.g. [and_t const] against [always_t] in [operator<=>]) are
    given the value the unambiguous overload would compute. *)
From Coq Require Import List Bool Arith Lia.
Import ListNotations.

Section Match.
Variable L : Type.
(** [leqb a b]: std::is_same_v on leaf types. *)
Variable leqb : L -> L -> bool.
(** [limpl a b]: result of [match::implies] on two leaves
    (a leaf's own overload, else std::is_same_v; include/match/implies.hpp:9-13). *)
Variable limpl : L -> L -> bool.
(** [lneg a]: [Some b] if the leaf overloads [match::negate]
    (e.g. include/msg/field_matchers.hpp:179-183), [None] for the default
    [not_t<M>] (include/match/negate.hpp:11-15). *)
Variable lneg : L -> option L.

(** include/match/and.hpp:20, include/match/or.hpp:20, include/match/not.hpp:19, include/match/constant.hpp:15,36. *)
Inductive mexpr : Type :=
| Leaf (l : L)
| Always
| Never
| And (a b : mexpr)
| Or (a b : mexpr)
| Not (a : mexpr).

(** std::is_same_v on matcher types (include/match/implies.hpp:9-13). *)
Fixpoint meqb (x y : mexpr) : bool :=
  match x, y with
  | Leaf a, Leaf b => leqb a b
  | Always, Always => true
  | Never, Never => true
  | And a b, And c d => meqb a c && meqb b d
  | Or a b, Or c d => meqb a c && meqb b d
  | Not a, Not b => meqb a b
  | _, _ => false
  end.

(** match::negate: default wraps (include/match/negate.hpp:11-15), [not_t] unwraps
    (include/match/not.hpp:53-56), constants swap (include/match/constant.hpp:51-54, 62-64), leaves may
    customise. *)
Definition negate (m : mexpr) : mexpr :=
  match m with
  | Leaf l => match lneg l with Some l' => Leaf l' | None => Not (Leaf l) end
  | Always => Never
  | Never => Always
  | Not a => a
  | And _ _ | Or _ _ => Not m
  end.

(** match::cost: 1 by default (include/match/cost.hpp:10-13), and/or: sum + 1
    (include/match/and.hpp:42-47, include/match/or.hpp:42-47), not: + 1 (include/match/not.hpp:47-51). *)
Fixpoint cost (m : mexpr) : nat :=
  match m with
  | Leaf _ | Always | Never => 1
  | And a b | Or a b => cost a + cost b + 1
  | Not a => cost a + 1
  end.

(** match::implies.  Priority: [_ => always] (include/match/constant.hpp:30-33),
    [never => _] (include/match/constant.hpp:56-59), rhs [or_t] (include/match/or.hpp:58-62), lhs [and_t] with rhs not
    [or_t] (include/match/and.hpp:69-74), leaf overloads, else is_same (include/match/implies.hpp:9-13). *)
Fixpoint implies (x : mexpr) : mexpr -> bool :=
  fix implies_x (y : mexpr) : bool :=
    match y with
    | Always => true
    | _ =>
      match x with
      | Never => true
      | _ =>
        match y with
        | Or a b => implies_x a || implies_x b
        | _ =>
          match x with
          | And a b => implies a y || implies b y
          | Leaf p => match y with Leaf q => limpl p q | _ => false end
          | _ => meqb x y
          end
        end
      end
    end.

(** detail::de_morgan<and_t, or_t> (include/match/bin_op.hpp:49-60). *)
Definition de_morgan_and (l r : mexpr) : mexpr :=
  let d := negate (Or (negate l) (negate r)) in
  if cost d <? cost (And l r) then d else And l r.

(** detail::de_morgan<or_t, and_t> (include/match/bin_op.hpp:49-60). *)
Definition de_morgan_or (l r : mexpr) : mexpr :=
  let d := negate (And (negate l) (negate r)) in
  if cost d <? cost (Or l r) then d else Or l r.

(** The body of and_t's simplify after simplifying both sides (include/match/and.hpp:31-39). *)
Definition simplify_and (l r : mexpr) : mexpr :=
  if implies l r then l
  else if implies r l then r
  else if implies l (negate r) || implies r (negate l) then Never
  else de_morgan_and l r.

(** The body of or_t's simplify (include/match/or.hpp:31-39). *)
Definition simplify_or (l r : mexpr) : mexpr :=
  if implies l r then r
  else if implies r l then l
  else if implies (negate l) r || implies (negate r) l then Always
  else de_morgan_or l r.

(** match::simplify: identity by default (include/match/simplify.hpp:9-13); include/match/and.hpp:27-40;
    include/match/or.hpp:27-40; include/match/not.hpp:37-45. *)
Fixpoint simplify (m : mexpr) : mexpr :=
  match m with
  | And a b => simplify_and (simplify a) (simplify b)
  | Or a b => simplify_or (simplify a) (simplify b)
  | Not Always => Never
  | Not Never => Always
  | Not a => negate (simplify a)
  | _ => m
  end.

(** operator and / or / not (include/match/ops.hpp:14-30). *)
Definition op_and (a b : mexpr) : mexpr := simplify (And a b).
(** include/match/ops.hpp:14-30 *)
Definition op_or (a b : mexpr) : mexpr := simplify (Or a b).
(** include/match/ops.hpp:14-30 *)
Definition op_not (a : mexpr) : mexpr := simplify (negate a).

(** match::all: simplify of the left fold of [&] from [always] (include/match/and.hpp:84-86). *)
Definition match_all (ms : list mexpr) : mexpr := simplify (fold_left And ms Always).
(** match::any (include/match/or.hpp:72-74). *)
Definition match_any (ms : list mexpr) : mexpr := simplify (fold_left Or ms Never).

(** operator<=> (include/match/ops.hpp:32-43); [None] is std::partial_ordering::unordered.
    [y <=> x] on booleans: [false < true]. *)
Definition spaceship (a b : mexpr) : option comparison :=
  let l := simplify a in
  let r := simplify b in
  match implies l r, implies r l with
  | false, false => None
  | true, true => Some Eq
  | true, false => Some Lt
  | false, true => Some Gt
  end.

(** match::sum_of_products, a literal transcription with fuel
    ([None] = fuel exhausted): include/match/and.hpp:49-67, include/match/or.hpp:49-56, include/match/not.hpp:58-69,
    default identity include/match/sum_of_products.hpp:9-13. *)
Fixpoint sopF (fuel : nat) (m : mexpr) : option mexpr :=
  match fuel with
  | 0 => None
  | S n =>
    match m with
    | And a b =>
      match sopF n a, sopF n b with
      | Some l, Some r =>
        match l with
        | Or l1 l2 =>
          match sopF n (And l1 r), sopF n (And l2 r) with
          | Some x, Some y => Some (Or x y)
          | _, _ => None
          end
        | _ =>
          match r with
          | Or r1 r2 =>
            match sopF n (And l r1), sopF n (And l r2) with
            | Some x, Some y => Some (Or x y)
            | _, _ => None
            end
          | _ => Some (And l r)
          end
        end
      | _, _ => None
      end
    | Or a b =>
      match sopF n a, sopF n b with
      | Some l, Some r => Some (Or l r)
      | _, _ => None
      end
    | Not (And a b) =>
      match sopF n (negate a), sopF n (negate b) with
      | Some l, Some r => Some (Or l r)
      | _, _ => None
      end
    | Not (Or a b) =>
      match sopF n (negate a), sopF n (negate b) with
      | Some l, Some r => sopF n (And l r)
      | _, _ => None
      end
    | _ => Some m
    end
  end.

(** The distribution performed by the two [or_t] branches of include/match/and.hpp:56-66 on
    arguments that are already sums of products. *)
Fixpoint distr (l r : mexpr) : mexpr :=
  match r with
  | Or r1 r2 => Or (distr l r1) (distr l r2)
  | _ => And l r
  end.
(** include/match/and.hpp:56-66 *)
Fixpoint dist (l r : mexpr) : mexpr :=
  match l with
  | Or l1 l2 => Or (dist l1 r) (dist l2 r)
  | _ => distr l r
  end.

(** Structural form of sum_of_products: [dnf true m] is
    [sum_of_products(m)], [dnf false m] is [sum_of_products(negate(m))].
    [sopF_dnf] (MatchProofs.v) proves that the transcription above returns
    exactly this for all large enough fuel, i.e. that the C++ recursion
    terminates with this result (include/match/sum_of_products.hpp:9-13). *)
Fixpoint dnf (pos : bool) (m : mexpr) : mexpr :=
  match m with
  | Leaf _ | Always | Never => if pos then m else negate m
  | And a b => if pos then dist (dnf true a) (dnf true b)
               else Or (dnf false a) (dnf false b)
  | Or a b => if pos then Or (dnf true a) (dnf true b)
              else dist (dnf false a) (dnf false b)
  | Not a =>
    if pos then
      match a with
      | And _ _ | Or _ _ => dnf false a
      | _ => m
      end
    else dnf true a
  end.

(** include/match/sum_of_products.hpp:9-13 *)
Definition sum_of_products (m : mexpr) : mexpr := dnf true m.

End Match.

Arguments Leaf {L} l.
Arguments Always {L}.
Arguments Never {L}.
Arguments And {L} a b.
Arguments Or {L} a b.
Arguments Not {L} a.
Arguments cost {L} m.
Arguments distr {L} l r.
Arguments dist {L} l r.

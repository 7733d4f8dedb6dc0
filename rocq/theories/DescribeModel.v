(** Model of the descriptions of matchers (include/match/*.hpp,
    include/msg/field_matchers.hpp) and of the log lines built from them
    (include/msg/callback.hpp).

    Simplifications: the compile-time and run-time parts of a formatted
    description are one text (the text a text logger prints); field values are
    integers, so the descriptions of fields of enumeration and class type are
    not modelled. *)
From Coq Require Import String Ascii Bool List ZArith.
From Verif Require Import MatchModel FieldMatchersModel.
Import ListNotations.
Local Open Scope Z_scope.
Local Open Scope string_scope.

(** One digit and the digits of a number under [{:x}]: lower case, no leading
    zeros, a minus sign in front of the digits of a negative number
    (include/msg/field_matchers.hpp:153-163). *)
Definition hex_digit (d : Z) : ascii := ascii_of_nat (Z.to_nat (if d <? 10 then 48 + d else 87 + d)%Z).
(** include/msg/field_matchers.hpp:153-163 *)
Fixpoint hex_aux (fuel : nat) (n : Z) (acc : string) : string :=
  match fuel with
  | O => acc
  | S k => let acc := String (hex_digit (n mod 16)) acc in if (n <? 16)%Z then acc else hex_aux k (n / 16) acc
  end.
(** include/msg/field_matchers.hpp:153-163 *)
Definition hex (v : Z) : string :=
  if (v <? 0)%Z then String "-" (hex_aux (S (Z.to_nat (Z.log2 (- v)))) (- v) "")
  else hex_aux (S (Z.to_nat (Z.log2 v))) v "".

(** detail::to_string (include/msg/field_matchers.hpp:117-133). *)
Definition op_text (o : relop) : string :=
  match o with RLt => "<" | RLe => "<=" | RGt => ">" | RGe => ">=" | REq => "==" | RNe => "!=" end.

Section Describe.
Context {L : Type}.
(** What a leaf says of itself. *)
Variable text : L -> string.

(** include/match/bin_op.hpp:36-42 *)
Definition is_and (m : mexpr L) : bool := match m with And _ _ => true | _ => false end.
(** include/match/bin_op.hpp:36-42 *)
Definition is_or (m : mexpr L) : bool := match m with Or _ _ => true | _ => false end.

(** desc in bin_op_t::form_description (include/match/bin_op.hpp:36-42): an operand that is
    the same operator is left bare, any other is put in parentheses. *)
Definition operand (same : bool) (s : string) : string := if same then s else "(" ++ s ++ ")".
(** describe of bin_op_t (include/match/bin_op.hpp:24-45), not_t (include/match/not.hpp:28-30), always_t and
    never_t (include/match/constant.hpp:21-24, 42-45). describe_match (include/match/bin_op.hpp:28-31,
    include/match/not.hpp:32-34, include/match/constant.hpp:25-27, 46-48) is the same function of the leaves'
    describe_match. *)
Fixpoint describe (m : mexpr L) : string :=
  match m with
  | Leaf l => text l
  | Always => "true"
  | Never => "false"
  | Not a => "not (" ++ describe a ++ ")"
  | And a b => operand (is_and a) (describe a) ++ " and " ++ operand (is_and b) (describe b)
  | Or a b => operand (is_or a) (describe a) ++ " or " ++ operand (is_or b) (describe b)
  end.
End Describe.

(** The leaves: rel_matcher_t, pred_matcher_t (include/msg/field_matchers.hpp:143-192,
    345-367) and predicate_t (include/match/predicate.hpp:12-33), with the function a predicate
    applies. A field is its name and the function that extracts its value. *)
Inductive dleaf (E : Type) : Type :=
| DRel (name : string) (value : E -> Z) (o : relop) (v : Z)
| DPred (name : string) (value : E -> Z) (p : Z -> bool)
| DNamed (name : string) (p : E -> bool).
Arguments DRel {E} name value o v.
Arguments DPred {E} name value p.
Arguments DNamed {E} name p.

Section Leaves.
Context {E : Type}.
(** operator() (include/msg/field_matchers.hpp:148-151, 348-351; include/match/predicate.hpp:20-23). *)
Definition dsem (l : dleaf E) (e : E) : bool :=
  match l with
  | DRel _ value o v => relb o (value e) v
  | DPred _ value p => p (value e)
  | DNamed _ p => p e
  end.
(** describe (include/msg/field_matchers.hpp:153-163, 353-355; include/match/predicate.hpp:25-27). *)
Definition leaf_text (l : dleaf E) : string :=
  match l with
  | DRel name _ o v => name ++ " " ++ op_text o ++ " 0x" ++ hex v
  | DPred name _ _ => "<predicate>(" ++ name ++ ")"
  | DNamed name _ => name
  end.
(** describe_match (include/msg/field_matchers.hpp:165-176, 357-366; include/match/predicate.hpp:29-31). *)
Definition leaf_match_text (e : E) (l : dleaf E) : string :=
  match l with
  | DRel name value o v => name ++ " (0x" ++ hex (value e) ++ ") " ++ op_text o ++ " 0x" ++ hex v
  | DPred name value _ => "<predicate>(" ++ name ++ "(0x" ++ hex (value e) ++ "))"
  | DNamed name _ => name
  end.

(** The line of callback::handle (include/msg/callback.hpp:33-42); None: no match, no line.
    [extra] is empty for a plain handler; an indexed handler
    (include/msg/detail/indexed_builder_common.hpp:162-165) passes the text of the matcher
    before the indexed terms were removed. *)
Definition handle_line (name : string) (m : mexpr (dleaf E)) (extra : string) (e : E) (matched : bool) : option string :=
  if matched then Some ("Incoming message matched [" ++ name ++ "], because [" ++ describe leaf_text m ++ "]" ++ extra ++ ", executing callback")
  else None.
(** include/msg/detail/indexed_builder_common.hpp:162-165 *)
Definition collapsed (orig : mexpr (dleaf E)) : string := " (collapsed by index from [" ++ describe leaf_text orig ++ "])".
(** callback::log_mismatch (include/msg/callback.hpp:48-60). *)
Definition mismatch_line (name : string) (m : mexpr (dleaf E)) (e : E) : string :=
  "    " ++ name ++ " - F:(" ++ describe (leaf_match_text e) m ++ ")".
End Leaves.

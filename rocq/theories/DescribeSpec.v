(** How a person reads the description of a matcher. *)
From Coq Require Import String Ascii Bool List ZArith.
From Verif Require Import FieldMatchersModel DescribeModel.
Local Open Scope string_scope.

(** Parentheses pair up, and none is closed before it is opened. *)
Inductive balanced : string -> Prop :=
| bal_nil : balanced ""
| bal_char a s : a <> "("%char -> a <> ")"%char -> balanced s -> balanced (String a s)
| bal_paren s t : balanced s -> balanced t -> balanced ("(" ++ s ++ ")" ++ t).

(** A name that cannot be taken for a part of the notation. *)
Definition starts (p s : string) : Prop := exists r, s = p ++ r.
Definition plain (s : string) : Prop := balanced s /\ ~ starts "(" s /\ ~ starts "not (" s /\ s <> "true" /\ s <> "false".

Inductive connective := Conj | Disj.
Definition word (c : connective) : string := match c with Conj => " and " | Disj => " or " end.
Definition truth (c : connective) : bool -> bool -> bool := match c with Conj => andb | Disj => orb end.

(** [says v s b]: given that a leaf text t has the truth value c when [v t c],
    the text s reads as having truth value b. Operands are in parentheses; a
    chain of one connective needs no inner ones. *)
Inductive says (v : string -> bool -> Prop) : string -> bool -> Prop :=
| says_leaf s b : v s b -> says v s b
| says_true : says v "true" true
| says_false : says v "false" false
| says_not s b : says v s b -> says v ("not (" ++ s ++ ")") (negb b)
| says_chain c s b t d : says v s b -> chain v c t d -> says v ("(" ++ s ++ ")" ++ word c ++ t) (truth c b d)
with chain (v : string -> bool -> Prop) : connective -> string -> bool -> Prop :=
| chain_one c s b : says v s b -> chain v c ("(" ++ s ++ ")") b
| chain_more c s b t d : says v s b -> chain v c t d -> chain v c ("(" ++ s ++ ")" ++ word c ++ t) (truth c b d).

(** Texts of leaves whose truth values are known. *)
Definition knows (v : string -> bool -> Prop) : Prop := (forall s b, v s b -> plain s) /\ (forall s b c, v s b -> v s c -> b = c).

(** A number in hexadecimal. *)
Local Open Scope Z_scope.
Definition digit_value (a : ascii) : option Z :=
  let n := Z.of_nat (nat_of_ascii a) in
  if (48 <=? n) && (n <=? 57) then Some (n - 48) else if (97 <=? n) && (n <=? 102) then Some (n - 87) else None.
Fixpoint digits_value (acc : Z) (s : string) : option Z :=
  match s with
  | EmptyString => Some acc
  | String a r => match digit_value a with Some d => digits_value (16 * acc + d) r | None => None end
  end.
Definition number (s : string) : option Z :=
  match s with
  | EmptyString => None
  | String "-" EmptyString => None
  | String "-" r => option_map Z.opp (digits_value 0 r)
  | _ => digits_value 0 s
  end.
Inductive compares : string -> (Z -> Z -> bool) -> Prop :=
| cmp_lt : compares "<" Z.ltb
| cmp_le : compares "<=" Z.leb
| cmp_gt : compares ">" Z.gtb
| cmp_ge : compares ">=" Z.geb
| cmp_eq : compares "==" Z.eqb
| cmp_ne : compares "!=" (fun a b => negb (a =? b)).
(** "name (0xA) op 0xB" is true when A op B. *)
Definition shows (s : string) (b : bool) : Prop :=
  exists name o f x y a c, s = (name ++ " (0x" ++ x ++ ") " ++ o ++ " 0x" ++ y)%string /\
    compares o f /\ number x = Some a /\ number y = Some c /\ b = f a c.

(** A field name that cannot be taken for a part of the notation. *)
Definition good_field (name : string) : Prop := balanced name /\ ~ starts "(" name /\ ~ starts "not (" (name ++ " (")%string.
(** A leaf with such a name. *)
Definition good_leaf {E} (l : dleaf E) : Prop :=
  match l with DRel name _ _ _ => good_field name | DPred name _ _ => balanced name | DNamed name _ => plain name end.

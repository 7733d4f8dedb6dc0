(** Specification of the texts of the catalog generator and the decoder. *)
From Coq Require Import String Ascii Bool List ZArith.
From Verif Require Import GenModel.
Import ListNotations.
Local Open Scope Z_scope.

Definition starts (p s : string) : Prop := exists r, s = (p ++ r)%string.
Definition occurs (p s : string) : Prop := exists a b, s = (a ++ p ++ b)%string.
Definition char_in (c : ascii) (s : string) : Prop := occurs (String c EmptyString) s.

(** ** Numbers and reserved ids *)
(** [writes base s n]: s is n in the base, most significant digit first. *)
Definition digit (d : Z) : string := match String.get (Z.to_nat d) "0123456789abcdef" with Some a => String a EmptyString | None => EmptyString end.
Inductive writes (base : Z) : string -> Z -> Prop :=
| writes_one d : 0 <= d < base -> writes base (digit d) d
| writes_more s n d : writes base s n -> 0 <= d < base -> writes base (s ++ digit d) (base * n + d).
(** A number as a user writes it: decimal without leading zeros, or hexadecimal. *)
Inductive numeral : string -> Z -> Prop :=
| num_zero : numeral "0" 0
| num_dec s n : writes 10 s n -> ~ starts "0" s -> numeral s n
| num_hex s n : writes 16 s n -> numeral ("0x" ++ s) n.
(** "5" or "1-5", with the first and last id it reserves. *)
Inductive reserves : string -> Z -> Z -> Prop :=
| res_one s n : numeral s n -> reserves s n n
| res_range s m t n : numeral s m -> numeral t n -> reserves (s ++ "-" ++ t) m n.
Fixpoint with_commas (l : list string) : string :=
  match l with [] => EmptyString | [x] => x | x :: r => (x ++ "," ++ with_commas r)%string end.

(** ** Format strings *)
(** Text, {} and {:spec}. *)
Inductive piece := Lit (t : string) | Plain | Spec (f : string).
Definition piece_text (p : piece) : string := match p with Lit t => t | Plain => "{}" | Spec f => ("{:" ++ f ++ "}")%string end.
Definition text_of (ps : list piece) : string := fold_right append EmptyString (map piece_text ps).
Definition braceless (s : string) : Prop := ~ char_in "{" s /\ ~ char_in "}" s.
Definition piece_ok (p : piece) : Prop :=
  match p with Lit t => braceless t | Plain => True | Spec f => braceless f /\ f <> EmptyString end.
Definition is_field (p : piece) : bool := match p with Lit _ => false | _ => true end.
Definition is_spec (p : piece) : bool := match p with Spec _ => true | _ => false end.
Definition is_plain (p : piece) : bool := match p with Plain => true | _ => false end.
(** The printf format that prints the same: literal text with its percent signs
    doubled, a conversion for each field from the field or from its argument. *)
Fixpoint percents (s : string) : string :=
  match s with EmptyString => EmptyString | String a r => if Ascii.eqb a "%" then ("%%" ++ percents r)%string else String a (percents r) end.
Section Printf.
Variable conv : arg_type -> string.
Fixpoint printf_of (ps : list piece) (args : list arg_type) : string :=
  match ps with
  | [] => EmptyString
  | Lit t :: r => (percents t ++ printf_of r args)%string
  | Plain :: r => match args with a :: l => (conv a ++ printf_of r l)%string | [] => ("{}" ++ printf_of r [])%string end
  | Spec f :: r => ("%" ++ f ++ printf_of r (tl args))%string
  end.
(** Conversions for the plain fields alone, literal text as it is. *)
Fixpoint plain_fields (ps : list piece) (args : list arg_type) : string :=
  match ps with
  | [] => EmptyString
  | Lit t :: r => (t ++ plain_fields r args)%string
  | Plain :: r => match args with a :: l => (conv a ++ plain_fields r l)%string | [] => ("{}" ++ plain_fields r [])%string end
  | Spec f :: r => ("%" ++ f ++ plain_fields r args)%string
  end.
End Printf.
(** The conversion for a type: by its name if it is a C++ arithmetic type... *)
Inductive builtin : string -> string -> Prop :=
| b_sc : builtin "signed char" "%d" | b_uc : builtin "unsigned char" "%u" | b_c : builtin "char" "%c"
| b_s : builtin "short" "%d" | b_us : builtin "unsigned short" "%u" | b_i : builtin "int" "%d" | b_ui : builtin "unsigned int" "%u"
| b_l : builtin "long" "%ld" | b_ul : builtin "unsigned long" "%lu" | b_ll : builtin "long long" "%lld" | b_ull : builtin "unsigned long long" "%llu"
| b_f : builtin "float" "%f" | b_d : builtin "double" "%f".
(** ...or else by the way it is encoded. *)
Inductive by_encoding : string -> string -> Prop :=
| e_32 : by_encoding "encode_32" "%d" | e_u32 : by_encoding "encode_u32" "%u"
| e_64 : by_encoding "encode_64" "%lld" | e_u64 : by_encoding "encode_u64" "%llu".

(** ** XML *)
(** The content of an element that is one CDATA section stands for what is
    between the marks. *)
Definition cdata (content t : string) : Prop := content = ("<![CDATA[" ++ t ++ "]]>")%string /\ ~ occurs "]]>" t.
(** Every & replaced. *)
Inductive amped : string -> string -> Prop :=
| amp_nil : amped EmptyString EmptyString
| amp_amp s t : amped s t -> amped (String "&" s) ("&amp;" ++ t)
| amp_other a s t : a <> "&"%char -> amped s t -> amped (String a s) (String a t).

(** ** C++ source *)
(** The lines that are not comments. *)
Fixpoint lines (s : string) : list string :=
  match s with
  | EmptyString => [EmptyString]
  | String a r => if Ascii.eqb a (ascii_of_nat 10) then EmptyString :: lines r
                  else match lines r with x :: l => String a x :: l | [] => [] end
  end.
Definition is_comment (l : string) : bool := String.prefix "//" l.
Definition code (s : string) : list string := filter (fun l => negb (is_comment l)) (lines s).

(** ** Enumerations *)
(** The last pair of the key. *)
Fixpoint last_name {K} (eqb : K -> K -> bool) (k : K) (l : list (K * string)) : option string :=
  match l with [] => None | (k', n) :: r => match last_name eqb k r with Some m => Some m | None => if eqb k' k then Some n else None end end.
Definition swap {A B} (p : A * B) : B * A := (snd p, fst p).
Definition or_else {A} (x y : option A) : option A := match x with Some _ => x | None => y end.

(** ** Log lines *)
(** Text with doubled braces, and {}. *)
Inductive part := Chars (t : string) | OpenBrace | CloseBrace | Hole.
Definition part_text (p : part) : string := match p with Chars t => t | OpenBrace => "{{" | CloseBrace => "}}" | Hole => "{}" end.
Definition format_text (ps : list part) : string := fold_right append EmptyString (map part_text ps).
(** What fmt prints for a value: a number in decimal, a character, a truth value. *)
Definition prints (v : cval) (s : string) : Prop :=
  match v with
  | VInt z => if z <? 0 then exists t, s = String "-" t /\ writes 10 t (- z) /\ ~ starts "0" t
              else writes 10 s z /\ (s = "0"%string \/ ~ starts "0" s)
  | VBool b => s = if b then "true"%string else "false"%string
  | VChar c => s = String c EmptyString
  end.
Inductive formats : list part -> list cval -> string -> Prop :=
| f_nil : formats [] [] EmptyString
| f_chars t ps vs s : formats ps vs s -> formats (Chars t :: ps) vs (t ++ s)
| f_open ps vs s : formats ps vs s -> formats (OpenBrace :: ps) vs ("{" ++ s)
| f_close ps vs s : formats ps vs s -> formats (CloseBrace :: ps) vs ("}" ++ s)
| f_hole ps v vs x s : prints v x -> formats ps vs s -> formats (Hole :: ps) (v :: vs) (x ++ s).

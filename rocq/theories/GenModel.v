(** Model of the parts of python/cib/gen_str_catalog.py that read and write text:
    reserved ids, named arguments, the generated C++, XML and JSON; and of the
    line the decoder prints (python/cib/mipi_messages.py).

    Simplifications: strings are ASCII; an XML or JSON library writes and reads
    what the standard says; regular expressions are written out as the scanners
    they denote. *)
From Coq Require Import String Ascii Bool Arith List ZArith.
From Verif Require Import CatalogModel.
Import ListNotations.
Local Open Scope Z_scope.

(** ** Numbers as text *)
(** str(n): decimal, a minus sign in front (python/cib/gen_str_catalog.py:54-59). *)
Definition digit_char (d : Z) : ascii := ascii_of_nat (Z.to_nat (48 + d)).
(** python/cib/gen_str_catalog.py:54-59 *)
Fixpoint decimal_aux (fuel : nat) (n : Z) (acc : string) : string :=
  match fuel with
  | O => acc
  | S k => let acc := String (digit_char (n mod 10)) acc in if n <? 10 then acc else decimal_aux k (n / 10) acc
  end.
(** python/cib/gen_str_catalog.py:54-59 *)
Definition str (v : Z) : string :=
  if v <? 0 then String "-" (decimal_aux (S (Z.to_nat (Z.log2 (- v)))) (- v) EmptyString)
  else decimal_aux (S (Z.to_nat (Z.log2 v))) v EmptyString.
(** The value of a digit in a base up to 16, either case
    (python/cib/gen_str_catalog.py:40-49). *)
Definition digit_in (base : Z) (a : ascii) : option Z :=
  let n := Z.of_nat (nat_of_ascii a) in
  let d := if (48 <=? n) && (n <=? 57) then n - 48 else if (97 <=? n) && (n <=? 102) then n - 87
           else if (65 <=? n) && (n <=? 70) then n - 55 else 99 in
  if d <? base then Some d else None.
(** python/cib/gen_str_catalog.py:40-49 *)
Fixpoint digits_in (base acc : Z) (s : string) : option Z :=
  match s with
  | EmptyString => Some acc
  | String a r => match digit_in base a with Some d => digits_in base (base * acc + d) r | None => None end
  end.
(** python/cib/gen_str_catalog.py:40-49 *)
Definition some_digits (base : Z) (s : string) : option Z := match s with EmptyString => None | _ => digits_in base 0 s end.
(** int(s): optional sign, decimal digits. Underscores and surrounding space are
    not modelled (python/cib/gen_str_catalog.py:40-49). *)
Definition int10 (s : string) : option Z :=
  match s with
  | String "-" r => option_map Z.opp (some_digits 10 r)
  | _ => some_digits 10 s
  end.
(** int(s, 0) after strip: a prefix chooses the base; a decimal number other than
    zero has no leading zero. A sign and underscores are not modelled (None)
    (python/cib/gen_str_catalog.py:40-49). *)
Definition int0 (s : string) : option Z :=
  match strip s with
  | String "0" (String a r) =>
    if (Ascii.eqb a "x" || Ascii.eqb a "X")%char then some_digits 16 r
    else if (Ascii.eqb a "o" || Ascii.eqb a "O")%char then some_digits 8 r
    else if (Ascii.eqb a "b" || Ascii.eqb a "B")%char then some_digits 2 r
    else match some_digits 10 (String a r) with Some 0 => Some 0 | _ => None end
  | t => some_digits 10 t
  end.

(** ** Reserved ids *)
(** str.split(c) (python/cib/gen_str_catalog.py:40-49) *)
Fixpoint split (c : ascii) (s : string) : list string :=
  match s with
  | EmptyString => [EmptyString]
  | String a r =>
    if Ascii.eqb a c then EmptyString :: split c r
    else match split c r with x :: l => String a x :: l | [] => [] end
  end.
(** Intervals.__init__ (python/cib/gen_str_catalog.py:40-49); None: an exception. *)
Definition interval_of (i : string) : option (list (Z * Z)) :=
  match split "-" i with
  | [EmptyString] => Some []
  | [a; b] => match int0 a, int0 b with Some x, Some y => Some [(x, y)] | _, _ => None end
  | a :: _ => match int0 a with Some x => Some [(x, x)] | None => None end
  | [] => None
  end.
(** python/cib/gen_str_catalog.py:40-49 *)
Fixpoint intervals_of (l : list string) : option (list (Z * Z)) :=
  match l with
  | [] => Some []
  | i :: r => match interval_of i, intervals_of r with Some x, Some y => Some (x ++ y)%list | _, _ => None end
  end.
(** python/cib/gen_str_catalog.py:40-49 *)
Definition intervals (text : string) : option (list (Z * Z)) := intervals_of (split "," text).
(** Intervals.__str__ (python/cib/gen_str_catalog.py:54-59) *)
Definition interval_text (x : Z * Z) : string :=
  if fst x =? snd x then str (fst x) else (str (fst x) ++ "-" ++ str (snd x))%string.
(** python/cib/gen_str_catalog.py:54-59 *)
Fixpoint join_with (sep : string) (l : list string) : string :=
  match l with [] => EmptyString | [x] => x | x :: r => (x ++ sep ++ join_with sep r)%string end.
(** python/cib/gen_str_catalog.py:54-59 *)
Definition intervals_text (l : list (Z * Z)) : string := join_with "," (map interval_text l).

(** ** Named arguments (python/cib/gen_str_catalog.py:65-111) *)
Record named_arg := { na_name : string; na_begin : Z; na_end : Z }.
(** The JSON object of one: its name and either "ref" or "loc"
    (python/cib/gen_str_catalog.py:65-111). *)
Inductive json_arg := JRef (name : string) (ref : Z) | JLoc (name : string) (loc : string).
(** to_json (python/cib/gen_str_catalog.py:93-98) *)
Definition to_json (a : named_arg) : json_arg :=
  if na_end a <? na_begin a then JRef (na_name a) (na_begin a)
  else JLoc (na_name a) ("[" ++ str (na_begin a) ++ ":" ++ str (na_end a) ++ "]")%string.
(** The match of \[(\d+):(\d+)\] at the start of s
    (python/cib/gen_str_catalog.py:82-91). *)
Definition loc_match (s : string) : option (string * string) :=
  match s with
  | String "[" r =>
    match span is_digit r with
    | (EmptyString, _) => None
    | (a, String ":" r2) =>
      match span is_digit r2 with
      | (EmptyString, _) => None
      | (b, String "]" _) => Some (a, b)
      | _ => None
      end
    | _ => None
    end
  | _ => None
  end.
(** from_json (python/cib/gen_str_catalog.py:82-91); None: an exception. *)
Definition from_json (j : json_arg) : option named_arg :=
  match j with
  | JRef n r => Some {| na_name := n; na_begin := r; na_end := r - 1 |}
  | JLoc n loc =>
    match loc_match loc with
    | Some (a, b) => match int10 a, int10 b with Some x, Some y => Some {| na_name := n; na_begin := x; na_end := y |} | _, _ => None end
    | None => None
    end
  end.

(** ** The printf format of a message in the XML *)
(** An argument type: encode_32<ut> and so on, or encode_enum<enum, ut, size>
    (arg_type_encoding, python/cib/gen_str_catalog.py:533-545, on structured arguments). *)
Inductive arg_type := Enc (tag ut : string) | EncEnum (enum ut size : string).
(** python/cib/gen_str_catalog.py:533-545 *)
Definition arg_enc (a : arg_type) : string := match a with Enc tag _ => tag | EncEnum _ _ _ => "encode_enum"%string end.
(** python/cib/gen_str_catalog.py:533-545 *)
Definition arg_ut (a : arg_type) : string := match a with Enc _ ut => ut | EncEnum _ ut _ => ut end.
(** The second component: the enumeration's name, or the type again
    (python/cib/gen_str_catalog.py:533-545). *)
Definition arg_enum (a : arg_type) : string := match a with Enc _ ut => ut | EncEnum e _ _ => e end.
(** printf_dict (python/cib/gen_str_catalog.py:549-567) *)
Definition printf_dict : list (string * string) :=
  [("encode_32", "%d"); ("encode_u32", "%u"); ("encode_64", "%lld"); ("encode_u64", "%llu"); ("float", "%f"); ("double", "%f");
   ("int", "%d"); ("unsigned int", "%u"); ("short", "%d"); ("unsigned short", "%u"); ("signed char", "%d"); ("unsigned char", "%u");
   ("char", "%c"); ("long", "%ld"); ("unsigned long", "%lu"); ("long long", "%lld"); ("unsigned long long", "%llu")]%string.
(** python/cib/gen_str_catalog.py:549-567 *)
Fixpoint assoc {A} (k : string) (l : list (string * A)) : option A :=
  match l with [] => None | (k', v) :: r => if (k' =? k)%string then Some v else assoc k r end.
(** arg_printf_spec (python/cib/gen_str_catalog.py:548-569) *)
Definition arg_printf_spec (a : arg_type) : string :=
  match assoc (arg_ut a) printf_dict with
  | Some s => s
  | None => match assoc (arg_enc a) printf_dict with Some s => s | None => "%d"%string end
  end.
(** re.search(r"{:([^}]+)}", s): the text before the match, the group, the text
    after (python/cib/gen_str_catalog.py:584-592). *)
Fixpoint upto_brace (s : string) : option (string * string) :=
  match s with
  | EmptyString => None
  | String a r => if Ascii.eqb a "}" then Some (EmptyString, r)
                  else match upto_brace r with Some (p, q) => Some (String a p, q) | None => None end
  end.
(** python/cib/gen_str_catalog.py:584-592 *)
Definition spec_here (s : string) : option (string * string) :=
  match s with
  | String "{" (String ":" r) => match upto_brace r with Some (EmptyString, _) => None | m => m end
  | _ => None
  end.
(** python/cib/gen_str_catalog.py:584-592 *)
Fixpoint find_spec (s : string) : option (string * string * string) :=
  match spec_here s with
  | Some (f, r) => Some (EmptyString, f, r)
  | None =>
    match s with
    | EmptyString => None
    | String a r => match find_spec r with Some (p, f, q) => Some (String a p, f, q) | None => None end
    end
  end.
(** re.sub(r"{}", x, s, count=1) (python/cib/gen_str_catalog.py:584-592) *)
Fixpoint sub_plain (x s : string) : string :=
  match s with
  | EmptyString => EmptyString
  | String "{" (String "}" r) => (x ++ r)%string
  | String a r => String a (sub_plain x r)
  end.
(** The loop of serialize_messages (python/cib/gen_str_catalog.py:584-592). *)
Definition printf_step (fmt : string) (a : arg_type) : string :=
  match find_spec fmt with
  | Some (p, f, q) => (p ++ "%" ++ f ++ q)%string
  | None => sub_plain (arg_printf_spec a) fmt
  end.
(** python/cib/gen_str_catalog.py:584-592 *)
Definition printf_format (text : string) (args : list arg_type) : string := fold_left printf_step args text.

(** ** Text of an XML element *)
(** _escape_cdata (python/cib/gen_str_catalog.py:729-735), put in place of ElementTree's own (python/cib/gen_str_catalog.py:743). *)
Fixpoint amp (s : string) : string :=
  match s with
  | EmptyString => EmptyString
  | String a r => if Ascii.eqb a "&" then ("&amp;" ++ amp r)%string else String a (amp r)
  end.
(** syst_module.text, syst_format.text (python/cib/gen_str_catalog.py:530, 593) as written. *)
Definition element_text (t : string) : string := amp ("<![CDATA[" ++ t ++ "]]>")%string.

(** ** The generated C++ *)
(** make_cpp_catalog_defn (python/cib/gen_str_catalog.py:372-380) and make_cpp_module_defn (python/cib/gen_str_catalog.py:383-390): the text
    of one specialisation. [args] is the printed list of argument types; [cpp] is
    to_cpp_type. dedent takes no margin off: the first line is not indented. Simplified:
    it empties the lines that are all blanks, which a text with newlines may have. *)
Definition newline : string := String (ascii_of_nat 10) EmptyString.
(** python/cib/gen_str_catalog.py:372-380 *)
Definition catalog_defn (text args cpp : string) (id : Z) : string :=
  ("// """ ++ text ++ """" ++ newline ++ "// " ++ args ++ newline ++
   "template<> auto catalog<" ++ cpp ++ ">() -> string_id {" ++ newline ++ "    return " ++ str id ++ ";" ++ newline ++ "}")%string.
(** python/cib/gen_str_catalog.py:383-390 *)
Definition module_defn (text cpp : string) (id : Z) : string :=
  ("// """ ++ text ++ """" ++ newline ++
   "template<> auto module<" ++ cpp ++ ">() -> module_id {" ++ newline ++ "    return " ++ str id ++ ";" ++ newline ++ "}")%string.

(** ** Enumerations *)
(** The loop of main that sets enum_lookup (python/cib/gen_str_catalog.py:781-785): enums maps a name to its
    number; the result is the 1-based position of the argument and the number. *)
Fixpoint enum_lookup_from (enums : list (string * Z)) (i : Z) (args : list arg_type) (acc : option (Z * Z)) : option (Z * Z) :=
  match args with
  | [] => acc
  | a :: r => enum_lookup_from enums (i + 1) r (match assoc (arg_enum a) enums with Some n => Some (i + 1, n) | None => acc end)
  end.
(** python/cib/gen_str_catalog.py:781-785 *)
Definition enum_lookup (enums : list (string * Z)) (args : list arg_type) : option (Z * Z) := enum_lookup_from enums 0 args None.

(** Python dictionaries: insertion order, assignment in place. *)
Section Dict.
Context {K A : Type}.
Variable keqb : K -> K -> bool.
(** python/cib/gen_str_catalog.py:468-480 *)
Fixpoint put (k : K) (v : A) (d : list (K * A)) : list (K * A) :=
  match d with [] => [(k, v)] | (k', v') :: r => if keqb k' k then (k', v) :: r else (k', v') :: put k v r end.
(** python/cib/gen_str_catalog.py:468-480 *)
Fixpoint get (k : K) (d : list (K * A)) : option A :=
  match d with [] => None | (k', v) :: r => if keqb k' k then Some v else get k r end.
(** python/cib/gen_str_catalog.py:468-480 *)
Definition update (d e : list (K * A)) : list (K * A) := fold_left (fun d kv => put (fst kv) (snd kv) d) e d.
End Dict.
(** Keys of the inner dictionaries: strings when they come from a JSON file,
    integers when they come from this build; never equal to each other
    (python/cib/gen_str_catalog.py:468-480). *)
Inductive ekey := KStr (s : string) | KInt (z : Z).
(** Equality of the above: python/cib/gen_str_catalog.py:468-480 *)
Definition ekey_eqb (a b : ekey) : bool :=
  match a, b with KStr s, KStr t => (s =? t)%string | KInt x, KInt y => x =? y | _, _ => false end.
(** python/cib/gen_str_catalog.py:468-480 *)
Definition names := list (ekey * string).
(** {value: name for (name, value) in v.items()} (python/cib/gen_str_catalog.py:473-475) *)
Definition by_value (v : list (string * Z)) : names := fold_left (fun d nv => put ekey_eqb (KInt (snd nv)) (fst nv) d) v [].
(** The "enums" member written by write_json (python/cib/gen_str_catalog.py:468-480). Each extra JSON input that
    has an "enums" member replaces the one before it. *)
Definition extra_enums (extras : list (option (list (string * list (string * string))))) : list (string * names) :=
  match fold_left (fun acc x => match x with Some e => Some e | None => acc end) extras None with
  | Some e => map (fun kv => (fst kv, map (fun nv => (KStr (fst nv), snd nv)) (snd kv))) e
  | None => []
  end.
(** python/cib/gen_str_catalog.py:468-480 *)
Definition write_enums (enums : list (string * list (string * Z))) (extras : list (option (list (string * list (string * string))))) : list (string * names) :=
  fold_left (fun d kv => let es := by_value (snd kv) in
      match get String.eqb (fst kv) d with
      | Some old => put String.eqb (fst kv) (update ekey_eqb old es) d
      | None => put String.eqb (fst kv) es d
      end) enums (extra_enums extras).
(** json.dump writes every key as a string; json.load keeps the last of equal
    keys (python/cib/gen_str_catalog.py:468-480). *)
Definition key_text (k : ekey) : string := match k with KStr s => s | KInt z => str z end.
(** python/cib/gen_str_catalog.py:468-480 *)
Definition load_names (n : names) : list (string * string) := fold_left (fun d kv => put String.eqb (key_text (fst kv)) (snd kv) d) n [].
(** db["enums"][enum][value] in the decoder (python/cib/mipi_messages.py:55-59) *)
Definition enum_name (file : list (string * names)) (enum : string) (value : Z) : option string :=
  match get String.eqb enum file with Some n => get String.eqb (str value) (load_names n) | None => None end.

(** ** The decoder's line *)
(** A decoded argument (python/cib/mipi_messages.py:41-63): struct.unpack gives a number, or
    for "char" a bytes object of length one; an enumerator is a string. *)
Inductive pyval := PInt (z : Z) | PStr (s : string) | PByte (b : ascii).
(** A logged value and what the decoder makes of it: convert (python/cib/mipi_messages.py:42-51) turns a true
    bool into -1 and a char into bytes. *)
Inductive cval := VInt (z : Z) | VBool (b : bool) | VChar (c : ascii).
(** python/cib/mipi_messages.py:199-202 *)
Definition decoded (v : cval) : pyval :=
  match v with VInt z => PInt z | VBool b => PInt (if b then -1 else 0) | VChar c => PByte c end.
(** format(v, ""); a byte prints as b'…'. Printable bytes other than the quote and
    the backslash only (python/cib/mipi_messages.py:199-202). *)
Definition py_text (v : pyval) : string :=
  match v with PInt z => str z | PStr s => s | PByte b => ("b'" ++ String b "'")%string end.
(** str.format with fields {} only: {{ and }} stand for braces; None: an
    exception (a field without argument, a stray brace, any other field)
    (python/cib/mipi_messages.py:199-202). *)
Fixpoint py_format (fuel : nat) (s : string) (args : list pyval) : option string :=
  match fuel with
  | O => None
  | S k =>
    match s with
    | EmptyString => Some EmptyString
    | String "{" (String "{" r) => option_map (String "{") (py_format k r args)
    | String "}" (String "}" r) => option_map (String "}") (py_format k r args)
    | String "{" (String "}" r) =>
      match args with v :: vs => option_map (append (py_text v)) (py_format k r vs) | [] => None end
    | String "{" _ | String "}" _ => None
    | String a r => option_map (String a) (py_format k r args)
    end
  end.
(** Catalog.__str__ (python/cib/mipi_messages.py:199-202) *)
Definition catalog_line (severity module text : string) (args : list pyval) : option string :=
  option_map (fun t => severity ++ " [" ++ module ++ "] " ++ t)%string (py_format (S (String.length text)) text args).

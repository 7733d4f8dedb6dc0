(** Model of the text of the JSON files: what write_json and the to_json functions put
    in the file (python/cib/gen_str_catalog.py), and what read_stable, the extra inputs
    and the decoder (python/cib/log_decode.py) read from it.

    json.dump and json.load are Python's, as they are called here: written out from the
    standard library of Python 3 (json/encoder.py, json/decoder.py, json/scanner.py),
    which is not in the repository. Texts are lists of code points.

    Simplifications: numbers with a fraction or an exponent, NaN and Infinity are not
    read (None); an exception is None; a value of another type than the code expects is
    an exception at once, and not when it is used. *)
From Coq Require Import String Ascii Bool Arith List ZArith.
From Verif Require Import GenModel SymbolModel.
Import ListNotations.
Local Open Scope Z_scope.

(** ** Values *)
(** A str (python/cib/gen_str_catalog.py:483) *)
Definition text := list Z.
(** The text of a literal (python/cib/gen_str_catalog.py:195-203) *)
Fixpoint lit (s : string) : text :=
  match s with EmptyString => [] | String a r => Z.of_nat (nat_of_ascii a) :: lit r end.
(** A key of a dict: the keys of an enumeration are numbers
    (python/cib/gen_str_catalog.py:473-475) *)
Inductive key := KText (t : text) | KNum (z : Z).
(** What is written and read (python/cib/gen_str_catalog.py:471, 483, 490). A dict is its
    items in order. *)
Inductive value :=
  | VText (t : text) | VNum (z : Z) | VBool (b : bool) | VNull
  | VList (l : list value) | VDict (d : list (key * value)).
(** == on texts (python/cib/gen_str_catalog.py:84) *)
Fixpoint text_eqb (a b : text) : bool :=
  match a, b with [], [] => true | x :: a, y :: b => (x =? y) && text_eqb a b | _, _ => false end.
(** python/cib/gen_str_catalog.py:477 *)
Definition key_eqb (a b : key) : bool :=
  match a, b with KText a, KText b => text_eqb a b | KNum a, KNum b => a =? b | _, _ => false end.

(** ** json.dump(…, indent=4) (python/cib/gen_str_catalog.py:483) *)
(** One hexadecimal digit, lower case (python/cib/gen_str_catalog.py:483) *)
Definition hex (d : Z) : Z := if d <? 10 then 48 + d else 87 + d.
(** '\\u{0:04x}' (python/cib/gen_str_catalog.py:483) *)
Definition u_escape (n : Z) : text :=
  [92; 117; hex (n / 4096 mod 16); hex (n / 256 mod 16); hex (n / 16 mod 16); hex (n mod 16)].
(** ESCAPE_DCT and replace of py_encode_basestring_ascii
    (python/cib/gen_str_catalog.py:483) *)
Definition escape (c : Z) : text :=
  if c =? 34 then [92; 34] else if c =? 92 then [92; 92] else if c =? 10 then [92; 110] else
  if c =? 13 then [92; 114] else if c =? 9 then [92; 116] else if c =? 12 then [92; 102] else
  if c =? 8 then [92; 98] else
  if (32 <=? c) && (c <=? 126) then [c] else
  if c <? 65536 then u_escape c
  else u_escape (55296 + (c - 65536) / 1024) ++ u_escape (56320 + (c - 65536) mod 1024).
(** python/cib/gen_str_catalog.py:483 *)
Definition quoted (t : text) : text := 34 :: flat_map escape t ++ [34].
(** The key as it is written: a number by its repr (python/cib/gen_str_catalog.py:483) *)
Definition key_text (k : key) : text := match k with KText t => t | KNum z => lit (str z) end.
(** newline_indent (python/cib/gen_str_catalog.py:483) *)
Definition newline (level : nat) : text := 10 :: repeat 32 (4 * level).
(** item_separator is ",": indent is given (python/cib/gen_str_catalog.py:483) *)
Fixpoint items (level : nat) (l : list text) : text :=
  match l with [] => [] | [x] => newline level ++ x | x :: r => newline level ++ x ++ 44 :: items level r end.
(** _iterencode (python/cib/gen_str_catalog.py:483) *)
Fixpoint dump (level : nat) (v : value) : text :=
  match v with
  | VText t => quoted t
  | VNum z => lit (str z)
  | VBool b => lit (if b then "true" else "false")
  | VNull => lit "null"
  | VList [] => lit "[]"
  | VList l => 91 :: items (S level) (map (dump (S level)) l) ++ newline level ++ [93]
  | VDict [] => lit "{}"
  | VDict d => 123 :: items (S level) (map (fun kv => quoted (key_text (fst kv)) ++ [58; 32] ++ dump (S level) (snd kv)) d) ++ newline level ++ [125]
  end.
(** f.write in text mode: a line ends with \n or with \r\n
    (python/cib/gen_str_catalog.py:482-483) *)
Definition to_file (crlf : bool) (t : text) : text :=
  flat_map (fun c => if crlf && (c =? 10) then [13; 10] else [c]) t.

(** ** json.load (python/cib/gen_str_catalog.py:471, 490, python/cib/log_decode.py:77-78) *)
(** f.read in text mode: universal newlines (python/cib/gen_str_catalog.py:470, 489) *)
Fixpoint from_file (t : text) : text :=
  match t with
  | [] => []
  | c :: r =>
    if c =? 13 then 10 :: match r with d :: r' => if d =? 10 then from_file r' else from_file r | [] => [] end
    else c :: from_file r
  end.
(** WHITESPACE (python/cib/gen_str_catalog.py:471, 490) *)
Fixpoint skip (s : text) : text :=
  match s with c :: r => if (c =? 32) || (c =? 9) || (c =? 10) || (c =? 13) then skip r else s | [] => [] end.
(** python/cib/gen_str_catalog.py:471, 490 *)
Definition unhex (c : Z) : option Z :=
  if (48 <=? c) && (c <=? 57) then Some (c - 48) else
  if (97 <=? c) && (c <=? 102) then Some (c - 87) else
  if (65 <=? c) && (c <=? 70) then Some (c - 55) else None.
(** s[idx:idx + n] == … (python/cib/gen_str_catalog.py:471, 490) *)
Fixpoint after (p s : text) : option text :=
  match p, s with
  | [], _ => Some s
  | a :: p, b :: s => if a =? b then after p s else None
  | _, [] => None
  end.
(** _decode_uXXXX (python/cib/gen_str_catalog.py:471, 490) *)
Definition u_decode (s : text) : option (Z * text) :=
  match s with
  | a :: b :: c :: d :: r =>
    match unhex a, unhex b, unhex c, unhex d with
    | Some a, Some b, Some c, Some d => Some (((a * 16 + b) * 16 + c) * 16 + d, r)
    | _, _, _, _ => None
    end
  | _ => None
  end.
(** BACKSLASH (python/cib/gen_str_catalog.py:471, 490) *)
Definition unescape (c : Z) : option Z :=
  if (c =? 34) || (c =? 92) || (c =? 47) then Some c else
  if c =? 98 then Some 8 else if c =? 102 then Some 12 else if c =? 110 then Some 10 else
  if c =? 114 then Some 13 else if c =? 116 then Some 9 else None.
(** py_scanstring, strict, after the opening quote. The first number bounds the
    characters read (python/cib/gen_str_catalog.py:471, 490). *)
Fixpoint scan (fuel : nat) (s : text) : option (text * text) :=
  match fuel with
  | O => None
  | S k =>
    let more c r := match scan k r with Some (t, q) => Some (c :: t, q) | None => None end in
    match s with
    | [] => None
    | c :: r =>
      if c =? 34 then Some ([], r) else
      if c <? 32 then None else
      if negb (c =? 92) then more c r else
      match r with
      | [] => None
      | e :: r =>
        if negb (e =? 117) then match unescape e with Some x => more x r | None => None end else
        match u_decode r with
        | None => None
        | Some (u, r) =>
          if (55296 <=? u) && (u <=? 56319) then
            match after [92; 117] r with
            | Some r2 =>
              match u_decode r2 with
              | None => None
              | Some (u2, r3) =>
                if (56320 <=? u2) && (u2 <=? 57343) then more (65536 + ((u - 55296) * 1024 + (u2 - 56320))) r3 else more u r
              end
            | None => more u r
            end
          else more u r
        end
      end
    end
  end.
(** [0-9] (python/cib/gen_str_catalog.py:471, 490) *)
Definition is_digit (c : Z) : bool := (48 <=? c) && (c <=? 57).
(** python/cib/gen_str_catalog.py:471, 490 *)
Fixpoint digits (s : text) : text * text :=
  match s with c :: r => if is_digit c then let (d, q) := digits r in (c :: d, q) else ([], s) | [] => ([], []) end.
(** int of decimal digits (python/cib/gen_str_catalog.py:471, 490) *)
Definition number_of (d : text) : Z := fold_left (fun n c => n * 10 + (c - 48)) d 0.
(** NUMBER_RE (python/cib/gen_str_catalog.py:471, 490): a first digit 0 is the whole. *)
Definition unsigned (s : text) : option (Z * text) :=
  match s with
  | [] => None
  | c :: r => if c =? 48 then Some (0, r) else let (d, q) := digits s in match d with [] => None | _ => Some (number_of d, q) end
  end.
(** What follows would make it a float: not modelled (python/cib/gen_str_catalog.py:471, 490). *)
Definition is_float (s : text) : bool :=
  match s with
  | e :: c :: r =>
    (e =? 46) && is_digit c ||
    ((e =? 101) || (e =? 69)) && (is_digit c || ((c =? 43) || (c =? 45)) && match r with d :: _ => is_digit d | [] => false end)
  | _ => false
  end.
(** python/cib/gen_str_catalog.py:471, 490 *)
Definition number (s : text) : option (value * text) :=
  let r := match s with [] => None | c :: r => if c =? 45 then option_map (fun p => (- fst p, snd p)) (unsigned r) else unsigned s end in
  match r with Some (z, q) => if is_float q then None else Some (VNum z, q) | None => None end.
(** dict(pairs): of equal keys the last value, at the place of the first
    (python/cib/gen_str_catalog.py:471, 490). *)
Definition dict_of (l : list (key * value)) : list (key * value) := update key_eqb [] l.
(** _scan_once, JSONArray and JSONObject (python/cib/gen_str_catalog.py:471, 490). The
    number bounds the values read. *)
Fixpoint parse (fuel : nat) (s : text) : option (value * text) :=
  match fuel with
  | O => None
  | S k =>
    match s with
    | [] => None
    | c :: r =>
      if c =? 34 then match scan (length r) r with Some (t, q) => Some (VText t, q) | None => None end else
      if c =? 123 then
        match after [125] (skip r) with
        | Some q => Some (VDict [], q)
        | None => match members k (skip r) with Some (l, q) => Some (VDict (dict_of l), q) | None => None end
        end else
      if c =? 91 then
        match after [93] (skip r) with
        | Some q => Some (VList [], q)
        | None => match elements k (skip r) with Some (l, q) => Some (VList l, q) | None => None end
        end else
      match after (lit "null") s, after (lit "true") s, after (lit "false") s with
      | Some q, _, _ => Some (VNull, q)
      | _, Some q, _ => Some (VBool true, q)
      | _, _, Some q => Some (VBool false, q)
      | _, _, _ => number s
      end
    end
  end
with elements (fuel : nat) (s : text) : option (list value * text) :=
  match fuel with
  | O => None
  | S k =>
    match parse k s with
    | None => None
    | Some (v, q) =>
      match after [93] (skip q), after [44] (skip q) with
      | Some q, _ => Some ([v], q)
      | _, Some q => match elements k (skip q) with Some (l, q) => Some (v :: l, q) | None => None end
      | _, _ => None
      end
    end
  end
with members (fuel : nat) (s : text) : option (list (key * value) * text) :=
  match fuel with
  | O => None
  | S k =>
    match after [34] s with
    | None => None
    | Some r =>
      match scan (length r) r with
      | None => None
      | Some (t, q) =>
        match after [58] (skip q) with
        | None => None
        | Some q =>
          match parse k (skip q) with
          | None => None
          | Some (v, q) =>
            match after [125] (skip q), after [44] (skip q) with
            | Some q, _ => Some ([(KText t, v)], q)
            | _, Some q => match members k (skip q) with Some (l, q) => Some ((KText t, v) :: l, q) | None => None end
            | _, _ => None
            end
          end
        end
      end
    end
  end.
(** JSONDecoder.decode (python/cib/gen_str_catalog.py:471, 490) *)
Definition loads (s : text) : option value :=
  match parse (S (length s)) (skip s) with
  | Some (v, q) => match skip q with [] => Some v | _ => None end
  | None => None
  end.
(** with open(filename) as f: json.load(f) (python/cib/gen_str_catalog.py:470-471, 489-490, python/cib/log_decode.py:77-78) *)
Definition load (file : text) : option value := loads (from_file file).
(** with open(filename, "w") as f: json.dump(v, f, indent=4) (python/cib/gen_str_catalog.py:482-483) *)
Definition save (crlf : bool) (v : value) : text := to_file crlf (dump 0 v).

(** ** Messages and modules as JSON *)
(** NamedArg, Tag, Message, Module (python/cib/gen_str_catalog.py:65-69, 114-117, 147-167, 235-239), with texts of any characters *)
Record named := { n_name : text; n_begin : Z; n_end : Z }.
(** python/cib/gen_str_catalog.py:114-117 *)
Record tag := { t_name : text; t_value : text }.
(** python/cib/gen_str_catalog.py:147-167; id_suffix is not in the JSON. *)
Record message := { g_text : text; g_args : list text; g_id : Z; g_named : list named; g_tags : list tag }.
(** python/cib/gen_str_catalog.py:235-239 *)
Record module := { d_text : text; d_id : Z }.
(** python/cib/gen_str_catalog.py:93-98 *)
Definition of_named (a : named) : value :=
  if n_end a <? n_begin a then VDict [(KText (lit "ref"), VNum (n_begin a)); (KText (lit "name"), VText (n_name a))]
  else VDict [(KText (lit "loc"), VText (lit "[" ++ lit (str (n_begin a)) ++ lit ":" ++ lit (str (n_end a)) ++ lit "]")); (KText (lit "name"), VText (n_name a))].
(** python/cib/gen_str_catalog.py:134-135 *)
Definition of_tag (t : tag) : value := VDict [(KText (lit "name"), VText (t_name t)); (KText (lit "value"), VText (t_value t))].
(** python/cib/gen_str_catalog.py:195-207 *)
Definition of_message (m : message) : value :=
  VDict [(KText (lit "msg"), VText (g_text m));
         (KText (lit "type"), VText (lit (match after (lit "flow.") (g_text m) with Some _ => "flow" | None => "msg" end)));
         (KText (lit "arg_types"), VList (map VText (g_args m)));
         (KText (lit "id"), VNum (g_id m));
         (KText (lit "args"), VList (map of_named (g_named m)));
         (KText (lit "tags"), VList (map of_tag (g_tags m)))].
(** python/cib/gen_str_catalog.py:261-265 *)
Definition of_module (m : module) : value := VDict [(KText (lit "string"), VText (d_text m)); (KText (lit "id"), VNum (d_id m))].
(** json[name] (python/cib/gen_str_catalog.py:187-192) *)
Definition item (name : string) (v : value) : option value := match v with VDict d => get key_eqb (KText (lit name)) d | _ => None end.
(** python/cib/gen_str_catalog.py:187-192 *)
Definition as_text (v : value) : option text := match v with VText t => Some t | _ => None end.
(** python/cib/gen_str_catalog.py:187-192 *)
Definition as_num (v : value) : option Z := match v with VNum z => Some z | _ => None end.
(** python/cib/gen_str_catalog.py:187-192 *)
Definition bind {A B} (o : option A) (f : A -> option B) : option B := match o with Some a => f a | None => None end.
(** [f(a) for a in v] (python/cib/gen_str_catalog.py:191-192) *)
Definition each {A} (f : value -> option A) (v : value) : option (list A) := match v with VList l => all_some (map f l) | _ => None end.
(** loc_re.match (python/cib/gen_str_catalog.py:87-88): what follows the bracket does not matter. *)
Definition loc_of (t : text) : option (Z * Z) :=
  bind (after [91] t) (fun r => let (a, r) := digits r in
  bind (match a with [] => None | _ => after [58] r end) (fun r => let (b, r) := digits r in
  bind (match b with [] => None | _ => after [93] r end) (fun _ => Some (number_of a, number_of b)))).
(** NamedArg.from_json (python/cib/gen_str_catalog.py:82-91) *)
Definition to_named (v : value) : option named :=
  match item "ref" v with
  | Some r => bind (bind (item "name" v) as_text) (fun n => bind (as_num r) (fun z => Some {| n_name := n; n_begin := z; n_end := z - 1 |}))
  | None => bind (bind (bind (item "loc" v) as_text) loc_of) (fun l => bind (bind (item "name" v) as_text) (fun n =>
      Some {| n_name := n; n_begin := fst l; n_end := snd l |}))
  end.
(** Tag.from_json (python/cib/gen_str_catalog.py:130-132) *)
Definition to_tag (v : value) : option tag :=
  bind (bind (item "name" v) as_text) (fun n => bind (bind (item "value" v) as_text) (fun x => Some {| t_name := n; t_value := x |})).
(** Message.from_json (python/cib/gen_str_catalog.py:185-193) *)
Definition to_message (v : value) : option message :=
  bind (bind (item "msg" v) as_text) (fun t =>
  bind (bind (item "arg_types" v) (each as_text)) (fun a =>
  bind (bind (item "id" v) as_num) (fun i =>
  bind (match item "args" v with Some l => each to_named l | None => Some [] end) (fun n =>
  bind (match item "tags" v with Some l => each to_tag l | None => Some [] end) (fun g =>
  Some {| g_text := t; g_args := a; g_id := i; g_named := n; g_tags := g |}))))).
(** Module.from_json (python/cib/gen_str_catalog.py:254-259) *)
Definition to_module (v : value) : option module :=
  bind (bind (item "string" v) as_text) (fun t => bind (bind (item "id" v) as_num) (fun i => Some {| d_text := t; d_id := i |})).
(** A message or module read from a symbol (python/cib/gen_str_catalog.py:169-183) *)
Definition of_symbol (m : sym_message) : message :=
  {| g_text := sm_text m; g_args := map lit (sm_args m); g_id := sm_id m;
     g_named := map (fun a => {| n_name := sn_name a; n_begin := sn_begin a; n_end := sn_end a |}) (sm_named m);
     g_tags := map (fun t => {| t_name := st_name t; t_value := st_value t |}) (sm_tags m) |}.
(** python/cib/gen_str_catalog.py:241-252 *)
Definition of_module_symbol (m : sym_module) : module := {| d_text := so_text m; d_id := so_id m |}.

(** ** The catalog file *)
(** write_json (python/cib/gen_str_catalog.py:452-483) without extra inputs; the stable
    entries that are not there yet are among the messages and modules here (CatalogModel
    says which those are). An enumeration is its enumerators, each a name and a value. *)
Definition catalog (ms : list message) (ds : list module) (enums : list (text * list (text * Z))) : value :=
  VDict [(KText (lit "messages"), VList (map of_message ms));
         (KText (lit "modules"), VList (map of_module ds));
         (KText (lit "enums"), VDict (update key_eqb [] (map (fun e => (KText (fst e),
            VDict (update key_eqb [] (map (fun nv => (KNum (snd nv), VText (fst nv))) (snd e))))) enums)))].
(** The messages and modules that read_stable gets from a file (python/cib/gen_str_catalog.py:486-499), before they are
    put under their keys *)
Definition stable_of (v : value) : option (list message * list module) :=
  match bind (item "messages" v) (each to_message), bind (item "modules" v) (each to_module) with Some ms, Some ds => Some (ms, ds) | _, _ => None end.
(** db["enums"][enum][str(value)] in the decoder (python/cib/mipi_messages.py:55-59) *)
Definition enumerator (v : value) (enum : text) (z : Z) : option text :=
  bind (item "enums" v) (fun es => bind (match es with VDict d => get key_eqb (KText enum) d | _ => None end) (fun e =>
  bind (match e with VDict d => get key_eqb (KText (lit (str z))) d | _ => None end) as_text)).

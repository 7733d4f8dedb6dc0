(** Model of the string-catalog generator (python/cib/gen_str_catalog.py) and of
    the decoder's treatment of compile-time enumerators (python/cib/mipi_messages.py:66-75).

    Simplifications: named arguments and tags of a message are one opaque number
    (m_extra); files are the lists they hold; Python's hash of a string is an
    arbitrary function; regular expressions are written out as the scanners they
    denote; strings are ASCII. *)
From Coq Require Import String Ascii Bool Arith List NArith ZArith.
Import ListNotations.
Local Open Scope Z_scope.

(** ** Entries (python/cib/gen_str_catalog.py:147-167, 232-239) *)
(** A message, or a module (then without arguments)
    (python/cib/gen_str_catalog.py:147-167, 232-239). *)
Record entry := { m_text : string; m_args : list string; m_id : Z; m_extra : N }.
(** python/cib/gen_str_catalog.py:147-167, 232-239 *)
Definition with_id (m : entry) (i : Z) := {| m_text := m_text m; m_args := m_args m; m_id := i; m_extra := m_extra m |}.
(** Equality of the above: python/cib/gen_str_catalog.py:147-167, 232-239 *)
Definition args_eqb (a b : list string) : bool := if list_eq_dec string_dec a b then true else false.
(** Equality of the JSON of two entries (python/cib/gen_str_catalog.py:195-203): "type" is a function of the text. *)
Definition entry_eqb (a b : entry) : bool :=
  (m_text a =? m_text b)%string && args_eqb (m_args a) (m_args b) && (m_id a =? m_id b) && (m_extra a =? m_extra b)%N.
(** "".join(args) (python/cib/gen_str_catalog.py:212-213) *)
Definition join (args : list string) : string := fold_right append EmptyString args.
(** Message.key (python/cib/gen_str_catalog.py:212-213) and Module.key (python/cib/gen_str_catalog.py:270-271) *)
Definition msg_key (hash : string -> Z) (m : entry) : Z := Z.lxor (hash (m_text m)) (hash (join (m_args m))).
(** python/cib/gen_str_catalog.py:270-271 *)
Definition module_key (hash : string -> Z) (m : entry) : Z := hash (m_text m).

(** ** Python dictionaries: insertion order, assignment in place *)
(** python/cib/gen_str_catalog.py:352, 354 *)
Definition dict := list (Z * entry).
(** python/cib/gen_str_catalog.py:352, 354 *)
Fixpoint dict_set (k : Z) (m : entry) (d : dict) : dict :=
  match d with
  | [] => [(k, m)]
  | (k', m') :: r => if k' =? k then (k, m) :: r else (k', m') :: dict_set k m r
  end.
(** python/cib/gen_str_catalog.py:352, 354 *)
Fixpoint dict_get (k : Z) (d : dict) : option entry :=
  match d with [] => None | (k', m) :: r => if k' =? k then Some m else dict_get k r end.
(** {m.key(): m for m in …} (python/cib/gen_str_catalog.py:352, 354) *)
Definition of_items (key : entry -> Z) (l : list entry) : dict := fold_left (fun d m => dict_set (key m) m d) l [].
(** python/cib/gen_str_catalog.py:352, 354 *)
Definition values (d : dict) : list entry := map snd d.

(** ** Assigning ids *)
(** Intervals.contains (python/cib/gen_str_catalog.py:51-52) *)
Definition contains (iv : list (Z * Z)) (v : Z) : bool := existsb (fun x => (fst x <=? v) && (v <=? snd x)) iv.
(** sorted(items) with Message.__lt__ (python/cib/gen_str_catalog.py:228-229): stable, by text. *)
Fixpoint insert (m : entry) (l : list entry) : list entry :=
  match l with [] => [m] | x :: r => if String.leb (m_text m) (m_text x) then m :: l else x :: insert m r end.
(** python/cib/gen_str_catalog.py:228-229 *)
Definition sorted (l : list entry) : list entry := fold_right insert [] l.
(** itertools.filterfalse(taken, itertools.count(n)): the next number that is not
    taken. Beyond every old id and reserved interval nothing is taken, which
    bounds the search (python/cib/gen_str_catalog.py:308-337). *)
Definition beyond (old : list Z) (reserved : list (Z * Z)) (n : Z) : Z := fold_right Z.max n (old ++ map snd reserved) + 1.
(** python/cib/gen_str_catalog.py:308-337 *)
Definition taken (old : list Z) (reserved : list (Z * Z)) (x : Z) : bool := existsb (Z.eqb x) old || contains reserved x.
(** python/cib/gen_str_catalog.py:308-337 *)
Fixpoint next_from (fuel : nat) (old : list Z) (reserved : list (Z * Z)) (n : Z) : Z :=
  match fuel with
  | O => n
  | S f => if taken old reserved n then next_from f old reserved (n + 1) else n
  end.
(** python/cib/gen_str_catalog.py:308-337 *)
Definition next (old : list Z) (reserved : list (Z * Z)) (n : Z) : Z :=
  next_from (Z.to_nat (beyond old reserved n - n)) old reserved n.
(** assign_ids_with (python/cib/gen_str_catalog.py:300-304) with get_id (python/cib/gen_str_catalog.py:308-313); n is the generator's state *)
Fixpoint assign_loop (key : entry -> Z) (stables : dict) (old : list Z) (reserved : list (Z * Z)) (n : Z) (l : list entry) : list entry :=
  match l with
  | [] => []
  | m :: r =>
    match dict_get (key m) stables with
    | Some s => with_id m (m_id s) :: assign_loop key stables old reserved n r
    | None => let i := next old reserved n in with_id m i :: assign_loop key stables old reserved (i + 1) r
    end
  end.
(** stable_msgs with the explicitly numbered entries added (python/cib/gen_str_catalog.py:316-319) *)
Definition pinned (key : entry -> Z) (stables : dict) (l : list entry) : dict :=
  fold_left (fun d m => if m_id m =? -1 then d else dict_set (key m) m d) l stables.
(** python/cib/gen_str_catalog.py:316-319 *)
Definition old_ids (d : dict) : list Z := map m_id (values d).
(** assign_ids (python/cib/gen_str_catalog.py:307-337), for one kind of entry *)
Definition assign_ids (key : entry -> Z) (stables : dict) (reserved : list (Z * Z)) (l : list entry) : dict * list entry :=
  let d := pinned key stables l in (d, assign_loop key d (old_ids d) reserved 0 (sorted l)).

(** ** Files *)
(** read_stable (python/cib/gen_str_catalog.py:486-500): dict.update per file; a file may lack the list. *)
Definition read_stable (key : entry -> Z) (files : list (option (list entry))) : dict :=
  of_items key (fold_left (fun acc f => match f with Some l => l | None => acc end) files []).
(** read_input (python/cib/gen_str_catalog.py:340-357), after extraction of the entries: the last of several
    with one key is kept. *)
Definition unique (key : entry -> Z) (items : list entry) : list entry := values (of_items key items).
(** write_json (python/cib/gen_str_catalog.py:452-466) *)
Definition write_json (ms : list entry) (stable : list entry) : list entry :=
  fold_left (fun d j => if existsb (entry_eqb j) d then d else d ++ [j]) stable ms.
(** main (python/cib/gen_str_catalog.py:742-770), for one kind of entry: the assigned entries and the list in
    the JSON output. *)
Definition run (key : entry -> Z) (forget : bool) (reserved : list (Z * Z)) (files : list (option (list entry))) (items : list entry) : list entry * list entry :=
  let '(d, ms) := assign_ids key (read_stable key files) reserved (unique key items) in
  (ms, write_json ms (if forget then [] else values d)).
(** The top-level object of the JSON output (python/cib/gen_str_catalog.py:452-471): dict.update replaces the
    value of a member that is already there. Every member is a list of entries
    here. *)
Definition object := list (string * list entry).
(** python/cib/gen_str_catalog.py:452-471 *)
Fixpoint member_set (k : string) (v : list entry) (o : object) : object :=
  match o with
  | [] => [(k, v)]
  | (k', v') :: r => if (k' =? k)%string then (k', v) :: r else (k', v') :: member_set k v r
  end.
(** python/cib/gen_str_catalog.py:452-471 *)
Fixpoint member (k : string) (o : object) : option (list entry) :=
  match o with [] => None | (k', v) :: r => if (k' =? k)%string then Some v else member k r end.
(** python/cib/gen_str_catalog.py:452-471 *)
Definition object_update (o extra : object) : object := fold_left (fun o kv => member_set (fst kv) (snd kv) o) extra o.
(** python/cib/gen_str_catalog.py:452-471 *)
Definition json_object (messages modules : list entry) (extras : list object) : object :=
  fold_left object_update extras [("messages", messages); ("modules", modules); ("enums", [])]%string.
(** check_module_limit (python/cib/gen_str_catalog.py:634-639) *)
Definition check_limit (max : Z) (ms : list entry) : bool := forallb (fun m => m_id m <=? max) ms.
(** The specialisations written for each entry (python/cib/gen_str_catalog.py:372-380): the C++ types that get a
    definition of catalog<…>(). A type is the entry with its original id. *)
Definition defined (key : entry -> Z) (items : list entry) : list entry := sorted (unique key items).

(** ** Text *)
Local Open Scope string_scope.
(** str.strip() (python/cib/gen_str_catalog.py:30-37) *)
Definition is_space (a : ascii) : bool := (Ascii.eqb a " " || (Nat.leb 9 (nat_of_ascii a) && Nat.leb (nat_of_ascii a) 13) || (Nat.leb 28 (nat_of_ascii a) && Nat.leb (nat_of_ascii a) 31))%char%bool.
(** python/cib/gen_str_catalog.py:30-37 *)
Fixpoint lstrip (s : string) : string := match s with String a r => if is_space a then lstrip r else s | EmptyString => EmptyString end.
(** python/cib/gen_str_catalog.py:30-37 *)
Fixpoint rstrip (s : string) : string :=
  match s with
  | EmptyString => EmptyString
  | String a r => match rstrip r with EmptyString => if is_space a then EmptyString else String a EmptyString | r' => String a r' end
  end.
(** python/cib/gen_str_catalog.py:30-37 *)
Definition strip (s : string) : string := rstrip (lstrip s).
(** find_arg_split_pos (python/cib/gen_str_catalog.py:17-27): here the text before the position and the text
    after it; [None] after it when the end was reached. *)
Fixpoint find_arg_split (angle_count : Z) (s : string) : string * option string :=
  match s with
  | EmptyString => (EmptyString, None)
  | String a r =>
    if Ascii.eqb a ">" then let (p, q) := find_arg_split (angle_count - 1) r in (String a p, q)
    else if Ascii.eqb a "<" then let (p, q) := find_arg_split (angle_count + 1) r in (String a p, q)
    else if Ascii.eqb a "," && (angle_count =? 0)%Z then (EmptyString, Some r)
    else let (p, q) := find_arg_split angle_count r in (String a p, q)
  end.
(** split_args (python/cib/gen_str_catalog.py:30-37); each turn uses up at least one character *)
Fixpoint split_args_from (fuel : nat) (s : string) : list string :=
  match fuel with
  | O => []
  | S f =>
    match s with
    | EmptyString => []
    | _ => let (p, q) := find_arg_split 0 s in
           strip p :: match q with Some r => split_args_from f r | None => [] end
    end
  end.
(** python/cib/gen_str_catalog.py:30-37 *)
Definition split_args (s : string) : list string := split_args_from (S (String.length s)) s.

(** The text of a message from the numbers of its characters (python/cib/gen_str_catalog.py:169-185): chr raises
    on negative numbers, and int on the empty text. *)
Definition message_text (codes : list Z) : option (list Z) :=
  match codes with [] => None | _ => if forallb (fun c => 0 <=? c)%Z codes then Some codes else None end.
(** The numbers the demangler prints for the bytes of a text
    (python/cib/gen_str_catalog.py:169-185). *)
Definition char_code (char_signed : bool) (b : Z) : Z := if char_signed && (128 <=? b)%Z then (b - 256)%Z else b.

(** ** Compile-time enumerators (python/cib/mipi_messages.py:54-75) *)
Definition is_digit (a : ascii) : bool := Nat.leb 48 (nat_of_ascii a) && Nat.leb (nat_of_ascii a) 57.
(** python/cib/mipi_messages.py:66-75 *)
Definition is_word (a : ascii) : bool :=
  is_digit a || (Nat.leb 65 (nat_of_ascii a) && Nat.leb (nat_of_ascii a) 90) || (Nat.leb 97 (nat_of_ascii a) && Nat.leb (nat_of_ascii a) 122) || Ascii.eqb a "_".
(** The longest prefix of characters satisfying f, and the rest
    (python/cib/mipi_messages.py:66-75). *)
Fixpoint span (f : ascii -> bool) (s : string) : string * string :=
  match s with
  | String a r => if f a then let (p, q) := span f r in (String a p, q) else (EmptyString, s)
  | EmptyString => (EmptyString, EmptyString)
  end.
(** \(([a-zA-Z0-9_]+)\)([0-9]+)\b at the start of s; a shorter run of letters or
    digits can never match, so the longest is the only candidate
    (python/cib/mipi_messages.py:66-75). *)
Definition match_here (s : string) : option (string * string * string) :=
  match s with
  | String "(" r =>
    let (ty, r1) := span is_word r in
    match ty, r1 with
    | String _ _, String ")" r2 =>
      let (v, r3) := span is_digit r2 in
      match v with
      | String _ _ => match r3 with String c _ => if is_word c then None else Some (ty, v, r3) | EmptyString => Some (ty, v, r3) end
      | EmptyString => None
      end
    | _, _ => None
    end
  | _ => None
  end.
(** re.search: the type and value of the leftmost match
    (python/cib/mipi_messages.py:66-75) *)
Fixpoint search (s : string) : option (string * string) :=
  match match_here s with
  | Some (ty, v, _) => Some (ty, v)
  | None => match s with EmptyString => None | String _ r => search r end
  end.
(** re.sub, with a function of the match; the fuel is the length of the text
    (python/cib/mipi_messages.py:66-75) *)
Fixpoint sub_from (fuel : nat) (f : string -> string -> string) (s : string) : string :=
  match fuel with
  | O => s
  | S n =>
    match match_here s with
    | Some (ty, v, r) => f ty v ++ sub_from n f r
    | None => match s with EmptyString => EmptyString | String a r => String a (sub_from n f r) end
    end
  end.
(** python/cib/mipi_messages.py:66-75 *)
Definition sub (f : string -> string -> string) (s : string) : string := sub_from (String.length s) f s.
(** enum_lookup (python/cib/mipi_messages.py:54-58) *)
Definition lookup_name (names : string -> string -> option string) (ty v : string) : string :=
  match names ty v with Some n => n | None => "static_cast<" ++ ty ++ ">(" ++ v ++ ")" end.
(** convert_ct_enums (python/cib/mipi_messages.py:66-75): [None] when the loop has not ended after the given
    number of turns. *)
Fixpoint convert_ct_enums (turns : nat) (names : string -> string -> option string) (msg : string) : option string :=
  match search msg with
  | None => Some msg
  | Some (ty, v) =>
    match turns with
    | O => None
    | S n => convert_ct_enums n names (sub (fun _ _ => lookup_name names ty v) msg)
    end
  end.

(** Model of tools/benchmark/parse_bench_data.py: the tables made from what the
    lookup benchmarks print (benchmark/lookup/pseudo_pext.cpp:14-15,
    benchmark/lookup/algorithms).

    Simplifications: the lines are given as a list of ASCII texts; what float() and
    int() make of a text are parameters ([to_float], [to_int]); a table is its rows
    of cells, the commas and quotes csv.writer puts between and around them are left
    out; sorted() of the names of algorithms is a parameter ([sorts]), and the error it
    gives when a name and None are compared is modelled. *)
From Coq Require Import String Ascii Bool Arith List ZArith.
From Verif Require Import CatalogModel GenModel.
Import ListNotations.
Local Open Scope string_scope.

(** ** Text *)
(** str.startswith (tools/benchmark/parse_bench_data.py:18-24) *)
Fixpoint starts (p s : string) : bool :=
  match p, s with
  | EmptyString, _ => true
  | String a p', String b s' => Ascii.eqb a b && starts p' s'
  | _, _ => false
  end.
(** The operator [in] on texts (tools/benchmark/parse_bench_data.py:41, 45) *)
Fixpoint within (p s : string) : bool :=
  starts p s || match s with EmptyString => false | String _ r => within p r end.
(** line.split(":")[1].strip() (tools/benchmark/parse_bench_data.py:19, 21, 23) *)
Definition after_colon (line : string) : string := strip (nth 1 (split ":" line) "").
(** None or a name (tools/benchmark/parse_bench_data.py:10-11) *)
Definition name := option string.
(** Two names are the same key of a dict (tools/benchmark/parse_bench_data.py:34-38) *)
Definition name_eqb (a b : name) : bool :=
  match a, b with Some x, Some y => String.eqb x y | None, None => true | _, _ => false end.
(** Names in a set (tools/benchmark/parse_bench_data.py:55-57) *)
Definition name_dec (a b : name) : {a = b} + {a <> b}.
Proof. decide equality. apply string_dec. Defined.

Section Parse.
Context {F : Type}.
Variable to_float : string -> option F.
Variable to_int : string -> option Z.

(** What is kept about an algorithm (tools/benchmark/parse_bench_data.py:37-48) *)
Record kept := { k_size : option Z; k_chained : option F; k_independent : option F }.
(** tools/benchmark/parse_bench_data.py:9 *)
Definition dict := list (name * list (name * kept)).
(** The variables of parse_file (tools/benchmark/parse_bench_data.py:9-12) *)
Record state := { s_data : dict; s_dataset : name; s_algorithm : name; s_size : option Z }.
(** tools/benchmark/parse_bench_data.py:9-12 *)
Definition start : state := {| s_data := []; s_dataset := None; s_algorithm := None; s_size := None |}.
(** A time is put down for an algorithm (tools/benchmark/parse_bench_data.py:41-48) *)
Definition note (label : string) (v : F) (k : kept) : kept :=
  if within "chained" label then {| k_size := k_size k; k_chained := Some v; k_independent := k_independent k |}
  else if within "independent" label then {| k_size := k_size k; k_chained := k_chained k; k_independent := Some v |}
  else k.
(** tools/benchmark/parse_bench_data.py:34-48 *)
Definition record (st : state) (label : string) (v : F) : state :=
  let algorithms := match get name_eqb (s_dataset st) (s_data st) with Some a => a | None => [] end in
  let old := match get name_eqb (s_algorithm st) algorithms with
             | Some k => k
             | None => {| k_size := s_size st; k_chained := None; k_independent := None |}
             end in
  {| s_data := put name_eqb (s_dataset st) (put name_eqb (s_algorithm st) (note label v old) algorithms) (s_data st);
     s_dataset := s_dataset st; s_algorithm := s_algorithm st; s_size := s_size st |}.
(** One line (tools/benchmark/parse_bench_data.py:16-48); None: int() raises. *)
Definition step (st : state) (text : string) : option state :=
  let line := strip text in
  if starts "dataset:" line then
    Some {| s_data := s_data st; s_dataset := Some (after_colon line); s_algorithm := s_algorithm st; s_size := s_size st |}
  else if starts "algorithm:" line then
    Some {| s_data := s_data st; s_dataset := s_dataset st; s_algorithm := Some (after_colon line); s_size := s_size st |}
  else if starts "size:" line then
    match to_int (after_colon line) with
    | Some n => Some {| s_data := s_data st; s_dataset := s_dataset st; s_algorithm := s_algorithm st; s_size := Some n |}
    | None => None
    end
  else if starts "|" line then
    match tl (split "|" line) with
    | f0 :: _ :: _ :: _ :: f4 :: _ =>
      match to_float (strip f0) with Some v => Some (record st (strip f4) v) | None => Some st end
    | _ => Some st
    end
  else Some st.
(** tools/benchmark/parse_bench_data.py:15-48 *)
Fixpoint steps (st : state) (lines : list string) : option state :=
  match lines with [] => Some st | l :: r => match step st l with Some s => steps s r | None => None end end.
(** parse_file (tools/benchmark/parse_bench_data.py:8-50) *)
Definition parse_file (lines : list string) : option dict := option_map s_data (steps start lines).

(** ** The tables *)
Variable sorts : list string -> list string.
(** The names of a list of keys; None when there is a None with names, which cannot be
    ordered (tools/benchmark/parse_bench_data.py:55-57) *)
Fixpoint all_names (l : list name) : option (list string) :=
  match l with
  | [] => Some []
  | Some x :: r => option_map (cons x) (all_names r)
  | None :: _ => None
  end.
(** sorted(set(…)) (tools/benchmark/parse_bench_data.py:55-57): the set of one None is
    not compared with anything. *)
Definition columns (l : list name) : option (list name) :=
  let keys := nodup name_dec l in
  match keys with
  | [None] => Some [None]
  | _ => option_map (fun ns => map Some (sorts ns)) (all_names keys)
  end.
(** The keys of every dataset (tools/benchmark/parse_bench_data.py:55-57) *)
Definition algorithms_of (d : dict) : list name := flat_map (fun x => map fst (snd x)) d.
(** A cell of a table: a time, a size, None or the empty text
    (tools/benchmark/parse_bench_data.py:64-67, 75-78, 86-88) *)
Definition cell {A} (f : kept -> option A) (d : dict) (dataset algorithm : name) : option A :=
  match get name_eqb dataset d with
  | Some a => match get name_eqb algorithm a with Some k => f k | None => None end
  | None => None
  end.
(** One table (tools/benchmark/parse_bench_data.py:60-68, 71-79, 82-89): the names of the
    columns, and each row with its name *)
Definition table {A} (f : kept -> option A) (d : dict) : option (list name * list (name * list (option A))) :=
  match columns (algorithms_of d) with
  | Some cs => Some (cs, map (fun r => (r, map (cell f d r) cs)) (map fst d))
  | None => None
  end.
(** main (tools/benchmark/parse_bench_data.py:109-112); None: an exception *)
Definition tables (lines : list string) :=
  match parse_file lines with
  | Some d =>
    match table k_chained d, table k_independent d, table k_size d with
    | Some a, Some b, Some c => Some (a, b, c)
    | _, _, _ => None
    end
  | None => None
  end.
End Parse.

(** Specification of what the decoded log shows of the calls in the source text. *)
From Coq Require Import String Ascii Bool Arith List NArith ZArith.
From Verif Require Import LogModel LogSpec CatalogSpec GenSpec SymbolModel MipiModel MipiSpec ChainModel ChainSpec SourceModel.
Import ListNotations.

(** The call is in the text, with these declarations in scope. *)
Definition occurs_with (src : list stmt) (id : nat) (ds : list env) : Prop := In (id, ds) (body_scopes scopes [] src).
(** The calls with these declarations in scope go to the logger. *)
Definition goes_to (config : option value -> option nat) (ds : list env) (g : nat) : Prop :=
  (exists f, setting ds k_flavor f /\ f <> default_flavor /\ config (Some f) = Some g) \/
  ((unset ds k_flavor \/ setting ds k_flavor default_flavor) /\ config None = Some g).
(** The text of the module in force. *)
Definition module_text (vs : values) (ds : list env) (m : string) : Prop :=
  (exists v, setting ds k_module v /\ spells (v_module vs v) m) \/ unset ds k_module /\ m = "default"%string.
(** The body of a call: words for the values in the format string. *)
Definition body_of (p : platform) (enums : enumerations) (s : site) (x : execution) (ps : list part) (body : string) : Prop :=
  exists words, Forall2 (arg_shown p enums) (combine (s_types s) (x_args x)) words /\ fills ps words body.
(** The line: the name of the level in force, the module in force, and the body. *)
Definition source_line (p : platform) (enums : enumerations) (vs : values) (s : site) (ds : list env) (x : execution) (ps : list part) (l : string) : Prop :=
  exists lv level m body, setting ds k_level lv /\ nth_error level_names lv = Some level /\ module_text vs ds m /\ body_of p enums s x ps body /\
    l = (level ++ " [" ++ m ++ "] " ++ body)%string.
(** The lines of a run: one for every call that goes to the logger. *)
Section Shown.
Variables (line_of : execution -> list part -> list env -> string -> Prop) (config : option value -> option nat) (g : nat) (src : list stmt).
Inductive shown_lines : list (execution * list part) -> list string -> Prop :=
| shown_none : shown_lines [] []
| shown_line x ps ds r l ls : occurs_with src (x_call x) ds -> goes_to config ds g -> line_of x ps ds l -> shown_lines r ls -> shown_lines ((x, ps) :: r) (l :: ls)
| shown_other x ps ds r ls : occurs_with src (x_call x) ds -> ~ goes_to config ds g -> shown_lines r ls -> shown_lines ((x, ps) :: r) ls.
End Shown.
(** An execution of a call of the text, with format string ps and values of the
    types of the arguments, in the cases for which one call is shown right (C103). *)
Definition good_execution (p : platform) (vs : values) (sites : nat -> site) (src : list stmt) (x : execution) (ps : list part) : Prop :=
  let s := sites (x_call x) in
  (exists ds, occurs_with src (x_call x) ds /\ (forall l, setting ds k_level l -> l < 8) /\ (forall u, setting ds k_unit u -> (v_unit vs u (x_time x) < 16)%N)) /\
  Forall braces_ok ps /\ length (filter is_hole ps) = length (s_types s) /\ length (x_args x) = length (s_types s) /\
  spells (s_text s) (format_text ps) /\ ~ mentions_enum (format_text ps) /\
  Forall (fun a => type_ok (fst a) /\ name_ok (fst a) /\ MipiSpec.arg_ok p a /\ number_or_enum (fst a) /\ shows_right p a) (combine (s_types s) (x_args x)).

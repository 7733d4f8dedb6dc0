(** Model of the way of a log call from the source text to its packet: the
    environment at the call decides the logger, the level, the module, the unit,
    the ids and the tag (include/log_binary/catalog/encoder.hpp:28-71, 97-131,
    include/log_binary/{string_id,module_id,tags}.hpp, include/log/*.hpp). How the
    environment comes about is in LogModel, what is made of the call in ChainModel
    and MipiModel.

    Simplifications: as in those models; the values of environment keys are
    numbers that stand for the values given here; the default builder and writer
    are used; calls are told apart by a number. *)
From Coq Require Import String Ascii Bool Arith List NArith ZArith.
From Verif Require Import LogModel SymbolModel MipiModel ChainModel.
Import ListNotations.

(** Further keys: get_string_id, get_module_id, get_tag
    (include/log_binary/string_id.hpp:8-18). *)
Definition k_string_id : key := 4.
(** include/log_binary/module_id.hpp:8-18 *)
Definition k_module_id : key := 5.
(** include/log_binary/tags.hpp:14-24 *)
Definition k_tag : key := 6.
(** What the values stand for. An id is a number and the suffix of its type; the
    unit is a function called for every message (include/log_binary/catalog/encoder.hpp:120), here with the
    time of the call. *)
Record values := {
  v_module : value -> list Z; v_module_id : value -> Z * string; v_string_id : value -> Z * string;
  v_tag : value -> sym_tag; v_unit : value -> nat -> N
}.
(** The format result of a call: its text, its named arguments and the types of the
    values that are left for run time
    (include/log_binary/catalog/encoder.hpp:97-131). *)
Record site := { s_text : list Z; s_named : list sym_named; s_types : list argty }.
(** One execution of a call (include/log_binary/catalog/encoder.hpp:97-131). *)
Record execution := { x_call : nat; x_time : nat; x_args : list N }.

Section Source.
Variables (p : platform) (vs : values) (sites : nat -> site).
(** The characters of "default" (include/log/module.hpp:19-22). *)
Definition default_module : list Z := map (fun a => Z.of_nat (nat_of_ascii a)) (list_ascii_of_string "default").
(** to_message, to_tags (include/log_binary/catalog/encoder.hpp:42-60); the defaults -1 (include/log_binary/string_id.hpp:17) and no tag
    (include/log_binary/tags.hpp:23) *)
Definition message_of (s : site) (e : env) : sym_message :=
  let id := match query e k_string_id with Some v => v_string_id vs v | None => ((-1)%Z, EmptyString) end in
  {| sm_text := s_text s; sm_args := map (encode_text p) (s_types s); sm_id := fst id; sm_suffix := snd id; sm_named := s_named s;
     sm_tags := match query e k_tag with Some v => [v_tag vs v] | None => [] end |}.
(** to_module (include/log_binary/catalog/encoder.hpp:62-65); the defaults "default" and -1 (include/log_binary/module_id.hpp:17) *)
Definition module_sym (e : env) : sym_module :=
  let id := match query e k_module_id with Some v => v_module_id vs v | None => ((-1)%Z, EmptyString) end in
  {| so_text := match query e k_module with Some v => v_module vs v | None => default_module end; so_id := fst id; so_suffix := snd id |}.
(** log_msg (include/log_binary/catalog/encoder.hpp:105-129): get_level has no default, the call does not compile without *)
Definition call_of (s : site) (e : env) (x : execution) : option log_call :=
  match query e k_level with
  | None => None
  | Some l => Some {| l_level := N.of_nat l; l_module := module_sym e; l_unit := match query e k_unit with Some u => v_unit vs u (x_time x) | None => 0%N end;
                      l_message := message_of s e; l_args := combine (s_types s) (x_args x) |}
  end.
(** The configuration of the loggers (include/log/log.hpp:43-58); [lg] is the binary logger. *)
Variables (config : option value -> option nat) (lg : nat).
(** include/log/log.hpp:43-58 *)
Definition sent_here (e : env) : bool := match get_config config e with Some g => g =? lg | None => false end.
(** The source is accepted: every call for the logger has a level
    (include/log_binary/catalog/encoder.hpp:97-131). *)
Definition compile (src : list stmt) : option (list (nat * env)) :=
  match source_calls src with
  | None => None
  | Some cs => if forallb (fun c => negb (sent_here (snd c)) || match query (snd c) k_level with Some _ => true | None => false end) cs then Some cs else None
  end.
(** The undefined symbols: catalog<Message>() and module<Module>() (include/log_binary/catalog/encoder.hpp:113-123) *)
Definition symbols_of (cs : list (nat * env)) : list item :=
  flat_map (fun c => if sent_here (snd c) then [IMessage (message_of (sites (fst c)) (snd c)); IModule (module_sym (snd c))] else []) cs.
(** The calls that reach the logger
    (include/log_binary/catalog/encoder.hpp:113-123). *)
Fixpoint run_calls (cs : list (nat * env)) (xs : list execution) : option (list log_call) :=
  match xs with
  | [] => Some []
  | x :: r =>
    match find (fun c => fst c =? x_call x) cs, run_calls cs r with
    | Some c, Some l => if sent_here (snd c) then match call_of (sites (x_call x)) (snd c) x with Some k => Some (k :: l) | None => None end else Some l
    | _, _ => None
    end
  end.
End Source.

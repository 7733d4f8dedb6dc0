(** Model of the logging front end (include/log/*.hpp), of the environment of flow
    logs (include/flow/log.hpp), of the text logger (include/log_fmt/logger.hpp)
    and of the delivery of packets by the binary logger
    (include/log_binary/catalog/encoder.hpp). What is in a packet is in MipiModel.

    Simplifications: environment keys, values and loggers are numbers; the value of
    a key set twice in one declaration is that of the first; stdx::ct_format is a
    parameter; the text of a number is decimal. *)
From Coq Require Import String Ascii Bool Arith List.
Import ListNotations.

(** ** Environments (include/log/env.hpp) *)
(** include/log/env.hpp:6-38 *)
Definition key := nat.
(** include/log/env.hpp:6-38 *)
Definition value := nat.
(** stdx::env: bindings, newest first (include/log/env.hpp:6-38). *)
Definition env := list (key * value).
(** Env{}.query(k) (include/log/env.hpp:6-38) *)
Definition query (e : env) (k : key) : option value := option_map snd (find (fun b => fst b =? k) e).
(** stdx::extend_env_t (include/log/env.hpp:6-38) *)
Definition extend (e : env) (kvs : env) : env := kvs ++ e.
(** Source text with log declarations. Each scope may declare cib_log_env_t once
    (CIB_LOG_ENV, 16-24 and 26-35): a second typedef in the scope names another
    type. CIB_WITH_LOG_ENV (include/log/env.hpp:34-38) declares it in the init-statement of an if, so
    the block of that if may not declare it again either. A log call adds its
    macro's bindings (CIB_LOG_WITH_LEVEL, include/log/log.hpp:80-83). *)
Inductive stmt :=
| Decl (kvs : env)
| Block (l : list stmt)
| With (kvs : env) (l : list stmt)
| LogCall (id : nat) (kvs : env).
(** The calls with their environments, None if it does not compile. [fresh]: the
    scope has not declared the name yet (include/log/env.hpp:6-38). *)
Definition body_calls (one : env -> stmt -> option (list (nat * env))) : bool -> env -> list stmt -> option (list (nat * env)) :=
  fix go (fresh : bool) (e : env) (b : list stmt) {struct b} :=
    match b with
    | [] => Some []
    | s :: r =>
      match s with
      | Decl kvs => if fresh then go false (extend e kvs) r else None
      | _ => match one e s, go fresh e r with Some a, Some c => Some (a ++ c) | _, _ => None end
      end
    end.
(** include/log/env.hpp:6-38 *)
Fixpoint stmt_calls (e : env) (s : stmt) {struct s} : option (list (nat * env)) :=
  match s with
  | Decl _ => Some []
  | Block b => body_calls stmt_calls true e b
  | With kvs b => body_calls stmt_calls false (extend e kvs) b
  | LogCall id kvs => Some [(id, extend e kvs)]
  end.
(** include/log/env.hpp:6-38 *)
Definition calls : bool -> env -> list stmt -> option (list (nat * env)) := body_calls stmt_calls.
(** cib_log_env_t at namespace scope (include/log/env.hpp:6) *)
Definition source_calls (l : list stmt) : option (list (nat * env)) := calls false [] l.

(** ** Loggers (include/log/log.hpp:34-58) *)
(** Keys of the queries: level (no default), module, unit, flavor
    (include/log/log.hpp:44-58). *)
Definition k_level : key := 0.
(** include/log/log.hpp:44-58 *)
Definition k_module : key := 1.
(** include/log/log.hpp:44-58 *)
Definition k_unit : key := 2.
(** include/log/log.hpp:44-58 *)
Definition k_flavor : key := 3.
(** default_flavor_t (include/log/flavor.hpp:19-21) *)
Definition default_flavor : value := 0.
(** include/log/flavor.hpp:19-21 *)
Definition flavor (e : env) : value := match query e k_flavor with Some f => f | None => default_flavor end.
(** "default" (include/log/module.hpp:19-22), 0 (include/log/unit.hpp:17-19) *)
Definition module_of (e : env) : value := match query e k_module with Some m => m | None => 0 end.
(** include/log/unit.hpp:17-19 *)
Definition unit_of (e : env) : value := match query e k_unit with Some u => u | None => 0 end.
(** logging::config<Ts...>: the primary template is the null logger. [config None]
    is config<>, [config (Some f)] is config<f>. *)
Section Front.
Context (config : option value -> option nat).
(** get_config (include/log/log.hpp:44-52), without further types. *)
Definition get_config (e : env) : option nat := if flavor e =? default_flavor then config None else config (Some (flavor e)).
(** Arguments of a format string: [F] is stdx::ct_format, which folds what is known
    at compile time into the string; what is left are run-time values. *)
Context {arg val : Type} (F : string -> list arg -> string * list val).
(** include/log/log.hpp:54-58 *)
Inductive effect :=
| Logged (logger : nat) (e : env) (m : string * list val)
| VersionLogged (logger : nat) (e : env)
| Panicked (m : string * list val) (extra : list arg).
(** log (include/log/log.hpp:54-58): the null logger does nothing. *)
Definition log (e : env) (m : string * list val) : list effect := match get_config e with Some g => [Logged g e m] | None => [] end.
(** stdx::num_fmt_specifiers: the openings of a replacement field; doubled braces
    are text (include/log/log.hpp:103). *)
Fixpoint specifiers (s : string) : nat :=
  match s with
  | EmptyString => 0
  | String a r =>
    if Ascii.eqb a "{" then match r with String b r' => if Ascii.eqb b "{" then specifiers r' else S (specifiers r) | EmptyString => 1 end
    else specifiers r
  end.
(** panic (include/log/log.hpp:95-137): sizeof...(args) - N must not wrap around. *)
Definition panic (e : env) (fmt : string) (args : list arg) : option (list effect) :=
  let n := specifiers fmt in
  if n <=? length args then
    let m := F fmt (firstn n args) in Some (log e m ++ [Panicked m (skipn n args)])
  else None.
(** CIB_FATAL (include/log/log.hpp:140-143); [fatal] is logging::level::FATAL. *)
Definition fatal : value := 1.
(** include/log/log.hpp:140-143 *)
Definition cib_fatal (e : env) (fmt : string) (args : list arg) : option (list effect) := panic (extend e [(k_level, fatal)]) fmt args.
(** CIB_ASSERT (include/log/log.hpp:145-148): [text] is the expression's text, [holds] its value. The
    call is in the program whether or not it is made. *)
Definition cib_assert (e : env) (text : string) (holds : bool) (args : list arg) : option (list effect) :=
  match cib_fatal e ("Assertion failure: " ++ text)%string args with
  | Some o => Some (if holds then [] else o)
  | None => None
  end.
(** log_version (include/log/log.hpp:150-168): [has_version] tells whether the logger has a log_version.
    The cib_log_env_t named in the function is the one of namespace scope. *)
Definition level_max : value := 0.
(** include/log/log.hpp:150-168 *)
Definition log_version (has_version : nat -> bool) (version : string * list val) (e : env) : list effect :=
  match get_config e with
  | None => []
  | Some g => if has_version g then [VersionLogged g e] else [Logged g (extend [] [(k_level, level_max)]) version]
  end.
(** CIB_LOG_VERSION and CIB_LOG_V (include/log/log.hpp:170-173) *)
Definition cib_log_v (has_version : nat -> bool) (version : string * list val) (e : env) (f : value) : list effect :=
  log_version has_version version (extend e [(k_flavor, f)]).
End Front.
Arguments Logged {arg val}. Arguments VersionLogged {arg val}. Arguments Panicked {arg val}.

(** ** Environments of flow logs (include/flow/log.hpp:16-42) *)
Section FlowLog.
Context {E : Type} (e_eq_dec : forall a b : E, {a = b} + {a <> b}) (default_log_env : E) (set : string -> option E).
(** flow::log_env<Name>: the primary template is default_log_env
    (include/flow/log.hpp:19-20). *)
Definition log_env (n : string) : E := match set n with Some e => e | None => default_log_env end.
(** get_log_env with the "default" fallback (include/flow/log.hpp:26-40) *)
Definition get_log_env1 (n : string) : E := if e_eq_dec (log_env n) default_log_env then log_env "default" else log_env n.
(** get_log_env<Step, log_env_id_t<Flow>>, include/flow/func_list.hpp:24 *)
Definition get_log_env (n fallback : string) : E :=
  if e_eq_dec (log_env n) default_log_env then
    if string_dec fallback "default" then log_env fallback else get_log_env1 fallback
  else log_env n.
End FlowLog.

(** ** The text logger (include/log_fmt/logger.hpp) *)
(** level_text (include/log_fmt/logger.hpp:25-26) *)
Definition level_text : list string := ["MAX"; "FATAL"; "ERROR"; "WARN"; "INFO"; "USER1"; "USER2"; "TRACE"]%string.
(** include/log_fmt/logger.hpp:60-74 *)
Definition digit (n : nat) : ascii := ascii_of_nat (48 + n).
(** include/log_fmt/logger.hpp:60-74 *)
Fixpoint decimal_aux (fuel n : nat) (acc : string) : string :=
  match fuel with
  | O => acc
  | S f => let acc := String (digit (n mod 10)) acc in if n <? 10 then acc else decimal_aux f (n / 10) acc
  end.
(** include/log_fmt/logger.hpp:60-74 *)
Definition decimal (n : nat) : string := decimal_aux (S n) n EmptyString.
(** include/log_fmt/logger.hpp:60-74 *)
Fixpoint spaces (n : nat) : string := match n with O => EmptyString | S k => String " " (spaces k) end.
(** "{:>8}us {} [{}]: " (include/log_fmt/logger.hpp:62-64), the message (include/log_fmt/logger.hpp:65-71) *)
Definition prefix (time : nat) (level : string) (module_name : string) : string :=
  (spaces (8 - String.length (decimal time)) ++ decimal time ++ "us " ++ level ++ " [" ++ module_name ++ "]: ")%string.
(** include/log_fmt/logger.hpp:60-74 *)
Definition newline : ascii := ascii_of_nat 10.
(** A destination is an output iterator. What is written through a copy of an
    inserter goes on in the stream; a copy of a pointer starts at the same place
    (include/log_fmt/logger.hpp:60-74). *)
Inductive iterator := Inserter (stream : nat) | Place (buffer at_ : nat).
(** What a stream has, and what a buffer has at each place
    (include/log_fmt/logger.hpp:60-74). *)
Record world := { streams : nat -> string; buffers : nat -> nat -> option ascii }.
(** include/log_fmt/logger.hpp:60-74 *)
Definition put_stream (w : world) (s : nat) (t : string) : world :=
  {| streams := fun s' => if s' =? s then (streams w s ++ t)%string else streams w s'; buffers := buffers w |}.
(** include/log_fmt/logger.hpp:60-74 *)
Fixpoint put_buffer (w : world) (b at_ : nat) (t : string) : world :=
  match t with
  | EmptyString => w
  | String a r => put_buffer {| streams := streams w; buffers := fun b' p => if ((b' =? b) && (p =? at_))%bool then Some a else buffers w b' p |} b (S at_) r
  end.
(** fmt::format_to(out, ...): the iterator is passed by value and the returned one
    is dropped (include/log_fmt/logger.hpp:60-74). *)
Definition format_to (w : world) (out : iterator) (t : string) : world :=
  match out with Inserter s => put_stream w s t | Place b p => put_buffer w b p t end.
(** log (include/log_fmt/logger.hpp:48-75) to one destination, to all, and a sequence of log calls *)
Definition write_line (out : iterator) (p m : string) (w : world) : world :=
  format_to (format_to (format_to w out p) out m) out (String newline EmptyString).
(** include/log_fmt/logger.hpp:48-75 *)
Definition fmt_log (outs : list iterator) (c : string * string) (w : world) : world := fold_left (fun w out => write_line out (fst c) (snd c) w) outs w.
(** include/log_fmt/logger.hpp:48-75 *)
Definition fmt_logs (outs : list iterator) (cs : list (string * string)) (w : world) : world := fold_left (fun w c => fmt_log outs c w) cs w.

(** ** Packets to destinations (include/log_binary/catalog/encoder.hpp:85-94, 97-152) *)
Section Writer.
Context {D P O : Type} (op : D -> P -> D * O).
(** log_msg: the writer, with its destinations, is copied for the call; the outputs
    of the destinations in order (include/log_binary/catalog/encoder.hpp:104-129). *)
Definition log_packet (dests : list D) (p : P) : list D * list O := (dests, map (fun d => snd (op d p)) dests).
(** include/log_binary/catalog/encoder.hpp:104-129 *)
Fixpoint log_packets (dests : list D) (ps : list P) : list D * list (list O) :=
  match ps with
  | [] => (dests, [])
  | p :: r => let (ds, o) := log_packet dests p in let (ds', os) := log_packets ds r in (ds', o :: os)
  end.
End Writer.

(** ** Logging from several threads *)
(** A destination writes a packet word by word to what it stands for (a port, a
    buffer), inside the critical section of its type (include/log_binary/catalog/encoder.hpp:86-91), which
    one thread at a time is in. A writer from the environment (get_writer) and
    the text logger have none. *)
Record dest := { d_type : option nat; d_sink : nat }.
Section Threads.
Context {W : Type}.
(** include/log_binary/catalog/encoder.hpp:86-91 *)
Definition packet := list W.
(** A write of a packet to a destination
    (include/log_binary/catalog/encoder.hpp:86-91). *)
Definition write := (dest * packet)%type.
(** log_writer::operator(): one write per destination
    (include/log_binary/catalog/encoder.hpp:86-91). *)
Definition log_writes (dests : list dest) (p : packet) : list write := map (fun d => (d, p)) dests.
(** include/log_binary/catalog/encoder.hpp:86-91 *)
Inductive phase := Idle | Writing (d : dest) (p done rest : packet).
(** include/log_binary/catalog/encoder.hpp:86-91 *)
Record thread := { t_phase : phase; t_todo : list write }.
(** include/log_binary/catalog/encoder.hpp:86-91 *)
Record system := { locks : nat -> option nat; sinks : nat -> packet; threads : nat -> thread }.
(** include/log_binary/catalog/encoder.hpp:86-91 *)
Definition set_thread (s : system) (t : nat) (x : thread) : nat -> thread := fun t' => if t' =? t then x else threads s t'.
(** include/log_binary/catalog/encoder.hpp:86-91 *)
Definition set_lock (s : system) (d : dest) (o : option nat) : nat -> option nat :=
  match d_type d with None => locks s | Some ty => fun ty' => if ty' =? ty then o else locks s ty' end.
(** include/log_binary/catalog/encoder.hpp:86-91 *)
Definition free (s : system) (d : dest) : Prop := match d_type d with None => True | Some ty => locks s ty = None end.
(** include/log_binary/catalog/encoder.hpp:86-91 *)
Inductive tstep (t : nat) (s : system) : system -> Prop :=
| step_enter d p r : threads s t = {| t_phase := Idle; t_todo := (d, p) :: r |} -> free s d ->
    tstep t s {| locks := set_lock s d (Some t); sinks := sinks s; threads := set_thread s t {| t_phase := Writing d p [] p; t_todo := r |} |}
| step_word d p done w rest r : threads s t = {| t_phase := Writing d p done (w :: rest); t_todo := r |} ->
    tstep t s {| locks := locks s; sinks := fun k => if k =? d_sink d then sinks s k ++ [w] else sinks s k;
      threads := set_thread s t {| t_phase := Writing d p (done ++ [w]) rest; t_todo := r |} |}
| step_leave d p done r : threads s t = {| t_phase := Writing d p done []; t_todo := r |} ->
    tstep t s {| locks := set_lock s d None; sinks := sinks s; threads := set_thread s t {| t_phase := Idle; t_todo := r |} |}.
(** Every thread starts with its own sequence of writes
    (include/log_binary/catalog/encoder.hpp:86-91). *)
Definition start (prog : nat -> list write) : system :=
  {| locks := fun _ => None; sinks := fun _ => []; threads := fun t => {| t_phase := Idle; t_todo := prog t |} |}.
(** include/log_binary/catalog/encoder.hpp:86-91 *)
Inductive reachable (prog : nat -> list write) : system -> Prop :=
| reach_start : reachable prog (start prog)
| reach_step s t s' : reachable prog s -> tstep t s s' -> reachable prog s'.
End Threads.
Arguments packet : clear implicits. Arguments write : clear implicits. Arguments system : clear implicits.

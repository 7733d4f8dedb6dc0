(** Model of the environments of messages (include/msg/message.hpp:294-334,
    384-407, 617-634, 759-853) and of the environment in which callbacks and handlers
    of messages log (include/msg/callback.hpp:30-62, include/msg/handler.hpp:25-40,
    include/msg/detail/indexed_handler_common.hpp:49-64).

    Simplifications: what environments and log declarations are is in LogModel, what
    the fields of messages are in MessageModel; the names of messages are left out;
    whether a callback matches the data is given. *)
From Coq Require Import NArith Bool Arith List.
From Verif Require Import MessageModel LogModel.
Import ListNotations.

(** detail::message<Name, Env, Fields...>: env_t and fields_t
    (include/msg/message.hpp:382-389). *)
Record msgdef := { d_env : env; d_fields : list mfield }.

(** The expressions a message is defined with. *)
Inductive mexp :=
(** msg::message<Name, Env, Fields...> (include/msg/message.hpp:317-334, 633-634);
    without Env it is the empty environment *)
| Message (e : env) (fs : list mfield)
(** msg::relaxed_message<Name, Env, Fields...> (include/msg/message.hpp:781-820) *)
| Relaxed (e : env) (fs : list mfield)
(** M::with_env<E> (include/msg/message.hpp:629-630) *)
| WithEnv (x : mexp) (e : env)
(** M::extension<NewName, NewFields...>, msg::extend (include/msg/message.hpp:622-627) *)
| Extend (x : mexp) (news : list mfield)
(** M::shifted_by<N> in bits (include/msg/message.hpp:405-407) *)
| Shift (n : N) (x : mexp)
(** msg::rename_field<M, Old, New> (include/msg/message.hpp:822-853) *)
| Rename (x : mexp) (old new : nat)
(** msg::overlay<Name, Msgs...> (include/msg/message.hpp:763-774) *)
| Overlay (xs : list mexp)
(** msg::pack<Name, AlignTo, Msgs...>, AlignTo of [A] bits (include/msg/message.hpp:776-779) *)
| Pack (A : N) (xs : list mexp).

(** stdx::append_env_t<Es...>: the settings of later environments are found first
    (include/msg/message.hpp:630, 767, include/log/env.hpp:15-18). *)
Definition append_env (es : list env) : env := fold_left extend es [].

(** with_env (include/msg/message.hpp:629-630) *)
Definition with_env (m : msgdef) (e : env) : msgdef := {| d_env := append_env [d_env m; e]; d_fields := d_fields m |}.
(** overlay_q and overlayer (include/msg/message.hpp:759-770) *)
Definition overlay_msgs (ms : list msgdef) : option msgdef :=
  match ms with
  | [] => None
  | _ => option_map (fun fs => {| d_env := append_env (map d_env ms); d_fields := fs |}) (overlay (map d_fields ms))
  end.
(** shifted_msgs (include/msg/message.hpp:747-757): each keeps its environment, the
    empty message "end" comes last. *)
Fixpoint with_fields (ms : list msgdef) (fss : list (list mfield)) : list msgdef :=
  match ms, fss with
  | m :: r, fs :: s => {| d_env := d_env m; d_fields := fs |} :: with_fields r s
  | _, _ => []
  end.
(** include/msg/message.hpp:747-757 *)
Definition end_msg : msgdef := {| d_env := []; d_fields := [] |}.
(** pack (include/msg/message.hpp:776-779) *)
Definition pack_msgs (A : N) (ms : list msgdef) : option msgdef :=
  match ms with
  | [] => None
  | _ => overlay_msgs (with_fields ms (shifted_msgs A (map d_fields ms)) ++ [end_msg])
  end.
(** msg::message with an environment (include/msg/message.hpp:317-334, 633-634) *)
Definition message_def (e : env) (fs : list mfield) : option msgdef :=
  option_map (fun l => {| d_env := e; d_fields := l |}) (message fs).
(** field_locator (include/msg/message.hpp:791-816): the located fields are a message
    with the empty environment, every other field a message with Env, the pack of
    these has Env again. *)
Definition relaxed_def (e : env) (l : list mfield) : option msgdef :=
  let located := filter locatable l in
  let autos := mp_sort size_gt (filter (fun f => negb (locatable f)) l) in
  match message_def [] located with
  | Some lm =>
    option_map (fun m => with_env m e)
      (pack_msgs 8 (lm :: map (fun f => {| d_env := e; d_fields := [default_located f] |}) autos))
  | None => None
  end.
(** extension (include/msg/message.hpp:624-627) *)
Definition extension_def (m : msgdef) (news : list mfield) : option msgdef :=
  option_map (fun l => {| d_env := d_env m; d_fields := l |}) (extension news (d_fields m)).
(** shifted_by (include/msg/message.hpp:405-407) *)
Definition shift_def (n : N) (m : msgdef) : msgdef := {| d_env := d_env m; d_fields := shift_msg n (d_fields m) |}.
(** replace_fields_q, with_renamed_field (include/msg/message.hpp:822-848) *)
Definition rename_def (m : msgdef) (old new : nat) : option msgdef :=
  option_map (fun l => {| d_env := d_env m; d_fields := l |}) (rename_field (d_fields m) old new).

(** All of a list, or nothing; the arguments of overlay and pack
    (include/msg/message.hpp:772-779). *)
Definition all_some {A B} (f : A -> option B) : list A -> option (list B) :=
  fix go l := match l with [] => Some [] | x :: r => match f x, go r with Some y, Some s => Some (y :: s) | _, _ => None end end.

(** The message an expression defines; None: it does not compile
    (include/msg/message.hpp:317-334, 405-407, 622-634, 759-853). *)
Fixpoint define (x : mexp) : option msgdef :=
  match x with
  | Message e fs => message_def e fs
  | Relaxed e fs => relaxed_def e fs
  | WithEnv x e => option_map (fun m => with_env m e) (define x)
  | Extend x news => match define x with Some m => extension_def m news | None => None end
  | Shift n x => option_map (shift_def n) (define x)
  | Rename x old new => match define x with Some m => rename_def m old new | None => None end
  | Overlay xs => match all_some define xs with Some ms => overlay_msgs ms | None => None end
  | Pack A xs => match all_some define xs with Some ms => pack_msgs A ms | None => None end
  end.

(** ** Logs *)
(** logging::level::INFO and ERROR (include/log/level.hpp:12-21) *)
Definition lv_info : value := 4.
(** include/log/level.hpp:12-21 *)
Definition lv_error : value := 2.
(** The log calls in the text of callback::handle (include/msg/callback.hpp:33-42) and
    of callback::log_mismatch (include/msg/callback.hpp:48-60): both declare the level,
    and in a block of their own append the environment of the message. *)
Definition callback_text (i : nat) (menv : env) : list stmt :=
  [Decl [(k_level, lv_info)]; Block [Decl menv; LogCall i []]].
(** The calls of the function: its body is a scope of its own
    (include/msg/callback.hpp:33-60). *)
Definition callback_calls (i : nat) (menv : env) : option (list (nat * env)) :=
  source_calls [Block (callback_text i menv)].
(** A callback: its message, and whether its matcher accepts the data at hand
    (include/msg/callback.hpp:24-28). *)
Record cbk := { c_msg : msgdef; c_matches : bool }.
(** The lines of a handler, callback [i] being the line of that callback, [n] after the
    last callback the line of the handler itself. *)
Fixpoint cb_lines (i : nat) (sel : cbk -> bool) (cbs : list cbk) : option (list (nat * env)) :=
  match cbs with
  | [] => Some []
  | c :: r =>
    match (if sel c then callback_calls i (d_env (c_msg c)) else Some []), cb_lines (S i) sel r with
    | Some a, Some b => Some (a ++ b)
    | _, _ => None
    end
  end.
(** CIB_ERROR in handle (include/msg/handler.hpp:33-35,
    include/msg/detail/indexed_handler_common.hpp:59-61) *)
Definition none_claimed (n : nat) : option (list (nat * env)) := source_calls [Block [LogCall n [(k_level, lv_error)]]].
(** handler::handle (include/msg/handler.hpp:25-40) *)
Definition handler_lines (cbs : list cbk) : option (list (nat * env)) :=
  if existsb c_matches cbs then cb_lines 0 c_matches cbs
  else match none_claimed (length cbs), cb_lines 0 (fun _ => true) cbs with
       | Some a, Some b => Some (a ++ b)
       | _, _ => None
       end.
(** indexed_handler::handle, [cand] the candidates in the index
    (include/msg/detail/indexed_handler_common.hpp:49-64) *)
Definition indexed_lines (cand : nat -> bool) (cbs : list cbk) : option (list (nat * env)) :=
  let sel := combine (seq 0 (length cbs)) cbs in
  let cs := map (fun ic => {| c_msg := c_msg (snd ic); c_matches := cand (fst ic) && c_matches (snd ic) |}) sel in
  if existsb c_matches cs then cb_lines 0 c_matches cs else none_claimed (length cbs).

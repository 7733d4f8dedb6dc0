(** Specification of logging. *)
From Coq Require Import String Ascii Bool Arith List.
From Verif Require Import LogModel.
Import ListNotations.

(** ** Environments *)
(** The declarations in scope at each call, in the order of the text, the call's own
    last. *)
Definition body_scopes (one : list env -> stmt -> list (nat * list env)) : list env -> list stmt -> list (nat * list env) :=
  fix go ds b := match b with [] => [] | s :: r => one ds s ++ go (match s with Decl kvs => ds ++ [kvs] | _ => ds end) r end.
Fixpoint scopes (ds : list env) (s : stmt) : list (nat * list env) :=
  match s with
  | Decl _ => []
  | Block b => body_scopes scopes ds b
  | With kvs b => body_scopes scopes (ds ++ [kvs]) b
  | LogCall id kvs => [(id, ds ++ [kvs])]
  end.
(** The last declaration that has the key has this value for it. *)
Definition setting (ds : list env) (k : key) (v : value) : Prop :=
  exists pre kvs post, ds = pre ++ kvs :: post /\ query kvs k = Some v /\ forall kvs', In kvs' post -> query kvs' k = None.
Definition unset (ds : list env) (k : key) : Prop := forall kvs, In kvs ds -> query kvs k = None.
(** No scope declares the name twice. *)
Definition is_decl (s : stmt) : bool := match s with Decl _ => true | _ => false end.
Fixpoint decls (b : list stmt) : nat := match b with [] => 0 | s :: r => (if is_decl s then 1 else 0) + decls r end.
Inductive scoped : stmt -> Prop :=
| scoped_decl kvs : scoped (Decl kvs)
| scoped_call id kvs : scoped (LogCall id kvs)
| scoped_block b : decls b <= 1 -> Forall scoped b -> scoped (Block b)
| scoped_with kvs b : decls b = 0 -> Forall scoped b -> scoped (With kvs b).

(** ** Text *)
Fixpoint has_char (a : ascii) (s : string) : Prop := match s with EmptyString => False | String b r => a = b \/ has_char a r end.
(** The text of a call. *)
Definition line (c : string * string) : string := (fst c ++ snd c ++ String newline EmptyString)%string.
Definition text (l : list string) : string := fold_right append EmptyString l.
(** Where a text is cut at the ends of lines. *)
Fixpoint cut (acc s : string) : list string :=
  match s with
  | EmptyString => match acc with EmptyString => [] | _ => [acc] end
  | String a r => if Ascii.eqb a newline then acc :: cut EmptyString r else cut (acc ++ String a EmptyString)%string r
  end.

(** ** Destinations that keep their state *)
Section Kept.
Context {D P O : Type} (op : D -> P -> D * O).
Fixpoint kept (d : D) (ps : list P) : list O := match ps with [] => [] | p :: r => snd (op d p) :: kept (fst (op d p)) r end.
End Kept.

(** ** Threads *)
Section Threads.
Context {W : Type}.
(** Everything written to the sink is written inside the critical section ty. *)
Definition guarded (prog : nat -> list (write W)) (k ty : nat) : Prop :=
  forall t d p, In (d, p) (prog t) -> d_sink d = k -> d_type d = Some ty.
(** A history of whole writes, by thread and by sink. *)
Definition of_thread (t : nat) (h : list (nat * write W)) : list (write W) := map snd (filter (fun x => fst x =? t) h).
Definition to_sink (k : nat) (h : list (nat * write W)) : list (packet W) :=
  map (fun x => snd (snd x)) (filter (fun x => d_sink (fst (snd x)) =? k) h).
Definition finished (s : system W) : Prop := forall t, threads s t = {| t_phase := Idle; t_todo := [] |}.
(** A run of n steps *)
Inductive runs (prog : nat -> list (write W)) : nat -> system W -> Prop :=
| runs_start : runs prog 0 (start prog)
| runs_step n s t s' : runs prog n s -> tstep t s s' -> runs prog (S n) s'.
End Threads.
(** The number a text of digits stands for. *)
Fixpoint number (acc : nat) (s : string) : nat := match s with EmptyString => acc | String a r => number (10 * acc + (nat_of_ascii a - 48)) r end.
(** Format strings by their pieces: text, a doubled brace, a replacement field. *)
Inductive piece := Txt (s : string) | Doubled | Field (s : string).
Definition piece_ok (p : piece) : Prop := match p with Txt s | Field s => ~ has_char "{" s | Doubled => True end.
Definition render (p : piece) : string := match p with Txt s => s | Doubled => "{{"%string | Field s => String "{" (s ++ "}")%string end.
Definition is_field (p : piece) : bool := match p with Field _ => true | _ => false end.
(** The names of the levels (level.hpp). *)
Inductive level := MAX | FATAL | ERROR | WARN | INFO | USER1 | USER2 | TRACE.
Definition level_number (l : level) : nat := match l with MAX => 0 | FATAL => 1 | ERROR => 2 | WARN => 3 | INFO => 4 | USER1 => 5 | USER2 => 6 | TRACE => 7 end.
Definition level_name (l : level) : string :=
  match l with MAX => "MAX" | FATAL => "FATAL" | ERROR => "ERROR" | WARN => "WARN" | INFO => "INFO" | USER1 => "USER1" | USER2 => "USER2" | TRACE => "TRACE" end.
(** Only characters with the property. *)
Fixpoint only (f : ascii -> Prop) (s : string) : Prop := match s with EmptyString => True | String a r => f a /\ only f r end.

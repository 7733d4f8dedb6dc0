(** Specification of the environments of messages. *)
From Coq Require Import NArith Bool Arith List.
From Verif Require Import MessageModel LogModel LogSpec MsgEnvModel.
Import ListNotations.

(** The environments in the text of an expression, from left to right. *)
Fixpoint given (x : mexp) : list env :=
  match x with
  | Message e _ | Relaxed e _ => [e]
  | WithEnv x e => given x ++ [e]
  | Extend x _ | Shift _ x | Rename x _ _ => given x
  | Overlay xs | Pack _ xs => flat_map given xs
  end.
(** The text without its environments. *)
Fixpoint bare (x : mexp) : mexp :=
  match x with
  | Message _ fs => Message [] fs
  | Relaxed _ fs => Relaxed [] fs
  | WithEnv x _ => bare x
  | Extend x news => Extend (bare x) news
  | Shift n x => Shift n (bare x)
  | Rename x old new => Rename (bare x) old new
  | Overlay xs => Overlay (map bare xs)
  | Pack A xs => Pack A (map bare xs)
  end.
(** Two environments that answer every query alike. *)
Definition same_env (a b : env) : Prop := forall k, query a k = query b k.
(** An environment answers as the last of these that has an answer. *)
Definition answers (e : env) (ds : list env) : Prop :=
  forall k, (forall v, query e k = Some v <-> setting ds k v) /\ (query e k = None <-> unset ds k).

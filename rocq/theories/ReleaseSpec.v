(** What a compiler sees of a header. *)
From Coq Require Import String Bool List.
From Verif Require Import ReleaseModel.
Import ListNotations.

(** Code and system headers, in the order they take effect. *)
Inductive item := Code (t : string) | System (h : string).
Section Preprocessor.
Variable fs : files.
(** Which conditions hold. *)
Variable holds : string -> bool.
Definition active (stack : list bool) : bool := forallb (fun b => b) stack.
(** [sees seen stack ls out seen' stack']: preprocessing the lines with these files
    already included (every header has #pragma once) and within these conditional
    blocks yields [out]. *)
Inductive sees : list string -> list bool -> list line -> list item -> list string -> list bool -> Prop :=
| s_nil seen st : sees seen st [] [] seen st
| s_text seen st t r out seen' st' : sees seen st r out seen' st' ->
    sees seen st (Text t :: r) ((if active st then [Code t] else []) ++ out) seen' st'
| s_if seen st c r out seen' st' : sees seen (holds c :: st) r out seen' st' -> sees seen st (If c :: r) out seen' st'
| s_else seen b st r out seen' st' : sees seen (negb b :: st) r out seen' st' -> sees seen (b :: st) (Else :: r) out seen' st'
| s_endif seen b st r out seen' st' : sees seen st r out seen' st' -> sees seen (b :: st) (Endif :: r) out seen' st'
| s_once seen st r out seen' st' : sees seen st r out seen' st' -> sees seen st (Once :: r) out seen' st'
| s_inactive seen st t w r out seen' st' : active st = false -> sees seen st r out seen' st' -> sees seen st (Include t w :: r) out seen' st'
| s_system seen st t w r out seen' st' : active st = true -> file fs t = None ->
    sees seen st r out seen' st' -> sees seen st (Include t w :: r) (System w :: out) seen' st'
| s_again seen st t w ls r out seen' st' : active st = true -> file fs t = Some ls -> In t seen ->
    sees seen st r out seen' st' -> sees seen st (Include t w :: r) out seen' st'
| s_include seen st t w ls r out1 seen1 out seen' st' : active st = true -> file fs t = Some ls -> ~ In t seen ->
    sees (t :: seen) [] ls out1 seen1 [] -> sees seen1 st r out seen' st' ->
    sees seen st (Include t w :: r) (out1 ++ out) seen' st'.
(** Including the root header. *)
Definition translation (root : string) (out : list item) : Prop :=
  exists ls seen', file fs root = Some ls /\ sees [root] [] ls out seen' [].
End Preprocessor.
(** Compiling one file that includes system headers only. *)
Definition alone (holds : string -> bool) (text : list line) (out : list item) : Prop :=
  exists seen', sees [] holds [] [] text out seen' [].

Definition code (out : list item) : list string := flat_map (fun i => match i with Code t => [t] | System _ => [] end) out.
(** The n-th line of code comes after the system header. *)
Definition after (out : list item) (n : nat) (h : string) : Prop :=
  exists pre post, out = pre ++ post /\ In (System h) pre /\ List.length (code pre) <= n.
(** Conditional blocks are closed where they are opened, and headers of the library
    are not included inside one. *)
Fixpoint tidy (fs : files) (depth : nat) (ls : list line) : bool :=
  match ls with
  | [] => Nat.eqb depth 0
  | If _ :: r => tidy fs (S depth) r
  | Else :: r => negb (Nat.eqb depth 0) && tidy fs depth r
  | Endif :: r => match depth with O => false | S d => tidy fs d r end
  | Include t _ :: r => (negb (exists_ fs t) || Nat.eqb depth 0) && tidy fs depth r
  | _ :: r => tidy fs depth r
  end.
(** No header at all is included inside a conditional block. *)
Fixpoint includes_outside (depth : nat) (ls : list line) : bool :=
  match ls with
  | [] => true
  | If _ :: r => includes_outside (S depth) r
  | Endif :: r => includes_outside (pred depth) r
  | Include _ _ :: r => Nat.eqb depth 0 && includes_outside depth r
  | _ :: r => includes_outside depth r
  end.
(** The file has an include at its top level with some text, but no include, before
    it. *)
Definition is_include (l : line) : bool := match l with Include _ _ => true | _ => false end.
Definition is_content (l : line) : bool := match l with Include _ _ | Once => false | _ => true end.
Definition text_first (fs : files) (ls : list line) : Prop :=
  exists pre t w post, ls = pre ++ Include t w :: post /\ existsb is_include pre = false /\ existsb is_content pre = true /\ tidy fs 0 pre = true.
(** How often a line of text is there. *)
Fixpoint times (t : string) (ls : list line) : nat :=
  match ls with [] => 0 | Text u :: r => (if String.eqb t u then 1 else 0) + times t r | _ :: r => times t r end.
Fixpoint times_in (t : string) (fs : files) : nat := match fs with [] => 0 | (_, ls) :: r => times t ls + times_in t r end.

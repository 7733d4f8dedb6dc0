(** What several JSON files say together. *)
From Coq Require Import String Bool List NArith ZArith.
From Verif Require Import GenModel JsonModel JsonSpec.
Import ListNotations.
Local Open Scope Z_scope.

(** A file that holds a dict, and what it says under a heading. *)
Definition readable (f : text) : Prop := exists d, load f = Some (VDict d).
Definition says (f : text) (heading : text) (v : value) : Prop := exists d, load f = Some (VDict d) /\ In (KText heading, v) d.
(** What the last file with that heading says, or what is there before the files are read. *)
Definition last_says (before : text -> option value) (files : list text) (heading : text) (v : value) : Prop :=
  (exists a f b, files = a ++ f :: b /\ says f heading v /\ forall g w, In g b -> ~ says g heading w) \/
  ((forall g w, In g files -> ~ says g heading w) /\ before heading = Some v).
(** Before the stable files: nothing. Before the extra inputs: what the build has. *)
Definition nothing (heading : text) : option value := Some (VList []).
Definition the_build (ms : list message) (ds : list module) (heading : text) : option value :=
  if text_eqb heading (lit "messages") then Some (VList (map of_message ms)) else
  if text_eqb heading (lit "modules") then Some (VList (map of_module ds)) else
  if text_eqb heading (lit "enums") then Some (VDict []) else None.
(** The name that a dict of enumerations gives a value. *)
Definition names (enums : value) (E : text) (z : Z) (n : text) : Prop :=
  exists d e, enums = VDict d /\ In (KText E, VDict e) d /\ In (KText (lit (str z)), VText n) e.
(** What the extra inputs say about enumerations can be added to. *)
Definition addable (enums : value) (own : list (text * list (text * Z))) : Prop :=
  own = [] \/ exists d, enums = VDict d /\ forall E x, In E (map fst own) -> In (KText E, x) d -> exists e, x = VDict e.

(** What builds that pass files on should do: what builds do that pass entries on. *)
From Coq Require Import String Bool List NArith ZArith.
From Verif Require Import CatalogModel CatalogSpec JsonModel JsonSpec FileModel.
Import ListNotations.
Local Open Scope Z_scope.

(** The two histories of CatalogSpec that the runs are. *)
Definition messages_build (v : given) : build := {| b_key := v_key v; b_reserved := v_reserved v; b_items := v_messages v |}.
Definition modules_build (v : given) : build := {| b_key := v_module_key v; b_reserved := []; b_items := v_modules v |}.
(** A number that stands for extras that a compiler can give, and that they are given back. *)
Definition good_extras (num : extras -> N) (of_num : N -> extras) (e : entry) : Prop :=
  num (of_num (m_extra e)) = m_extra e /\ Forall named_ok (fst (of_num (m_extra e))) /\ Forall tag_ok (snd (of_num (m_extra e))).
Definition good_given (num : extras -> N) (of_num : N -> extras) (v : given) : Prop :=
  Forall (good_extras num of_num) (v_messages v) /\ Forall (fun e => m_args e = [] /\ m_extra e = 0%N) (v_modules v) /\
  enums_ok (v_enums v) /\ NoDup (map fst (v_enums v)).

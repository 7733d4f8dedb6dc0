(** What two runs of the catalog generator may differ in: the seed of Python's
    hashes and the order of the symbols (python/cib/gen_str_catalog.py:212-213,
    340-357). *)
From Coq Require Import String List ZArith.
From Verif Require Import CatalogModel.
Import ListNotations.

(** Two ways to make keys tell apart the same entries. *)
Definition same_distinctions (k1 k2 : entry -> Z) (l : list entry) : Prop :=
  forall a b, In a l -> In b l -> (k1 a = k1 b <-> k2 a = k2 b).
(** All entries in some files. *)
Definition in_files (files : list (option (list entry))) : list entry :=
  flat_map (fun f => match f with Some l => l | None => [] end) files.
(** The list of the last file that has one: the only one that is heeded (C45). *)
Definition stable_list (files : list (option (list entry))) : list entry :=
  last (flat_map (fun f => match f with Some l => [l] | None => [] end) files) [].
(** Entries with one key are the same entry. *)
Definition keyed (key : entry -> Z) (l : list entry) : Prop :=
  forall a b, In a l -> In b l -> key a = key b -> a = b.
(** No id is known for an entry: it has none of its own and none of [old] has its key. *)
Definition is_new (key : entry -> Z) (old : list entry) (m : entry) : Prop :=
  m_id m = (-1)%Z /\ forall s, In s old -> key s <> key m.
(** Entries that need a new id have different texts. *)
Definition new_texts_differ (key : entry -> Z) (old l : list entry) : Prop :=
  forall a b, In a l -> In b l -> is_new key old a -> is_new key old b -> m_text a = m_text b -> a = b.

(** Model of builds that pass the catalog on as the text of a JSON file
    (python/cib/gen_str_catalog.py:452-500): JsonModel for the text, CatalogModel for what is done
    with the entries.

    Simplifications: one stable file, no extra inputs; the named arguments and tags of an
    entry are the number that [num] gives them, as in CatalogModel, where they are one number. *)
From Coq Require Import String Ascii Bool Arith List NArith ZArith.
From Verif Require Import GenModel SymbolModel CatalogModel JsonModel ChainModel.
Import ListNotations.
Local Open Scope Z_scope.

(** What else is in an entry (python/cib/gen_str_catalog.py:147-167). *)
Definition extras := (list named * list tag)%type.
Section File.
Variable num : extras -> N.
Variable of_num : N -> extras.
(** A message read from a file (python/cib/gen_str_catalog.py:185-193); its characters are bytes. *)
Definition entry_of (m : message) : entry :=
  {| m_text := text_of_codes (g_text m); m_args := map text_of_codes (g_args m); m_id := g_id m; m_extra := num (g_named m, g_tags m) |}.
(** python/cib/gen_str_catalog.py:254-259 *)
Definition module_entry (m : module) : entry := {| m_text := text_of_codes (d_text m); m_args := []; m_id := d_id m; m_extra := 0%N |}.
(** A message as it is written (python/cib/gen_str_catalog.py:195-207). *)
Definition message_of (e : entry) : message :=
  {| g_text := lit (m_text e); g_args := map lit (m_args e); g_id := m_id e; g_named := fst (of_num (m_extra e)); g_tags := snd (of_num (m_extra e)) |}.
(** python/cib/gen_str_catalog.py:261-265 *)
Definition module_of (e : entry) : module := {| d_text := lit (m_text e); d_id := m_id e |}.
(** read_stable (python/cib/gen_str_catalog.py:486-500): nothing without a file or what it does not have; None if it cannot be
    read or is not a dict (dict.update takes more, see UpdateModel.v). *)
Definition read_catalog (file : option text) : option (list entry * list entry) :=
  match file with
  | None => Some ([], [])
  | Some t =>
    match load t with
    | Some (VDict d) =>
      match stable_of (VDict (update key_eqb [(KText (lit "messages"), VList []); (KText (lit "modules"), VList [])] d)) with
      | Some (ms, ds) => Some (map entry_of ms, map module_entry ds)
      | None => None
      end
    | _ => None
    end
  end.
(** What a run is given besides: the items of both kinds with the keys of this run, the reserved ids,
    the enumerations, and how the system ends lines (python/cib/gen_str_catalog.py:742-770). *)
Record given := {
  v_key : entry -> Z; v_module_key : entry -> Z; v_reserved : list (Z * Z); v_messages : list entry; v_modules : list entry;
  v_enums : list (text * list (text * Z)); v_crlf : bool }.
(** main (python/cib/gen_str_catalog.py:742-786) from the old file to the new one: the entries of both kinds with
    their ids, and the text that is written. *)
Definition run_file (file : option text) (v : given) : option (list entry * list entry * text) :=
  match read_catalog file with
  | None => None
  | Some (ms, ds) =>
    let (am, jm) := run (v_key v) false (v_reserved v) [Some ms] (v_messages v) in
    let (ad, jd) := run (v_module_key v) false [] [Some ds] (v_modules v) in
    Some (am, ad, save (v_crlf v) (catalog (map message_of jm) (map module_of jd) (v_enums v)))
  end.
(** One run after the other, each reading what the one before has written (python/cib/gen_str_catalog.py:742-786). *)
Fixpoint run_files (file : option text) (vs : list given) : option (option text) :=
  match vs with
  | [] => Some file
  | v :: r => match run_file file v with Some (_, _, t) => run_files (Some t) r | None => None end
  end.
(** The ids a run after those gives (python/cib/gen_str_catalog.py:742-786). *)
Definition run_after (vs : list given) (v : given) : option (list entry * list entry) :=
  match run_files None vs with Some f => option_map fst (run_file f v) | None => None end.
End File.

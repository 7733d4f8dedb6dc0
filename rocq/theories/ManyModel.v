(** Model of builds that are given several stable files and several extra inputs as the text of JSON
    files (python/cib/gen_str_catalog.py:452-500).

    Simplifications: a file whose value is not a dict stops the build (dict.update takes more,
    see UpdateModel.v); as in FileModel the named arguments and tags of an entry are one number. *)
From Coq Require Import String Ascii Bool Arith List NArith ZArith.
From Verif Require Import GenModel SymbolModel CatalogModel JsonModel FileModel.
Import ListNotations.
Local Open Scope Z_scope.

(** d.update(json.load(f)) for one file after the other; None if one cannot be read
    (python/cib/gen_str_catalog.py:469-471, 488-490). *)
Fixpoint update_all (d : list (key * value)) (files : list text) : option (list (key * value)) :=
  match files with
  | [] => Some d
  | t :: r => match load t with Some (VDict e) => update_all (update key_eqb d e) r | _ => None end
  end.
(** read_stable (python/cib/gen_str_catalog.py:486-500) *)
Definition read_stables (files : list text) : option (list message * list module) :=
  bind (update_all [(KText (lit "messages"), VList []); (KText (lit "modules"), VList [])] files) (fun d => stable_of (VDict d)).
(** The names of an enumeration under their values (python/cib/gen_str_catalog.py:475) *)
Definition names_of (es : list (text * Z)) : list (key * value) := update key_eqb [] (map (fun nv => (KNum (snd nv), VText (fst nv))) es).
(** es (python/cib/gen_str_catalog.py:473-475) *)
Definition own_enums (enums : list (text * list (text * Z))) : list (key * list (key * value)) :=
  update key_eqb [] (map (fun e => (KText (fst e), names_of (snd e))) enums).
(** for k, v in es.items(): … (python/cib/gen_str_catalog.py:476-480): None if something there is not a dict. *)
Fixpoint add_enums (es : list (key * list (key * value))) (d : list (key * value)) : option (list (key * value)) :=
  match es with
  | [] => Some d
  | (k, e) :: r =>
    match get key_eqb (KText (lit "enums")) d with
    | Some (VDict en) =>
      match get key_eqb k en with
      | Some (VDict old) => add_enums r (put key_eqb (KText (lit "enums")) (VDict (put key_eqb k (VDict (update key_eqb old e)) en)) d)
      | Some _ => None
      | None => add_enums r (put key_eqb (KText (lit "enums")) (VDict (put key_eqb k (VDict e) en)) d)
      end
    | _ => None
    end
  end.
(** write_json up to the dump (python/cib/gen_str_catalog.py:455-480) *)
Definition json_of (ms : list message) (ds : list module) (enums : list (text * list (text * Z))) (extra : list text) : option value :=
  bind (update_all [(KText (lit "messages"), VList (map of_message ms)); (KText (lit "modules"), VList (map of_module ds)); (KText (lit "enums"), VDict [])] extra)
    (fun d => option_map VDict (add_enums (own_enums enums) d)).
Section Many.
Variable num : extras -> N.
Variable of_num : N -> extras.
(** main (python/cib/gen_str_catalog.py:742-786) from the stable files and the extra inputs to the JSON output: the entries of both
    kinds with their ids, and the text that is written. *)
Definition run_many (stable extra : list text) (v : given) : option (list entry * list entry * text) :=
  match read_stables stable with
  | None => None
  | Some (ms, ds) =>
    let (am, jm) := run (v_key v) false (v_reserved v) [Some (map (entry_of num) ms)] (v_messages v) in
    let (ad, jd) := run (v_module_key v) false [] [Some (map module_entry ds)] (v_modules v) in
    match json_of (map (message_of of_num) jm) (map module_of jd) (v_enums v) extra with
    | Some w => Some (am, ad, save (v_crlf v) w)
    | None => None
    end
  end.
End Many.

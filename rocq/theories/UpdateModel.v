(** Model of dict.update with whatever value a JSON file holds (python/cib/gen_str_catalog.py:469-471,
    488-490). ManyModel stops at a file that does not hold a dict; dict.update takes more.

    Simplifications: a pair that begins with true, false or null stops the build here; the code takes it,
    under a heading that no part of the generator asks for. *)
From Coq Require Import String Ascii Bool Arith List NArith ZArith.
From Verif Require Import GenModel SymbolModel JsonModel ManyModel.
Import ListNotations.

(** What can be a key: texts and numbers, not lists and dicts (python/cib/gen_str_catalog.py:471, 490). *)
Definition as_key (v : value) : option key :=
  match v with VText t => Some (KText t) | VNum z => Some (KNum z) | _ => None end.
(** A key as a value: what going through a dict gives (python/cib/gen_str_catalog.py:471, 490). *)
Definition key_value (k : key) : value := match k with KText t => VText t | KNum z => VNum z end.
(** An element of a list must have two parts: a list of two values, a text of two characters or a dict of two
    items, of which the keys are taken (python/cib/gen_str_catalog.py:471, 490). *)
Definition as_pair (v : value) : option (key * value) :=
  match v with
  | VList [k; x] => option_map (fun k => (k, x)) (as_key k)
  | VText [a; b] => Some (KText [a], VText [b])
  | VDict [(k, _); (x, _)] => Some (k, key_value x)
  | _ => None
  end.
(** What dict.update takes from a value: the items of a dict, the pairs in a list, nothing from an empty text;
    the characters of another text are no pairs, and other values cannot be gone through
    (python/cib/gen_str_catalog.py:471, 490). *)
Definition pairs_of (v : value) : option (list (key * value)) :=
  match v with
  | VDict d => Some d
  | VList l => all_some (map as_pair l)
  | VText [] => Some []
  | _ => None
  end.
(** d.update(json.load(f)) for one file after the other (python/cib/gen_str_catalog.py:469-471, 488-490). *)
Fixpoint update_with (d : list (key * value)) (files : list text) : option (list (key * value)) :=
  match files with
  | [] => Some d
  | t :: r => match load t with Some v => match pairs_of v with Some e => update_with (update key_eqb d e) r | None => None end | None => None end
  end.
(** read_stable (python/cib/gen_str_catalog.py:486-500) *)
Definition stables_with (files : list text) : option (list message * list module) :=
  bind (update_with [(KText (lit "messages"), VList []); (KText (lit "modules"), VList [])] files) (fun d => stable_of (VDict d)).

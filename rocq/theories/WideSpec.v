(** Where fields really are in storages of any element width.

    field.hpp:106-107 computes the element of a location as
    Index * sizeof(uint32_t) / sizeof(elem_t).  For 64-bit elements this rounds
    an odd dword down to the even one, and the offset inside the element is
    still the offset inside the dword. *)
From Coq Require Import List NArith Bool.
From Verif Require Import FieldModel FieldSpec.
Import ListNotations.
Local Open Scope N_scope.

(** The place a location has in storage of [es]-bit elements. *)
Definition seat (es : N) (l : loc) : loc :=
  if es =? 64 then {| l_index := l_index l - l_index l mod 2; l_size := l_size l; l_lsb := l_lsb l |} else l.

(** How many of the low bits of a value of a type of [ew] bits are stored at a
    location; the rest of the location is cleared. *)
Definition kept (es ew : N) (l : loc) : N :=
  if (es =? 64) && (ew <=? 32) then N.min (l_size l) (32 - l_lsb l) else l_size l.

(** The bits of a message after a value is written over its bits [old]: the
    last location first, each getting its part of the value. *)
Fixpoint stored_rev (es ew : N) (rls : list loc) (v : N) (old : N -> bool) (k : N) : bool :=
  match rls with
  | [] => old k
  | l :: r =>
    stored_rev es ew r (N.shiftr v (l_size l))
      (fun i => if (loc_start (seat es l) <=? i) && (i <? loc_start (seat es l) + l_size l)
                then (i - loc_start (seat es l) <? kept es ew l) && N.testbit v (i - loc_start (seat es l))
                else old i) k
  end.
Definition stored (es ew : N) (ls : list loc) (v : N) (old : N -> bool) (k : N) : bool :=
  stored_rev es ew (rev ls) v old k.

(** What writing should do to a message. *)
Definition should_hold (ls : list loc) (v : N) (old : N -> bool) (k : N) : bool :=
  match place ls v k with Some b => b | None => old k end.

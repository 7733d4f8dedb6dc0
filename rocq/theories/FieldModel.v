(** Model of field storage access (include/msg/field.hpp).

    Storage is a list of elements of [es] bits each (the C++ storage is any
    range of unsigned integers; 8, 16, 32 and 64 are the possible [es]).
    Element values and field values are [N].  Undefined behaviour is an explicit outcome:
    an element access outside the range is [OutOfBounds], a shift by at least
    the width of the promoted type is [BadShift].

    Simplifications: stdx::bit_cast between the field's value type and the
    integral type of the same size is the identity on bits, so field values are
    their raw bit patterns. *)
From Coq Require Import List NArith Bool.
Import ListNotations.
Local Open Scope N_scope.

(** include/msg/field.hpp:100-199 *)
Inductive outcome (A : Type) : Type :=
| Done (a : A)
| OutOfBounds
| BadShift
| OutOfFuel.
Arguments Done {A} a.
Arguments OutOfBounds {A}.
Arguments BadShift {A}.
Arguments OutOfFuel {A}.

(** include/msg/field.hpp:100-199 *)
Definition bind {A B} (x : outcome A) (f : A -> outcome B) : outcome B :=
  match x with
  | Done a => f a
  | OutOfBounds => OutOfBounds
  | BadShift => BadShift
  | OutOfFuel => OutOfFuel
  end.
Notation "'let!' x ':=' e 'in' k" := (bind e (fun x => k)) (at level 200, x pattern, right associativity).

(** rng[i] for reading and writing (include/msg/field.hpp:100-199). *)
Definition rd (st : list N) (i : N) : outcome N :=
  match nth_error st (N.to_nat i) with Some e => Done e | None => OutOfBounds end.
(** include/msg/field.hpp:100-199 *)
Fixpoint set_nth (st : list N) (i : nat) (v : N) : list N :=
  match st, i with
  | [], _ => []
  | _ :: r, O => v :: r
  | e :: r, S i' => e :: set_nth r i' v
  end.
(** include/msg/field.hpp:100-199 *)
Definition wr (st : list N) (i : N) (v : N) : outcome (list N) :=
  match nth_error st (N.to_nat i) with
  | Some _ => Done (set_nth st (N.to_nat i) v)
  | None => OutOfBounds
  end.

(** [v << n] and [v >> n] computed in an unsigned type of [w] bits
    (include/msg/field.hpp:100-199). *)
Definition shl (w v n : N) : outcome N :=
  if n <? w then Done (N.shiftl v n mod 2 ^ w) else BadShift.
(** include/msg/field.hpp:100-199 *)
Definition shr (w v n : N) : outcome N :=
  if n <? w then Done (N.shiftr v n) else BadShift.

(** stdx::bit_mask<T, msb, lsb>(): ones at [lsb..msb]
    (include/msg/field.hpp:100-199). *)
Definition bit_mask (msb lsb : N) : N := N.shiftl (N.ones (msb + 1 - lsb)) lsb.

(** detail::bits_locator_t<Index, BitSize, Lsb> (include/msg/field.hpp:77-79). *)
Record loc := { l_index : N; l_size : N; l_lsb : N }.

(** constexpr auto Msb = Lsb + BitSize - 1u (include/msg/field.hpp:104). *)
Definition l_msb (l : loc) : N := l_lsb l + l_size l - 1.

(** BaseIndex = Index * sizeof(uint32_t) / sizeof(elem_t) (include/msg/field.hpp:106-107). *)
Definition base_index (es : N) (l : loc) : N := l_index l * 4 / (es / 8).

(** Width of the unsigned promoted type of a binary operation on a type of
    [a] bits (and [b] bits) (include/msg/field.hpp:106-107). *)
Definition promoted (a b : N) : N := N.max 32 (N.max a b).

(** The recursive lambda of extract (include/msg/field.hpp:114-141); [tw] is the width of
    T = make_unsigned_t<decltype(elem_t{} & E{})> (include/msg/field.hpp:103).  The recursion visits
    one element per call, so it is given one unit of fuel per element. *)
Fixpoint extract_loop (fuel : nat) (es tw base lsb maxi mini cur value : N) (st : list N) : outcome N :=
  match fuel with
  | O => OutOfFuel
  | S fuel' =>
    let ci := base + cur / es in
    if (ci =? maxi) && (ci =? mini) then                            (* 118-122 *)
      let! e := rd st ci in
      shr tw (N.land e (bit_mask (cur mod es) 0)) (lsb mod es)
    else if ci =? mini then                                         (* 123-126 *)
      let! v := shl tw value (es - lsb mod es) in
      let! e := rd st ci in
      let! e' := shr (promoted es 0) e (lsb mod es) in
      Done (N.lor v e')
    else if ci =? maxi then                                         (* 127-134 *)
      let! e := rd st ci in
      extract_loop fuel' es tw base lsb maxi mini (cur / es * es - 1)
                   (N.land e (bit_mask (cur mod es) 0)) st
    else                                                            (* 135-141 *)
      let! v := shl tw value es in
      let! e := rd st ci in
      extract_loop fuel' es tw base lsb maxi mini (cur - es) (N.lor v e) st
  end.

(** bits_locator_t::extract<E> (include/msg/field.hpp:100-144), [ew] the width of E. *)
Definition loc_extract (es ew : N) (l : loc) (st : list N) : outcome N :=
  let base := base_index es l in
  let maxi := base + l_msb l / es in
  let mini := base + l_lsb l / es in
  let! v := extract_loop (S (N.to_nat (maxi - mini))) es (promoted es ew) base
                         (l_lsb l) maxi mini (l_msb l) 0 st in
  Done (v mod 2 ^ ew).

(** The recursive lambda of insert (include/msg/field.hpp:160-197); [tw] is the width of
    T = make_unsigned_t<decltype(E{} >> 1u)> (include/msg/field.hpp:149).  [elem & mask] with a mask
    computed in the promoted type clears the same bits of the element. *)
Fixpoint insert_loop (fuel : nat) (es tw base msb maxi mini cur value : N) (st : list N) : outcome (list N) :=
  match fuel with
  | O => OutOfFuel
  | S fuel' =>
    let ci := base + cur / es in
    if ci =? maxi then                                              (* 165-173 *)
      let lsb := cur mod es in
      let! e := rd st ci in
      let! v := shl tw value lsb in
      wr st ci (N.lor (N.ldiff e (bit_mask (msb mod es) lsb)) (v mod 2 ^ es))
    else if ci =? mini then                                         (* 174-187 *)
      let lsb := cur mod es in
      let numbits := es - lsb in
      let mask := bit_mask (numbits - 1) 0 in
      let! e := rd st ci in
      let! v := shl (promoted tw es) (N.land value mask) lsb in
      let! st' := wr st ci (N.lor (N.ldiff e (N.shiftl mask lsb)) (v mod 2 ^ es)) in
      let! v' := shr tw value numbits in
      insert_loop fuel' es tw base msb maxi mini (cur + numbits) v' st'
    else                                                            (* 188-197 *)
      let! st' := wr st ci (N.land value (bit_mask (es - 1) 0)) in
      let! v' := shr tw value es in
      insert_loop fuel' es tw base msb maxi mini (cur + es) v' st'
  end.

(** bits_locator_t::insert (include/msg/field.hpp:146-199). *)
Definition loc_insert (es ew : N) (l : loc) (value : N) (st : list N) : outcome (list N) :=
  let base := base_index es l in
  let maxi := base + l_msb l / es in
  let mini := base + l_lsb l / es in
  insert_loop (S (N.to_nat (maxi - mini))) es (promoted ew 0) base (l_msb l) maxi mini
              (l_lsb l) value st.

(** bits_locator_t::fold / unfold (include/msg/field.hpp:81-98), in a type of [ew] bits. *)
Definition fold_value (ew : N) (l : loc) (v : N) : N :=
  if l_size l =? ew then 0 else N.shiftr v (l_size l).
(** include/msg/field.hpp:81-98 *)
Definition unfold_value (ew : N) (l : loc) (v : N) : N :=
  if l_size l =? ew then 0 else N.shiftl v (l_size l) mod 2 ^ ew.

(** field_locator_t::extract (include/msg/field.hpp:233-243). *)
Fixpoint field_extract_from (es ew : N) (ls : list loc) (raw : N) (st : list N) : outcome N :=
  match ls with
  | [] => Done raw
  | l :: r =>
    let! e := loc_extract es ew l st in
    field_extract_from es ew r (N.lor (unfold_value ew l raw) e) st
  end.
(** include/msg/field.hpp:233-243 *)
Definition field_extract (es ew : N) (ls : list loc) (st : list N) : outcome N :=
  field_extract_from es ew ls 0 st.

(** field_locator_t::insert (include/msg/field.hpp:245-259): the assignment fold evaluates
    the last location first. *)
Fixpoint field_insert_rev (es ew : N) (rls : list loc) (raw : N) (st : list N) : outcome (list N) :=
  match rls with
  | [] => Done st
  | l :: r =>
    let! st' := loc_insert es ew l (N.land raw (bit_mask (l_size l - 1) 0)) st in
    field_insert_rev es ew r (fold_value ew l raw) st'
  end.
(** include/msg/field.hpp:245-259 *)
Definition field_insert (es ew : N) (ls : list loc) (raw : N) (st : list N) : outcome (list N) :=
  field_insert_rev es ew (rev ls) raw st.

(** bits_locator_t::fits_inside (include/msg/field.hpp:201-205), for a storage of [nbits]. *)
Definition loc_fits (nbits : N) (l : loc) : bool := l_index l * 32 + l_msb l <=? nbits.
(** field_locator_t::fits_inside (include/msg/field.hpp:261-264). *)
Definition field_fits (nbits : N) (ls : list loc) : bool := forallb (loc_fits nbits) ls.

(** bits_locator_t::extent_in<T> (include/msg/field.hpp:207-213), [es] the width of T. *)
Definition loc_extent (es : N) (l : loc) : N :=
  let msb_extent := (l_lsb l + l_size l + 7) / 8 in
  let extent := l_index l * 4 + msb_extent in
  (extent + es / 8 - 1) / (es / 8).
(** field_locator_t::extent_in (include/msg/field.hpp:266-268). *)
Definition field_extent (es : N) (ls : list loc) : N :=
  fold_left N.max (map (loc_extent es) ls) 0.

(** msg::at (include/msg/field.hpp:305-347): a location given by its msb and lsb in the
    message, and the locator it becomes (locator_for, include/msg/field.hpp:350-352). *)
Record at_ := { a_msb : N; a_lsb : N }.
(** include/msg/field.hpp:350-352 *)
Definition at_size (a : at_) : N := a_msb a - a_lsb a + 1.
(** include/msg/field.hpp:350-352 *)
Definition at_valid (a : at_) : bool := (at_size a <=? 64) && (a_lsb a <=? a_msb a).
(** include/msg/field.hpp:350-352 *)
Definition at_loc (a : at_) : loc :=
  {| l_index := a_lsb a / 32; l_size := at_size a; l_lsb := a_lsb a mod 32 |}.
(** at(dword_index, msb, lsb) and at(byte_index, msb, lsb) (include/msg/field.hpp:311-320). *)
Definition at_dword (d m l : N) : at_ := {| a_msb := 32 * d + m; a_lsb := 32 * d + l |}.
(** include/msg/field.hpp:311-320 *)
Definition at_byte (b m l : N) : at_ := {| a_msb := 8 * b + m; a_lsb := 8 * b + l |}.
(** shifted_by (include/msg/field.hpp:343-346). *)
Definition at_shift (n : N) (a : at_) : at_ := {| a_msb := a_msb a + n; a_lsb := a_lsb a + n |}.

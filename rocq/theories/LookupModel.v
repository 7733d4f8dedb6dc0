(** Model of the lookup library (include/lookup/*.hpp).

    Keys are their raw unsigned representation of [w] bits (as_raw_integral,
    include/lookup/pseudo_pext_lookup.hpp:24-38), values are of any type.  Reading outside an
    array is the outcome [OutOfBounds].  A program that does not compile (a
    failed static_assert, an array of negative or overflowing size) is [None].

    Simplifications: keys of integral or enumeration type, so comparing keys is
    comparing their representations (include/lookup/linear_search_lookup.hpp:20 compares the
    keys themselves); std::sort with an order that does not separate all
    elements is a parameter [srt], constrained only to return a sorted
    permutation; the inline assembly select for ARC processors
    (include/lookup/detail/select.hpp:23-64) is taken to compute what its fallback computes
    (it does: C124). *)
From Coq Require Import List NArith Bool Arith.
From Verif Require Import FieldModel.
Import ListNotations.
Local Open Scope N_scope.

(** ** Bits *)
(** std::popcount (include/lookup/pseudo_pext_lookup.hpp:62-111) *)
Fixpoint popcount_upto (n : nat) (m : N) : N :=
  match n with
  | O => 0
  | S n' => popcount_upto n' m + (if N.testbit m (N.of_nat n') then 1 else 0)
  end.
(** include/lookup/pseudo_pext_lookup.hpp:62-111 *)
Definition popcount (w m : N) : N := popcount_upto (N.to_nat w) m.
(** std::countl_zero on a [w]-bit type
    (include/lookup/pseudo_pext_lookup.hpp:62-111) *)
Definition countl_zero (w m : N) : N := w - N.size m.

(** compute_pack_coefficient (include/lookup/pseudo_pext_lookup.hpp:62-87); [fuel] is the number of
    source bits left. *)
Fixpoint coef_loop (fuel : nat) (src dst : N) (prev : bool) (mask acc : N) : N :=
  match fuel with
  | O => acc
  | S f =>
    let cur := N.testbit mask src in
    let acc' := if cur && negb prev then N.setbit acc (dst - src) else acc in
    coef_loop f (src + 1) (if cur then dst + 1 else dst) cur mask acc'
  end.
(** include/lookup/pseudo_pext_lookup.hpp:62-87 *)
Definition pack_coefficient (w dst mask : N) : N := coef_loop (N.to_nat w) 0 dst false mask 0.

(** pseudo_pext_t (include/lookup/pseudo_pext_lookup.hpp:89-111).  [pext_product] is the product before truncation;
    types below 32 bits are promoted to int, where it must not overflow. *)
Definition gap_bits (w mask : N) : N := w - popcount w mask - countl_zero w mask.
(** include/lookup/pseudo_pext_lookup.hpp:89-111 *)
Definition coefficient (w mask : N) : N := pack_coefficient w (gap_bits w mask) mask.
(** stdx::bit_mask<T>(popcount - 1); for popcount 0 the msb wraps and the mask is empty
    (include/lookup/pseudo_pext_lookup.hpp:89-111). *)
Definition final_mask (w mask : N) : N := N.ones (popcount w mask).
(** include/lookup/pseudo_pext_lookup.hpp:89-111 *)
Definition pext_product (w mask v : N) : N := N.land v mask * coefficient w mask.
(** include/lookup/pseudo_pext_lookup.hpp:89-111 *)
Definition pext (w mask v : N) : N :=
  let packed := if w <? 32 then pext_product w mask v else pext_product w mask v mod 2 ^ w in
  N.land (N.shiftr packed (gap_bits w mask) mod 2 ^ w) (final_mask w mask).

(** ** Choosing the mask *)
(** include/lookup/pseudo_pext_lookup.hpp:113-154 *)
Fixpoint insertN (x : N) (l : list N) : list N :=
  match l with
  | [] => [x]
  | y :: r => if x <=? y then x :: l else y :: insertN x r
  end.
(** std::sort on integers (the sorted permutation is unique)
    (include/lookup/pseudo_pext_lookup.hpp:113-154). *)
Definition sortN (l : list N) : list N := fold_right insertN [] l.

(** The adjacent_find loop of count_duplicates (include/lookup/pseudo_pext_lookup.hpp:113-123). *)
Fixpoint adjacent_equal (l : list N) : N :=
  match l with
  | x :: (y :: _) as r => (if x =? y then 1 else 0) + adjacent_equal r
  | _ => 0
  end.
(** include/lookup/pseudo_pext_lookup.hpp:113-123 *)
Definition count_duplicates (keys : list N) : N := adjacent_equal (sortN keys).
(** include/lookup/pseudo_pext_lookup.hpp:113-123 *)
Definition keys_are_unique (keys : list N) : bool := count_duplicates keys =? 0.

(** The loop of count_longest_run (include/lookup/pseudo_pext_lookup.hpp:125-154). *)
Fixpoint run_loop (l : list N) (prev longest current : N) : N :=
  match l with
  | [] => longest
  | c :: r =>
    let current1 := if c =? prev then current + 1 else current in
    let longest1 := N.max longest current1 in
    let current2 := if c =? prev then current1 else 0 in
    run_loop r c longest1 current2
  end.
(** include/lookup/pseudo_pext_lookup.hpp:125-154 *)
Definition count_longest_run (keys : list N) : N :=
  match sortN keys with [] => 0 | k :: r => run_loop r k 0 0 end.

(** with_mask (include/lookup/pseudo_pext_lookup.hpp:161-170). *)
Definition with_mask (w mask : N) (keys : list N) : list N := map (pext w mask) keys.

(** remove_cheapest_bit (include/lookup/pseudo_pext_lookup.hpp:185-215): the set bits in ascending order, keeping the
    first of those with fewest duplicates; [None] is "no bit tried yet"
    (min_num_dups at its maximum). *)
Fixpoint cheapest (w : N) (mask : N) (keys : list N) (bits : list N) (best : option (N * N)) : option (N * N) :=
  match bits with
  | [] => best
  | i :: r =>
    let d := count_duplicates (with_mask w (N.clearbit mask i) keys) in
    let best' := match best with
                 | Some (_, d0) => if d <? d0 then Some (i, d) else best
                 | None => Some (i, d)
                 end in
    cheapest w mask keys r best'
  end.
(** include/lookup/pseudo_pext_lookup.hpp:185-215 *)
Definition bit_positions (w : N) : list N := map N.of_nat (seq 0 (N.to_nat w)).
(** include/lookup/pseudo_pext_lookup.hpp:185-215 *)
Definition set_bits (w mask : N) : list N := filter (N.testbit mask) (bit_positions w).
(** include/lookup/pseudo_pext_lookup.hpp:185-215 *)
Definition remove_cheapest_bit (w mask : N) (keys : list N) : N :=
  N.clearbit mask (match cheapest w mask keys (set_bits w mask) None with Some (i, _) => i | None => 0 end).

(** The first loop of calc_pseudo_pext_mask (include/lookup/pseudo_pext_lookup.hpp:230-237), from the top bit down. *)
Definition try_clear (w : N) (keys : list N) (mask i : N) : N :=
  let t := N.clearbit mask i in if keys_are_unique (with_mask w t keys) then t else mask.
(** include/lookup/pseudo_pext_lookup.hpp:230-237 *)
Definition first_mask (w : N) (keys : list N) : N :=
  fold_left (try_clear w keys) (rev (bit_positions w)) (N.ones w).
(** The second loop (include/lookup/pseudo_pext_lookup.hpp:244-254); one bit is removed per iteration. *)
Fixpoint shrink (fuel : nat) (w max_search_len : N) (keys : list N) (mask run : N) : N * N :=
  match fuel with
  | O => (mask, run)
  | S f =>
    if (1 <? max_search_len) && (4 <? popcount w mask) then
      let t := remove_cheapest_bit w mask keys in
      let cur := count_longest_run (with_mask w t keys) in
      if cur <=? max_search_len then shrink f w max_search_len keys t cur else (mask, run)
    else (mask, run)
  end.
(** include/lookup/pseudo_pext_lookup.hpp:244-254 *)
Definition calc_mask (w max_search_len : N) (keys : list N) : N * N :=
  shrink (N.to_nat w) w max_search_len keys (first_mask w keys) 0.

(** ** Building and querying *)
Section Tables.
Context {V : Type}.
(** include/lookup/entry.hpp:4-10 *)
Record entry := { e_key : N; e_value : V }.
(** include/lookup/input.hpp:13-27 *)
Record input := { i_default : V; i_entries : list entry }.

(** The result of a strategy's make (include/lookup/pseudo_pext_lookup.hpp:261-347). *)
Inductive lookup_impl :=
| Failed                                                             (* strategy_failed_t *)
| Linear (i : input)                                                 (* linear_search_lookup::impl *)
| Empty (d : V)                                                      (* empty_impl *)
| Direct (w mask : N) (d : V) (storage : list entry)                 (* direct_impl *)
| Indirect (w mask : N) (d : V) (idx_bits search_len : N) (table : list N) (storage : list entry).

(** linear_search_lookup::make (include/lookup/linear_search_lookup.hpp:28-34). *)
Definition linear_make (max_size : N) (i : input) : option lookup_impl :=
  Some (if N.of_nat (length (i_entries i)) <=? max_size then Linear i else Failed).

(** The rotation (include/lookup/pseudo_pext_lookup.hpp:387-416): entries before and after the
    end of the first bucket of at least [search_len] entries.  [seen] is the
    reversed list of entries passed. *)
Fixpoint split_longest (h : N -> N) (search_len : N) (seen : list entry) (len prev : N) (rest : list entry)
  : list entry * list entry :=
  match rest with
  | [] => (rev seen, [])
  | e :: r =>
    let c := h (e_key e) in
    if c =? prev then split_longest h search_len (e :: seen) (len + 1) c r
    else if search_len <=? len then (rev seen, rest)
    else split_longest h search_len (e :: seen) 1 c r
  end.
(** include/lookup/pseudo_pext_lookup.hpp:387-416 *)
Definition rotate_longest (h : N -> N) (search_len : N) (s : list entry) : list entry :=
  match s with
  | [] => []
  | e :: r => let (a, b) := split_longest h search_len [e] 1 (h (e_key e)) r in b ++ a
  end.

(** uint_for_<storage_size> (include/lookup/pseudo_pext_lookup.hpp:44-60). *)
Definition uint_for (n : N) : N :=
  if n <=? 255 then 8 else if n <=? 65535 then 16 else if n <=? 4294967295 then 32 else 64.

(** Filling the index table from the last entry to the first (include/lookup/pseudo_pext_lookup.hpp:424-442);
    entry_idx wraps in its type, which ends the loop. *)
Fixpoint fill_table (fuel : nat) (h : N -> N) (idx_bits : N) (storage : list entry) (entry_idx : N) (t : list N)
  : outcome (list N) :=
  match fuel with
  | O => OutOfFuel
  | S f =>
    if entry_idx <? N.of_nat (length storage) then
      match nth_error storage (N.to_nat entry_idx) with
      | None => OutOfBounds
      | Some e =>
        let! t' := wr t (h (e_key e)) entry_idx in
        fill_table f h idx_bits storage ((entry_idx + 2 ^ idx_bits - 1) mod 2 ^ idx_bits) t'
      end
    else Done t
  end.

(** The direct table (include/lookup/pseudo_pext_lookup.hpp:450-464). *)
Fixpoint set_entry (st : list entry) (i : nat) (e : entry) : list entry :=
  match st, i with
  | [], _ => []
  | _ :: r, O => e :: r
  | x :: r, S i' => x :: set_entry r i' e
  end.
(** include/lookup/pseudo_pext_lookup.hpp:450-464 *)
Fixpoint fill_direct (h : N -> N) (es : list entry) (s : list entry) : outcome (list entry) :=
  match es with
  | [] => Done s
  | e :: r =>
    if N.to_nat (h (e_key e)) <? length s then
      fill_direct h r (set_entry s (N.to_nat (h (e_key e))) e)
    else OutOfBounds
  end%nat.

Variable srt : (N -> N) -> list entry -> list entry.

(** pseudo_pext_lookup<Indirect, MaxSearchLen>::make (include/lookup/pseudo_pext_lookup.hpp:350-469).  The size of the
    tables is the int [1 << popcount(mask)]: 31 bits and more do not compile. *)
Definition pext_make (w : N) (indirect : bool) (max_search_len : N) (i : input) : option lookup_impl :=
  let keys := map e_key (i_entries i) in
  if negb (indirect || (max_search_len =? 1)) then None else
  if negb (keys_are_unique keys) then None else
  let (mask, run) := calc_mask w max_search_len keys in
  let search_len := run + 1 in
  if 30 <? popcount w mask then None else
  let size := N.to_nat (2 ^ popcount w mask) in
  match i_entries i with
  | [] => Some (Empty (i_default i))
  | _ =>
    if indirect then
      let storage := rotate_longest (pext w mask) search_len (srt (pext w mask) (i_entries i)) in
      let idx_bits := uint_for (N.of_nat (length storage)) in
      match fill_table (S (length storage)) (pext w mask) idx_bits storage
              ((N.of_nat (length storage) - 1) mod 2 ^ idx_bits) (repeat 0 size) with
      | Done t => Some (Indirect w mask (i_default i) idx_bits search_len t storage)
      | _ => None
      end
    else
      match fill_direct (pext w mask) (i_entries i)
              (repeat {| e_key := 0; e_value := i_default i |} size) with
      | Done s => Some (Direct w mask (i_default i) s)
      | _ => None
      end
  end.

(** strategies<Ts...>::make (include/lookup/strategies.hpp:20-31): every strategy is made, the
    first that did not fail is used. *)
Definition failed (l : lookup_impl) : bool := match l with Failed => true | _ => false end.
(** include/lookup/strategies.hpp:20-31 *)
Fixpoint strategies (rs : list (option lookup_impl)) : option lookup_impl :=
  match rs with
  | [] => Some Failed
  | None :: _ => None
  | Some r :: rest =>
    match strategies rest with
    | None => None
    | Some later => if failed r then Some later else Some r
    end
  end.
(** lookup::make (include/lookup/lookup.hpp:9-12). *)
Definition make (w : N) (i : input) : option lookup_impl :=
  strategies [linear_make 4 i; pext_make w true 2 i].

(** operator[] of linear search (include/lookup/linear_search_lookup.hpp:16-23). *)
Definition linear_query (i : input) (k : N) : V :=
  fold_left (fun r e => if k =? e_key e then e_value e else r) (i_entries i) (i_default i).
(** The search loop of indirect_impl (include/lookup/pseudo_pext_lookup.hpp:330-346), counting key comparisons. *)
Fixpoint search (fuel : nat) (idx_bits : N) (storage : list entry) (d : V) (k i : N) : outcome V * nat :=
  match fuel with
  | O => (Done d, 0%nat)
  | S f =>
    match nth_error storage (N.to_nat i) with
    | None => (OutOfBounds, 0%nat)
    | Some e =>
      if k =? e_key e then (Done (e_value e), 1%nat)
      else let (o, n) := search f idx_bits storage d k ((i + 1) mod 2 ^ idx_bits) in (o, S n)
    end
  end.
(** operator[] of each implementation, with the number of key comparisons
    (include/lookup/pseudo_pext_lookup.hpp:287-346). *)
Definition query (l : lookup_impl) (k : N) : option (outcome V * nat) :=
  match l with
  | Failed => None
  | Linear i => Some (Done (linear_query i k), length (i_entries i))
  | Empty d => Some (Done d, 0%nat)                                  (* 277-279 *)
  | Direct w mask d st =>                                            (* 293-302 *)
    Some (match nth_error st (N.to_nat (pext w mask k)) with
          | None => (OutOfBounds, 0%nat)
          | Some e => (Done (if k =? e_key e then e_value e else d), 1%nat)
          end)
  | Indirect w mask d idx_bits n t st =>                             (* 329-347 *)
    Some (match nth_error t (N.to_nat (pext w mask k)) with
          | None => (OutOfBounds, 0%nat)
          | Some i => search (N.to_nat n) idx_bits st d k i
          end)
  end.
End Tables.
Arguments entry : clear implicits.
Arguments input : clear implicits.
Arguments lookup_impl : clear implicits.

(** Model of the tables an indexed service is built with: include/msg/indexed_builder.hpp:17-84,
    include/msg/detail/indexed_builder_common.hpp:31-52 and 65-68 (validators, capacities), and of the
    selection in linear lookups on ARC processors: include/lookup/detail/select.hpp.

    Simplifications: a value of a field is its number, and its object representation the bits
    of its two's complement (include/lookup/pseudo_pext_lookup.hpp:24-38); bool takes eight bits. A program
    that does not compile is None; so is one that puts more into a map or a bitset of the
    builder than it has room for, as all of this is done in constant expressions. *)
From Coq Require Import List Bool Arith ZArith NArith.
From Verif Require Import MatchModel FieldMatchersModel HandlerModel.
From Verif Require FieldModel LookupModel.
Import ListNotations.
Local Open Scope Z_scope.

(** ** select and select_lt (include/lookup/detail/select.hpp) *)
(** A key type of at most 32 bits, and static_cast<uint32_t>
    (include/lookup/detail/select.hpp:24-64). *)
Definition to_u32 (v : Z) : Z := v mod 2 ^ 32.
(** The flags that cmp sets: Z if equal, C (lower, unsigned) on a borrow
    (include/lookup/detail/select.hpp:24-64). *)
Record flags := { zero : bool; carry : bool }.
(** include/lookup/detail/select.hpp:24-64 *)
Definition cmp (lhs rhs : Z) : flags := {| zero := (to_u32 (lhs - rhs) =? 0); carry := lhs <? rhs |}.
(** mov.eq and mov.lo: the register changes if the condition holds
    (include/lookup/detail/select.hpp:24-64) *)
Definition mov {A} (condition : bool) (result first : A) : A := if condition then first else result.
(** fallback_select, fallback_select_lt (include/lookup/detail/select.hpp:7-21) *)
Definition fallback_select {A} (lhs rhs : Z) (first second : A) : A := if lhs =? rhs then first else second.
(** include/lookup/detail/select.hpp:7-21 *)
Definition fallback_select_lt {A} (lhs rhs : Z) (first second : A) : A := if lhs <? rhs then first else second.
(** optimized_select, optimized_select_lt on ARC (include/lookup/detail/select.hpp:24-64) *)
Definition arc_select {A} (raw_lhs raw_rhs : Z) (first second : A) : A := mov (zero (cmp (to_u32 raw_lhs) (to_u32 raw_rhs))) second first.
(** include/lookup/detail/select.hpp:24-64 *)
Definition arc_select_lt {A} (raw_lhs raw_rhs : Z) (first second : A) : A := mov (carry (cmp (to_u32 raw_lhs) (to_u32 raw_rhs))) second first.
(** optimized_select, optimized_select_lt (include/lookup/detail/select.hpp:24-75): on ARC, keys and values of at most four
    bytes take the constrained overload *)
Definition optimized (arc : bool) (key_bytes value_bytes : Z) : bool := arc && ((value_bytes <=? 4) && (key_bytes <=? 4)).
(** select (include/lookup/detail/select.hpp:77-83), select_lt (include/lookup/detail/select.hpp:85-91) *)
Definition select {A} (arc constant_evaluated : bool) (key_bytes value_bytes : Z) (lhs rhs : Z) (first second : A) : A :=
  if constant_evaluated then fallback_select lhs rhs first second
  else if optimized arc key_bytes value_bytes then arc_select lhs rhs first second else fallback_select lhs rhs first second.
(** include/lookup/detail/select.hpp:85-91 *)
Definition select_lt {A} (arc constant_evaluated : bool) (key_bytes value_bytes : Z) (lhs rhs : Z) (first second : A) : A :=
  if constant_evaluated then fallback_select_lt lhs rhs first second
  else if optimized arc key_bytes value_bytes then arc_select_lt lhs rhs first second else fallback_select_lt lhs rhs first second.
(** operator[] of a linear lookup (include/lookup/linear_search_lookup.hpp:16-23), on the keys themselves *)
Definition linear_lookup {A} (arc constant_evaluated : bool) (key_bytes value_bytes : Z) (d : A) (entries : list (Z * A)) (key : Z) : A :=
  fold_left (fun result kv => select arc constant_evaluated key_bytes value_bytes key (fst kv) (snd kv) result) entries d.

(** ** The tables *)
(** sizeof in bits (include/lookup/pseudo_pext_lookup.hpp:24-38) *)
Definition width_of (t : cty) : N := match t with CInt w _ | CEnum w _ => Z.to_N w | CBool => 8%N end.
(** as_raw_integral (include/lookup/pseudo_pext_lookup.hpp:24-38) *)
Definition raw (t : cty) (v : Z) : N := Z.to_N (v mod 2 ^ Z.of_N (width_of t)).
(** index_spec: temp_index<Fields, 512, 256> (include/msg/detail/indexed_builder_common.hpp:123-127) *)
Definition entry_capacity : nat := 512.
(** include/msg/detail/indexed_builder_common.hpp:123-127 *)
Definition callback_capacity : nat := 256.
(** lookup::make of the entries of a temp_index (include/msg/indexed_builder.hpp:27-51, 54-57) *)
Definition index_input (t : cty) (i : temp_index) : LookupModel.input bits :=
  {| LookupModel.i_default := ti_default i; LookupModel.i_entries := map (fun kv => {| LookupModel.e_key := raw t (fst kv); LookupModel.e_value := snd kv |}) (ti_entries i) |}.
Section Bake.
Variable srt : (N -> N) -> list (LookupModel.entry bits) -> list (LookupModel.entry bits).
Variable ftype : nat -> cty.
(** include/msg/indexed_builder.hpp:27-51, 54-57 *)
Definition bake_index (ms : list fexpr) (f : nat) : option (LookupModel.lookup_impl bits) :=
  let t := build_index f ms in
  if Nat.leb (length (ti_entries t)) entry_capacity then LookupModel.make srt (width_of (ftype f)) (index_input (ftype f) t) else None.
(** include/msg/indexed_builder.hpp:27-51, 54-57 *)
Fixpoint all_some {A} (l : list (option A)) : option (list A) :=
  match l with [] => Some [] | Some x :: r => option_map (cons x) (all_some r) | None :: _ => None end.
(** null_matcher_validator, never_matcher_validator (include/msg/detail/indexed_builder_common.hpp:32-44) and validate_matcher (include/msg/detail/indexed_builder_common.hpp:48-52) *)
Inductive validator := NullValidator | NeverValidator.
(** include/msg/detail/indexed_builder_common.hpp:48-52 *)
Definition validate (v : validator) (m : fexpr) : bool := match v, m with NeverValidator, Never => false | _, _ => true end.
(** indexed_builder::build (include/msg/indexed_builder.hpp:52-81) with the static_assert of invoke_callback (include/msg/detail/indexed_builder_common.hpp:155-159); without
    indices no bitset is made *)
Definition bake (v : validator) (fs : list nat) (cbs : list (callback leaf)) : option (list (LookupModel.lookup_impl bits)) :=
  if match fs with [] => true | _ => Nat.leb (length cbs) callback_capacity end then
    if forallb (fun c => validate v (remove_terms ftype fs (cb_matcher c))) cbs then all_some (map (bake_index (map cb_matcher cbs)) fs) else None
  else None.
End Bake.

(** ** Handling a message *)
Section Handle.
Context {E : Type}.
Variable ftype : nat -> cty.
Variable fld : nat -> E -> Z.
Variable psem : nat -> E -> bool.
(** index::operator() (include/msg/detail/indexed_handler_common.hpp:23-29): one lookup *)
Definition ask (l : LookupModel.lookup_impl bits) (f : nat) (e : E) : FieldModel.outcome bits :=
  match LookupModel.query l (raw (ftype f) (fld f e)) with Some (o, _) => o | None => FieldModel.OutOfBounds end.
(** indices::operator() (include/msg/indexed_handler.hpp:14-16) *)
Fixpoint ask_all (ls : list (LookupModel.lookup_impl bits)) (fs : list nat) (e : E) : FieldModel.outcome bits :=
  match ls, fs with
  | [], _ | _, [] => FieldModel.Done empty_bits
  | [l], f :: _ => ask l f e
  | l :: r, f :: fr =>
    match ask l f e with
    | FieldModel.Done b => match ask_all r fr e with FieldModel.Done c => FieldModel.Done (fun i => b i && c i) | o => o end
    | o => o
    end
  end.
(** is_match and handle (include/msg/detail/indexed_handler_common.hpp:43-64); None: out of bounds *)
Definition baked_is_match (ls : list (LookupModel.lookup_impl bits)) (fs : list nat) (e : E) : option bool :=
  match ask_all ls fs e with FieldModel.Done b => Some (existsb b (seq 0 callback_capacity)) | _ => None end.
(** include/msg/detail/indexed_handler_common.hpp:43-64 *)
Definition baked_handle (ls : list (LookupModel.lookup_impl bits)) (fs : list nat) (cbs : list (callback leaf)) (e : E) : option (list event * bool) :=
  match ask_all ls fs e with
  | FieldModel.Done b =>
    let (evs, handled) := invoke_from ftype fld psem fs b 0 cbs e false in
    Some (if handled then (evs, true) else (evs ++ [LogUnclaimed], false))
  | _ => None
  end.
End Handle.

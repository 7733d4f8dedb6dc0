(** Model of owners and views of messages as handles on storages, of reading and
    writing typed values, of the fields of a single integer, of structured
    bindings and of conditions on fields given by name:
    include/msg/message.hpp, include/msg/message_destructure.hpp, include/msg/field.hpp, include/msg/callback.hpp.

    Simplifications: all storages of a program have elements of one type, of [es]
    bits; a program is a straight line of declarations and statements, variables
    are numbered in the order of declaration and live to the end; a view may be of
    fewer elements than the storage it is made on (stdx::span allows the
    conversion), its first element is the first of the storage. A program that
    does not compile is [None]. *)
From Coq Require Import List NArith ZArith Bool Arith.
From Verif Require Import FieldModel MatchModel FieldMatchersModel MessageModel.
Import ListNotations.
Local Open Scope N_scope.

(** ** Programs with owners and views *)
(** A view_t (include/msg/message.hpp:417-487) or an owner_t (include/msg/message.hpp:489-587): its definition, the
    storage it refers to, the extent of its span, and whether data() gives a span
    of non-const elements. *)
Record handle := { h_def : list mfield; h_store : nat; h_extent : nat; h_mut : bool }.
(** include/msg/message.hpp:417-587 *)
Record state := { heap : list (list N); vars : list handle }.

(** What a view or an owner is made from: an array, or an owner or view
    (include/msg/message.hpp:417-587). *)
Inductive source := FromArray (s : nat) | FromHandle (h : nat).
(** include/msg/message.hpp:417-587 *)
Inductive command :=
| Array (st : list N)                                              (* std::array a{...} *)
| Poke (s i : nat) (v : N)                                         (* a[i] = v, on an array or through data() *)
| Owner (d : list mfield) (n : nat) (vs : list (nat * N))          (* owner_t<std::array<T, n>>{vs...} *)
| OwnerFrom (d : list mfield) (n : nat) (src : source) (vs : list (nat * N)) (* owner_t{src, vs...}, as_owning() *)
| View (d : list mfield) (n : nat) (mut : bool) (src : source) (vs : list (nat * N)) (* view_t{src, vs...}, as_const_view(), as_mutable_view() *)
| Set_ (h : nat) (vs : list (nat * N))                             (* m.set(vs...), m["f"_f] = v *)
| Get (h : nat) (f : nat)                                          (* m.get(f), m["f"_f] *)
| Equivalent (a b : nat).                                          (* equivalent(m1, m2) *)
(** What a program gives: values read, comparisons
    (include/msg/message.hpp:417-587). *)
Inductive observation := Value (v : N) | Same (b : bool).

(** include/msg/message.hpp:417-587 *)
Fixpoint put_nth {A} (i : nat) (x : A) (l : list A) : list A :=
  match l, i with
  | [], _ => []
  | _ :: r, O => x :: r
  | y :: r, S j => y :: put_nth j x r
  end.

Section Run.
Variable es : N.

(** The span of a handle: the first elements of its storage
    (include/msg/message.hpp:417-587). *)
Definition span_of (hp : list (list N)) (h : handle) : option (list N) :=
  option_map (firstn (h_extent h)) (nth_error hp (h_store h)).
(** The storage, the extent and the constness of a source; an array is not const
    (include/msg/message.hpp:417-587). *)
Definition source_of (s : state) (src : source) : option (nat * nat * bool) :=
  match src with
  | FromArray i => match nth_error (heap s) i with Some st => Some (i, length st, true) | None => None end
  | FromHandle v => match nth_error (vars s) v with Some h => Some (h_store h, h_extent h, h_mut h) | None => None end
  end.
(** msg_base::set through a span of the first n elements of a storage
    (include/msg/message.hpp:348-351): const spans do not compile. *)
Definition set_through (h : handle) (vs : list (nat * N)) (hp : list (list N)) : option (outcome (list (list N))) :=
  match nth_error hp (h_store h) with
  | None => None
  | Some st =>
    if h_mut h then
      match m_set es (h_def h) vs (firstn (h_extent h) st) with
      | None => None
      | Some o => Some (let! w := o in Done (put_nth (h_store h) (w ++ skipn (h_extent h) st) hp))
      end
    else None
  end.

(** include/msg/message.hpp:417-587, 662-682 *)
Definition step (c : command) (s : state) : option (outcome (state * list observation)) :=
  match c with
  | Array st =>
    if forallb (fun e => e <? 2 ^ es) st then Some (Done ({| heap := heap s ++ [st]; vars := vars s |}, [])) else None
  | Poke i j v =>
    match nth_error (heap s) i with
    | Some st =>
      if Nat.ltb j (length st)
      then Some (Done ({| heap := put_nth i (set_nth st j (v mod 2 ^ es)) (heap s); vars := vars s |}, []))
      else None
    | None => None
    end
  | Owner d n vs =>
    (** owner_t() and owner_t(Vs...) (include/msg/message.hpp:494-523) *)
    match construct es n d vs with
    | Some o => Some (let! st := o in
        Done ({| heap := heap s ++ [st]; vars := vars s ++ [{| h_def := d; h_store := length (heap s); h_extent := n; h_mut := true |}] |}, []))
    | None => None
    end
  | OwnerFrom d n src vs =>
    (** owner_t(S const &, Vs...), owner_t(view_t<S>, Vs...) (include/msg/message.hpp:525-540), as_owning (include/msg/message.hpp:449) *)
    match source_of s src with
    | Some (i, k, _) =>
      match nth_error (heap s) i with
      | Some st =>
        match construct_from es n d (firstn k st) vs with
        | Some o => Some (let! w := o in
            Done ({| heap := heap s ++ [w]; vars := vars s ++ [{| h_def := d; h_store := length (heap s); h_extent := n; h_mut := true |}] |}, []))
        | None => None
        end
      | None => None
      end
    | None => None
    end
  | View d n mut src vs =>
    (** The constructors of view_t (include/msg/message.hpp:421-445), as_const_view (include/msg/message.hpp:451-456, 553-558),
        as_mutable_view (include/msg/message.hpp:549-551): values are set on construction of mutable
        views only; the fields must fit (include/msg/message.hpp:459-460). *)
    match source_of s src with
    | Some (i, k, m) =>
      if Nat.leb n k && (negb mut || m) && fits_inside es (N.of_nat n) d && (mut || match vs with [] => true | _ => false end) then
        let h := {| h_def := d; h_store := i; h_extent := n; h_mut := mut |} in
        match (if mut then set_through h vs (heap s) else Some (Done (heap s))) with
        | Some o => Some (let! hp := o in Done ({| heap := hp; vars := vars s ++ [h] |}, []))
        | None => None
        end
      else None
    | None => None
    end
  | Set_ v vs =>
    match nth_error (vars s) v with
    | Some h =>
      match set_through h vs (heap s) with
      | Some o => Some (let! hp := o in Done ({| heap := hp; vars := vars s |}, []))
      | None => None
      end
    | None => None
    end
  | Get v f =>
    match nth_error (vars s) v with
    | Some h =>
      match span_of (heap s) h with
      | Some st =>
        match m_get es (h_def h) f st with
        | Some o => Some (let! x := o in Done (s, [Value x]))
        | None => None
        end
      | None => None
      end
    | None => None
    end
  | Equivalent a b =>
    (** equivalent (include/msg/message.hpp:662-682): the definitions are the same; the
        extents are the same, or the second is a view that converts to a shorter one. *)
    match nth_error (vars s) a, nth_error (vars s) b with
    | Some x, Some y =>
      match span_of (heap s) x, span_of (heap s) y with
      | Some u, Some w => Some (let! r := equiv es (h_def x) u w in Done (s, [Same r]))
      | _, _ => None
      end
    | _, _ => None
    end
  end.

(** include/msg/message.hpp:662-682 *)
Fixpoint run (p : list command) (s : state) : option (outcome (state * list observation)) :=
  match p with
  | [] => Some (Done (s, []))
  | c :: r =>
    match step c s with
    | Some (Done (s', o)) =>
      match run r s' with
      | Some q => Some (let! z := q in Done (fst z, o ++ snd z))
      | None => None
      end
    | Some e => Some e
    | None => None
    end
  end.
End Run.
(** include/msg/message.hpp:417-587 *)
Definition start : state := {| heap := []; vars := [] |}.

(** ** Typed values *)
(** stdx::bit_cast between an integer type of [bytes] bytes and its bit pattern
    (include/msg/field.hpp:242, 249). *)
Definition to_raw (bytes : N) (v : Z) : N := Z.to_N (v mod 2 ^ Z.of_N (8 * bytes)).
(** include/msg/field.hpp:242, 249 *)
Definition of_raw (signed : bool) (bytes r : N) : Z :=
  if signed && (2 ^ (8 * bytes - 1) <=? r) then (Z.of_N r - 2 ^ Z.of_N (8 * bytes))%Z else Z.of_N r.
(** field_t::insert and field_t::extract on values of the field's type
    (include/msg/field.hpp:422-439). *)
Definition insert_value (es : N) (f : mfield) (v : Z) (st : list N) : outcome (list N) :=
  field_insert es (f_ew f) (f_locs f) (to_raw (f_bytes f) v) st.
(** include/msg/field.hpp:422-439 *)
Definition extract_value_of (es : N) (signed : bool) (f : mfield) (st : list N) : outcome Z :=
  let! r := field_extract es (f_ew f) (f_locs f) st in Done (of_raw signed (f_bytes f) r).
(** field_t::can_hold (include/msg/field.hpp:470-472) for unsigned values: stdx::bit_width. *)
Definition can_hold (f : mfield) (v : N) : bool := N.size v <=? fold_right (fun a n => at_size a + n) 0 (f_ats f).

(** ** Fields of a single integer *)
(** field_t::extract and field_t::insert on an unsigned integer of [w] bits
    (include/msg/field.hpp:427-432, 441-446). *)
Definition in_integer (w : N) (f : mfield) : bool := fold_left (fun m a => N.max m (a_msb a)) (f_ats f) 0 <? w.
(** include/msg/field.hpp:427-432, 441-446 *)
Definition extract_int (w : N) (f : mfield) (u : N) : option (outcome N) :=
  if in_integer w f then Some (field_extract w (f_ew f) (f_locs f) [u]) else None.
(** include/msg/field.hpp:427-432, 441-446 *)
Definition insert_int (w : N) (f : mfield) (v u : N) : option (outcome N) :=
  if in_integer w f && mutable_ (f_default f) then
    Some (let! st := field_insert w (f_ew f) (f_locs f) v [u] in Done (hd 0 st))
  else None.

(** ** Structured bindings *)
(** std::tuple_size, std::tuple_element and get<I> (include/msg/message_destructure.hpp:12-26):
    auto [x0, x1, ...] = m. *)
Definition bindings (es : N) (d : list mfield) (st : list N) : list (option (outcome N)) :=
  map (fun f => m_get es d (f_name f) st) d.

(** ** Conditions on fields given by name *)
(** matcher_maker, mm_not_t, mm_and_t, mm_or_t, matcher_wrapper
    (include/msg/message.hpp:44-120) and field_name::in (include/msg/message.hpp:135-137). *)
Inductive maker :=
| ByName (name : nat) (o : relop) (v : Z)
| MNot (m : maker)
| MAnd (a b : maker)
| MOr (a b : maker)
| MIn (name : nat) (vs : list Z)
| Wrap (m : fexpr).

Section Makers.
(** The field types: number [i] stands for the type [ftab i], of value type [ftype i]. *)
Variable ftab : nat -> mfield.
Variable ftype : nat -> cty.

(** mp_find_if_q<fields_t, matching_name<Name>> (include/msg/message.hpp:48-54) *)
Definition find_name (ids : list nat) (name : nat) : option nat := find (fun i => Nat.eqb (f_name (ftab i)) name) ids.
(** include/msg/message.hpp:48-54 *)
Definition make_rel (ids : list nat) (name : nat) (o : relop) (v : Z) : option fexpr :=
  match find_name ids name with Some i => Some (Leaf (Rel i o v)) | None => None end.
(** (... or Ts::make_matcher()): a left fold; with no operand it is false, which is no matcher
    (include/msg/message.hpp:83-94). *)
Fixpoint or_makers (ids : list nat) (name : nat) (acc : fexpr) (vs : list Z) : option fexpr :=
  match vs with
  | [] => Some acc
  | v :: r => match make_rel ids name REq v with Some m => or_makers ids name (for_ ftype acc m) r | None => None end
  end.
(** make_matcher<Msg>() for a message whose fields_t is [ids]
    (include/msg/message.hpp:44-94) *)
Fixpoint make_matcher (ids : list nat) (m : maker) : option fexpr :=
  match m with
  | ByName name o v => make_rel ids name o v
  | MNot a => option_map (fnot ftype) (make_matcher ids a)
  | MAnd a b => match make_matcher ids a, make_matcher ids b with Some x, Some y => Some (fand ftype x y) | _, _ => None end
  | MOr a b => match make_matcher ids a, make_matcher ids b with Some x, Some y => Some (for_ ftype x y) | _, _ => None end
  | MIn name [] => None
  | MIn name (v :: r) => match make_rel ids name REq v with Some x => or_makers ids name x r | None => None end
  | Wrap x => Some x
  end.

(** extract_field<Field>(msg) (include/msg/field_matchers.hpp:134-141): by name on a message,
    in the field's own place on raw data. *)
Inductive incoming := Message (ids : list nat) (st : list N) | Raw (st : list N).
(** include/msg/field_matchers.hpp:134-141 *)
Definition is_signed (t : cty) : bool := match t with CInt _ s | CEnum _ s => s | CBool => false end.
(** include/msg/field_matchers.hpp:134-141 *)
Definition extract_field (es : N) (i : nat) (e : incoming) : Z :=
  match (match e with
         | Message ids st => match m_get es (map ftab ids) (f_name (ftab i)) st with Some o => o | None => OutOfFuel end
         | Raw st => field_extract es (f_ew (ftab i)) (f_locs (ftab i)) st
         end) with
  | Done r => of_raw (is_signed (ftype i)) (f_bytes (ftab i)) r
  | _ => 0%Z
  end.
End Makers.

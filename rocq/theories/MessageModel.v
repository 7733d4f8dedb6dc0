(** Model of messages (include/msg/message.hpp) on top of the field model.

    Field and message names are natural numbers (compared for equality only).
    A static_assert that fails, and any other refusal at compile time, is
    [None].  Simplifications: the 32-bit arithmetic on bit positions does not
    overflow (PlaceModel has it); environments (env_t) are in MsgEnvModel; field values are the raw
    bit patterns, so value equality is equality of bit patterns. *)
From Coq Require Import List NArith Bool Arith.
From Verif Require Import FieldModel FieldMatchersModel.
Import ListNotations.
Local Open Scope N_scope.

(** detail::with_default, with_const_default, without_default, uninitialized
    (include/msg/field.hpp:356-374). *)
Inductive fdefault :=
| DDefault (v : N)
| DConst (v : N)
| DWithout
| DUninit.

(** has_default_value and its value (include/msg/field.hpp:376-377). *)
Definition default_value (d : fdefault) : option N :=
  match d with DDefault v | DConst v => Some v | _ => None end.
(** initializable_t (include/msg/field.hpp:379-381). *)
Definition initializable (d : fdefault) : bool :=
  match d with DWithout => false | _ => true end.
(** is_mutable_value (include/msg/field.hpp:383-384). *)
Definition mutable_ (d : fdefault) : bool :=
  match d with DDefault _ | DWithout => true | _ => false end.

(** detail::field_t<Name, T, Default, M, Ats...> (include/msg/field.hpp:397-404); [f_bytes]
    is sizeof(T). *)
Record mfield := {
  f_name : nat;
  f_bytes : N;
  f_default : fdefault;
  f_match : fexpr;
  f_ats : list at_
}.
(** bit width of integral_type_for<T> (include/msg/field.hpp:216-230). *)
Definition raw_bits (bytes : N) : N :=
  if bytes <=? 1 then 8 else if bytes <=? 2 then 16 else if bytes <=? 4 then 32 else 64.
(** include/msg/field.hpp:216-230 *)
Definition f_ew (f : mfield) : N := raw_bits (f_bytes f).
(** include/msg/field.hpp:216-230 *)
Definition f_locs (f : mfield) : list loc := map at_loc (f_ats f).
(** The static_asserts of field_t (include/msg/field.hpp:411-414, 224-225). *)
Definition field_valid (f : mfield) : bool :=
  forallb at_valid (f_ats f) &&
  (fold_right (fun a n => at_size a + n) 0 (f_ats f) <=? 8 * f_bytes f) &&
  (f_bytes f <=? 8).

(** sort_key_t<Ats...> (include/msg/field.hpp:392-395): absent for an unlocated field. *)
Definition sort_key (f : mfield) : option N :=
  match f_ats f with
  | [] => None
  | a :: r => Some (fold_left (fun m b => N.min m (a_lsb b)) r (a_lsb a))
  end.
(** include/msg/field.hpp:392-395 *)
Definition locatable (f : mfield) : bool := match f_ats f with [] => false | _ => true end.
(** field_sort_fn (include/msg/message.hpp:301-302). *)
Definition key_lt (a b : mfield) : bool :=
  match sort_key a, sort_key b with Some x, Some y => x <? y | _, _ => false end.

(** boost::mp11::mp_sort: a stable sort by a strict order [lt]. *)
Section Sort.
Context {A : Type} (lt : A -> A -> bool).
(** include/msg/message.hpp:301-302 *)
Fixpoint sort_insert (x : A) (l : list A) : list A :=
  match l with
  | [] => [x]
  | y :: r => if lt y x then y :: sort_insert x r else x :: l
  end.
(** include/msg/message.hpp:301-302 *)
Fixpoint mp_sort (l : list A) : list A :=
  match l with [] => [] | x :: r => sort_insert x (mp_sort r) end.
End Sort.

(** boost::mp11::mp_unique_if with name_equal_fn (include/msg/message.hpp:304-310): keeps
    the first field of each name. *)
Definition has_name (n : nat) (f : mfield) : bool := Nat.eqb (f_name f) n.
(** include/msg/message.hpp:304-310 *)
Fixpoint unique_names (seen : list nat) (l : list mfield) : list mfield :=
  match l with
  | [] => []
  | f :: r =>
    if existsb (Nat.eqb (f_name f)) seen then unique_names seen r
    else f :: unique_names (f_name f :: seen) r
  end.
(** include/msg/message.hpp:304-310 *)
Definition unique_by_name (l : list mfield) : list mfield :=
  unique_names [] (mp_sort key_lt l).

(** A message is its canonical field list (message_without_unique_field_names,
    312-315) (include/msg/message.hpp:312-315). *)
Definition names_distinct (l : list mfield) : bool :=
  (fix go seen l := match l with
   | [] => true
   | f :: r => negb (existsb (Nat.eqb (f_name f)) seen) && go (f_name f :: seen) r
   end) [] l.
(** msg::message<Name, Fields...> (message_with_unique_field_names, include/msg/message.hpp:317-334);
    sorting needs every field to be located (two or more fields). *)
Definition message (l : list mfield) : option (list mfield) :=
  if names_distinct l && forallb locatable l && forallb field_valid l then Some (unique_by_name l) else None.
(** message::extension (include/msg/message.hpp:624-627). *)
Definition extension (news base : list mfield) : option (list mfield) :=
  if forallb locatable news && forallb field_valid news then Some (unique_by_name (news ++ base)) else None.

(** storage_size<Fields...>::in<T> (include/msg/message.hpp:189-193). *)
Definition storage_size (es : N) (fs : list mfield) : N :=
  fold_left N.max (map (fun f => field_extent es (f_locs f)) fs) 0.
(** message::fits_inside / msg_access::check (include/msg/message.hpp:201-211, 409-411) for
    a storage of [n] elements. *)
Definition fits_inside (es n : N) (fs : list mfield) : bool :=
  forallb (fun f => field_fits (es * n) (f_locs f)) fs.

(** msg_access::field_t: lookup by name (include/msg/message.hpp:233-234). *)
Definition find_field (n : nat) (fs : list mfield) : option mfield := find (has_name n) fs.

(** msg_access::get (include/msg/message.hpp:227-230). *)
Definition m_get (es : N) (fs : list mfield) (n : nat) (st : list N) : option (outcome N) :=
  match find_field n fs with
  | Some f => if field_fits (es * N.of_nat (length st)) (f_locs f)
              then Some (field_extract es (f_ew f) (f_locs f) st) else None
  | None => None
  end.

(** field_t::insert with the cast of set1 (include/msg/message.hpp:213-219, include/msg/field.hpp:434-439). *)
Definition set_field (es : N) (f : mfield) (v : N) (st : list N) : outcome (list N) :=
  field_insert es (f_ew f) (f_locs f) (v mod 2 ^ (8 * f_bytes f)) st.
(** field_t::insert_default (include/msg/field.hpp:448-453). *)
Definition set_default (es : N) (f : mfield) (st : list N) : outcome (list N) :=
  match default_value (f_default f) with
  | Some v => field_insert es (f_ew f) (f_locs f) v st
  | None => Done st
  end.

(** Static part of msg_access::set for one value (include/msg/message.hpp:201-219, include/msg/field.hpp:436-437). *)
Definition settable (es : N) (fs : list mfield) (n : N) (nv : nat * N) : bool :=
  match find_field (fst nv) fs with
  | Some f => mutable_ (f_default f) && field_fits (es * n) (f_locs f)
  | None => false
  end.
(** msg_access::set(r, vs...) (include/msg/message.hpp:241-244): left to right. *)
Fixpoint run_sets (es : N) (fs : list mfield) (vs : list (nat * N)) (st : list N) : outcome (list N) :=
  match vs with
  | [] => Done st
  | (n, v) :: r =>
    match find_field n fs with
    | Some f => let! st' := set_field es f v st in run_sets es fs r st'
    | None => OutOfFuel
    end
  end.
(** include/msg/message.hpp:241-244 *)
Definition m_set (es : N) (fs : list mfield) (vs : list (nat * N)) (st : list N) : option (outcome (list N)) :=
  if forallb (settable es fs (N.of_nat (length st))) vs then Some (run_sets es fs vs st) else None.
(** msg_access::set(r, fields...) (include/msg/message.hpp:236-239, 246-249). *)
Fixpoint run_defaults (es : N) (fs : list mfield) (st : list N) : outcome (list N) :=
  match fs with
  | [] => Done st
  | f :: r => let! st' := set_default es f st in run_defaults es r st'
  end.

(** owner_t() and owner_t(Vs...) (include/msg/message.hpp:494-523), with a storage of [n]
    elements: all fields initializable or supplied; storage starts zeroed (include/msg/message.hpp:563). *)
Definition all_initialized (fs : list mfield) (vs : list (nat * N)) : bool :=
  forallb (fun f => initializable (f_default f) || existsb (fun nv => Nat.eqb (fst nv) (f_name f)) vs) fs.
(** include/msg/message.hpp:563 *)
Definition construct (es : N) (n : nat) (fs : list mfield) (vs : list (nat * N)) : option (outcome (list N)) :=
  if fits_inside es (N.of_nat n) fs && all_initialized fs vs && forallb (settable es fs (N.of_nat n)) vs then
    Some (let! st := run_defaults es fs (repeat 0 n) in run_sets es fs vs st)
  else None.

(** owner_t(S const &s, Vs...) (include/msg/message.hpp:525-536): copy, then set values. *)
Definition copy_storage (n : nat) (s : list N) : list N :=
  firstn n s ++ repeat 0 (n - length s).
(** include/msg/message.hpp:525-536 *)
Definition construct_from (es : N) (n : nat) (fs : list mfield) (s : list N) (vs : list (nat * N)) : option (outcome (list N)) :=
  if fits_inside es (N.of_nat n) fs && forallb (settable es fs (N.of_nat n)) vs then
    Some (run_sets es fs vs (copy_storage n s))
  else None.

(** equiv (include/msg/message.hpp:476-479, 578-581): conjunction, left to right, stopping
    at the first difference. *)
Fixpoint equiv (es : N) (fs : list mfield) (a b : list N) : outcome bool :=
  match fs with
  | [] => Done true
  | f :: r =>
    let! x := field_extract es (f_ew f) (f_locs f) a in
    let! y := field_extract es (f_ew f) (f_locs f) b in
    if x =? y then equiv es r a b else Done false
  end.

(** field_t::shifted_by (include/msg/field.hpp:546-548), message::shifted_by (include/msg/message.hpp:405-407). *)
Definition shift_field (n : N) (f : mfield) : mfield :=
  {| f_name := f_name f; f_bytes := f_bytes f; f_default := f_default f; f_match := f_match f;
     f_ats := map (at_shift n) (f_ats f) |}.
(** include/msg/message.hpp:405-407 *)
Definition shift_msg (n : N) (m : list mfield) : list mfield := map (shift_field n) m.

(** msg_offsets / shifted_msgs / overlay / pack (include/msg/message.hpp:737-779), [A] the
    number of bits of AlignTo.  The trailing empty "end" message adds nothing. *)
Fixpoint shifted_from (A off : N) (ms : list (list mfield)) : list (list mfield) :=
  match ms with
  | [] => []
  | m :: r => shift_msg (off * A) m :: shifted_from A (off + storage_size A m) r
  end.
(** include/msg/message.hpp:737-779 *)
Definition shifted_msgs (A : N) (ms : list (list mfield)) : list (list mfield) := shifted_from A 0 ms.
(** include/msg/message.hpp:737-779 *)
Definition overlay (ms : list (list mfield)) : option (list mfield) := message (concat ms).
(** include/msg/message.hpp:737-779 *)
Definition pack (A : N) (ms : list (list mfield)) : option (list mfield) := overlay (shifted_msgs A ms).

(** detail::field_locator / relaxed_message (include/msg/message.hpp:781-820). *)
Definition default_located (f : mfield) : mfield :=
  {| f_name := f_name f; f_bytes := f_bytes f; f_default := f_default f; f_match := f_match f;
     f_ats := [ {| a_msb := 8 * f_bytes f - 1; a_lsb := 0 |} ] |}.
(** include/msg/message.hpp:781-820 *)
Definition size_gt (a b : mfield) : bool := f_bytes b <? f_bytes a.
(** include/msg/message.hpp:781-820 *)
Definition relaxed_message (l : list mfield) : option (list mfield) :=
  let located := filter locatable l in
  let autos := mp_sort size_gt (filter (fun f => negb (locatable f)) l) in
  match message located with
  | Some lm => pack 8 (lm :: map (fun f => [default_located f]) autos)
  | None => None
  end.

(** rename_field (include/msg/message.hpp:822-853). *)
Definition rename_field (m : list mfield) (old new : nat) : option (list mfield) :=
  let rest := filter (fun f => negb (has_name old f)) m in
  match filter (has_name old) m with
  | [] => None
  | f :: _ =>
    if existsb (has_name new) rest then None
    else message (rest ++ [ {| f_name := new; f_bytes := f_bytes f; f_default := f_default f;
                               f_match := f_match f; f_ats := f_ats f |} ])
  end.

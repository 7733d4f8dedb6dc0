(** Model of how what a service is given reaches matchers, indices and callables:
    call_with_message (include/msg/message.hpp:684-735), include/msg/callback.hpp, include/msg/handler.hpp,
    include/msg/detail/indexed_handler_common.hpp, include/msg/field_matchers.hpp, include/match/predicate.hpp, with
    the storages and handles of AccessModel.v.

    Simplifications: a service handles a std::array, an owner, or a view (not a
    span); a callable has at most one call operator and one call operator template
    taking the nexus; its template argument is not deducible; elements have one type,
    of [es] bits; a callable that takes no message, and extra arguments, are left
    out; a predicate is a function of the values of the fields it reads of what it
    gets; definitions are numbered, [dtab d] are the numbers of the field types of
    definition [d] in the table [ftab].  [None]: does not compile. *)
From Coq Require Import List NArith ZArith Bool Arith.
From Verif Require Import FieldModel MatchModel MatchSpec FieldMatchersModel FieldMatchersSpec MessageModel AccessModel HandlerModel.
Import ListNotations.
Local Open Scope N_scope.

(** Types of what is handed over: std::array<T, n> const &, view_t over a span of [n]
    elements (non-const if [mut]), owner_t of [n] elements
    (include/msg/message.hpp:684-735). *)
Inductive ty := TArray (n : nat) | TView (d n : nat) (mut : bool) | TOwner (d n : nat).
(** Parameters of callables and predicates: std::array, a view of a definition, an
    owner, [auto], [viewlike auto], [owninglike auto]; all by value, but an array
    parameter may be a reference to const (include/msg/message.hpp:684-735). *)
Inductive param := PArray (n : nat) | PView (d n : nat) (mut : bool) | POwner (d n : nat) | PAny | PAnyView | PAnyOwner.

(** Whether f(x) is well-formed, f with that parameter, x of that type: the implicit
    conversions of view_t (include/msg/message.hpp:421-445) - from any array, from any owner of
    the definition, from a view of at least as many elements if const elements are
    wanted - and none to owner_t (include/msg/message.hpp:503-540).  Those to a view are not constrained, so
    that one that does not compile still is chosen. *)
Definition accepts (p : param) (t : ty) : bool :=
  match p, t with
  | PArray n, TArray k => Nat.eqb n k
  | PView _ _ _, TArray _ => true
  | PView d n m, TView d' k m' => Nat.eqb d d' && ((Nat.eqb n k && Bool.eqb m m') || (negb m && Nat.leb n k))
  | PView d _ _, TOwner d' _ => Nat.eqb d d'
  | POwner d n, TOwner d' k => Nat.eqb d d' && Nat.eqb n k
  | PAny, _ => true
  | PAnyView, TView _ _ _ => true
  | PAnyOwner, TOwner _ _ => true
  | _, _ => false
  end.

(** The three ways: f(s), f(Msg::view_t{s}), f(Msg::owner_t{s})
    (include/msg/message.hpp:684-735). *)
Inductive how := AsIs | AsView | AsOwner.

(** What a callable does with its parameter: commands of AccessModel.v, one after the
    other, looking at what they give.  In them array 0 is what the service was given,
    handle 0 the parameter if it is a message (include/msg/message.hpp:684-735). *)
Inductive body := Stop | Then (c : command) (k : list observation -> body).
(** A callable: the parameters of operator() and of operator()<Nexus>
    (include/msg/message.hpp:684-735). *)
Record callable := { c_plain : option param; c_templ : option param; c_body : bool -> body }.
(** include/msg/message.hpp:684-735 *)
Record entry := { k_id : nat; k_msg : nat; k_matcher : fexpr; k_call : callable }.
(** include/msg/message.hpp:684-735 *)
Inductive happening := Called (id : nat) (saw : list observation) | Unclaimed | Mismatch (id : nat).

Section Call.
Variable es : N.
Variable ftab : nat -> mfield.
Variable ftype : nat -> cty.
Variable dtab : nat -> list nat.
Variable pkind : nat -> param.
Variable psem : nat -> (nat -> Z) -> bool.
(** include/msg/message.hpp:684-735 *)
Definition def (d : nat) : list mfield := map ftab (dtab d).

(** The types of Msg::view_t{s} and Msg::owner_t{s} (deduction guides,
    include/msg/message.hpp:589-618): a view of as many elements, const because [s] is; an owner
    of an array like it; of a view, an owner of the default size (include/msg/message.hpp:489). *)
Definition view_type (msg : nat) (t : ty) : option ty :=
  match t with
  | TArray n => Some (TView msg n false)
  | TView d n m => if Nat.eqb d msg then Some t else None
  | TOwner d n => if Nat.eqb d msg then Some (TView msg n false) else None
  end.
(** include/msg/message.hpp:489 *)
Definition owner_type (msg : nat) (t : ty) : option ty :=
  match t with
  | TArray n => Some (TOwner msg n)
  | TView d n m => if Nat.eqb d msg then Some (TOwner msg (N.to_nat (storage_size es (def msg)))) else None
  | TOwner d n => if Nat.eqb d msg then Some t else None
  end.
(** include/msg/message.hpp:489 *)
Definition type_as (msg : nat) (w : how) (t : ty) : option ty :=
  match w with AsIs => Some t | AsView => view_type msg t | AsOwner => owner_type msg t end.
(** Half of call_with_message: the first way that is well-formed
    (include/msg/message.hpp:684-735). *)
Definition way (msg : nat) (ok : ty -> bool) (t : ty) : option how :=
  find (fun w => match type_as msg w t with Some u => ok u | None => false end) [AsIs; AsView; AsOwner].

(** The state a call starts with: what was given is storage 0; an owner is const
    (include/msg/message.hpp:684-735). *)
Definition given (t : ty) (st : list N) : state :=
  {| heap := [st];
     vars := match t with
       | TArray _ => []
       | TView d n m => [{| h_def := def d; h_store := 0; h_extent := n; h_mut := m |}]
       | TOwner d n => [{| h_def := def d; h_store := 0; h_extent := n; h_mut := false |}]
       end |}.
(** include/msg/message.hpp:684-735 *)
Definition from (t : ty) : source := match t with TArray _ => FromArray 0 | _ => FromHandle 0 end.
(** Keeps the last handle (include/msg/message.hpp:684-735). *)
Definition only_last (r : option (outcome (state * list observation))) : option (outcome state) :=
  match r with
  | Some o => Some (let! p := o in Done {| heap := heap (fst p); vars := skipn (length (vars (fst p)) - 1) (vars (fst p)) |})
  | None => None
  end.
(** An object of type [u] made from the one in hand, of type [t]
    (include/msg/message.hpp:684-735). *)
Definition make (u t : ty) (s : state) : option (outcome state) :=
  match u with
  | TArray n => Some (Done s)
  | TView d n m =>
    match t, m with
    | TArray _, true => None                       (* a const array has no mutable span *)
    | _, _ => only_last (step es (View (def d) n m (from t) []) s)
    end
  | TOwner d n => only_last (step es (OwnerFrom (def d) n (from t) []) s)
  end.
(** include/msg/message.hpp:684-735 *)
Definition pass (msg : nat) (w : how) (t : ty) (st : list N) : option (outcome state) :=
  match w, type_as msg w t with
  | AsIs, _ => Some (Done (given t st))
  | _, Some u => make u t (given t st)
  | _, None => None
  end.
(** The parameter, made from what is passed; [auto] takes a copy
    (include/msg/message.hpp:684-735). *)
Definition param_type (p : param) (u : ty) : ty :=
  match p with PArray n => TArray n | PView d n m => TView d n m | POwner d n => TOwner d n | _ => u end.
(** include/msg/message.hpp:684-735 *)
Definition bind_param (p : param) (u : ty) (s : state) : option (outcome state) :=
  match p, u with
  | PAny, TArray _ => Some (Done {| heap := heap s ++ match heap s with st :: _ => [st] | [] => [] end; vars := vars s |})
  | _, _ => make (param_type p u) u s
  end.

(** What is read of an object of type [u] (include/msg/message.hpp:684-735). *)
Definition event_of (u : ty) (s : state) : incoming :=
  match u, vars s with
  | TArray _, _ => Raw (match heap s with st :: _ => st | [] => [] end)
  | (TView d _ _ | TOwner d _), h :: _ => Message (dtab d) (match span_of (heap s) h with Some st => st | None => [] end)
  | _, [] => Raw []
  end.

(** ** Matchers *)
(** include/match/predicate.hpp:12-33 *)
Fixpoint preds (m : fexpr) : list nat :=
  match m with
  | Leaf (Pred p) => [p]
  | And a b | Or a b => preds a ++ preds b
  | Not a => preds a
  | _ => []
  end.
(** include/msg/field_matchers.hpp:143-151 *)
Fixpoint rels (m : fexpr) : list nat :=
  match m with
  | Leaf (Rel f _ _) => [f]
  | And a b | Or a b => rels a ++ rels b
  | Not a => rels a
  | _ => []
  end.
(** operator() of the matchers: and, or, not and predicates are well-formed when their
    operands are (include/match/and.hpp:21-24, include/match/or.hpp:21-24, include/match/not.hpp:23-26, include/match/predicate.hpp:20-23);
    field matchers, always and never take anything (include/msg/field_matchers.hpp:148-151,
    include/match/constant.hpp:18-20, 39-41). *)
Definition matcher_takes (m : fexpr) (u : ty) : bool := forallb (fun p => accepts (pkind p) u) (preds m).
(** extract_field<Field> (include/msg/field_matchers.hpp:134-141) compiles: get by name, or in the
    field's own place. *)
Definition readable (e : incoming) (f : nat) : bool :=
  match e with
  | Message ids st => match m_get es (map ftab ids) (f_name (ftab f)) st with Some _ => true | None => false end
  | Raw st => field_fits (es * N.of_nat (length st)) (f_locs (ftab f))
  end.
(** A predicate called with the object in hand (include/match/predicate.hpp:20-23). *)
Definition ask (p : nat) (u : ty) (s : state) : option (outcome bool) :=
  match bind_param (pkind p) u s with
  | Some o => Some (let! s' := o in Done (psem p (fun i => extract_field ftab ftype es i (event_of (param_type (pkind p) u) s'))))
  | None => None
  end.
(** include/match/predicate.hpp:20-23 *)
Definition answer (o : option (outcome bool)) : bool := match o with Some (Done b) => b | _ => false end.
(** include/match/predicate.hpp:20-23 *)
Definition is_some {A} (o : option A) : bool := match o with Some _ => true | None => false end.
(** call_with_message<Msg>(matcher, data) (include/msg/callback.hpp:26-28, 35): predicates are
    pure, so that the order of evaluation is not seen. *)
Definition test (msg : nat) (m : fexpr) (t : ty) (st : list N) : option (outcome bool) :=
  match way msg (matcher_takes m) t with
  | None => None
  | Some w =>
    match pass msg w t st, type_as msg w t with
    | Some (Done s), Some u =>
      let e := event_of u s in
      if forallb (readable e) (rels m) && forallb (fun p => is_some (ask p u s)) (preds m)
      then Some (Done (eval (leaf_sem (fun i (_ : unit) => extract_field ftab ftype es i e) (fun p _ => answer (ask p u s))) m tt))
      else None
    | Some e, _ => Some (let! _ := e in Done false)
    | None, _ => None
    end
  end.

(** ** Callables *)
(** What was given is const, but for the elements under a mutable view
    (include/msg/message.hpp:344-351). *)
Definition writable (t : ty) : bool := match t with TView _ _ true => true | _ => false end.
(** include/msg/message.hpp:344-351 *)
Definition permitted (t : ty) (c : command) : bool :=
  match c with
  | Poke O _ _ | View _ _ true (FromArray O) _ => writable t
  | _ => true
  end.
(** include/msg/message.hpp:344-351 *)
Fixpoint exec (t : ty) (b : body) (s : state) : option (outcome (state * list observation)) :=
  match b with
  | Stop => Some (Done (s, []))
  | Then c k =>
    if permitted t c then
      match step es c s with
      | Some (Done (s', o)) =>
        match exec t (k o) s' with
        | Some q => Some (let! z := q in Done (fst z, o ++ snd z))
        | None => None
        end
      | Some e => Some e
      | None => None
      end
    else None
  end.
(** call_with_message<Msg, Nexus>(callable, data): which operator, and how
    (include/msg/message.hpp:684-735). *)
Definition choose (msg : nat) (c : callable) (t : ty) : option (bool * param * how) :=
  let half templ (o : option param) :=
    match o with
    | Some p => match way msg (accepts p) t with Some w => Some (templ, p, w) | None => None end
    | None => None
    end in
  match half false (c_plain c) with Some r => Some r | None => half true (c_templ c) end.
(** The state the body starts with (include/msg/message.hpp:684-735). *)
Definition entered (msg : nat) (p : param) (w : how) (t : ty) (st : list N) : option (outcome state) :=
  match pass msg w t st, type_as msg w t with
  | Some (Done s), Some u => bind_param p u s
  | Some e, _ => Some (let! s := e in Done s)
  | _, _ => None
  end.
(** The call: what the callable saw, and what was given as it is afterwards
    (include/msg/message.hpp:684-735). *)
Definition call (msg : nat) (c : callable) (t : ty) (st : list N) : option (outcome (list observation * list N)) :=
  match choose msg c t with
  | None => None
  | Some (templ, p, w) =>
    match entered msg p w t st with
    | Some (Done s) =>
      match exec t (c_body c templ) s with
      | Some o => Some (let! z := o in Done (snd z, match heap (fst z) with x :: _ => x | [] => [] end))
      | None => None
      end
    | Some e => Some (let! s := e in Done ([], []))
    | None => None
    end
  end.

(** ** Services *)
(** callback::handle for each of the entries (include/msg/handler.hpp:25-31, include/msg/callback.hpp:30-47,
    include/msg/detail/indexed_handler_common.hpp:54-56), each testing [m] on what is there by then. *)
Fixpoint run_entries (t : ty) (l : list (fexpr * entry)) (st : list N) (found : bool) : option (outcome (list happening * list N * bool)) :=
  match l with
  | [] => Some (Done ([], st, found))
  | (m, k) :: r =>
    match test (k_msg k) m t st with
    | Some (Done true) =>
      match call (k_msg k) (k_call k) t st with
      | Some (Done (saw, st')) =>
        match run_entries t r st' true with
        | Some o => Some (let! z := o in Done (Called (k_id k) saw :: fst (fst z), snd (fst z), snd z))
        | None => None
        end
      | Some e => Some (let! _ := e in Done ([], [], false))
      | None => None
      end
    | Some (Done false) => run_entries t r st found
    | Some e => Some (let! _ := e in Done ([], [], false))
    | None => None
    end
  end.
(** include/msg/handler.hpp:25-40 *)
Definition finish (complaint : list happening) (r : option (outcome (list happening * list N * bool))) : option (outcome (list happening * list N * bool)) :=
  match r with
  | Some o => Some (let! z := o in
      let '(evs, st, found) := z in Done (if found then evs else evs ++ complaint, st, found))
  | None => None
  end.
(** handler::handle (include/msg/handler.hpp:25-40) *)
Definition serve (t : ty) (ks : list entry) (st : list N) : option (outcome (list happening * list N * bool)) :=
  finish (Unclaimed :: map (fun k => Mismatch (k_id k)) ks) (run_entries t (map (fun k => (k_matcher k, k)) ks) st false).

(** index::operator() (include/msg/detail/indexed_handler_common.hpp:23-29): Field::extract, in the
    field's own place, of an array or of the data() of a message. *)
Definition data_of (t : ty) (st : list N) : list N := match t with TArray _ => st | TView _ n _ | TOwner _ n => firstn n st end.
(** include/msg/detail/indexed_handler_common.hpp:23-29 *)
Definition indexed_value (t : ty) (f : nat) (st : list N) : Z := extract_field ftab ftype es f (Raw (data_of t st)).
(** include/msg/detail/indexed_handler_common.hpp:23-29 *)
Definition selected (t : ty) (fs : list nat) (ks : list entry) (st : list N) : HandlerModel.bits :=
  candidates (indexed_value t) fs (map (fun k => {| cb_id := k_id k; cb_matcher := k_matcher k |}) ks) st.
(** include/msg/detail/indexed_handler_common.hpp:23-29 *)
Fixpoint pick (fs : list nat) (cand : HandlerModel.bits) (i : nat) (ks : list entry) : list (fexpr * entry) :=
  match ks with
  | [] => []
  | k :: r => if cand i then (remove_terms ftype fs (k_matcher k), k) :: pick fs cand (S i) r else pick fs cand (S i) r
  end.
(** indexed_handler::handle (include/msg/detail/indexed_handler_common.hpp:49-64): the candidates are
    found once, before any callable runs. *)
Definition serve_terms (fs : list nat) (t : ty) (ks : list entry) (st : list N) : option (outcome (list happening * list N * bool)) :=
  finish [Unclaimed] (run_entries t (pick fs (selected t fs ks st) 0 ks) st false).
(** separate_sum_terms (include/msg/detail/indexed_builder_common.hpp:134-141, include/msg/detail/separate_sum_terms.hpp:17-42):
    one entry for each product term, with the same callable. *)
Definition cb_of (k : entry) : callback leaf := {| cb_id := k_id k; cb_matcher := k_matcher k |}.
(** include/msg/detail/separate_sum_terms.hpp:17-42 *)
Definition split_entry (k : entry) : list entry :=
  map (fun c => {| k_id := cb_id c; k_msg := k_msg k; k_matcher := cb_matcher c; k_call := k_call k |})
    (separate_sum_terms leaf_eqb (leaf_implies ftype) leaf_neg (cb_of k)).
(** include/msg/detail/indexed_handler_common.hpp:49-64 *)
Definition serve_indexed (fs : list nat) (t : ty) (ks : list entry) (st : list N) : option (outcome (list happening * list N * bool)) :=
  serve_terms fs t (flat_map split_entry ks) st.
End Call.

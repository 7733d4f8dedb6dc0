(** What owners, views and conditions on fields are meant to do: storages are
    sequences of bits, a value of a field is the number whose bits stand in the
    field's places. *)
From Coq Require Import List NArith ZArith Bool Arith.
From Verif Require Import FieldModel FieldSpec MatchModel MatchSpec FieldMatchersModel FieldMatchersSpec MessageModel MessageSpec AccessModel.
Import ListNotations.
Local Open Scope N_scope.

(** ** Storages *)
Definition bits := N -> bool.
(** A storage: its number of elements and its bits. *)
Definition storage := (nat * bits)%type.

(** Bit [k] after a value is put in a field. *)
Definition written (f : mfield) (v : N) (b : bits) : bits :=
  fun k => match place (f_locs f) v k with Some x => x | None => b k end.
(** The number whose bits stand in the field's places. *)
Definition holds_value (b : bits) (f : mfield) (v : N) : Prop :=
  v < 2 ^ width f /\ forall k x, place (f_locs f) v k = Some x -> b k = x.
(** Values given by name, one after the other. *)
Fixpoint written_all (d : list mfield) (vs : list (nat * N)) (b : bits) : bits :=
  match vs with
  | [] => b
  | (n, v) :: r => written_all d r (match find (fun f => Nat.eqb (f_name f) n) d with Some f => written f v b | None => b end)
  end.
(** Defaults in all the fields that have one. *)
Definition defaulted (d : list mfield) (b : bits) : bits :=
  fold_left (fun b f => match default_of (f_default f) with Some v => written f v b | None => b end) d b.

(** ** Programs *)
Record astate := { stores : list storage; names : list handle }.
Definition change (i : nat) (g : bits -> bits) (l : list storage) : list storage :=
  match nth_error l i with Some (n, b) => put_nth i (n, g b) l | None => l end.
(** The storage and the number of elements seen through a source. *)
Definition seen_by (a : astate) (src : source) : nat * nat :=
  match src with
  | FromArray i => (i, match nth_error (stores a) i with Some (n, _) => n | None => O end)
  | FromHandle v => match nth_error (names a) v with Some h => (h_store h, h_extent h) | None => (O, O) end
  end.
Definition bits_of (a : astate) (i : nat) : bits := match nth_error (stores a) i with Some (_, b) => b | None => fun _ => false end.

Section Effects.
Variable es : N.
(** What a command does to the storages and what it declares. *)
Definition effect (c : command) (a : astate) : astate :=
  match c with
  | Array st => {| stores := stores a ++ [(length st, N.testbit (image es st))]; names := names a |}
  | Poke i j v =>
    {| stores := change i (fun b k => if (es * N.of_nat j <=? k) && (k <? es * N.of_nat (S j)) then N.testbit v (k - es * N.of_nat j) else b k) (stores a);
       names := names a |}
  | Owner d n vs =>
    {| stores := stores a ++ [(n, written_all d vs (defaulted d (fun _ => false)))];
       names := names a ++ [{| h_def := d; h_store := length (stores a); h_extent := n; h_mut := true |}] |}
  | OwnerFrom d n src vs =>
    let (i, k) := seen_by a src in
    {| stores := stores a ++ [(n, written_all d vs (fun q => (q <? es * N.of_nat (Nat.min n k)) && bits_of a i q))];
       names := names a ++ [{| h_def := d; h_store := length (stores a); h_extent := n; h_mut := true |}] |}
  | View d n mut src vs =>
    let (i, _) := seen_by a src in
    {| stores := change i (written_all d vs) (stores a);
       names := names a ++ [{| h_def := d; h_store := i; h_extent := n; h_mut := mut |}] |}
  | Set_ v vs =>
    match nth_error (names a) v with
    | Some h => {| stores := change (h_store h) (written_all (h_def h) vs) (stores a); names := names a |}
    | None => a
    end
  | Get _ _ | Equivalent _ _ => a
  end.
(** What a command shows. *)
Definition shows (c : command) (a : astate) (o : list observation) : Prop :=
  match c with
  | Get v n =>
    exists h f x, nth_error (names a) v = Some h /\ In f (h_def h) /\ f_name f = n /\
      holds_value (bits_of a (h_store h)) f x /\ o = [Value x]
  | Equivalent v w =>
    exists h g r, nth_error (names a) v = Some h /\ nth_error (names a) w = Some g /\ o = [Same r] /\
      (r = true <-> forall f, In f (h_def h) -> forall x, holds_value (bits_of a (h_store h)) f x <-> holds_value (bits_of a (h_store g)) f x)
  | _ => o = []
  end.
Fixpoint effects (p : list command) (a : astate) : astate :=
  match p with [] => a | c :: r => effects r (effect c a) end.
Inductive all_shown : list command -> astate -> list observation -> Prop :=
| shown_nil a : all_shown [] a []
| shown_cons c r a o q : shows c a o -> all_shown r (effect c a) q -> all_shown (c :: r) a (o ++ q).

(** The definitions used: distinct names, no overlapping fields, which lie within
    the elements given (the library's own check is not enough, see C12). *)
Definition command_good (c : command) : Prop :=
  match c with
  | Owner d n _ | OwnerFrom d n _ _ | View d n _ _ _ => msg_good d /\ fields_fit (es * N.of_nat n) d
  | _ => True
  end.
(** Comparisons are of messages of one definition (other comparisons do not compile). *)
Definition compares_alike (vs : list handle) (c : command) : Prop :=
  match c with
  | Equivalent v w => match nth_error vs v, nth_error vs w with Some h, Some g => h_def h = h_def g | _, _ => True end
  | _ => True
  end.
Fixpoint all_alike (p : list command) (a : astate) : Prop :=
  match p with [] => True | c :: r => compares_alike (names a) c /\ all_alike r (effect c a) end.
End Effects.
Definition empty : astate := {| stores := []; names := [] |}.

(** The storages a program writes to through a handle or directly. *)
Definition writes_to (s : state) (c : command) (i : nat) : Prop :=
  match c with
  | Poke j _ _ => j = i
  | Set_ v _ => exists h, nth_error (vars s) v = Some h /\ h_store h = i
  | View _ _ true src (_ :: _) =>
    match src with FromArray j => j = i | FromHandle v => exists h, nth_error (vars s) v = Some h /\ h_store h = i end
  | _ => False
  end.

(** ** Conditions on fields given by name *)
Section Conditions.
Variable value : nat -> Z.           (* the value of the field of each name *)
Variable other : fexpr -> Prop.      (* the meaning of matchers given as such *)
Fixpoint condition (m : maker) : Prop :=
  match m with
  | ByName n o v => rel_holds o (value n) v
  | MNot a => ~ condition a
  | MAnd a b => condition a /\ condition b
  | MOr a b => condition a \/ condition b
  | MIn n vs => In (value n) vs
  | Wrap x => other x
  end.
End Conditions.
(** The names a condition mentions, and its constants with their names. *)
Fixpoint names_in (m : maker) : list nat :=
  match m with
  | ByName n _ _ | MIn n _ => [n]
  | MNot a => names_in a
  | MAnd a b | MOr a b => names_in a ++ names_in b
  | Wrap _ => []
  end.

(** ** Typed values *)
(** The integer of a type of [bytes] bytes a bit pattern stands for (two's
    complement). *)
Definition typed (signed : bool) (bytes r : N) : Z :=
  if signed then ((Z.of_N r + 2 ^ (8 * Z.of_N bytes - 1)) mod 2 ^ (8 * Z.of_N bytes) - 2 ^ (8 * Z.of_N bytes - 1))%Z
  else Z.of_N r.
(** The integers of such a type. *)
Definition of_type (signed : bool) (bytes : N) (v : Z) : Prop :=
  if signed then (- 2 ^ (8 * Z.of_N bytes - 1) <= v < 2 ^ (8 * Z.of_N bytes - 1))%Z
  else (0 <= v < 2 ^ (8 * Z.of_N bytes))%Z.
(** The value type of a field goes with its size; a bool takes one bit. *)
Definition type_fits (t : cty) (f : mfield) : Prop :=
  match t with
  | CInt w _ | CEnum w _ => w = (8 * Z.of_N (f_bytes f))%Z /\ 0 < f_bytes f
  | CBool => f_bytes f = 1 /\ width f <= 1
  end.
Definition signed_type (t : cty) : bool := match t with CInt _ s => s | CEnum _ s => s | CBool => false end.

(** Conditions without negation. *)
Fixpoint plain (m : maker) : Prop :=
  match m with
  | ByName _ RNe _ | MNot _ => False
  | MAnd a b | MOr a b => plain a /\ plain b
  | _ => True
  end.
(** Every constant of a condition satisfies a predicate of the name and of whether
    it is compared for equality. *)
Fixpoint constants (P : nat -> bool -> Z -> Prop) (m : maker) : Prop :=
  match m with
  | ByName n o v => P n (match o with REq | RNe => true | _ => false end) v
  | MNot a => constants P a
  | MAnd a b | MOr a b => constants P a /\ constants P b
  | MIn n vs => Forall (P n true) vs
  | Wrap _ => True
  end.
Fixpoint wrapped (P : fexpr -> Prop) (m : maker) : Prop :=
  match m with
  | ByName _ _ _ | MIn _ _ => True
  | MNot a => wrapped P a
  | MAnd a b | MOr a b => wrapped P a /\ wrapped P b
  | Wrap x => P x
  end.
Fixpoint no_empty_in (m : maker) : Prop :=
  match m with
  | MIn _ [] => False
  | MNot a => no_empty_in a
  | MAnd a b | MOr a b => no_empty_in a /\ no_empty_in b
  | _ => True
  end.

(** ** Values of the fields of what comes in *)
Section Incoming.
Variable ftab : nat -> mfield.
Variable ftype : nat -> cty.
Variable es : N.
(** The table has no other field type of a name of the message. *)
Definition names_apart (ids : list nat) : Prop := forall i j, In j ids -> f_name (ftab i) = f_name (ftab j) -> i = j.
(** The typed value of the field of a name. *)
Definition value_of (ids : list nat) (st : list N) (n : nat) : Z :=
  match find (fun i => Nat.eqb (f_name (ftab i)) n) ids with
  | Some i => typed (signed_type (ftype i)) (f_bytes (ftab i)) (value_in es st (ftab i))
  | None => 0%Z
  end.
Definition storage_of (e : incoming) : list N := match e with Message _ st => st | Raw st => st end.
Definition carries (ids : list nat) (e : incoming) : Prop :=
  storage_ok es (storage_of e) /\ fields_fit (nbits es (storage_of e)) (map ftab ids) /\
  match e with Message ids' _ => ids' = ids | Raw _ => True end.
(** The constants of a condition are values of the field's type; the second form:
    and those compared for equality are one per name. *)
Definition consts_in_range (ids : list nat) (n : nat) (eq : bool) (v : Z) : Prop := forall i, In i ids -> f_name (ftab i) = n -> in_range (ftype i) v.
Definition consts_one (ids : list nat) (c : nat -> Z) (n : nat) (eq : bool) (v : Z) : Prop :=
  (forall i, In i ids -> f_name (ftab i) = n -> in_range (ftype i) v) /\ (eq = true -> v = c n).
Definition class_one (c : nat -> Z) (x : fexpr) : Prop :=
  all_leaves (fun l => leaf_in_range ftype l /\ one_eq_constant (fun i => c (f_name (ftab i))) l) x.
(** Matchers without negation and !=. *)
Fixpoint negation_free (P : leaf -> Prop) (m : fexpr) : Prop :=
  match m with
  | Leaf l => P l
  | Always | Never => True
  | And a b | Or a b => negation_free P a /\ negation_free P b
  | Not _ => False
  end.
Definition class_plain (x : fexpr) : Prop := negation_free (fun l => leaf_in_range ftype l /\ not_ne l) x.
End Incoming.

(** ** Which commands compile *)
(** Values may be given to the fields of the definition that are not const and not
    left uninitialized. *)
Definition givable (d : list mfield) (vs : list (nat * N)) : Prop :=
  forall n v, In (n, v) vs -> exists f, In f d /\ f_name f = n /\
    match f_default f with DDefault _ | DWithout => True | DConst _ | DUninit => False end.
Definition source_known (s : state) (src : source) (k : nat) (m : bool) : Prop :=
  match src with
  | FromArray i => exists st, nth_error (heap s) i = Some st /\ k = length st /\ m = true
  | FromHandle v => exists h, nth_error (vars s) v = Some h /\ k = h_extent h /\ m = h_mut h
  end.
Definition allowed (es : N) (s : state) (c : command) : Prop :=
  match c with
  | Array st => forall e, In e st -> e < 2 ^ es
  | Poke i j _ => exists st, nth_error (heap s) i = Some st /\ (j < length st)%nat
  | Owner d _ vs => (forall f, In f d -> f_default f = DWithout -> In (f_name f) (map fst vs)) /\ givable d vs
  | OwnerFrom d _ src vs => (exists k m, source_known s src k m) /\ givable d vs
  | View d n mut src vs => exists k m, source_known s src k m /\ (n <= k)%nat /\ givable d vs /\ if mut then m = true else vs = []
  | Set_ v vs => exists h, nth_error (vars s) v = Some h /\ h_mut h = true /\ givable (h_def h) vs
  | Get v n => exists h, nth_error (vars s) v = Some h /\ In n (map f_name (h_def h))
  | Equivalent v w => nth_error (vars s) v <> None /\ nth_error (vars s) w <> None
  end.

(** Model of the dynamic interrupt controller used from several threads
    (include/interrupt/dynamic_controller.hpp:333-530, include/interrupt/impl.hpp:12-26): the
    operations of IrqModel one access to memory or hardware at a time.

    All operations but reset, and the reading of an enable field by a service
    routine, are inside critical sections of one mutex (conc::
    call_in_critical_section<mutex_t>, include/interrupt/manager.hpp:69), which one thread at a time
    is in. A thread is anything that runs by itself: a task, a core, an interrupt
    service routine.

    Simplifications: as in IrqModel; each of the three bitsets of enables is
    loaded and stored as a whole; is_on for one interrupt is one access. *)
From Coq Require Import String Bool Arith List NArith.
From Verif Require Import IrqModel.
Import ListNotations.
Local Open Scope nat_scope.

(** The bitsets (include/interrupt/dynamic_controller.hpp:258-264). *)
Inductive kind := KResource | KFlow | KName.
(** include/interrupt/dynamic_controller.hpp:258-264 *)
Definition kind_of (t : item) : kind := match t with Resource _ => KResource | Flow _ => KFlow | Name _ => KName end.
(** Equality of the above: include/interrupt/dynamic_controller.hpp:258-264 *)
Definition kind_eqb (a b : kind) : bool := match a, b with KResource, KResource | KFlow, KFlow | KName, KName => true | _, _ => false end.
(** What a thread keeps: a bitset, the value computed for a register, the new and
    the exchanged shadow value, and the answer of a read
    (include/interrupt/dynamic_controller.hpp:333-383). *)
Record locals := { v_bits : item -> bool; v_value : N; v_new : N; v_old : N; v_read : bool }.
(** include/interrupt/dynamic_controller.hpp:333-383 *)
Definition no_locals : locals := {| v_bits := fun _ => false; v_value := 0; v_new := 0; v_old := 0; v_read := false |}.
(** include/interrupt/dynamic_controller.hpp:333-383 *)
Inductive micro :=
| LoadBits (k : kind)
| StoreBit (t : item) (v : bool)
| StoreBits (k : kind) (f : item -> bool)
| ZeroValue
| Compute (x : irq)
| LoadShadow (g : nat) (mask : N)
| ExchangeShadow (g : nat)
| StoreShadow (g : nat)
| WriteChanged (g : nat)
| WriteAlways (g : nat)
| ZeroShadow (g : nat)
| MarkShadow (g : nat) (mask : N)
| ReadField (f : nat).

Section Steps.
Variables (h : hal) (r : root).
(** include/interrupt/dynamic_controller.hpp:333-383 *)
Definition with_shadow (s : state) (g : nat) (v : N) : state :=
  {| enables := enables s; shadow := set_reg (shadow s) g v; registers := registers s; writes := writes s |}.
(** Hal::write(reg, shadow_value): the shadow value is read again
    (include/interrupt/dynamic_controller.hpp:333-383). *)
Definition write_reg (s : state) (g : nat) : state :=
  {| enables := enables s; shadow := shadow s; registers := set_reg (registers s) g (shadow s g); writes := (g, shadow s g) :: writes s |}.
(** include/interrupt/dynamic_controller.hpp:333-383 *)
Definition micro_step (m : micro) (sl : state * locals) : state * locals :=
  let (s, l) := sl in
  match m with
  | LoadBits k => (s, {| v_bits := enables s; v_value := v_value l; v_new := v_new l; v_old := v_old l; v_read := v_read l |})
  | StoreBit t v => (with_enables s (fun u => if kind_eqb (kind_of u) (kind_of t) then set_item (v_bits l) t v u else enables s u), l)
  | StoreBits k f => (with_enables s (fun u => if kind_eqb (kind_of u) k then f u else enables s u), l)
  | ZeroValue => (s, {| v_bits := v_bits l; v_value := 0; v_new := v_new l; v_old := v_old l; v_read := v_read l |})
  | Compute x => (s, if is_on (enables s) x then {| v_bits := v_bits l; v_value := N.lor (v_value l) (mask_for h x); v_new := v_new l; v_old := v_old l; v_read := v_read l |} else l)
  | LoadShadow g mask => (s, {| v_bits := v_bits l; v_value := v_value l; v_new := N.lor (N.ldiff (shadow s g) mask) (v_value l); v_old := v_old l; v_read := v_read l |})
  | ExchangeShadow g => (with_shadow s g (v_new l), {| v_bits := v_bits l; v_value := v_value l; v_new := v_new l; v_old := shadow s g; v_read := v_read l |})
  | StoreShadow g => (with_shadow s g (v_new l), l)
  | WriteChanged g => ((if N.eqb (v_new l) (v_old l) then s else write_reg s g), l)
  | WriteAlways g => (write_reg s g, l)
  | ZeroShadow g => (with_shadow s g 0%N, l)
  | MarkShadow g mask => (with_shadow s g (N.lor (shadow s g) mask), l)
  | ReadField f => (s, {| v_bits := v_bits l; v_value := v_value l; v_new := v_new l; v_old := v_old l; v_read := negb (N.eqb (N.land (registers s (reg_of h f)) (mask_of h f)) 0) |})
  end.
(** enable_one, disable_one (include/interrupt/dynamic_controller.hpp:266-291) *)
Definition set_steps (v : bool) (ts : list item) : list micro :=
  flat_map (fun t => if known r t then [LoadBits (kind_of t); StoreBit t v] else []) ts.
(** update (include/interrupt/dynamic_controller.hpp:356-383) for one register, force_write (include/interrupt/dynamic_controller.hpp:342-346), write_if_changed
    (include/interrupt/dynamic_controller.hpp:348-353) *)
Definition update_steps_of (force : bool) (xs : list irq) (g : nat) : list micro :=
  let group := filter (in_register h g) xs in
  ZeroValue :: map Compute group ++ LoadShadow g (mask_all h group) :: (if force then [StoreShadow g; WriteAlways g] else [ExchangeShadow g; WriteChanged g]).
(** include/interrupt/dynamic_controller.hpp:348-353 *)
Definition update_steps (force : bool) (xs : list irq) : list micro := flat_map (update_steps_of force xs) (registers_of h xs).
(** reset_internal_state (include/interrupt/dynamic_controller.hpp:395-414) and set_internal_state (include/interrupt/dynamic_controller.hpp:417-433) *)
Definition init_steps (active : item -> bool) (already : irq -> bool) : list micro :=
  let potential := filter has_enable_field (descendants r) in
  [StoreBits KResource (fun t => known r t && active t); StoreBits KFlow (fun t => known r t && active t); StoreBits KName (fun t => known r t)] ++
  map ZeroShadow (registers_of h potential) ++
  flat_map (fun x => match register_of h x with Some g => [MarkShadow g (mask_for h x)] | None => [] end) (filter already (descendants r)) ++
  update_steps false (filter (fun x => negb (already x)) potential).
(** What is unknown and not to be ignored does not compile
    (include/interrupt/dynamic_controller.hpp:417-433). *)
Definition accepted (o : operation) : bool :=
  match o with
  | Switch _ _ i ts => i || forallb (known r) ts
  | SwitchNames _ i ns => i || forallb (known r) (map Name ns)
  | _ => true
  end.
(** include/interrupt/dynamic_controller.hpp:417-433 *)
Definition steps_of (o : operation) : list micro :=
  match o with
  | Switch v p _ ts => set_steps v ts ++ update_steps false (affected r p ts)
  | SwitchNames v _ ns => set_steps v (map Name ns) ++ update_steps false (affected_by_name r ns)
  | Refresh a => update_steps true (filter has_enable_field (if a then descendants r else r))
  | Reset => [StoreBits KResource (fun _ => false); StoreBits KFlow (fun _ => false); StoreBits KName (fun _ => false)] ++ update_steps true (filter has_enable_field (descendants r))
  | Init a al => init_steps a al
  end.

(** What a thread does: operations of the controller, and reads of enable fields by
    service routines (include/interrupt/impl.hpp:16-19). *)
Inductive action := Op (o : operation) | ReadEnable (f : nat).
(** include/interrupt/impl.hpp:16-19 *)
Definition action_steps (a : action) : list micro := match a with Op o => steps_of o | ReadEnable f => [ReadField f] end.
(** reset (include/interrupt/dynamic_controller.hpp:439-448) has no critical section. *)
Definition locked (a : action) : bool := match a with Op Reset => false | _ => true end.

(** include/interrupt/dynamic_controller.hpp:333-530 *)
Inductive phase := Out | In_ (a : action) (l : locals) (rest : list micro).
(** include/interrupt/dynamic_controller.hpp:333-530 *)
Record thread := { t_phase : phase; t_todo : list action }.
(** [answers]: the reads answered so far, by thread, the latest first
    (include/interrupt/dynamic_controller.hpp:333-530) *)
Record system := { shared : state; mutex : option nat; threads : nat -> thread; answers : list (nat * nat * bool) }.
(** include/interrupt/dynamic_controller.hpp:333-530 *)
Definition set_thread (s : system) (t : nat) (x : thread) : nat -> thread := fun u => if u =? t then x else threads s u.
(** include/interrupt/dynamic_controller.hpp:333-530 *)
Definition answer (t : nat) (a : action) (l : locals) (as_ : list (nat * nat * bool)) : list (nat * nat * bool) :=
  match a with ReadEnable f => (t, f, v_read l) :: as_ | Op _ => as_ end.
(** include/interrupt/dynamic_controller.hpp:333-530 *)
Inductive tstep (t : nat) (s : system) : system -> Prop :=
| step_enter a q : threads s t = {| t_phase := Out; t_todo := a :: q |} -> (locked a = true -> mutex s = None) ->
    tstep t s {| shared := shared s; mutex := if locked a then Some t else mutex s; threads := set_thread s t {| t_phase := In_ a no_locals (action_steps a); t_todo := q |}; answers := answers s |}
| step_micro a l m ms q : threads s t = {| t_phase := In_ a l (m :: ms); t_todo := q |} ->
    tstep t s {| shared := fst (micro_step m (shared s, l)); mutex := mutex s;
      threads := set_thread s t {| t_phase := In_ a (snd (micro_step m (shared s, l))) ms; t_todo := q |}; answers := answers s |}
| step_leave a l q : threads s t = {| t_phase := In_ a l []; t_todo := q |} ->
    tstep t s {| shared := shared s; mutex := if locked a then None else mutex s; threads := set_thread s t {| t_phase := Out; t_todo := q |}; answers := answer t a l (answers s) |}.
(** include/interrupt/dynamic_controller.hpp:333-530 *)
Definition start (s0 : state) (prog : nat -> list action) : system :=
  {| shared := s0; mutex := None; threads := fun t => {| t_phase := Out; t_todo := prog t |}; answers := [] |}.
(** include/interrupt/dynamic_controller.hpp:333-530 *)
Inductive reachable (s0 : state) (prog : nat -> list action) : system -> Prop :=
| reach_start : reachable s0 prog (start s0 prog)
| reach_step s t s' : reachable s0 prog s -> tstep t s s' -> reachable s0 prog s'.
End Steps.

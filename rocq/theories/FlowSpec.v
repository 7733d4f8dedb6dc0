(** Specification of flows. *)
From Coq Require Import String Bool Arith List Permutation Relations.
From Verif Require Import FlowModel.
Import ListNotations.

(** Any container: popping takes some element out of a non-empty set, and
    enumeration visits each element once. *)
Definition pops_some {K} (pops : nat -> list K -> option (K * list K)) : Prop :=
  forall t l, match pops t l with None => l = [] | Some (x, r) => Permutation l (x :: r) end.
Definition enumerates {K} (enum : nat -> list K -> list K) : Prop := forall t l, Permutation (enum t l) l.

(** [a] comes before [b] in the list. *)
Definition before {A} (l : list A) (a b : A) : Prop := exists l1 l2 l3, l = l1 ++ a :: l2 ++ b :: l3.

(** ** What a description says *)
(** The steps a sub-graph starts and ends with, mentions, and the pairs it puts
    in sequence (under a condition). *)
Inductive starts_with : subgraph -> leaf -> Prop :=
| sw_leaf l : starts_with (Leaf l) l
| sw_seq l r v c x : starts_with l x -> starts_with (Seq l r v c) x
| sw_par_l l r v x : starts_with l x -> starts_with (Par l r v) x
| sw_par_r l r v x : starts_with r x -> starts_with (Par l r v) x.
Inductive ends_with : subgraph -> leaf -> Prop :=
| ew_leaf l : ends_with (Leaf l) l
| ew_seq l r v c x : ends_with r x -> ends_with (Seq l r v c) x
| ew_par_l l r v x : ends_with l x -> ends_with (Par l r v) x
| ew_par_r l r v x : ends_with r x -> ends_with (Par l r v) x.
(** [part g h]: [h] occurs in [g]. *)
Inductive part : subgraph -> subgraph -> Prop :=
| part_self g : part g g
| part_seq_l l r v c h : part l h -> part (Seq l r v c) h
| part_seq_r l r v c h : part r h -> part (Seq l r v c) h
| part_par_l l r v h : part l h -> part (Par l r v) h
| part_par_r l r v h : part r h -> part (Par l r v) h.
Definition mentions (g : subgraph) (l : leaf) : Prop := part g (Leaf l).
Definition in_sequence (b : builder) (c : cond) (x y : leaf) : Prop :=
  exists g l r v, In g b /\ part g (Seq l r v c) /\ ends_with l x /\ starts_with r y.
Definition step_mentioned (b : builder) (x : string) : Prop := exists g l, In g b /\ mentions g l /\ leaf_name l = x.
(** The declared order between step names. *)
Definition declared (b : builder) (x y : string) : Prop :=
  exists c p q, in_sequence b c p q /\ leaf_name p = x /\ leaf_name q = y.
Definition cyclic {A} (R : A -> A -> Prop) : Prop := exists x, clos_trans A R x x.

(** How often a description adds a step: a starred step once, a starred
    composite once for every step it mentions. *)
Fixpoint mentions_name (x : string) (g : subgraph) : bool :=
  match g with
  | Leaf l => String.eqb (leaf_name l) x
  | Seq l r _ _ | Par l r _ => mentions_name x l || mentions_name x r
  end.
Fixpoint times_added (x : string) (g : subgraph) : nat :=
  match g with
  | Leaf (LNode n) => if n_value n && String.eqb (n_name n) x then 1 else 0
  | Leaf (LRef _) => 0
  | Seq l r true _ | Par l r true => if mentions_name x g then 1 else 0
  | Seq l r false _ | Par l r false => times_added x l + times_added x r
  end.
Definition added (b : builder) (x : string) : nat := list_sum (map (times_added x) b).

(** Calls made by a run. *)
Definition calls (es : list event) : list nat := flat_map (fun e => match e with Call f => [f] | _ => [] end) es.

(** The steps a description adds, and whether the step was starred itself
    ([true]) or only as part of a starred composite. *)
Inductive adds : subgraph -> node -> bool -> Prop :=
| adds_leaf n : n_value n = true -> adds (Leaf (LNode n)) n true
| adds_seq_l l r c n o : adds l n o -> adds (Seq l r false c) n o
| adds_seq_r l r c n o : adds r n o -> adds (Seq l r false c) n o
| adds_par_l l r n o : adds l n o -> adds (Par l r false) n o
| adds_par_r l r n o : adds r n o -> adds (Par l r false) n o
| adds_seq_star l r c m : mentions (Seq l r true c) (LNode m) -> adds (Seq l r true c) (star_node m) (n_value m)
| adds_par_star l r m : mentions (Par l r true) (LNode m) -> adds (Par l r true) (star_node m) (n_value m).

(** A fragment [g] contributed under the conditions [cs]. *)
Inductive under : config -> list cond -> subgraph -> Prop :=
| under_fragment g : under (Fragment g) [] g
| under_when c body x cs g : In x body -> under x cs g -> under (When c body) (c :: cs) g.

(** What a flow is made of: its set of added steps and its sequences. *)
Definition occurrences (x : string) (l : list string) : nat := count_occ string_dec l x.

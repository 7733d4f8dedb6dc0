(** What a release header should be after a build. *)
From Coq Require Import String Bool Arith List.
From Verif Require Import ReleaseModel RelBuildModel.
Import ListNotations.
Local Open Scope string_scope.

(** The paths whose files matter for the header of [root]: those it includes, directly or
    not, whether there are such files or not. *)
Inductive looked_at (fs : files) (root : string) : string -> Prop :=
| l_root : looked_at fs root root
| l_include p ls target whole : looked_at fs root p -> file fs p = Some ls -> In (Include target whole) ls -> looked_at fs root target.
(** The header is there and is what the script makes of the sources of now. *)
Definition up_to_date (root : string) (t : tree) : Prop :=
  exists m text, made t = Some (m, text) /\ printed (sources t) (version t) root = Some text.
(** Dependencies that a list of changes writes. *)
Definition writes (p : string) (c : change) : Prop := match c with Write q _ => q = p | _ => False end.
Definition touches (deps : list string) (cs : list change) : Prop := exists p, In p deps /\ Exists (writes p) cs.
Definition alter_all (cs : list change) (t : tree) : tree := fold_left alter cs t.
(** Rounds of changes, a build after each. *)
Definition rounds (deps : list string) (root : string) (t : tree) (rs : list (list change)) : tree :=
  fold_left (fun t cs => build deps root (alter_all cs t)) rs t.
(** Nothing that matters looks different. *)
Definition looks_same (root : string) (t t' : tree) : Prop :=
  version t' = version t /\ forall p, looked_at (sources t) root p -> file (sources t') p = file (sources t) p.
(** All dependencies are there at each build, and each round but the first writes a dependency,
    or changes nothing that matters. *)
Fixpoint noticed (deps : list string) (root : string) (first : bool) (t : tree) (rs : list (list change)) : Prop :=
  match rs with
  | [] => True
  | cs :: rs =>
    let t' := alter_all cs t in
    (forall p, In p deps -> file (sources t') p <> None) /\ (first = true \/ touches deps cs \/ looks_same root t t') /\
    noticed deps root false (build deps root t') rs
  end.
Definition starts (t : tree) : Prop := made t = None /\ forall p, changed_at t p <= now t.

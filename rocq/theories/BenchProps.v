(** C158: the tables made from the benchmarks' log show the last time of each algorithm with each dataset. *)
From Coq Require Import String Ascii Bool Arith List ZArith Lia Permutation.
From Verif Require Import CatalogModel GenModel GenProofs3 BenchModel BenchSpec BenchProofs BenchProofs2.
Import ListNotations.
Local Open Scope string_scope.

Lemma keyed_start {F} : keyed (s_data (@start F)).
Proof. split; constructor. Qed.

(** The three tables have a row for each dataset and a column for each algorithm with a time in the log, each once,
    and show the last chained time, the last independent time, and the size last written before the first time. *)
Theorem C158_tables : forall F (to_float : string -> option F) to_int sorts lines t1 t2 t3,
  (forall l, Permutation l (sorts l)) -> tables to_float to_int sorts lines = Some (t1, t2, t3) ->
  shows to_float strip lines t1 (fun ds alg v => last_time to_float strip lines ds alg Chained v) /\
  shows to_float strip lines t2 (fun ds alg v => last_time to_float strip lines ds alg Independent v) /\
  shows to_float strip lines t3 (fun ds alg n => size_then to_float to_int strip lines ds alg n).
Proof.
  intros F to_float to_int sorts lines t1 t2 t3 S E. unfold tables, parse_file in E.
  destruct (steps to_float to_int start lines) as [st|] eqn:P; [|discriminate]. cbn [option_map] in E.
  pose proof (inv_steps _ _ _ _ P) as (_ & _ & _ & G & C & I & Z). pose proof (keyed_steps _ _ _ _ _ keyed_start P) as K.
  destruct (table sorts k_chained (s_data st)) as [a|] eqn:A; [|discriminate].
  destruct (table sorts k_independent (s_data st)) as [b|] eqn:B; [|discriminate].
  destruct (table sorts k_size (s_data st)) as [c|] eqn:D; [|discriminate].
  assert (a = t1 /\ b = t2 /\ c = t3) as (<- & <- & <-) by (repeat split; congruence).
  split; [|split]; eapply table_shows; eauto.
Qed.
Print Assumptions C158_tables.

(** There are no tables when a size is not a number, or when a time has no algorithm and another has one. *)
Theorem C158_stops : forall F (to_float : string -> option F) to_int sorts lines, (forall l, Permutation l (sorts l)) ->
  tables to_float to_int sorts lines = None <->
  no_number to_int strip lines \/
  exists ds ds' n, some_time to_float strip lines ds None /\ some_time to_float strip lines ds' (Some n).
Proof.
  intros F to_float to_int sorts lines S. rewrite <- (steps_none to_float to_int lines start). unfold tables, parse_file.
  destruct (steps to_float to_int start lines) as [st|] eqn:P; cbn [option_map]; [|tauto].
  pose proof (inv_steps _ _ _ _ P) as (_ & _ & _ & G & _). pose proof (keyed_steps _ _ _ _ _ keyed_start P) as K.
  assert (X : forall A (f : kept -> option A), table sorts f (s_data st) = None <-> exists ds ds' n, some_time to_float strip lines ds None /\ some_time to_float strip lines ds' (Some n))
    by (intros; apply table_none; auto).
  pose proof (X _ k_chained) as X1. pose proof (X _ k_independent) as X2. pose proof (X _ k_size) as X3.
  destruct (table sorts k_chained (s_data st)) as [a|]; [|split; [intros _; right; now apply X1|reflexivity]].
  destruct (table sorts k_independent (s_data st)) as [b|]; [|split; [intros _; right; now apply X2|reflexivity]].
  destruct (table sorts k_size (s_data st)) as [c|]; [|split; [intros _; right; now apply X3|reflexivity]].
  split; [discriminate|]. intros [H|H]; [discriminate|]. apply X1 in H. discriminate.
Qed.
Print Assumptions C158_stops.

(** Python's float() takes no text with a comma. *)
Definition commas_refused {F} (to_float : string -> option F) : Prop := forall s, In ","%char (chars s) -> to_float s = None.
Definition plain (s : string) : option string :=
  match s with String a _ => if (is_digit a && negb (within "," s))%bool then Some s else None | EmptyString => None end.

Fixpoint rests (l : list string) : list (string * list string) := match l with [] => [] | x :: r => (x, r) :: rests r end.
Lemma rests_in a x r : In (x, r) (rests (a ++ x :: r)).
Proof. induction a as [|y a IH]; [now left|]. right. exact IH. Qed.
(** The size shown need not be the algorithm's own: two of the library's benchmarks write none, and are shown with the size
    of whichever algorithm came before. *)
Theorem C158_size_refuted : exists lines t1 t2 cs rows,
  tables plain int10 (fun l => l) lines = Some (t1, t2, (cs, rows)) /\ In (Some "mph") cs /\
  rows = [(Some "ds", [Some 480; Some 480])]%Z /\
  ~ exists n, own_size plain int10 strip lines (Some "ds") "mph" n.
Proof.
  set (lines := ["dataset:   ds"; "algorithm: std_map"; "size:      480"; "|  5.10 |  1.00 |  0.1% |  0.01 | `chained`";
                 "dataset:   ds"; "algorithm: mph"; "|  1.20 |  8.00 |  0.1% |  0.01 | `chained`"]).
  exists lines. do 4 eexists. split; [vm_compute; reflexivity|]. split; [right; now left|]. split; [reflexivity|].
  intros (n & a & l & b & k & v & E & T & N & a1 & la & a2 & t & Ea & Ta & Ua & (c1 & lc & c2 & Ec & Tc & _) & V).
  subst a2. assert (I : lines = (a1 ++ la :: c1 ++ lc :: c2 ++ l :: b)%list).
  { rewrite E, Ea. rewrite <- app_assoc. cbn [app]. now rewrite <- app_assoc. }
  assert (A : forall x, In x lines -> titled strip "algorithm" x "mph" -> x = "algorithm: mph").
  { intros x X H. apply titled_spec in H as (H1 & H2); [|apply cAL]. cbn in X. destruct X as [<-|[<-|[<-|[<-|[<-|[<-|[<-|[]]]]]]]]; try reflexivity; exfalso; vm_compute in H1, H2; discriminate. }
  assert (Z : forall x m, In x lines -> titled strip "size" x m -> x = "size:      480").
  { intros x m X H. apply titled_spec in H as (H1 & H2); [|apply cSI]. cbn in X. destruct X as [<-|[<-|[<-|[<-|[<-|[<-|[<-|[]]]]]]]]; try reflexivity; exfalso; vm_compute in H1; discriminate. }
  assert (la = "algorithm: mph") as -> by (apply A; [rewrite I; apply in_or_app; right; now left|exact Ta]).
  assert (lc = "size:      480") as -> by (eapply Z; [rewrite I; apply in_or_app; right; right; apply in_or_app; right; now left|exact Tc]).
  set (r := (c1 ++ "size:      480" :: c2 ++ l :: b)%list) in I.
  assert (R : In "size:      480" r) by (apply in_or_app; right; now left).
  assert (B : In ("algorithm: mph", r) (rests lines)) by (rewrite I; apply rests_in). clearbody r. clear - B R. cbn in B.
  destruct B as [B|[B|[B|[B|[B|[B|[B|[]]]]]]]]; try discriminate B. injection B as <-. destruct R as [R|[]]. discriminate R.
Qed.

(** A size written between an algorithm's name and its first time is the one shown. *)
Theorem C158_size_partial : forall F (to_float : string -> option F) to_int lines ds alg n,
  own_size to_float to_int strip lines ds alg n -> size_then to_float to_int strip lines ds (Some alg) n.
Proof.
  intros F to_float to_int lines ds alg n (a & l & b & k & v & E & T & N & a1 & la & a2 & t & Ea & _ & _ & (c1 & lc & c2 & Ec & Tc & U) & V).
  exists a, l, b, k, v. split; [exact E|]. split; [exact T|]. split; [exact N|]. exists t. split; [|exact V].
  exists (a1 ++ la :: c1)%list, lc, c2. split; [|auto]. subst a a2. now rewrite <- app_assoc.
Qed.
Print Assumptions C158_size_partial.

(** A time of a thousand nanoseconds or more, written by the benchmarks with a comma, is left out without a word. *)
Theorem C158_comma_refuted : forall F (to_float : string -> option F) sorts, commas_refused to_float -> (forall l, Permutation l (sorts l)) ->
  exists lines, In "|  1,026.13 |  974,535.71 |  0.1% |  0.01 | `chained`" lines /\
    tables to_float int10 sorts lines = Some (([], []), ([], []), ([], [])).
Proof.
  intros F to_float sorts C S. exists ["dataset:   ds"; "algorithm: std_map"; "size:      480"; "|  1,026.13 |  974,535.71 |  0.1% |  0.01 | `chained`"].
  split; [do 3 right; now left|]. assert (E : to_float "1,026.13" = None) by (apply C; right; now left).
  assert (X : sorts [] = []) by (apply Permutation_nil, S).
  vm_compute in E, X |- *. rewrite E. rewrite X. reflexivity.
Qed.

(** Two datasets whose names agree up to a colon share a row. *)
Theorem C158_colon_refuted : exists lines t1 t2 t3, In "dataset:   std::map" lines /\ In "dataset:   std::set" lines /\
  tables plain int10 (fun l => l) lines = Some (t1, t2, t3) /\ map fst (snd t1) = [Some "std"].
Proof.
  exists ["dataset:   std::map"; "algorithm: mph"; "|  5.10 |  1.00 |  0.1% |  0.01 | `chained`"; "dataset:   std::set"; "|  7.10 |  1.00 |  0.1% |  0.01 | `chained`"].
  do 3 eexists. split; [now left|]. split; [do 3 right; now left|]. split; [vm_compute; reflexivity|reflexivity].
Qed.

Example C158_case : tables plain int10 (fun l => l)
  [""; "dataset:   one"; "algorithm: frozen_map"; "size:      64";
   "|               ns/op |                op/s |    err% |     total | benchmark";
   "|--------------------:|--------------------:|--------:|----------:|:----------";
   "|                1.50 |      666,000,000.00 |    0.2% |      0.02 | `chained`";
   "|                0.70 |    1,400,000,000.00 |    0.2% |      0.02 | `independent`";
   "dataset:   two"; "algorithm: std_map"; "size:      480";
   "|                5.10 |      196,000,000.00 |    0.1% |      0.02 | `chained`";
   "|                4.90 |      204,000,000.00 |    0.1% |      0.02 | `chained`"]
  = Some (([Some "frozen_map"; Some "std_map"], [(Some "one", [Some "1.50"; None]); (Some "two", [None; Some "4.90"])]),
          ([Some "frozen_map"; Some "std_map"], [(Some "one", [Some "0.70"; None]); (Some "two", [None; None])]),
          ([Some "frozen_map"; Some "std_map"], [(Some "one", [Some 64; None]); (Some "two", [None; Some 480])])%Z).
Proof. vm_compute. reflexivity. Qed.
Example C158_stops_case :
  tables plain int10 (fun l => l) ["size: many"] = None /\
  tables plain int10 (fun l => l) ["|  5.10 | 1 | 1 | 1 | chained"; "algorithm: mph"; "|  5.10 | 1 | 1 | 1 | chained"] = None /\
  tables plain int10 (fun l => l) ["|  5.10 | 1 | 1 | 1 | chained"] <> None.
Proof. split; [|split]; vm_compute; [reflexivity|reflexivity|discriminate]. Qed.

(** Properties of the descriptions of matchers (C76, C77). *)
From Coq Require Import String Ascii Bool List ZArith.
From Verif Require Import MatchModel MatchSpec MatchProofs FieldMatchersModel DescribeModel DescribeSpec DescribeProofs DescribeProofs2.
Import ListNotations.
Local Open Scope string_scope.

(** C76: a description reads as the matcher it describes: given the truth values of
    the leaves, it says what the matcher answers, *)
Theorem C76_reads :
  forall (L E : Type) (sem : L -> E -> bool) (text : L -> string) (v : string -> bool -> Prop) (e : E) (m : mexpr L),
  all_leaves (fun l => v (text l) (sem l e)) m -> says v (describe text m) (eval sem m e).
Proof. intros L E sem text v e m H. exact (proj1 (describe_reads sem text v e m H)). Qed.
Print Assumptions C76_reads.

(** no text can be read in two ways, *)
Theorem C76_unambiguous :
  forall v s b c, knows v -> says v s b -> says v s c -> b = c.
Proof. intros v s b c K. exact (unique v K s b c). Qed.
Print Assumptions C76_unambiguous.

(** the operands of a chain of one connective, however they are grouped, stand side by
    side, *)
Inductive operands {L : Type} (c : connective) : mexpr L -> list (mexpr L) -> Prop :=
| operands_one m : (forall a b, m <> (match c with Conj => And a b | Disj => Or a b end)) -> operands c m [m]
| operands_more a b l r : operands c a l -> operands c b r -> operands c (match c with Conj => And a b | Disj => Or a b end) (l ++ r).
Theorem C76_chains :
  forall (L : Type) (text : L -> string) c m n (l : list (mexpr L)), operands c m (n :: l) -> l <> [] ->
  describe text m = "(" ++ describe text n ++ ")" ++ String.concat "" (map (fun o => word c ++ "(" ++ describe text o ++ ")") l).
Proof.
  intros L text c.
  assert (S : forall a b, String.concat "" (a ++ b) = String.concat "" a ++ String.concat "" b).
  { assert (K : forall x l, String.concat "" (x :: l) = x ++ String.concat "" l) by (intros x [|y l]; cbn; [now rewrite app_nil_r|reflexivity]).
    induction a as [|x a IH]; intros b; [reflexivity|]. cbn [app]. now rewrite !K, IH, app_assoc. }
  assert (X : forall m l, operands c m l -> exists n r, l = n :: r /\
    operand (match c with Conj => is_and m | Disj => is_or m end) (describe text m) = "(" ++ describe text n ++ ")" ++ String.concat "" (map (fun o => word c ++ "(" ++ describe text o ++ ")") r) /\
    (r <> [] -> (match c with Conj => is_and m | Disj => is_or m end) = true)).
  { induction 1 as [m H|a b l r Ha IHa Hb IHb].
    - exists m, []. split; [reflexivity|]. split; [|congruence]. replace (match c with Conj => is_and m | Disj => is_or m end) with false; [reflexivity|].
      destruct c, m as [| | |x y|x y|]; try reflexivity; exfalso; exact (H x y eq_refl).
    - destruct IHa as (na & ra & -> & Ea & _), IHb as (nb & rb & -> & Eb & _). exists na, (ra ++ nb :: rb)%list. split; [reflexivity|]. split; [|destruct c; reflexivity].
      rewrite map_app, S. cbn [map].
      assert (K : forall x l, String.concat "" (x :: l) = x ++ String.concat "" l) by (intros x [|y l]; cbn; [now rewrite app_nil_r|reflexivity]).
      rewrite K, !app_assoc, <- Eb, <- !app_assoc. rewrite <- !app_assoc in Ea. rewrite <- Ea. destruct c; cbn [is_and is_or describe operand word]; rewrite ?app_assoc; reflexivity. }
  intros m n l H N. destruct (X m _ H) as (n' & r & E & D & T). injection E as <- <-. rewrite (T N) in D. exact D.
Qed.
Print Assumptions C76_chains.

Example C76_chains_case : let m := Or (Or (Leaf "a") (And (Leaf "b") (Leaf "c"))) (Or Always (Leaf "d")) in
  operands Disj m [Leaf "a"; And (Leaf "b") (Leaf "c"); Always; Leaf "d"] /\ describe (fun s => s) m = "(a) or ((b) and (c)) or (true) or (d)".
Proof.
  split; [|reflexivity]. apply (operands_more Disj _ _ [Leaf "a"; And (Leaf "b") (Leaf "c")] [Always; Leaf "d"]).
  - apply (operands_more Disj _ _ [Leaf "a"] [_]); apply operands_one; discriminate.
  - apply (operands_more Disj _ _ [Always] [_]); apply operands_one; discriminate.
Qed.

(** and two matchers with the same description give the same answers, if names are
    plain and tell the leaves apart. *)
Theorem C76_same_text_partial :
  forall (E : Type) (U : dleaf E -> Prop) (e : E),
  (forall l, U l -> good_leaf l) ->
  (forall l l', U l -> U l' -> leaf_text l = leaf_text l' -> dsem l e = dsem l' e) ->
  forall m m', all_leaves U m -> all_leaves U m' -> describe leaf_text m = describe leaf_text m' ->
  eval dsem m e = eval dsem m' e.
Proof.
  intros E U e G S m m' Hm Hm' D.
  set (v := fun s b => exists l, U l /\ s = leaf_text l /\ b = dsem l e).
  assert (K : knows v).
  { split.
    - intros s b (l & Hl & -> & _). apply good_leaf_text. auto.
    - intros s b c (l & Hl & -> & ->) (l' & Hl' & E2 & ->). auto. }
  assert (R : forall x, all_leaves U x -> says v (describe leaf_text x) (eval dsem x e)).
  { intros x Hx. apply C76_reads. eapply all_leaves_mono; [|exact Hx]. intros l Hl. exists l. auto. }
  apply (C76_unambiguous v (describe leaf_text m)); [exact K|auto|]. rewrite D. auto.
Qed.
Print Assumptions C76_same_text_partial.
(** Predicates are all called "<predicate>" unless named; and a predicate can be
    called "true". *)
Theorem C76_same_text_refuted :
  (exists (p q : dleaf Z) e, describe leaf_text (Leaf p) = describe leaf_text (Leaf q) /\ dsem p e <> dsem q e) /\
  (exists (p : dleaf Z) e, describe leaf_text (Leaf p) = describe (@leaf_text Z) Always /\ dsem p e = false).
Proof.
  split.
  - exists (DNamed "<predicate>" (fun e => Z.eqb e 1)), (DNamed "<predicate>" (fun e => Z.eqb e 2)), 1%Z. vm_compute. split; [reflexivity|discriminate].
  - exists (DNamed "true" (fun e => Z.eqb e 1)), 2%Z. vm_compute. split; reflexivity.
Qed.
Print Assumptions C76_same_text_refuted.

(** The matcher a callback prints is the sum of products of the user's matcher and
    the message's own; its text reads as the conjunction of the two. *)
Theorem C76_callback :
  forall (L E : Type) (sem : L -> E -> bool) leqb limpl lneg (U : L -> Prop) (text : L -> string) (v : string -> bool -> Prop) (e : E),
  truthful sem leqb limpl lneg U -> (forall l, U l -> v (text l) (sem l e)) ->
  forall a b, all_leaves U a -> all_leaves U b ->
  says v (describe text (sum_of_products L lneg (op_and L leqb limpl lneg a b))) (eval sem a e && eval sem b e).
Proof.
  intros L E sem leqb limpl lneg U text v e T H a b Ha Hb.
  destruct (simplify_sound sem leqb limpl lneg U T (And a b) (conj Ha Hb)) as [HU HE].
  cbn [eval] in HE. rewrite <- HE. unfold op_and.
  rewrite <- (sop_eval sem lneg (t_neg _ _ _ _ _ T)).
  apply C76_reads. eapply all_leaves_mono; [exact H|]. eapply dnf_leaves; eassumption.
Qed.
Print Assumptions C76_callback.

(** Mixed connectives: the text and its reading for a = b = true, c = false. *)
Example C76_case :
  let a := DNamed "a" (fun _ : Z => true) in let b := DNamed "b" (fun _ => true) in let c := DNamed "c" (fun _ => false) in
  describe leaf_text (And (And (Leaf a) (Or (Leaf b) (Not (Leaf c)))) (Leaf (DRel "f" (fun e => e) RLe 255))) =
    "(a) and ((b) or (not (c))) and (f <= 0xff)" /\
  knows (fun s b => s = "a" /\ b = true \/ s = "b" /\ b = true \/ s = "c" /\ b = false).
Proof.
  split; [vm_compute; reflexivity|]. split.
  - intros s b [[-> _]|[[-> _]|[-> _]]]; (split; [repeat first [apply bal_nil | apply bal_char; [discriminate|discriminate|]]|]);
      repeat split; try discriminate; intros [r R]; discriminate.
  - intros s b c H H'. decompose [or and] H; decompose [or and] H'; subst; congruence.
Qed.

(** C77: the line for a callback that did not match shows the values that explain
    it: read with the values it shows (and the answers of the predicates, which it
    only names), it says false, and cannot be read to say anything else. The line
    for a callback that matched gives a text that reads true. *)
Theorem C77_explains :
  forall (E : Type) (e : E) (told : string -> bool -> Prop),
  knows told -> (forall s b c, told s b -> shows s c -> False) ->
  forall m, all_leaves (fun l => match l with DRel name _ _ _ => good_field name | _ => told (leaf_match_text e l) (dsem l e) end) m ->
  forall name, exists d, mismatch_line name m e = "    " ++ name ++ " - F:(" ++ d ++ ")" /\
    forall b, says (fun s c => told s c \/ (shows s c /\ plain s)) d b <-> b = eval dsem m e.
Proof.
  intros E e told [K1 K2] N m Hm name. eexists. split; [reflexivity|].
  assert (R : says (fun s c => told s c \/ (shows s c /\ plain s)) (describe (leaf_match_text e) m) (eval dsem m e)).
  { apply C76_reads. eapply all_leaves_mono; [|exact Hm].
    intros [n value o v|n value p|n p] H; cbn beta iota in H |- *; auto.
    right. split; [apply rel_shows|]. now apply good_match_text. }
  intros b. split; [|intros ->; exact R].
  intros H. revert H R. apply C76_unambiguous. split.
  - intros s c [H|[_ H]]; [eauto|exact H].
  - intros s x y [H|[H _]] [H'|[H' _]]; [eauto|destruct (N _ _ _ H H')|destruct (N _ _ _ H' H)|].
    eapply shows_unique; eassumption.
Qed.
Print Assumptions C77_explains.
Theorem C77_because :
  forall (E : Type) (e : E) (v : string -> bool -> Prop) m name extra,
  all_leaves (fun l => v (leaf_text l) (dsem l e)) m ->
  match handle_line name m extra e (eval dsem m e) with
  | Some s => exists d, s = "Incoming message matched [" ++ name ++ "], because [" ++ d ++ "]" ++ extra ++ ", executing callback" /\ says v d true
  | None => eval dsem m e = false
  end.
Proof.
  intros E e v m name extra H. unfold handle_line. destruct (eval dsem m e) eqn:Ev; [|reflexivity].
  eexists. split; [reflexivity|]. rewrite <- Ev. now apply C76_reads.
Qed.
Print Assumptions C77_because.
(** The line of an indexed handler adds the matcher the index was made from. *)
Theorem C77_collapsed :
  forall (E : Type) (e : E) (v : string -> bool -> Prop) m orig name,
  all_leaves (fun l => v (leaf_text l) (dsem l e)) orig -> eval dsem m e = true ->
  exists d d', handle_line name m (collapsed orig) e (eval dsem m e) =
    Some ("Incoming message matched [" ++ name ++ "], because [" ++ d ++ "] (collapsed by index from [" ++ d' ++ "]), executing callback") /\
    says v d' (eval dsem orig e).
Proof.
  intros E e v m orig name H Hm. unfold handle_line, collapsed. rewrite Hm. exists (describe leaf_text m), (describe leaf_text orig). split; [|apply C76_reads, H].
  do 2 f_equal. cbn [append]. rewrite !DescribeProofs.app_assoc. reflexivity.
Qed.
Print Assumptions C77_collapsed.
Example C77_case :
  mismatch_line "cb" (And (Leaf (DRel "id" (fun e => e) REq 128)) (Not (Leaf (DRel "id" (fun e => e) RLt (-3))))) (-31)%Z =
    "    cb - F:((id (0x-1f) == 0x80) and (not (id (0x-1f) < 0x-3)))" /\ good_field "id".
Proof.
  split; [vm_compute; reflexivity|]. split; [repeat first [apply bal_nil | apply bal_char; [discriminate|discriminate|]]|].
  split; intros [r R]; discriminate.
Qed.

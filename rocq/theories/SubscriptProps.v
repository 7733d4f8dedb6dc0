(** Property theorems for set and subscripts of messages (C148, C149). *)
From Coq Require Import List NArith ZArith Bool Arith Lia.
From Verif Require Import FieldModel FieldSpec FieldProofs2 FieldProofs3 MessageProofs MessageModel MessageSpec MessageProps AccessModel AccessSpec AccessProofs2 AccessProofs3 SubscriptModel SubscriptSpec SubscriptProofs.
Import ListNotations.
Local Open Scope N_scope.

(** ** C148: set sets what it is given *)
(** At full strength: a call of set whose arguments are fields of the message, with
    values only for those that may change, compiles, and afterwards each field has
    the value or the default given. False when a value and a name (or a field type)
    are given together: the value is dropped ... *)
Theorem C148_refuted :
  exists d args st st', msg_good d /\ Forall (may_give d) args /\ storage_ok 32 st /\ set_call 32 d args st = Some (Done st') /\
    value_in 32 st' (nth 2 d (fld 0 1 DWithout [])) = value_in 32 st (nth 2 d (fld 0 1 DWithout [])) /\
    all_given d args (N.testbit (image 32 st)) 16 <> N.testbit (image 32 st') 16.
Proof.
  exists ex_msg, [AValue 2 1; AName 1], [0; 0], [0xBC00; 0xA].
  split; [apply ex_msg_good|]. split.
  - repeat constructor.
    + exists (nth 2 ex_msg (fld 0 1 DWithout [])). vm_compute. auto.
    + exists (nth 1 ex_msg (fld 0 1 DWithout [])). vm_compute. auto.
  - split; [repeat constructor|]. split; [vm_compute; reflexivity|]. split; [vm_compute; reflexivity|]. vm_compute. discriminate.
Qed.
Print Assumptions C148_refuted.
(** ... and names alone never compile. *)
Theorem C148_names_refuted :
  forall es d n ns st, set_call es d (map AName (n :: ns)) st = None.
Proof.
  intros. unfold set_call. replace (forallb is_value (map AName (n :: ns))) with false by reflexivity.
  replace (forallb is_name (map AName (n :: ns))) with true; auto. symmetry. apply forallb_forall. intros a H.
  apply in_map_iff in H as (k & <- & _). auto.
Qed.
Print Assumptions C148_names_refuted.
(** What every call does: the arguments are set in order, all as defaults if one of
    them has no value. *)
Theorem C148_exact :
  forall es d args st n o, narrow es -> msg_good d -> fields_fit (es * N.of_nat n) d -> length st = n -> storage_ok es st ->
  set_call es d args st = Some o ->
  exists st', o = Done st' /\ length st' = n /\ storage_ok es st' /\
    forall k, N.testbit (image es st') k =
      all_given d (if forallb (fun a => match a with AValue _ _ => true | _ => false end) args then args
                   else map (fun a => AType (arg_name a)) args) (N.testbit (image es st)) k.
Proof. intros es d args st n o He Hd. exact (set_shown es He d Hd args st n o). Qed.
Print Assumptions C148_exact.
(** Which calls compile. *)
Theorem C148_accepted :
  forall es d args st n, msg_good d -> fields_fit (es * N.of_nat n) d -> length st = n ->
  (set_call es d args st <> None <->
   (forall a, In a args -> exists f, In f d /\ f_name f = arg_name a) /\
   ((forall a, In a args -> is_value a = true /\ may_give d a) \/
    (exists a, In a args /\ is_value a = false) /\ (exists a, In a args /\ is_name a = false))).
Proof. intros es d args st n Hd. exact (set_accepted es d Hd args st n). Qed.
Print Assumptions C148_accepted.
(** The property when all arguments are values, or all are field types (missing:
    names, and mixtures). *)
Theorem C148_partial :
  forall es d args st n, narrow es -> msg_good d -> fields_fit (es * N.of_nat n) d -> length st = n -> storage_ok es st ->
  (forall a, In a args -> exists m v, a = AValue m v) \/ (forall a, In a args -> exists m, a = AType m) ->
  Forall (may_give d) args ->
  exists st', set_call es d args st = Some (Done st') /\ length st' = n /\
    forall k, N.testbit (image es st') k = all_given d args (N.testbit (image es st)) k.
Proof.
  intros es d args st n He Hd Hf Hl Hok Hk Hm. rewrite Forall_forall in Hm.
  assert (Hacc : set_call es d args st <> None).
  { apply (set_accepted es d Hd args st n Hf Hl). split.
    - intros a Ha. destruct (Hm a Ha) as (f & H1 & H2 & _). eauto.
    - destruct Hk as [Hk|Hk].
      + left. intros a Ha. split; auto. destruct (Hk a Ha) as (m & v & ->). auto.
      + destruct args as [|a args]; [left; intros a []|]. right. destruct (Hk a (or_introl eq_refl)) as (m & ->).
        split; exists (AType m); split; auto; left; auto. }
  destruct (set_call es d args st) as [o|] eqn:E; [|congruence].
  destruct (set_shown es He d Hd args st n o Hf Hl Hok E) as (st' & -> & H1 & H2 & H3). exists st'. split; auto. split; auto.
  intros k. rewrite H3. unfold taken_as. destruct Hk as [Hk|Hk].
  - replace (forallb is_value args) with true; auto. symmetry. apply forallb_forall. intros a Ha. destruct (Hk a Ha) as (m & v & ->). auto.
  - replace (map (fun a => AType (arg_name a)) args) with args; [destruct (forallb is_value args); auto|].
    clear -Hk. induction args as [|a args IH]; auto. cbn [map]. destruct (Hk a (or_introl eq_refl)) as (m & ->). cbn [arg_name]. f_equal.
    apply IH. intros b Hb. apply Hk. right; auto.
Qed.
Print Assumptions C148_partial.
Example C148_case : (* two values; two field types; the empty call *)
  set_call 32 ex_msg [AValue 2 7; AValue 1 0x123] [0; 0] = Some (Done [0x72300; 1]) /\
  set_call 32 ex_msg [AType 1; AType 0] [0xFFFFFFFF; 0xFFFFFFFF] = Some (Done [0xFFFFBC42; 0xFFFFFFFA]) /\
  set_call 32 ex_msg [] [1; 2] = Some (Done [1; 2]) /\ Forall (may_give ex_msg) [AValue 2 7; AValue 1 0x123].
Proof.
  split; [vm_compute; reflexivity|]. split; [vm_compute; reflexivity|]. split; [vm_compute; reflexivity|].
  repeat constructor.
  - exists (nth 2 ex_msg (fld 0 1 DWithout [])). vm_compute. auto.
  - exists (nth 1 ex_msg (fld 0 1 DWithout [])). vm_compute. auto.
Qed.
Example C148_case_rejected : (* a field with a required value; one of another message *)
  set_call 32 ex_msg [AValue 0 7] [0; 0] = None /\ set_call 32 ex_msg [AType 1; AType 9] [0; 0] = None.
Proof. vm_compute. auto. Qed.

(** ** C149: a subscript is the value of the field *)
Definition sub_msg : scommand := Plain (Owner ex_msg 2 [(2%nat, 5)]).
(** At full strength: whatever compiles shows what is [meant], and what is accepted
    of get and set is accepted of subscripts. False: what auto y = m["f"_field] gives
    for a message that is not const changes with the message ... *)
Lemma sub_msg_good : scommand_good 32 sub_msg.
Proof.
  split; [apply ex_msg_good|]. intros f Hf l Hl.
  destruct Hf as [<-|[<-|[<-|[<-|[]]]]]; cbn in Hl; repeat (destruct Hl as [<-|Hl]; [vm_compute; discriminate|]); destruct Hl.
Qed.
Theorem C149_refuted :
  exists p s obs, Forall (scommand_good 32) p /\ salike 32 p sstart /\
    srun 32 p sstart = Some (Done (s, obs)) /\ ~ meant 32 p empty [] obs /\ obs = [Value 9].
Proof.
  eexists [sub_msg; Take false 0 2; Assign 0 2 9; Read 0], _, [Value 9].
  split. { repeat apply Forall_cons; try exact I; [apply sub_msg_good|apply Forall_nil]. }
  split. { repeat (split; [exact I|]; intros). exact I. }
  split; [vm_compute; reflexivity|]. split; [|reflexivity]. intros Hm.
  inversion Hm as [|c r a ys o q H1 H2| | | |]; subst. cbn in H1. subst o. cbn [app] in *. subst q.
  inversion H2 as [| | |c v n x r a ys q' H3 H4| |]; subst.
  inversion H4 as [| |v n y r a ys q'' H5| | |]; subst.
  inversion H5 as [| | | |t y r a ys q3 H6 H7|]; subst. cbn in H6. injection H6 as ->. clear -H3.
  destruct H3 as (h & f & Hh & Hin & Hf & Hv). cbn in Hh. injection Hh as <-. cbn [h_def h_store] in *.
  destruct Hin as [<-|[<-|[<-|[<-|[]]]]]; cbn in Hf; try discriminate.
  destruct Hv as (_ & Hv). specialize (Hv 18 false eq_refl). vm_compute in Hv. discriminate.
Qed.
Print Assumptions C149_refuted.
(** ... and a field cannot be copied between messages of one type by subscripts of
    its name, though it can by get and set. *)
Theorem C149_copy_refuted :
  exists p s x, srun 32 p sstart = Some (Done (s, [])) /\ got 32 0 2 (base s) = Some (Done x) /\
    sstep 32 (Assign 1 2 x) s <> None /\ sstep 32 (Copy false 1 2 0 2) s = None.
Proof.
  eexists [sub_msg; sub_msg], _, 5. split; [vm_compute; reflexivity|]. split; [vm_compute; reflexivity|].
  split; [vm_compute; discriminate|]. vm_compute. reflexivity.
Qed.
Print Assumptions C149_copy_refuted.
(** What every program shows: what is taken from a message that is not const stands
    for the field, and is read where it is used. *)
Theorem C149_exact :
  forall es p o, narrow es -> Forall (scommand_good es) p -> salike es p sstart -> srun es p sstart = Some o ->
  exists s obs, o = Done (s, obs) /\ behaves es p empty [] obs.
Proof.
  intros es p o He Hg Ha Hr. apply (srun_behaves es He p sstart empty o); auto. split; auto. split; constructor.
Qed.
Print Assumptions C149_exact.
(** The property for programs that do not write to a storage after they took
    something from a message on it that is not const (missing: those that do, and
    copies between subscripts of one type). *)
Theorem C149_partial :
  forall es p o, narrow es -> Forall (scommand_good es) p -> salike es p sstart -> left_alone es p sstart [] ->
  srun es p sstart = Some o ->
  exists s obs, o = Done (s, obs) /\ meant es p empty [] obs.
Proof.
  intros es p o He Hg Ha Hl Hr. apply (srun_meant es He p sstart empty o []); auto.
  - split; auto. split; constructor.
  - constructor.
Qed.
Print Assumptions C149_partial.
(** Assigning is setting. *)
Theorem C149_assign :
  forall es v n x s, sstep es (Assign v n x) s = sstep es (Plain (Set_ v [(n, x)])) s.
Proof.
  intros. cbn [sstep declares]. unfold assign. rewrite app_nil_r. destruct (step es (Set_ v [(n, x)]) (base s)) as [q|] eqn:E; auto.
  destruct q as [[s' o]| | |]; auto. cbn [bind fst snd]. cbn [step] in E. destruct (nth_error _ _); [|discriminate].
  destruct (set_through _ _ _ _) as [q|]; [|discriminate]. injection E as E. destruct q; cbn in E; try discriminate. injection E as _ <-. auto.
Qed.
Print Assumptions C149_assign.
(** What is accepted: taking and reading where get is; copying where get and set
    are, except between subscripts of one name on variables of one type. *)
Theorem C149_accepted :
  forall es s v n w k x c, step es (Get w k) (base s) = Some (Done (base s, [Value x])) ->
  sstep es (Take c w k) s <> None /\
  (sstep es (Copy c v n w k) s <> None <->
   step es (Set_ v [(n, x)]) (base s) <> None /\ ~ (c = false /\ n = k /\ same_type s v w = true)).
Proof.
  intros es s v n w k x c H. assert (Hg : got es w k (base s) = Some (Done x)) by (unfold got; rewrite H; auto). split.
  - cbn [sstep]. rewrite Hg. destruct c; discriminate.
  - cbn [sstep]. destruct (negb c && Nat.eqb n k && same_type s v w) eqn:E.
    + split; [congruence|]. intros (_ & Hn). exfalso. apply Hn. apply andb_true_iff in E as [E E3]. apply andb_true_iff in E as [E1 E2].
      apply Nat.eqb_eq in E2. destruct c; [discriminate|]. auto.
    + rewrite Hg. unfold assign. destruct (step es (Set_ v [(n, x)]) (base s)) as [q|].
      * split; [|discriminate]. intros _. split; [discriminate|]. intros (-> & -> & E3). rewrite E3, Nat.eqb_refl in E. discriminate.
      * split; [congruence|]. intros (Q & _). congruence.
Qed.
Print Assumptions C149_accepted.
Theorem C149_types :
  forall s v w, same_type s v w = true <->
  exists h g a, nth_error (vars (base s)) v = Some h /\ nth_error (vars (base s)) w = Some g /\
    nth_error (owners s) v = Some a /\ nth_error (owners s) w = Some a /\
    h_def h = h_def g /\ h_extent h = h_extent g /\ h_mut h = h_mut g.
Proof.
  intros s v w. unfold same_type. destruct (nth_error (vars (base s)) v) as [h|]; [|split; [discriminate|intros (? & ? & ? & ? & _); discriminate]].
  destruct (nth_error (vars (base s)) w) as [g|]; [|split; [discriminate|intros (? & ? & ? & _ & ? & _); discriminate]].
  destruct (nth_error (owners s) v) as [a|]; [|split; [discriminate|intros (? & ? & ? & _ & _ & ? & _); discriminate]].
  destruct (nth_error (owners s) w) as [b|]; [|split; [discriminate|intros (? & ? & ? & _ & _ & _ & ? & _); discriminate]].
  split.
  - intros H. apply andb_true_iff in H as [H H4]. apply andb_true_iff in H as [H H3]. apply andb_true_iff in H as [H1 H2].
    apply Bool.eqb_prop in H4, H3. apply Nat.eqb_eq in H2. destruct (list_eq_dec _ _ _); [|discriminate]. subst b. exists h, g, a. repeat split; auto.
  - intros (h' & g' & c & E1 & E2 & E3 & E4 & H1 & H2 & H3). injection E1 as <-. injection E2 as <-. injection E3 as <-. injection E4 as <-.
    rewrite H2, H3, Nat.eqb_refl, !Bool.eqb_reflx. destruct (list_eq_dec _ _ _); [reflexivity|congruence].
Qed.
Print Assumptions C149_types.
(** An owner and a view of it: assignments, values taken, a copy to another name. *)
Definition sub_prog : list scommand :=
  [ sub_msg; Plain (View ex_msg 2 false (FromHandle 0) []);
    Assign 0 1 0x123; Take true 0 1; Assign 0 1 0x7; Read 0;
    Copy false 0 2 1 1; Take false 1 2; Read 1 ].
Example C149_case :
  Forall (scommand_good 32) sub_prog /\ salike 32 sub_prog sstart /\ left_alone 32 sub_prog sstart [] /\
  exists s, srun 32 sub_prog sstart = Some (Done (s, [Value 0x123; Value 7])).
Proof.
  split. { repeat apply Forall_cons; try exact I; try apply Forall_nil; apply sub_msg_good. }
  split. { repeat (split; [exact I|]; intros). exact I. }
  split.
  { unfold sub_prog. do 7 (split; [intros i []|intros ? ? _]). split; [intros i []|]. intros ? ? _.
    split; [intros i _ H; exact H|]. intros. exact I. }
  eexists. vm_compute. reflexivity.
Qed.
Example C149_case_rejected : (* assigning through a const view, and a field with a required value *)
  srun 32 [sub_msg; Plain (View ex_msg 2 false (FromHandle 0) []); Assign 1 2 7] sstart = None /\
  srun 32 [sub_msg; Assign 0 0 7] sstart = None.
Proof. vm_compute. auto. Qed.

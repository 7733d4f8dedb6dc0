(** Proofs about projects with message services: the same over other messages, and
    over the storage of messages. *)
From Coq Require Import String Bool Arith ZArith NArith List Lia.
From Verif Require Import MatchModel MatchSpec FieldMatchersModel FieldMatchersSpec FieldModel FieldSpec FieldProofs2 MessageModel MessageSpec MessageProofs MessageProps AccessModel AccessSpec AccessProofs4 HandlerModel HandlerSpec FlowModel NexusModel NexusSpec NexusProofs NexusProofs2 DispatchModel DispatchSpec DispatchProofs DispatchProofs2 DispatchProofs3.
Import ListNotations.
Local Notation eval := MatchSpec.eval.

Lemma eval_on_leaves {L E F} (s1 : L -> E -> bool) (s2 : L -> F -> bool) (m : mexpr L) e f :
  (forall l, In l (leaves m) -> s1 l e = s2 l f) -> eval s1 m e = eval s2 m f.
Proof.
  induction m as [l| | |a IHa b IHb|a IHa b IHb|a IHa]; cbn [leaves eval]; intros H; auto.
  - apply H. left; auto.
  - rewrite IHa, IHb; auto; intros l Hl; apply H, in_app_iff; auto.
  - rewrite IHa, IHb; auto; intros l Hl; apply H, in_app_iff; auto.
  - rewrite IHa; auto.
Qed.

Section Retold.
Context {M1 M2 W : Type} (carried : M1 -> M2 -> Prop) (fld1 : nat -> M1 -> Z) (fld2 : nat -> M2 -> Z)
  (psem1 : nat -> M1 * W -> bool) (psem2 : nat -> M2 * W -> bool) (pred : nat -> W -> bool) (act : nat -> W -> W)
  (body1 : nat -> nat -> M1 -> @prog M1 W) (body2 : nat -> nat -> M2 -> @prog M2 W) (nexus : nat -> config item) (kind_of : svc -> kind).
Hypothesis alike_wants : forall n s a m m' w, exported s (nexus n) -> listens (nexus n) s a -> carried m m' ->
  wants fld1 psem1 pred a m w = wants fld2 psem2 pred a m' w.
Hypothesis bodies : forall f n m m', carried m m' -> retold carried (body1 f n m) (body2 f n m').
Notation does1 := (does fld1 psem1 pred act body1 nexus kind_of).
Notation handles1 := (handles fld1 psem1 pred act body1 nexus kind_of).
Notation hears1 := (hears fld1 psem1 pred act body1 nexus kind_of).
Notation does2 := (does fld2 psem2 pred act body2 nexus kind_of).
Notation handles2 := (handles fld2 psem2 pred act body2 nexus kind_of).
Notation hears2 := (hears fld2 psem2 pred act body2 nexus kind_of).
Definition Q_does (p : prog) (x : @moment W) (t : list happening) (y : @moment W) (_ : does2 p x t y) : Prop :=
  forall p1, retold carried p1 p -> does1 p1 x t y.
Definition Q_handles (n : nat) (s : svc) (m : M2) (x : @moment W) (t : list happening) (y : @moment W) (b : bool) (_ : handles2 n s m x t y b) : Prop :=
  forall m1, carried m1 m -> handles1 n s m1 x t y b.
Definition Q_hears (n : nat) (m : M2) (l : list listener) (x : @moment W) (t : list happening) (y : @moment W) (b : bool) (_ : hears2 n m l x t y b) : Prop :=
  forall m1 s, carried m1 m -> exported s (nexus n) -> (forall a, In a l -> listens (nexus n) s a) -> hears1 n m1 l x t y b.
Lemma answer_retold v s m m' (x : @moment W) b : carried m m' -> answer fld2 psem2 pred nexus kind_of v s m' x b -> answer fld1 psem1 pred nexus kind_of v s m x b.
Proof.
  intros C H. unfold answer in *. destruct (asked nexus v s x) as [n|]; auto. destruct H as (l & E & L & H). exists l. split; auto. split; auto.
  assert (X : existsb (fun a => wants fld1 psem1 pred a m (now x)) l = existsb (fun a => wants fld2 psem2 pred a m' (now x)) l).
  { assert (HL : forall a, In a l -> listens (nexus n) s a) by (intros a; apply listeners_listen; auto). clear H L.
    induction l as [|a l IH]; cbn [existsb]; auto. rewrite (alike_wants n s a m m'), IH; auto; [intros b' Hb; apply HL; right; auto|apply HL; left; auto]. }
  rewrite X. exact H.
Qed.
Lemma retold_does p x t y (D : does2 p x t y) : Q_does p x t y D.
Proof.
  apply (does_mut M2 W fld2 psem2 pred act body2 nexus kind_of Q_does Q_handles Q_hears); clear p x t y D; unfold Q_does, Q_handles, Q_hears.
  - intros x p1 R. inversion R; subst. constructor.
  - intros a k x t y D IH p1 R. inversion R; subst. constructor. auto.
  - intros k x t y D IH p1 R. inversion R; subst. constructor. auto.
  - intros v s m k x n t y b t' z A H IH O D IH2 p1 R. inversion R; subst. eapply does_send; eauto.
  - intros v s m k x n t y b A H IH O p1 R. inversion R; subst. eapply does_send_over; eauto.
  - intros v s m k x A p1 R. inversion R; subst. apply does_panic; auto.
  - intros v s m k x b t y A D IH p1 R. inversion R; subst. eapply does_ask; eauto. eapply answer_retold; eauto.
  - intros n k x t y D IH p1 R. inversion R; subst. constructor. auto.
  - intros n s m l x t y E L H IH m1 C. eapply handles_claimed; eauto. eapply IH; eauto. intros a. apply listeners_listen; auto.
  - intros n s m l x t y E L H IH m1 C. eapply handles_unclaimed; eauto. eapply IH; eauto. intros a. apply listeners_listen; auto.
  - intros n m x m1 s C E HL. constructor.
  - intros n m a l x t y b Hw H IH m1 s C E HL. apply hears_skip; [|eapply IH; eauto; intros c Hc; apply HL; right; auto].
    rewrite (alike_wants n s a m1 m); auto. apply HL; left; auto.
  - intros n m a l f x t y t' z b Hw Hc D IH O H IH2 m1 s C E HL. eapply hears_call; eauto.
    + rewrite (alike_wants n s a m1 m); auto. apply HL; left; auto.
    + eapply IH2; eauto. intros c Hc'. apply HL; right; auto.
  - intros n m a l f x t y Hw Hc D IH O m1 s C E HL. eapply hears_over; eauto.
    rewrite (alike_wants n s a m1 m); auto. apply HL; left; auto.
Qed.
End Retold.

(** What a listener wants is settled by its leaves. *)
Lemma wants_on_leaves {M1 M2 W} (fld1 : nat -> M1 -> Z) (fld2 : nat -> M2 -> Z) (psem1 : nat -> M1 * W -> bool) (psem2 : nat -> M2 * W -> bool) pred a m1 m2 w :
  (forall f o v, In (Rel f o v) (asks_leaves (l_item a)) -> fld1 f m1 = fld2 f m2) -> (forall p, psem1 p (m1, w) = psem2 p (m2, w)) ->
  wants fld1 psem1 pred a m1 w = wants fld2 psem2 pred a m2 w.
Proof.
  intros Hf Hp. assert (H : forall l, In l (asks_leaves (l_item a)) -> leaf_sem (fun f (e : M1 * W) => fld1 f (fst e)) psem1 l (m1, w) = leaf_sem (fun f (e : M2 * W) => fld2 f (fst e)) psem2 l (m2, w)).
  { intros [f o v|p] Hl; cbn [leaf_sem fst]; auto. erewrite Hf; eauto. }
  unfold wants. f_equal. unfold asks_leaves in H. f_equal.
  - destruct (i_user (l_item a)) as [x|]; auto. apply eval_on_leaves. intros l Hl. apply H, in_app_iff. auto.
  - assert (H' : forall l, In l (flat_map leaves (i_fields (l_item a))) -> leaf_sem (fun f (e : M1 * W) => fld1 f (fst e)) psem1 l (m1, w) = leaf_sem (fun f (e : M2 * W) => fld2 f (fst e)) psem2 l (m2, w)) by (intros l Hl; apply H, in_app_iff; auto).
    clear H. induction (i_fields (l_item a)) as [|x r IH]; cbn [forallb flat_map] in *; auto. rewrite IH by (intros l Hl; apply H', in_app_iff; auto). f_equal.
    apply eval_on_leaves. intros l Hl. apply H', in_app_iff. auto.
Qed.

Section Storage.
Context (ftab : nat -> mfield) (ftype : nat -> cty) (es : N) (n : nat) (ids : list nat).
Hypothesis He : narrow es.
Hypothesis Hft : forall i, field_valid (ftab i) = true /\ type_fits (ftype i) (ftab i).
Hypothesis Hn : names_apart ftab ids.
Hypothesis Hg : msg_good (map ftab ids).
Hypothesis Hfit : fields_fit (es * N.of_nat n) (map ftab ids).
Lemma nbits_of st : length st = n -> nbits es st = (es * N.of_nat n)%N.
Proof. intros <-. reflexivity. Qed.
Lemma buffer_carries (b : buffer es n) : carries ftab es ids (Message ids (proj1_sig b)).
Proof. destruct b as (st & Hl & Hs). cbn [proj1_sig]. split; [exact Hs|]. split; [|reflexivity]. cbn [storage_of]. rewrite (nbits_of st Hl). exact Hfit. Qed.
Lemma read_in_range i b : in_range (ftype i) (read_from ftab ftype es n ids i b).
Proof. unfold read_from. eapply extract_field_range; eauto using buffer_carries. Qed.
Lemma read_given vs b i : constructed ftab es n ids vs b -> In i ids -> read_from ftab ftype es n ids i b = given ftab ftype i vs.
Proof.
  intros C Hi. unfold read_from. rewrite (extract_field_in ftab ftype es He Hft ids _ i Hn (buffer_carries b) Hi). unfold value_of. rewrite (find_table ftab ids i Hn Hi).
  unfold given. f_equal. cbn [storage_of]. destruct (construct_spec es n (map ftab ids) vs (Done (proj1_sig b)) He Hg Hfit C) as (st & E & _ & _ & V & _).
  injection E as E. rewrite E. apply V. apply in_map, Hi.
Qed.
End Storage.

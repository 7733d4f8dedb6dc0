From Coq Require Import String Ascii Bool List ZArith NArith Lia ZifyBool ZifyN ZifyNat.
From Verif Require Import FieldModel FieldSpec FieldProofs FieldProofs2 MessageModel MessageSpec MessageProofs SummaryModel SummarySpec.
From Verif Require MipiModel DescribeModel DescribeSpec DescribeProofs2.
Import ListNotations.
Local Open Scope string_scope.

Lemma format_char {V} (show : V -> option string) k a s args : a <> "{"%char -> a <> "}"%char ->
  format show (S k) (String a s) args = option_map (String a) (format show k s args).
Proof. intros H1 H2. destruct a as [[] [] [] [] [] [] [] []]; try reflexivity; congruence. Qed.
Lemma app_assoc_s (a b c : string) : ((a ++ b) ++ c = a ++ (b ++ c))%string.
Proof. induction a; cbn; congruence. Qed.
Lemma app_nil_s (a : string) : (a ++ "" = a)%string.
Proof. induction a; cbn; congruence. Qed.
Lemma length_app_s (a b : string) : String.length (a ++ b) = (String.length a + String.length b)%nat.
Proof. induction a; cbn; congruence. Qed.
Lemma format_text {V} (show : V -> option string) t : braceless t -> forall k s args,
  format show (String.length t + k) (t ++ s) args = option_map (append t) (format show k s args).
Proof.
  induction t as [|a t IH]; intros H k s args.
  - cbn. destruct (format show k s args); reflexivity.
  - destruct H as (H1 & H2 & H3). cbn [String.length Nat.add append]. rewrite format_char by assumption. rewrite IH by exact H3.
    destruct (format show k s args); reflexivity.
Qed.
Lemma format_hole {V} (show : V -> option string) k s args :
  format show (S k) ("{:x}" ++ s) args =
  match args with v :: vs => match show v, format show k s vs with Some a, Some b => Some (a ++ b) | _, _ => None end | [] => None end.
Proof. reflexivity. Qed.
(** More fuel changes nothing. *)
Lemma format_more {V} (show : V -> option string) k : forall s args r, format show k s args = Some r -> format show (S k) s args = Some r.
Proof.
  induction k as [|k IH]; intros s args r H; [discriminate|].
  assert (O : forall (f : string -> string) t vs x, option_map f (format show k t vs) = Some x -> option_map f (format show (S k) t vs) = Some x).
  { intros f t vs x E. destruct (format show k t vs) eqn:E1; [|discriminate]. now rewrite (IH _ _ _ E1). }
  destruct s as [|a s]; [exact H|].
  destruct (ascii_dec a "{") as [->|A1]; [|destruct (ascii_dec a "}") as [->|A2]].
  - destruct s as [|b s]; [discriminate|].
    destruct (ascii_dec b "{") as [->|B1]; [exact (O _ _ _ _ H)|].
    destruct (ascii_dec b ":") as [->|B2].
    + destruct s as [|c s]; [discriminate|]. destruct (ascii_dec c "x") as [->|C]; [|exfalso; destruct c as [[] [] [] [] [] [] [] []]; try discriminate; congruence].
      destruct s as [|d s]; [discriminate|]. destruct (ascii_dec d "}") as [->|D]; [|exfalso; destruct d as [[] [] [] [] [] [] [] []]; try discriminate; congruence].
      change (format show (S (S k)) ("{:x}" ++ s) args = Some r). change (format show (S k) ("{:x}" ++ s) args = Some r) in H. rewrite format_hole in *.
      destruct args as [|v vs]; [discriminate|]. destruct (show v); [|discriminate]. destruct (format show k s vs) eqn:E; [|discriminate].
      now rewrite (IH _ _ _ E).
    + exfalso. destruct b as [[] [] [] [] [] [] [] []]; try discriminate; congruence.
  - destruct s as [|b s]; [discriminate|]. destruct (ascii_dec b "}") as [->|B]; [exact (O _ _ _ _ H)|].
    exfalso. destruct b as [[] [] [] [] [] [] [] []]; try discriminate; congruence.
  - rewrite format_char in * by assumption. exact (O _ _ _ _ H).
Qed.

Lemma braceless_app a b : braceless a -> braceless b -> braceless (a ++ b).
Proof. induction a as [|c a IH]; intros Ha Hb; [exact Hb|]. destruct Ha as (H1 & H2 & H3). repeat split; auto. Qed.
Lemma format_rest {V} (show : V -> option string) t k args : braceless t -> (String.length t < k)%nat -> format show k t args = Some t.
Proof.
  intros H L. replace k with (String.length t + S (k - String.length t - 1))%nat by lia.
  generalize (k - String.length t - 1)%nat as j. intros j. replace (format show (String.length t + S j) t args) with (format show (String.length t + S j) (t ++ "") args) by now rewrite app_nil_s.
  rewrite format_text by exact H. cbn. now rewrite app_nil_s.
Qed.
Fixpoint all_shown {V} (show : V -> option string) (args : list V) : option (list string) :=
  match args with
  | [] => Some []
  | v :: vs => match show v, all_shown show vs with Some a, Some b => Some (a :: b) | _, _ => None end
  end.
Section Join.
Variable label : nat -> string.
Definition piece (fh : mfield * string) : string := label (f_name (fst fh)) ++ ": 0x" ++ snd fh.
Lemma format_joined {V} (show : V -> option string) rest : braceless rest -> forall fs args k,
  (forall f, In f fs -> braceless (label (f_name f))) -> List.length args = List.length fs ->
  (String.length (joined (map (field_format label) fs) ++ rest) < k)%nat ->
  format show k (joined (map (field_format label) fs) ++ rest) args =
  option_map (fun hs => joined (map piece (combine fs hs)) ++ rest) (all_shown show args).
Proof.
  intros Hr. induction fs as [|f fs IH]; intros args k Hl Hn Hk.
  - destruct args; [|discriminate]. cbn in *. now apply format_rest.
  - destruct args as [|v args]; [discriminate|]. cbn [List.length] in Hn. injection Hn as Hn.
    assert (Hf : braceless (label (f_name f) ++ ": 0x")).
    { apply braceless_app; [apply Hl; now left|]. repeat split; discriminate. }
    cbn [map joined all_shown].
    assert (G : forall tail out, (String.length (field_format label f ++ tail) < k)%nat ->
        (forall k', (String.length tail < k')%nat -> format show k' tail args = option_map out (all_shown show args)) ->
        format show k (field_format label f ++ tail) (v :: args) =
        option_map (fun hs => match hs with h :: hs => piece (f, h) ++ out hs | [] => "" end)
          match show v, all_shown show args with Some a, Some b => Some (a :: b) | _, _ => None end).
    { intros tail out L H. unfold field_format in *.
      replace ((label (f_name f) ++ ": 0x{:x}") ++ tail) with ((label (f_name f) ++ ": 0x") ++ ("{:x}" ++ tail)) in * by (rewrite !app_assoc_s; reflexivity).
      rewrite length_app_s in L. replace k with (String.length (label (f_name f) ++ ": 0x") + (k - String.length (label (f_name f) ++ ": 0x")))%nat by lia.
      rewrite format_text by exact Hf. rewrite (length_app_s "{:x}" tail) in L. change (String.length "{:x}") with 4%nat in L.
      destruct (k - String.length (label (f_name f) ++ ": 0x"))%nat as [|k'] eqn:E; [lia|].
      rewrite format_hole, H by lia. destruct (show v) as [h|]; [|reflexivity]. destruct (all_shown show args) as [hs|]; [|reflexivity].
      cbn [option_map piece fst snd]. unfold piece. cbn [fst snd]. now rewrite !app_assoc_s. }
    destruct fs as [|g fs].
    + destruct args; [|discriminate]. cbn [map joined] in *. rewrite (G rest (fun _ => rest)).
      * cbn [all_shown]. destruct (show v); cbn; reflexivity.
      * exact Hk.
      * intros k' L. cbn. now apply format_rest.
    + cbn [map] in *. set (J := joined (field_format label g :: map (field_format label) fs)) in *.
      change (joined (field_format label f :: field_format label g :: map (field_format label) fs)) with (field_format label f ++ ", " ++ J) in *.
      replace ((field_format label f ++ ", " ++ J) ++ rest) with (field_format label f ++ (", " ++ (J ++ rest))) in * by (rewrite !app_assoc_s; reflexivity).
      rewrite (G _ (fun hs => ", " ++ (joined (map piece (combine (g :: fs) hs)) ++ rest))).
      * destruct (show v); [|reflexivity]. destruct args as [|w args]; [discriminate|]. destruct (all_shown show (w :: args)) as [hs|] eqn:E; [|reflexivity].
        cbn [all_shown] in E. destruct (show w); [|discriminate]. destruct (all_shown show args); [|discriminate]. injection E as <-.
        cbn [option_map combine map joined]. now rewrite !app_assoc_s.
      * exact Hk.
      * intros k' L. rewrite length_app_s in L. change (String.length ", ") with 2%nat in L.
        replace k' with (String.length ", " + (k' - 2))%nat by (cbn; lia).
        rewrite format_text by (repeat split; discriminate). rewrite IH.
        -- destruct (all_shown show args); reflexivity.
        -- intros x Hx. apply Hl. now right.
        -- exact Hn.
        -- lia.
Qed.
End Join.
Lemma all_shown_length {V} (show : V -> option string) args : forall hs, all_shown show args = Some hs -> List.length hs = List.length args.
Proof.
  induction args as [|v args IH]; cbn; intros hs H; [injection H as <-; reflexivity|].
  destruct (show v); [|discriminate]. destruct (all_shown show args); [|discriminate]. injection H as <-. cbn. now rewrite IH.
Qed.

(** ** Numbers *)
Lemma hex_tidy z : tidy (DescribeModel.hex z).
Proof.
  assert (P : forall k n acc, (0 < n)%Z -> (n < 2 ^ Z.of_nat (S k))%Z -> exists a r, DescribeModel.hex_aux (S k) n acc = String a r /\ a <> "0"%char /\ a <> "-"%char).
  { induction k as [|k IH]; intros n acc H L; rewrite DescribeProofs2.hex_step; destruct (n <? 16)%Z eqn:Hn.
    1,3: eexists; eexists; split; [reflexivity|]; rewrite Z.mod_small by lia;
         assert (D := DescribeProofs2.hex_digit_value n ltac:(lia)); split; intros E; rewrite E in D; vm_compute in D; [injection D as <-; lia|discriminate].
    - exfalso. change (Z.of_nat 1) with 1%Z in L. apply Z.ltb_ge in Hn. lia.
    - apply IH; [apply Z.div_str_pos; lia|]. apply Z.div_lt_upper_bound; [lia|].
      rewrite (Nat2Z.inj_succ (S k)), Z.pow_succ_r in L by lia. assert (0 < 2 ^ Z.of_nat (S k))%Z by (apply Z.pow_pos_nonneg; lia). lia. }
  assert (B : forall n, (0 < n)%Z -> (n < 2 ^ Z.of_nat (S (Z.to_nat (Z.log2 n))))%Z).
  { intros n H. rewrite Nat2Z.inj_succ, Z2Nat.id by apply Z.log2_nonneg. apply Z.log2_spec. exact H. }
  unfold DescribeModel.hex. destruct (Z.ltb_spec z 0) as [Hz|Hz].
  - destruct (P _ (- z)%Z "" ltac:(lia) (B (- z)%Z ltac:(lia))) as (a & r & -> & N1 & N2). cbn [tidy].
    destruct a as [[] [] [] [] [] [] [] []]; try exact I; congruence.
  - destruct (Z.eq_dec z 0) as [->|N]; [reflexivity|]. destruct (P _ z "" ltac:(lia) (B z ltac:(lia))) as (a & r & -> & N1 & N2).
    cbn [tidy]. destruct a as [[] [] [] [] [] [] [] []]; try exact I; congruence.
Qed.
Lemma hex_value z : value (DescribeModel.hex z) z.
Proof. split; [apply DescribeProofs2.hex_number|apply hex_tidy]. Qed.

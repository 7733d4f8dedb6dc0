(** Proofs: numbers in the collateral, the collateral as a whole, looking up. *)
From Coq Require Import String Ascii Bool Arith ZArith NArith List Lia ZifyN ZifyNat ZifyBool.
From Verif Require Import GenModel GenSpec OutputModel OutputSpec OutputProofs OutputProofs2.
From Verif Require GenProofs CatalogModel.
Import ListNotations.
Local Open Scope list_scope.
Local Open Scope string_scope.

(** ** Numbers *)
Lemma all_same p s : GenProofs.all p s = all_chars p s.
Proof. induction s; cbn; congruence. Qed.
Lemma hex_legal a : digit_in 16 a <> None -> xml_char a = true.
Proof.
  destruct a as [b0 b1 b2 b3 b4 b5 b6 b7]. destruct b0, b1, b2, b3, b4, b5, b6, b7; vm_compute; congruence.
Qed.
Lemma str_legal z : legal (str z).
Proof.
  unfold legal. destruct (Z_lt_le_dec z 0) as [H|H].
  - destruct (GenProofs.str_neg z H) as (t & -> & W & _). cbn [all_chars]. rewrite <- all_same.
    rewrite (GenProofs.writes_all 10 t (- z) xml_char); [reflexivity|lia|exact W|exact hex_legal].
  - rewrite <- all_same. apply (GenProofs.writes_all 10 _ z); [lia|apply GenProofs.str_writes; exact H|exact hex_legal].
Qed.
Lemma hex_digit_in d : (d < 16)%N -> digit_in 16 (hex_digit d) = Some (Z.of_N d).
Proof.
  intros H. assert (C : In d [0;1;2;3;4;5;6;7;8;9;10;11;12;13;14;15]%N) by (cbn; lia).
  cbn in C. repeat (destruct C as [<-|C]; [reflexivity|]). contradiction.
Qed.
Lemma hex_aux_value k : forall n acc, (n < 2 ^ N.of_nat (S k))%N ->
  exists s, hex_aux (S k) n acc = s ++ acc /\ s <> "" /\ (forall z, digits_in 16 z s = Some (z * 16 ^ Z.of_nat (String.length s) + Z.of_N n)%Z) /\ all_chars (fun a => match digit_in 16 a with Some _ => true | None => false end) s = true
    /\ forall m, (1 <= m)%nat -> (n < 16 ^ N.of_nat m)%N -> (String.length s <= m)%nat.
Proof.
  induction k as [|k IH]; intros n acc H; cbn [hex_aux].
  - assert (n < 16)%N by (cbn in H; lia). destruct (N.ltb_spec n 16); [|lia].
    exists (String (hex_digit (n mod 16)) ""). rewrite N.mod_small by lia. cbn [digits_in all_chars String.length].
    rewrite (hex_digit_in n) by lia. split; [reflexivity|]. split; [discriminate|]. split; [|split; [reflexivity|intros; lia]].
    intros z. f_equal. change (16 ^ Z.of_nat 1)%Z with 16%Z. lia.
  - assert (D : (n mod 16 < 16)%N) by (apply N.mod_upper_bound; lia).
    destruct (N.ltb_spec n 16) as [L|L].
    { exists (String (hex_digit (n mod 16)) ""). cbn [digits_in all_chars String.length].
      rewrite (hex_digit_in _ D). rewrite N.mod_small by lia. split; [reflexivity|]. split; [discriminate|]. split; [|split; [reflexivity|intros; lia]].
      intros z. f_equal. change (16 ^ Z.of_nat 1)%Z with 16%Z. lia. }
    destruct (IH (n / 16)%N (String (hex_digit (n mod 16)) acc)) as (s & E & NE & V & A & M).
    { apply N.div_lt_upper_bound; [lia|]. rewrite (Nat2N.inj_succ (S k)), N.pow_succ_r' in H. lia. }
    exists (s ++ String (hex_digit (n mod 16)) ""). cbn [hex_aux] in E. rewrite E, app_assoc_s. split; [reflexivity|].
    assert (Ln : String.length (s ++ String (hex_digit (n mod 16)) "") = S (String.length s)).
    { clear. induction s as [|a s IHs]; cbn [append String.length]; [reflexivity|]. rewrite IHs. reflexivity. }
    split; [destruct s; [congruence|discriminate]|]. split; [|split].
    + intros z. rewrite GenProofs.digits_in_app, V. cbn [digits_in]. rewrite (hex_digit_in _ D). f_equal.
      rewrite Ln. rewrite Nat2Z.inj_succ, Z.pow_succ_r by lia. pose proof (N.div_mod n 16 ltac:(lia)). lia.
    + rewrite all_app, A. cbn [all_chars]. rewrite (hex_digit_in _ D). reflexivity.
    + intros m Hm Hn. rewrite Ln. destruct m as [|[|m]]; [lia|cbn in Hn; lia|].
      apply le_n_S, M; [lia|]. apply N.div_lt_upper_bound; [lia|]. rewrite (Nat2N.inj_succ (S m)), N.pow_succ_r' in Hn. lia.
Qed.
Lemma pad_digits n s : digits_in 16 0 (pad n s) = digits_in 16 0 s.
Proof. induction n as [|n IH]; [reflexivity|]. exact IH. Qed.
Lemma pad_length n s : String.length (pad n s) = n + String.length s.
Proof. induction n as [|n IH]; [reflexivity|]. cbn. rewrite <- IH. reflexivity. Qed.
Lemma pad_all p n s : p "0"%char = true -> all_chars p s = true -> all_chars p (pad n s) = true.
Proof. intros P A. induction n as [|n IH]; [exact A|]. cbn. rewrite P. exact IH. Qed.
Lemma n_log2 n : (n < 2 ^ N.of_nat (S (N.to_nat (N.log2 n))))%N.
Proof. rewrite Nat2N.inj_succ, N2Nat.id. destruct (N.eq_dec n 0) as [->|]; [reflexivity|]. apply N.log2_spec. lia. Qed.
(** What "0x%08X" writes is the number, in eight digits if it has no more. *)
Lemma hex8_number n : exists s, hex8 n = "0x" ++ s /\ some_digits 16 s = Some (Z.of_N n) /\ (8 <= String.length s)%nat /\ ((n < 2 ^ 32)%N -> String.length s = 8%nat) /\ legal s
  /\ all_chars (fun a => match digit_in 16 a with Some _ => true | None => false end) s = true.
Proof.
  unfold hex8. destruct (hex_aux_value _ n "" (n_log2 n)) as (s & E & NE & V & A & M).
  rewrite E, app_nil_s. exists (pad (8 - String.length s) s). split; [reflexivity|]. split; [|split; [|split; [|split]]].
  - unfold some_digits. destruct (pad (8 - String.length s) s) eqn:Ep; [|rewrite <- Ep].
    + apply (f_equal String.length) in Ep. rewrite pad_length in Ep. destruct s; [congruence|cbn in Ep; lia].
    + rewrite pad_digits, V. f_equal. 
  - rewrite pad_length. lia.
  - intros H. rewrite pad_length. specialize (M 8%nat ltac:(lia)). change (16 ^ N.of_nat 8)%N with (2 ^ 32)%N in M. specialize (M H). lia.
  - unfold legal. apply pad_all; [reflexivity|]. revert A. apply all_impl. intros a Ha. apply hex_legal. destruct (digit_in 16 a); congruence.
  - apply pad_all; [reflexivity|exact A].
Qed.
Lemma strip_hex s : all_chars (fun a => match digit_in 16 a with Some _ => true | None => false end) s = true -> CatalogModel.strip ("0x" ++ s) = "0x" ++ s.
Proof.
  intros A. apply GenProofs.strip_id; [discriminate|]. change ("0x" ++ s) with (String "0" (String "x" s)). cbn [GenProofs.all]. rewrite all_same. 
  replace (all_chars _ s) with true; [reflexivity|]. symmetry. revert A. apply all_impl. intros a Ha. apply GenProofs.hex_not_space. destruct (digit_in 16 a); congruence.
Qed.
Lemma hex8_int n : int0 (hex8 n) = Some (Z.of_N n).
Proof.
  destruct (hex8_number n) as (s & E & D & _ & _ & _ & A). rewrite E. unfold int0. rewrite (strip_hex _ A). exact D.
Qed.
Lemma hex8_legal n : legal (hex8 n).
Proof. destruct (hex8_number n) as (s & E & _ & _ & _ & L & _). rewrite E. exact L. Qed.

(** ** The collateral *)
Ltac is_name := split; [discriminate|reflexivity].
Lemma shows_children n a cs xs : name n -> Forall good_attr a -> Forall2 shows cs xs -> shows (parent_element n a cs) (Elem n a xs).
Proof. intros N A F. unfold parent_element. destruct F; constructor; assumption. Qed.
Lemma shows_map {A} (f : A -> element) (g : A -> xml) l : (forall x, In x l -> shows (f x) (g x)) -> Forall2 shows (map f l) (map g l).
Proof. induction l as [|x l IH]; intros H; constructor; [apply H; left; reflexivity|apply IH; intros; apply H; right; assumption]. Qed.
Lemma legal_app a b : legal a -> legal b -> legal (a ++ b).
Proof. unfold legal. intros A B. rewrite all_app, A, B. reflexivity. Qed.
Definition good_texts (c : collateral) : Prop := Forall (fun t => closed t /\ legal t /\ ~ has_cr t) (texts c).
Lemma short_same m : is_short m = without_args m.
Proof. unfold is_short, without_args. destruct (x_args m); reflexivity. Qed.
Lemma filter_same {A} (f g : A -> bool) l : (forall x, f x = g x) -> filter f l = filter g l.
Proof. intros E. induction l as [|x l IH]; [reflexivity|]. cbn. rewrite E, IH. reflexivity. Qed.
Lemma shows_message m : (let t := printf_format (x_text m) (x_args m) in closed t /\ legal t /\ ~ has_cr t) -> shows (serialize_message m) (a_message amp m).
Proof.
  intros (P & L & C). apply shows_text; [is_name| |exact P|exact L|exact C].
  constructor; [split; [is_name|apply hex8_legal]|]. constructor; [split; [is_name|reflexivity]|].
  destruct (x_lookup m) as [[a e]|]; repeat constructor; [discriminate|]. cbn [snd]. apply legal_app; [apply str_legal|]. apply legal_app; [reflexivity|apply str_legal].
Qed.
Theorem collateral_shows c : Forall legal (labels c) -> good_texts c -> shows (collateral_tree c) (document amp c).
Proof.
  intros L T. unfold labels in L. apply Forall_app in L as [L1 L2].
  inversion L1 as [|? ? Lc L1a]; subst. inversion L1a as [|? ? Lv L1b]; subst. inversion L1b as [|? ? Lg L1c]; subst. inversion L1c as [|? ? Lm _]; subst.
  unfold good_texts, texts in T. apply Forall_app in T as [T1 T2].
  unfold collateral_tree, document.
  apply shows_children; [is_name|repeat (constructor; [split; [is_name|reflexivity]|]); constructor|].
  constructor; [|constructor; [|constructor]].
  - apply shows_children; [is_name|constructor; [split; [is_name|exact Lc]|constructor]|].
    constructor; [|constructor; [|constructor; [|constructor; [|constructor; [|constructor]]]]].
    + apply shows_children; [is_name|constructor|]. constructor; [|constructor]. apply shows_empty; [is_name|].
      constructor; [split; [is_name|]|constructor; [split; [is_name|]|constructor]]; cbn [snd];
        (apply legal_app; [reflexivity|]; apply legal_app; [assumption|reflexivity]).
    + apply shows_children; [is_name|constructor|]. apply shows_map. intros e I.
      assert (Le : Forall legal (fst e :: map fst (snd (snd e)))).
      { rewrite Forall_concat in L2. rewrite Forall_map in L2. rewrite Forall_forall in L2. exact (L2 e I). }
      inversion Le as [|? ? L0 Lr]; subst. apply shows_children; [is_name| |].
      * constructor; [split; [is_name|exact L0]|constructor; [split; [is_name|apply str_legal]|constructor]].
      * apply shows_map. intros nv J. apply shows_empty; [is_name|].
        constructor; [split; [is_name|apply str_legal]|constructor; [split; [is_name|]|constructor]].
        rewrite Forall_map in Lr. rewrite Forall_forall in Lr. exact (Lr nv J).
    + apply shows_children; [is_name|constructor|]. apply shows_map. intros m I.
      rewrite Forall_map in T1. rewrite Forall_forall in T1. destruct (T1 m I) as (P & Q & R).
      apply shows_text; [is_name|constructor; [split; [is_name|apply str_legal]|constructor]|exact P|exact Q|exact R].
    + apply shows_children; [is_name|constructor|]. rewrite (filter_same is_short without_args _ short_same). apply shows_map. intros m I.
      apply filter_In in I as [I _]. rewrite Forall_map in T2. rewrite Forall_forall in T2. apply shows_message. exact (T2 m I).
    + apply shows_children; [is_name|constructor|]. rewrite (filter_same (fun m => negb (is_short m)) (fun m => negb (without_args m)) _ (fun m => f_equal negb (short_same m))).
      apply shows_map. intros m I.
      apply filter_In in I as [I _]. rewrite Forall_map in T2. rewrite Forall_forall in T2. apply shows_message. exact (T2 m I).
  - apply shows_empty; [is_name|]. constructor; [split; [is_name|exact Lv]|constructor].
Qed.
Lemma indent_tail level e : e_tail (indent_children level e) = e_tail e.
Proof. destruct e as [n a t [|k ks] u]; reflexivity. Qed.
Lemma with_own_tail e : with_tail (e_tail e) e = e.
Proof. destruct e; reflexivity. Qed.
Theorem shown_file e x : shows e x -> exists y, reads (tostring (indent_children 0 e)) y /\ without_layout y = x.
Proof.
  intros H. destruct (shows_reads e x H) as [T R].
  destruct (R 0%nat "" eq_refl) as (body & y & _ & S & O & _ & Y & W & E).
  rewrite <- T, <- (indent_tail 0 e), with_own_tail, indent_tail, T, app_nil_s in S.
  exists y. split; [|exact W]. specialize (E ""). rewrite app_nil_s in E. destruct E as [k E].
  assert (F : all_chars ok (tostring (indent_children 0 e)) = true).
  { unfold tostring. rewrite !all_app, S, O. reflexivity. }
  split.
  - revert F. apply all_impl. intros a. unfold ok. intros A. apply andb_true_iff in A as [A _]. exact A.
  - rewrite (line_ends_ok _ F). exists k. eexists. exists body. unfold tostring. rewrite S. split; [reflexivity|]. split; [reflexivity|]. apply E. lia.
Qed.

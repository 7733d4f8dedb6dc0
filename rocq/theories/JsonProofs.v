(** Proofs about the text of JSON files. *)
From Coq Require Import String Ascii Bool Arith List ZArith Lia.
From Verif Require Import GenModel SymbolModel JsonModel JsonSpec.
From Verif Require GenSpec GenProofs.
Import ListNotations.
Local Open Scope Z_scope.

(** ** Escapes *)
Lemma unhex_hex d : 0 <= d < 16 -> unhex (hex d) = Some d.
Proof.
  intros H. assert (C : In d [0;1;2;3;4;5;6;7;8;9;10;11;12;13;14;15]) by (cbn; lia).
  cbn in C. repeat destruct C as [<-|C]; try reflexivity. destruct C.
Qed.
Lemma hex_printable d : 0 <= d < 16 -> 32 <= hex d <= 126 /\ hex d <> 34 /\ hex d <> 92.
Proof. intros H. unfold hex. destruct (Z.ltb_spec d 10); lia. Qed.
Lemma hex4 n : 0 <= n < 65536 -> ((n / 4096 mod 16 * 16 + n / 256 mod 16) * 16 + n / 16 mod 16) * 16 + n mod 16 = n.
Proof.
  intros H. assert (A : n / 16 / 16 = n / 256) by (rewrite Z.div_div by lia; reflexivity).
  assert (B : n / 256 / 16 = n / 4096) by (rewrite Z.div_div by lia; reflexivity).
  pose proof (Z.div_mod n 16 ltac:(lia)). pose proof (Z.div_mod (n / 16) 16 ltac:(lia)). pose proof (Z.div_mod (n / 256) 16 ltac:(lia)).
  rewrite A in *. rewrite B in *. assert (n / 4096 < 16) by (apply Z.div_lt_upper_bound; lia). assert (0 <= n / 4096) by (apply Z.div_pos; lia).
  rewrite (Z.mod_small (n / 4096)) by lia. lia.
Qed.
Lemma u_decode_escape n r : 0 <= n < 65536 -> exists q, u_escape n ++ r = 92 :: 117 :: q /\ u_decode q = Some (n, r).
Proof.
  intros H. eexists. split; [reflexivity|]. cbn [app u_decode].
  rewrite !unhex_hex by (apply Z.mod_pos_bound; lia). rewrite hex4 by auto. reflexivity.
Qed.
(** The escape of a character: itself, a short escape, or one or two numbers. *)
Lemma escape_cases c : char_ok c ->
  (escape c = [c] /\ 32 <= c /\ c <> 34 /\ c <> 92 /\ c <= 126) \/
  (exists e, escape c = [92; e] /\ e <> 117 /\ unescape e = Some c /\ c < 128 /\ 32 <= e <= 126) \/
  (escape c = u_escape c /\ 0 <= c < 65536) \/
  (exists h l, escape c = u_escape h ++ u_escape l /\ 55296 <= h <= 56319 /\ 56320 <= l <= 57343 /\ 65536 + ((h - 55296) * 1024 + (l - 56320)) = c /\ 65536 <= c).
Proof.
  intros H. unfold char_ok in H. unfold escape.
  destruct (Z.eqb_spec c 34) as [->|]. right. left. exists 34. repeat split; auto; lia.
  destruct (Z.eqb_spec c 92) as [->|]. right. left. exists 92. repeat split; auto; lia.
  destruct (Z.eqb_spec c 10) as [->|]. right. left. exists 110. repeat split; auto; lia.
  destruct (Z.eqb_spec c 13) as [->|]. right. left. exists 114. repeat split; auto; lia.
  destruct (Z.eqb_spec c 9) as [->|]. right. left. exists 116. repeat split; auto; lia.
  destruct (Z.eqb_spec c 12) as [->|]. right. left. exists 102. repeat split; auto; lia.
  destruct (Z.eqb_spec c 8) as [->|]. right. left. exists 98. repeat split; auto; lia.
  destruct (Z.leb_spec 32 c), (Z.leb_spec c 126); cbn [andb].
  1: left; repeat split; auto; lia.
  all: destruct (Z.ltb_spec c 65536); [right; right; left; split; auto; lia|right; right; right].
  all: try lia.
  exists (55296 + (c - 65536) / 1024), (56320 + (c - 65536) mod 1024). split; auto.
  pose proof (Z.div_mod (c - 65536) 1024 ltac:(lia)). pose proof (Z.mod_pos_bound (c - 65536) 1024 ltac:(lia)).
  assert ((c - 65536) / 1024 < 1024) by (apply Z.div_lt_upper_bound; lia). assert (0 <= (c - 65536) / 1024) by (apply Z.div_pos; lia). lia.
Qed.
Lemma escape_nonempty c : (1 <= length (escape c))%nat.
Proof. unfold escape, u_escape. repeat match goal with |- context [if ?b then _ else _] => destruct b end; cbn; lia. Qed.
Lemma escapes_length t : (length t <= length (flat_map escape t))%nat.
Proof. induction t as [|c t IH]; cbn; auto. rewrite app_length. pose proof (escape_nonempty c). lia. Qed.

Lemma joined_cons c t : joined (c :: t) = match t with d :: r => if high c && low d then 65536 + (c - 55296) * 1024 + (d - 56320) :: joined r else c :: joined t | [] => [c] end.
Proof. destruct t; reflexivity. Qed.
Lemma joined_skip c t : high c = false -> joined (c :: t) = c :: joined t.
Proof. intros H. rewrite joined_cons. destruct t; auto. now rewrite H. Qed.

Lemma scan_escapes n : forall t r fuel, (length t <= n)%nat -> (length t < fuel)%nat -> Forall char_ok t -> scan fuel (flat_map escape t ++ 34 :: r) = Some (joined t, r).
Proof.
  induction n as [|n IH]; intros t r fuel Hn Hf Ht.
  - destruct t; [|cbn in Hn; lia]. destruct fuel; [lia|]. reflexivity.
  - destruct t as [|c t]. destruct fuel; [lia|]. reflexivity.
    destruct fuel as [|fuel]; [cbn in Hf; lia|]. cbn [length] in Hn, Hf. inversion_clear Ht as [|? ? Hc Ht'].
    assert (IHt : forall fuel, (length t < fuel)%nat -> scan fuel (flat_map escape t ++ 34 :: r) = Some (joined t, r)) by (intros; apply IH; auto; lia).
    cbn [flat_map]. rewrite <- app_assoc. destruct (escape_cases c Hc) as [(E & B)|[(e & E & E1 & E2 & B & _)|[(E & B)|(h & l & E & Bh & Bl & S & B)]]]; rewrite E.
    + cbn [app scan]. destruct (Z.eqb_spec c 34); [lia|]. destruct (Z.ltb_spec c 32); [lia|]. destruct (Z.eqb_spec c 92); [lia|]. cbn [negb].
      rewrite IHt by lia. rewrite joined_skip; auto. unfold high. destruct (Z.leb_spec 55296 c); auto; lia.
    + cbn [app scan]. change (92 =? 34) with false. change (92 <? 32) with false. change (92 =? 92) with true. cbn [negb].
      destruct (Z.eqb_spec e 117); [congruence|]. cbn [negb]. rewrite E2, IHt by lia. rewrite joined_skip; auto. unfold high. destruct (Z.leb_spec 55296 c); auto; lia.
    + destruct (u_decode_escape c (flat_map escape t ++ 34 :: r) B) as (q & Q & D). rewrite Q. cbn [scan].
      change (92 =? 34) with false. change (92 <? 32) with false. change (92 =? 92) with true. change (117 =? 117) with true. cbn [negb]. rewrite D.
      fold (high c). destruct (high c) eqn:Hh; [|rewrite IHt by lia; now rewrite joined_skip].
      destruct t as [|d t].
      { cbn [flat_map app]. change (after [92; 117] (34 :: r)) with (@None text). pose proof (IH [] r fuel ltac:(cbn; lia) ltac:(cbn in Hf |- *; lia) (Forall_nil _)) as X. cbn [flat_map app] in X. rewrite X. reflexivity. }
      inversion_clear Ht' as [|? ? Hd Ht'']. rewrite joined_cons, Hh. cbn [andb].
      destruct (escape_cases d Hd) as [(E' & B')|[(e & E' & E1' & E2' & B' & _)|[(E' & B')|(h' & l' & E' & Bh' & Bl' & S' & B')]]].
      * assert (L : low d = false) by (unfold low; destruct (Z.leb_spec 56320 d); auto; lia). rewrite L.
        cbn [flat_map]. rewrite <- app_assoc, E'. cbn [app after]. destruct (Z.eqb_spec 92 d); [lia|].
        specialize (IHt fuel ltac:(lia)). cbn [flat_map] in IHt. rewrite <- app_assoc, E' in IHt. cbn [app] in IHt. rewrite IHt. reflexivity.
      * assert (L : low d = false) by (unfold low; destruct (Z.leb_spec 56320 d); auto; lia). rewrite L.
        cbn [flat_map]. rewrite <- app_assoc, E'. cbn [app after]. change (92 =? 92) with true. destruct (Z.eqb_spec 117 e); [congruence|].
        specialize (IHt fuel ltac:(lia)). cbn [flat_map] in IHt. rewrite <- app_assoc, E' in IHt. cbn [app] in IHt. rewrite IHt. reflexivity.
      * cbn [flat_map]. rewrite <- app_assoc, E'. destruct (u_decode_escape d (flat_map escape t ++ 34 :: r) B') as (q' & Q' & D'). rewrite Q'. cbn [after].
        change (92 =? 92) with true. change (117 =? 117) with true. cbv iota. rewrite D'. fold (low d). destruct (low d) eqn:L.
        -- rewrite (IH t r fuel) by (auto; cbn [length] in *; lia). f_equal. f_equal. f_equal. lia.
        -- specialize (IHt fuel ltac:(lia)). cbn [flat_map] in IHt. rewrite <- app_assoc, E', Q' in IHt. rewrite IHt. reflexivity.
      * assert (L : low d = false) by (unfold low; destruct (Z.leb_spec d 57343); [lia|now rewrite andb_false_r]). rewrite L.
        cbn [flat_map]. rewrite <- app_assoc, E', <- app_assoc.
        destruct (u_decode_escape h' (u_escape l' ++ flat_map escape t ++ 34 :: r) ltac:(lia)) as (q' & Q' & D'). rewrite Q'. cbn [after].
        change (92 =? 92) with true. change (117 =? 117) with true. cbv iota. rewrite D'. fold (low h').
        assert (L' : low h' = false) by (unfold low; destruct (Z.leb_spec 56320 h'); auto; lia). rewrite L'.
        specialize (IHt fuel ltac:(lia)). cbn [flat_map] in IHt. rewrite <- app_assoc, E', <- app_assoc, Q' in IHt. rewrite IHt. reflexivity.
    + rewrite <- app_assoc. destruct (u_decode_escape h (u_escape l ++ flat_map escape t ++ 34 :: r) ltac:(lia)) as (q & Q & D). rewrite Q. cbn [scan].
      change (92 =? 34) with false. change (92 <? 32) with false. change (92 =? 92) with true. change (117 =? 117) with true. cbn [negb]. rewrite D.
      fold (high h). assert (Hh : high h = true) by (unfold high; destruct (Z.leb_spec 55296 h), (Z.leb_spec h 56319); auto; lia). rewrite Hh.
      destruct (u_decode_escape l (flat_map escape t ++ 34 :: r) ltac:(lia)) as (q' & Q' & D'). rewrite Q'. cbn [after].
      change (92 =? 92) with true. change (117 =? 117) with true. cbv iota. rewrite D'. fold (low l).
      assert (Hl : low l = true) by (unfold low; destruct (Z.leb_spec 56320 l), (Z.leb_spec l 57343); auto; lia). rewrite Hl.
      rewrite IHt by lia. rewrite S, joined_skip; auto. unfold high. destruct (Z.leb_spec c 56319); [lia|apply andb_false_r].
Qed.
Lemma scan_quoted t r : Forall char_ok t -> exists q, quoted t ++ r = 34 :: q /\ scan (length q) q = Some (joined t, r).
Proof.
  intros H. unfold quoted. exists (flat_map escape t ++ 34 :: r). split; [cbn [app]; now rewrite <- app_assoc|]. apply (scan_escapes (length t)); auto.
  rewrite app_length. cbn. pose proof (escapes_length t). lia.
Qed.
Lemma joined_plain t : plain_text t -> joined t = t.
Proof.
  induction t as [|c t IH]; intros H; auto. inversion_clear H as [|? ? [A B] H']. rewrite joined_skip, IH; auto.
  unfold high, surrogate in *. destruct (Z.leb_spec 55296 c), (Z.leb_spec c 56319); auto; lia.
Qed.

(** ** Numbers *)
Lemma lit_app a b : lit (a ++ b)%string = lit a ++ lit b.
Proof. induction a as [|x a IH]; cbn; auto. now rewrite IH. Qed.
Lemma digit_in_code a d : digit_in 10 a = Some d -> is_digit (Z.of_nat (nat_of_ascii a)) = true /\ Z.of_nat (nat_of_ascii a) - 48 = d.
Proof.
  unfold digit_in, is_digit. set (n := Z.of_nat (nat_of_ascii a)).
  destruct ((48 <=? n) && (n <=? 57)) eqn:E. destruct (Z.ltb_spec (n - 48) 10); intros [= <-]; auto.
  destruct ((97 <=? n) && (n <=? 102)) eqn:E2. apply andb_prop in E2. destruct E2 as [A B]. apply Z.leb_le in A. destruct (Z.ltb_spec (n - 87) 10); [lia|discriminate].
  destruct ((65 <=? n) && (n <=? 70)) eqn:E3. apply andb_prop in E3. destruct E3 as [A B]. apply Z.leb_le in A. destruct (Z.ltb_spec (n - 55) 10); [lia|discriminate].
  discriminate.
Qed.
Lemma digits_in_lit s : forall acc n, digits_in 10 acc s = Some n -> forallb is_digit (lit s) = true /\ fold_left (fun n c => n * 10 + (c - 48)) (lit s) acc = n.
Proof.
  induction s as [|a s IH]; cbn [digits_in lit]; intros acc n H. injection H as <-. auto.
  destruct (digit_in 10 a) as [d|] eqn:E; [|discriminate]. apply digit_in_code in E. destruct E as [E1 E2]. apply IH in H. destruct H as [H1 H2].
  cbn [forallb fold_left]. rewrite E1, H1. split; auto. rewrite E2. rewrite <- H2. f_equal. lia.
Qed.
Lemma digits_app d r : forallb is_digit d = true -> match r with c :: _ => is_digit c = false | [] => True end -> digits (d ++ r) = (d, r).
Proof.
  induction d as [|c d IH]; cbn; intros H R. destruct r as [|c r]; auto. cbn. now rewrite R.
  apply andb_prop in H as [A B]. rewrite A, IH; auto.
Qed.
Definition stops (r : text) : Prop := match r with c :: _ => is_digit c = false /\ c <> 46 /\ c <> 101 /\ c <> 69 | [] => True end.
Lemma stops_digit r : stops r -> match r with c :: _ => is_digit c = false | [] => True end.
Proof. destruct r; cbn; tauto. Qed.
Lemma stops_float r : stops r -> is_float r = false.
Proof. destruct r as [|c [|d r]]; cbn; auto. intros (_ & A & B & C). destruct (Z.eqb_spec c 46), (Z.eqb_spec c 101), (Z.eqb_spec c 69); try congruence; reflexivity. Qed.
Lemma writes_lit s n : GenSpec.writes 10 s n -> forallb is_digit (lit s) = true /\ number_of (lit s) = n /\ lit s <> [].
Proof.
  intros W. pose proof (GenProofs.writes_some 10 s n ltac:(lia) W) as H. unfold some_digits in H. destruct s as [|a s]; [discriminate|].
  apply digits_in_lit in H. destruct H. repeat split; auto. discriminate.
Qed.
Lemma unsigned_str n r : 0 <= n -> stops r -> unsigned (lit (str n) ++ r) = Some (n, r).
Proof.
  intros H R. destruct (Z.eq_dec n 0) as [->|N]. reflexivity.
  destruct (GenProofs.str_writes n H) as [W S0]. specialize (S0 ltac:(lia)). destruct (writes_lit _ _ W) as (A & B & C).
  destruct (str n) as [|a s] eqn:E; [destruct (C eq_refl)|]. unfold unsigned. cbn [lit app].
  destruct (Z.eqb_spec (Z.of_nat (nat_of_ascii a)) 48) as [F|F].
  { exfalso. apply S0. assert (a = "0"%char) as ->. { rewrite <- (ascii_nat_embedding a). replace (nat_of_ascii a) with 48%nat by lia. reflexivity. } exists s. reflexivity. }
  change (Z.of_nat (nat_of_ascii a) :: lit s ++ r) with (lit (String a s) ++ r). rewrite digits_app by (exact A || exact (stops_digit _ R)). cbn [lit]. cbn [lit] in B. rewrite B. reflexivity.
Qed.
Lemma str_head z : exists c q, lit (str z) = c :: q /\ (c = 45 /\ z < 0 \/ is_digit c = true /\ 0 <= z).
Proof.
  destruct (Z_lt_le_dec z 0) as [H|H].
  - destruct (GenProofs.str_neg z H) as (t & E & _). rewrite E. cbn [lit]. eexists _, _. split; [reflexivity|]. left. auto.
  - destruct (GenProofs.str_writes z H) as [W _]. destruct (writes_lit _ _ W) as (A & _ & C). destruct (lit (str z)) as [|c q]; [congruence|].
    cbn in A. apply andb_prop in A. exists c, q. tauto.
Qed.
Lemma number_str z r : stops r -> number (lit (str z) ++ r) = Some (VNum z, r).
Proof.
  intros R. unfold number. destruct (Z_lt_le_dec z 0) as [H|H].
  - destruct (GenProofs.str_neg z H) as (t & E & W & S0). rewrite E. cbn [lit app]. change (Z.of_nat (nat_of_ascii "-") =? 45) with true. cbv iota.
    assert (U : unsigned (lit t ++ r) = Some (- z, r)).
    { destruct (writes_lit _ _ W) as (A & B & C). destruct t as [|a s]; [destruct (C eq_refl)|]. unfold unsigned. cbn [lit app].
      destruct (Z.eqb_spec (Z.of_nat (nat_of_ascii a)) 48) as [F|F].
      { exfalso. apply S0. assert (a = "0"%char) as ->. { rewrite <- (ascii_nat_embedding a). replace (nat_of_ascii a) with 48%nat by lia. reflexivity. } exists s. reflexivity. }
      change (Z.of_nat (nat_of_ascii a) :: lit s ++ r) with (lit (String a s) ++ r). rewrite digits_app by (exact A || exact (stops_digit _ R)). cbn [lit]. cbn [lit] in B. rewrite B. reflexivity. }
    rewrite U. cbn [option_map fst snd]. rewrite stops_float by auto. now rewrite Z.opp_involutive.
  - destruct (str_head z) as (c & q & E & [[_ ?]|[D _]]); [lia|]. pose proof (unsigned_str z r H R) as U. rewrite E in *. cbn [app] in *.
    destruct (Z.eqb_spec c 45) as [->|]; [discriminate|]. rewrite U, stops_float; auto.
Qed.

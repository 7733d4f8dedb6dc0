(** Proofs that what is written to a JSON file is what is read from it. *)
From Coq Require Import String Ascii Bool Arith List ZArith Lia.
From Verif Require Import GenModel SymbolModel JsonModel JsonSpec JsonProofs.
From Verif Require GenProofs.
Import ListNotations.
Local Open Scope Z_scope.

(** ** Dicts *)
Lemma text_eqb_eq a b : text_eqb a b = true <-> a = b.
Proof.
  revert b. induction a as [|x a IH]; intros [|y b]; cbn; split; try discriminate; auto.
  - intros H. apply andb_prop in H as [H1 H2]. apply Z.eqb_eq in H1. apply IH in H2. congruence.
  - intros [= -> ->]. rewrite Z.eqb_refl. cbn. now apply IH.
Qed.
Lemma key_eqb_eq a b : key_eqb a b = true <-> a = b.
Proof.
  destruct a, b; cbn; split; try discriminate.
  - intros H. apply text_eqb_eq in H. congruence.
  - intros [= ->]. now apply text_eqb_eq.
  - intros H. apply Z.eqb_eq in H. congruence.
  - intros [= ->]. apply Z.eqb_refl.
Qed.
Lemma key_eqb_neq a b : a <> b -> key_eqb a b = false.
Proof. intros H. destruct (key_eqb a b) eqn:E; auto. apply key_eqb_eq in E. congruence. Qed.
Lemma key_eqb_refl a : key_eqb a a = true. Proof. now apply key_eqb_eq. Qed.
Lemma update_snoc (d l : list (key * value)) k v : update key_eqb d (l ++ [(k, v)]) = put key_eqb k v (update key_eqb d l).
Proof. unfold update. rewrite fold_left_app. reflexivity. Qed.
Lemma last_of_snoc q l k v : last_of q (l ++ [(k, v)]) = if key_eq_dec k q then Some v else last_of q l.
Proof.
  induction l as [|[k' v'] l IH]; cbn. destruct (key_eq_dec k q); auto.
  rewrite IH. destruct (key_eq_dec k q); auto.
Qed.
Lemma last_of_in q l : In q (map fst l) -> last_of q l <> None.
Proof.
  induction l as [|[k v] l IH]; cbn; intros H; [destruct H|]. destruct (last_of q l) eqn:E; [discriminate|].
  destruct (key_eq_dec k q); [discriminate|]. destruct H as [H|H]; [congruence|]. now specialize (IH H).
Qed.
Lemma firsts_snoc ks k : firsts (ks ++ [k]) = if in_dec key_eq_dec k ks then firsts ks else firsts ks ++ [k].
Proof.
  unfold firsts. rewrite rev_app_distr. change (rev [k] ++ rev ks) with (k :: rev ks). cbn [nodup]. pose proof (in_rev ks k) as R. destruct (in_dec key_eq_dec k (rev ks)) as [I|I], (in_dec key_eq_dec k ks) as [J|J]; auto; tauto.
Qed.
Lemma firsts_in ks k : In k (firsts ks) <-> In k ks.
Proof. unfold firsts. rewrite <- in_rev, nodup_In, <- in_rev. tauto. Qed.
Lemma firsts_nodup ks : NoDup (firsts ks).
Proof. apply NoDup_rev, NoDup_nodup. Qed.
Lemma put_values (f : key -> option value) k v ks : NoDup ks -> (forall q, In q ks -> f q <> None) ->
  put key_eqb k v (flat_map (fun q => match f q with Some x => [(q, x)] | None => [] end) ks) =
  flat_map (fun q => match (if key_eq_dec k q then Some v else f q) with Some x => [(q, x)] | None => [] end) (if in_dec key_eq_dec k ks then ks else ks ++ [k]).
Proof.
  intros N F. induction ks as [|q ks IH]; cbn [flat_map].
  - cbn. destruct (key_eq_dec k k); [reflexivity|congruence].
  - inversion_clear N as [|? ? N1 N2]. specialize (IH N2 ltac:(intros; apply F; right; auto)).
    destruct (f q) as [x|] eqn:E; [|destruct (F q (or_introl eq_refl) E)]. cbn [app put].
    destruct (key_eq_dec k q) as [->|D].
    + rewrite key_eqb_refl. destruct (in_dec key_eq_dec q (q :: ks)) as [_|I]; [|destruct I; left; auto]. cbn [flat_map]. destruct (key_eq_dec q q); [|congruence]. cbn [app].
      f_equal. clear -N1. induction ks as [|p ks IH]; cbn; auto. rewrite IH by (intros H; apply N1; right; auto). destruct (key_eq_dec q p) as [->|]; auto. destruct N1. left. auto.
    + rewrite key_eqb_neq by congruence. rewrite IH. destruct (in_dec key_eq_dec k ks) as [I|I], (in_dec key_eq_dec k (q :: ks)) as [J|J]; try (exfalso; solve [apply J; right; assumption | destruct J; [congruence|contradiction]]).
      all: cbn [flat_map app]; destruct (key_eq_dec k q); [congruence|]; rewrite E; reflexivity.
Qed.
Lemma update_merged (l : list (key * value)) : update key_eqb [] l = merged l.
Proof.
  induction l as [|[k v] l IH] using rev_ind. reflexivity.
  rewrite update_snoc, IH. unfold merged. rewrite put_values. rewrite map_app. cbn [map fst]. rewrite firsts_snoc.
  - destruct (in_dec key_eq_dec k (firsts (map fst l))) as [I|I], (in_dec key_eq_dec k (map fst l)) as [J|J]; try (rewrite firsts_in in I; contradiction);
      apply flat_map_ext; intros q; rewrite last_of_snoc; reflexivity.
  - apply firsts_nodup.
  - intros q H. apply last_of_in. now apply firsts_in.
Qed.
Lemma last_of_notin q l : ~ In q (map fst l) -> last_of q l = None.
Proof. induction l as [|[k v] l IH]; cbn; intros H; auto. rewrite IH by tauto. destruct (key_eq_dec k q); tauto. Qed.
Lemma update_distinct (l : list (key * value)) : forall d, NoDup (map fst (d ++ l)) -> update key_eqb d l = d ++ l.
Proof.
  induction l as [|[k v] l IH]; intros d H. unfold update. cbn. now rewrite app_nil_r.
  unfold update. cbn [fold_left fst snd]. fold (update key_eqb (put key_eqb k v d) l).
  assert (P : put key_eqb k v d = d ++ [(k, v)]).
  { assert (N : ~ In k (map fst d)). { rewrite map_app in H. cbn in H. apply NoDup_remove_2 in H. rewrite in_app_iff in H. tauto. }
    clear -N. induction d as [|[q x] d IH]; cbn; auto. rewrite key_eqb_neq by (intros ->; apply N; left; auto). rewrite IH; auto. intros I. apply N. right. auto. }
  rewrite P, IH by (now rewrite <- app_assoc). now rewrite <- app_assoc.
Qed.
Lemma merged_distinct l : NoDup (map fst l) -> merged l = l.
Proof. intros H. rewrite <- update_merged. apply (update_distinct l []). auto. Qed.

(** ** Reading what was written *)
Fixpoint value_rec_all (P : value -> Prop) (ht : forall t, P (VText t)) (hn : forall z, P (VNum z)) (hb : forall b, P (VBool b)) (h0 : P VNull)
  (hl : forall l, Forall P l -> P (VList l)) (hd : forall d, Forall (fun kv => P (snd kv)) d -> P (VDict d)) (v : value) : P v :=
  match v with
  | VText t => ht t | VNum z => hn z | VBool b => hb b | VNull => h0
  | VList l => hl l ((fix go l := match l return Forall P l with [] => Forall_nil _ | x :: r => Forall_cons _ (value_rec_all P ht hn hb h0 hl hd x) (go r) end) l)
  | VDict d => hd d ((fix go (d : list (key * value)) := match d return Forall (fun kv => P (snd kv)) d with [] => Forall_nil _ | x :: r => Forall_cons _ (value_rec_all P ht hn hb h0 hl hd (snd x)) (go r) end) d)
  end.
Definition space (c : Z) : bool := (c =? 32) || (c =? 9) || (c =? 10) || (c =? 13).
Lemma skip_other c r : space c = false -> skip (c :: r) = c :: r.
Proof. intros H. cbn. unfold space in H. now rewrite H. Qed.
Lemma skip_newline n r : skip (newline n ++ r) = skip r.
Proof. unfold newline. cbn [app skip]. cbn [Z.eqb Pos.eqb orb]. induction (4 * n)%nat as [|m IH]; cbn; auto. Qed.
Fixpoint weight (v : value) : nat :=
  match v with
  | VList l => S (fold_right (fun x n => S (weight x + n)) 0%nat l)
  | VDict d => S (fold_right (fun kv n => S (weight (snd kv) + n)) 0%nat d)
  | _ => 1
  end.
Lemma items_length n l : (length (concat l) + length l <= length (items n l))%nat.
Proof.
  induction l as [|x [|y l] IH]; [auto| |].
  - cbn. rewrite !app_length. cbn. lia.
  - set (z := y :: l) in *. change (length (x ++ concat z) + S (length z) <= length (newline n ++ x ++ 44%Z :: items n z))%nat.
    rewrite !app_length. cbn [length]. unfold newline. cbn [length]. lia.
Qed.
Lemma str_length z : (1 <= length (lit (str z)))%nat.
Proof. destruct (str_head z) as (c & q & -> & _). cbn. lia. Qed.
Lemma weight_length v : forall n, (weight v <= length (dump n v))%nat.
Proof.
  induction v as [t|z|b| |l IH|d IH] using value_rec_all; intros n.
  - cbn. rewrite app_length. cbn. lia.
  - apply str_length.
  - destruct b; cbn; lia.
  - cbn. lia.
  - destruct l as [|x l]. cbn. lia. set (l' := x :: l) in *. change (dump n (VList l')) with (91 :: items (S n) (map (dump (S n)) l') ++ newline n ++ [93]).
    cbn [weight length]. rewrite !app_length. pose proof (items_length (S n) (map (dump (S n)) l')) as I. rewrite map_length in I.
    assert (fold_right (fun x n => S (weight x + n)) 0%nat l' <= length (concat (map (dump (S n)) l')) + length l')%nat; [|lia].
    clear I. clearbody l'. clear x l. induction IH as [|x l H _ IH']; cbn; auto. rewrite app_length. specialize (H (S n)). lia.
  - destruct d as [|x d]. cbn. lia. set (d' := x :: d) in *. set (f := fun kv : key * value => quoted (key_text (fst kv)) ++ [58; 32] ++ dump (S n) (snd kv)).
    change (dump n (VDict d')) with (123 :: items (S n) (map f d') ++ newline n ++ [125]).
    cbn [weight length]. rewrite !app_length. pose proof (items_length (S n) (map f d')) as I. rewrite map_length in I.
    assert (fold_right (fun kv n => S (weight (snd kv) + n)) 0%nat d' <= length (concat (map f d')) + length d')%nat; [|lia].
    clear I. clearbody d'. clear x d. induction IH as [|x l H _ IH']; cbn [map concat fold_right length]; auto. rewrite app_length. unfold f at 1. rewrite !app_length. specialize (H (S n)). cbn [fst snd] in *. lia.
Qed.
(** What may follow a value in a file. *)
Definition ends (r : text) : Prop := match r with [] => True | c :: _ => c = 44 \/ c = 10 end.
Lemma ends_stops r : ends r -> stops r.
Proof. destruct r as [|c r]; cbn; auto. intros [->| ->]; repeat split; auto; discriminate. Qed.
Lemma dump_head n v : exists c q, dump n v = c :: q /\ space c = false /\ c <> 93.
Proof.
  destruct v as [t|z|b| |[|x l]|[|x d]]; try (eexists _, _; split; [reflexivity|split; [reflexivity|discriminate]]).
  - destruct (str_head z) as (c & q & E & H). exists c, q. split; [exact E|]. unfold space. destruct H as [[-> _]|[D _]]; [split; [reflexivity|discriminate]|].
    unfold is_digit in D. apply andb_prop in D as [A B]. apply Z.leb_le in A, B. destruct (Z.eqb_spec c 32), (Z.eqb_spec c 9), (Z.eqb_spec c 10), (Z.eqb_spec c 13); cbn; split; auto; lia.
  - destruct b; eexists _, _; (split; [reflexivity|split; [reflexivity|discriminate]]).
Qed.
Lemma newline_ends n r : ends (newline n ++ r). Proof. right. reflexivity. Qed.
Lemma after_other a c r : c <> a -> after [a] (c :: r) = None.
Proof. intros H. cbn [after]. destruct (Z.eqb_spec a c); congruence. Qed.
Lemma after_comma c r : after [c] (c :: r) = Some r. Proof. cbn. now rewrite Z.eqb_refl. Qed.

Lemma elements_items n l : l <> [] ->
  Forall (fun v => value_ok v -> forall k r fuel, (weight v <= fuel)%nat -> ends r -> parse fuel (dump k v ++ r) = Some (seen v, r)) l ->
  fold_right (fun x p => value_ok x /\ p) True l -> forall fuel q, (fold_right (fun x n => S (weight x + n)) 0 l <= fuel)%nat ->
  elements fuel (skip (items (S n) (map (dump (S n)) l) ++ newline n ++ 93 :: q)) = Some (map seen l, q).
Proof.
  induction l as [|v l IHl]; [congruence|]. intros _ H Ok fuel q F. inversion_clear H as [|? ? Hv Hl]. cbn [fold_right] in Ok, F. destruct Ok as [Okv Okl].
  destruct fuel as [|fuel]; [lia|]. cbn [map]. destruct (dump_head (S n) v) as (c & w & E & Sp & _).
  destruct l as [|x l].
  - cbn [map items]. rewrite <- app_assoc, skip_newline. rewrite E. cbn [app]. rewrite skip_other by auto. change (c :: w ++ newline n ++ 93 :: q) with ((c :: w) ++ newline n ++ 93 :: q). rewrite <- E.
    cbn [elements]. rewrite Hv by (auto using newline_ends; cbn in F; lia). rewrite skip_newline. reflexivity.
  - set (rest := items (S n) (map (dump (S n)) (x :: l)) ++ newline n ++ 93 :: q).
    assert (G : items (S n) (dump (S n) v :: map (dump (S n)) (x :: l)) ++ newline n ++ 93 :: q = newline (S n) ++ dump (S n) v ++ 44 :: rest).
    { change (items (S n) (dump (S n) v :: map (dump (S n)) (x :: l))) with (newline (S n) ++ dump (S n) v ++ 44 :: items (S n) (map (dump (S n)) (x :: l))). unfold rest. now rewrite <- !app_assoc. }
    rewrite G, skip_newline. assert (Sk : skip (dump (S n) v ++ 44 :: rest) = dump (S n) v ++ 44 :: rest) by (rewrite E; cbn [app]; apply skip_other; auto). rewrite Sk.
    cbn [elements]. rewrite Hv by (auto; cbn; auto; cbn in F; lia).
    rewrite skip_other by reflexivity. change (after [93] (44 :: rest)) with (@None text). rewrite after_comma. unfold rest.
    rewrite IHl; auto; [discriminate|cbn in *; lia].
Qed.
Definition key_ok (k : key) : Prop := match k with KText t => Forall char_ok t | KNum _ => True end.
Lemma str_chars z : Forall char_ok (lit (str z)).
Proof.
  assert (G : forall s, Forall char_ok (lit s)). { induction s as [|a s IH]; cbn; constructor; auto. unfold char_ok. pose proof (nat_ascii_bounded a). lia. }
  apply G.
Qed.
Lemma key_text_ok k : key_ok k -> Forall char_ok (key_text k).
Proof. destruct k; cbn; auto. intros _. apply str_chars. Qed.
Lemma members_items n d : d <> [] ->
  Forall (fun kv => value_ok (snd kv) -> forall k r fuel, (weight (snd kv) <= fuel)%nat -> ends r -> parse fuel (dump k (snd kv) ++ r) = Some (seen (snd kv), r)) d ->
  fold_right (fun kv p => (key_ok (fst kv) /\ value_ok (snd kv)) /\ p) True d -> forall fuel q, (fold_right (fun kv n => S (weight (snd kv) + n)) 0 d <= fuel)%nat ->
  members fuel (skip (items (S n) (map (fun kv : key * value => quoted (key_text (fst kv)) ++ [58; 32] ++ dump (S n) (snd kv)) d) ++ newline n ++ 125 :: q)) =
  Some (map (fun kv => (KText (joined (key_text (fst kv))), seen (snd kv))) d, q).
Proof.
  induction d as [|[k v] d IHd]; [congruence|]. intros _ H Ok fuel q F. inversion_clear H as [|? ? Hv Hd]. cbn [fold_right fst snd] in *. destruct Ok as [[Okk Okv] Okd].
  destruct fuel as [|fuel]; [lia|]. cbn [map fst snd]. destruct (dump_head (S n) v) as (c & w & E & Sp & _). specialize (Hv Okv (S n)).
  set (f := fun kv : key * value => quoted (key_text (fst kv)) ++ [58; 32] ++ dump (S n) (snd kv)) in *.
  assert (M : forall rest, ends rest -> forall fuel', (weight v <= fuel')%nat ->
     members (S fuel') (skip (quoted (key_text k) ++ [58; 32] ++ dump (S n) v ++ rest)) =
     match after [125] (skip rest), after [44] (skip rest) with
     | Some q, _ => Some ([(KText (joined (key_text k)), seen v)], q)
     | _, Some q => match members fuel' (skip q) with Some (l, q) => Some ((KText (joined (key_text k)), seen v) :: l, q) | None => None end
     | _, _ => None
     end).
  { intros rest Er fuel' Fw. destruct (scan_quoted (key_text k) ([58; 32] ++ dump (S n) v ++ rest) (key_text_ok k Okk)) as (p & P & Sc). rewrite P. rewrite skip_other by reflexivity.
    cbn [members]. rewrite after_comma, Sc. cbn [app]. rewrite skip_other by reflexivity. rewrite after_comma. change (skip (32 :: dump (S n) v ++ rest)) with (skip (dump (S n) v ++ rest)).
    rewrite E. cbn [app]. rewrite skip_other by auto. change (c :: w ++ rest) with ((c :: w) ++ rest). rewrite <- E. rewrite Hv; auto. }
  destruct d as [|x d].
  - cbn [map items]. rewrite <- app_assoc, skip_newline. rewrite <- !app_assoc. rewrite M by (auto using newline_ends; cbn in F; lia). rewrite skip_newline. reflexivity.
  - set (rest := items (S n) (map f (x :: d)) ++ newline n ++ 125 :: q).
    assert (G : items (S n) ((quoted (key_text k) ++ [58; 32] ++ dump (S n) v) :: map f (x :: d)) ++ newline n ++ 125 :: q = newline (S n) ++ quoted (key_text k) ++ [58; 32] ++ dump (S n) v ++ 44 :: rest).
    { change (items (S n) ((quoted (key_text k) ++ [58; 32] ++ dump (S n) v) :: map f (x :: d))) with (newline (S n) ++ (quoted (key_text k) ++ [58; 32] ++ dump (S n) v) ++ 44 :: items (S n) (map f (x :: d))). unfold rest. now rewrite <- !app_assoc. }
    rewrite G, skip_newline. rewrite M by (cbn in F |- *; auto; lia).
    rewrite skip_other by reflexivity. change (after [125] (44 :: rest)) with (@None text). rewrite after_comma. unfold rest.
    rewrite IHd; auto; [discriminate|cbn in *; lia].
Qed.
Lemma parse_dump v : value_ok v -> forall n r fuel, (weight v <= fuel)%nat -> ends r -> parse fuel (dump n v ++ r) = Some (seen v, r).
Proof.
  induction v as [t|z|b| |l IH|d IH] using value_rec_all; intros Ok n r fuel F E; (destruct fuel as [|fuel]; [cbn in F; lia|]).
  - cbn [dump]. destruct (scan_quoted t r Ok) as (q & Q & Sc). rewrite Q. cbn [parse]. change (34 =? 34) with true. cbv iota. rewrite Sc. reflexivity.
  - cbn [dump seen]. pose proof (number_str z r (ends_stops r E)) as N. destruct (str_head z) as (c & q & Q & H). rewrite Q in *. cbn [app] in *.
    assert (C : c = 45 \/ 48 <= c <= 57). { destruct H as [[-> _]|[D _]]; auto. unfold is_digit in D. apply andb_prop in D as [A B]. apply Z.leb_le in A, B. auto. }
    cbn [parse]. destruct (Z.eqb_spec c 34); [lia|]. destruct (Z.eqb_spec c 123); [lia|]. destruct (Z.eqb_spec c 91); [lia|].
    assert (A' : forall s a, lit s = a :: tl (lit s) -> a <> c -> after (lit s) (c :: q ++ r) = None).
    { intros s a L D. rewrite L. cbn. destruct (Z.eqb_spec a c); congruence. }
    rewrite (A' "null"%string 110), (A' "true"%string 116), (A' "false"%string 102) by (reflexivity || lia). exact N.
  - destruct b; reflexivity.
  - reflexivity.
  - destruct l as [|x l]. reflexivity. set (l' := x :: l) in *. change (dump n (VList l')) with (91 :: items (S n) (map (dump (S n)) l') ++ newline n ++ [93]).
    cbn [app parse]. change (91 =? 34) with false. change (91 =? 123) with false. change (91 =? 91) with true. cbv iota. rewrite <- !app_assoc. cbn [app].
    assert (A : after [93] (skip (items (S n) (map (dump (S n)) l') ++ newline n ++ 93 :: r)) = None).
    { unfold l'. cbn [map items]. destruct (dump_head (S n) x) as (c & w & Ec & Sp & N93).
      destruct (map (dump (S n)) l); rewrite <- app_assoc, skip_newline, Ec; cbn [app]; rewrite skip_other by auto; apply after_other; auto. }
    rewrite A. rewrite elements_items; auto. unfold l'. discriminate. cbn [weight] in F. lia.
  - destruct d as [|x d]. reflexivity. set (d' := x :: d) in *. set (f := fun kv : key * value => quoted (key_text (fst kv)) ++ [58; 32] ++ dump (S n) (snd kv)).
    change (dump n (VDict d')) with (123 :: items (S n) (map f d') ++ newline n ++ [125]).
    cbn [app parse]. change (123 =? 34) with false. change (123 =? 123) with true. cbv iota. rewrite <- !app_assoc. cbn [app].
    assert (A : after [125] (skip (items (S n) (map f d') ++ newline n ++ 125 :: r)) = None).
    { unfold d'. cbn [map items]. destruct (map f d); rewrite <- app_assoc, skip_newline; reflexivity. }
    rewrite A. unfold f. rewrite members_items; auto. cbn [seen]. unfold dict_of. rewrite update_merged. reflexivity.
    unfold d'. discriminate. cbn [weight] in F. lia.
Qed.
Lemma loads_dump v : value_ok v -> loads (dump 0 v) = Some (seen v).
Proof.
  intros H. unfold loads. destruct (dump_head 0 v) as (c & q & E & Sp & _). rewrite E, skip_other, <- E by auto.
  rewrite <- (app_nil_r (dump 0 v)) at 2. rewrite parse_dump; cbn; auto. pose proof (weight_length v 0). lia.
Qed.

(** ** The characters of a file *)
Lemma lit_printable s : (forall a, In a (list_ascii_of_string s) -> (32 <= nat_of_ascii a <= 126)%nat) -> Forall printable (lit s).
Proof.
  induction s as [|a s IH]; cbn; intros H; constructor. left. specialize (H a (or_introl eq_refl)). lia. apply IH. intros; apply H; auto.
Qed.
Lemma u_escape_printable n : Forall printable (u_escape n).
Proof.
  unfold u_escape. assert (forall d, printable (hex (d mod 16))). { intros d. left. apply hex_printable. apply Z.mod_pos_bound. lia. }
  apply Forall_cons; [left; lia|]. apply Forall_cons; [left; lia|]. apply Forall_cons; [apply H|]. apply Forall_cons; [apply H|]. apply Forall_cons; [apply H|]. apply Forall_cons; [apply H|]. constructor.
Qed.
Lemma one_printable c : 32 <= c <= 126 -> Forall printable [c].
Proof. intros H. apply Forall_cons; [left; auto|constructor]. Qed.
Lemma two_printable a b : 32 <= a <= 126 -> 32 <= b <= 126 -> Forall printable [a; b].
Proof. intros A B. apply Forall_cons; [left; auto|now apply one_printable]. Qed.
Lemma escape_printable c : char_ok c -> Forall printable (escape c).
Proof.
  intros H. destruct (escape_cases c H) as [(E & B)|[(e & E & _ & _ & _ & B)|[(E & _)|(h & l & E & _)]]]; rewrite E.
  - apply one_printable. lia.
  - apply two_printable; lia.
  - apply u_escape_printable.
  - apply Forall_app. split; apply u_escape_printable.
Qed.
Lemma quoted_printable t : Forall char_ok t -> Forall printable (quoted t).
Proof.
  intros H. unfold quoted. constructor. left. lia. apply Forall_app. split; [|apply one_printable; lia].
  induction H; cbn; auto. apply Forall_app. split; auto using escape_printable.
Qed.
Lemma newline_printable n : Forall printable (newline n).
Proof. unfold newline. constructor. right. auto. apply Forall_forall. intros x H. apply repeat_spec in H. subst. left. lia. Qed.
Lemma items_printable n l : Forall (Forall printable) l -> Forall printable (items n l).
Proof.
  induction 1 as [|x l H _ IH]. constructor. destruct l as [|y l].
  - change (Forall printable (newline n ++ x)). apply Forall_app. split; auto using newline_printable.
  - change (Forall printable (newline n ++ x ++ 44 :: items n (y :: l))). repeat (apply Forall_app; split); auto using newline_printable. constructor; auto. left. lia.
Qed.
Lemma str_printable z : Forall printable (lit (str z)).
Proof.
  destruct (Z_lt_le_dec z 0) as [H|H].
  - destruct (GenProofs.str_neg z H) as (t & -> & W & _). destruct (writes_lit _ _ W) as (A & _). cbn [lit]. constructor. left. cbn. lia.
    apply Forall_forall. intros c Hc. rewrite forallb_forall in A. specialize (A c Hc). unfold is_digit in A. apply andb_prop in A as [A B]. apply Z.leb_le in A, B. left. lia.
  - destruct (GenProofs.str_writes z H) as [W _]. destruct (writes_lit _ _ W) as (A & _).
    apply Forall_forall. intros c Hc. rewrite forallb_forall in A. specialize (A c Hc). unfold is_digit in A. apply andb_prop in A as [A B]. apply Z.leb_le in A, B. left. lia.
Qed.
Lemma dump_printable v : value_ok v -> forall n, Forall printable (dump n v).
Proof.
  induction v as [t|z|b| |l IH|d IH] using value_rec_all; intros Ok n.
  - apply quoted_printable. auto.
  - apply str_printable.
  - destruct b; apply lit_printable; cbn; intuition (subst; cbn; lia).
  - apply lit_printable; cbn; intuition (subst; cbn; lia).
  - destruct l as [|x l]. change (Forall printable [91; 93]). apply two_printable; lia. set (l' := x :: l) in *. change (dump n (VList l')) with (91 :: items (S n) (map (dump (S n)) l') ++ newline n ++ [93]).
    constructor. left. lia. repeat (apply Forall_app; split); auto using newline_printable; [|apply one_printable; lia].
    apply items_printable. cbn [value_ok] in Ok. clearbody l'. clear x l. induction IH as [|x l H _ IH']; cbn in *; constructor; [apply H|apply IH']; tauto.
  - destruct d as [|x d]. change (Forall printable [123; 125]). apply two_printable; lia. set (d' := x :: d) in *. set (f := fun kv : key * value => quoted (key_text (fst kv)) ++ [58; 32] ++ dump (S n) (snd kv)).
    change (dump n (VDict d')) with (123 :: items (S n) (map f d') ++ newline n ++ [125]).
    constructor. left. lia. repeat (apply Forall_app; split); auto using newline_printable; [|apply one_printable; lia].
    apply items_printable. cbn [value_ok] in Ok. clearbody d'. clear x d. induction IH as [|[k v] l H _ IH']; cbn [map fold_right fst snd] in *; constructor; [|apply IH'; tauto].
    unfold f. cbn [fst snd]. destruct Ok as [[Hk Hv] _]. repeat (apply Forall_app; split). apply quoted_printable, key_text_ok. exact Hk. apply two_printable; lia. apply H. auto.
Qed.
Lemma from_to_file crlf t : Forall printable t -> from_file (to_file crlf t) = t.
Proof.
  induction 1 as [|c t H _ IH]; auto. unfold to_file. cbn [flat_map]. fold (to_file crlf t).
  assert (c <> 13) by (destruct H; lia). destruct crlf; cbn [andb].
  - destruct (Z.eqb_spec c 10) as [->|]; cbn [app from_file].
    + change (13 =? 13) with true. cbv iota. change (10 =? 10) with true. cbv iota. now rewrite IH.
    + destruct (Z.eqb_spec c 13); [congruence|]. now rewrite IH.
  - cbn [app from_file]. destruct (Z.eqb_spec c 13); [congruence|]. now rewrite IH.
Qed.

(** ** Plain values *)
Lemma plain_text_ok t : plain_text t -> Forall char_ok t.
Proof. apply Forall_impl. tauto. Qed.
Lemma plain_ok v : plain v -> value_ok v.
Proof.
  induction v as [t|z|b| |l IH|d IH] using value_rec_all; cbn; auto using plain_text_ok.
  - induction IH as [|x l H _ IH']; cbn in *; auto. intros [A B]. auto.
  - intros [_ P]. induction IH as [|[k v] l H _ IH']; cbn in *; auto. destruct P as [[A B] C]. repeat split; auto. destruct k; auto. now apply plain_text_ok.
Qed.
Lemma plain_seen v : plain v -> seen v = v.
Proof.
  induction v as [t|z|b| |l IH|d IH] using value_rec_all; cbn [plain seen]; auto.
  - intros H. now rewrite joined_plain.
  - intros H. f_equal. induction IH as [|x l Hx _ IH']; cbn in *; auto. destruct H. f_equal; auto.
  - intros [N P]. f_equal. assert (E : map (fun kv : key * value => (KText (joined match fst kv with KText t => t | KNum z => lit (str z) end), seen (snd kv))) d = d).
    { clear N. induction IH as [|[k v] l Hx _ IH']; cbn [map fold_right fst snd] in *; auto. destruct P as [[A B] C]. f_equal; auto. destruct k as [t|z]; [|destruct A]. now rewrite joined_plain, Hx. }
    rewrite E. now apply merged_distinct.
Qed.

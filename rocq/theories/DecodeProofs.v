(** Logs that are cut short. *)
From Coq Require Import String Ascii Bool Arith List NArith ZArith Lia.
From Verif Require Import MipiModel MipiSpec MipiProofs MipiProofs2 ChainModel DecodeModel DecodeSpec.
Import ListNotations.
Local Open Scope N_scope.

Lemma file_reader_whole n content : n <> 0%nat -> file_reader n content = content.
Proof.
  intro Hn. unfold file_reader.
  assert (H : forall turns l, (length l < turns)%nat -> read_chunks turns n l = l).
  { induction turns as [|turns IH]; intros l Hl; [lia|]. cbn [read_chunks].
    destruct l as [|x l]; [now rewrite firstn_nil|].
    destruct n as [|n]; [congruence|]. cbn [firstn]. rewrite IH; [cbn [skipn app]; now rewrite firstn_skipn|].
    rewrite skipn_length. cbn [length] in *. lia. }
  apply H. lia.
Qed.

(** ** Reading from the front of a list *)
(** What is read stays the same if more follows, unless all was used. *)
Definition keeps {A} (f : list N -> py (A * list N)) : Prop :=
  forall a b v rest, f a = Ok (v, rest) -> rest <> [] -> f (a ++ b) = Ok (v, rest ++ b).
(** And then too, up to what is left. *)
Definition safe {A} (f : list N -> py (A * list N)) : Prop :=
  forall a b v rest, f a = Ok (v, rest) -> exists rest', f (a ++ b) = Ok (v, rest') /\ (rest = [] \/ rest' = rest ++ b).

Lemma skipn_nonempty {A} n (a b : list A) : skipn n a <> [] -> firstn n (a ++ b) = firstn n a /\ skipn n (a ++ b) = skipn n a ++ b.
Proof.
  intro H. assert (L : (n < length a)%nat) by (destruct (Nat.lt_ge_cases n (length a)); auto; rewrite skipn_all2 in H by lia; congruence).
  rewrite firstn_app, skipn_app. replace (n - length a)%nat with 0%nat by lia. now rewrite firstn_O, app_nil_r.
Qed.
(** A read of some bytes that are then converted. *)
Definition reads {A} (n : nat) (conv : list N -> py A) (reader : list N) : py (A * list N) :=
  let (seq, rest) := islice n reader in do v <- conv seq; Ok (v, rest).
Lemma reads_keeps {A} n (conv : list N -> py A) : keeps (reads n conv).
Proof.
  intros a b v rest H Hr. unfold reads, islice in *. destruct (conv (firstn n a)) as [w|] eqn:E; [|discriminate]. cbn in H.
  injection H as -> <-. destruct (skipn_nonempty n a b Hr) as [-> ->]. rewrite E. reflexivity.
Qed.
Lemma reads_safe {A} n (conv : list N -> py A) :
  (forall s t v, (length (s ++ t) <= n)%nat -> conv s = Ok v -> conv (s ++ t) = Ok v) -> safe (reads n conv).
Proof.
  intros Hc a b v rest H. destruct (list_eq_dec N.eq_dec rest []) as [->|Hr].
  2:{ exists (rest ++ b). split; [|now right]. exact (reads_keeps n conv a b v rest H Hr). }
  exists (skipn n (a ++ b)). split; [|now left]. unfold reads, islice in *.
  destruct (conv (firstn n a)) as [w|] eqn:E; [|discriminate]. cbn in H. injection H as -> Hs.
  rewrite firstn_app, (Hc _ _ v); auto.
  rewrite <- firstn_app. apply firstn_le_length.
Qed.
Lemma bind_keeps {A B} (f : list N -> py (A * list N)) (g : A -> list N -> py (B * list N)) :
  keeps f -> (forall x, keeps (g x)) -> (forall x v rest, g x [] = Ok (v, rest) -> rest = []) ->
  keeps (fun r => match f r with Ok (x, r') => g x r' | Raised => Raised end).
Proof.
  intros Hf Hg Hn a b v rest H Hr. destruct (f a) as [[x r']|] eqn:E; [|discriminate].
  rewrite (Hf a b x r' E); [exact (Hg x r' b v rest H Hr)|]. intros ->. apply Hr. exact (Hn x v rest H).
Qed.
Lemma bind_safe {A B} (f : list N -> py (A * list N)) (g : A -> list N -> py (B * list N)) :
  safe f -> (forall x, safe (g x)) -> (forall x, g x [] = Raised \/ exists w, forall r, g x r = Ok (w, r)) ->
  safe (fun r => match f r with Ok (x, r') => g x r' | Raised => Raised end).
Proof.
  intros Hf Hg Hn a b v rest H. destruct (f a) as [[x r']|] eqn:E; [|discriminate].
  destruct (Hf a b x r' E) as (r2 & E2 & [->| ->]); rewrite E2.
  - destruct (Hn x) as [C|[w C]]; [congruence|]. rewrite C in *. injection H as -> <-. exists r2. auto.
  - exact (Hg x r' b v rest H).
Qed.

(** ** Converting *)
Definition fsize (f : fmt) : nat := match f with Fc => 1 | Fs n | Fu n | Ff n => n end.
Lemma unpack_as_length f l v : unpack_as f l = Ok v -> length l = fsize f.
Proof.
  intro H. destruct f; cbn in H; unfold unpack in H;
    match type of H with context[Nat.eqb ?x ?y] => destruct (Nat.eqb_spec x y) end; try discriminate; auto.
Qed.
Lemma format_table_size c sz f : format_table c = Some (sz, f) -> sz = fsize f /\ (1 <= sz)%nat.
Proof.
  unfold format_table. intro H.
  repeat match type of H with (if ?x then _ else _) = _ => destruct x; [injection H as <- <-; cbn; lia|] end. discriminate.
Qed.
Definition long_type (c : string) : bool := (c =? "long")%string || (c =? "unsigned long")%string.
Lemma convert_app c s t v : (long_type c = true -> (length (s ++ t) < 8)%nat) -> convert c s = Ok v -> convert c (s ++ t) = Ok v.
Proof.
  intros Hl H. unfold convert in *. destruct (format_table c) as [[sz f]|] eqn:E; [|discriminate].
  destruct (format_table_size c sz f E) as [Hs _].
  fold (long_type c) in *.
  assert (A : long_type c && Nat.eqb (length s) 8 = false).
  { destruct (long_type c); [|reflexivity]. apply Nat.eqb_neq. specialize (Hl eq_refl). rewrite app_length in Hl. lia. }
  assert (B : long_type c && Nat.eqb (length (s ++ t)) 8 = false).
  { destruct (long_type c); [|reflexivity]. apply Nat.eqb_neq. specialize (Hl eq_refl). lia. }
  rewrite A in H. rewrite B. destruct (unpack_as f (firstn sz s)) as [w|] eqn:U; [|discriminate].
  assert (L := unpack_as_length _ _ _ U). rewrite firstn_length in L.
  rewrite firstn_app. replace (sz - length s)%nat with 0%nat by lia. rewrite firstn_O, app_nil_r, U. exact H.
Qed.
Lemma convert_nil c : convert c [] = Raised.
Proof.
  unfold convert. destruct (format_table c) as [[sz f]|] eqn:E; [|reflexivity].
  destruct (format_table_size c sz f E) as [Hs Hp]. rewrite andb_false_r, firstn_nil.
  destruct (unpack_as f []) as [w|] eqn:U; [|reflexivity]. apply unpack_as_length in U. cbn in U. lia.
Qed.
Lemma enum_convert_app db e c s t v : (long_type c = true -> (length (s ++ t) < 8)%nat) -> enum_convert db e c s = Ok v -> enum_convert db e c (s ++ t) = Ok v.
Proof.
  intros Hl H. unfold enum_convert in *. destruct (convert c s) as [w|] eqn:E; [|discriminate]. now rewrite (convert_app c s t w Hl E).
Qed.

(** ** Arguments *)
(** Whatever the text of the type, an argument is some bytes, converted. *)
Lemma extract_arg_reads db arg : (exists n conv, (n = 4 \/ n = 8)%nat /\ conv [] = Raised /\ forall r, extract_arg db r arg = reads n conv r) \/
  forall r, extract_arg db r arg = Raised.
Proof.
  unfold extract_arg. destruct (split "<" (but_last arg)) as [|tag [|spec [|x l]]]; auto.
  destruct (tag =? "encode_enum")%string.
  - destruct (split "," spec) as [|ct [|un [|sz [|x l]]]]; auto.
    unfold parse_size. destruct (strip sz =? "4")%string; [|destruct (strip sz =? "8")%string; [|auto]]; left.
    + exists 4%nat, (enum_convert db ct (strip un)). split; auto. split; [unfold enum_convert; now rewrite convert_nil|reflexivity].
    + exists 8%nat, (enum_convert db ct (strip un)). split; auto. split; [unfold enum_convert; now rewrite convert_nil|reflexivity].
  - unfold encoding_reader.
    assert (L : forall n, (n = 4 \/ n = 8)%nat -> exists m conv, (m = 4 \/ m = 8)%nat /\ conv [] = Raised /\ forall r,
      (let (seq, rest) := islice n r in
       do v <- match format_table spec with Some _ => convert spec seq
               | None => enum_convert db spec (if Nat.eqb n 4 then "unsigned int" else "unsigned long long") seq end;
       Ok (v, rest)) = reads m conv r).
    { intros n Hn. exists n, (fun seq => match format_table spec with Some _ => convert spec seq
               | None => enum_convert db spec (if Nat.eqb n 4 then "unsigned int" else "unsigned long long") seq end).
      split; auto. split; [|reflexivity]. unfold enum_convert. rewrite !convert_nil. destruct (format_table spec); reflexivity. }
    destruct (tag =? "encode_u32")%string; [left; apply L; auto|].
    destruct (tag =? "encode_32")%string; [left; apply L; auto|].
    destruct (tag =? "encode_u64")%string; [left; apply L; auto|].
    destruct (tag =? "encode_64")%string; [left; apply L; auto|auto].
Qed.
Lemma extract_arg_keeps db arg : keeps (fun r => extract_arg db r arg).
Proof.
  destruct (extract_arg_reads db arg) as [(n & conv & _ & _ & H)|H]; intros a b v rest E Hr.
  - rewrite H in *. exact (reads_keeps n conv a b v rest E Hr).
  - rewrite H in E. discriminate.
Qed.
Lemma extract_arg_nil db arg : extract_arg db [] arg = Raised.
Proof.
  destruct (extract_arg_reads db arg) as [(n & conv & _ & Hc & H)|H]; [|apply H].
  rewrite H. unfold reads, islice. rewrite firstn_nil, Hc. reflexivity.
Qed.
Lemma extract_args_keeps db args : keeps (fun r => extract_args db r args).
Proof.
  induction args as [|x args IH]; intros a b v rest H Hr; cbn [extract_args] in *.
  - injection H as <- <-. reflexivity.
  - destruct (extract_arg db a x) as [[w r]|] eqn:E; [|discriminate]. cbn [py_bind] in H.
    destruct (extract_args db r args) as [[ws r']|] eqn:E2; [|discriminate]. cbn in H. injection H as <- <-.
    assert (Hr2 : r <> []).
    { intros ->. destruct args as [|y args]; cbn [extract_args] in E2; [injection E2 as _ <-; congruence|].
      rewrite extract_arg_nil in E2. discriminate. }
    rewrite (extract_arg_keeps db x a b w r E Hr2). cbn [py_bind]. rewrite (IH r b ws r' E2 Hr). reflexivity.
Qed.
(** The text of the argument can be cut. *)
Definition arg_safe (db : database) (arg : string) : Prop := safe (fun r => extract_arg db r arg).
Lemma extract_args_safe db args : Forall (arg_safe db) args -> safe (fun r => extract_args db r args).
Proof.
  induction 1 as [|x args Hx _ IH]; intros a b v rest H; cbn [extract_args] in *.
  - injection H as <- <-. eexists. split; [reflexivity|]. now right.
  - destruct (extract_arg db a x) as [[w r]|] eqn:E; [|discriminate]. cbn [py_bind] in H.
    destruct (extract_args db r args) as [[ws r']|] eqn:E2; [|discriminate]. cbn in H. injection H as <- <-.
    destruct (Hx a b w r E) as (r2 & E3 & [->| ->]); rewrite E3; cbn [py_bind].
    + destruct args as [|y args]; [|cbn [extract_args] in E2; rewrite extract_arg_nil in E2; discriminate].
      cbn [extract_args] in *. injection E2 as <- <-. eexists. split; [reflexivity|]. now left.
    + destruct (IH r b ws r' E2) as (r3 & E4 & C). rewrite E4. cbn. eauto.
Qed.
Lemma encoded_safe p db t : name_ok t -> cut_safe p t -> arg_safe db (encode_text p t).
Proof.
  intros Hn Hc.
  assert (Hsmall : pack_bytes p t = 8 -> long_type (base_name (underlying t)) = true ->
            (underlying t = Long \/ underlying t = ULong) /\ long8 p = true).
  { unfold pack_bytes, arg_bytes. destruct (underlying t); cbn; try discriminate; destruct (long8 p); cbn; try discriminate; auto. }
  assert (Happ : forall c (s u : list N), (N.to_nat (pack_bytes p t) = 8%nat -> long_type c = false) ->
            (length (s ++ u) <= N.to_nat (pack_bytes p t))%nat -> long_type c = true -> (length (s ++ u) < 8)%nat).
  { intros c s u Hcc Hlen Hlt. destruct (pack_bytes_48 p t) as [E|E]; rewrite E in *; [lia|]. rewrite Hcc in Hlt by reflexivity. discriminate. }
  unfold arg_safe. destruct t as [b|n b|n b]; cbn [underlying] in *.
  - assert (E : forall r, extract_arg db r (encode_text p (Plain b)) = reads (N.to_nat (pack_bytes p (Plain b))) (convert (base_name b)) r).
    { intro r. unfold extract_arg.
      assert (E : split "<" (but_last (encode_text p (Plain b))) = [encode_tag p b; base_name b]) by (destruct p as [[] []], b; reflexivity).
      rewrite E. assert (E2 : (encode_tag p b =? "encode_enum")%string = false) by (destruct p as [[] []], b; reflexivity). rewrite E2.
      assert (E3 : encoding_reader (encode_tag p b) = Some (N.to_nat (pack_bytes p (Plain b)))) by (destruct p as [[] []], b; reflexivity). rewrite E3.
      assert (E4 : exists x, format_table (base_name b) = Some x) by (destruct b; eexists; reflexivity). destruct E4 as [x ->]. reflexivity. }
    intros a c v rest H. cbv beta in H. rewrite E in H. setoid_rewrite E. revert a c v rest H. apply reads_safe.
    intros s u v Hl. apply convert_app. apply Happ; auto. intro E8.
    destruct (long_type (base_name b)) eqn:L; [|reflexivity]. exfalso. destruct (Hsmall ltac:(lia) eq_refl) as [A B]. cbn in Hc. rewrite (Hc A) in B. discriminate.
  - assert (E : forall r, extract_arg db r (encode_text p (Scoped n b)) = reads (N.to_nat (pack_bytes p (Scoped n b))) (enum_convert db n (base_name b)) r).
    { intro r. unfold extract_arg. destruct Hn as (N1 & N2 & _).
      set (sz := if pack_bytes p (Scoped n b) =? 4 then "4"%string else "8"%string).
      assert (E : split "<" (but_last (encode_text p (Scoped n b))) = ["encode_enum"%string; (n ++ String "," (String " " (base_name b) ++ String "," (String " " sz)))%string]).
      { unfold encode_text. fold sz.
        replace ("encode_enum<" ++ n ++ ", " ++ base_name b ++ ", " ++ sz ++ ">")%string with
          (("encode_enum" ++ String "<" (n ++ String "," (String " " (base_name b) ++ String "," (String " " sz)))) ++ String ">" EmptyString)%string.
        2:{ cbn [append]. rewrite !app_assoc_s. cbn [append]. rewrite !app_assoc_s. reflexivity. }
        rewrite but_last_app, split_app by (cbn; intuition discriminate). f_equal. apply split_none. rewrite mentions_app. intros [M|M]; [tauto|].
        revert M. unfold sz. destruct (_ =? _), b; cbn; intuition discriminate. }
      rewrite E. cbn [String.eqb Ascii.eqb Bool.eqb].
      rewrite split_app by auto. rewrite split_app by (destruct b; cbn; intuition discriminate).
      rewrite split_none by (unfold sz; destruct (_ =? _); cbn; intuition discriminate).
      assert (E2 : parse_size (String " " sz) = Ok (N.to_nat (pack_bytes p (Scoped n b)))) by (unfold sz, pack_bytes; destruct (_ <=? _); reflexivity).
      rewrite E2. cbn [py_bind].
      assert (E3 : strip (String " " (base_name b)) = base_name b) by (destruct b; reflexivity). rewrite E3. reflexivity. }
    intros a c v rest H. cbv beta in H. rewrite E in H. setoid_rewrite E. revert a c v rest H. apply reads_safe.
    intros s u v Hl. apply enum_convert_app. apply Happ; auto. intro E8.
    destruct (long_type (base_name b)) eqn:L; [|reflexivity]. exfalso. destruct (Hsmall ltac:(lia) eq_refl) as [A B]. cbn in Hc. rewrite (Hc A) in B. discriminate.
  - assert (E : forall r, extract_arg db r (encode_text p (Unscoped n b)) =
      reads (N.to_nat (pack_bytes p (Unscoped n b))) (enum_convert db n (if Nat.eqb (N.to_nat (pack_bytes p (Unscoped n b))) 4 then "unsigned int" else "unsigned long long")) r).
    { intro r. unfold extract_arg. destruct Hn as (N1 & N2 & N3).
      assert (E : split "<" (but_last (encode_text p (Unscoped n b))) = [encode_tag p b; n]).
      { unfold encode_text. replace (encode_tag p b ++ "<" ++ n ++ ">")%string with ((encode_tag p b ++ String "<" n) ++ String ">" EmptyString)%string.
        2:{ rewrite app_assoc_s. reflexivity. }
        rewrite but_last_app, split_app by (destruct p as [[] []], b; cbn; intuition discriminate). f_equal. apply split_none; auto. }
      rewrite E. assert (E2 : (encode_tag p b =? "encode_enum")%string = false) by (destruct p as [[] []], b; reflexivity). rewrite E2.
      assert (E3 : encoding_reader (encode_tag p b) = Some (N.to_nat (pack_bytes p (Unscoped n b)))) by (destruct p as [[] []], b; reflexivity). rewrite E3, N3.
      reflexivity. }
    intros a c v rest H. cbv beta in H. rewrite E in H. setoid_rewrite E. revert a c v rest H. apply reads_safe.
    intros s u v Hl. apply enum_convert_app. apply Happ; auto. intros _. destruct (Nat.eqb _ _); reflexivity.
Qed.

(** ** Messages *)
Lemma read_struct_reads n r : read_struct n r = reads n (unpack n) r.
Proof. reflexivity. Qed.
Lemma unpack_app n s t v : (length (s ++ t) <= n)%nat -> unpack n s = Ok v -> unpack n (s ++ t) = Ok v.
Proof.
  unfold unpack. intros L H. destruct (Nat.eqb_spec (length s) n) as [E|]; [|discriminate].
  rewrite app_length in L. destruct t as [|x t]; [|cbn in L; lia]. rewrite app_nil_r. destruct (Nat.eqb_spec (length s) n); congruence.
Qed.
Lemma read_struct_safe n : safe (read_struct n).
Proof. apply (reads_safe n (unpack n)). intros. now apply unpack_app. Qed.
Lemma read_struct_short n r v rest : read_struct n r = Ok (v, rest) -> rest = skipn n r /\ (n <= length r)%nat.
Proof.
  unfold read_struct, islice, unpack. destruct (Nat.eqb_spec (length (firstn n r)) n) as [E|]; [|discriminate]. cbn.
  intro H. injection H as _ <-. split; auto. rewrite firstn_length in E. lia.
Qed.
Lemma decode_short_safe db n : safe (decode_short db n).
Proof.
  intros a b v rest H. unfold decode_short in *. destruct (read_struct n a) as [[w r]|] eqn:E; [|discriminate]. cbn [py_bind] in H.
  destruct (read_struct_safe n a b w r E) as (r' & E' & C). rewrite E'. cbn [py_bind].
  destruct (db_messages db _); [|discriminate]. injection H as <- <-. eauto.
Qed.
Lemma safe_keeps {A} (f : list N -> py (A * list N)) : safe f -> keeps f.
Proof. intros H a b v rest E Hr. destruct (H a b v rest E) as (r' & E' & [->| ->]); [congruence|auto]. Qed.

(** The catalog messages: a word, the id, and the arguments. *)
Definition catalog_tail (db : database) (v : N) (rest : list N) : py (decoded * list N) :=
  if bits v 24 6 =? 1 then
    match db_modules db (bits v 16 7) with
    | None => Raised
    | Some _ =>
      match reads 4 (unpack 4) rest with
      | Raised => Raised
      | Ok (id, rest) =>
        match db_messages db id with
        | None => Raised
        | Some types => do (args, rest) <- extract_args db rest types; Ok (DCatalog (bits v 4 3) (bits v 12 4) (bits v 16 7) id args, rest)
        end
      end
    end
  else Raised.
Lemma decode_catalog_tail db r : decode_catalog db r = match read_struct 4 r with Ok (v, rest) => catalog_tail db v rest | Raised => Raised end.
Proof.
  unfold decode_catalog. destruct (read_struct 4 r) as [[v rest]|]; [|reflexivity]. cbn [py_bind]. unfold catalog_tail.
  destruct (_ =? 1); [|reflexivity]. destruct (db_modules _ _); [|reflexivity]. unfold reads, islice.
  destruct (unpack 4 (firstn 4 rest)); reflexivity.
Qed.
Lemma catalog_tail_nil db v : catalog_tail db v [] = Raised.
Proof. unfold catalog_tail. destruct (_ =? 1); [|reflexivity]. destruct (db_modules _ _); reflexivity. Qed.
Definition types_safe (db : database) : Prop := forall id types, db_messages db id = Some types -> Forall (arg_safe db) types.
Lemma catalog_tail_safe db v : types_safe db -> safe (catalog_tail db v).
Proof.
  intros Ht a b w rest H. unfold catalog_tail in *. destruct (_ =? 1); [|discriminate]. destruct (db_modules _ _); [|discriminate].
  destruct (reads 4 (unpack 4) a) as [[id r]|] eqn:E; [|discriminate].
  destruct (db_messages db id) as [types|] eqn:D; [|discriminate].
  destruct (extract_args db r types) as [[args r']|] eqn:X; [|discriminate]. cbn in H. injection H as <- <-.
  destruct (reads_safe 4 (unpack 4) ltac:(intros; now apply unpack_app) a b id r E) as (r2 & E2 & [->| ->]); rewrite E2, D.
  - destruct types as [|y types]; cbn [extract_args] in *; [|rewrite extract_arg_nil in X; discriminate].
    injection X as <- <-. cbn. eexists. split; [reflexivity|]. now left.
  - destruct (extract_args_safe db types (Ht id types D) r b args r' X) as (r3 & X3 & C). rewrite X3. cbn. eauto.
Qed.
Lemma catalog_tail_keeps db v : keeps (catalog_tail db v).
Proof.
  intros a b w rest H Hr. unfold catalog_tail in *. destruct (_ =? 1); [|discriminate]. destruct (db_modules _ _); [|discriminate].
  destruct (reads 4 (unpack 4) a) as [[id r]|] eqn:E; [|discriminate].
  destruct (db_messages db id) as [types|] eqn:D; [|discriminate].
  destruct (extract_args db r types) as [[args r']|] eqn:X; [|discriminate]. cbn in H. injection H as <- <-.
  assert (Hr2 : r <> []).
  { intros ->. destruct types as [|y types]; cbn [extract_args] in X; [injection X as _ <-; congruence|].
    rewrite extract_arg_nil in X. discriminate. }
  rewrite (reads_keeps 4 (unpack 4) a b id r E Hr2), D. rewrite (extract_args_keeps db types r b args r' X Hr). reflexivity.
Qed.

Lemma construct_safe db : types_safe db -> safe (construct_msg db).
Proof.
  intros Ht a b v rest H. destruct a as [|x a]; [discriminate|]. unfold construct_msg in *. cbn [app] in *.
  change (x :: a ++ b) with ((x :: a) ++ b).
  destruct (x mod 16 =? 1); [exact (decode_short_safe db 4 _ b v rest H)|].
  destruct (x mod 16 =? 3).
  - rewrite decode_catalog_tail in *. destruct (read_struct 4 (x :: a)) as [[w r]|] eqn:E; [|discriminate].
    destruct (read_struct_safe 4 (x :: a) b w r E) as (r2 & E2 & [->| ->]); rewrite E2.
    + rewrite catalog_tail_nil in H. discriminate.
    + exact (catalog_tail_safe db w Ht r b v rest H).
  - destruct (x mod 16 =? 7); [exact (decode_short_safe db 8 _ b v rest H)|discriminate].
Qed.
Lemma construct_keeps db : keeps (construct_msg db).
Proof.
  intros a b v rest H Hr. destruct a as [|x a]; [discriminate|]. unfold construct_msg in *. cbn [app] in *.
  change (x :: a ++ b) with ((x :: a) ++ b).
  destruct (x mod 16 =? 1); [exact (safe_keeps _ (decode_short_safe db 4) _ b v rest H Hr)|].
  destruct (x mod 16 =? 3).
  - rewrite decode_catalog_tail in *. destruct (read_struct 4 (x :: a)) as [[w r]|] eqn:E; [|discriminate].
    assert (Hr2 : r <> []) by (intros ->; rewrite catalog_tail_nil in H; discriminate).
    rewrite (safe_keeps _ (read_struct_safe 4) (x :: a) b w r E Hr2). exact (catalog_tail_keeps db w r b v rest H Hr).
  - destruct (x mod 16 =? 7); [exact (safe_keeps _ (decode_short_safe db 8) _ b v rest H Hr)|discriminate].
Qed.
(** Each message takes some bytes. *)
Lemma reads_shorter {A} n (conv : list N -> py A) r v rest : reads n conv r = Ok (v, rest) -> (length rest <= length r)%nat.
Proof.
  unfold reads, islice. destruct (conv _); [|discriminate]. cbn. intro H. injection H as _ <-. rewrite skipn_length. lia.
Qed.
Lemma extract_args_shorter db types : forall r vs rest, extract_args db r types = Ok (vs, rest) -> (length rest <= length r)%nat.
Proof.
  induction types as [|t types IH]; intros r vs rest H; cbn [extract_args] in H; [injection H as _ <-; lia|].
  destruct (extract_arg db r t) as [[w r']|] eqn:E; [|discriminate]. cbn [py_bind] in H.
  destruct (extract_args db r' types) as [[ws r2]|] eqn:E2; [|discriminate]. cbn in H. injection H as _ <-.
  assert (A := IH r' ws r2 E2). enough (length r' <= length r)%nat by lia.
  destruct (extract_arg_reads db t) as [(n & conv & _ & _ & Hx)|Hx]; rewrite Hx in E; [exact (reads_shorter n conv r w r' E)|discriminate].
Qed.
Lemma construct_shorter db r v rest : construct_msg db r = Ok (v, rest) -> (length rest < length r)%nat.
Proof.
  intro H. destruct r as [|x a]; [discriminate|]. unfold construct_msg in H.
  assert (S : forall n w q, (0 < n)%nat -> read_struct n (x :: a) = Ok (w, q) -> (length q < length (x :: a))%nat).
  { intros n w q Hn E. destruct (read_struct_short n _ w q E) as [-> L]. rewrite skipn_length. cbn [length] in *. lia. }
  destruct (x mod 16 =? 1).
  - unfold decode_short in H. destruct (read_struct 4 (x :: a)) as [[w q]|] eqn:E; [|discriminate]. cbn [py_bind] in H.
    destruct (db_messages _ _); [|discriminate]. injection H as _ <-. apply (S 4%nat w q); auto; lia.
  - destruct (x mod 16 =? 3).
    + rewrite decode_catalog_tail in H. destruct (read_struct 4 (x :: a)) as [[w q]|] eqn:E; [|discriminate].
      assert (A := S 4%nat w q ltac:(lia) E). enough (length rest <= length q)%nat by lia.
      unfold catalog_tail in H. destruct (_ =? 1); [|discriminate]. destruct (db_modules _ _); [|discriminate].
      destruct (reads 4 (unpack 4) q) as [[id r]|] eqn:E2; [|discriminate]. apply reads_shorter in E2.
      destruct (db_messages db id) as [types|]; [|discriminate].
      destruct (extract_args db r types) as [[args r']|] eqn:X; [|discriminate]. cbn in H. injection H as _ <-.
      apply extract_args_shorter in X. lia.
    + destruct (x mod 16 =? 7); [|discriminate]. unfold decode_short in H.
      destruct (read_struct 8 (x :: a)) as [[w q]|] eqn:E; [|discriminate]. cbn [py_bind] in H.
      destruct (db_messages _ _); [|discriminate]. injection H as _ <-. apply (S 8%nat w q); auto; lia.
Qed.
Lemma read_logs_fuel db : forall f1 f2 r, (length r <= f1)%nat -> (length r <= f2)%nat -> read_logs_from f1 db r = read_logs_from f2 db r.
Proof.
  induction f1 as [|f1 IH]; intros f2 r H1 H2; [destruct r; [destruct f2; reflexivity|cbn in H1; lia]|].
  destruct r as [|x r]; [destruct f2; reflexivity|]. destruct f2 as [|f2]; [cbn in H2; lia|]. cbn [read_logs_from].
  destruct (construct_msg db (x :: r)) as [[m rest]|] eqn:E; [|reflexivity].
  apply construct_shorter in E. rewrite (IH f2 rest); [reflexivity| |]; cbn [length] in *; lia.
Qed.
Lemma read_logs_step db r : r <> [] -> read_logs db r =
  match construct_msg db r with Raised => ([], true) | Ok (m, rest) => let (ms, e) := read_logs db rest in (m :: ms, e) end.
Proof.
  intro Hr. unfold read_logs. destruct r as [|x r]; [congruence|]. cbn [length read_logs_from].
  destruct (construct_msg db (x :: r)) as [[m rest]|] eqn:E; [|reflexivity].
  apply construct_shorter in E. rewrite (read_logs_fuel db (length r) (length rest) rest); [reflexivity| |]; cbn [length] in *; lia.
Qed.
Lemma read_logs_nil db : read_logs db [] = ([], false).
Proof. reflexivity. Qed.

Lemma cut_prefix db b : types_safe db -> forall n a, (length a <= n)%nat ->
  exists more, fst (read_logs db (a ++ b)) = (fst (read_logs db a) ++ more)%list.
Proof.
  intro Ht. induction n as [|n IH]; intros a Ha.
  { destruct a; [|cbn in Ha; lia]. rewrite read_logs_nil. cbn. eauto. }
  destruct a as [|x a]; [rewrite read_logs_nil; cbn; eauto|].
  rewrite (read_logs_step db (x :: a)), (read_logs_step db ((x :: a) ++ b)) by discriminate.
  destruct (construct_msg db (x :: a)) as [[m rest]|] eqn:E; [|cbn; eauto].
  destruct (construct_safe db Ht (x :: a) b m rest E) as (r' & E' & [->| ->]); rewrite E'.
  - rewrite read_logs_nil. destruct (read_logs db r') as [ms e]. cbn. eauto.
  - apply construct_shorter in E. destruct (IH rest ltac:(cbn [length] in *; lia)) as [more Hm].
    destruct (read_logs db (rest ++ b)) as [ms e], (read_logs db rest) as [ms' e']. cbn in *. exists more. congruence.
Qed.
Lemma cut_prefix_but_last db b : forall n a, (length a <= n)%nat ->
  exists more, fst (read_logs db (a ++ b)) = (removelast (fst (read_logs db a)) ++ more)%list.
Proof.
  induction n as [|n IH]; intros a Ha.
  { destruct a; [|cbn in Ha; lia]. rewrite read_logs_nil. cbn. eauto. }
  destruct a as [|x a]; [rewrite read_logs_nil; cbn; eauto|].
  rewrite (read_logs_step db (x :: a)), (read_logs_step db ((x :: a) ++ b)) by discriminate.
  destruct (construct_msg db (x :: a)) as [[m rest]|] eqn:E; [|cbn; eauto].
  destruct rest as [|y rest]; [rewrite read_logs_nil; cbn; eauto|].
  rewrite (construct_keeps db (x :: a) b m (y :: rest) E) by discriminate.
  apply construct_shorter in E. destruct (IH (y :: rest) ltac:(cbn [length] in *; lia)) as [more Hm].
  destruct (read_logs db ((y :: rest) ++ b)) as [ms e], (read_logs db (y :: rest)) as [ms' e']. cbn [fst] in *.
  destruct ms' as [|m' ms']; [cbn in *; eauto|]. exists more. change (removelast (m :: m' :: ms')) with (m :: removelast (m' :: ms')).
  cbn [app]. congruence.
Qed.

(** ** Lines *)
Lemma lines_prefix ft turns j ds more : exists ls, fst (lines_of ft turns j (ds ++ more)) = (fst (lines_of ft turns j ds) ++ ls)%list.
Proof.
  induction ds as [|d ds [ls IH]]; [cbn; eauto|]. cbn. destruct (line ft turns j d) as [l|]; [|cbn; eauto].
  destruct (lines_of ft turns j (ds ++ more)) as [u e], (lines_of ft turns j ds) as [u' e']. cbn in *. exists ls. congruence.
Qed.
Lemma decode_lines ft turns j bs : fst (decode ft turns j bs) = fst (lines_of ft turns j (fst (read_logs (database_of j) bs))).
Proof. unfold decode. destruct (read_logs _ _) as [ds e]. cbn. destruct (lines_of ft turns j ds). reflexivity. Qed.
Lemma removelast_prefix {A} (l : list A) : exists t, l = (removelast l ++ t)%list /\ (length t <= 1)%nat.
Proof.
  destruct l as [|x l]; [exists []; auto|]. exists [last (x :: l) x]. split; [apply app_removelast_last; discriminate|auto].
Qed.

From Coq Require Import String Ascii Bool Arith List ZArith Lia.
From Verif Require Import CatalogModel GenModel GenSpec GenProofs GenProofs2.
Import ListNotations.
Local Open Scope Z_scope.

(** ** Enumerations in the XML *)
Lemma enum_lookup_from_spec enums args : forall i acc j n, enum_lookup_from enums i args acc = Some (j, n) <->
  (exists pre a post, args = pre ++ a :: post /\ j = i + Z.of_nat (List.length pre) + 1 /\ assoc (arg_enum a) enums = Some n /\
     Forall (fun b => assoc (arg_enum b) enums = None) post) \/
  (acc = Some (j, n) /\ Forall (fun b => assoc (arg_enum b) enums = None) args).
Proof.
  induction args as [|x args IH]; intros i acc j n; cbn [enum_lookup_from].
  - split; [intros ->; right; auto|]. intros [(pre & a & post & E & _)|[E _]]; [|exact E]. destruct pre; discriminate.
  - rewrite IH. split.
    + intros [(pre & a & post & -> & -> & A & F)|[E F]].
      * left. exists (x :: pre), a, post. repeat split; auto. cbn [List.length]. lia.
      * destruct (assoc (arg_enum x) enums) as [m|] eqn:M.
        -- injection E as <- <-. left. exists [], x, args. repeat split; auto. cbn. lia.
        -- right. auto.
    + intros [(pre & a & post & E & -> & A & F)|[E F]].
      * destruct pre as [|y pre]; injection E as -> ->.
        -- right. rewrite A. split; [cbn [List.length Z.of_nat]; repeat f_equal; lia|exact F].
        -- left. exists pre, a, post. repeat split; auto. cbn [List.length]. lia.
      * inversion F; subst. right. split; [|assumption]. now rewrite H1.
Qed.
Lemma enum_lookup_spec enums args j n : enum_lookup enums args = Some (j, n) <->
  exists pre a post, args = pre ++ a :: post /\ j = Z.of_nat (List.length pre) + 1 /\ assoc (arg_enum a) enums = Some n /\
     Forall (fun b => assoc (arg_enum b) enums = None) post.
Proof.
  unfold enum_lookup. rewrite enum_lookup_from_spec. split; [intros [H|[H _]]; [exact H|discriminate]|auto].
Qed.

(** ** Dictionaries *)
Section D.
Context {K A : Type}.
Variable keqb : K -> K -> bool.
Hypothesis keqb_ok : forall a b, keqb a b = true <-> a = b.
Lemma keqb_refl a : keqb a a = true. Proof. now apply keqb_ok. Qed.
Lemma keqb_neq a b : a <> b -> keqb a b = false.
Proof. intros H. destruct (keqb a b) eqn:E; [|reflexivity]. now apply keqb_ok in E. Qed.
Lemma get_put_same k (v : A) d : get keqb k (put keqb k v d) = Some v.
Proof. induction d as [|[k' v'] d IH]; cbn; [now rewrite keqb_refl|]. destruct (keqb k' k) eqn:E; cbn; rewrite E; auto. Qed.
Lemma get_put_other k j (v : A) d : k <> j -> get keqb j (put keqb k v d) = get keqb j d.
Proof.
  intros N. induction d as [|[k' v'] d IH]; cbn; [now rewrite (keqb_neq _ _ N)|].
  destruct (keqb k' k) eqn:E; cbn; [|now rewrite IH]. apply keqb_ok in E as ->. now rewrite !(keqb_neq _ _ N).
Qed.
Lemma put_fresh k (v : A) d : ~ In k (map fst d) -> put keqb k v d = d ++ [(k, v)].
Proof.
  induction d as [|[k' v'] d IH]; intros H; [reflexivity|]. cbn in *. rewrite keqb_neq by (intros ->; apply H; now left).
  rewrite IH; auto.
Qed.
Lemma put_keys k (v : A) d x : In x (map fst (put keqb k v d)) <-> x = k \/ In x (map fst d).
Proof.
  induction d as [|[k' v'] d IH]; cbn; [intuition congruence|]. destruct (keqb k' k) eqn:E; cbn.
  - apply keqb_ok in E as ->. intuition congruence.
  - rewrite IH. intuition congruence.
Qed.
Lemma put_nodup k (v : A) d : NoDup (map fst d) -> NoDup (map fst (put keqb k v d)).
Proof.
  induction d as [|[k' v'] d IH]; cbn; intros H; [repeat constructor; tauto|]. inversion H; subst. destruct (keqb k' k) eqn:E; cbn; [now constructor|].
  constructor; [|auto]. rewrite put_keys. intros [->|]; [|contradiction]. now rewrite keqb_refl in E.
Qed.
Lemma update_fresh e : forall d : list (K * A), NoDup (map fst e) -> (forall k, In k (map fst e) -> ~ In k (map fst d)) -> update keqb d e = d ++ e.
Proof.
  induction e as [|[k v] e IH]; intros d N D; [now rewrite app_nil_r|]. unfold update in *. cbn [fold_left fst snd].
  cbn in N. inversion N; subst. rewrite put_fresh by (apply D; now left). rewrite IH; [now rewrite <- app_assoc|assumption|].
  intros j J. rewrite map_app, in_app_iff. cbn. intros [X|[X|[]]]; [|subst; contradiction]. revert X. apply D. now right.
Qed.
End D.
Section L.
Context {K : Type}.
Variable keqb : K -> K -> bool.
Hypothesis keqb_ok : forall a b, keqb a b = true <-> a = b.
Lemma last_name_app k a b : last_name keqb k (a ++ b) = or_else (last_name keqb k b) (last_name keqb k a).
Proof.
  induction a as [|[k' n] a IH]; cbn; [now destruct (last_name keqb k b)|]. rewrite IH. destruct (last_name keqb k b); reflexivity.
Qed.
Lemma last_name_get k d : NoDup (map fst d) -> last_name keqb k d = get keqb k d.
Proof.
  induction d as [|[k' n] d IH]; cbn; intros H; [reflexivity|]. inversion H; subst. rewrite IH by assumption. destruct (keqb k' k) eqn:E.
  - apply keqb_ok in E as ->. destruct (get keqb k d) eqn:G; [|reflexivity]. exfalso. apply H2. clear - G keqb_ok. induction d as [|[j m] d IH]; [discriminate|].
    cbn in *. destruct (keqb j k) eqn:E; [left; now apply keqb_ok|right; auto].
  - now destruct (get keqb k d).
Qed.
Lemma fold_put {X} (key : X -> K) (val : X -> string) k l : forall d,
  get keqb k (fold_left (fun d x => put keqb (key x) (val x) d) l d) = or_else (last_name keqb k (map (fun x => (key x, val x)) l)) (get keqb k d).
Proof.
  induction l as [|x l IH]; intros d; [reflexivity|]. cbn [fold_left map last_name]. rewrite IH.
  destruct (last_name keqb k (map (fun x => (key x, val x)) l)); [reflexivity|]. cbn. destruct (keqb (key x) k) eqn:E.
  - apply keqb_ok in E as <-. now rewrite (get_put_same _ keqb_ok).
  - rewrite (get_put_other _ keqb_ok); [reflexivity|]. intros X0. apply keqb_ok in X0. congruence.
Qed.
End L.
Lemma string_ok : forall a b, String.eqb a b = true <-> a = b. Proof. apply String.eqb_eq. Qed.
Lemma z_ok : forall a b, Z.eqb a b = true <-> a = b. Proof. apply Z.eqb_eq. Qed.
Lemma ekey_ok : forall a b, ekey_eqb a b = true <-> a = b.
Proof.
  intros [s|x] [t|y]; cbn; split; intros H; try discriminate H.
  - now apply String.eqb_eq in H as ->. - injection H as ->. apply String.eqb_refl.
  - now apply Z.eqb_eq in H as ->. - injection H as ->. apply Z.eqb_refl.
Qed.

Lemma load_get n k : get String.eqb k (load_names n) = last_name String.eqb k (map (fun kv => (key_text (fst kv), snd kv)) n).
Proof.
  unfold load_names. rewrite (fold_put String.eqb string_ok (fun kv : ekey * string => key_text (fst kv)) snd). cbn. now destruct (last_name _ _ _).
Qed.
Lemma by_value_nodup v : NoDup (map fst (by_value v)).
Proof.
  unfold by_value. assert (G : forall d : names, NoDup (map fst d) -> NoDup (map fst (fold_left (fun d nv => put ekey_eqb (KInt (snd nv)) (fst nv) d) v d))).
  { induction v as [|x v IH]; intros d D; [exact D|]. cbn. apply IH. now apply (put_nodup _ ekey_ok). }
  apply G. constructor.
Qed.
Lemma by_value_ints v k : In k (map fst (by_value v)) -> exists z, k = KInt z.
Proof.
  unfold by_value. assert (G : forall d : names, (forall k, In k (map fst d) -> exists z, k = KInt z) ->
    forall k, In k (map fst (fold_left (fun d nv => put ekey_eqb (KInt (snd nv)) (fst nv) d) v d)) -> exists z, k = KInt z).
  { induction v as [|x v IH]; intros d D; [exact D|]. cbn. apply IH. intros j J. apply (put_keys _ ekey_ok) in J as [->|J]; eauto. }
  apply G. intros ? [].
Qed.
Lemma by_value_get v z : get ekey_eqb (KInt z) (by_value v) = last_name Z.eqb z (map swap v).
Proof.
  unfold by_value. rewrite (fold_put ekey_eqb ekey_ok (fun nv : string * Z => KInt (snd nv)) fst). cbn.
  replace (last_name ekey_eqb (KInt z) (map (fun x : string * Z => (KInt (snd x), fst x)) v)) with (last_name Z.eqb z (map swap v)).
  - now destruct (last_name _ _ _).
  - induction v as [|x v IH]; [reflexivity|]. cbn. now rewrite IH.
Qed.
Lemma ints_last (d : names) z : (forall k, In k (map fst d) -> exists y, k = KInt y) ->
  last_name String.eqb (str z) (map (fun kv => (key_text (fst kv), snd kv)) d) = last_name ekey_eqb (KInt z) d.
Proof.
  induction d as [|[k n] d IH]; intros H; [reflexivity|]. cbn [map last_name fst snd]. rewrite IH by (intros; apply H; now right).
  destruct (last_name ekey_eqb (KInt z) d); [reflexivity|]. destruct (H k (or_introl eq_refl)) as (y & ->). cbn [key_text ekey_eqb].
  destruct (Z.eqb_spec y z) as [->|N]; [now rewrite String.eqb_refl|].
  destruct (String.eqb_spec (str y) (str z)) as [E|]; [|reflexivity]. now apply str_inj in E.
Qed.
Lemma write_get enums E : NoDup (map fst enums) -> forall d : list (string * names),
  get String.eqb E (fold_left (fun d kv => let es := by_value (snd kv) in
      match get String.eqb (fst kv) d with
      | Some old => put String.eqb (fst kv) (update ekey_eqb old es) d
      | None => put String.eqb (fst kv) es d
      end) enums d) =
  match get String.eqb E enums with
  | Some vs => Some (match get String.eqb E d with Some old => update ekey_eqb old (by_value vs) | None => by_value vs end)
  | None => get String.eqb E d
  end.
Proof.
  induction enums as [|[k vs] enums IH]; intros N d; [reflexivity|]. cbn in N. inversion N; subst. cbn [fold_left fst snd get]. cbv zeta. rewrite IH by assumption. clear IH. unfold names in *.
  destruct (String.eqb_spec k E) as [->|D].
  - assert (G : get String.eqb E enums = None).
    { clear - H1. induction enums as [|[k v] enums IH]; [reflexivity|]. cbn in *. destruct (String.eqb_spec k E); [destruct H1; now left|]. apply IH. tauto. }
    rewrite G. destruct (get String.eqb E d); now rewrite (get_put_same _ string_ok).
  - destruct (get String.eqb k d); now rewrite (get_put_other _ string_ok).
Qed.
(** The last of the extra inputs that has the member. *)
Definition last_extra (extras : list (option (list (string * list (string * string))))) : list (string * list (string * string)) :=
  match fold_left (fun acc x => match x with Some e => Some e | None => acc end) extras None with Some e => e | None => [] end.
Lemma extra_get extras E : get String.eqb E (extra_enums extras) = option_map (map (fun nv => (KStr (fst nv), snd nv))) (get String.eqb E (last_extra extras)).
Proof.
  unfold extra_enums, last_extra. destruct (fold_left _ extras None) as [e|]; [|reflexivity].
  induction e as [|[k v] e IH]; [reflexivity|]. cbn. destruct (k =? E)%string; [reflexivity|exact IH].
Qed.
Lemma names_exact enums extras E z : NoDup (map fst enums) -> enum_name (write_enums enums extras) E z =
  or_else (match get String.eqb E enums with Some vs => last_name Z.eqb z (map swap vs) | None => None end)
          (match get String.eqb E (last_extra extras) with Some d => last_name String.eqb (str z) d | None => None end).
Proof.
  intros N. unfold enum_name, write_enums. rewrite write_get, extra_get by exact N.
  assert (X : forall d : list (string * string), last_name String.eqb (str z) (map (fun kv => (key_text (fst kv), snd kv)) (map (fun nv => (KStr (fst nv), snd nv)) d)) = last_name String.eqb (str z) d).
  { intros d. f_equal. induction d as [|[a b] d IH]; cbn; [reflexivity|]. now rewrite IH. }
  assert (I : forall vs, last_name String.eqb (str z) (map (fun kv => (key_text (fst kv), snd kv)) (by_value vs)) = last_name Z.eqb z (map swap vs)).
  { intros vs. rewrite ints_last by apply by_value_ints. rewrite (last_name_get _ ekey_ok) by apply by_value_nodup. apply by_value_get. }
  destruct (get String.eqb E enums) as [vs|], (get String.eqb E (last_extra extras)) as [d|]; cbn [option_map]; try (cbn; reflexivity).
  - rewrite load_get, (update_fresh _ ekey_ok).
    + now rewrite map_app, last_name_app, X, I.
    + apply by_value_nodup.
    + intros k K. apply by_value_ints in K as (y & ->). rewrite map_map. intros M. apply in_map_iff in M as ([? ?] & M & _). discriminate.
  - rewrite load_get, I. now destruct (last_name _ _ _).
  - now rewrite load_get, X.
Qed.

(** ** The decoder's line *)
Lemma py_format_char k a s args : a <> "{"%char -> a <> "}"%char -> py_format (S k) (String a s) args = option_map (String a) (py_format k s args).
Proof. intros H1 H2. destruct a as [[] [] [] [] [] [] [] []]; try reflexivity; [now destruct H1|now destruct H2]. Qed.
Lemma slen_app (a b : string) : String.length (a ++ b) = (String.length a + String.length b)%nat.
Proof. induction a as [|y a IH]; cbn; [reflexivity|now rewrite IH]. Qed.
Definition part_ok (p : part) : Prop := match p with Chars t => braceless t | _ => True end.
Lemma str_prints z : prints (VInt z) (str z).
Proof.
  cbn. destruct (z <? 0) eqn:E.
  - apply Z.ltb_lt in E. exact (str_neg z E).
  - apply Z.ltb_ge in E. destruct (str_writes z E) as [W S]. split; [exact W|]. destruct (Z.eq_dec z 0) as [->|N]; [left; reflexivity|right; apply S; lia].
Qed.
Lemma py_format_formats ps : Forall part_ok ps -> forall vs k, (String.length (format_text ps) < k)%nat ->
  List.length vs = List.length (filter (fun p => match p with Hole => true | _ => false end) ps) ->
  exists s, formats ps (map VInt vs) s /\ py_format k (format_text ps) (map decoded (map VInt vs)) = Some s.
Proof.
  induction 1 as [|p ps P _ IH]; intros vs k L V.
  - destruct vs; [|discriminate]. exists EmptyString. split; [constructor|]. destruct k; [cbn in L; lia|reflexivity].
  - change (format_text (p :: ps)) with (part_text p ++ format_text ps)%string in *. rewrite slen_app in L. destruct p as [t| | |].
    + cbn [part_text] in *. apply braceless_nobr in P.
      cut (forall k, (String.length t + String.length (format_text ps) < k)%nat -> exists s, formats ps (map VInt vs) s /\ py_format k (t ++ format_text ps) (map decoded (map VInt vs)) = Some (t ++ s)%string).
      { intros C. destruct (C k L) as (s & F & E). exists (t ++ s)%string. split; [now constructor|exact E]. }
      clear k L. induction t as [|a t IHt]; intros k L.
      * exact (IH vs k L V).
      * apply nobr_neq in P as (P1 & P2 & P3). destruct k as [|k]; [cbn in L; lia|]. cbn in L.
        destruct (IHt P3 V k) as (s & F & E); [lia|]. exists s. split; [exact F|]. cbn [append]. rewrite py_format_char by assumption. now rewrite E.
    + destruct k as [|k]; [cbn in L; lia|]. cbn in L. destruct (IH vs k) as (s & F & E); [lia|exact V|]. exists ("{" ++ s)%string. split; [now constructor|].
      cbn [part_text append py_format]. now rewrite E.
    + destruct k as [|k]; [cbn in L; lia|]. cbn in L. destruct (IH vs k) as (s & F & E); [lia|exact V|]. exists ("}" ++ s)%string. split; [now constructor|].
      cbn [part_text append py_format]. now rewrite E.
    + destruct k as [|k]; [cbn in L; lia|]. cbn in L. destruct vs as [|v vs]; [discriminate|]. cbn in V.
      destruct (IH vs k) as (s & F & E); [lia|lia|]. exists (str v ++ s)%string. split; [constructor; [apply str_prints|exact F]|].
      cbn [part_text append py_format map decoded]. now rewrite E.
Qed.
Lemma catalog_line_formats ps vs sev mod_ : Forall part_ok ps ->
  List.length vs = List.length (filter (fun p => match p with Hole => true | _ => false end) ps) ->
  exists s, formats ps (map VInt vs) s /\ catalog_line sev mod_ (format_text ps) (map decoded (map VInt vs)) = Some (sev ++ " [" ++ mod_ ++ "] " ++ s)%string.
Proof.
  intros P V. destruct (py_format_formats ps P vs (S (String.length (format_text ps)))) as (s & F & E); [lia|exact V|].
  exists s. split; [exact F|]. unfold catalog_line. now rewrite E.
Qed.

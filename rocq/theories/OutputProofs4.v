(** Proofs: which texts come back, and looking messages up. *)
From Coq Require Import String Ascii Bool Arith ZArith NArith List Lia.
From Verif Require Import GenModel GenSpec OutputModel OutputSpec OutputProofs OutputProofs2 OutputProofs3.
Import ListNotations.
Local Open Scope string_scope.
Local Open Scope list_scope.

(** ** Texts *)
Lemma no_amp_amp t : no_amp t -> amp t = t.
Proof.
  intros N. apply amp_none. apply all_char_in. intros a A. destruct (Ascii.eqb a "&") eqn:E; [|reflexivity]. apply Ascii.eqb_eq in E. subst. contradiction.
Qed.
Lemma amp_length t : String.length t <= String.length (amp t).
Proof. induction t as [|a t IH]; cbn [amp String.length]; [lia|]. destruct (Ascii.eqb a "&"); cbn [append String.length]; lia. Qed.
Lemma amp_same t : amp t = t -> no_amp t.
Proof.
  intros E (u & v & ->). apply (f_equal String.length) in E. rewrite !GenProofs2.amp_app in E.
  assert (L : forall a b, String.length (a ++ b)%string = String.length a + String.length b).
  { clear. induction a as [|x a IH]; intros b; cbn [append String.length]; [reflexivity|]. rewrite IH. reflexivity. }
  rewrite !L in E. pose proof (amp_length u). pose proof (amp_length v).
  change (String.length (amp "&")) with 5 in E. change (String.length "&") with 1 in E. lia.
Qed.
Lemma content_of_inj a b : content_of a = content_of b -> a = b.
Proof. unfold content_of. destruct a, b; cbn; congruence. Qed.
Lemma map_eq_in {A B} (f g : A -> B) l : map f l = map g l <-> (forall x, In x l -> f x = g x).
Proof.
  split; [|apply map_ext_in]. induction l as [|x l IH]; intros E y I; [contradiction|]. cbn in E. injection E as E1 E2. destruct I as [<-|I]; auto.
Qed.
Lemma message_eq f g m : a_message f m = a_message g m <-> f (printf_format (x_text m) (x_args m)) = g (printf_format (x_text m) (x_args m)).
Proof.
  unfold a_message. split; intros E; [|rewrite E; reflexivity]. injection E as E. apply content_of_inj. exact E.
Qed.
Lemma document_eq f g c : document f c = document g c <-> forall t, In t (texts c) -> f t = g t.
Proof.
  assert (P : document f c = document g c <->
    map (fun m : Z * string => Elem "syst:Module" [("ID", str (fst m))] (content_of (f (snd m)))) (c_modules c) = map (fun m => Elem "syst:Module" [("ID", str (fst m))] (content_of (g (snd m)))) (c_modules c) /\
    map (a_message f) (filter without_args (c_messages c)) = map (a_message g) (filter without_args (c_messages c)) /\
    map (a_message f) (filter (fun m => negb (without_args m)) (c_messages c)) = map (a_message g) (filter (fun m => negb (without_args m)) (c_messages c))).
  { unfold document. split.
    - intros E. injection E as E1 E2 E3. auto.
    - intros (E1 & E2 & E3). rewrite E1, E2, E3. reflexivity. }
  rewrite P, !map_eq_in. clear P. unfold texts. split.
  - intros (A & B & C) t I. apply in_app_or in I as [I|I].
    + apply in_map_iff in I as (m & <- & I). specialize (A m I). injection A as A. apply content_of_inj. exact A.
    + apply in_map_iff in I as (m & <- & I). apply message_eq. destruct (without_args m) eqn:W.
      * apply B. apply filter_In. auto.
      * apply C. apply filter_In. rewrite W. auto.
  - intros H. split; [|split].
    + intros m I. rewrite (H (snd m)); [reflexivity|]. apply in_or_app. left. apply in_map. exact I.
    + intros m I. apply filter_In in I as [I _]. apply message_eq. apply H. apply in_or_app. right. apply in_map_iff. exists m. auto.
    + intros m I. apply filter_In in I as [I _]. apply message_eq. apply H. apply in_or_app. right. apply in_map_iff. exists m. auto.
Qed.

(** ** Looking up, layout or not *)
Lemma named_layout n x : named n (without_layout x) = named n x.
Proof. destruct x; reflexivity. Qed.
Lemma number_layout k x : number k (without_layout x) = number k x.
Proof. destruct x; reflexivity. Qed.
Lemma filter_named n c : filter (named n) (filter (fun y => negb (is_layout y)) (map without_layout c)) = map without_layout (filter (named n) c).
Proof.
  induction c as [|x c IH]; [reflexivity|]. cbn [map filter]. destruct x as [s|m a k].
  - cbn [without_layout named]. destruct (negb (is_layout (Text s))); cbn [filter named]; exact IH.
  - change (is_layout (without_layout (Elem m a k))) with false. cbn [negb filter]. rewrite named_layout, IH.
    destruct (named n (Elem m a k)); reflexivity.
Qed.
Lemma filter_named' n c : filter (named n) (map without_layout c) = map without_layout (filter (named n) c).
Proof. induction c as [|x c IH]; [reflexivity|]. cbn [map filter]. rewrite named_layout, IH. destruct (named n x); reflexivity. Qed.
Lemma below_layout n l : below n (map without_layout l) = map without_layout (below n l).
Proof.
  unfold below. induction l as [|x l IH]; [reflexivity|]. cbn [map concat]. rewrite !filter_app, map_app, IH. f_equal.
  destruct x as [s|m a c]; [reflexivity|]. cbn [without_layout inner]. destruct (existsb is_elem c); [apply filter_named|apply filter_named'].
Qed.
Lemma text_layout x : text_in (without_layout x) = text_in x.
Proof.
  destruct x as [s|n a c]; [reflexivity|]. unfold text_in. cbn [without_layout inner].
  destruct (existsb is_elem c) eqn:E.
  - assert (K : existsb is_elem (filter (fun y => negb (is_layout y)) (map without_layout c)) = true).
    { clear -E. induction c as [|x c IH]; [discriminate|]. cbn [existsb] in E. cbn [map filter]. destruct x as [s|m b d].
      - cbn [is_elem orb] in E. specialize (IH E). destruct (negb (is_layout (without_layout (Text s)))); [|exact IH]. cbn [existsb]. rewrite IH. apply orb_true_r.
      - reflexivity. }
    destruct c as [|[s|] [|? ?]]; try discriminate; destruct (filter _ _) as [|[t|] [|? ?]]; try discriminate; reflexivity.
  - destruct c as [|[s|m b d] [|? ?]]; try discriminate; reflexivity.
Qed.
Lemma look_up_layout x id : look_up (without_layout x) id = look_up x id.
Proof.
  assert (F : forall g, formats g (without_layout x) = map without_layout (formats g x)).
  { intros g. unfold formats. change [without_layout x] with (map without_layout [x]). rewrite !below_layout. reflexivity. }
  unfold look_up. rewrite !F, <- map_app. generalize (formats "syst:Short32" x ++ formats "syst:Catalog32" x). intros l.
  induction l as [|y l IH]; [reflexivity|]. cbn [map filter].
  assert (Sy : selected id (without_layout y) = selected id y) by (unfold selected; rewrite !number_layout; reflexivity).
  rewrite Sy. destruct (selected id y); cbn [map]; rewrite ?text_layout, IH; reflexivity.
Qed.
Lemma below_all {A} (n : string) (f : A -> xml) l : (forall x, named n (f x) = true) -> filter (named n) (map f l) = map f l.
Proof. intros H. induction l as [|x l IH]; [reflexivity|]. cbn. rewrite H, IH. reflexivity. Qed.
Lemma formats_short f c : formats "syst:Short32" (document f c) = map (a_message f) (filter without_args (c_messages c)).
Proof.
  transitivity (filter (named "syst:Format") (map (a_message f) (filter without_args (c_messages c)) ++ [])); [reflexivity|].
  rewrite app_nil_r. apply below_all. reflexivity.
Qed.
Lemma formats_catalog f c : formats "syst:Catalog32" (document f c) = map (a_message f) (filter (fun m => negb (without_args m)) (c_messages c)).
Proof.
  transitivity (filter (named "syst:Format") (map (a_message f) (filter (fun m => negb (without_args m)) (c_messages c)) ++ [])); [reflexivity|].
  rewrite app_nil_r. apply below_all. reflexivity.
Qed.
Lemma text_message f m : text_in (a_message f m) = f (printf_format (x_text m) (x_args m)).
Proof. unfold a_message, text_in. cbn [inner]. destruct (f _); reflexivity. Qed.
Definition masked (id : Z) (m : xml_message) : bool := Z.eqb (Z.land (Z.of_N (x_id m)) 268435455) (Z.land id 268435455).
Lemma selected_message f id m : selected id (a_message f m) = masked id m.
Proof.
  unfold selected. assert (A : number "ID" (a_message f m) = Some (Z.of_N (x_id m))).
  { transitivity (int0 (hex8 (x_id m))); [reflexivity|apply hex8_int]. }
  rewrite A. reflexivity.
Qed.
Lemma look_up_document f c id : look_up (document f c) id =
  map (fun m => f (printf_format (x_text m) (x_args m))) (filter (masked id) (filter without_args (c_messages c) ++ filter (fun m => negb (without_args m)) (c_messages c))).
Proof.
  unfold look_up. rewrite formats_short, formats_catalog, <- map_app. generalize (filter without_args (c_messages c) ++ filter (fun m => negb (without_args m)) (c_messages c)). intros l.
  induction l as [|m l IH]; [reflexivity|]. cbn [map filter]. rewrite selected_message. destruct (masked id m); cbn [map]; rewrite ?text_message, IH; reflexivity.
Qed.
Lemma mask_small z : (0 <= z < 2 ^ 28)%Z -> Z.land z 268435455 = z.
Proof. intros H. change 268435455%Z with (Z.ones 28). rewrite Z.land_ones by lia. apply Z.mod_small. exact H. Qed.
Lemma masked_small id m : (0 <= id < 2 ^ 28)%Z -> (x_id m < 2 ^ 28)%N -> masked id m = Z.eqb (Z.of_N (x_id m)) id.
Proof. intros H K. unfold masked. rewrite !mask_small; [reflexivity|exact H|]. change (2 ^ 28)%N with 268435456%N in K. change (2 ^ 28)%Z with 268435456%Z. lia. Qed.
Lemma filter_unique {A B} (f : A -> bool) (k : A -> B) l x : NoDup (map k l) -> In x l -> (forall y, In y l -> f y = true <-> k y = k x) -> filter f l = [x].
Proof.
  induction l as [|y l IH]; intros N I H; [contradiction|]. inversion N as [|? ? N1 N2]; subst. cbn [filter].
  assert (Hl : forall z, In z l -> f z = true <-> k z = k x) by (intros z J; apply H; right; exact J).
  destruct I as [<-|I].
  - rewrite (proj2 (H y (or_introl eq_refl)) eq_refl). f_equal. clear IH.
    assert (Z : forall z, In z l -> f z = false).
    { intros z J. destruct (f z) eqn:E; [|reflexivity]. apply Hl in E; [|exact J]. exfalso. apply N1. rewrite <- E. apply in_map. exact J. }
    clear -Z. induction l as [|z l IH]; [reflexivity|]. cbn. rewrite (Z z (or_introl eq_refl)). apply IH. intros. apply Z. right. assumption.
  - destruct (f y) eqn:E; [|apply IH; assumption]. exfalso. apply H in E; [|left; reflexivity]. apply N1. rewrite E. apply in_map. exact I.
Qed.
Lemma split_perm (c : collateral) m : In m (filter without_args (c_messages c) ++ filter (fun m => negb (without_args m)) (c_messages c)) <-> In m (c_messages c).
Proof. rewrite in_app_iff, !filter_In. destruct (without_args m); cbn; intuition congruence. Qed.
Lemma nodup_split {A B} (k : A -> B) p (l : list A) : NoDup (map k l) -> NoDup (map k (filter p l ++ filter (fun x => negb (p x)) l)).
Proof.
  intros N. rewrite map_app. induction l as [|x l IH]; [constructor|]. cbn [map] in N. inversion N as [|? ? N1 N2]; subst. specialize (IH N2).
  cbn [filter]. assert (Ni : ~ In (k x) (map k (filter p l) ++ map k (filter (fun x => negb (p x)) l))).
  { intros I. apply N1. rewrite <- map_app in I. apply in_map_iff in I as (y & E & I). rewrite <- E. apply in_map.
    apply in_app_or in I as [I|I]; apply filter_In in I as [I _]; exact I. }
  destruct (p x); cbn [negb map app].
  - constructor; assumption.
  - apply (NoDup_Add (Add_app (k x) _ _)). split; assumption.
Qed.
Theorem look_up_one f c m : NoDup (map x_id (c_messages c)) -> (forall m', In m' (c_messages c) -> (x_id m' < 2 ^ 28)%N) -> In m (c_messages c) ->
  look_up (document f c) (Z.of_N (x_id m)) = [f (printf_format (x_text m) (x_args m))].
Proof.
  intros N S I. rewrite look_up_document. rewrite (filter_unique _ x_id _ m); [reflexivity|apply nodup_split; exact N|apply split_perm; exact I|].
  intros y J. apply (proj1 (split_perm c y)) in J. pose proof (S m I) as Sm. pose proof (S y J) as Sy.
  rewrite masked_small; [rewrite Z.eqb_eq; lia| |exact Sy]. change (2 ^ 28)%N with 268435456%N in Sm. change (2 ^ 28)%Z with 268435456%Z. lia.
Qed.
Theorem look_up_none f c id : (forall m', In m' (c_messages c) -> (x_id m' < 2 ^ 28)%N) -> (0 <= id < 2 ^ 28)%Z -> (forall m, In m (c_messages c) -> Z.of_N (x_id m) <> id) ->
  look_up (document f c) id = [].
Proof.
  intros S H N. rewrite look_up_document. assert (E : forall l, (forall m, In m l -> In m (c_messages c)) -> filter (masked id) l = []).
  { induction l as [|m l IH]; intros L; [reflexivity|]. cbn [filter]. rewrite masked_small; [|exact H|apply S, L; left; reflexivity].
    destruct (Z.eqb_spec (Z.of_N (x_id m)) id) as [E|_]; [exfalso; exact (N m (L m (or_introl eq_refl)) E)|]. apply IH. intros m' I. apply L. right. exact I. }
  rewrite E; [reflexivity|]. intros m I. apply split_perm. exact I.
Qed.

(** ** Together *)
Theorem written_reads c : Forall legal (labels c) -> good_texts c -> exists y, reads (write_xml c) y /\ without_layout y = document amp c.
Proof. intros L T. apply shown_file. apply collateral_shows; assumption. Qed.

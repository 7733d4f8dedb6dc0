(** One build, and histories of builds. *)
From Coq Require Import String Ascii Bool Arith List NArith ZArith Lia Permutation.
From Coq Require Import ZifyNat ZifyBool.
From Verif Require Import CatalogModel CatalogSpec CatalogProofs.
Import ListNotations.
Local Open Scope Z_scope.

Lemma entry_eqb_eq a b : entry_eqb a b = true <-> a = b.
Proof.
  unfold entry_eqb, args_eqb. split.
  - intros H. apply andb_prop in H as [H H4]. apply andb_prop in H as [H H3]. apply andb_prop in H as [H1 H2].
    destruct (list_eq_dec _ _ _); [|discriminate]. apply String.eqb_eq in H1. apply N.eqb_eq in H4. destruct a, b; cbn in *. f_equal; auto. lia.
  - intros ->. rewrite String.eqb_refl, Z.eqb_refl, N.eqb_refl. destruct (list_eq_dec _ _ _); [reflexivity|congruence].
Qed.
Lemma write_json_in st : forall ms x, In x (write_json ms st) <-> In x ms \/ In x st.
Proof.
  unfold write_json. induction st as [|j st IH]; intros ms x; cbn [fold_left In]; [tauto|]. rewrite IH. destruct (existsb (entry_eqb j) ms) eqn:E.
  - apply existsb_exists in E as (y & Hy & E). apply entry_eqb_eq in E. subst y. intuition congruence.
  - rewrite in_app_iff. cbn [In]. intuition.
Qed.
Lemma write_json_keeps st : forall ms, exists extra, write_json ms st = (ms ++ extra)%list.
Proof.
  unfold write_json. induction st as [|j st IH]; intros ms; cbn [fold_left]; [exists []; symmetry; apply app_nil_r|].
  destruct (existsb _ _); [apply IH|]. destruct (IH (ms ++ [j])%list) as [e ->]. exists (j :: e). rewrite <- app_assoc. reflexivity.
Qed.
Lemma holds_app a b s i : holds (a ++ b) s i <-> holds a s i \/ holds b s i.
Proof.
  unfold holds. split.
  - intros (m & Hm & H). apply in_app_iff in Hm as [Hm|Hm]; [left|right]; exists m; auto.
  - intros [(m & Hm & H)|(m & Hm & H)]; exists m; split; auto; apply in_app_iff; auto.
Qed.

Section Step.
Variables (key : entry -> Z) (reserved : list (Z * Z)) (json items : list entry).
Hypothesis Hresp : respects key.
Hypothesis Hsep : separates key (json ++ items).
Hypothesis Hjson : one_to_one json.
Hypothesis Hpins : pins_ok json items.
Let st := of_items key json.
Let uq := unique key items.
Let d := pinned key st uq.
Let ms := assign_loop key d (old_ids d) reserved 0 (sorted uq).
Let out := write_json ms (values d).
Lemma run_is : run key false reserved [Some json] items = (ms, out). Proof. reflexivity. Qed.

Lemma st_wf : wf key st. Proof. apply of_items_spec. Qed.
Lemma d_spec : wf key d /\ forall x, In x (values d) <-> In x uq /\ m_id x <> -1 \/ In x (values st) /\ forall m, In m uq -> m_id m <> -1 -> key m <> key x.
Proof. apply pinned_spec; [apply st_wf|]. apply unique_spec. Qed.
Lemma st_in x : In x (values st) -> In x json. Proof. apply of_items_spec. Qed.
Lemma uq_in x : In x uq -> In x items. Proof. apply unique_spec. Qed.
Lemma sep_j_i a b : In a json \/ In a items -> In b json \/ In b items -> key a = key b -> sid a = sid b.
Proof. intros Ha Hb. apply Hsep; apply in_app_iff; auto. Qed.
Lemma d_in x : In x (values d) -> In x json \/ In x items.
Proof. intros Hx. apply d_spec in Hx as [[Hx _]|[Hx _]]; [right; apply uq_in, Hx|left; apply st_in, Hx]. Qed.
(** What the stables hold: the catalog, and the explicit ids. *)
Lemma d_holds s i : holds (values d) s i -> holds json s i \/ exists m, In m items /\ m_id m <> -1 /\ sid m = s /\ m_id m = i.
Proof.
  intros (x & Hx & Hs & Hi). apply d_spec in Hx as [[Hx Hn]|[Hx _]].
  - right. exists x. split; [apply uq_in, Hx|]. auto.
  - left. exists x. split; [apply st_in, Hx|]. auto.
Qed.
Lemma json_d s i : holds json s i -> holds (values d) s i.
Proof.
  intros (m & Hm & Hs & Hi). destruct (of_items_spec key json) as (_ & H2 & H3). destruct (H3 m Hm) as (x & Hx & Hk). fold st in Hx.
  assert (Ex : sid x = sid m) by (apply sep_j_i; auto).
  assert (Ei : m_id x = m_id m). { destruct Hjson as [HJ _]. apply (HJ s); [exists x|exists m]; repeat split; auto; congruence. }
  destruct (In_dec Z.eq_dec (key x) (map key (filter (fun u => negb (m_id u =? -1)) uq))) as [Hin|Hin].
  - apply in_map_iff in Hin as (u & Eu & Hu). apply filter_In in Hu as [Hu Hp]. assert (Hp' : m_id u <> -1) by lia.
    assert (Hui := uq_in u Hu). assert (Es : sid u = sid x) by (apply sep_j_i; auto).
    exists u. split; [apply d_spec; left; auto|]. split; [congruence|].
    destruct (Hpins u Hui Hp') as [P _]. symmetry. apply (P s i); [exists m; auto|congruence].
  - exists x. split; [|split; congruence]. apply d_spec. right. split; auto. intros u Hu Hp Ek. apply Hin. rewrite <- Ek. apply in_map, filter_In. split; auto. lia.
Qed.
Lemma d_one : one_to_one (values d).
Proof.
  destruct d_spec as [W D]. split.
  - intros s i j (x & Hx & Sx & Ix) (y & Hy & Sy & Iy). assert (key x = key y) by (apply Hresp; congruence).
    assert (E1 : dict_get (key x) d = Some x) by (apply (get_in key); auto). assert (E2 : dict_get (key x) d = Some y) by (apply (get_in key); auto). congruence.
  - intros s t i (x & Hx & Sx & Ix) (y & Hy & Sy & Iy).
    apply D in Hx as [[Hx Px]|[Hx _]]; apply D in Hy as [[Hy Py]|[Hy _]].
    + destruct (Hpins x (uq_in x Hx) Px) as [_ P]. rewrite <- Sx, <- Sy. apply (P y (uq_in y Hy) Py). congruence.
    + destruct (Hpins x (uq_in x Hx) Px) as [P _]. rewrite <- Sx. symmetry. apply (P t i); [exists y; split; [apply st_in, Hy|auto]|congruence].
    + destruct (Hpins y (uq_in y Hy) Py) as [P _]. rewrite <- Sy. apply (P s i); [exists x; split; [apply st_in, Hx|auto]|congruence].
    + destruct Hjson as [_ HJ]. apply (HJ s t i); [exists x|exists y]; split; auto; apply st_in; auto.
Qed.
Lemma ms_sids s : In s (map sid ms) <-> In s (map sid items).
Proof.
  unfold ms. rewrite loop_sids. rewrite (Permutation_map sid (sorted_perm uq)). destruct (unique_spec key items) as (_ & U2 & U3). fold uq in U2, U3.
  rewrite !in_map_iff. split.
  - intros (x & E & Hx). exists x. auto.
  - intros (m & E & Hm). destruct (U3 m Hm) as (x & Hx & Hk). exists x. split; auto. rewrite <- E. apply sep_j_i; auto.
Qed.
Lemma nodup_sorted : NoDup (map key (sorted uq)).
Proof. apply (Permutation_NoDup (Permutation_map key (Permutation_sym (sorted_perm uq)))). apply unique_spec. Qed.
(** An assigned entry: as in the stables, or fresh. *)
Lemma ms_cases x : In x ms -> holds (values d) (sid x) (m_id x) \/
  (forall i, ~ holds (values d) (sid x) i) /\ 0 <= m_id x /\ contains reserved (m_id x) = false /\ forall s, ~ holds (values d) s (m_id x).
Proof.
  intros Hx. assert (L := loop_ids key d (old_ids d) reserved Hresp _ _ _ Hx). destruct d_spec as [W D].
  assert (Hxi : exists m, In m items /\ sid m = sid x).
  { assert (In (sid x) (map sid items)) as H by (apply ms_sids, in_map, Hx). apply in_map_iff in H as (m & E & Hm). exists m. auto. }
  destruct Hxi as (xi & Hxi & Sxi).
  destruct (dict_get (key x) d) as [s|] eqn:E.
  - left. apply (get_in key) in E; auto. destruct E as [Hs Ek]. exists s. split; auto. split; auto. rewrite <- Sxi. apply sep_j_i; auto.
    + apply d_in, Hs.
    + rewrite Ek. symmetry. apply Hresp, Sxi.
  - right. destruct L as [L1 L2]. unfold taken in L2. apply orb_false_iff in L2 as [L2 L3]. rewrite (get_none key) in E by auto. split; [|split; [|split]]; auto.
    + intros i (m & Hm & Sm & _). apply (E m Hm). apply Hresp, Sm.
    + intros s (m & Hm & _ & Im). assert (existsb (Z.eqb (m_id x)) (old_ids d) = true); [|congruence]. apply existsb_exists. exists (m_id m). split; [apply in_map, Hm|lia].
Qed.
Lemma ms_one : one_to_one (ms ++ values d).
Proof.
  destruct d_one as [D1 D2]. destruct d_spec as [W D].
  assert (F : forall x y, In x ms -> In y ms -> (forall i, ~ holds (values d) (sid x) i) -> (forall i, ~ holds (values d) (sid y) i) -> m_id x = m_id y -> sid x = sid y).
  { intros x y Hx Hy Nx Ny E. 
    assert (G : forall z, In z ms -> (forall i, ~ holds (values d) (sid z) i) -> dict_get (key z) d = None).
    { intros z Hz Nz. apply (get_none key); auto. intros m Hm Hk. apply (Nz (m_id m)). exists m. split; auto. split; auto.
      assert (In (sid z) (map sid items)) as H by (apply ms_sids, in_map, Hz). apply in_map_iff in H as (zi & Ez & Hzi). rewrite <- Ez. apply sep_j_i; auto; [apply d_in, Hm|].
      rewrite Hk. symmetry. apply Hresp, Ez. }
    assert (Hk := loop_inj key d (old_ids d) reserved Hresp (sorted uq) 0 x y nodup_sorted Hx Hy (G x Hx Nx) (G y Hy Ny) E).
    assert (exists xi yi, In xi items /\ In yi items /\ sid xi = sid x /\ sid yi = sid y) as (xi & yi & Hxi & Hyi & Ex & Ey).
    { assert (In (sid x) (map sid items)) as H1 by (apply ms_sids, in_map, Hx). assert (In (sid y) (map sid items)) as H2 by (apply ms_sids, in_map, Hy).
      apply in_map_iff in H1 as (xi & E1 & H1). apply in_map_iff in H2 as (yi & E2 & H2). exists xi, yi. auto. }
    rewrite <- Ex, <- Ey. apply sep_j_i; auto. transitivity (key x); [apply Hresp, Ex|]. rewrite Hk. symmetry. apply Hresp, Ey. }
  assert (U : forall x y, In x ms -> In y ms -> sid x = sid y -> m_id x = m_id y).
  { intros x y Hx Hy E. destruct (ms_cases x Hx) as [Cx|(Nx & _)].
    - destruct (ms_cases y Hy) as [Cy|(Ny & _)]; [apply (D1 (sid x)); auto; rewrite E; auto|]. exfalso. rewrite E in Cx. apply (Ny _ Cx).
    - assert (NoDup (map sid ms)) as ND.
      { unfold ms. rewrite loop_sids. assert (ND := nodup_sorted). clear - ND Hresp. induction (sorted uq) as [|a l IH]; cbn [map] in *; [constructor|].
        inversion_clear ND as [|? ? N1 N2]. constructor; auto. intros Hin. apply N1. apply in_map_iff in Hin as (b & Eb & Hb). apply in_map_iff. exists b. split; auto. }
      assert (x = y); [|congruence]. revert Hx Hy E ND. generalize ms. intros l Hx Hy E ND. induction l as [|a l IH]; [destruct Hx|].
      cbn [map] in ND. inversion_clear ND as [|? ? N1 N2]. destruct Hx as [->|Hx], Hy as [->|Hy]; auto.
      + exfalso. apply N1. rewrite E. apply in_map, Hy.
      + exfalso. apply N1. rewrite <- E. apply in_map, Hx. }
  split.
  - intros s i j Hi Hj. apply holds_app in Hi. apply holds_app in Hj.
    destruct Hi as [(x & Hx & <- & <-)|Hi], Hj as [(y & Hy & Sy & <-)|Hj].
    + apply U; auto.
    + destruct (ms_cases x Hx) as [Cx|(Nx & _)]; [apply (D1 (sid x)); auto|]. exfalso. apply (Nx j Hj).
    + destruct (ms_cases y Hy) as [Cy|(Ny & _)]; [apply (D1 s); auto; rewrite <- Sy; auto|]. exfalso. rewrite <- Sy in Hi. apply (Ny i Hi).
    + apply (D1 s); auto.
  - intros s t i Hi Hj. apply holds_app in Hi. apply holds_app in Hj.
    destruct Hi as [(x & Hx & Sx & Ix)|Hi], Hj as [(y & Hy & Sy & Iy)|Hj].
    + destruct (ms_cases x Hx) as [Cx|(Nx & _ & _ & Fx)], (ms_cases y Hy) as [Cy|(Ny & _ & _ & Fy)].
      * apply (D2 s t i); congruence.
      * exfalso. apply (Fy (sid x)). congruence.
      * exfalso. apply (Fx (sid y)). congruence.
      * rewrite <- Sx, <- Sy. apply F; auto. congruence.
    + destruct (ms_cases x Hx) as [Cx|(Nx & _ & _ & Fx)]; [apply (D2 s t i); congruence|]. exfalso. apply (Fx t). congruence.
    + destruct (ms_cases y Hy) as [Cy|(Ny & _ & _ & Fy)]; [apply (D2 s t i); congruence|]. exfalso. apply (Fy s). congruence.
    + apply (D2 s t i); auto.
Qed.
Lemma out_holds s i : holds out s i <-> holds ms s i \/ holds (values d) s i.
Proof.
  rewrite <- holds_app. unfold out, holds. split; intros (m & Hm & H); exists m; split; auto.
  - apply write_json_in in Hm. apply in_app_iff, Hm.
  - apply write_json_in. apply in_app_iff, Hm.
Qed.
Lemma step_one : one_to_one out.
Proof.
  destruct ms_one as [M1 M2]. split.
  - intros s i j Hi Hj. apply out_holds, holds_app in Hi. apply out_holds, holds_app in Hj. apply (M1 s); auto.
  - intros s t i Hi Hj. apply out_holds, holds_app in Hi. apply out_holds, holds_app in Hj. apply (M2 s t i); auto.
Qed.
Lemma step_keeps s i : holds json s i -> holds out s i.
Proof. intros H. apply out_holds. right. apply json_d, H. Qed.
Lemma step_ms s i : holds ms s i -> holds out s i.
Proof. intros H. apply out_holds. auto. Qed.
(** A message that is new and not numbered explicitly gets a free id. *)
Lemma step_fresh s i : holds ms s i -> (forall j, ~ holds json s j) -> ~ pinned_in items s ->
  0 <= i /\ contains reserved i = false /\ (forall t, ~ holds json t i) /\ forall m, In m (unique key items) -> m_id m <> -1 -> m_id m <> i.
Proof.
  intros (x & Hx & <- & <-) Hnew Hpin. destruct (ms_cases x Hx) as [C|(N & H1 & H2 & H3)].
  - exfalso. apply d_holds in C as [C|(m & Hm & Hp & Sm & _)]; [apply (Hnew _ C)|]. apply Hpin. exists m. auto.
  - split; auto. split; auto. split.
    + intros t Ht. apply (H3 t). apply json_d, Ht.
    + intros m Hm Hp E. apply (H3 (sid m)). exists m. split; auto. apply d_spec. left. auto.
Qed.
Lemma new_get x : In x ms -> (forall j, ~ holds json (sid x) j) -> ~ pinned_in items (sid x) -> dict_get (key x) d = None.
Proof.
  intros Hx Hnew Hpin. destruct d_spec as [W D]. apply (get_none key); auto. intros m Hm Hk.
  assert (In (sid x) (map sid items)) as H by (apply ms_sids, in_map, Hx). apply in_map_iff in H as (xi & Exi & Hxi).
  assert (Em : sid m = sid x). { rewrite <- Exi. apply sep_j_i; auto; [apply d_in, Hm|]. rewrite Hk. symmetry. apply Hresp, Exi. }
  assert (C : holds (values d) (sid x) (m_id m)) by (exists m; auto).
  apply d_holds in C as [C|(m' & Hm' & Hp & Sm & _)]; [apply (Hnew _ C)|]. apply Hpin. exists m'. auto.
Qed.
Lemma step_dense x j : In x ms -> (forall k, ~ holds json (sid x) k) -> ~ pinned_in items (sid x) -> 0 <= j < m_id x ->
  contains reserved j = true \/ exists s, holds out s j.
Proof.
  intros Hx Hnew Hpin Hj. destruct (loop_dense key d (old_ids d) reserved Hresp (sorted uq) 0 x j Hx (new_get x Hx Hnew Hpin) Hj) as [T|(z & Hz & Ez)].
  - unfold taken in T. apply orb_prop in T as [T|T]; auto. right. apply existsb_exists in T as (k & Hk & E). assert (k = j) by lia. subst k.
    apply in_map_iff in Hk as (m & Em & Hm). exists (sid m). apply out_holds. right. exists m. auto.
  - right. exists (sid z). apply out_holds. left. exists z. auto.
Qed.
(** Ids in the output come from the catalog, the explicit ids, or are fresh. *)
Lemma step_pins m : In m (unique key items) -> m_id m <> -1 -> holds ms (sid m) (m_id m).
Proof.
  intros Hm Hp. assert (In (sid m) (map sid ms)) as H by (apply ms_sids, in_map, uq_in, Hm). apply in_map_iff in H as (x & Ex & Hx).
  assert (Hd : holds (values d) (sid m) (m_id m)) by (exists m; split; auto; apply d_spec; left; auto).
  exists x. split; auto. split; auto. destruct ms_one as [M1 _]. apply (M1 (sid m)); apply holds_app; auto. left. exists x. auto.
Qed.
End Step.

(** ** Histories *)
Lemma after_app bs b : after (bs ++ [b]) = snd (step (after bs) b).
Proof. unfold after. rewrite fold_left_app. reflexivity. Qed.
Lemma good_prefix bs bs' : good_history (bs ++ bs') -> good_history bs.
Proof. intros H pre b post E. apply (H pre b (post ++ bs')%list). rewrite E, <- app_assoc. reflexivity. Qed.
Lemma history_one bs : good_history bs -> one_to_one (after bs).
Proof.
  induction bs as [|b bs IH] using rev_ind; intros H.
  - split; [intros s i j (m & [] & _)|intros s t i (m & [] & _)].
  - rewrite after_app. assert (IH' := IH (good_prefix _ _ H)). destruct (H bs b [] eq_refl) as (H1 & H2 & H3). apply step_one; auto.
Qed.
Lemma history_keeps bs bs' s i : good_history (bs ++ bs') -> holds (after bs) s i -> holds (after (bs ++ bs')) s i.
Proof.
  revert s i. induction bs' as [|b bs' IH] using rev_ind; intros s i H Hs.
  - rewrite app_nil_r. auto.
  - rewrite app_assoc in *. rewrite after_app. assert (G := good_prefix _ _ H). destruct (H (bs ++ bs')%list b [] eq_refl) as (H1 & H2 & H3). apply step_keeps; auto.
    apply history_one; auto.
Qed.

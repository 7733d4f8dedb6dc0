(** Property of the build of the release header: C154. *)
From Coq Require Import String Bool Arith List Lia.
From Verif Require Import ReleaseModel ReleaseSpec ReleaseProofs ReleaseProps RelBuildModel RelBuildSpec RelBuildProofs.
Import ListNotations.
Local Open Scope string_scope.
Local Open Scope list_scope.

(** ** C154: after a build the release header is made of the sources *)
(** After any rounds of changes and builds, of which every one but the first writes a dependency or
    changes nothing that matters. *)
Theorem C154_partial deps root t rs : In root deps -> starts t -> rs <> [] -> noticed deps root true t rs -> up_to_date root (rounds deps root t rs).
Proof.
  intros R [M T] Hne N.
  assert (G : forall rs (first : bool) t, timely t -> (if first then made t = None else up_to_date root t) -> settled deps t -> noticed deps root first t rs ->
    (first = true -> rs <> []) -> up_to_date root (rounds deps root t rs)).
  { clear - R. induction rs as [|cs rs IH]; intros first t Tm U St N F.
    - destruct first; [destruct (F eq_refl eq_refl)|exact U].
    - cbn [noticed] in N. destruct N as (D & Hc & N). unfold rounds. cbn [fold_left]. set (t' := alter_all cs t) in *.
      assert (Tm' : timely t') by (apply alter_timely, Tm).
      apply (IH false); auto; [apply build_timely, Tm'| |apply build_settled; assumption|discriminate].
      destruct (build_sources deps root t') as [S1 S2]. destruct (printed_some (sources t') (version t') root) as (text & P); [apply D, R|].
      destruct (build_runs deps root t' D) as [[B (m & o & Em & C)]|[B _]].
      + assert (Em' : made t = Some (m, o)) by (unfold t' in Em; rewrite alter_made in Em; exact Em).
        destruct first; [congruence|]. destruct U as (m0 & text0 & E0 & P0). rewrite Em' in E0. injection E0 as <- <-.
        exists m, o. rewrite B, S1, S2. split; [exact Em|]. destruct Hc as [|[(p & I & W)|L]]; [discriminate| |].
        * exfalso. destruct Tm as [T1 T2]. pose proof (alter_written cs t p T1 W) as X. specialize (C p I). specialize (T2 m o Em'). fold t' in X. lia.
        * rewrite (printed_same root t t' L). exact P0.
      + exists (S (now t')), text. rewrite B, S1, S2, P. auto. }
  apply (G rs true); auto; [split; [exact T|intros m o E; congruence]|intros m o p E; congruence].
Qed.
Print Assumptions C154_partial.
(** Exactly when a build brings a header up to date that was: if a dependency was written since, or
    what is printed has not changed. *)
Theorem C154_exact deps root t cs : In root deps -> timely t -> settled deps t -> up_to_date root t ->
  (forall p, In p deps -> file (sources (alter_all cs t)) p <> None) ->
  up_to_date root (build deps root (alter_all cs t)) <->
  touches deps cs \/ printed (sources (alter_all cs t)) (version (alter_all cs t)) root = printed (sources t) (version t) root.
Proof.
  intros R [T1 T2] St U D. set (t' := alter_all cs t) in *. destruct U as (m & text & M & P).
  destruct (build_sources deps root t') as [S1 S2]. assert (M' : made t' = Some (m, text)) by (unfold t'; rewrite alter_made; exact M).
  destruct (build_runs deps root t' D) as [[B (m1 & o1 & Em & C)]|[B W]].
  - rewrite M' in Em. injection Em as <- <-. split.
    + intros (m2 & text2 & M2 & P2). right. rewrite B, M' in M2. injection M2 as <- <-. rewrite S1, S2 in P2. congruence.
    + intros [(p & I & W)|E].
      * exfalso. pose proof (alter_written cs t p T1 W) as X. specialize (C p I). specialize (T2 _ _ M). fold t' in X. lia.
      * exists m, text. rewrite B, S1, S2. split; [exact M'|]. congruence.
  - split.
    + intros _. left. destruct W as [W|(m1 & o1 & p & Em & I & L)]; [congruence|]. rewrite M' in Em. injection Em as <- <-. exists p. split; [exact I|].
      destruct (Exists_dec (writes p) cs) as [X|X]; [|exact X|].
      * intros c. destruct c as [q ls|q|v]; cbn; [apply string_dec|right; auto|right; auto].
      * exfalso. unfold t' in L. rewrite alter_unwritten in L by exact X. specialize (St m text p M I). lia.
    + intros _. destruct (printed_some (sources t') (version t') root (D root R)) as (x & X). exists (S (now t')), x. rewrite B, S1, S2, X. auto.
Qed.
Print Assumptions C154_exact.
(** What the header of the sources is made of: files that it does not look at do not matter. *)
Theorem C154_reads root fs fs' v : (forall p, looked_at fs root p -> file fs' p = file fs p) -> printed fs' v root = printed fs v root.
Proof. intros H. unfold printed. rewrite (release_agrees fs fs' root H). reflexivity. Qed.
Print Assumptions C154_reads.
(** So with all files that are looked at as dependencies, and no new tag, every build brings it up to date. *)
Theorem C154_listed deps root t rs : In root deps -> starts t -> rs <> [] ->
  (forall cs c, In cs rs -> In c cs -> match c with Write p _ => In p deps | Remove _ | Tag _ => False end) ->
  (forall p, In p deps -> file (sources t) p <> None) -> up_to_date root (rounds deps root t rs).
Proof.
  intros R S Hne H D. apply C154_partial; auto.
  assert (K : forall cs t p, (forall c, In c cs -> match c with Write p _ => In p deps | Remove _ | Tag _ => False end) -> file (sources t) p <> None -> file (sources (alter_all cs t)) p <> None).
  { clear. intros cs. unfold alter_all. induction cs as [|c cs IH]; intros t p H F; [exact F|]. cbn [fold_left]. apply IH; [intros x I; apply H; right; exact I|].
    specialize (H c (or_introl eq_refl)). destruct c as [q ls|q|v]; try contradiction. cbn [alter sources file]. destruct (String.eqb_spec q p); [discriminate|].
    unfold without. revert F. induction (sources t) as [|[x y] l IHl]; [auto|]. cbn [file filter fst]. destruct (String.eqb_spec x p) as [->|].
    - destruct (String.eqb_spec p q); [congruence|]. cbn [negb file]. rewrite String.eqb_refl. auto.
    - intros F. destruct (negb (x =? q)); [cbn [file]; destruct (String.eqb_spec x p); [congruence|]|]; apply IHl, F. }
  assert (G : forall rs first t, (forall cs c, In cs rs -> In c cs -> match c with Write p _ => In p deps | Remove _ | Tag _ => False end) -> (forall p, In p deps -> file (sources t) p <> None) -> noticed deps root first t rs).
  { clear - K. induction rs as [|cs rs IH]; intros first t H D; [exact I|]. cbn [noticed].
    assert (D' : forall p, In p deps -> file (sources (alter_all cs t)) p <> None) by (intros p Ip; apply K; [intros c Ic; apply (H cs c); [left; reflexivity|exact Ic]|apply D, Ip]).
    split; [exact D'|]. split.
    - right. destruct cs as [|c cs]; [right; split; [reflexivity|intros; reflexivity]|]. left. specialize (H (c :: cs) c (or_introl eq_refl) (or_introl eq_refl)).
      destruct c as [p ls|p|v]; try contradiction. exists p. split; [exact H|]. left. reflexivity.
    - apply IH; [intros cs' c I1 I2; apply (H cs' c); [right; exact I1|exact I2]|]. intros p Ip. rewrite (proj1 (build_sources deps root _)). apply D', Ip. }
  apply G; auto.
Qed.
Print Assumptions C154_listed.
(** The header of this library: after a change to a header that is not one of the two in the file set cib,
    the build leaves the old release header, in which a compiler sees other code than in the library. *)
Definition some_sources (body : string) : files :=
  [("tools/gen_release_header.py", []); ("cib/cib.hpp", [Once; Text "// cib"; Include "cib/top.hpp" "#include <cib/top.hpp>"]);
   ("cib/top.hpp", [Once; Include "nexus/nexus.hpp" "#include <nexus/nexus.hpp>"; Text "struct top {};"]); ("nexus/nexus.hpp", [Once; Include "array" "#include <array>"; Text body])].
Definition some_tree : tree := {| sources := some_sources "int old();"; changed_at := fun _ => 0; version := "v1"; now := 0; made := None |}.
Definition old_header : list line := [Text "// cib"; Include "#include <array>" "#include <array>"; Text "int old();"; Text "struct top {};"].
Lemma sees_text fs holds seen t r out seen' st' : sees fs holds seen [] r out seen' st' -> sees fs holds seen [] (Text t :: r) (Code t :: out) seen' st'.
Proof. intros H. apply (s_text fs holds seen [] t r out seen' st' H). Qed.
Theorem C154_refuted : exists t rs, starts t /\ (forall p, In p library_depends -> file (sources t) p <> None) /\ Forall (fun cs => ~ touches library_depends cs) rs /\
  let t' := rounds library_depends library_root t rs in ~ up_to_date library_root t' /\
  exists m text out out', made t' = Some (m, text) /\ translation (sources t') (fun _ => true) library_root out /\ alone (fun _ => true) text out' /\ code out' <> code out.
Proof.
  exists some_tree, [[]; [Write "nexus/nexus.hpp" [Once; Include "array" "#include <array>"; Text "int fixed();"]]].
  split; [split; [reflexivity|intros; cbn; lia]|]. split; [intros p [<-|[<-|[<-|[]]]]; discriminate|]. split.
  - apply Forall_cons; [intros (p & _ & X); inversion X|]. apply Forall_cons; [|constructor]. intros (p & I & X). inversion_clear X as [? ? W|? ? W]; [|inversion W].
    cbn in W. subst p. destruct I as [I|[I|[I|[]]]]; discriminate I.
  - cbv zeta. set (t' := rounds _ _ _ _). assert (M : made t' = Some (1, old_header)) by (vm_compute; reflexivity).
    split; [intros (m & text & E & P); rewrite M in E; injection E as <- <-; vm_compute in P; discriminate|].
    exists 1, old_header, [Code "// cib"; System "#include <array>"; Code "int fixed();"; Code "struct top {};"], [Code "// cib"; System "#include <array>"; Code "int old();"; Code "struct top {};"].
    split; [exact M|]. clear M. assert (S : sources t' = ("nexus/nexus.hpp", [Once; Include "array" "#include <array>"; Text "int fixed();"]) :: firstn 3 (some_sources "")) by (vm_compute; reflexivity). rewrite S. clear S t'. split; [|split; [|discriminate]].
    + eexists. eexists. split; [reflexivity|]. apply s_once, sees_text.
      rewrite <- (app_nil_r [System "#include <array>"; Code "int fixed();"; Code "struct top {};"]). eapply s_include; [reflexivity|reflexivity| | |apply s_nil].
      * intros [H|[]]. discriminate H.
      * apply s_once. change [System "#include <array>"; Code "int fixed();"; Code "struct top {};"] with ([System "#include <array>"; Code "int fixed();"] ++ [Code "struct top {};"]).
        eapply s_include; [reflexivity|reflexivity|intros [H|[H|[]]]; discriminate H| |apply sees_text, s_nil].
        apply s_once, s_system; [reflexivity|reflexivity|]. apply sees_text, s_nil.
    + eexists. apply sees_text, s_system; [reflexivity|reflexivity|]. apply sees_text, sees_text, s_nil.
Qed.
Print Assumptions C154_refuted.
(** A new version tag is not noticed either. *)
Theorem C154_version_refuted : exists t rs, starts t /\ (forall p, In p library_depends -> file (sources t) p <> None) /\ Forall (Forall (fun c => exists v, c = Tag v)) rs /\
  ~ up_to_date library_root (rounds library_depends library_root t rs).
Proof.
  exists {| sources := ("cib/cib.hpp", [Once; Text "// ..~~VERSION~~.."; Include "cib/top.hpp" "#include <cib/top.hpp>"]) :: some_sources ""; changed_at := fun _ => 0; version := "v1"; now := 0; made := None |},
    [[]; [Tag "v2"]].
  split; [split; [reflexivity|intros; cbn; lia]|]. split; [intros p [<-|[<-|[<-|[]]]]; discriminate|]. split.
  - apply Forall_cons; [constructor|]. apply Forall_cons; [|constructor]. apply Forall_cons; [eauto|constructor].
  - intros (m & text & M & P). vm_compute in M. injection M as <- <-. vm_compute in P. discriminate.
Qed.
Print Assumptions C154_version_refuted.
(** Rounds that are noticed: the header that changed is changed with one of the file set. *)
Example C154_case : let body := [Once; Include "array" "#include <array>"; Text "int fixed();"] in
  let rs := [[]; [Write "nexus/nexus.hpp" body; Write "cib/top.hpp" [Once; Include "nexus/nexus.hpp" "n"]]; [Write "notes.hpp" [Text "x"]]] in
  starts some_tree /\ noticed library_depends library_root true some_tree rs /\
  made (rounds library_depends library_root some_tree rs) = Some (4, [Text "// cib"; Include "#include <array>" "#include <array>"; Text "int fixed();"]).
Proof.
  cbv zeta. split; [split; [reflexivity|intros; cbn; lia]|]. split; [|vm_compute; reflexivity]. cbn [noticed].
  split; [intros p [<-|[<-|[<-|[]]]]; discriminate|]. split; [auto|]. split; [intros p [<-|[<-|[<-|[]]]]; discriminate|].
  split; [right; left; exists "cib/top.hpp"; split; [right; right; left; reflexivity|right; left; reflexivity]|].
  split; [intros p [<-|[<-|[<-|[]]]]; discriminate|]. split; [|exact I]. right. right. split; [reflexivity|].
  intros p L. set (t := build _ _ _) in *.
  assert (Q : p <> "notes.hpp").
  { assert (S : sources t = ("cib/top.hpp", [Once; Include "nexus/nexus.hpp" "n"]) :: ("nexus/nexus.hpp", [Once; Include "array" "#include <array>"; Text "int fixed();"]) :: firstn 2 (some_sources "")) by (vm_compute; reflexivity).
    rewrite S in L. clear S t. assert (X : In p ["cib/cib.hpp"; "cib/top.hpp"; "nexus/nexus.hpp"; "array"]).
    - induction L as [|p ls target whole _ IH F I]; [left; reflexivity|]. destruct IH as [<-|[<-|[<-|[<-|[]]]]]; vm_compute in F; [injection F as <-..|discriminate F]; cbn [In] in I;
        repeat (destruct I as [I|I]; [try discriminate I; injection I as <- <-; cbn; tauto|]); contradiction.
    - intros ->. repeat (destruct X as [X|X]; [discriminate X|]). contradiction. }
  unfold alter_all. cbn [fold_left alter sources file]. destruct (String.eqb_spec "notes.hpp" p); [congruence|]. unfold without.
  clear L. induction (sources t) as [|[x y] l IH]; [reflexivity|]. cbn [filter fst file]. destruct (String.eqb_spec x "notes.hpp") as [->|]; cbn [negb].
  - rewrite IH. destruct (String.eqb_spec "notes.hpp" p); [congruence|reflexivity].
  - cbn [file]. rewrite IH. reflexivity.
Qed.
(** The version is put in wherever its mark is. *)
Example C154_stamp : stamp "1.2" (Text "a ..~~VERSION~~.. b ..~~VERSION~~..") = Text "a 1.2 b 1.2" /\ stamp "1.2" (Text "..~~VERSION~~.") = Text "..~~VERSION~~.". Proof. split; vm_compute; reflexivity. Qed.

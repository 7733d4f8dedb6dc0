(** Theorems about the release header. *)
From Coq Require Import String Bool Arith List Lia.
From Verif Require Import ReleaseModel ReleaseSpec ReleaseProofs.
Import ListNotations.

Definition well_formed (fs : files) : Prop := forall p ls, file fs p = Some ls -> tidy fs 0 ls = true.

(** ** C86 *)
(** The release header compiles to the code of the original, whatever conditions
    hold: if conditional blocks are closed in their file and contain no header of the
    library, and the original has text before its first include, which is outside all
    blocks. *)
Theorem C86_partial fs root ls : file fs root = Some ls -> well_formed fs -> text_first fs ls ->
  exists text, release fs (S (List.length fs)) root = Some text /\ forall holds,
    (exists out, translation fs holds root out) /\ (exists out, alone holds text out) /\
    forall out out', translation fs holds root out -> alone holds text out' -> code out' = code out.
Proof.
  intros F W T. destruct (release_good fs W root ls (S (List.length fs)) F T (Nat.lt_succ_diag_r _)) as (text & R & H).
  exists text. split; [exact R|]. intros holds. destruct (H holds) as (o & o' & A & B & C & _). split; [eauto|]. split; [eauto|].
  intros out out' A' B'. destruct A as (l1 & v1 & F1 & A), A' as (l2 & v2 & F2 & A'), B as (w & B), B' as (w' & B').
  replace l2 with l1 in * by congruence. destruct (sees_fun _ _ _ _ _ _ _ _ A _ _ _ A') as (<- & _). destruct (sees_fun _ _ _ _ _ _ _ _ B _ _ _ B') as (<- & _). exact C.
Qed.
Print Assumptions C86_partial.
(** A header that includes nothing has its code twice. *)
Theorem C86_refuted : exists fs root text holds out out', well_formed fs /\ release fs (S (List.length fs)) root = Some text /\
  translation fs holds root out /\ alone holds text out' /\ code out' <> code out.
Proof.
  exists [("cib/a.hpp", [Once; Text "struct a {};"])]%string, "cib/a.hpp"%string, [Text "struct a {};"; Text "struct a {};"]%string, (fun _ => true),
    [Code "struct a {};"]%string, [Code "struct a {};"; Code "struct a {};"]%string.
  split; [intros p ls F; cbn [file] in F; destruct (_ =? p)%string; [|discriminate]; now injection F as <-|]. split; [reflexivity|]. split; [|split; [|discriminate]].
  - eexists. eexists. split; [reflexivity|]. apply s_once. apply (s_text _ _ _ [] _ _ []). apply s_nil.
  - eexists. apply (s_text _ _ _ [] _ _ [_]). apply (s_text _ _ _ [] _ _ []). apply s_nil.
Qed.
Print Assumptions C86_refuted.
(** A header of the library included first inside a block whose condition does not
    hold, and again outside, is lost. *)
Theorem C86_conditional_refuted : exists fs root ls text holds out out', file fs root = Some ls /\ text_first fs ls /\
  release fs (S (List.length fs)) root = Some text /\ translation fs holds root out /\ alone holds text out' /\ code out' <> code out.
Proof.
  exists [("cib/cib.hpp", [Text "// cib"; Include "cib/b.hpp" "b"; If "DEBUG"; Include "cib/a.hpp" "a"; Endif; Include "cib/a.hpp" "a"]);
          ("cib/b.hpp", [Text "struct b {};"]); ("cib/a.hpp", [Text "struct a {};"])]%string, "cib/cib.hpp"%string.
  eexists. exists [Text "// cib"; Text "struct b {};"; If "DEBUG"; Text "struct a {};"; Endif]%string, (fun _ => false),
    [Code "// cib"; Code "struct b {};"; Code "struct a {};"]%string, [Code "// cib"; Code "struct b {};"]%string.
  split; [reflexivity|]. split; [eexists [_]; repeat eexists|]. split; [reflexivity|]. split; [|split; [|discriminate]].
  - eexists. eexists. split; [reflexivity|]. apply (s_text _ _ _ [] _ _ [_; _]). eapply (s_include _ _ _ [] _ _ _ _ [_] _ [_]); [reflexivity..| |apply (s_text _ _ _ [] _ _ []); apply s_nil|].
    { intros [J|[]]; discriminate. }
    apply s_if. apply s_inactive; [reflexivity|]. apply s_endif. eapply (s_include _ _ _ [] _ _ _ _ [_] _ []); [reflexivity..| |apply (s_text _ _ _ [] _ _ []); apply s_nil|apply s_nil].
    intros [J|[J|[]]]; discriminate.
  - eexists. apply (s_text _ _ _ [] _ _ [_]). apply (s_text _ _ _ [] _ _ []). apply s_if. apply (s_text _ _ _ [false] _ _ []). apply s_endif. apply s_nil.
Qed.
Print Assumptions C86_conditional_refuted.
Definition demo : files :=
  [("cib/cib.hpp", [Text "// cib"; Once; Include "cib/a.hpp" "a"; Include "vector" "vector"; Text "f();"]);
   ("cib/a.hpp", [Once; Include "cib/b.hpp" "b"; Text "struct a {};"; If "X"; Include "map" "map"; Text "x();"; Else; Text "y();"; Endif]);
   ("cib/b.hpp", [Once; Include "cib/a.hpp" "a"; Include "vector" "vector"; Text "struct b {};"])]%string.
(** Headers that include each other, and a conditional block. *)
Example C86_case : well_formed demo /\ (exists ls, file demo "cib/cib.hpp"%string = Some ls /\ text_first demo ls) /\
  release demo 4 "cib/cib.hpp"%string = Some [Text "// cib"; Include "vector" "vector"; Include "map" "map"; Text "struct b {};"; Text "struct a {};"; If "X"; Text "x();"; Else; Text "y();"; Endif; Text "f();"]%string.
Proof.
  split; [|split; [|reflexivity]].
  - intros p ls F. cbn [demo file] in F. repeat (destruct (_ =? p)%string; [injection F as <-; reflexivity|]). discriminate.
  - eexists. split; [reflexivity|]. eexists [_; _]. repeat eexists.
Qed.

(** ** C87 *)
(** The system headers come early enough: whatever precedes a line of code in the
    original precedes it in the release header. *)
Theorem C87_partial fs root ls : file fs root = Some ls -> well_formed fs -> text_first fs ls ->
  exists text, release fs (S (List.length fs)) root = Some text /\ forall holds out out',
    translation fs holds root out -> alone holds text out' -> forall n h, after out n h -> after out' n h.
Proof.
  intros F W T. destruct (release_good fs W root ls (S (List.length fs)) F T (Nat.lt_succ_diag_r _)) as (text & R & H).
  exists text. split; [exact R|]. intros holds. destruct (H holds) as (o & o' & A & B & _ & C & _).
  intros out out' A' B'. destruct A as (l1 & v1 & F1 & A), A' as (l2 & v2 & F2 & A'), B as (w & B), B' as (w' & B').
  replace l2 with l1 in * by congruence. destruct (sees_fun _ _ _ _ _ _ _ _ A _ _ _ A') as (<- & _). destruct (sees_fun _ _ _ _ _ _ _ _ B _ _ _ B') as (<- & _). exact C.
Qed.
Print Assumptions C87_partial.
(** A header that starts with an include: the place 0 counts as none, the place of
    the next include is taken. *)
Theorem C87_refuted : exists fs root text holds out out' n h, well_formed fs /\ release fs (S (List.length fs)) root = Some text /\
  translation fs holds root out /\ alone holds text out' /\ after out n h /\ ~ after out' n h.
Proof.
  exists [("cib/cib.hpp", [Include "vector" "vector"; Text "std::vector<int> v;"; Include "map" "map"])]%string, "cib/cib.hpp"%string,
    [Text "std::vector<int> v;"; Include "vector" "vector"; Include "map" "map"]%string, (fun _ => true),
    [System "vector"; Code "std::vector<int> v;"; System "map"]%string, [Code "std::vector<int> v;"; System "vector"; System "map"]%string, 0, "vector"%string.
  split; [intros p ls F; cbn [file] in F; destruct (_ =? p)%string; [|discriminate]; now injection F as <-|]. split; [reflexivity|]. split; [|split; [|split]].
  - eexists. eexists. split; [reflexivity|]. apply s_system; [reflexivity..|]. apply (s_text _ _ _ [] _ _ [_]). apply s_system; [reflexivity..|]. apply s_nil.
  - eexists. apply (s_text _ _ _ [] _ _ [_; _]). apply s_system; [reflexivity..|]. apply s_system; [reflexivity..|]. apply s_nil.
  - exists [System "vector"]%string. eexists. split; [reflexivity|]. split; [now left|]. auto.
  - intros (pre & post & E & I & L). destruct pre as [|i pre]; [destruct I|]. injection E as <- E. cbn in L. lia.
Qed.
Print Assumptions C87_refuted.
(** The release header includes only system headers that the original includes, if
    none is included in a conditional block. *)
Theorem C87_only_partial fs root ls : file fs root = Some ls -> well_formed fs -> text_first fs ls ->
  (forall p ls, file fs p = Some ls -> includes_outside 0 ls = true) ->
  exists text, release fs (S (List.length fs)) root = Some text /\ forall holds out out',
    translation fs holds root out -> alone holds text out' -> forall h, In (System h) out' -> In (System h) out.
Proof.
  intros F W T O. destruct (release_good fs W root ls (S (List.length fs)) F T (Nat.lt_succ_diag_r _)) as (text & R & H).
  exists text. split; [exact R|]. intros holds. destruct (H holds) as (o & o' & A & B & _ & _ & C).
  intros out out' A' B'. destruct A as (l1 & v1 & F1 & A), A' as (l2 & v2 & F2 & A'), B as (w & B), B' as (w' & B').
  replace l2 with l1 in * by congruence. destruct (sees_fun _ _ _ _ _ _ _ _ A _ _ _ A') as (<- & _). destruct (sees_fun _ _ _ _ _ _ _ _ B _ _ _ B') as (<- & _). exact (C O).
Qed.
Print Assumptions C87_only_partial.
(** As include/log/log.hpp:13-15 has it. *)
Theorem C87_only_refuted : exists fs root ls text holds out out' h, file fs root = Some ls /\ well_formed fs /\ text_first fs ls /\
  release fs (S (List.length fs)) root = Some text /\ translation fs holds root out /\ alone holds text out' /\ In (System h) out' /\ ~ In (System h) out.
Proof.
  exists [("cib/cib.hpp", [Text "// cib"; Include "log/log.hpp" "log"]);
          ("log/log.hpp", [If "__cpp_pack_indexing < 202311L"; Include "stdx/tuple.hpp" "tuple"; Endif; Text "namespace logging {}"])]%string, "cib/cib.hpp"%string.
  eexists. exists [Text "// cib"; Include "tuple" "tuple"; If "__cpp_pack_indexing < 202311L"; Endif; Text "namespace logging {}"]%string, (fun _ => false),
    [Code "// cib"; Code "namespace logging {}"]%string, [Code "// cib"; System "tuple"; Code "namespace logging {}"]%string, "tuple"%string.
  split; [reflexivity|]. split; [|split; [|split; [reflexivity|split; [|split; [|split]]]]].
  - intros p ls F. cbn [file] in F. repeat (destruct (_ =? p)%string; [injection F as <-; reflexivity|]). discriminate.
  - eexists [_]. repeat eexists.
  - eexists. eexists. split; [reflexivity|]. apply (s_text _ _ _ [] _ _ [_]). eapply (s_include _ _ _ [] _ _ _ _ [_] _ []); [reflexivity..| | |apply s_nil].
    { intros [J|[]]; discriminate. }
    apply s_if. apply s_inactive; [reflexivity|]. apply s_endif. apply (s_text _ _ _ [] _ _ []). apply s_nil.
  - eexists. apply (s_text _ _ _ [] _ _ [_; _]). apply s_system; [reflexivity..|]. apply s_if. apply s_endif. apply (s_text _ _ _ [] _ _ []). apply s_nil.
  - right. now left.
  - intros [J|[J|[]]]; discriminate.
Qed.
Print Assumptions C87_only_refuted.
(** In the header of the example, std::vector is needed by b in the first file read. *)
Example C87_case : forall holds out', alone holds [Text "// cib"; Include "vector" "vector"; Text "struct b {};"]%string out' -> after out' 1 "vector"%string.
Proof.
  intros holds out' (v & S). inversion S as [|? ? ? ? ? ? ? S1| | | | | | | |]; subst. inversion S1; subst; try discriminate.
  exists [Code "// cib"; System "vector"]%string. eexists. split; [reflexivity|]. split; [right; now left|auto].
Qed.

(** ** C88 *)
(** The script ends, also when headers include each other, with a depth of calls of
    at most the number of headers and one... *)
Theorem C88_ends fs root : (exists ls, file fs root = Some ls) -> exists text, forall k, List.length fs < k -> release fs k root = Some text.
Proof.
  intros X. assert (E : exists_ fs root = true) by (now apply exists_spec).
  destruct (process_fuel fs (S (List.length fs)) root start E (Nat.lt_succ_diag_r _)) as (s & P).
  assert (M : forall k p s s', process fs k p s = Some s' -> forall k', k <= k' -> process fs k' p s = Some s').
  { clear. induction k as [|k IH]; intros p s s' P k' L; [discriminate|]. destruct k' as [|k']; [lia|]. rewrite process_step in *. destruct (mem p (visited s)); [exact P|].
    destruct (file fs p) as [ls|]; [|discriminate]. revert P. generalize (visit p s). induction ls as [|l ls IHl]; intros s0 P; [exact P|]. destruct l; cbn [lines] in *; auto.
    destruct (exists_ fs target); [|auto]. destruct (process fs k target (note_include s0)) as [s1|] eqn:Q; [|discriminate]. rewrite (IH _ _ _ Q k' ltac:(lia)). auto. }
  unfold release at 1. eexists. intros k K. unfold release. rewrite (M _ _ _ _ P k K). reflexivity.
Qed.
Print Assumptions C88_ends.
(** ...and no line of a header is printed more often than it is written, if the
    header includes anything. *)
Theorem C88_once_partial fs root ls t : file fs root = Some ls -> existsb is_include ls = true ->
  exists text, release fs (S (List.length fs)) root = Some text /\ times t text <= times_in t fs.
Proof. intros F I. apply (release_times fs root ls _ t F I). lia. Qed.
Print Assumptions C88_once_partial.
Theorem C88_once_refuted : exists fs root ls t text, file fs root = Some ls /\ release fs (S (List.length fs)) root = Some text /\ times_in t fs < times t text.
Proof. exists [("a", [Text "int x;"])]%string, "a"%string, [Text "int x;"]%string, "int x;"%string. eexists. split; [reflexivity|]. split; [reflexivity|]. cbn. lia. Qed.
Print Assumptions C88_once_refuted.
Example C88_case : exists text, release [("a", [Include "b" "b"; Text "x"]); ("b", [Include "a" "a"; Text "y"])]%string 3 "a"%string = Some text /\ text = [Text "y"; Text "x"]%string.
Proof. eexists. split; reflexivity. Qed.

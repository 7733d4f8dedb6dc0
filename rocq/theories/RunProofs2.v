(** Proofs: the run. *)
From Coq Require Import String Ascii Bool Arith ZArith NArith List Lia Permutation.
From Verif Require Import CatalogModel CatalogSpec CatalogProofs CatalogProofs2 GenModel GenSpec SymbolModel SymbolSpec ChainModel ChainSpec ChainProofs2 OutputModel OutputSpec OutputProofs2 OutputProofs3 OutputProofs4 RunModel RunSpec RunProofs.
From Verif Require GenProofs GenProofs2 GenProps OutputProofs OutputProps SymbolProps.
Import ListNotations.
Local Open Scope string_scope.
Local Open Scope list_scope.

(** ** The C++ file *)
Lemma one_line_app a b : one_line a -> one_line b -> one_line (a ++ b)%string.
Proof.
  intros A B. apply one_line_all in A, B. intros (x & y & E). pose proof (GenProofs.all_app (fun c => negb (Ascii.eqb c (ascii_of_nat 10))) a b) as H. rewrite A, B, E, !GenProofs.all_app in H.
  rewrite andb_comm in H. cbn in H. discriminate.
Qed.
Lemma one_line_const s : GenProofs.all (fun c => negb (Ascii.eqb c (ascii_of_nat 10))) s = true -> one_line s.
Proof. intros A (x & y & E). rewrite E, !GenProofs.all_app in A. rewrite andb_comm in A. cbn in A. discriminate. Qed.
Lemma one_line_join sep l : one_line sep -> Forall one_line l -> one_line (join_with sep l).
Proof.
  intros S F. induction F as [|x l X F IH]; [apply one_line_const; reflexivity|]. destruct l as [|y r]; [exact X|].
  change (join_with sep (x :: y :: r)) with (x ++ sep ++ join_with sep (y :: r))%string. apply one_line_app; [exact X|]. apply one_line_app; [exact S|exact IH].
Qed.
Lemma one_line_repr l : Forall one_line l -> one_line (list_repr l).
Proof.
  intros F. unfold list_repr. apply one_line_app; [apply one_line_const; reflexivity|]. apply one_line_app; [|apply one_line_const; reflexivity].
  apply one_line_join; [apply one_line_const; reflexivity|]. rewrite Forall_map. eapply Forall_impl; [|exact F]. intros a A. cbn.
  apply (one_line_app "'"); [apply one_line_const; reflexivity|]. apply one_line_app; [exact A|apply one_line_const; reflexivity].
Qed.
Lemma program_catalog text args type id : one_line text -> one_line args -> one_line type -> program_lines (catalog_defn text args type id) = returns "catalog" "string_id" type id.
Proof. intros A B C. unfold program_lines. rewrite (proj1 (GenProps.C82_partial text args type id A B C)). reflexivity. Qed.
Lemma program_module text type id : one_line text -> one_line type -> program_lines (module_defn text type id) = returns "module" "module_id" type id.
Proof. intros A C. unfold program_lines. rewrite (proj2 (GenProps.C82_partial text "" type id A ltac:(apply one_line_const; reflexivity) C)). reflexivity. Qed.
Lemma program_disclaimer argv date : one_line argv -> one_line date -> program_lines (disclaimer argv date) = [].
Proof.
  intros A D. unfold disclaimer. rewrite program_lines_of. cbn [flat_map].
  rewrite (program_comment ("// " ++ argv)); [|apply one_line_app; [apply one_line_const; reflexivity|exact A]|reflexivity].
  rewrite (program_comment ("// At " ++ date)); [|apply one_line_app; [apply one_line_const; reflexivity|exact D]|reflexivity]. reflexivity.
Qed.
Lemma program_nl a b : program_lines (a ++ newline ++ newline ++ b)%string = program_lines a ++ program_lines b.
Proof. rewrite program_app. change (newline ++ b)%string with ("" ++ newline ++ b)%string. rewrite program_app. reflexivity. Qed.
Lemma program_file argv date headers decls cs ms :
  program_lines (cpp_file argv date headers decls cs ms) =
  program_lines (disclaimer argv date) ++ flat_map program_lines (map (fun h => "#include """ ++ h ++ """")%string headers) ++
  ["#include <log_binary/catalog/arguments.hpp>"; "#include <log_binary/catalog/catalog.hpp>"] ++
  flat_map program_lines decls ++ flat_map program_lines cs ++ flat_map program_lines ms.
Proof.
  unfold cpp_file. rewrite program_nl. f_equal. rewrite program_nl, program_lines_of. f_equal.
  rewrite program_app. rewrite program_nl.
  change (program_lines "#include <log_binary/catalog/arguments.hpp>") with ["#include <log_binary/catalog/arguments.hpp>"].
  change (program_lines "#include <log_binary/catalog/catalog.hpp>") with ["#include <log_binary/catalog/catalog.hpp>"]. cbn [app]. do 2 f_equal.
  rewrite program_nl, program_lines_of. f_equal. rewrite program_nl, program_join2. f_equal.
  rewrite <- (OutputProofs.app_nil_s newline), program_app, program_join2. change (program_lines "") with (@nil string). apply app_nil_r.
Qed.
Lemma code_decl e ut d : enum_decl e ut = Some d -> one_line d -> code_line d.
Proof.
  intros E O. split; [exact O|]. unfold enum_decl in E. destruct (_ || _)%bool; [discriminate|]. destruct (Nat.ltb _ _); injection E as <-; split; (reflexivity || discriminate).
Qed.

(** ** Dictionary of files *)
Lemma file_write p q c fs : file p (write q c fs) = if (q =? p)%string then Some c else file p fs.
Proof.
  unfold file, write. induction fs as [|[k v] fs IH]; cbn; [reflexivity|]. destruct (String.eqb_spec k q) as [->|N]; cbn.
  - destruct (String.eqb_spec q p); reflexivity.
  - rewrite IH. destruct (String.eqb_spec k p) as [->|N']; [|reflexivity]. destruct (String.eqb_spec q p) as [->|]; [congruence|reflexivity].
Qed.

(** ** Objects *)
Section Kind.
Context {A : Type}.
Variables (entry_of : A -> entry) (key : entry -> Z) (forget : bool) (reserved : list (Z * Z)) (json : list entry) (items : list A).
Hypothesis Hresp : respects key.
Hypothesis Hsep : separates key (json ++ map entry_of items).
Hypothesis Hinj : forall a b, In a items -> In b items -> sid (entry_of a) = sid (entry_of b) -> a = b.
Let r := run key forget reserved [Some json] (map entry_of items).
Lemma objects_all m : In m items -> exists e, In e (fst r) /\ sid e = sid (entry_of m) /\ In (m, m_id e) (objects key entry_of (fst r) items).
Proof.
  intros Hm. assert (Hk : In m (kept (fun m => key (entry_of m)) items)).
  { destruct (kept_key (fun m => key (entry_of m)) items m Hm) as (x & Hx & E). assert (Hxi := kept_in _ _ _ Hx).
    assert (x = m); [|subst; auto]. apply Hinj; auto. apply Hsep; auto; apply in_app_iff; right; apply in_map; auto. }
  assert (Hs : In (sid (entry_of m)) (map sid (fst r))).
  { change (fst r) with (fst (run key false reserved [Some json] (map entry_of items))). rewrite run_is. cbn [fst]. apply ms_sids; auto. apply in_map, in_map, Hm. }
  apply in_map_iff in Hs as (e & Es & He). exists e. split; [exact He|]. split; [exact Es|].
  unfold objects. apply in_flat_map. exists e. split; [exact He|].
  destruct (find (fun x => (key (entry_of x) =? key e)%Z) (kept (fun m => key (entry_of m)) items)) as [m'|] eqn:F.
  - apply find_some in F as [I E]. apply Z.eqb_eq in E. left. f_equal. apply Hinj; [apply kept_in in I; exact I|exact Hm|].
    apply Hsep; [apply in_app_iff; right; apply in_map; apply kept_in in I; exact I|apply in_app_iff; right; apply in_map; exact Hm|]. rewrite E. apply Hresp. exact Es.
  - exfalso. apply (find_none _ _ F) in Hk. apply Z.eqb_neq in Hk. apply Hk. symmetry. apply Hresp. exact Es.
Qed.
Lemma run_keys : NoDup (map key (fst r)).
Proof.
  change (fst r) with (fst (run key false reserved [Some json] (map entry_of items))). rewrite run_is. cbn [fst].
  set (d := pinned key _ _). set (u := sorted _).
  assert (E : forall a b : list entry, map sid a = map sid b -> map key a = map key b).
  { induction a as [|x a IH]; intros [|y b] H; try discriminate; [reflexivity|]. cbn [map] in *. injection H as H1 H2 H3. rewrite (IH b H3). f_equal. apply Hresp. unfold sid. congruence. }
  rewrite (E _ u).
  - apply nodup_sorted.
  - apply loop_sids.
Qed.
End Kind.
Lemma distinct_ids key l : respects key -> NoDup (map key l) -> one_to_one l -> NoDup (map m_id l).
Proof.
  intros R N [_ O]. induction l as [|x l IH]; [constructor|]. cbn [map] in *. inversion N as [|? ? N1 N2]; subst.
  assert (L : forall s i, holds l s i -> holds (x :: l) s i) by (intros s i (m & I & H); exists m; cbn; auto).
  constructor; [|apply IH; [exact N2|intros s t i A B; apply (O s t i); apply L; assumption]].
  intros I. apply in_map_iff in I as (y & E & I). apply N1. replace (key x) with (key y); [apply in_map; exact I|]. apply R.
  apply (O (sid y) (sid x) (m_id x)); [exists y; cbn; auto|exists x; cbn; auto].
Qed.

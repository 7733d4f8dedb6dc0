(** Properties of the program that decodes a log: C140, C141. *)
From Coq Require Import String Ascii Bool Arith List NArith ZArith Lia.
From Verif Require Import CatalogModel GenModel MipiModel MipiSpec MipiProofs MipiProofs2 ChainModel DecodeModel DecodeSpec DecodeProofs.
Import ListNotations.
Local Open Scope N_scope.

(** ** C140: the lines of a log go where they are asked for *)
(** For every size of chunks, the lines printed are those of all bytes of the log, no file is
    changed, and the program fails exactly if decoding does; this is so whether or
    not a file for the output is named. *)
Theorem C140_exact : forall ft turns n load a fs db bytes, n <> 0%nat -> has_files load a fs db bytes ->
  let o := main ft turns n load a fs in
  (printed o, failed o) = decode ft turns db bytes /\ forall f, left o f = fs f.
Proof.
  intros ft turns n load a fs db bytes Hn ((text & Ht & Hl) & Hb). unfold main. rewrite Ht, Hl, Hb, file_reader_whole by auto.
  destruct (decode ft turns db bytes). cbn. auto.
Qed.
Print Assumptions C140_exact.
(** Without one of the files, or with a catalog that cannot be read, it prints nothing and fails. *)
Theorem C140_missing : forall ft turns n load a fs,
  fs (a_json a) = None \/ fs (a_input a) = None \/ (exists t, fs (a_json a) = Some t /\ load t = None) ->
  let o := main ft turns n load a fs in printed o = [] /\ failed o = true /\ forall f, left o f = fs f.
Proof.
  intros ft turns n load a fs H. unfold main. destruct (fs (a_json a)) as [t|]; [|cbn; auto].
  destruct H as [H|[H|(t' & Ht & H)]]; [discriminate| |].
  - destruct (load t); [rewrite H|]; cbn; auto.
  - injection Ht as <-. rewrite H. cbn. auto.
Qed.
Print Assumptions C140_missing.
(** The property, when no file for the output is named. *)
Theorem C140_partial : forall ft turns n load a fs db bytes, n <> 0%nat -> has_files load a fs db bytes -> a_output a = None ->
  lines_go a (fst (decode ft turns db bytes)) (main ft turns n load a fs).
Proof.
  intros ft turns n load a fs db bytes Hn Hf Ho. unfold lines_go. rewrite Ho.
  destruct (C140_exact ft turns n load a fs db bytes Hn Hf) as [E _]. rewrite <- E. reflexivity.
Qed.
Print Assumptions C140_partial.

(** A catalog with one message of one argument, of type long, and one without. *)
Definition one_long : json_file :=
  {| j_messages := [{| m_text := "count {}"; m_args := ["encode_64<long>"%string]; m_id := 5; m_extra := 0 |};
                    {| m_text := "done"; m_args := []; m_id := 6; m_extra := 0 |}];
     j_modules := [{| m_text := "boot"; m_args := []; m_id := 2; m_extra := 0 |}]; j_enums := [] |}.
Definition x64 := {| long8 := true; char_signed := true |}.
(** The bytes of count 4294967297 at level INFO, and of done. *)
Definition count_bytes : list N := [67; 0; 2; 1; 5; 0; 0; 0; 1; 0; 0; 0; 1; 0; 0; 0].
Definition done_bytes : list N := [97; 0; 0; 0].
Definition on_disk : files := fun f =>
  if (f =? "log")%string then Some (done_bytes ++ count_bytes)%list else if (f =? "json")%string then Some [] else None.
Definition no_floats : N -> string := fun _ => EmptyString.
(** The property fails when one is named: the option is parsed and ignored. *)
Theorem C140_refuted : exists n load a fs db bytes, n <> 0%nat /\ has_files load a fs db bytes /\
  decode no_floats 0 db bytes = (["done"; "INFO [boot] count 4294967297"], false)%string /\ a_output a = Some "out"%string /\
  ~ lines_go a (fst (decode no_floats 0 db bytes)) (main no_floats 0 n load a fs).
Proof.
  exists 4096%nat, (fun _ => Some one_long), {| a_input := "log"; a_output := Some "out"%string; a_json := "json" |}, on_disk, one_long, (done_bytes ++ count_bytes)%list.
  split; [discriminate|]. split; [split; [exists []; split; reflexivity|reflexivity]|]. split; [vm_compute; reflexivity|]. split; [reflexivity|].
  unfold lines_go. cbn [a_output]. intro H.
  assert (E : left (main no_floats 0 4096 (fun _ => Some one_long) {| a_input := "log"; a_output := Some "out"%string; a_json := "json" |} on_disk) "out"%string = None).
  { apply (C140_exact no_floats 0 4096 (fun _ => Some one_long) _ on_disk one_long (done_bytes ++ count_bytes)%list); [discriminate|].
    split; [exists []; split; reflexivity|reflexivity]. }
  rewrite E in H. discriminate.
Qed.
Print Assumptions C140_refuted.
Example C140_case : let a := {| a_input := "log"; a_output := None; a_json := "json" |} in
  has_files (fun _ => Some one_long) a on_disk one_long (done_bytes ++ count_bytes) /\
  printed (main no_floats 0 3 (fun _ => Some one_long) a on_disk) = ["done"; "INFO [boot] count 4294967297"]%string.
Proof. split; [split; [exists []; split; reflexivity|reflexivity]|]. vm_compute. reflexivity. Qed.
(** Needed: chunks of no bytes read nothing. *)
Example C140_needed : file_reader 0 done_bytes = [].
Proof. reflexivity. Qed.

(** ** C141: a log that is cut short shows the first lines of the whole *)
(** A log cut anywhere shows the first lines of the whole log, if no argument is a long of eight bytes. *)
Theorem C141_partial : forall ft turns p db a b, described p (cut_safe p) (database_of db) ->
  exists more, fst (decode ft turns db (a ++ b)) = (fst (decode ft turns db a) ++ more)%list.
Proof.
  intros ft turns p db a b Hd. assert (Ht : types_safe (database_of db)).
  { intros id types H. destruct (Hd id types H) as (ts & -> & Hts). apply Forall_map.
    revert Hts. apply Forall_impl. intros t [H1 H2]. apply (encoded_safe p); auto. }
  destruct (cut_prefix (database_of db) b Ht (length a) a (le_n _)) as [more Hm].
  rewrite !decode_lines, Hm. apply lines_prefix.
Qed.
Print Assumptions C141_partial.
(** Whatever the catalog, only the last message shown can differ from those of the whole. *)
Theorem C141_exact : forall db a b, exists more,
  fst (read_logs db (a ++ b)) = (removelast (fst (read_logs db a)) ++ more)%list.
Proof. intros db a b. exact (cut_prefix_but_last db b (length a) a (le_n _)). Qed.
Print Assumptions C141_exact.
(** In lines: all but the last message's line. *)
Theorem C141_lines : forall ft turns db a b, exists kept last more,
  fst (decode ft turns db a) = (kept ++ last)%list /\ (length last <= 1)%nat /\ fst (decode ft turns db (a ++ b)) = (kept ++ more)%list.
Proof.
  intros ft turns db a b. destruct (C141_exact (database_of db) a b) as [more Hm]. rewrite !decode_lines, Hm.
  set (ds := fst (read_logs (database_of db) a)). destruct (removelast_prefix ds) as (t & E & Ht).
  destruct (lines_prefix ft turns db (removelast ds) more) as [ls Hls]. rewrite Hls.
  exists (fst (lines_of ft turns db (removelast ds))).
  assert (L : exists l, fst (lines_of ft turns db (removelast ds ++ t)) = (fst (lines_of ft turns db (removelast ds)) ++ l)%list /\ (length l <= length t)%nat).
  { clear. induction (removelast ds) as [|d r (l & IH & Hl)].
    - cbn. eexists. split; [reflexivity|]. induction t as [|d t IH]; cbn; [lia|]. destruct (line ft turns db d); [|cbn; lia].
      destruct (lines_of ft turns db t). cbn in *. lia.
    - cbn. destruct (line ft turns db d); [|exists []; cbn; split; [reflexivity|lia]].
      destruct (lines_of ft turns db (r ++ t)), (lines_of ft turns db r). cbn in *. exists l. split; [congruence|auto]. }
  destruct L as (l & L1 & L2). rewrite <- E in L1. exists l, ls. split; auto. split; [lia|auto].
Qed.
Print Assumptions C141_lines.
(** The property fails: a long of eight bytes cut to four to seven is shown as one of four, without an error. *)
Theorem C141_refuted : exists db a b, described x64 (fun _ => True) (database_of db) /\
  decode no_floats 0 db (a ++ b) = (["done"; "INFO [boot] count 4294967297"], false)%string /\
  decode no_floats 0 db a = (["done"; "INFO [boot] count 1"], false)%string.
Proof.
  exists one_long, (done_bytes ++ firstn 13 count_bytes)%list, (skipn 13 count_bytes). split.
  - intros id types H. cbn in H. destruct id as [|id]; [discriminate|].
    unfold by_id in H. cbn in H.
    destruct (Pos.eqb_spec 5 id) as [<-|]; [injection H as <-; exists [Plain Long]; split; [reflexivity|repeat constructor]|].
    destruct (Pos.eqb_spec 6 id) as [<-|]; [injection H as <-; exists []; split; [reflexivity|constructor]|]. 
    assert (Hn : forall q, Pos.eqb q id = false -> Z.eqb (Z.pos q) (Z.pos id) = false) by (intros; cbn; auto).
    destruct id as [[[]|[]|]|[[]|[]|]|]; cbn in H; congruence.
  - split; vm_compute; reflexivity.
Qed.
Print Assumptions C141_refuted.
(** An int may be cut anywhere. *)
Definition one_int : json_file :=
  {| j_messages := [{| m_text := "count {}"; m_args := ["encode_32<int>"%string]; m_id := 5; m_extra := 0 |}];
     j_modules := [{| m_text := "boot"; m_args := []; m_id := 2; m_extra := 0 |}]; j_enums := [] |}.
Example C141_case : described x64 (cut_safe x64) (database_of one_int) /\
  decode no_floats 0 one_int (firstn 12 count_bytes ++ firstn 11 count_bytes) = (["INFO [boot] count 1"], true)%string.
Proof.
  split; [|vm_compute; reflexivity]. intros id types H. cbn in H. unfold by_id in H. cbn in H.
  exists [Plain Int]. destruct (Z.of_N id) as [|q|q]; try discriminate.
  destruct q as [[[]|[]|]|[[]|[]|]|]; cbn in H; try discriminate. injection H as <-.
  split; [reflexivity|]. repeat constructor. intros [E|E]; discriminate.
Qed.

(** Properties of the symbols the catalog generator reads and the C++ it writes. *)
From Coq Require Import String Ascii Bool Arith List ZArith.
From Verif Require Import CatalogModel CatalogSpec GenModel GenSpec SymbolModel SymbolSpec SymbolProofs SymbolProofs2 SymbolProofs3 SymbolProofs4 SymbolProofs5 SymbolProofs6.
Import ListNotations.
Local Open Scope string_scope.

(** ** C93: every message and module of a program is read from its symbols *)
(** Whatever the other symbols are, the items are read back exactly, in order,
    provided every text in them can be read; otherwise reading fails. *)
Theorem C93_exact spaced lines items : listing spaced lines items -> read_file lines = if forallb readable items then Some items else None.
Proof. apply listing_read. Qed.
Print Assumptions C93_exact.
(** The characters that may follow a number in a symbol. *)
Theorem C93_characters a : is_letter a = one_of "abcdefghijklmnopqrstuvwxyzABCDEFGHIJKLMNOPQRSTUVWXYZ" a.
Proof. destruct a as [[] [] [] [] [] [] [] []]; reflexivity. Qed.
Print Assumptions C93_characters.
Theorem C93_partial spaced lines items : listing spaced lines items -> forallb readable items = true -> read_file lines = Some items.
Proof. intros H R. rewrite (C93_exact spaced lines items H), R. reflexivity. Qed.
Print Assumptions C93_partial.
(** A message with an empty text, or one with a character past 127 where char is
    signed, makes the whole listing unreadable. *)
Definition hello : sym_message := {| sm_text := [72; 105]%Z; sm_args := ["encode_32<int>"; "encode_enum<ns::E, unsigned int, 4>"]; sm_id := (-1)%Z; sm_suffix := "";
  sm_named := [{| sn_name := [120]%Z; sn_begin := (0)%Z; sn_end := (1)%Z |}]; sm_tags := [{| st_name := [97]%Z; st_value := [98; 99]%Z |}] |}.
Definition wordless : sym_message := {| sm_text := []; sm_args := []; sm_id := (7)%Z; sm_suffix := "u"; sm_named := []; sm_tags := [] |}.
Definition accented : sym_message := {| sm_text := [-61; -87]%Z; sm_args := []; sm_id := (7)%Z; sm_suffix := "u"; sm_named := []; sm_tags := [] |}.
Definition line_of (spaced : bool) (i : item) : string := "         U unsigned int " ++ print spaced (item_tree i) ++ "()".
Theorem C93_refuted : exists spaced lines items, listing spaced lines items /\ read_file lines = None.
Proof.
  exists false, [line_of false (IMessage wordless)], [IMessage wordless]. split; [|vm_compute; reflexivity].
  apply (l_symbol false "         U " "int" "" (IMessage wordless) [] []); [| |exact I| |constructor].
  - apply one_line_dots. reflexivity.
  - cbn. auto.
  - split; [constructor|reflexivity].
Qed.
Print Assumptions C93_refuted.
Theorem C93_accented : read_file [line_of true (IMessage accented)] = None /\ read_file [line_of true (IMessage hello); line_of true (IMessage accented)] = None.
Proof. vm_compute. auto. Qed.
Print Assumptions C93_accented.
(** A case: a message with arguments, a tag and a named argument, and a module,
    among other symbols. *)
Definition module1 : sym_module := {| so_text := [109]%Z; so_id := (42)%Z; so_suffix := "u" |}.
Example C93_case : listing true ["         U operator new(unsigned long)"; line_of true (IMessage hello); line_of true (IModule module1)] [IMessage hello; IModule module1] /\
  read_file ["         U operator new(unsigned long)"; line_of true (IMessage hello); line_of true (IModule module1)] = Some [IMessage hello; IModule module1].
Proof.
  assert (L : listing true ["         U operator new(unsigned long)"; line_of true (IMessage hello); line_of true (IModule module1)] [IMessage hello; IModule module1]).
  { apply l_other.
    - intros p Hp H. apply occurs_b in H. destruct Hp as [<-|[<-|[<-|[<-|[]]]]]; vm_compute in H; discriminate H.
    - apply (l_symbol true "         U " "int" "" (IMessage hello)); [| |exact I| |].
      + apply one_line_dots. reflexivity.
      + cbn. auto.
      + split; [|reflexivity]. constructor; [|constructor; [|constructor]].
        * repeat split; try discriminate.
          -- apply (nested_app "encode_32"); [apply plain_nested; reflexivity|]. apply (nested_angle "int" ""); [apply nested_inside, plain_nested; reflexivity|constructor].
          -- intros a r E. injection E as <- _. reflexivity.
          -- intros a r E. change "encode_32<int>" with ("encode_32<int" ++ ">") in E. apply app_len_eq in E; [|reflexivity]. destruct E as [_ E]. injection E as <-. reflexivity.
          -- apply one_line_dots. reflexivity.
          -- intros p Hp H. apply occurs_b in H. destruct Hp as [<-|[<-|[<-|[<-|[]]]]]; vm_compute in H; discriminate H.
        * repeat split; try discriminate.
          -- apply (nested_app "encode_enum"); [apply plain_nested; reflexivity|]. apply (nested_angle "ns::E, unsigned int, 4" ""); [|constructor].
             repeat (apply inside_char; [discriminate|discriminate|]). apply inside_nil.
          -- intros a r E. injection E as <- _. reflexivity.
          -- intros a r E. change "encode_enum<ns::E, unsigned int, 4>" with ("encode_enum<ns::E, unsigned int, 4" ++ ">") in E. apply app_len_eq in E; [|reflexivity]. destruct E as [_ E]. injection E as <-. reflexivity.
          -- apply one_line_dots. reflexivity.
          -- intros p Hp H. apply occurs_b in H. destruct Hp as [<-|[<-|[<-|[<-|[]]]]]; vm_compute in H; discriminate H.
      + apply (l_symbol true "         U " "int" "" (IModule module1)); [| |exact I|reflexivity|constructor].
        * apply one_line_dots. reflexivity.
        * cbn. auto. }
  split; [exact L|]. rewrite (C93_exact _ _ _ L). reflexivity.
Qed.

(** ** C94: the definitions written are definitions of the symbols read *)
(** The type written for an item is, as C++, the type in its symbol. *)
Theorem C94_types spaced i : item_ok i -> readable i = true -> castless i -> same_type (written_type i) (print spaced (symbol_type i)).
Proof. apply written_same. Qed.
Print Assumptions C94_types.
(** So for a listing, one definition per item, in order, each of the type in
    the item's symbol. *)
Theorem C94_definitions spaced lines items : listing spaced lines items -> forallb readable items = true -> Forall castless items ->
  exists read, read_file lines = Some read /\ Forall2 (fun i j => same_type (written_type i) (print spaced (symbol_type j))) read items.
Proof.
  intros L R C. exists items. split; [apply (C93_partial spaced lines items L R)|].
  assert (K : Forall item_ok items) by (clear - L; induction L; auto). clear L. induction K as [|i items H K IH]; constructor.
  - cbn [forallb] in R. apply andb_true_iff in R. inversion C; subst. apply written_same; tauto.
  - cbn [forallb] in R. apply andb_true_iff in R. inversion C; subst. apply IH; tauto.
Qed.
Print Assumptions C94_definitions.
(** The comparison tells types apart: a different character, argument, id, tag
    or named argument is a different type. *)
Example C94_case : same_type (written_type (IMessage hello)) (print true (symbol_type (IMessage hello))) /\
  written_type (IMessage hello) = "sc::message<sc::undefined<sc::args<encode_32<int>, encode_enum<ns::E, unsigned int, 4>>, -1, sc::string<static_cast<char>(72), static_cast<char>(105)>, sc::tags<sc::tag<sc::string<static_cast<char>(97)>, sc::string<static_cast<char>(98), static_cast<char>(99)>>>, sc::named_args<sc::named_arg<sc::string<static_cast<char>(120)>, 0, 1>>>>" /\
  ~ same_type (written_type (IMessage hello)) (print true (symbol_type (IMessage wordless))).
Proof. split; [vm_compute; reflexivity|]. split; [vm_compute; reflexivity|]. vm_compute. discriminate. Qed.

(** ** C95: the encodings of arguments are read from their text *)
Theorem C95_reads a : encoding_ok a -> exists s, arg_type_encoding (encoding_text a) = Some (arg_enc a, arg_enum a, arg_ut a, s).
Proof. apply encoding_read. Qed.
Print Assumptions C95_reads.
(** Any other type is refused. *)
Theorem C95_others s : ~ starts "encode_" s -> arg_type_encoding s = None.
Proof. apply encoding_other. Qed.
Print Assumptions C95_others.
Example C95_case : encoding_ok (EncEnum "ns::C<int, long>::E" "unsigned char" "1") /\ encoding_text (EncEnum "ns::C<int, long>::E" "unsigned char" "1") = "encode_enum<ns::C<int, long>::E, unsigned char, 1>" /\
  arg_type_encoding "encode_enum<ns::C<int, long>::E, unsigned char, 1>" = Some ("encode_enum", "ns::C<int, long>::E", "unsigned char", "1") /\
  arg_type_encoding "encode_u32<unsigned int>" = Some ("encode_u32", "unsigned int", "unsigned int", "unsigned int").
Proof.
  split; [|vm_compute; auto]. split; [apply one_line_dots; reflexivity|]. split; [apply one_line_dots; reflexivity|]. split; [|split; [discriminate|reflexivity]].
  intros H. apply occurs_b in H. vm_compute in H. discriminate H.
Qed.

(** ** C96: every enumeration logged is declared once *)
(** When each enumeration has one underlying type: either some enumeration is in
    an anonymous namespace and nothing is written, or there is exactly one
    declaration for each enumeration, with its scopes and its underlying type. *)
Theorem C96_declared l ms : Forall encoding_ok l -> flat_map sm_args ms = map encoding_text l ->
  (forall e ut, enums_in l e ut -> exists s, scopes_of e s) -> (forall e ut ut', enums_in l e ut -> enums_in l e ut' -> ut = ut') ->
  match enum_decls ms with
  | None => exists e ut, enums_in l e ut /\ anonymous e
  | Some ds => (forall e ut, enums_in l e ut -> ~ anonymous e) /\
      exists es, NoDup (map fst es) /\ (forall e ut, In (e, ut) es <-> enums_in l e ut) /\ Forall2 (fun d eu => declares d (fst eu) (snd eu)) ds es
  end.
Proof. intros H1 H2 H3 H4. apply decls_read; auto. Qed.
Print Assumptions C96_declared.
(** So an enumeration is declared whatever else is logged, and the order of the
    messages matters only to the order of the declarations. *)
Theorem C96_order l l' ms ms' : Forall encoding_ok l -> Forall encoding_ok l' -> flat_map sm_args ms = map encoding_text l -> flat_map sm_args ms' = map encoding_text l' ->
  (forall e ut, enums_in l e ut -> exists s, scopes_of e s) -> (forall e ut ut', enums_in l e ut -> enums_in l e ut' -> ut = ut') ->
  (forall e ut, enums_in l e ut <-> enums_in l' e ut) -> (enum_decls ms = None <-> enum_decls ms' = None).
Proof.
  intros H1 H1' H2 H2' H3 H4 HS. pose proof (C96_declared l ms H1 H2 H3 H4) as D.
  pose proof (C96_declared l' ms' H1' H2' ltac:(intros e ut H; apply (H3 e ut), HS, H) ltac:(intros e ut ut' H H'; apply (H4 e); apply HS; auto)) as D'.
  destruct (enum_decls ms) as [ds|], (enum_decls ms') as [ds'|]; [split; discriminate| | |tauto].
  - destruct D as [D _], D' as (e & ut & He & A). apply HS in He. destruct (D e ut He A).
  - destruct D' as [D' _], D as (e & ut & He & A). apply HS in He. destruct (D' e ut He A).
Qed.
Print Assumptions C96_order.
(** An argument whose type is no encoding stops the generator. *)
Lemma collect_refuses x l : In x l -> arg_type_encoding x = None -> forall d, collect_enums l d = None.
Proof.
  induction l as [|a l IH]; intros Hin Hx d; [destruct Hin|]. cbn [collect_enums]. destruct Hin as [->|Hin]; [rewrite Hx; auto|].
  destruct (arg_type_encoding a) as [[[[enc e] ut] s]|]; auto.
Qed.
Theorem C96_refuses ms m x : In m ms -> In x (sm_args m) -> ~ starts "encode_" x -> enum_decls ms = None.
Proof.
  intros Hm Hx Hs. unfold enum_decls. rewrite (collect_refuses x); auto.
  - apply in_flat_map. eauto.
  - apply C95_others; auto.
Qed.
Print Assumptions C96_refuses.
Definition with_args (l : list string) : sym_message := {| sm_text := [72]%Z; sm_args := l; sm_id := (0)%Z; sm_suffix := "u"; sm_named := []; sm_tags := [] |}.
Example C96_case :
  enum_decls [hello; with_args ["encode_enum<E, int, 4>"; "encode_enum<ns::E, unsigned int, 4>"]; with_args ["encode_enum<a::b::F, char, 1>"]] =
    Some ["namespace ns { enum struct E : unsigned int; }"; "enum struct E : int;"; "namespace a::b { enum struct F : char; }"] /\
  enum_decls [with_args ["encode_enum<(anonymous namespace)::E, int, 4>"]] = None /\
  enum_decls [hello; with_args ["encode_enum<E, int, 4>"; "float"]] = None /\
  scopes_of "a::b::F" ["a"; "b"; "F"].
Proof.
  split; [vm_compute; reflexivity|]. split; [vm_compute; reflexivity|]. split; [vm_compute; reflexivity|]. split; [discriminate|]. split; [|reflexivity].
  repeat constructor; apply count_none_in; reflexivity.
Qed.

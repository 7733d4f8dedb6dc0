(** Specification of the string catalog. *)
From Coq Require Import String Ascii Bool Arith List NArith ZArith.
From Verif Require Import CatalogModel.
Import ListNotations.
Local Open Scope Z_scope.

(** What identifies a message: its text and argument types. *)
Definition sid (m : entry) : string * list string := (m_text m, m_args m).
(** The list gives s the id i. *)
Definition holds (l : list entry) (s : string * list string) (i : Z) : Prop := exists m, In m l /\ sid m = s /\ m_id m = i.
(** One id per message and one message per id. *)
Definition one_to_one (l : list entry) : Prop :=
  (forall s i j, holds l s i -> holds l s j -> i = j) /\ (forall s t i, holds l s i -> holds l t i -> s = t).
(** A key function that depends only on what identifies a message... *)
Definition respects (key : entry -> Z) : Prop := forall a b, sid a = sid b -> key a = key b.
(** ...and tells the given messages apart. *)
Definition separates (key : entry -> Z) (l : list entry) : Prop := forall a b, In a l -> In b l -> key a = key b -> sid a = sid b.
(** The explicit ids clash neither with the catalog nor with each other. *)
Definition pins_ok (json items : list entry) : Prop := forall m, In m items -> m_id m <> -1 ->
  (forall s i, holds json s i -> (s = sid m <-> i = m_id m)) /\
  (forall m', In m' items -> m_id m' <> -1 -> (sid m = sid m' <-> m_id m = m_id m')).
(** Some occurrence of s has an explicit id. *)
Definition pinned_in (items : list entry) (s : string * list string) : Prop := exists m, In m items /\ sid m = s /\ m_id m <> -1.

(** A history of builds, each reading the catalog written by the one before. Every
    build has its own key function, as Python salts its hashes. *)
Record build := { b_key : entry -> Z; b_reserved : list (Z * Z); b_items : list entry }.
Definition step (json : list entry) (b : build) : list entry * list entry := run (b_key b) false (b_reserved b) [Some json] (b_items b).
Definition after (bs : list build) : list entry := fold_left (fun json b => snd (step json b)) bs [].
(** The entries of the build that follows the builds bs. *)
Definition assigned (bs : list build) (b : build) : list entry := fst (step (after bs) b).
Definition good_build (json : list entry) (b : build) : Prop :=
  respects (b_key b) /\ separates (b_key b) (json ++ b_items b) /\ pins_ok json (b_items b).
Definition good_history (bs : list build) : Prop := forall pre b post, bs = pre ++ b :: post -> good_build (after pre) b.

(** ** Argument lists *)
(** Text between angle brackets, and text with commas only between brackets. *)
Inductive inside : string -> Prop :=
| inside_nil : inside EmptyString
| inside_char a s : a <> "<"%char -> a <> ">"%char -> inside s -> inside (String a s)
| inside_angle t s : inside t -> inside s -> inside (String "<" (t ++ String ">" s)).
Inductive nested : string -> Prop :=
| nested_nil : nested EmptyString
| nested_char a s : a <> "<"%char -> a <> ">"%char -> a <> ","%char -> nested s -> nested (String a s)
| nested_angle t s : inside t -> nested s -> nested (String "<" (t ++ String ">" s)).
(** No space at either end. *)
Definition trimmed (s : string) : Prop :=
  s <> EmptyString /\ (forall a r, s = String a r -> is_space a = false) /\ (forall a r, s = (r ++ String a EmptyString)%string -> is_space a = false).
Fixpoint blank (s : string) : Prop := match s with EmptyString => True | String a r => is_space a = true /\ blank r end.
(** The arguments with a comma and some space between them. *)
Fixpoint comma_list (sep : string) (args : list string) : string :=
  match args with
  | [] => EmptyString
  | [a] => a
  | a :: r => (a ++ String "," (sep ++ comma_list sep r))%string
  end.
(** The encoding of one argument: a tag and one outer pair of brackets. *)
Definition encoded (s : string) : Prop :=
  exists tag t, s = (tag ++ String "<" (t ++ String ">" EmptyString))%string /\ inside t /\
    forall a b c, tag = (a ++ String c b)%string -> c <> "<"%char /\ c <> ">"%char.

(** One of the characters of a text, or one with a code. *)
Fixpoint one_of (s : string) (a : ascii) : bool := match s with EmptyString => false | String b r => Ascii.eqb a b || one_of r a end.
Definition coded (codes : list nat) (a : ascii) : bool := existsb (Nat.eqb (nat_of_ascii a)) codes.

(** ** Enumerators in message texts *)
Fixpoint all_chars (f : ascii -> bool) (s : string) : bool := match s with EmptyString => true | String a r => f a && all_chars f r end.
Definition not_word_first (s : string) : Prop := match s with EmptyString => True | String a _ => is_word a = false end.
Definition no_paren (s : string) : Prop := all_chars (fun a => negb (Ascii.eqb a "(")) s = true.
(** A text is some plain text and then mentions (type, value), each followed by
    plain text that does not go on with a letter or digit. *)
Definition mention := (string * string * string)%type.
Definition plain_mention (m : mention) : Prop :=
  let '(ty, v, p) := m in
  ty <> EmptyString /\ all_chars is_word ty = true /\ v <> EmptyString /\ all_chars is_digit v = true /\ no_paren p /\ not_word_first p.
Fixpoint written (ms : list mention) : string :=
  match ms with [] => EmptyString | (ty, v, p) :: r => (String "(" (ty ++ String ")" (v ++ p)) ++ written r)%string end.
(** The same text with a name for each mention. *)
Fixpoint named (f : string -> string -> string) (ms : list mention) : string :=
  match ms with [] => EmptyString | (ty, v, p) :: r => (f ty v ++ p ++ named f r)%string end.
(** Names as the catalog has them: no parenthesis, not starting with a digit. *)
Definition identifier (n : string) : Prop := match n with EmptyString => False | String a r => is_digit a = false /\ all_chars (fun a => negb (Ascii.eqb a "(" || Ascii.eqb a ")")) n = true end.
Definition good_names (names : string -> string -> option string) : Prop := forall ty v n, names ty v = Some n -> identifier n.

(** ** Texts *)
(** UTF-8, for code points below 2048. *)
Definition utf8 (c : Z) : list Z := if c <? 128 then [c] else [192 + c / 64; 128 + c mod 64].
(** The text in the catalog for a source text of these code points. *)
Definition catalog_text (char_signed : bool) (source : list Z) : option (list Z) :=
  message_text (map (char_code char_signed) (flat_map utf8 source)).
(** The entry is the last of its key. *)
Definition last_of_key (key : entry -> Z) (items : list entry) (x : entry) : Prop :=
  exists pre post, items = (pre ++ x :: post)%list /\ forall y, In y post -> key y <> key x.
(** The first of a name among the members. *)
Definition find_member (k : string) (o : list (string * list entry)) : option (list entry) :=
  match find (fun kv => String.eqb (fst kv) k) o with Some kv => Some (snd kv) | None => None end.

(** What the log of a flow and its drawings say. *)
From Coq Require Import Ascii String Bool Arith List.
From Verif Require Import FlowModel.
Import ListNotations.
Local Open Scope string_scope.

(** ** The log of a run *)
Section Ran.
Context {St : Type}.
Variable pred : nat -> St -> bool.
Variable step : nat -> St -> St.
(** [ran s o l s']: of the steps o, started in s, those in l ran, and s' is left. *)
Inductive ran : St -> list node -> list node -> St -> Prop :=
| ran_nil s : ran s [] [] s
| ran_yes s n r l s' : (forall p, In p (c_preds (n_cond n)) -> pred p s = true) -> ran (step (n_func n) s) r l s' -> ran s (n :: r) (n :: l) s'
| ran_no s n r l s' p : In p (c_preds (n_cond n)) -> pred p s = false -> ran s r l s' -> ran s (n :: r) l s'.
End Ran.
Definition step_line (n : node) : string :=
  (match n_type n with Action => "flow.action(" | Milestone => "flow.milestone(" end) ++ n_name n ++ ")".

(** ** Which environment applies *)
(** The first of the names for which the program declares an environment decides. *)
Fixpoint first_declared {Env} (special : string -> option Env) (default_env : Env) (names : list string) : Env :=
  match names with [] => default_env | n :: r => match special n with Some e => e | None => first_declared special default_env r end end.

(** ** Reading DOT *)
(** The part of the DOT language that has graph, node and edge statements with plain
    identifiers. *)
Definition between (lo hi : nat) (a : ascii) : bool := (lo <=? nat_of_ascii a)%nat && (nat_of_ascii a <=? hi)%nat.
Definition digit (a : ascii) : bool := between 48 57 a.
Definition letter (a : ascii) : bool := between 65 90 a || between 97 122 a || Ascii.eqb a "_".
Definition word_char (a : ascii) : bool := letter a || digit a.
Definition blank (a : ascii) : bool := Ascii.eqb a " " || Ascii.eqb a (ascii_of_nat 9) || Ascii.eqb a (ascii_of_nat 10) || Ascii.eqb a (ascii_of_nat 13).
Fixpoint every (f : ascii -> bool) (s : string) : bool := match s with EmptyString => true | String a r => f a && every f r end.
Inductive token := Word (w : string) | Arrow | Open | Close.
Definition flush (w : string) (ts : option (list token)) : option (list token) :=
  match w, ts with EmptyString, _ => ts | _, Some l => Some (Word w :: l) | _, None => None end.
(** [tokens w s]: w is the word read so far. A word does not start with a digit. *)
Fixpoint tokens (w s : string) : option (list token) :=
  match s with
  | EmptyString => flush w (Some [])
  | String a r =>
    if letter a then tokens (w ++ String a "") r
    else if digit a then match w with EmptyString => None | _ => tokens (w ++ String a "") r end
    else if blank a then flush w (tokens "" r)
    else if Ascii.eqb a "{" then flush w (option_map (cons Open) (tokens "" r))
    else if Ascii.eqb a "}" then flush w (option_map (cons Close) (tokens "" r))
    else match a, r with
    | "-"%char, String ">"%char r' => flush w (option_map (cons Arrow) (tokens "" r'))
    | _, _ => None
    end
  end.
Definition lower (a : ascii) : ascii := if between 65 90 a then ascii_of_nat (nat_of_ascii a + 32) else a.
Fixpoint lower_case (s : string) : string := match s with EmptyString => "" | String a r => String (lower a) (lower_case r) end.
Definition keyword (s : string) : bool := existsb (String.eqb (lower_case s)) ["node"; "edge"; "graph"; "digraph"; "subgraph"; "strict"].
(** The statements up to the closing brace: nodes and edges. *)
Fixpoint statements (last : option string) (ts : list token) : option (list string * list (string * string)) :=
  match ts with
  | [Close] => Some ([], [])
  | Word a :: r =>
    if keyword a then None else
    match r with
    | Arrow :: _ => statements (Some a) r
    | _ => option_map (fun g => (a :: fst g, snd g)) (statements (Some a) r)
    end
  | Arrow :: (Word b :: r) as r' =>
    match last with
    | None => None
    | Some a =>
      if keyword b then None else
      match r with
      | Arrow :: _ => option_map (fun g => (fst g, (a, b) :: snd g)) (statements (Some b) r)
      | _ => option_map (fun g => (fst g, (a, b) :: snd g)) (statements None r)
      end
    end
  | _ => None
  end.
Definition read_dot (text : string) : option (string * list string * list (string * string)) :=
  match tokens "" text with
  | Some (Word d :: Word name :: Open :: r) =>
    if (lower_case d =? "digraph") && negb (keyword name) then option_map (fun g => (name, fst g, snd g)) (statements None r) else None
  | _ => None
  end.
(** A name that DOT reads as one identifier. *)
Definition dot_name (s : string) : bool :=
  match s with EmptyString => false | String a r => letter a && every word_char r && negb (keyword s) end.

(** ** Reading mermaid *)
Inductive shape := Circle | Box | Round.
Inductive drawn := Node (id : string) (s : shape) (label : string) | Edge (from : string) (condition : option string) (to_ : string).
Definition nl : ascii := ascii_of_nat 10.
Fixpoint text_lines (s : string) : list string :=
  match s with
  | EmptyString => [""]
  | String a r => if Ascii.eqb a nl then "" :: text_lines r else match text_lines r with [] => [] | l :: ls => String a l :: ls end
  end.
(** The longest beginning of such characters, and the rest. *)
Fixpoint span (f : ascii -> bool) (s : string) : string * string :=
  match s with
  | EmptyString => ("", "")
  | String a r => if f a then let '(x, y) := span f r in (String a x, y) else ("", s)
  end.
Fixpoint dropped (p s : string) : option string :=
  match p, s with
  | EmptyString, _ => Some s
  | String a p', String b s' => if Ascii.eqb a b then dropped p' s' else None
  | _, _ => None
  end.
Definition plain_char (a : ascii) : bool := word_char a || Ascii.eqb a " ".
Definition nonempty (s : string) : bool := negb (s =? "").
(** A label between these brackets, and nothing after it. *)
Definition bracketed (l r s : string) : option string :=
  match dropped l s with
  | None => None
  | Some s' => let '(label, e) := span plain_char s' in if nonempty label && (e =? r) then Some label else None
  end.
Definition read_line (s : string) : option drawn :=
  let '(_, s) := span (Ascii.eqb " ") s in
  let '(id, s) := span word_char s in
  if negb (nonempty id) then None else
  match bracketed "((" "))" s, bracketed "(" ")" s, bracketed "[" "]" s with
  | Some l, _, _ => Some (Node id Circle l)
  | None, Some l, _ => Some (Node id Round l)
  | None, None, Some l => Some (Node id Box l)
  | None, None, None =>
    match dropped " --" s with
    | None => None
    | Some s =>
      let '(c, s) := span plain_char s in
      match dropped (if nonempty c then "--> " else "> ") s with
      | None => None
      | Some s => let '(id', e) := span word_char s in
                  if nonempty id' && (e =? "") then Some (Edge id (if nonempty c then Some c else None) id') else None
      end
    end
  end.
Fixpoint read_lines (ls : list string) : option (list drawn) :=
  match ls with
  | [] => Some []
  | l :: r => if l =? "" then read_lines r else
              match read_line l, read_lines r with Some d, Some ds => Some (d :: ds) | _, _ => None end
  end.
Definition read_mermaid (text : string) : option (string * list drawn) :=
  match text_lines text with
  | a :: t :: b :: f :: r =>
    if (a =? "---") && (b =? "---") && (f =? "flowchart TD") then
      match dropped "title: " t, read_lines r with Some title, Some ds => Some (title, ds) | _, _ => None end
    else None
  | _ => None
  end.
(** The picture: the boxes with their labels, and the arrows between labels. A box
    drawn again has its last label. *)
Fixpoint label_of (ds : list drawn) (id : string) : option string :=
  match ds with
  | [] => None
  | Node i _ l :: r => match label_of r id with Some x => Some x | None => if i =? id then Some l else None end
  | Edge _ _ _ :: r => label_of r id
  end.
Definition boxes (ds : list drawn) : list (string * shape) := flat_map (fun d => match d with Node _ s l => [(l, s)] | Edge _ _ _ => [] end) ds.
Definition arrows (ds : list drawn) : list (option string * option string * option string) :=
  flat_map (fun d => match d with Node _ _ _ => [] | Edge a c b => [(label_of ds a, c, label_of ds b)] end) ds.
Definition plain_name (s : string) : bool := nonempty s && every plain_char s.

(** What it means for a JSON file to hold a value. *)
From Coq Require Import String Bool List ZArith.
From Verif Require Import GenModel JsonModel.
Import ListNotations.
Local Open Scope Z_scope.

(** ** Texts *)
(** A character of a Python str. *)
Definition char_ok (c : Z) : Prop := 0 <= c < 1114112.
Definition high (c : Z) : bool := (55296 <=? c) && (c <=? 56319).
Definition low (c : Z) : bool := (56320 <=? c) && (c <=? 57343).
Definition surrogate (c : Z) : Prop := 55296 <= c <= 57343.
(** The text with each high surrogate and the low one after it made one character. *)
Fixpoint joined (t : text) : text :=
  match t with
  | c :: (d :: r) as q => if high c && low d then 65536 + (c - 55296) * 1024 + (d - 56320) :: joined r else c :: joined q
  | _ => t
  end.

(** ** Dicts *)
Definition key_eq_dec (a b : key) : {a = b} + {a <> b}.
Proof. decide equality; [apply (list_eq_dec Z.eq_dec)|apply Z.eq_dec]. Defined.
(** The last value of a key. *)
Fixpoint last_of (k : key) (l : list (key * value)) : option value :=
  match l with
  | [] => None
  | (k', v) :: r => match last_of k r with Some x => Some x | None => if key_eq_dec k' k then Some v else None end
  end.
(** Every key once, where it comes first, with its last value. *)
Definition firsts (ks : list key) : list key := rev (nodup key_eq_dec (rev ks)).
Definition merged (l : list (key * value)) : list (key * value) :=
  flat_map (fun k => match last_of k l with Some v => [(k, v)] | None => [] end) (firsts (map fst l)).

(** ** Values *)
Fixpoint value_ok (v : value) : Prop :=
  match v with
  | VText t => Forall char_ok t
  | VList l => fold_right (fun x p => value_ok x /\ p) True l
  | VDict d => fold_right (fun kv p => (match fst kv with KText t => Forall char_ok t | KNum _ => True end /\ value_ok (snd kv)) /\ p) True d
  | _ => True
  end.
(** What is read where a value was written: numbers are keys by their text. *)
Fixpoint seen (v : value) : value :=
  match v with
  | VText t => VText (joined t)
  | VList l => VList (map seen l)
  | VDict d => VDict (merged (map (fun kv => (KText (joined (match fst kv with KText t => t | KNum z => lit (str z) end)), seen (snd kv))) d))
  | _ => v
  end.
(** A value in which nothing is lost: no surrogates, the keys are texts, and all
    different. *)
Definition plain_text (t : text) : Prop := Forall (fun c => char_ok c /\ ~ surrogate c) t.
Fixpoint plain (v : value) : Prop :=
  match v with
  | VText t => plain_text t
  | VList l => fold_right (fun x p => plain x /\ p) True l
  | VDict d => NoDup (map fst d) /\ fold_right (fun kv p => (match fst kv with KText t => plain_text t | KNum _ => False end /\ plain (snd kv)) /\ p) True d
  | _ => True
  end.
(** The characters of a file that every encoding with ASCII in it writes alike. *)
Definition printable (c : Z) : Prop := 32 <= c <= 126 \/ c = 10.

(** ** The catalog *)
(** A named argument as the compiler gives it: a place in the text, or a reference, which
    ends before it begins. *)
Definition named_ok (a : named) : Prop := plain_text (n_name a) /\ 0 <= n_begin a /\ (n_begin a <= n_end a \/ n_end a = n_begin a - 1).
Definition tag_ok (t : tag) : Prop := plain_text (t_name t) /\ plain_text (t_value t).
Definition message_ok (m : message) : Prop :=
  plain_text (g_text m) /\ Forall plain_text (g_args m) /\ Forall named_ok (g_named m) /\ Forall tag_ok (g_tags m).
Definition module_ok (m : module) : Prop := plain_text (d_text m).
(** Names of enumerations and enumerators. *)
Definition enums_ok (es : list (text * list (text * Z))) : Prop :=
  Forall (fun e => plain_text (fst e) /\ Forall (fun nv => plain_text (fst nv)) (snd e)) es.
(** The name given last to a value. *)
Fixpoint last_name (z : Z) (es : list (text * Z)) : option text :=
  match es with [] => None | (n, x) :: r => match last_name z r with Some m => Some m | None => if Z.eq_dec x z then Some n else None end end.

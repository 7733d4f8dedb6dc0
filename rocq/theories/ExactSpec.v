(** Vocabulary of the exact characterisations. *)
From Coq Require Import String List ZArith NArith Bool.
From Verif Require Import MessageModel MessageSpec.
Import ListNotations.

(** UTF-8 of a code point (RFC 3629, section 3). *)
Definition utf8_bytes (c : Z) : list Z :=
  (if c <? 128 then [c]
   else if c <? 2048 then [192 + c / 64; 128 + c mod 64]
   else if c <? 65536 then [224 + c / 4096; 128 + (c / 64) mod 64; 128 + c mod 64]
   else [240 + c / 262144; 128 + (c / 4096) mod 64; 128 + (c / 64) mod 64; 128 + c mod 64])%Z.
Definition code_point (c : Z) : Prop := (0 <= c < 1114112)%Z.

(** The fields that start at a bit, as declared. *)
Definition starting_at (k : N) (l : list mfield) : list mfield := filter (fun f => N.eqb (key_of f) k) l.

(** A setting of a log environment, where one equal to the library's own counts as none. *)
Definition really_set {E} (dec : forall a b : E, {a = b} + {a <> b}) (dflt : E) (set : string -> option E) (n : string) : option E :=
  match set n with Some e => if dec e dflt then None else Some e | None => None end.

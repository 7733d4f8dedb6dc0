(** What it means for a call of the CMake function to ask for something, and for what
    the generator left to be up to date. *)
From Coq Require Import String Ascii Bool Arith List ZArith Permutation.
From Verif Require Import GenSpec WrapModel.
Import ListNotations.
Local Open Scope string_scope.

(** ** What a call asks for *)
Record request := {
  q_cpp : string; q_json : string; q_xml : string; q_libs : list string;
  q_json_input : list string; q_headers : list string; q_stable : list string;
  q_client : option string; q_version : option string; q_guid_id : option string; q_guid_mask : option string;
  q_module_max : option string; q_reserved : option string;
  q_script : option string; q_lib : option string; q_target : option string; q_forget : bool }.
(** A keyword with its values, if they are given. *)
Definition with_one (o : option string) : option (list string) := match o with Some v => Some [v] | None => None end.
Definition with_some (l : list string) : option (list string) := match l with [] => None | _ => Some l end.
Definition said (r : request) : list (string * option (list string)) :=
  [("OUTPUT_CPP", Some [q_cpp r]); ("OUTPUT_JSON", Some [q_json r]); ("OUTPUT_XML", Some [q_xml r]); ("INPUT_LIBS", with_some (q_libs r));
   ("INPUT_JSON", with_some (q_json_input r)); ("INPUT_HEADERS", with_some (q_headers r)); ("STABLE_JSON", with_some (q_stable r));
   ("CLIENT_NAME", with_one (q_client r)); ("VERSION", with_one (q_version r)); ("GUID_ID", with_one (q_guid_id r)); ("GUID_MASK", with_one (q_guid_mask r));
   ("MODULE_ID_MAX", with_one (q_module_max r)); ("RESERVED_IDS", with_one (q_reserved r)); ("GEN_STR_CATALOG", with_one (q_script r));
   ("OUTPUT_LIB", with_one (q_lib r)); ("OUTPUTS_TARGET", with_one (q_target r)); ("FORGET_OLD_IDS", if q_forget r then Some [] else None)].
Definition phrase (e : string * option (list string)) : list (list string) := match snd e with Some vs => [fst e :: vs] | None => [] end.
(** The arguments say what is asked for, in any order. *)
Definition says (r : request) (argn : list string) : Prop := exists gs, Permutation gs (flat_map phrase (said r)) /\ argn = concat gs.
Definition keywords : list string := map fst (said (Build_request "" "" "" [] [] [] [] None None None None None None None None None false)).
Definition all_values (r : request) : list string := flat_map (fun e => match snd e with Some vs => vs | None => [] end) (said r).

(** ** Values that are what they look like *)
(** Nothing in it means something to the shell. *)
Definition plain (v : string) : Prop := v <> "" /\ forall c, char_in c v ->
  ~ In c ["\"; "&"; ";"; "|"; "<"; ">"; "("; ")"; "$"; "`"; ascii_of_nat 34; "'"; "*"; "?"; "["; "]"; "#"; "~"; "!"; "{"; "}"; ascii_of_nat 9; ascii_of_nat 10]%char.
Definition undashed (v : string) : Prop := forall w, v <> "-" ++ w.
(** Up to the case of letters. *)
Definition same_letter (a b : ascii) : Prop :=
  a = b \/ exists n, (65 <= n <= 90)%nat /\ ((a = ascii_of_nat n /\ b = ascii_of_nat (n + 32)) \/ (b = ascii_of_nat n /\ a = ascii_of_nat (n + 32))).
Definition same_word (s t : string) : Prop := Forall2 same_letter (list_ascii_of_string s) (list_ascii_of_string t).
(** CMake's words for no. *)
Definition means_no (v : string) : Prop :=
  (exists w, In w [""; "0"; "N"; "NO"; "OFF"; "FALSE"; "IGNORE"] /\ same_word v w) \/ v = "NOTFOUND" \/ exists u, v = u ++ "-NOTFOUND".

(** ** Up to date *)
Inductive step := Edit (f text : string) | Build.
Definition do_step (deps reads : list string) (gen : list string -> list string) (t : tree) (s : step) : tree :=
  match s with Edit f text => edit f text t | Build => build deps reads gen t end.
Definition history (deps reads : list string) (gen : list string -> list string) (t : tree) (ss : list step) : tree :=
  fold_left (do_step deps reads gen) ss t.
Definition nothing_made (t : tree) : Prop := made t = None /\ forall f, changed_at t f <= now t.
Definition up_to_date (reads : list string) (gen : list string -> list string) (t : tree) : Prop :=
  exists m, made t = Some (m, gen (map (contents t) reads)).
(** Between two builds a file that is read without being a dependency is edited only if
    a dependency is edited as well; [first]: there was no build before. *)
Fixpoint covered (deps reads : list string) (first : bool) (other dep : Prop) (ss : list step) : Prop :=
  match ss with
  | [] => True
  | Edit f _ :: ss => covered deps reads first (other \/ (In f reads /\ ~ In f deps)) (dep \/ In f deps) ss
  | Build :: ss => (first = true \/ (other -> dep)) /\ covered deps reads false False False ss
  end.

(** ** What reaches the program *)
(** The variables of the caller that the function would use by accident. *)
Definition leaks : list string :=
  ["INPUT_JSON"; "INPUT_HEADERS"; "STABLE_JSON"; "FORGET_ARG"; "CLIENT_NAME_ARG"; "VERSION_ARG"; "GUID_ID_ARG"; "GUID_MASK_ARG"; "MODULE_ID_MAX_ARG"; "RESERVED_IDS_ARG"].
Definition good_value (v : string) : Prop := plain v /\ undashed v /\ ~ In v keywords.
(** Everything is what it looks like. *)
Definition good_call (outer : scope) (real : string -> string) (dir python : string) (r : request) : Prop :=
  (forall x, In x leaks -> outer x = []) /\ (forall v, In v (all_values r) -> good_value v) /\ q_libs r <> [] /\
  plain dir /\ undashed dir /\ plain python /\ (forall v, In v (q_json_input r ++ q_headers r ++ q_stable r) -> plain (real v) /\ undashed (real v)).
(** What is left of an optional value. *)
Definition heeded (asked left : option string) : Prop :=
  match asked with Some v => (means_no v -> left = None) /\ (~ means_no v -> left = Some v) | None => left = None end.
Definition symbols_file (dir lib : string) : string := dir ++ "/undefined_symbols_" ++ lib ++ ".txt".

(** Model of the text that describes an interrupt configuration: manager::config()
    (include/interrupt/manager.hpp:59-62), the config() of the interrupts
    (include/interrupt/config.hpp:38-46, 56-64, 146-148, 184-186) and config_string_for
    (include/interrupt/concepts.hpp:82-101).

    Simplifications: a type is what config_string1 can ask of it; texts are
    strings, and stdx::ct_format (of the standard library extensions) puts the
    texts and decimal numbers in the places of the format. *)
From Coq Require Import String Ascii Bool List NArith DecimalString.
Import ListNotations.
Local Open Scope string_scope.

(** A field, a policies<…> or a flow: its config() and its name, if it has such
    members of type ct_string, and what stdx::type_as_string gives
    (include/interrupt/concepts.hpp:82-101). *)
Record type := { t_config : option string; t_name : option string; t_spelling : string }.
(** config_string1 (include/interrupt/concepts.hpp:82-95) for a type other than an interrupt *)
Definition config_string1 (t : type) : string :=
  match t_config t with
  | Some s => s
  | None => match t_name t with Some s => s | None => t_spelling t end
  end.
(** The join of config_string_for (include/interrupt/concepts.hpp:97-101) *)
Fixpoint join (l : list string) : string :=
  match l with
  | [] => ""
  | [x] => x
  | x :: l => x ++ ", " ++ join l
  end.
(** mcu_control_config (include/interrupt/config.hpp:26-46): number, priority and enable field;
    field_control_config (include/interrupt/config.hpp:48-65): enable and status field. *)
Inductive control := Mcu (number priority : N) (enable : type) | Fields (enable status : type).
(** element_irq (include/interrupt/config.hpp:134-149) and container_irq (include/interrupt/config.hpp:165-187) *)
Inductive config :=
| Element (name : string) (c : control) (policies : type) (flows : list type)
| Container (name : string) (c : control) (policies : type) (children : list config).
(** A number in a ct_format (include/interrupt/config.hpp:26-64). *)
Definition number_text (n : N) : string := NilEmpty.string_of_uint (N.to_uint n).
(** include/interrupt/config.hpp:26-64 *)
Definition quote : string := String """" "".
(** mcu_control_config::config (include/interrupt/config.hpp:38-46) and field_control_config::config (include/interrupt/config.hpp:56-64)
    with the Type that irq, sub_irq (include/interrupt/config.hpp:151-161), shared_irq and shared_sub_irq
    (include/interrupt/config.hpp:190-203) give, and the texts of the flows or children. *)
Definition control_text (shared : bool) (name : string) (c : control) (policies : type) (rest : list string) : string :=
  let type_ := (if shared then "shared_" else "") ++ match c with Mcu _ _ _ => "irq" | Fields _ _ => "sub_irq" end in
  match c with
  | Mcu n p e => "interrupt::" ++ type_ ++ "<" ++ quote ++ name ++ quote ++ ", " ++ number_text n ++ "_irq, " ++ number_text p ++ ", " ++
      join (config_string1 e :: config_string1 policies :: rest) ++ ">"
  | Fields e s => "interrupt::" ++ type_ ++ "<" ++ quote ++ name ++ quote ++ ", " ++
      join (config_string1 e :: config_string1 s :: config_string1 policies :: rest) ++ ">"
  end.
(** element_irq::config (include/interrupt/config.hpp:146-148), container_irq::config (include/interrupt/config.hpp:184-186) *)
Fixpoint config_text (x : config) : string :=
  match x with
  | Element name c policies flows => control_text false name c policies (map config_string1 flows)
  | Container name c policies children => control_text true name c policies (map config_text children)
  end.
(** manager::config (include/interrupt/manager.hpp:59-62) *)
Definition manager_text (xs : list config) : string := "interrupt::root<" ++ join (map config_text xs) ++ ">".

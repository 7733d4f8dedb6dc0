(** Model of the XML collateral that python/cib/gen_str_catalog.py writes (python/cib/gen_str_catalog.py:503-631).

    Simplifications: strings are bytes (the file is UTF-8); ElementTree is that of
    Python 3.12: Element, SubElement, indent and tostring are written out below; the
    name of the encoding in the XML declaration is not looked at by readers; ids are
    not negative. *)
From Coq Require Import String Ascii Bool Arith ZArith NArith List.
From Verif Require Import GenModel.
Import ListNotations.
Local Open Scope list_scope.
Local Open Scope string_scope.

(** ** xml.etree.ElementTree *)
(** Element: tag, attrib, text, children and tail; an absent text is empty
    (python/cib/gen_str_catalog.py:503-631). *)
Inductive element := Element (tag : string) (attrib : list (string * string)) (text : string) (children : list element) (tail : string).
(** python/cib/gen_str_catalog.py:503-631 *)
Definition e_tail (e : element) : string := match e with Element _ _ _ _ t => t end.
(** python/cib/gen_str_catalog.py:503-631 *)
Definition with_tail (t : string) (e : element) : element := match e with Element n a x c _ => Element n a x c t end.
(** _escape_attrib (python/cib/gen_str_catalog.py:503-631) *)
Definition escape_char (a : ascii) : string :=
  if Ascii.eqb a "&" then "&amp;" else if Ascii.eqb a "<" then "&lt;" else if Ascii.eqb a ">" then "&gt;"
  else if Ascii.eqb a """" then "&quot;" else if Nat.eqb (nat_of_ascii a) 13 then "&#13;"
  else if Nat.eqb (nat_of_ascii a) 10 then "&#10;" else if Nat.eqb (nat_of_ascii a) 9 then "&#09;" else String a EmptyString.
(** python/cib/gen_str_catalog.py:503-631 *)
Fixpoint escape_attrib (s : string) : string := match s with EmptyString => EmptyString | String a r => escape_char a ++ escape_attrib r end.
(** _serialize_xml, with the _escape_cdata of the generator (python/cib/gen_str_catalog.py:729-735, 743) *)
Fixpoint serialize (e : element) : string :=
  match e with
  | Element tag attrib text children tail =>
    let attrs := fold_right append EmptyString (map (fun kv => " " ++ fst kv ++ "=""" ++ escape_attrib (snd kv) ++ """") attrib) in
    "<" ++ tag ++ attrs ++
    (match text, children with
     | EmptyString, [] => " />"
     | _, _ => ">" ++ amp text ++ fold_right append EmptyString (map serialize children) ++ "</" ++ tag ++ ">"
     end) ++ amp tail
  end.
(** tostring(encoding="utf8", method="xml")
    (python/cib/gen_str_catalog.py:729-735, 743) *)
Definition tostring (e : element) : string := "<?xml version='1.0' encoding='utf8'?>" ++ newline ++ serialize e.
(** indent(tree, space="    "): the line break and blanks of a level
    (python/cib/gen_str_catalog.py:729-735, 743) *)
Fixpoint blanks (n : nat) : string := match n with O => EmptyString | S k => "    " ++ blanks k end.
(** python/cib/gen_str_catalog.py:729-735, 743 *)
Definition indentation (level : nat) : string := newline ++ blanks level.
(** s.strip() is empty (python/cib/gen_str_catalog.py:729-735, 743) *)
Definition space_char (a : ascii) : bool := let n := nat_of_ascii a in (Nat.leb 9 n && Nat.leb n 13) || (Nat.leb 28 n && Nat.leb n 32).
(** python/cib/gen_str_catalog.py:729-735, 743 *)
Fixpoint blank (s : string) : bool := match s with EmptyString => true | String a r => space_char a && blank r end.
(** _indent_children: the tails of all children, that of the last again
    (python/cib/gen_str_catalog.py:729-735, 743) *)
Definition set_blank (t s : string) : string := if blank s then t else s.
(** python/cib/gen_str_catalog.py:729-735, 743 *)
Fixpoint last_tail (level : nat) (l : list element) : list element :=
  match l with
  | [] => []
  | [e] => [with_tail (set_blank (indentation level) (e_tail e)) e]
  | e :: r => e :: last_tail level r
  end.
(** python/cib/gen_str_catalog.py:729-735, 743 *)
Fixpoint indent_children (level : nat) (e : element) : element :=
  match e with
  | Element tag attrib text children tail =>
    match children with
    | [] => e
    | _ => Element tag attrib (set_blank (indentation (S level)) text)
             (last_tail level (map (fun c => with_tail (set_blank (indentation (S level)) (e_tail c)) (indent_children (S level) c)) children)) tail
    end
  end.
(** python/cib/gen_str_catalog.py:729-735, 743 *)
Definition leaf_element (tag : string) (attrib : list (string * string)) (text : string) : element := Element tag attrib text [] EmptyString.
(** python/cib/gen_str_catalog.py:729-735, 743 *)
Definition parent_element (tag : string) (attrib : list (string * string)) (children : list element) : element := Element tag attrib EmptyString children EmptyString.

(** ** write_xml *)
(** python/cib/gen_str_catalog.py:572-593 *)
Record xml_message := { x_id : N; x_lookup : option (Z * Z); x_args : list arg_type; x_text : string }.
(** python/cib/gen_str_catalog.py:596-631 *)
Record collateral := {
  client_name : string; version : string; guid_id : string; guid_mask : string;
  (** the enumerations: name, number, enumerators *)
  c_enums : list (string * (Z * list (string * Z)));
  c_modules : list (Z * string);
  c_messages : list xml_message }.
(** serialize_guids (python/cib/gen_str_catalog.py:503-509) *)
Definition serialize_guids (c : collateral) : element :=
  parent_element "syst:Guids" [] [leaf_element "syst:Guid" [("ID", "{" ++ guid_id c ++ "}"); ("Mask", "{" ++ guid_mask c ++ "}")] EmptyString].
(** serialize_enums (python/cib/gen_str_catalog.py:512-521) *)
Definition serialize_enum (e : string * (Z * list (string * Z))) : element :=
  parent_element "syst:Enum" [("Name", fst e); ("ID", str (fst (snd e)))]
    (map (fun nv => leaf_element "syst:EnumEntry" [("Value", str (snd nv)); ("Name", fst nv)] EmptyString) (snd (snd e))).
(** python/cib/gen_str_catalog.py:512-521 *)
Definition serialize_enums (c : collateral) : element := parent_element "syst:EnumDefinition" [] (map serialize_enum (c_enums c)).
(** serialize_modules (python/cib/gen_str_catalog.py:524-530) *)
Definition cdata_section (t : string) : string := "<![CDATA[" ++ t ++ "]]>".
(** python/cib/gen_str_catalog.py:524-530 *)
Definition serialize_module (m : Z * string) : element := leaf_element "syst:Module" [("ID", str (fst m))] (cdata_section (snd m)).
(** python/cib/gen_str_catalog.py:524-530 *)
Definition serialize_modules (c : collateral) : element := parent_element "syst:Modules" [] (map serialize_module (c_modules c)).
(** "0x%08X" (python/cib/gen_str_catalog.py:579) *)
Definition hex_digit (d : N) : ascii := match String.get (N.to_nat d) "0123456789ABCDEF" with Some a => a | None => "0"%char end.
(** python/cib/gen_str_catalog.py:579 *)
Fixpoint hex_aux (fuel : nat) (n : N) (acc : string) : string :=
  match fuel with
  | O => acc
  | S k => let acc := String (hex_digit (n mod 16)) acc in if (n <? 16)%N then acc else hex_aux k (n / 16) acc
  end.
(** python/cib/gen_str_catalog.py:579 *)
Fixpoint pad (n : nat) (s : string) : string := match n with O => s | S k => "0" ++ pad k s end.
(** python/cib/gen_str_catalog.py:579 *)
Definition hex8 (n : N) : string := let s := hex_aux (S (N.to_nat (N.log2 n))) n EmptyString in "0x" ++ pad (8 - String.length s) s.
(** serialize_messages (python/cib/gen_str_catalog.py:572-593) *)
Definition serialize_message (m : xml_message) : element :=
  leaf_element "syst:Format"
    (("ID", hex8 (x_id m)) :: ("Mask", "0x0FFFFFFF") :: match x_lookup m with Some (a, e) => [("EnumLookup", str a ++ ":" ++ str e)] | None => [] end)
    (cdata_section (printf_format (x_text m) (x_args m))).
(** python/cib/gen_str_catalog.py:572-593 *)
Definition is_short (m : xml_message) : bool := match x_args m with [] => true | _ => false end.
(** write_xml (python/cib/gen_str_catalog.py:596-631) *)
Definition collateral_tree (c : collateral) : element :=
  parent_element "syst:Collateral"
    [("xmlns:syst", "http://www.mipi.org/1.0/sys-t"); ("xmlns:xsi", "http://www.w3.org/2001/XMLSchema-instance");
     ("xsi:schemaLocation", "http://www.mipi.org/1.0/sys-t https://www.mipi.org/schema/sys-t/sys-t_1-0.xsd")]
    [parent_element "syst:Client" [("Name", client_name c)]
       [serialize_guids c; serialize_enums c; serialize_modules c;
        parent_element "syst:Short32" [] (map serialize_message (filter is_short (c_messages c)));
        parent_element "syst:Catalog32" [] (map serialize_message (filter (fun m => negb (is_short m)) (c_messages c)))];
     leaf_element "syst:FwVersion" [("FW_Version", version c)] EmptyString].
(** python/cib/gen_str_catalog.py:596-631 *)
Definition write_xml (c : collateral) : string := tostring (indent_children 0 (collateral_tree c)).

(** Specification of the files of the catalog generator: how an XML file is read, and
    what the collateral of a catalog is. *)
From Coq Require Import String Ascii Bool Arith ZArith NArith List.
From Verif Require Import GenModel GenSpec OutputModel.
Import ListNotations.
Local Open Scope list_scope.
Local Open Scope string_scope.

(** ** Reading XML *)
(** A document is text and elements. *)
Inductive xml := Text (s : string) | Elem (name : string) (attrs : list (string * string)) (content : list xml).
(** A piece of text before the rest of the content. *)
Definition cons_text (s : string) (l : list xml) : list xml :=
  match s, l with EmptyString, _ => l | _, Text t :: r => Text (s ++ t) :: r | _, _ => Text s :: l end.
(** s without the prefix p. *)
Fixpoint after (p s : string) : option string :=
  match p, s with
  | EmptyString, _ => Some s
  | String a p', String b s' => if Ascii.eqb a b then after p' s' else None
  | _, EmptyString => None
  end.
(** Up to the mark, and what follows it. *)
Fixpoint until (mark s : string) : option (string * string) :=
  match after mark s with
  | Some r => Some (EmptyString, r)
  | None => match s with EmptyString => None | String a r => option_map (fun p => (String a (fst p), snd p)) (until mark r) end
  end.
(** Characters XML allows. *)
Definition xml_char (a : ascii) : bool := let n := nat_of_ascii a in Nat.eqb n 9 || Nat.eqb n 10 || Nat.eqb n 13 || Nat.leb 32 n.
Definition white (a : ascii) : bool := let n := nat_of_ascii a in Nat.eqb n 9 || Nat.eqb n 10 || Nat.eqb n 13 || Nat.eqb n 32.
(** A line end of the file is one newline, however written. *)
Fixpoint line_ends (s : string) : string :=
  match s with
  | EmptyString => EmptyString
  | String a r =>
    if Nat.eqb (nat_of_ascii a) 13 then
      match r with
      | String b _ => if Nat.eqb (nat_of_ascii b) 10 then line_ends r else String (ascii_of_nat 10) (line_ends r)
      | EmptyString => String (ascii_of_nat 10) EmptyString
      end
    else String a (line_ends r)
  end.
(** &name; and &#number; after the ampersand. *)
Definition reference (s : string) : option (ascii * string) :=
  match until ";" s with
  | None => None
  | Some (name, r) =>
    if (name =? "amp") then Some ("&"%char, r) else if (name =? "lt") then Some ("<"%char, r) else if (name =? "gt") then Some (">"%char, r)
    else if (name =? "quot") then Some (""""%char, r) else if (name =? "apos") then Some ("'"%char, r)
    else match after "#" name with
         | Some d => match some_digits 10 d with
                     | Some z => if ((0 <=? z) && (z <? 128))%Z then Some (ascii_of_nat (Z.to_nat z), r) else None
                     | None => None
                     end
         | None => None
         end
  end.
(** A name ends before a blank, =, / or >. *)
Definition ends_name (a : ascii) : bool := white a || Ascii.eqb a "=" || Ascii.eqb a "/" || Ascii.eqb a ">".
Fixpoint read_name (s : string) : string * string :=
  match s with
  | EmptyString => (EmptyString, EmptyString)
  | String a r => if ends_name a then (EmptyString, s) else (String a (fst (read_name r)), snd (read_name r))
  end.
(** A value in double quotes; line breaks and tabs count as blanks. *)
Fixpoint read_value (fuel : nat) (s : string) : option (string * string) :=
  match fuel with
  | O => None
  | S k =>
    match s with
    | EmptyString => None
    | String a r =>
      if Ascii.eqb a """" then Some (EmptyString, r)
      else if Ascii.eqb a "<" then None
      else if Ascii.eqb a "&" then
        match reference r with Some (b, q) => option_map (fun p => (String b (fst p), snd p)) (read_value k q) | None => None end
      else option_map (fun p => (String (if white a then " "%char else a) (fst p), snd p)) (read_value k r)
    end
  end.
(** The attributes, whether the element ends with />, and what follows. *)
Fixpoint read_attrs (fuel : nat) (s : string) : option (list (string * string) * bool * string) :=
  match fuel with
  | O => None
  | S k =>
    match s with
    | EmptyString => None
    | String a r =>
      if white a then read_attrs k r
      else if Ascii.eqb a ">" then Some ([], false, r)
      else match after "/>" s with
      | Some q => Some ([], true, q)
      | None =>
        let (n, q) := read_name s in
        match after "=""" q with
        | None => None
        | Some q1 =>
          match read_value k q1 with
          | None => None
          | Some (v, q2) => match read_attrs k q2 with Some (l, b, q3) => Some ((n, v) :: l, b, q3) | None => None end
          end
        end
      end
    end
  end.
(** The content of an element, and what follows the </ that ends it; ]]> ends a section
    and stands nowhere else. *)
Fixpoint read_content (fuel : nat) (s : string) : option (list xml * string) :=
  match fuel with
  | O => None
  | S k =>
    match after "</" s with
    | Some r => Some ([], r)
    | None =>
      match after "<![CDATA[" s with
      | Some r => match until "]]>" r with Some (t, q) => option_map (fun p => (cons_text t (fst p), snd p)) (read_content k q) | None => None end
      | None =>
        match s with
        | EmptyString => None
        | String a r =>
          if Ascii.eqb a "<" then
            match read_element k s with Some (e, q) => option_map (fun p => (e :: fst p, snd p)) (read_content k q) | None => None end
          else if Ascii.eqb a "&" then
            match reference r with Some (b, q) => option_map (fun p => (cons_text (String b EmptyString) (fst p), snd p)) (read_content k q) | None => None end
          else match after "]]>" s with
               | Some _ => None
               | None => option_map (fun p => (cons_text (String a EmptyString) (fst p), snd p)) (read_content k r)
               end
        end
      end
    end
  end
with read_element (fuel : nat) (s : string) : option (xml * string) :=
  match fuel with
  | O => None
  | S k =>
    match after "<" s with
    | None => None
    | Some r =>
      let (n, q) := read_name r in
      match read_attrs k q with
      | None => None
      | Some (a, true, q1) => Some (Elem n a [], q1)
      | Some (a, false, q1) =>
        match read_content k q1 with
        | None => None
        | Some (c, q2) => match after (n ++ ">") q2 with Some q3 => Some (Elem n a c, q3) | None => None end
        end
      end
    end
  end.
Fixpoint all_chars (p : ascii -> bool) (s : string) : bool := match s with EmptyString => true | String a r => p a && all_chars p r end.
(** A file reads as an element: a declaration, then the element and nothing more. *)
Definition reads (file : string) (e : xml) : Prop :=
  all_chars xml_char file = true /\
  exists fuel decl body, after "<?xml" (line_ends file) = Some decl /\ option_map snd (until "?>" decl) = Some (String (ascii_of_nat 10) body) /\
    read_element fuel body = Some (e, EmptyString).

(** ** The collateral *)
Definition content_of (t : string) : list xml := cons_text t [].
(** Messages and modules, with what becomes of their texts. *)
Definition a_message (f : string -> string) (m : xml_message) : xml :=
  Elem "syst:Format"
    (("ID", hex8 (x_id m)) :: ("Mask", "0x0FFFFFFF") :: match x_lookup m with Some (a, e) => [("EnumLookup", str a ++ ":" ++ str e)] | None => [] end)
    (content_of (f (printf_format (x_text m) (x_args m)))).
Definition without_args (m : xml_message) : bool := Nat.eqb (List.length (x_args m)) 0.
Definition document (f : string -> string) (c : collateral) : xml :=
  Elem "syst:Collateral"
    [("xmlns:syst", "http://www.mipi.org/1.0/sys-t"); ("xmlns:xsi", "http://www.w3.org/2001/XMLSchema-instance");
     ("xsi:schemaLocation", "http://www.mipi.org/1.0/sys-t https://www.mipi.org/schema/sys-t/sys-t_1-0.xsd")]
    [ Elem "syst:Client" [("Name", client_name c)]
        [ Elem "syst:Guids" [] [Elem "syst:Guid" [("ID", "{" ++ guid_id c ++ "}"); ("Mask", "{" ++ guid_mask c ++ "}")] []];
          Elem "syst:EnumDefinition" [] (map (fun e =>
            Elem "syst:Enum" [("Name", fst e); ("ID", str (fst (snd e)))]
              (map (fun nv => Elem "syst:EnumEntry" [("Value", str (snd nv)); ("Name", fst nv)] []) (snd (snd e)))) (c_enums c));
          Elem "syst:Modules" [] (map (fun m => Elem "syst:Module" [("ID", str (fst m))] (content_of (f (snd m)))) (c_modules c));
          Elem "syst:Short32" [] (map (a_message f) (filter without_args (c_messages c)));
          Elem "syst:Catalog32" [] (map (a_message f) (filter (fun m => negb (without_args m)) (c_messages c))) ];
      Elem "syst:FwVersion" [("FW_Version", version c)] [] ].
(** What the file should say. *)
Definition means (c : collateral) : xml := document (fun t => t) c.
(** Text between elements that is only blanks is layout. *)
Definition is_elem (x : xml) : bool := match x with Elem _ _ _ => true | Text _ => false end.
Definition is_layout (x : xml) : bool := match x with Text s => all_chars white s | Elem _ _ _ => false end.
Fixpoint without_layout (x : xml) : xml :=
  match x with
  | Text s => Text s
  | Elem n a c => Elem n a (if existsb is_elem c then filter (fun y => negb (is_layout y)) (map without_layout c) else map without_layout c)
  end.

(** The texts of modules and formats that survive a CDATA section (C81) and line ends. *)
Definition closed (t : string) : Prop := ~ occurs "]]>" t.
Definition no_amp (t : string) : Prop := ~ char_in "&" t.
Definition has_cr (t : string) : Prop := char_in (ascii_of_nat 13) t.
Definition legal (t : string) : Prop := all_chars xml_char t = true.
Definition texts (c : collateral) : list string := (map snd (c_modules c) ++ map (fun m => printf_format (x_text m) (x_args m)) (c_messages c))%list.
Definition labels (c : collateral) : list string :=
  ([client_name c; version c; guid_id c; guid_mask c] ++ concat (map (fun e => fst e :: map fst (snd (snd e))) (c_enums c)))%list.

(** ** Looking a message up in the file *)
Definition attr (k : string) (a : list (string * string)) : option string := option_map snd (find (fun kv => fst kv =? k) a).
Definition inner (x : xml) : list xml := match x with Elem _ _ c => c | Text _ => [] end.
Definition named (n : string) (x : xml) : bool := match x with Elem m _ _ => m =? n | Text _ => false end.
(** The children with a name, of every element of a list. *)
Definition below (n : string) (l : list xml) : list xml := filter (named n) (concat (map inner l)).
Definition text_in (x : xml) : string := match inner x with [Text t] => t | _ => EmptyString end.
(** The number in an attribute. *)
Definition number (k : string) (x : xml) : option Z :=
  match x with Elem _ a _ => match attr k a with Some s => int0 s | None => None end | Text _ => None end.
(** The formats of short messages and of others. *)
Definition formats (group : string) (doc : xml) : list xml := below "syst:Format" (below group (below "syst:Client" [doc])).
(** The formats that an id selects under the mask. *)
Definition selected (id : Z) (x : xml) : bool :=
  match number "ID" x, number "Mask" x with Some i, Some m => Z.eqb (Z.land i m) (Z.land id m) | _, _ => false end.
Definition look_up (doc : xml) (id : Z) : list string :=
  map text_in (filter (selected id) (formats "syst:Short32" doc ++ formats "syst:Catalog32" doc)%list).

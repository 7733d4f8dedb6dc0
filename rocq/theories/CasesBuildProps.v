(** Computed cases for runs of the catalog generator (see CasesProps.v). Tests, not proofs. *)
From Coq Require Import String Ascii Bool Arith List NArith ZArith.
From Verif Require Import CatalogModel CatalogProps GenModel SymbolModel SymbolProps MipiModel ChainModel OutputModel RunModel.
Import ListNotations.
Local Open Scope Z_scope.
Local Open Scope list_scope.
Local Open Scope string_scope.

Fixpoint codes (s : string) : list Z := match s with EmptyString => [] | String a r => Z.of_nat (nat_of_ascii a) :: codes r end.
Definition msg (t : string) (args : list string) (i : Z) : sym_message := {| sm_text := codes t; sm_args := args; sm_id := i; sm_suffix := ""; sm_named := []; sm_tags := [] |}.
Definition mod_ (t : string) : sym_module := {| so_text := codes t; so_id := -1; so_suffix := "" |}.
Definition m_at := msg "at {}" ["encode_32<int>"] (-1).
Definition m_state := msg "state {}" ["encode_enum<E, unsigned int, 4>"] 300.
Definition symbols := [IMessage m_state; IModule (mod_ "net"); IMessage m_at; IModule (mod_ "boot"); IMessage (msg "now (E)1" [] (-1))].
Definition listed := map (line_of true) symbols.
Definition opts (limit : Z) : options := {| o_hash := num; o_extra := fun _ => 0%N; o_reserved := [(0, 2)]; o_forget := false; o_module_max := limit;
  o_enums := [("E", [("idle", 0); ("busy", 1)])]; o_extra_enums := [Some [("F", [("5", "five")])]] |}.
Definition nothing : json_file := {| j_messages := [mk "old" [] 9]; j_modules := [mk "gone" [] 5]; j_enums := [] |}.

(** ** C103: catalogs and decoders *)
Definition shown (l : list entry) : list (string * Z) := map (fun e => (m_text e, m_id e)) l.
Example C103_case_generated : option_map (fun g => (map (fun p => (text_of_codes (sm_text (fst p)), snd p)) (g_messages g), map (fun p => (text_of_codes (so_text (fst p)), snd p)) (g_modules g),
    shown (j_messages (g_json g)), shown (j_modules (g_json g)))) (generate (opts 127) [nothing] listed) =
  Some ([("state {}", 300); ("at {}", 3); ("now (E)1", 4)], [("net", 1); ("boot", 0)],
    [("at {}", 3); ("now (E)1", 4); ("state {}", 300); ("old", 9)], [("boot", 0); ("net", 1); ("gone", 5)]).
Proof. vm_compute. reflexivity. Qed.
Example C103_case_limit : generate (opts 0) [nothing] listed = None.
Proof. vm_compute. reflexivity. Qed.
Example C103_case_linked : (linked Z.eq_dec [(1, 300); (2, -1)] 1, linked Z.eq_dec [(1, 300); (2, -1)] 2, linked Z.eq_dec [(1, 300)] 3) = (Some 300%N, Some 4294967295%N, None).
Proof. vm_compute. reflexivity. Qed.
Example C103_case_by_id : (option_map m_text (by_id [mk "a" [] 4; mk "b" [] 3; mk "c" [] 4] 4), option_map m_text (by_id [mk "a" [] 4; mk "b" [] 3] 5)) = (Some "c", None).
Proof. vm_compute. reflexivity. Qed.

(** ** C118 to C121: runs *)
Definition unit_ : cursor :=
  Cursor OtherDecl "unit" [] 0 [Cursor EnumDecl "E" [] 0 [Cursor EnumConstant "busy" ["E"] 2 []; Cursor EnumDecl "In" ["E"] 0 []]; Cursor EnumDecl "E" [] 0 [Cursor EnumConstant "idle" ["E"] 0 []]; Cursor EnumDecl "G" [] 0 []].
Example C118_case_found : (extract_enums unit_, numbered 0 (extract_enums unit_), extract_enums (Cursor EnumDecl "E" [] 0 [])) =
  ([("E", [("busy", 2); ("idle", 0)]); ("E::In", []); ("G", [])], [("E", (0, [("busy", 2); ("idle", 0)])); ("E::In", (1, [])); ("G", (2, []))], [("E", [])]).
Proof. vm_compute. reflexivity. Qed.
Example C119_case_layout : cpp_file "argv" "now" ["a.hpp"; "b.hpp"] ["enum"; "enum2"] ["c1"; "c2"] ["m1"] =
  lines_of ["//"; "// This file was automatically generated by"; "// argv"; "// At now"; "// DO NOT MODIFY THIS FILE MANUALLY"; "//"; ""; "#include ""a.hpp"""; "#include ""b.hpp"""; "";
    "#include <log_binary/catalog/arguments.hpp>"; "#include <log_binary/catalog/catalog.hpp>"; ""; "enum"; "enum2"; ""; "c1"; ""; "c2"; ""; "m1"; ""].
Proof. vm_compute. reflexivity. Qed.
Definition st (limit : Z) (c : option string) : settings :=
  {| s_options := opts limit; s_cpp := c; s_json := Some "s.json"; s_xml := Some "s.xml"; s_headers := ["a.hpp"]; s_argv := "gen"; s_date := "today";
     s_client := "client"; s_version := "1"; s_guid_id := "01"; s_guid_mask := "ff"; s_clang := fun text => Some unit_ |}.
Definition text_at (name : string) (fs : files) : option string := match GenModel.get String.eqb name fs with Some (Plain s) => Some s | _ => None end.
Definition json_at (name : string) (fs : files) :=
  match GenModel.get String.eqb name fs with Some (Json j) => Some (shown (j_messages j), shown (j_modules j), map fst (j_enums j)) | _ => None end.
Definition before : files := [("s.json", Json nothing); ("notes", Plain "x")].
Definition after (limit : Z) (c : option string) (ls : list string) : files * bool := main (st limit c) [nothing] ls before.
Definition written (r : files * bool) := (map fst (fst r), text_at "notes" (fst r), json_at "s.json" (fst r), snd r).
Example C119_case_files : let new := ([("at {}", 3); ("now (E)1", 4); ("state {}", 300); ("old", 9)], [("boot", 0); ("net", 1); ("gone", 5)]) in
  [written (after 127 (Some "s.cpp") listed); written (after 127 None listed); written (after 0 (Some "s.cpp") listed)] =
  [(["s.json"; "notes"; "s.cpp"; "s.xml"], Some "x", Some (new, ["F"; "E"; "E::In"; "G"]), true);
   (["s.json"; "notes"; "s.xml"], Some "x", Some (new, ["F"]), true);
   (["s.json"; "notes"; "s.cpp"], Some "x", Some ([("old", 9)], [("gone", 5)], []), false)].
Proof. vm_compute. reflexivity. Qed.
Example C120_case_file : text_at "s.xml" (fst (after 127 (Some "s.cpp") listed)) = Some (
  lines_of ["<?xml version='1.0' encoding='utf8'?>";
    "<syst:Collateral xmlns:syst=""http://www.mipi.org/1.0/sys-t"" xmlns:xsi=""http://www.w3.org/2001/XMLSchema-instance"" xsi:schemaLocation=""http://www.mipi.org/1.0/sys-t https://www.mipi.org/schema/sys-t/sys-t_1-0.xsd"">";
    "    <syst:Client Name=""client"">";
    "        <syst:Guids>";
    "            <syst:Guid ID=""{01}"" Mask=""{ff}"" />";
    "        </syst:Guids>";
    "        <syst:EnumDefinition>";
    "            <syst:Enum Name=""E"" ID=""0"">";
    "                <syst:EnumEntry Value=""2"" Name=""busy"" />";
    "                <syst:EnumEntry Value=""0"" Name=""idle"" />";
    "            </syst:Enum>";
    "            <syst:Enum Name=""E::In"" ID=""1"" />";
    "            <syst:Enum Name=""G"" ID=""2"" />";
    "        </syst:EnumDefinition>";
    "        <syst:Modules>";
    "            <syst:Module ID=""0""><![CDATA[boot]]></syst:Module>";
    "            <syst:Module ID=""1""><![CDATA[net]]></syst:Module>";
    "        </syst:Modules>";
    "        <syst:Short32>";
    "            <syst:Format ID=""0x00000004"" Mask=""0x0FFFFFFF""><![CDATA[now (E)1]]></syst:Format>";
    "        </syst:Short32>";
    "        <syst:Catalog32>";
    "            <syst:Format ID=""0x00000003"" Mask=""0x0FFFFFFF""><![CDATA[at %d]]></syst:Format>";
    "            <syst:Format ID=""0x0000012C"" Mask=""0x0FFFFFFF"" EnumLookup=""1:0""><![CDATA[state %u]]></syst:Format>";
    "        </syst:Catalog32>";
    "    </syst:Client>";
    "    <syst:FwVersion FW_Version=""1"" />";
    "</syst:Collateral>"]).
Proof. vm_compute. reflexivity. Qed.
(** A type that is not a message, a type of argument that is not understood, and an enumeration without a name. *)
Definition odd (a : string) : list string := [line_of true (IMessage (msg "at {}" [a] (-1)))].
Example C121_case_files : let old := Some ([("old", 9)], [("gone", 5)], @nil string) in
  ([written (after 127 None ["         U unsigned int catalog<oops>()"]); written (after 127 None (odd "int")); written (after 127 (Some "s.cpp") (odd "int"));
    written (after 127 (Some "s.cpp") (odd "encode_enum<(anonymous namespace)::E, int, 4>"))],
   text_at "s.cpp" (fst (after 127 (Some "s.cpp") (odd "encode_enum<(anonymous namespace)::E, int, 4>")))) =
  ([(["s.json"; "notes"], Some "x", old, false); (["s.json"; "notes"], Some "x", Some ([("at {}", 3); ("old", 9)], [("gone", 5)], ["F"]), false); (["s.json"; "notes"], Some "x", old, false);
    (["s.json"; "notes"; "s.cpp"], Some "x", old, false)], Some "").
Proof. vm_compute. reflexivity. Qed.
Example C120_case_arguments : map arg_of ["encode_32<int>"; "encode_enum<E, int, 4>"; "int"] = [Some (Enc "encode_32" "int"); Some (EncEnum "E" "int" "4"); None].
Proof. vm_compute. reflexivity. Qed.
Example C119_case_objects : map (fun p => (text_of_codes (so_text (fst p)), snd p)) (objects (fun e => num (m_text e)) entry_of_module [mk "b" [] 1; mk "c" [] 2; mk "a" [] 7] [mod_ "a"; mod_ "b"; mod_ "d"]) = [("b", 1); ("a", 7)].
Proof. vm_compute. reflexivity. Qed.
Example C103_case_items : (map sm_id (messages_of (IModule (mod_ "m") :: symbols)), map (fun m => text_of_codes (so_text m)) (modules_of (IModule (mod_ "m") :: symbols))) = ([300; -1; -1], ["m"; "net"; "boot"]).
Proof. vm_compute. reflexivity. Qed.
Definition read_back : json_file := {| j_messages := [mk "now (E)1" [] 4]; j_modules := []; j_enums := write_enums [("E", [("idle", 0); ("busy", 1)])] [] |}.
Example C103_case_line : (line (fun _ => "") 5 read_back (DShort 4), line (fun _ => "") 0 read_back (DShort 4), line (fun _ => "") 5 read_back (DShort 5)) = (Some "now busy", None, None).
Proof. vm_compute. reflexivity. Qed.

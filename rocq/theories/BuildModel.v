(** Model of the integration into CMake: cmake/QtPreParseProtoFile.cmake, which reads a schema line by line to find out which
    files the generator is going to write, and what cmake/QtProtobufGen.cmake makes of it; and the files that the generator
    does write. *)

From Coq Require Import String Ascii ZArith List Bool Arith.
From Verif Require Import GenModel.
Import ListNotations.
Open Scope string_scope.

Definition tab : ascii := ascii_of_nat 9.
Definition newline : ascii := ascii_of_nat 10.
Definition backslash : ascii := ascii_of_nat 92.

(** * The text as list *)

(** A character in front of the first item. *)
Definition put (c : ascii) (l : list string) : list string :=
  match l with [] => [String c EmptyString] | x :: l' => String c x :: l' end.

(** QtPreParseProtoFile.cmake 18-19 and the list of line 25: a semicolon gets a backslash in front, a newline ends an
    item.  As CMake expands lists, a newline does not end an item between square brackets or behind a backslash.
    [depth]: the brackets that are open. *)
Fixpoint items (depth : Z) (s : string) : list string :=
  match s with
  | EmptyString => [EmptyString]
  | String c s' =>
      if Ascii.eqb c newline then
        if Z.eqb depth 0 then EmptyString :: items depth s' else put ";" (items depth s')
      else if Ascii.eqb c ";" then put backslash (put ";" (items depth s'))
      else if Ascii.eqb c "[" then put c (items (depth + 1) s')
      else if Ascii.eqb c "]" then put c (items (depth - 1) s')
      else match s' with
           | String n s'' => if Ascii.eqb c backslash && Ascii.eqb n newline then put ";" (items depth s'') else put c (items depth s')
           | EmptyString => put c (items depth s')
           end
  end.

(** * Lines *)

(** Classes of characters of the regular expressions of lines 21, 26, 28, 36 and 38. *)
Definition is_blank (c : ascii) : bool := Ascii.eqb c tab || Ascii.eqb c " ".
Definition is_ident (c : ascii) : bool :=
  between 97 122 c || between 65 90 c || between 48 57 c || Ascii.eqb c "_".
Definition is_package (c : ascii) : bool := is_ident c || Ascii.eqb c "." || Ascii.eqb c "-".

Fixpoint skip_blanks (s : string) : string :=
  match s with String c s' => if is_blank c then skip_blanks s' else s | EmptyString => s end.
Fixpoint take_while (p : ascii -> bool) (s : string) : string :=
  match s with String c s' => if p c then String c (take_while p s') else EmptyString | EmptyString => s end.
Fixpoint behind (word s : string) : option string :=
  match word, s with
  | EmptyString, _ => Some s
  | String a w, String b s' => if Ascii.eqb a b then behind w s' else None
  | String _ _, EmptyString => None
  end.

(** MATCHES "^[\t ]*word[\t ]+([...]+)" with characters [p] in the last brackets: CMAKE_MATCH_1, if the item matches. *)
Definition match_key (p : ascii -> bool) (word item : string) : option string :=
  match behind word (skip_blanks item) with
  | Some (String c s) =>
      if is_blank c then
        match take_while p (skip_blanks s) with EmptyString => None | n => Some n end
      else None
  | _ => None
  end.

(** MATCHES "[^/]*\\{" and the like of lines 42 and 45: what is in front of the brace may be empty, so it does not matter. *)
Fixpoint has_char (c : ascii) (s : string) : bool :=
  match s with EmptyString => false | String d s' => Ascii.eqb c d || has_char c s' end.

(** The variables of the loop, lines 23-52. *)
Record scan : Type := mkScan {
  s_package : string; s_messages : list string; s_services : list string; s_enums : list string;
  s_braces : Z; s_inside : bool
}.
Definition scan_start : scan := mkScan "" [] [] [] 0 false.

(** Lines 26-40. *)
Definition scan_key (st : scan) (item : string) : scan :=
  match match_key is_package "package" item with
  | Some n => mkScan n (s_messages st) (s_services st) (s_enums st) (s_braces st) (s_inside st)
  | None =>
  match match_key is_ident "message" item with
  | Some n =>
      if Z.eqb (s_braces st) 0
      then mkScan (s_package st) (s_messages st ++ [n]) (s_services st) (s_enums st) (s_braces st) true
      else st
  | None =>
  match match_key is_ident "service" item with
  | Some n => mkScan (s_package st) (s_messages st) (s_services st ++ [n]) (s_enums st) (s_braces st) (s_inside st)
  | None =>
  match match_key is_ident "enum" item with
  | Some n => mkScan (s_package st) (s_messages st) (s_services st) (s_enums st ++ [n]) (s_braces st) (s_inside st)
  | None => st
  end end end end.

(** Lines 41-51. *)
Definition with_braces (st : scan) (braces : Z) (inside : bool) : scan :=
  mkScan (s_package st) (s_messages st) (s_services st) (s_enums st) braces inside.
Definition scan_braces (st : scan) (item : string) : scan :=
  if s_inside st then
    let st1 := if has_char "{" item then with_braces st (s_braces st + 1) true else st in
    if has_char "}" item
    then with_braces st1 (s_braces st1 - 1) (negb (Z.eqb (s_braces st1 - 1) 0))
    else st1
  else st.

Definition scan_item (st : scan) (item : string) : scan := scan_braces (scan_key st item) item.
Definition scan_text (text : string) : scan := fold_left scan_item (items 0 text) scan_start.

(** * The files that are expected *)

(** string(REPLACE "." "/"), line 55. *)
Fixpoint slashes (s : string) : string :=
  match s with EmptyString => EmptyString | String c s' => String (if Ascii.eqb c "." then "/" else c) (slashes s') end.

(** get_filename_component(... NAME_WLE), line 75: without directory and last extension. *)
Definition name_wle (path : string) : string :=
  let name := match cut_last "/" path with Some (_, b) => b | None => path end in
  match cut_last "." name with Some (a, _) => a | None => name end.

(** Lines 54-98.  string(TOLOWER) changes letters as the function of utils.h does. *)
Definition both (base : string) : list string := [base ++ ".h"; base ++ ".cpp"].
(** if(list), as CMake has it: the items with semicolons between them are neither empty nor one of the constants for false (the
    command if() and cmIsOff of CMake; names have no "-", so "-NOTFOUND" cannot stand at the end). *)
Definition false_constant (s : string) : bool :=
  existsb (String.eqb (tolower s)) ["0"; "n"; "no"; "off"; "false"; "ignore"] || String.eqb s "NOTFOUND".
Definition holds (l : list string) : bool :=
  match l with [] => false | [x] => negb (false_constant x) | _ => true end.
Definition output_files (multi folder : bool) (file : string) (st : scan) : list string :=
  let package_full_path := slashes (s_package st) in
  if multi then
    (flat_map (fun n => both (package_full_path ++ "/" ++ tolower n)) (s_messages st)
     ++ flat_map (fun n => both (package_full_path ++ "/" ++ tolower n ++ "client")) (s_services st))%list
  else
    let folder_path := if folder then package_full_path ++ "/" else "" in
    ((if holds (s_messages st) || holds (s_enums st) then both (folder_path ++ name_wle file ++ ".qpb") else [])
     ++ (if holds (s_services st) then both (folder_path ++ name_wle file ++ "_grpc.qpb") else []))%list.

(** The arguments of qtprotobuf_generate that matter, QtProtobufGen.cmake 10-14.  An empty namespace: none is given. *)
Record arguments : Type := mkArguments {
  a_multi : bool; a_qml : bool; a_comments : bool; a_folder : bool; a_fieldenum : bool; a_extra : string;
  a_exclude : list string
}.

(** list(JOIN ... ":"), QtProtobufGen.cmake 68. *)
Fixpoint join_colon (l : list string) : string :=
  match l with
  | [] => EmptyString
  | [x] => x
  | x :: l' => x ++ ":" ++ join_colon l'
  end.

(** generation_options_string, QtProtobufGen.cmake 28-71.  [quotes]: the shell leaves the quotes in place. *)
Definition quoted (quotes : bool) (s : string) : string := if quotes then String quote (s ++ String quote "") else s.
Definition generation_options (quotes : bool) (a : arguments) : string :=
  join_colon
    ((if a_multi a then "MULTI" else "SIGNLE")
     :: (if a_qml a then ["QML"] else []) ++ (if a_comments a then ["COMMENTS"] else [])
     ++ (if a_multi a || a_folder a then ["FOLDER"] else []) ++ (if a_fieldenum a then ["FIELDENUM"] else []))
  ++ (if String.eqb (a_extra a) "" then "" else ":EXTRA_NAMESPACE=" ++ quoted quotes (a_extra a)).

(** generated_files, QtProtobufGen.cmake 88-122, relative to the output directory: for schemas given by path and text. *)
Definition generated_files (a : arguments) (files : list (string * string)) : list string :=
  let all := flat_map (fun f => output_files (a_multi a) (a_multi a || a_folder a) (fst f) (scan_text (snd f))) files in
  let with_enums := (if a_multi a then all ++ ["globalenums.h"] else all)%list in
  let kept := filter (fun x => negb (existsb (String.eqb x) (a_exclude a))) with_enums in
  rev (nodup string_dec (rev kept)).

(** * The files that the generator writes *)

(** What it asks about a file: path, package, and the names of messages, enumerations and services of the top level. *)
Record proto_file : Type := mkProtoFile {
  f_path : string; f_package : string; f_messages : list string; f_enums : list string; f_services : list string
}.

(** None: the generator dies of an exception. *)
Definition is_nil {A : Type} (l : list A) : bool := match l with [] => true | _ => false end.
Definition both_of (x : option string) : option (list string) := option_map both x.
Definition single_files (o : options) (f : proto_file) : option (list string) :=
  let messages := if is_nil (f_messages f) && is_nil (f_enums f) then Some [] else both_of (single_file o (f_package f) (f_path f)) in
  let services := if is_nil (f_services f) then Some [] else both_of (single_service_file o (f_package f) (f_path f)) in
  match messages, services with Some a, Some b => Some (a ++ b)%list | _, _ => None end.
Definition multi_files (o : options) (f : proto_file) : list string :=
  (flat_map (fun n => both (multi_file o (f_package f) n)) (f_messages f)
   ++ flat_map (fun n => both (multi_service_file o (f_package f) n)) (f_services f))%list.

(** main.cpp 53-67, singlefilegenerator.cpp 54-255, multifilegenerator.cpp 55-184, 204-235: the files in the order in
    which they are opened.  protoc calls the generator with all files at once. *)
Fixpoint all_single (o : options) (fs : list proto_file) : option (list string) :=
  match fs with
  | [] => Some []
  | f :: fs' =>
      match single_files o f, all_single o fs' with Some a, Some b => Some (a ++ b)%list | _, _ => None end
  end.
Definition written_files (o : options) (fs : list proto_file) : option (list string) :=
  if o_multi o then Some (both "globalenums" ++ flat_map (multi_files o) fs)%list else all_single o fs.

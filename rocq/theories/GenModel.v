(** Model of the code generator, src/generator: the options, the names it computes, the properties of the
    generated classes and the order and nesting of what is printed.

    What protoc hands over (google::protobuf::Descriptor and its relatives) is modelled by the records below.
    Printed text is modelled by a list of printed constructs; the text inside of a class is left out, except
    for its properties and the types that it mentions. *)

From Coq Require Import String Ascii ZArith List Bool Arith.
Import ListNotations.
Open Scope string_scope.

(** * Strings: utils.h *)

(** std::getline until the stream is exhausted, utils.h 55-68.  A delimiter ends a token; what follows the
    last delimiter is a token only if it is not empty. *)
Fixpoint split (d : ascii) (s : string) : list string :=
  match s with
  | EmptyString => []
  | String c s' =>
      if Ascii.eqb c d then EmptyString :: split d s'
      else match split d s' with
           | [] => [String c EmptyString]
           | t :: ts => String c t :: ts
           end
  end.

(** ::toupper and ::tolower of the "C" locale. *)
Definition between (lo hi : nat) (c : ascii) : bool := Nat.leb lo (nat_of_ascii c) && Nat.leb (nat_of_ascii c) hi.
Definition toupper (c : ascii) : ascii :=
  if between 97 122 c then ascii_of_nat (nat_of_ascii c - 32) else c.
Definition tolower_char (c : ascii) : ascii :=
  if between 65 90 c then ascii_of_nat (nat_of_ascii c + 32) else c.

(** utils.h 78-80. *)
Fixpoint tolower (s : string) : string :=
  match s with EmptyString => EmptyString | String c s' => String (tolower_char c) (tolower s') end.

(** utils.h 99-111.  For the empty string the terminating NUL is overwritten with itself. *)
Definition upperCaseName (s : string) : string :=
  match s with EmptyString => EmptyString | String c s' => String (toupper c) s' end.
Definition lowerCaseName (s : string) : string :=
  match s with EmptyString => EmptyString | String c s' => String (tolower_char c) s' end.

(** What stands before and behind the last occurrence of a character: rfind, if there is one. *)
Fixpoint cut_last (d : ascii) (s : string) : option (string * string) :=
  match s with
  | EmptyString => None
  | String c s' =>
      match cut_last d s' with
      | Some (a, b) => Some (String c a, b)
      | None => if Ascii.eqb c d then Some (EmptyString, s') else None
      end
  end.

(** utils.h 82-86.  None: resize(npos) throws std::length_error. *)
Definition removeFileSuffix (fileName : string) : option string :=
  option_map fst (cut_last "." fileName).

(** utils.h 88-96. *)
Definition extractFileBasename (fileName : string) : option string :=
  match removeFileSuffix fileName with
  | None => None
  | Some s => match cut_last "/" s with Some (_, b) => Some b | None => Some s end
  end.

(** * Options: generatoroptions.cpp *)

(** generatoroptions.h 60-67. *)
Record options : Type := mkOptions {
  o_multi : bool; o_qml : bool; o_comments : bool; o_folder : bool; o_fieldenum : bool; o_extra : string
}.

(** generatoroptions.cpp 41-47. *)
Definition no_options : options := mkOptions false false false false false "".

Definition quote : ascii := ascii_of_nat 34.

Fixpoint last_char (s : string) : option ascii :=
  match s with
  | EmptyString => None
  | String c EmptyString => Some c
  | String _ s' => last_char s'
  end.

(** generatoroptions.cpp 74-77. *)
Definition unquote (s : string) : string :=
  match s, last_char s with
  | String c s', Some l =>
      if Nat.ltb 1 (String.length s) && Ascii.eqb c quote && Ascii.eqb l quote
      then substring 1 (String.length s - 2) s else s
  | _, _ => s
  end.

(** generatoroptions.cpp 49-81, one turn of the loop: [env] is the whole string (line 71 splits it, not the
    option). *)
Definition parse_option (env : string) (o : options) (option : string) : options :=
  if String.eqb option "MULTI" then
    mkOptions true (o_qml o) (o_comments o) (o_folder o) (o_fieldenum o) (o_extra o)
  else if String.eqb option "QML" then
    mkOptions (o_multi o) true (o_comments o) (o_folder o) (o_fieldenum o) (o_extra o)
  else if String.eqb option "COMMENTS" then
    mkOptions (o_multi o) (o_qml o) true (o_folder o) (o_fieldenum o) (o_extra o)
  else if String.eqb option "FOLDER" then
    mkOptions (o_multi o) (o_qml o) (o_comments o) true (o_fieldenum o) (o_extra o)
  else if String.eqb option "FIELDENUM" then
    mkOptions (o_multi o) (o_qml o) (o_comments o) (o_folder o) true (o_extra o)
  else if String.prefix "EXTRA_NAMESPACE" option then
    match split "=" env with
    | [_; ns] => mkOptions (o_multi o) (o_qml o) (o_comments o) (o_folder o) (o_fieldenum o) (unquote ns)
    | _ => o
    end
  else o.

(** generatoroptions.cpp 49-81, called once from main.cpp 56-60. *)
Definition parseFromEnv (env : string) : options :=
  fold_left (parse_option env) (split ":" env) no_options.

(** * Descriptors *)

(** FieldDescriptor::Type.  Groups do not exist in proto3. *)
Inductive ftype : Type :=
| TDouble | TFloat | TInt64 | TUInt64 | TInt32 | TFixed64 | TFixed32 | TBool | TString | TMessage | TBytes
| TUInt32 | TEnum | TSFixed32 | TSFixed64 | TSInt32 | TSInt64.

Definition ftype_eqb (a b : ftype) : bool :=
  match a, b with
  | TDouble, TDouble | TFloat, TFloat | TInt64, TInt64 | TUInt64, TUInt64 | TInt32, TInt32
  | TFixed64, TFixed64 | TFixed32, TFixed32 | TBool, TBool | TString, TString | TMessage, TMessage
  | TBytes, TBytes | TUInt32, TUInt32 | TEnum, TEnum | TSFixed32, TSFixed32 | TSFixed64, TSFixed64
  | TSInt32, TSInt32 | TSInt64, TSInt64 => true
  | _, _ => false
  end.

(** A field.  [f_type_of]: message_type(), as the number that names a message; the numbers stand for the
    addresses of descriptors.  [f_value_of]: the message type of the values, for a map with such values.
    [f_qt]: isQtType, generatorcommon.cpp 268-273, that is, the type (for a map: that of the values) is of
    package QtProtobuf and the file is not. *)
Record field : Type := mkField {
  f_name : string; f_number : Z; f_json : string; f_type : ftype;
  f_repeated : bool; f_map : bool; f_type_of : option nat; f_value_of : option nat; f_qt : bool
}.

(** A message type: its number, name, fields and nested types (those of maps included). *)
Inductive descriptor : Type :=
| Descriptor (id : nat) (name : string) (fields : list field) (nested : list descriptor).

Definition d_id (d : descriptor) : nat := let (i, _, _, _) := d in i.
Definition d_name (d : descriptor) : string := let (_, n, _, _) := d in n.
Definition d_fields (d : descriptor) : list field := let (_, _, f, _) := d in f.
Definition d_nested (d : descriptor) : list descriptor := let (_, _, _, l) := d in l.

(** A file: package, messages, enumerations and services (the last two by their names). *)
Record file : Type := mkFile {
  p_package : string; p_messages : list descriptor; p_enums : list string; p_services : list string
}.

(** full_name() of something at the top level of a file. *)
Definition full_name (package name : string) : string :=
  match package with EmptyString => name | _ => package ++ "." ++ name end.

(** full_name() of something inside of a message. *)
Definition nested_name (outer name : string) : string := outer ++ "." ++ name.

(** * Names of properties *)

Definition underscore : ascii := "_"%char.

(** camelcase_name() of google::protobuf::FieldDescriptor (not part of the repository): underscores are
    dropped and the letter behind one becomes a capital; the first letter becomes a small one. *)
Fixpoint camel (up : bool) (s : string) : string :=
  match s with
  | EmptyString => EmptyString
  | String c s' =>
      if Ascii.eqb c underscore then camel true s'
      else String (if up then toupper c else c) (camel false s')
  end.
Definition camelcase_name (s : string) : string := lowerCaseName (camel false s).

(** generatorcommon.cpp 350-360, templates.cpp 30-32. *)
Definition qualifiedName (name : string) : string :=
  if existsb (String.eqb name) ["id"; "property"; "import"] then name ++ "_proto" else name.

(** generatorcommon.cpp 322. *)
Definition property_name (f : field) : string := qualifiedName (lowerCaseName (camelcase_name (f_name f))).

(** generatorcommon.cpp 275-278. *)
Definition isPureMessage (f : field) : bool :=
  ftype_eqb (f_type f) TMessage && negb (f_map f) && negb (f_repeated f) && negb (f_qt f).

(** generatorcommon.cpp 400-407. *)
Definition hasQmlAlias (qml : bool) (f : field) : bool :=
  negb (f_map f) && negb (f_repeated f)
  && (ftype_eqb (f_type f) TInt32 || ftype_eqb (f_type f) TSFixed32 || ftype_eqb (f_type f) TFixed32) && qml.

(** What a property gives access to: the value of the field itself in the type that the serializers know, or
    the view of it made for QML. *)
Inductive access : Type := Stored | Alias | QmlList.

(** A Q_PROPERTY of the class: its name, the position of the field whose getter and setter it uses, and what
    it gives access to. *)
Record property : Type := mkProperty { p_name : string; p_field : nat; p_access : access }.

(** messagedeclarationprinter.cpp 221-238, templates.cpp 88-93: one property for each field. *)
Definition field_property (qml : bool) (i : nat) (f : field) : property :=
  if isPureMessage f then mkProperty (property_name f) i Stored
  else if hasQmlAlias qml f then mkProperty (property_name f ++ "_p") i Stored
  else if f_repeated f && negb (f_map f) then
    if ftype_eqb (f_type f) TMessage then mkProperty (property_name f ++ "Data") i Stored
    else mkProperty (property_name f) i Stored
  else mkProperty (property_name f) i Stored.

(** messagedeclarationprinter.cpp 241-249, templates.cpp 92, 94: the properties for QML follow. *)
Definition extra_property (qml : bool) (i : nat) (f : field) : list property :=
  if ftype_eqb (f_type f) TMessage && f_repeated f && negb (f_map f) && qml
  then [mkProperty (property_name f) i QmlList]
  else if hasQmlAlias qml f then [mkProperty (property_name f) i Alias]
  else [].

(** messagedeclarationprinter.cpp 215-252. *)
Fixpoint field_properties (qml : bool) (i : nat) (fs : list field) : list property :=
  match fs with [] => [] | f :: fs' => field_property qml i f :: field_properties qml (S i) fs' end.
Fixpoint extra_properties (qml : bool) (i : nat) (fs : list field) : list property :=
  match fs with [] => [] | f :: fs' => (extra_property qml i f ++ extra_properties qml (S i) fs')%list end.
Definition class_properties (qml : bool) (fs : list field) : list property :=
  (field_properties qml 0 fs ++ extra_properties qml 0 fs)%list.

(** messagedefinitionprinter.cpp 91-108: the table from field numbers to indices of properties. *)
Fixpoint fields_ordering (i : nat) (fs : list field) : list (Z * nat) :=
  match fs with [] => [] | f :: fs' => (f_number f, i + 1) :: fields_ordering (S i) fs' end.

(** propertyOrdering.find(fieldNumber), qprotobufserializer.cpp 297; the table is a std::unordered_map, of
    several entries with one key the first is kept. *)
Fixpoint find_number (n : Z) (t : list (Z * nat)) : option nat :=
  match t with [] => None | (k, i) :: t' => if Z.eqb k n then Some i else find_number n t' end.

(** QMetaObject::property(index): the first property of every QObject is objectName, those of the class
    follow. *)
Definition meta_property (ps : list property) (index : nat) : option property :=
  match index with O => None | S i => nth_error ps i end.

(** QMetaObject::indexOfProperty as used by QObject::property(name): the properties of the class from the
    last to the first (objectName, which comes after them, is left out). *)
Definition by_name (ps : list property) (name : string) : option property :=
  find (fun p => String.eqb (p_name p) name) (rev ps).

(** The property that deserialization reads and writes for a field number, qprotobufserializer.cpp 297-324. *)
Definition deserialized_property (qml : bool) (fs : list field) (number : Z) : option property :=
  match find_number number (fields_ordering 0 fs) with
  | None => None
  | Some i => meta_property (class_properties qml fs) i
  end.

(** The property whose value serialization writes for a field number, qprotobufserializer.cpp 84-93, likewise
    qprotobufjsonserializer.cpp 180-190: found by its index, then looked up by its name. *)
Definition serialized_property (qml : bool) (fs : list field) (number : Z) : option property :=
  match deserialized_property qml fs number with
  | None => None
  | Some p => by_name (class_properties qml fs) (p_name p)
  end.

(** * What is printed *)

(** Opening and closing of a namespace, a forward declaration of the class of message [id], its declaration
    with the message types that it mentions, its definition, and a class or definition of something else (an
    enumeration or a client). *)
Inductive item : Type :=
| Open (ns : string)
| Close
| Forward (id : nat) (name : string)
| Declare (id : nat) (name : string) (mentions : list nat)
| Define (id : nat) (name : string)
| Other (name : string).

(** generatorcommon.h 52-63. *)
Definition getNamespaces (full : string) : list string := removelast (split "." full).

Definition nested_suffix : string := "_QtProtobufNested".

(** generatorcommon.h 65-72. *)
Fixpoint suffix_from (n : nat) (l : list string) : list string :=
  match l with
  | [] => []
  | s :: l' => match n with O => (s ++ nested_suffix) :: suffix_from O l' | S n' => s :: suffix_from n' l' end
  end.
Definition getNestedNamespaces (package full : string) : list string :=
  suffix_from (List.length (split "." package)) (getNamespaces full).

(** The namespaces of a descriptor with the extra namespace, descriptorprinterbase.h 62-65. *)
Definition namespaces (o : options) (full : string) : list string :=
  match o_extra o with EmptyString => getNamespaces full | e => e :: getNamespaces full end.

(** descriptorprinterbase.h 61-70. *)
Definition printNamespaces (o : options) (full : string) : list item := map Open (namespaces o full).

(** descriptorprinterbase.h 72-82. *)
Definition encloseNamespaces (o : options) (full : string) : list item :=
  let n := List.length (getNamespaces full) in
  repeat Close (match o_extra o with EmptyString => n | _ => S n end).

(** generatorcommon.cpp 443-449: a field that is no map has this type. *)
Definition used_by (fs : list field) (id : nat) : bool :=
  existsb (fun f => negb (f_map f) && match f_type_of f with Some t => Nat.eqb t id | None => false end) fs.

(** generatorcommon.cpp 435-451: is the callback called for this nested type? *)
Definition visited (fs : list field) (n : descriptor) : bool :=
  match fs with [] => true | _ => used_by fs (d_id n) end.

(** generatorcommon.cpp 453-470. *)
Definition hasNestedMessages (d : descriptor) : bool :=
  match d_nested d, d_fields d with
  | _ :: _, [] => true
  | l, fs => existsb (fun n => used_by fs (d_id n)) l
  end.

(** classname, generatorcommon.cpp 110. *)
Definition class_name (d : descriptor) : string := upperCaseName (d_name d).

(** messagedeclarationprinter.cpp 46-59. *)
Fixpoint forward_private (d : descriptor) : list item :=
  match d with
  | Descriptor id name fs nested =>
      ((if hasNestedMessages (Descriptor id name fs nested)
        then Open (upperCaseName name ++ nested_suffix)
             :: flat_map (fun n => if visited fs n then forward_private n else []) nested ++ [Close]
        else [])
       ++ [Forward id (upperCaseName name)])%list
  end.

(** The message types that the declaration of a class mentions: those of its fields
    (messagedeclarationprinter.cpp 120-166, 254-343, 426-439; for a map the type of the values, line 161) and
    its nested types (168-175). *)
Definition field_mentions (f : field) : list nat :=
  if f_qt f then []
  else if f_map f then match f_value_of f with Some t => [t] | None => [] end
  else match f_type_of f with Some t => [t] | None => [] end.
Definition class_mentions (fs : list field) (nested : list descriptor) : list nat :=
  (map d_id (filter (visited fs) nested) ++ flat_map field_mentions fs)%list.

(** messagedeclarationprinter.cpp 76-90. *)
Fixpoint declare_private (d : descriptor) : list item :=
  match d with
  | Descriptor id name fs nested =>
      (Open (upperCaseName name ++ nested_suffix)
       :: flat_map (fun n => if visited fs n then declare_private n else []) nested
       ++ [Close; Declare id (upperCaseName name) (class_mentions fs nested)])%list
  end.

(** messagedefinitionprinter.cpp 40-59. *)
Fixpoint define_private (d : descriptor) : list item :=
  match d with
  | Descriptor id name fs nested =>
      ((if hasNestedMessages (Descriptor id name fs nested)
        then Open (upperCaseName name ++ nested_suffix)
             :: flat_map (fun n => if visited fs n then define_private n else []) nested ++ [Close]
        else [])
       ++ [Define id (upperCaseName name)])%list
  end.

(** messagedeclarationprinter.cpp 61-74, messagedefinitionprinter.cpp 61-66; the meta types, which are
    declared outside of all namespaces, are left out. *)
Definition enclosed (o : options) (full : string) (l : list item) : list item :=
  (printNamespaces o full ++ l ++ encloseNamespaces o full)%list.
Definition printClassForwardDeclaration (o : options) (package : string) (d : descriptor) : list item :=
  enclosed o (full_name package (d_name d)) (forward_private d).
Definition printClassDeclaration (o : options) (package : string) (d : descriptor) : list item :=
  enclosed o (full_name package (d_name d)) (declare_private d).
Definition printClassDefinition (o : options) (package : string) (d : descriptor) : list item :=
  enclosed o (full_name package (d_name d)) (define_private d).

(** EnumDeclarationPrinter::run, enumdeclarationprinter.h 44-49 and .cpp 38-95; EnumDefinitionPrinter::run,
    enumdefinitionprinter.cpp 41-62; ClientDeclarationPrinter::run and ClientDefinitionPrinter::run,
    clientdeclarationprinter.h 53-61, clientdefinitionprinter.h 42-47. *)
Definition printOther (o : options) (package name : string) : list item :=
  enclosed o (full_name package name) [Other (upperCaseName name)].

(** SingleFileGenerator::GenerateMessages, singlefilegenerator.cpp 145-164, header and source. *)
Definition single_header (o : options) (f : file) : list item :=
  (flat_map (printOther o (p_package f)) (p_enums f)
   ++ flat_map (printClassForwardDeclaration o (p_package f)) (p_messages f)
   ++ flat_map (printClassDeclaration o (p_package f)) (p_messages f))%list.
Definition single_source (o : options) (f : file) : list item :=
  (flat_map (printOther o (p_package f)) (p_enums f)
   ++ flat_map (printClassDefinition o (p_package f)) (p_messages f))%list.

(** SingleFileGenerator::GenerateServices, singlefilegenerator.cpp 236-252: header and source alike. *)
Definition single_services (o : options) (f : file) : list item :=
  flat_map (printOther o (p_package f)) (p_services f).

(** ** One file for each message: multifilegenerator.cpp *)

(** What the generator of several files asks about the type of a field: its number, that of the message
    around it and that of the outermost message around it (generatorcommon.h 107-109, generatorcommon.cpp
    492-499), whether isNested (472-490) holds, its package, full name and name. *)
Record reference : Type := mkReference {
  r_id : nat; r_containing : option nat; r_highest : nat; r_nested : bool;
  r_package : string; r_full : string; r_name : string
}.

Section Multi.

(** The message with a number. *)
Variable lookup : nat -> reference.

(** findNestedDependency, multifilegenerator.cpp 186-201, and the loop of 93-99. *)
Definition pure_types (fs : list field) : list nat :=
  flat_map (fun f => if isPureMessage f then match f_type_of f with Some t => [t] | None => [] end else []) fs.
Fixpoint findNestedDependency (d : descriptor) : list nat :=
  match d with
  | Descriptor _ _ fs nested =>
      flat_map (fun n => if visited fs n then (pure_types (d_fields n) ++ findNestedDependency n)%list else [])
        nested
  end.
Definition dependencies (d : descriptor) : list nat := (findNestedDependency d ++ pure_types (d_fields d))%list.

(** multifilegenerator.cpp 121-135 (without the extra namespace). *)
Definition forward_dependency (d : descriptor) (t : nat) : list item :=
  let r := lookup t in
  if match r_containing r with Some c => Nat.eqb c (d_id d) | None => false end then []
  else
    let ns := if r_nested r then getNestedNamespaces (r_package r) (r_full r) else getNamespaces (r_full r) in
    (map Open ns ++ [Forward t (upperCaseName (r_name r))] ++ repeat Close (List.length ns))%list.

(** The messages whose headers are included: GeneratorBase::printInclude for the fields, generatorbase.cpp
    80-131, and multifilegenerator.cpp 101-119.  Each stands for the file of an outermost message; the order
    and the suppression of repetitions are left out. *)
Definition include_of (d : descriptor) (t : nat) : list nat :=
  let r := lookup t in
  if negb (r_nested r) then [t]
  else if match r_containing r with Some c => Nat.eqb c (d_id d) | None => false end then []
  else if Nat.eqb (r_highest r) (d_id d) then [] else [r_highest r].
Definition field_includes (d : descriptor) (f : field) : list nat :=
  if f_qt f then []
  else if f_map f then match f_value_of f with Some t => include_of d t | None => [] end
  else match f_type_of f with Some t => include_of d t | None => [] end.
Definition multi_includes (d : descriptor) : list nat :=
  (flat_map (field_includes d) (d_fields d) ++ map (fun t => r_highest (lookup t)) (dependencies d))%list.

(** The header and the source for a message, multifilegenerator.cpp 65-149, behind the includes. *)
Definition multi_header (o : options) (package : string) (d : descriptor) : list item :=
  (flat_map (forward_dependency d) (dependencies d) ++ printClassDeclaration o package d)%list.
Definition multi_source (o : options) (package : string) (d : descriptor) : list item :=
  printClassDefinition o package d.

End Multi.

(** * Names of files *)

(** generatorbase.cpp 53-67. *)
Definition generateBaseName (o : options) (package name : string) : string :=
  if o_folder o then
    fold_left (fun acc p => acc ++ p ++ "/") (split "." package) "" ++ name
  else name.

(** singlefilegenerator.cpp 79-81, 182-184, templates.cpp 420-421: without ".h" or ".cpp".  None: the
    generator dies of an exception. *)
Definition single_file (o : options) (package file : string) : option string :=
  option_map (fun b => generateBaseName o package b ++ ".qpb") (extractFileBasename file).
Definition single_service_file (o : options) (package file : string) : option string :=
  option_map (fun b => generateBaseName o package b ++ "_grpc" ++ ".qpb") (extractFileBasename file).

(** The file included for an imported one, singlefilegenerator.cpp 120-134. *)
Definition single_include (dependency : string) : option string :=
  option_map (fun b => b ++ ".qpb") (removeFileSuffix dependency).

(** multifilegenerator.cpp 66-71, 153-158: the files for a message and for a service, without ".h" or
    ".cpp". *)
Definition multi_file (o : options) (package name : string) : string :=
  generateBaseName o package (tolower name).
Definition multi_service_file (o : options) (package name : string) : string :=
  generateBaseName o package (tolower name) ++ "client".

(** What the sources include as their own header: multifilegenerator.cpp 140-142 and 170-172. *)
Definition multi_own_include (name : string) : string := tolower name.
Definition multi_service_own_include (name : string) : string := tolower name.

(** * References to types *)

(** The name under which the class of a message is mentioned by the fields of other classes as scope_type,
    for a scope of another package: generatorcommon.cpp 95-112. *)
Definition mentioned_path (o : options) (package full name : string) (nested : bool) : list string :=
  ((if nested then getNestedNamespaces package full else namespaces o full) ++ [upperCaseName name])%list.

(** The name of a parameter or result of a remote procedure: generatorcommon.cpp 411-417. *)
Definition method_path (full : string) : list string := split "." full.

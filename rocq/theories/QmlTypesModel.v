(** Model of the registration of generated types with QML: the modules and names, and what a name in a QML document
    then gives. *)

From Coq Require Import String Ascii ZArith List Bool Arith.
From Verif Require Import GenModel GenTypesModel GenLookupModel.
Import ListNotations.
Open Scope string_scope.

(** * The generator *)

(** getNamespacesString with the separator ".", generatorcommon.cpp 34-45: the separator is put behind each part, and
    the last one is cut off. *)
Fixpoint with_dots (l : list string) : string :=
  match l with [] => "" | n :: l' => n ++ "." ++ with_dots l' end.
Definition dotted_string (l : list string) : string :=
  let s := with_dots l in if String.eqb s "" then s else String.substring 0 (String.length s - 1) s.

(** qml_package, generatorcommon.cpp 99-109 for messages, 140-147 for enumerations. *)
Definition qml_package (o : options) (full : string) : string := dotted_string (namespaces o full).

(** What is registered: the class of a message, or the class around an enumeration of the top level (its name with
    "Gadget" behind it). *)
Inductive qml_type : Type := QmlMessage (m : message) | QmlEnum (e : enum).

(** A call of qmlRegisterType or qmlRegisterUncreatableType, with the version 1.0. *)
Record registration : Type := mkRegistration { r_uri : string; r_element : string; r_type : qml_type }.

(** The classes that are defined for a message, as in [classes], with the names of the messages around each of them,
    messagedefinitionprinter.cpp 40-59. *)
Fixpoint placed_classes (around : list string) (m : message) : list (list string * message) :=
  match m with
  | Message id name fs es nested =>
      flat_map (fun n => if goes_into fs n then placed_classes (around ++ [name]) n else []) nested
      ++ [(around, Message id name fs es nested)]
  end%list.

(** MessageDefinitionPrinter::printRegisterBody, messagedefinitionprinter.cpp 68-89, with templates.cpp 377: what
    registerTypes() of the class of a message registers with QML. *)
Definition qml_register_message (o : options) (package : string) (am : list string * message) : list registration :=
  if o_qml o
  then [mkRegistration (qml_package o (message_full package (fst am) (g_name (snd am))))
                       (upperCaseName (g_name (snd am))) (QmlMessage (snd am))]
  else [].

(** EnumDefinitionPrinter::printRegisterBody, enumdefinitionprinter.cpp 47-62, with templates.cpp 378.  It is used for
    the enumerations of the top level, singlefilegenerator.cpp 145-150, multifilegenerator.cpp 222-231. *)
Definition qml_register_enum (o : options) (package : string) (e : enum) : list registration :=
  if o_qml o
  then [mkRegistration (qml_package o (full_name package (e_name e))) (upperCaseName (e_name e)) (QmlEnum e)]
  else [].

(** All registration functions of a file. *)
Definition qml_register (o : options) (p : proto) : list registration :=
  (flat_map (qml_register_enum o (o_package p)) (o_enums p)
   ++ flat_map (fun m => flat_map (qml_register_message o (o_package p)) (placed_classes [] m)) (o_messages p))%list.

(** The argument of the template qmlRegisterType: scope_type, where no scope is given, messagedefinitionprinter.cpp
    33-38 and 75. *)
Definition qml_class (o : options) (r : message_ref) : string := message_scope_type o r None.

(** * QML

    Not part of the repository: what Qt makes of registrations. *)

(** "import uri 1.0" and a name: of two types registered with one name, one module and one version, the first one is
    taken. *)
Definition resolve (l : list registration) (uri element : string) : option qml_type :=
  option_map r_type (find (fun r => String.eqb (r_uri r) uri && String.eqb (r_element r) element) l).

(** The enumerators in the meta object of a type: of the enumerations with Q_ENUM, messagedeclarationprinter.cpp 359-376
    and enumdeclarationprinter.cpp 51-73.  The constants for field numbers have no Q_ENUM, 446-457. *)
Definition meta_enumerators (t : qml_type) : list (string * Z) :=
  match t with QmlMessage m => flat_map enumerators (g_enums m) | QmlEnum e => enumerators e end.

(** "Element.value" in a document with that import: names of enumerators start with a capital letter, others are looked
    for among attached properties, of which there are none. *)
Definition is_capital (c : ascii) : bool := between 65 90 c.
Definition qml_value (l : list registration) (uri element value : string) : option Z :=
  match resolve l uri element, value with
  | Some t, String c _ =>
      if is_capital c then option_map snd (find (fun v => String.eqb (fst v) value) (meta_enumerators t)) else None
  | _, _ => None
  end.

(** Model of the code generator, src/generator, third part: what is inside of the class of a message, as
    MessageDeclarationPrinter declares it in the header and MessageDefinitionPrinter defines it in the source.

    The text of a declaration is modelled by its name and the types in it, the body of a function by what it does with
    the members of the object.  Types are named by the shape of the field they belong to; how they are written is
    the subject of GenTypesModel. *)

From Coq Require Import String Ascii ZArith List Bool Arith.
From Verif Require Import GenModel GenTypesModel.
Import ListNotations.
Open Scope string_scope.

(** * Declarations and definitions *)

(** Types: the value of a field of some shape (a message, a list, a number, ...), the pointer to a message, the plain
    number for QML (qml_alias_type, generatorcommon.cpp 228-240), QQmlListProperty, any other type by its text. *)
Inductive vtype : Type := Val (s : shape) | Ptr (m : nat) | Plain (t : ftype) | QmlListOf (e : element) | Text (name : string).

(** A member function: name, result (None for void), types of the parameters, whether it is const or static. *)
Record func : Type := mkFunc { fn_name : string; fn_result : option vtype; fn_params : list vtype; fn_const : bool; fn_static : bool }.

(** What the body of a function does with the member variable [v]: returns it; returns the object it points to, created
    if there is none (QProtobufLazyMessagePointer); returns the pointer to that object; wraps it for QML; stores the
    parameter if it is another value and then emits the signal; the same for the object that is pointed to; replaces the
    pointer by the parameter if it is another one and then emits the signal; anything else. *)
Inductive body : Type :=
| Returns (v : string) | ReturnsObject (v : string) | ReturnsPointer (v : string) | ReturnsQmlList (v : string)
| Stores (v signal : string) | StoresObject (v signal : string) | StoresPointer (v signal : string)
| Registers | Serializes.

(** Members without a name of their own: the constructor for the first [n] fields, copy and move constructor, destructor,
    assignment, move assignment, comparison; the constructor and the conversion that Timestamp has in addition. *)
Inductive special : Type :=
| Constructor (n : nat) | CopyConstructor | MoveConstructor | Destructor | CopyAssignment | MoveAssignment | Equal | NotEqual
| FromDateTime | ToDateTime.

(** What is declared in the class: a function with its body, or without one; a signal; a function and a static variable
    that are defined in the code that moc writes; a variable, a static variable; an alias of a type; a class; an
    enumeration; an enumerator. *)
Inductive declaration : Type :=
| DInline (f : func) (b : body) | DFunction (f : func) | DSignal (name : string) | DMoc (f : func) | DMocStatic (name : string)
| DVariable (name : string) | DStatic (name : string) | DAlias (name : string) | DClass (name : string)
| DEnumeration (name : string) | DEnumerator (name : string) | DSpecial (s : special).

(** What is defined in the source. *)
Inductive definition : Type := FFunction (f : func) (b : body) | FStatic (name : string) | FSpecial (s : special).

(** A Q_PROPERTY: its type and name and the members it names. *)
Record qproperty : Type := mkQProperty { q_type : vtype; q_name : string; q_read : string; q_write : option string; q_notify : string }.

(** * Names of a field, generatorcommon.cpp 322-326, in the templates *)

Definition pname (f : mfield) : string := cpp_name (m_name f).
Definition setter_name (f : mfield) : string := "set" ++ upperCaseName (pname f).
Definition signal_name (f : mfield) : string := pname f ++ "Changed".
Definition variable_name (f : mfield) : string := "m_" ++ pname f.

(** * Conditions of the printers *)

(** type() == TYPE_MESSAGE; the types of maps are messages, too. *)
Definition message_type (s : shape) : bool :=
  match s with One (Mess _) | One (Qt _) | Many (Mess _) | Many (Qt _) | Assoc _ _ => true | _ => false end.
(** is_repeated(), which maps are as well. *)
Definition is_repeated (s : shape) : bool := match s with One _ => false | _ => true end.
Definition is_map (s : shape) : bool := match s with Assoc _ _ => true | _ => false end.
(** hasQmlAlias, generatorcommon.cpp 400-407. *)
Definition qml_alias (qml : bool) (s : shape) : bool :=
  qml && match s with One (Simple TInt32) | One (Simple TSFixed32) | One (Simple TFixed32) => true | _ => false end.
(** A string or bytes, in a switch over type(). *)
Definition text_type (s : shape) : bool :=
  match s with One (Simple TString) | One (Simple TBytes) | Many (Simple TString) | Many (Simple TBytes) => true | _ => false end.
Definition element_of (s : shape) : element := match s with One e | Many e => e | Assoc _ v => v end.
Definition simple_of (s : shape) : ftype := match s with One (Simple t) => t | _ => TMessage end.
Definition message_of (s : shape) : nat := match s with One (Mess m) => m | _ => 0 end.

(** * Functions of the templates *)

(** GetterTemplate and GetterMessageDeclarationTemplate, templates.cpp 184-191. *)
Definition getter (f : mfield) : func := mkFunc (pname f) (Some (Val (m_shape f))) [] true false.
(** GetterContainerExtraTemplate, templates.cpp 197-199. *)
Definition container_getter (f : mfield) : func := mkFunc (pname f) (Some (Val (m_shape f))) [] false false.
(** GetterQmlListDeclarationTemplate, templates.cpp 201. *)
Definition qml_list_getter (f : mfield) : func := mkFunc (pname f ++ "_l") (Some (QmlListOf (element_of (m_shape f)))) [] false false.
(** SetterTemplate and SetterTemplateDeclaration..., templates.cpp 214, 222, 230: all have one signature. *)
Definition setter (f : mfield) : func := mkFunc (setter_name f) None [Val (m_shape f)] false false.
(** GetterPrivateMessageDeclarationTemplate, SetterPrivateTemplateDeclarationMessageType, templates.cpp 179, 206. *)
Definition pointer_getter (f : mfield) : func := mkFunc (pname f ++ "_p") (Some (Ptr (message_of (m_shape f)))) [] true false.
Definition pointer_setter (f : mfield) : func := mkFunc (setter_name f ++ "_p") None [Ptr (message_of (m_shape f))] false false.
(** NonScriptableGetterTemplate, NonScriptableSetterTemplate, templates.cpp 193-195, 236-241. *)
Definition plain_getter (f : mfield) : func := mkFunc (pname f ++ "_p") (Some (Plain (simple_of (m_shape f)))) [] true false.
Definition plain_setter (f : mfield) : func := mkFunc (setter_name f ++ "_p") None [Plain (simple_of (m_shape f))] false false.
(** ManualRegistrationDeclaration, templates.cpp 59. *)
Definition register_types : func := mkFunc "registerTypes" None [] false true.

(** * The header *)

(** MessageDeclarationPrinter::printProperties, messagedeclarationprinter.cpp 215-252, templates.cpp 88-94.  The property of
    a map has the type that property_type stands for, an alias (see printMaps). *)
Definition property_line (qml : bool) (f : mfield) : qproperty :=
  let s := m_shape f in let n := pname f in
  if pure_message s then mkQProperty (Ptr (message_of s)) n (n ++ "_p") (Some (setter_name f ++ "_p")) (signal_name f)
  else if qml_alias qml s then mkQProperty (Val s) (n ++ "_p") n (Some (setter_name f)) (signal_name f)
  else if is_repeated s && negb (is_map s) && message_type s
       then mkQProperty (Val s) (n ++ "Data") n (Some (setter_name f)) (signal_name f)
  else mkQProperty (Val s) n n (Some (setter_name f)) (signal_name f).

Definition extra_property_line (qml : bool) (f : mfield) : list qproperty :=
  let s := m_shape f in let n := pname f in
  if message_type s && is_repeated s && negb (is_map s) && qml
  then [mkQProperty (QmlListOf (element_of s)) n (n ++ "_l") None (signal_name f)]
  else if qml_alias qml s then [mkQProperty (Plain (simple_of s)) n (n ++ "_p") (Some (setter_name f ++ "_p")) (signal_name f)]
  else [].

Definition properties (qml : bool) (m : message) : list qproperty :=
  (map (property_line qml) (g_fields m) ++ flat_map (extra_property_line qml) (g_fields m))%list.

(** Q_OBJECT of Qt 5, with Q_PROTOBUF_OBJECT and Q_DECLARE_PROTOBUF_SERIALIZERS, qprotobufobject.h 43-59:
    ProtoClassDeclarationBeginTemplate, templates.cpp 82-86. *)
Definition macros : list declaration :=
  [DMocStatic "staticMetaObject"; DMoc (mkFunc "metaObject" (Some (Text "const QMetaObject *")) [] true false);
   DMoc (mkFunc "qt_metacast" (Some (Text "void *")) [Text "const char *"] false false);
   DMoc (mkFunc "qt_metacall" (Some (Text "int")) [Text "QMetaObject::Call"; Text "int"; Text "void **"] false false);
   DMoc (mkFunc "tr" (Some (Text "QString")) [Text "const char *"; Text "const char *"; Text "int"] false true);
   DMoc (mkFunc "trUtf8" (Some (Text "QString")) [Text "const char *"; Text "const char *"; Text "int"] false true);
   DMoc (mkFunc "qt_static_metacall" None [Text "QObject *"; Text "QMetaObject::Call"; Text "int"; Text "void **"] false true);
   DClass "QPrivateSignal";
   DStatic "propertyOrdering"; DStatic "protobufMetaObject";
   DInline (mkFunc "serialize" (Some (Text "QByteArray")) [Text "QAbstractProtobufSerializer *"] true false) Serializes;
   DInline (mkFunc "deserialize" None [Text "QAbstractProtobufSerializer *"; Text "const QByteArray &"] false false) Serializes].

(** printQEnums and printFieldEnum, messagedeclarationprinter.cpp 345-381, 446-457, templates.cpp 74, 107-108. *)
Definition repeated_suffix : string := "Repeated".
Definition list_name (n : string) : string := n ++ repeated_suffix.
Definition enum_class (e : enum) : string := upperCaseName (e_name e).
Definition enumerator_declarations (l : list (string * Z)) : list declaration := map (fun v => DEnumerator (fst v)) l.
Definition enum_declarations (field_numbers : bool) (m : message) : list declaration :=
  ((if field_numbers then DEnumeration "QtProtobufFieldEnum" :: enumerator_declarations (field_enum (g_fields m)) else [])
   ++ flat_map (fun e => DEnumeration (enum_class e) :: enumerator_declarations (enumerators e)) (g_enums m)
   ++ map (fun e => DAlias (list_name (enum_class e))) (g_enums m))%list.

(** printNested, messagedeclarationprinter.cpp 168-175, templates.cpp 71-72. *)
Definition message_class (m : message) : string := upperCaseName (g_name m).
Definition nested_aliases (m : message) : list declaration :=
  flat_map (fun n => if goes_into (g_fields m) n then [DAlias (message_class n); DAlias (list_name (message_class n))] else []) (g_nested m).

(** The name that protoc gives to the type of a map (not part of the repository). *)
Definition entry_name (f : mfield) : string := camel true (m_name f) ++ "Entry".
(** printMaps, messagedeclarationprinter.cpp 154-166. *)
Definition map_aliases (m : message) : list declaration :=
  flat_map (fun f => if is_map (m_shape f) then [DAlias (upperCaseName (entry_name f))] else []) (g_fields m).

(** printConstructors, printDestructor, printCopyFunctionality, printMoveSemantic, printComparisonOperators,
    messagedeclarationprinter.cpp 92-135, 441-444. *)
Definition timestamp_name : string := "google.protobuf.Timestamp".
Definition constructors_of (full : string) (m : message) : list special :=
  (map Constructor (seq 0 (S (List.length (g_fields m))))
   ++ (if String.eqb full timestamp_name then [FromDateTime; ToDateTime] else []))%list.
Definition special_declarations (full : string) (m : message) : list declaration :=
  map DSpecial (constructors_of full m
    ++ [Destructor; CopyConstructor; CopyAssignment; MoveConstructor; MoveAssignment; Equal; NotEqual])%list.

(** printGetters, messagedeclarationprinter.cpp 254-275. *)
Definition getter_declarations (qml : bool) (f : mfield) : list declaration :=
  let s := m_shape f in
  ((if pure_message s then [DFunction (getter f)] else [DInline (getter f) (Returns (variable_name f))])
   ++ (if is_repeated s
       then DInline (container_getter f) (Returns (variable_name f))
            :: (if message_type s && negb (is_map s) && qml then [DFunction (qml_list_getter f)] else [])
       else []))%list.

(** printSetters, messagedeclarationprinter.cpp 277-299. *)
Definition setter_declarations (f : mfield) : list declaration :=
  let s := m_shape f in
  if message_type s || text_type s then [DFunction (setter f)]
  else [DInline (setter f) (Stores (variable_name f) (signal_name f))].

(** printSignals, printPrivateGetters, printPrivateSetters, printPrivateMethods, printClassMembers,
    messagedeclarationprinter.cpp 301-343, 426-439. *)
Definition signal_declarations (f : mfield) : list declaration := [DSignal (signal_name f)].
Definition private_getter_declarations (f : mfield) : list declaration :=
  if pure_message (m_shape f) then [DFunction (pointer_getter f)] else [].
Definition private_setter_declarations (f : mfield) : list declaration :=
  if pure_message (m_shape f) then [DFunction (pointer_setter f)] else [].
Definition private_method_declarations (qml : bool) (f : mfield) : list declaration :=
  if qml_alias qml (m_shape f)
  then [DInline (plain_getter f) (Returns (variable_name f)); DInline (plain_setter f) (Stores (variable_name f) (signal_name f))] else [].
Definition variable_declarations (f : mfield) : list declaration := [DVariable (variable_name f)].

(** printClassBody, messagedeclarationprinter.cpp 383-419. *)
Definition declarations (qml field_numbers : bool) (full : string) (m : message) : list declaration :=
  (macros ++ enum_declarations field_numbers m ++ nested_aliases m ++ map_aliases m ++ special_declarations full m
   ++ flat_map (getter_declarations qml) (g_fields m) ++ flat_map setter_declarations (g_fields m) ++ [DFunction register_types]
   ++ flat_map signal_declarations (g_fields m) ++ flat_map private_getter_declarations (g_fields m)
   ++ flat_map private_setter_declarations (g_fields m) ++ flat_map (private_method_declarations qml) (g_fields m)
   ++ flat_map variable_declarations (g_fields m))%list.

(** * The source *)

(** printConstructors, printCopyFunctionality, printMoveSemantic, printComparisonOperators, printDestructor,
    messagedefinitionprinter.cpp 110-147, 200-353, 390-395, in the order of 50-58; what they do is the subject of GenTypesModel
    and ObjectModel. *)
Definition special_definitions (full : string) (m : message) : list definition :=
  map FSpecial (constructors_of full m
    ++ [CopyConstructor; CopyAssignment; MoveConstructor; MoveAssignment; Equal; NotEqual])%list.

(** printGetters, messagedefinitionprinter.cpp 355-368, templates.cpp 180-187, 202-204: getters. *)
Definition getter_definitions (qml : bool) (f : mfield) : list definition :=
  let s := m_shape f in
  ((if pure_message s
    then [FFunction (pointer_getter f) (ReturnsPointer (variable_name f)); FFunction (getter f) (ReturnsObject (variable_name f))] else [])
   ++ (if is_repeated s && message_type s && negb (is_map s) && match element_of s with Qt _ => false | _ => true end && qml
       then [FFunction (qml_list_getter f) (ReturnsQmlList (variable_name f))] else []))%list.
(** The same function, 370-388, templates.cpp 207-228: setters. *)
Definition setter_definitions (f : mfield) : list definition :=
  let s := m_shape f in
  if message_type s then
    if pure_message s
    then [FFunction (pointer_setter f) (StoresPointer (variable_name f) (signal_name f));
          FFunction (setter f) (StoresObject (variable_name f) (signal_name f))]
    else [FFunction (setter f) (Stores (variable_name f) (signal_name f))]
  else if text_type s then [FFunction (setter f) (Stores (variable_name f) (signal_name f))]
  else [].

(** printClassDefinitionPrivate without the nested classes, messagedefinitionprinter.cpp 50-58. *)
Definition definitions (qml : bool) (full : string) (m : message) : list definition :=
  ([FSpecial Destructor; FStatic "protobufMetaObject"; FStatic "propertyOrdering"; FFunction register_types Registers]
   ++ special_definitions full m ++ flat_map (getter_definitions qml) (g_fields m) ++ flat_map setter_definitions (g_fields m))%list.

(** * Parameters of constructors *)

(** printConstructor, messagedeclarationprinter.cpp 132-152, messagedefinitionprinter.cpp 131-147, templates.cpp 96-100, 111-112:
    their names. *)
Definition constructor_parameters (count : nat) (m : message) : list string :=
  (map pname (firstn count (g_fields m)) ++ ["parent"])%list.

(** * Meta types *)

(** printMetaTypesDeclaration, messagedeclarationprinter.cpp 182-213, for one class: the types that Q_DECLARE_METATYPE is
    printed for.  Those of maps, which have guards, are left out. *)
Inductive meta : Type := MClass (m : nat) | MList (m : nat) | MQmlList (m : nat) | MEnum (e : nat) | MEnumList (e : nat).
Definition field_meta_types (es : list enum) (f : mfield) : list meta :=
  match m_shape f with
  | One (Enu e) | Many (Enu e) => if isLocalEnum e es then [MEnum e; MEnumList e] else []
  | _ => []
  end.
Definition own_meta_types (qml : bool) (m : message) : list meta :=
  ([MClass (g_id m); MList (g_id m)] ++ (if qml then [MQmlList (g_id m)] else [])
   ++ flat_map (field_meta_types (g_enums m)) (g_fields m))%list.
(** With those of the classes inside. *)
Fixpoint meta_types (qml : bool) (m : message) : list meta :=
  match m with
  | Message id name fs es nested =>
      (own_meta_types qml (Message id name fs es nested)
       ++ flat_map (fun n => if goes_into fs n then meta_types qml n else []) nested)%list
  end.

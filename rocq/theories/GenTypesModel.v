(** Model of the code generator, src/generator, second part: the types of properties and their registration,
    enumerations, constructors, the includes of headers in the mode with several files, and clients.

    The descriptors of protoc are modelled once more, with what these parts ask about. *)

From Coq Require Import String Ascii ZArith List Bool Arith.
From Verif Require Import GenModel.
Import ListNotations.
Open Scope string_scope.

(** * Descriptors *)

(** An enumeration: a number that stands for its address, its name and its values. *)
Record enum : Type := mkEnum { e_id : nat; e_name : string; e_values : list (string * Z) }.

(** The type of a field, or of the values of a map: a type of FieldDescriptor::Type (other than TYPE_MESSAGE and
    TYPE_ENUM), a message or an enumeration by its number, or a message of package QtProtobuf used from
    another package (isQtType, generatorcommon.cpp 268-273), which stands for the Qt type of this name. *)
Inductive element : Type := Simple (t : ftype) | Mess (m : nat) | Enu (e : nat) | Qt (name : string).

(** A field that is neither repeated nor a map, is repeated, is a map. *)
Inductive shape : Type := One (e : element) | Many (e : element) | Assoc (k : ftype) (v : element).

Record mfield : Type := mkMField { m_name : string; m_number : Z; m_shape : shape }.

(** A message: its number, name, fields, enumerations and messages declared in it.  The types that protoc makes
    for maps are left out. *)
Inductive message : Type :=
| Message (id : nat) (name : string) (fields : list mfield) (enums : list enum) (nested : list message).

Definition g_id (m : message) : nat := let (i, _, _, _, _) := m in i.
Definition g_name (m : message) : string := let (_, n, _, _, _) := m in n.
Definition g_fields (m : message) : list mfield := let (_, _, f, _, _) := m in f.
Definition g_enums (m : message) : list enum := let (_, _, _, e, _) := m in e.
Definition g_nested (m : message) : list message := let (_, _, _, _, l) := m in l.

(** A .proto file. *)
Record proto : Type := mkProto { o_package : string; o_messages : list message; o_enums : list enum }.

(** * Classes that are written *)

(** generatorcommon.cpp 435-451: is a nested message visited? *)
Definition has_type (m : nat) (f : mfield) : bool :=
  match m_shape f with One (Mess t) | Many (Mess t) => Nat.eqb t m | _ => false end.
Definition goes_into (fs : list mfield) (n : message) : bool :=
  match fs with [] => true | _ => existsb (has_type (g_id n)) fs end.

(** MessageDefinitionPrinter::printClassDefinitionPrivate, messagedefinitionprinter.cpp 40-59: the classes defined
    for a message. *)
Fixpoint classes (m : message) : list message :=
  match m with
  | Message id name fs es nested =>
      flat_map (fun n => if goes_into fs n then classes n else []) nested ++ [Message id name fs es nested]
  end%list.

(** * C++ types of properties *)

(** The C++ types a QVariant can hold here: a number, QString or QByteArray; a list of them; pointer to the class of
    a message; QList<QSharedPointer<...>>; an enumeration; a list of it; QMap<K, V>; QMap<K, QSharedPointer<V>>; a
    Qt type; a name for which there is no type. *)
Inductive ctype : Type :=
| CSimple (t : ftype) | CSimples (t : ftype)
| CPointer (m : nat) | CPointers (m : nat)
| CEnum (e : nat) | CEnums (e : nat)
| CMap (k : ftype) (v : element) | CSharedMap (k : ftype) (v : element)
| CQt (name : string)
| CNone (name : string).

(** TypeReflection, templates.cpp 402-418. *)
Definition TypeReflection (t : ftype) : string :=
  match t with
  | TDouble => "double" | TFloat => "float" | TInt64 => "int64" | TUInt64 => "uint64" | TInt32 => "int32"
  | TFixed64 => "fixed64" | TFixed32 => "fixed32" | TBool => "bool" | TString => "QString" | TBytes => "QByteArray"
  | TUInt32 => "uint32" | TSFixed32 => "sfixed32" | TSFixed64 => "sfixed64" | TSInt32 => "sint32" | TSInt64 => "sint64"
  | TMessage | TEnum => ""
  end.

(** produceSimpleTypeMap, generatorcommon.cpp 188-225: full_type and full_list_type. *)
Definition simple_full_type (t : ftype) : string :=
  match t with
  | TString | TBytes | TBool | TFloat | TDouble => TypeReflection t
  | _ => "QtProtobuf::" ++ TypeReflection t
  end.
Definition simple_full_list_type (t : ftype) : string :=
  let listName := match t with
                  | TFloat | TDouble | TBool => upperCaseName (TypeReflection t) ++ "List"
                  | _ => TypeReflection t ++ "List"
                  end in
  match t with TString | TBytes => listName | _ => "QtProtobuf::" ++ listName end.

(** The types of these names: built-in ones, those of Qt, and those of qtprotobuftypes.h 101-228. *)
Definition library_types : list (string * ctype) :=
  [ ("double", CSimple TDouble); ("float", CSimple TFloat); ("bool", CSimple TBool);
    ("QString", CSimple TString); ("QByteArray", CSimple TBytes);
    ("QStringList", CSimples TString); ("QByteArrayList", CSimples TBytes);
    ("QtProtobuf::int32", CSimple TInt32); ("QtProtobuf::int64", CSimple TInt64);
    ("QtProtobuf::uint32", CSimple TUInt32); ("QtProtobuf::uint64", CSimple TUInt64);
    ("QtProtobuf::sint32", CSimple TSInt32); ("QtProtobuf::sint64", CSimple TSInt64);
    ("QtProtobuf::fixed32", CSimple TFixed32); ("QtProtobuf::fixed64", CSimple TFixed64);
    ("QtProtobuf::sfixed32", CSimple TSFixed32); ("QtProtobuf::sfixed64", CSimple TSFixed64);
    ("QtProtobuf::int32List", CSimples TInt32); ("QtProtobuf::int64List", CSimples TInt64);
    ("QtProtobuf::uint32List", CSimples TUInt32); ("QtProtobuf::uint64List", CSimples TUInt64);
    ("QtProtobuf::sint32List", CSimples TSInt32); ("QtProtobuf::sint64List", CSimples TSInt64);
    ("QtProtobuf::fixed32List", CSimples TFixed32); ("QtProtobuf::fixed64List", CSimples TFixed64);
    ("QtProtobuf::sfixed32List", CSimples TSFixed32); ("QtProtobuf::sfixed64List", CSimples TSFixed64);
    ("QtProtobuf::FloatList", CSimples TFloat); ("QtProtobuf::DoubleList", CSimples TDouble) ].

Definition named (name : string) : ctype :=
  match find (fun p => String.eqb (fst p) name) library_types with Some (_, t) => t | None => CNone name end.

(** The type of the property of a field, templates.cpp 88-93 with the type maps of generatorcommon.cpp 63-266 and the
    alias for maps of messagedeclarationprinter.cpp 154-166, templates.cpp 69-70.  Names of messages and
    enumerations are taken to be right here.  A list of a Qt type is called QList<Repeated>,
    generatorcommon.cpp 74. *)
Definition property_type (s : shape) : ctype :=
  match s with
  | One (Simple t) => named (simple_full_type t)
  | One (Mess m) => CPointer m
  | One (Enu e) => CEnum e
  | One (Qt q) => CQt q
  | Many (Simple t) => named (simple_full_list_type t)
  | Many (Mess m) => CPointers m
  | Many (Enu e) => CEnums e
  | Many (Qt _) => CNone "QList<Repeated>"
  | Assoc k (Mess m) => CSharedMap k (Mess m)
  | Assoc k (Qt q) => CSharedMap k (Qt q)
  | Assoc k v => CMap k v
  end.

(** The type of QVariant::fromValue<V> or fromValue<V *> for a value of a map, qabstractprotobufserializer_p.h
    113-145, 211-252. *)
Definition value_type (v : element) : ctype :=
  match v with
  | Simple t => named (simple_full_type t)
  | Mess m => CPointer m
  | Enu e => CEnum e
  | Qt q => CQt q
  end.

(** * Registration *)

(** The pair of functions that serializes a type and reads it back. *)
Inductive handler : Type :=
| HSimple (t : ftype) | HSimples (t : ftype)
| HObject (m : nat) | HList (m : nat)
| HEnum (e : nat) | HEnumList (e : nat)
| HMap (k : ftype) (v : element)
| HQt (name : string).

(** qRegisterProtobufEnumType, qabstractprotobufserializer.h 326-333. *)
Definition qRegisterProtobufEnumType (e : nat) : list (ctype * handler) := [(CEnum e, HEnum e); (CEnums e, HEnumList e)].

(** qRegisterProtobufMapType, qabstractprotobufserializer.h 300-318: classes of messages are derived from QObject,
    Qt's own types used here are not. *)
Definition qRegisterProtobufMapType (k : ftype) (v : element) : list (ctype * handler) :=
  match v with
  | Mess m => [(CSharedMap k (Mess m), HMap k (Mess m))]
  | _ => [(CMap k v, HMap k v)]
  end.

(** isLocalEnum, generatorcommon.cpp 362-376, with numbers in place of full names. *)
Definition isLocalEnum (e : nat) (es : list enum) : bool := existsb (fun x => Nat.eqb (e_id x) e) es.

(** MessageDefinitionPrinter::printRegisterBody, messagedefinitionprinter.cpp 68-89, templates.cpp 275-281: what
    registerTypes() of the class registers.  Registration with QMetaType and QML is left out. *)
Definition register_field (es : list enum) (f : mfield) : list (ctype * handler) :=
  match m_shape f with
  | One (Enu e) | Many (Enu e) => if isLocalEnum e es then qRegisterProtobufEnumType e else []
  | Assoc k v => qRegisterProtobufMapType k v
  | _ => []
  end.
Definition registerTypes (m : message) : list (ctype * handler) := flat_map (register_field (g_enums m)) (g_fields m).

(** qRegisterProtobufType, qabstractprotobufserializer.h 286-293, which ProtoTypeRegistrar puts into the list of
    registration functions, messagedefinitionprinter.cpp 390-395, templates.cpp 375. *)
Definition qRegisterProtobufType (m : message) : list (ctype * handler) :=
  (registerTypes m ++ [(CPointer (g_id m), HObject (g_id m)); (CPointers (g_id m), HList (g_id m))])%list.

(** EnumDefinitionPrinter::printRegisterBody, enumdefinitionprinter.cpp 47-62, templates.cpp 374, 376. *)
Definition register_global_enum (e : enum) : list (ctype * handler) := qRegisterProtobufEnumType (e_id e).

(** All registration functions of the classes generated for a file. *)
Definition register_proto (p : proto) : list (ctype * handler) :=
  (flat_map register_global_enum (o_enums p) ++ flat_map (fun m => flat_map qRegisterProtobufType (classes m)) (o_messages p))%list.

(** registerQtTypeHandler for the types of the Qt types library, qtprotobufqttypes.cpp 275-330, for an
    application that uses it. *)
Definition register_qt (qt : list string) : list (ctype * handler) := map (fun q => (CQt q, HQt q)) qt.

(** The handlers of the serializer itself, qprotobufserializer.cpp 181-216. *)
Definition basic_handlers : list (ctype * handler) :=
  (map (fun t => (CSimple t, HSimple t))
     [TFloat; TDouble; TInt32; TInt64; TUInt32; TUInt64; TSInt32; TSInt64; TFixed32; TFixed64; TSFixed32; TSFixed64;
      TBool; TString; TBytes]
   ++ map (fun t => (CSimples t, HSimples t))
     [TFloat; TDouble; TFixed32; TFixed64; TSFixed32; TSFixed64; TInt32; TInt64; TSInt32; TSInt64; TUInt32; TUInt64;
      TString; TBytes])%list.

(** Equality of C++ types. *)
Definition element_eqb (a b : element) : bool :=
  match a, b with
  | Simple t, Simple u => ftype_eqb t u
  | Mess m, Mess n | Enu m, Enu n => Nat.eqb m n
  | Qt q, Qt r => String.eqb q r
  | _, _ => false
  end.
Definition ctype_eqb (a b : ctype) : bool :=
  match a, b with
  | CSimple t, CSimple u | CSimples t, CSimples u => ftype_eqb t u
  | CPointer m, CPointer n | CPointers m, CPointers n | CEnum m, CEnum n | CEnums m, CEnums n => Nat.eqb m n
  | CMap k v, CMap l w | CSharedMap k v, CSharedMap l w => ftype_eqb k l && element_eqb v w
  | CQt q, CQt r | CNone q, CNone r => String.eqb q r
  | _, _ => false
  end.

(** registerHandler and findHandler, qabstractprotobufserializer.cpp 49-67: a later registration of a type replaces
    an earlier one. *)
Definition lookup_type (regs : list (ctype * handler)) (t : ctype) : option handler :=
  option_map snd (find (fun p => ctype_eqb (fst p) t) (rev regs)).

(** serializeProperty and deserializeProperty, qprotobufserializer.cpp 258-283, 311-322: the handlers of the
    serializer, then the registered ones.  None: the empty handler, whose function throws. *)
Definition find_handler (regs : list (ctype * handler)) (t : ctype) : option handler :=
  match lookup_type basic_handlers t with Some h => Some h | None => lookup_type regs t end.

(** The handlers used for a field: that of its property, and for a map also those of keys (looked up among those of
    the serializer only, qprotobufserializer.cpp 336-340) and values (341-350, 130-137). *)
Definition field_handlers (regs : list (ctype * handler)) (s : shape) : option (list handler) :=
  match find_handler regs (property_type s), s with
  | None, _ => None
  | Some h, Assoc k v =>
      match lookup_type basic_handlers (named (simple_full_type k)), find_handler regs (value_type v) with
      | Some hk, Some hv => Some [h; hk; hv]
      | _, _ => None
      end
  | Some h, _ => Some [h]
  end.

(** * Enumerations *)

(** EnumDeclarationPrinter::printEnum, enumdeclarationprinter.cpp 51-73, and MessageDeclarationPrinter::printQEnums,
    messagedeclarationprinter.cpp 359-376: the enumerators that are declared. *)
Definition enumerators (e : enum) : list (string * Z) := map (fun v => (upperCaseName (fst v), snd v)) (e_values e).

(** MessageDeclarationPrinter::printFieldEnum, messagedeclarationprinter.cpp 446-457, templates.cpp 430: the
    constants for field numbers, from property_name_cap, generatorcommon.cpp 322-323. *)
Definition cpp_name (name : string) : string := qualifiedName (lowerCaseName (camelcase_name name)).
Definition field_enum (fs : list mfield) : list (string * Z) :=
  map (fun f => (upperCaseName (cpp_name (m_name f)) ++ "ProtoFieldNumber", m_number f)) fs.

(** What the generator asks about an enumeration: its package, the names of the messages around it, from the
    outermost one, its name and the messages of its file. *)
Record enum_ref : Type := mkEnumRef {
  er_package : string; er_around : list string; er_name : string; er_file : list message
}.

(** full_name() of a message or enumeration. *)
Definition message_full (package : string) (around : list string) (name : string) : string :=
  match around with
  | [] => full_name package name
  | outermost :: more => nested_name (fold_left nested_name more (full_name package outermost)) name
  end.

(** The message in whose class the name is used, with package and surrounding messages. *)
Record scope : Type := mkScope { s_package : string; s_around : list string; s_message : message }.

Definition scope_full (s : scope) : string := message_full (s_package s) (s_around s) (g_name (s_message s)).

(** isLocalEnum, generatorcommon.cpp 362-376, by full names. *)
Definition declares (package : string) (around : list string) (m : message) (full : string) : bool :=
  existsb (fun e => String.eqb (nested_name (message_full package around (g_name m)) (e_name e)) full) (g_enums m).

Inductive visibility : Type := GLOBAL_ENUM | LOCAL_ENUM | NEIGHBOR_ENUM.

(** enumVisibility, generatorcommon.cpp 378-398. *)
Definition enumVisibility (r : enum_ref) (s : option scope) : visibility :=
  let full := message_full (er_package r) (er_around r) (er_name r) in
  if match s with Some s' => declares (s_package s') (s_around s') (s_message s') full | None => false end then LOCAL_ENUM
  else if existsb (fun m => declares (er_package r) [] m full) (er_file r) then NEIGHBOR_ENUM
  else GLOBAL_ENUM.

(** getNamespacesString, generatorcommon.cpp 34-45. *)
Fixpoint namespaces_string (l : list string) : string :=
  match l with [] => "" | [n] => n | n :: l' => n ++ "::" ++ namespaces_string l' end.

(** getScopeNamespacesString, generatorcommon.cpp 47-61. *)
Definition getScopeNamespacesString (original scope : string) : string :=
  if String.eqb scope "" then original
  else if String.eqb original scope then ""
  else if String.prefix (scope ++ "::") original
       then String.substring (String.length scope + 2) (String.length original - (String.length scope + 2)) original
       else original.

(** produceEnumTypeMap, generatorcommon.cpp 136-166: the namespaces in front of the name (full_type) and those
    left out for use in the class of a scope (scope_type). *)
Definition enum_namespaces (o : options) (r : enum_ref) (s : option scope) : list string :=
  let full := message_full (er_package r) (er_around r) (er_name r) in
  (namespaces o full ++ match enumVisibility r s with GLOBAL_ENUM => [(upperCaseName (er_name r) ++ "Gadget")%string] | _ => [] end)%list.
Definition in_namespace (ns name : string) : string := if String.eqb ns "" then name else ns ++ "::" ++ name.
Definition enum_full_type (o : options) (r : enum_ref) (s : option scope) : string :=
  in_namespace (namespaces_string (enum_namespaces o r s)) (upperCaseName (er_name r)).
Definition scope_namespaces (s : option scope) : string :=
  match s with Some s' => namespaces_string (getNamespaces (scope_full s')) | None => "" end.
Definition enum_scope_type (o : options) (r : enum_ref) (s : option scope) : string :=
  in_namespace (getScopeNamespacesString (namespaces_string (enum_namespaces o r s)) (scope_namespaces s)) (upperCaseName (er_name r)).

(** property_type, generatorcommon.cpp 162-167: the name in Q_PROPERTY. *)
Definition enum_property_type (o : options) (r : enum_ref) (s : option scope) : string :=
  match enumVisibility r s with LOCAL_ENUM => upperCaseName (er_name r) | _ => enum_full_type o r s end.

(** printInitializationList, messagedefinitionprinter.cpp 174-176: the enumerator that initializes a field of the
    type, without the type in front of it. *)
Definition initial_enumerator (e : enum) : option string :=
  match e_values e with [] => None | (name, _) :: _ => Some name end.

(** * Constructors *)

(** What a member is initialized with: nothing, a literal, nullptr, the first enumerator, the parameter, or a new
    object that is a copy of the parameter. *)
Inductive initializer : Type :=
| INone | ILiteral (text : string) | INull | IFirst (e : nat) | IParameter | INew.

(** Field of a message type that has a class, generatorcommon.cpp 275-278. *)
Definition pure_message (s : shape) : bool := match s with One (Mess _) => true | _ => false end.

(** The default initializer, messagedefinitionprinter.cpp 151-181. *)
Definition default_initializer (s : shape) : initializer :=
  match s with
  | One (Simple t) =>
      match t with
      | TDouble | TFloat => ILiteral "0.0"
      | TFixed32 | TFixed64 | TInt32 | TInt64 | TSInt32 | TSInt64 | TUInt32 | TUInt64 => ILiteral "0"
      | TBool => ILiteral "false"
      | _ => INone
      end
  | One (Enu e) => IFirst e
  | _ => INone
  end.

(** printInitializationList, messagedefinitionprinter.cpp 149-198: the initializers of the constructor that takes the
    first [count] fields, for the fields from position [i] on. *)
Fixpoint initializers (count i : nat) (fs : list mfield) : list initializer :=
  match fs with
  | [] => []
  | f :: fs' =>
      (if pure_message (m_shape f) then if Nat.ltb i count then INew else INull
       else if Nat.ltb i count then IParameter else default_initializer (m_shape f))
      :: initializers count (S i) fs'
  end.

(** printConstructors, messagedefinitionprinter.cpp 110-118: the constructors, as number of parameters and
    initializers. *)
Definition constructors (fs : list mfield) : list (nat * list initializer) :=
  map (fun count => (count, initializers count 0 fs)) (seq 0 (S (List.length fs))).

(** The member for a field after the initializer: the argument, a new object with the contents of the argument, the
    literal, the first enumerator, a null pointer, a default constructed object (a number 0 for the wrappers of
    qtprotobuftypes.h 86-98), or whatever was in memory, for a type without constructor. *)
Inductive member : Type :=
| Argument (i : nat) | CopyOf (i : nat) | Literal (text : string) | Enumerator (e : nat) | NullPointer | Constructed | Garbage.

(** Types without constructor: qtprotobuftypes.h 101-187 and the members of templates.cpp 102-104. *)
Definition plain (s : shape) : bool :=
  match s with
  | One (Simple t) =>
      match t with TFloat | TDouble | TBool | TUInt32 | TUInt64 | TSInt32 | TSInt64 => true | _ => false end
  | One (Enu _) => true
  | _ => false
  end.

Definition member_after (i : nat) (s : shape) (x : initializer) : member :=
  match x with
  | INone => if plain s then Garbage else Constructed
  | ILiteral text => Literal text
  | INull => NullPointer
  | IFirst e => Enumerator e
  | IParameter => Argument i
  | INew => CopyOf i
  end.

(** The members after a constructor with these initializers. *)
Fixpoint members_from (i : nat) (fs : list mfield) (xs : list initializer) : list member :=
  match fs, xs with
  | f :: fs', x :: xs' => member_after i (m_shape f) x :: members_from (S i) fs' xs'
  | _, _ => []
  end.

(** Parameters of constructors: of the class of a message (by constant reference), of another type of property, or
    the parent, which can be left out. *)
Inductive parameter : Type := PClass (m : nat) | PField (t : ctype) | PParent.
Definition field_parameter (f : mfield) : parameter :=
  match m_shape f with One (Mess m) => PClass m | s => PField (property_type s) end.

(** The constructors of a class, messagedeclarationprinter.cpp 92-152 with templates.cpp 96-100, 117: those of
    printConstructors and the copy constructor.  The move constructor, which is for temporaries only, and the
    additional one of Timestamp are left out. *)
Definition declared_constructors (m : message) : list (list parameter) :=
  (map (fun count => map field_parameter (firstn count (g_fields m)) ++ [PParent]) (seq 0 (S (List.length (g_fields m))))
   ++ [[PClass (g_id m)]])%list.

(** Timestamp::Timestamp(const QDateTime &) and Timestamp::operator QDateTime, messagedefinitionprinter.cpp 119-129:
    [ms] is toMSecsSinceEpoch(); division and remainder are those of C++.  Overflow of the 64 bit product
    is left out. *)
Definition timestamp_of (ms : Z) : Z * Z := (Z.quot ms 1000, Z.rem ms 1000 * 1000)%Z.
Definition datetime_of (seconds nanos : Z) : Z := (seconds * 1000 + Z.quot nanos 1000)%Z.

(** * Includes in the mode with several files *)

(** What printInclude asks about the type of a field.
    InMessage: a message: the number of the one around it, of the outermost one around it (or itself), isNested
    (generatorcommon.cpp 472-490), whether isPureMessage holds of the field, and the path of the header for the
    outermost message, seen from the package of the header that is printed (generatorbase.cpp 99-110, 115-126).
    InEnum: an enumeration: visibility, directory of the package, name of the message around it.
    InText: string or bytes, with the Qt class. *)
Inductive included : Type :=
| InMessage (containing : option nat) (highest : nat) (nested pure : bool) (path : string)
| InQt (name : string)
| InEnum (v : visibility) (dir owner : string)
| InText (name : string)
| InNumber
| InMap (key value : included).

(** A printed include: "path.h", <name>, <globalenums.h>; templates.cpp 54-56. *)
Inductive include : Type := Internal (path : string) | External (name : string) | GlobalEnums.

(** generatorbase.cpp 160-163.  [seen]: existingIncludes. *)
Definition print_new (name : string) (l : list include) (seen : list string) : list include * list string :=
  if existsb (String.eqb name) seen then ([], seen) else (l, name :: seen).

(** GeneratorBase::printInclude, generatorbase.cpp 80-164, in the header of message [own].  The template of line 84 is
    empty, so nothing is printed for a type inside of [own]; but the empty name gets into the set. *)
Fixpoint print_include (own : nat) (i : included) (seen : list string) : list include * list string :=
  match i with
  | InMessage containing highest nested _ path =>
      if negb nested then print_new path [Internal path] seen
      else if match containing with Some c => Nat.eqb c own | None => false end then print_new "" [] seen
      else if Nat.eqb highest own then print_new "" [] seen
      else print_new path [Internal path] seen
  | InQt name => print_new name [External name] seen
  | InEnum GLOBAL_ENUM _ _ => print_new "" [GlobalEnums] seen
  | InEnum NEIGHBOR_ENUM _ owner => print_new (tolower owner) [Internal (tolower owner)] seen
  | InEnum LOCAL_ENUM _ _ => ([], seen)
  | InText name => print_new name [External name] seen
  | InNumber => ([], seen)
  | InMap key value =>
      let (a, seen1) := print_include own key seen in
      let (b, seen2) := print_include own value seen1 in
      let (c, seen3) := print_new "QMap" [External "QMap"] seen2 in
      (a ++ b ++ c, seen3)%list
  end.

(** multifilegenerator.cpp 86-89. *)
Fixpoint print_includes (own : nat) (l : list included) (seen : list string) : list include * list string :=
  match l with
  | [] => ([], seen)
  | i :: l' =>
      let (p, seen') := print_include own i seen in
      let (ps, seen'') := print_includes own l' seen' in
      (p ++ ps, seen'')%list
  end.

(** multifilegenerator.cpp 101-119: the headers for the types of [deps]. *)
Fixpoint print_paths (l : list string) (seen : list string) : list include :=
  match l with
  | [] => []
  | path :: l' => let (p, seen') := print_new path [Internal path] seen in (p ++ print_paths l' seen')%list
  end.
Definition pure_paths (l : list included) : list string :=
  flat_map (fun i => match i with InMessage _ _ _ true path => [path] | _ => [] end) l.

(** multifilegenerator.cpp 86-119: the includes in the header of message [own] with fields of the types [fields], where
    the classes inside of it have fields of the types [inner]. *)
Definition header_includes (own : nat) (fields inner : list included) : list include :=
  let (a, seen) := print_includes own fields [] in
  (a ++ print_paths (pure_paths inner ++ pure_paths fields) seen)%list.

(** * Clients *)

(** A remote procedure. *)
Record rpc : Type := mkRpc { x_name : string; x_input : string; x_output : string; x_client_streams : bool; x_server_streams : bool }.
Record service : Type := mkService { v_package : string; v_name : string; v_rpcs : list rpc }.

(** What a generated method does: a call that blocks, one that returns a reply, one with a callback, the two for
    JavaScript, a stream with or without a message to keep up to date, and the one for GrpcStream of QML; each with
    the name passed on to the channel. *)
Inductive body : Type :=
| BlockingCall (name : string) | AsyncCall (name : string) | CallbackCall (name : string)
| ScriptCallbackCall (name : string) | ScriptTargetCall (name : string)
| OpenStream (name : string) | OpenStreamTo (name : string) | ScriptStream (name : string).

(** A method of the client class: its name, parameters by their types, and body. *)
Record cmethod : Type := mkMethod { c_name : string; c_parameters : list string; c_body : body }.

(** utils::replace of "." by "::" in the full name of a message, generatorcommon.cpp 411-417, utils.h 70-76. *)
Fixpoint cpp_type (full : string) : string :=
  match full with
  | EmptyString => EmptyString
  | String c s => if Ascii.eqb c "." then "::" ++ cpp_type s else String c (cpp_type s)
  end.

(** ClientDefinitionPrinter::printMethods, clientdefinitionprinter.cpp 45-66, with templates.cpp 306-372 and 386-397,
    and the names of produceMethodMap, generatorcommon.cpp 409-426.  client_streaming() is not asked. *)
Definition const_ref (t : string) : string := "const " ++ t ++ " &".
Definition rpc_methods (qml : bool) (x : rpc) : list cmethod :=
  let a := cpp_type (x_input x) in
  let r := cpp_type (x_output x) in
  let stream_name := "stream" ++ upperCaseName (x_name x) in
  if x_server_streams x then
    ([ mkMethod stream_name [const_ref a] (OpenStream (x_name x));
       mkMethod stream_name [const_ref a; const_ref ("QPointer<" ++ r ++ ">")] (OpenStreamTo (x_name x)) ]
     ++ (if qml
         then [ mkMethod ("qmlStream" ++ upperCaseName (x_name x) ++ "_p")%string [(a ++ " *")%string; (r ++ " *")%string]
                  (ScriptStream (x_name x)) ]
         else []))%list
  else
    ([ mkMethod (x_name x) [const_ref a; const_ref ("QPointer<" ++ r ++ ">")] (BlockingCall (x_name x));
       mkMethod (x_name x) [const_ref a] (AsyncCall (x_name x));
       mkMethod (x_name x) [const_ref a; "const QObject *"; const_ref "std::function<void(QGrpcCallReplyShared)>"]
         (CallbackCall (x_name x)) ]
     ++ (if qml
         then [ mkMethod (x_name x) [(a ++ " *")%string; const_ref "QJSValue"; const_ref "QJSValue"] (ScriptCallbackCall (x_name x));
                mkMethod (x_name x) [(a ++ " *")%string; (r ++ " *")%string; const_ref "QJSValue"] (ScriptTargetCall (x_name x)) ]
         else []))%list.
Definition client_methods (qml : bool) (v : service) : list cmethod := flat_map (rpc_methods qml) (v_rpcs v).

(** The name the methods of the class have, clientdefinitionprinter.cpp 38-43, descriptorprinterbase.h 52, and the name of the service that its
    constructor passes on, 68-73, templates.cpp 303. *)
Definition client_class (v : service) : string := upperCaseName (v_name v) ++ "Client".
Definition service_name (v : service) : string := full_name (v_package v) (v_name v).

(** The path a channel sends a request to, qgrpchttp2channel.cpp 117, qgrpcchannel.cpp 209, 247, 263. *)
Definition passed_name (b : body) : string :=
  match b with
  | BlockingCall n | AsyncCall n | CallbackCall n | ScriptCallbackCall n | ScriptTargetCall n
  | OpenStream n | OpenStreamTo n | ScriptStream n => n
  end.
Definition request_path (v : service) (b : body) : string := "/" ++ service_name v ++ "/" ++ passed_name b.

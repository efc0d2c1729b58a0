(** Words used to state the properties of what is inside of generated classes. *)

From Coq Require Import String Ascii ZArith List Bool Arith.
From Verif Require Import GenModel GenSpec GenTypesModel GenClassModel.
Import ListNotations.
Open Scope string_scope.

(** * Names *)

(** The name of a field in camel case, with "_proto" behind names that QML does not allow. *)
Definition known_as (f : mfield) (n : string) : Prop :=
  exists c, camel_case (m_name f) c /\
    ((In c ["id"; "property"; "import"] /\ n = c ++ "_proto") \/ (~ In c ["id"; "property"; "import"] /\ n = c)).

(** protoc refuses a proto3 message with two fields that agree in small letters without underscores. *)
Definition fields_distinct (m : message) : Prop := NoDup (map (fun f => key (m_name f)) (g_fields m)).

(** The first character of the name that is not an underscore is a letter (protoc accepts "_1st", and "_"). *)
Definition letter_first (f : mfield) : Prop := exists c s, key (m_name f) = String c s /\ In c small_letters.

(** Identifiers of C++: letters, digits and underscores, the first one no digit. *)
Definition digits : list ascii := list_ascii_of_string "0123456789".
Definition name_char (c : ascii) : Prop := In c small_letters \/ In c capital_letters \/ In c digits \/ c = "_"%char.
Definition identifier (s : string) : Prop :=
  exists c s', s = String c s' /\ ~ In c digits /\ Forall name_char (list_ascii_of_string s).

(** Names of fields in a .proto file. *)
Definition field_names_ok (m : message) : Prop := Forall (fun f => identifier (m_name f)) (g_fields m).

(** Keywords of C++17, the words for operators, and the macros that Qt defines as keywords (unless told not to). *)
Definition keywords : list string :=
  ["alignas"; "alignof"; "and"; "and_eq"; "asm"; "auto"; "bitand"; "bitor"; "bool"; "break"; "case"; "catch"; "char";
   "char16_t"; "char32_t"; "class"; "compl"; "const"; "const_cast"; "constexpr"; "continue"; "decltype"; "default"; "delete";
   "do"; "double"; "dynamic_cast"; "else"; "enum"; "explicit"; "export"; "extern"; "false"; "float"; "for"; "friend"; "goto";
   "if"; "inline"; "int"; "long"; "mutable"; "namespace"; "new"; "noexcept"; "not"; "not_eq"; "nullptr"; "operator"; "or";
   "or_eq"; "private"; "protected"; "public"; "register"; "reinterpret_cast"; "return"; "short"; "signed"; "sizeof"; "static";
   "static_assert"; "static_cast"; "struct"; "switch"; "template"; "this"; "thread_local"; "throw"; "true"; "try"; "typedef";
   "typeid"; "typename"; "union"; "unsigned"; "using"; "virtual"; "void"; "volatile"; "wchar_t"; "while"; "xor"; "xor_eq";
   "signals"; "slots"; "emit"; "foreach"; "forever"].

(** * Declarations *)

(** The name that a declaration gives a meaning to; for a function, also its parameters, whether it is const, and
    whether it is static.  Constructors and operators are the subject of C64. *)
Definition declared (d : declaration) : option (string * option (list vtype * bool * bool)) :=
  match d with
  | DInline f _ | DFunction f | DMoc f => Some (fn_name f, Some (fn_params f, fn_const f, fn_static f))
  | DSignal n => Some (n, Some ([], false, false))
  | DVariable n | DStatic n | DMocStatic n | DAlias n | DClass n | DEnumeration n | DEnumerator n => Some (n, None)
  | DSpecial _ => None
  end.

(** Two declarations of one name are allowed in a class if both are of functions, and these have different parameters, or
    are not static and one of them is const. *)
Definition overloads (a b : option (list vtype * bool * bool)) : Prop :=
  match a, b with
  | Some (ps, c, s), Some (ps', c', s') => ps <> ps' \/ (c <> c' /\ s = false /\ s' = false)
  | _, _ => False
  end.
Definition clashes (d e : declaration) : Prop :=
  exists n a b, declared d = Some (n, a) /\ declared e = Some (n, b) /\ ~ overloads a b.
Definition no_clash (l : list declaration) : Prop :=
  forall i j d e, i <> j -> nth_error l i = Some d -> nth_error l j = Some e -> ~ clashes d e.

Definition names_declared (l : list declaration) : list string :=
  flat_map (fun d => match declared d with Some (n, _) => [n] | None => [] end) l.

(** * Names that fields cannot have *)

(** Functions without parameters and variables that each class has. *)
Definition taken : list string := ["metaObject"; "registerTypes"; "staticMetaObject"; "propertyOrdering"; "protobufMetaObject"].

(** A field for which there is a second getter, for its pointer or as number for QML. *)
Definition second_getter (qml : bool) (f : mfield) : Prop :=
  (exists m, m_shape f = One (Mess m))
  \/ (qml = true /\ exists t, m_shape f = One (Simple t) /\ In t [TInt32; TSFixed32; TFixed32]).

(** A list of messages or of Qt types. *)
Definition listed (f : mfield) : Prop := exists e, m_shape f = Many e /\ ((exists m, e = Mess m) \/ exists q, e = Qt q).
Definition container (f : mfield) : Prop := (exists e, m_shape f = Many e) \/ exists k v, m_shape f = Assoc k v.

(** Fields whose members are in the way of those of another one. *)
Definition in_the_way (qml : bool) (f g : mfield) : Prop :=
  (exists n, known_as g n /\ known_as f (n ++ "Changed") /\ container f)
  \/ (known_as f "m" /\ second_getter qml f /\ known_as g "p")
  \/ (known_as f "m" /\ qml = true /\ listed f /\ known_as g "l").

(** * Names inside of a message *)

(** The messages for which there are classes inside of the class: those that a field has as its type, or all if there is no
    field (see C47). *)
Definition aliased (m n : message) : Prop :=
  In n (g_nested m)
  /\ (g_fields m = [] \/ exists f, In f (g_fields m) /\ (m_shape f = One (Mess (g_id n)) \/ m_shape f = Many (Mess (g_id n)))).

(** What protoc calls the type made for a map: the words of the name of the field, each with a capital letter, and "Entry". *)
Fixpoint words (s : string) : list string :=
  match s with
  | EmptyString => [""]
  | String c s' => if Ascii.eqb c "_" then "" :: words s' else match words s' with w :: ws => String c w :: ws | [] => [String c ""] end
  end.
Definition entry_called (f : mfield) : string := join "" (map first_capital (words (m_name f))) ++ "Entry".

(** What protoc knows by name inside of a message, other than fields: enumerations, their values, messages and the types made for
    maps.  It refuses two of one name. *)
Definition names_inside (m : message) : list string :=
  (map e_name (g_enums m) ++ flat_map (fun e => map fst (e_values e)) (g_enums m) ++ map g_name (g_nested m)
   ++ flat_map (fun f => match m_shape f with Assoc _ _ => [entry_called f] | _ => [] end) (g_fields m))%list.

(** Types for which there is a list. *)
Definition with_list (m : message) (x : string) : Prop :=
  (exists e, In e (g_enums m) /\ x = e_name e) \/ (exists n, aliased m n /\ x = g_name n).

(** Those of them that the class has a declaration for. *)
Definition declared_inside (m : message) (x : string) : Prop :=
  (exists e, In e (g_enums m) /\ (x = e_name e \/ In x (map fst (e_values e))))
  \/ (exists n, aliased m n /\ x = g_name n)
  \/ (exists f k v, In f (g_fields m) /\ m_shape f = Assoc k v /\ x = entry_called f).

(** The names are different and begin with capital letters. *)
Definition capitals (m : message) : Prop :=
  NoDup (names_inside m) /\ Forall (fun x => exists c s, x = String c s /\ In c capital_letters) (names_inside m).

(** None of them is one that the generator makes from others or uses itself. *)
Definition names_free (field_numbers : bool) (m : message) : Prop :=
  (forall x, with_list m x -> ~ declared_inside m (x ++ "Repeated"))
  /\ ~ declared_inside m "QPrivateSignal"
  /\ (field_numbers = true ->
       ~ declared_inside m "QtProtobufFieldEnum"
       /\ forall f n, In f (g_fields m) -> known_as f n -> ~ declared_inside m (first_capital n ++ "ProtoFieldNumber")).

(** * Definitions *)

(** What needs a definition in the source, and what is defined there. *)
Inductive entity : Type := EFunction (f : func) | EStatic (name : string) | ESpecial (s : special).
Definition wanted (d : declaration) : list entity :=
  match d with DFunction f => [EFunction f] | DStatic n => [EStatic n] | DSpecial s => [ESpecial s] | _ => [] end.
Definition given (d : definition) : entity :=
  match d with FFunction f _ => EFunction f | FStatic n => EStatic n | FSpecial s => ESpecial s end.

(** A function is declared in the class and has this body, there or in the source. *)
Definition has_body (ds : list declaration) (fs : list definition) (f : func) (b : body) : Prop :=
  In (DInline f b) ds \/ (In (DFunction f) ds /\ In (FFunction f b) fs).

(** The body gives access to the variable [v]: reads it; changes it and then emits the signal. *)
Definition reads (b : body) (v : string) : Prop := In b [Returns v; ReturnsObject v; ReturnsPointer v; ReturnsQmlList v].
Definition writes (b : body) (v s : string) : Prop := In b [Stores v s; StoresObject v s; StoresPointer v s].

(** A line with Q_PROPERTY is one for the field: the function that it names for reading has no parameters, returns the type of the
    property and reads the variable of the field; the one for writing has one parameter, of that type, and
    changes the variable and emits the signal; and that is the signal that it names. *)
Definition serves (ds : list declaration) (fs : list definition) (q : qproperty) (variable signal : string) : Prop :=
  (exists g b, has_body ds fs g b /\ fn_name g = q_read q /\ fn_params g = [] /\ fn_static g = false
     /\ fn_result g = Some (q_type q) /\ reads b variable)
  /\ (forall w, q_write q = Some w -> exists g b, has_body ds fs g b /\ fn_name g = w /\ fn_params g = [q_type q]
        /\ fn_const g = false /\ fn_static g = false /\ fn_result g = None /\ writes b variable signal)
  /\ q_notify q = signal /\ In (DSignal signal) ds /\ In (DVariable variable) ds.

(** A list of a Qt type with QML. *)
Definition qt_list (qml : bool) (f : mfield) : Prop := qml = true /\ exists q, m_shape f = Many (Qt q).

(** * Meta types *)

(** Two fields have the type of one enumeration of the message. *)
Definition enum_twice (m : message) : Prop :=
  exists e a f b g c, g_fields m = (a ++ f :: b ++ g :: c)%list /\ In e (map e_id (g_enums m))
    /\ (m_shape f = One (Enu e) \/ m_shape f = Many (Enu e)) /\ (m_shape g = One (Enu e) \/ m_shape g = Many (Enu e)).

(** The message and those inside of it. *)
Fixpoint family (m : message) : list message :=
  match m with Message id name fs es nested => Message id name fs es nested :: flat_map family nested end.

(** * Names of properties *)

(** The list of messages [f] has a property that is called like the property of [g]: the name of the list with "Data" behind it
    (lists of messages have a property with their own name only for QML). *)
Definition same_property (qml : bool) (f g : mfield) : Prop :=
  listed f /\ (listed g -> qml = true) /\ exists n, known_as f n /\ known_as g (n ++ "Data").

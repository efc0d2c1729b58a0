(** Model of the class of a generated client: the header, the source, the meta object that moc makes of it, and how the QML element
    GrpcStream finds a method in it. *)

From Coq Require Import String Ascii ZArith List Bool Arith.
From Verif Require Import Base GenModel GenTypesModel GenLookupModel.
Import ListNotations.
Open Scope string_scope.

(** * Types in signatures *)

(** The types that templates.cpp 296-301, 306-326, 342 and 381-397 write: a name; one of the library, with or without QtProtobuf::
    before it; the class of a message; and what is made of types. *)
Inductive jtype : Type :=
| JVoid
| JName (n : string)
| JLibrary (qualified : bool) (n : string)
| JMessage (t : string)
| JConstRef (t : jtype)
| JPointer (t : jtype)
| JConstPointer (t : jtype)
| JQPointer (t : jtype)
| JFunction (t : jtype).

(** As they are written. *)
Fixpoint show (t : jtype) : string :=
  match t with
  | JVoid => "void"
  | JName n => n
  | JLibrary true n => "QtProtobuf::" ++ n
  | JLibrary false n => n
  | JMessage t => t
  | JConstRef t => "const " ++ show t ++ " &"
  | JPointer t => show t ++ " *"
  | JConstPointer t => "const " ++ show t ++ " *"
  | JQPointer t => "QPointer<" ++ show t ++ ">"
  | JFunction t => "std::function<void(" ++ show t ++ ")>"
  end.

Definition in_type (x : rpc) : jtype := JMessage (cpp_type (x_input x)).
Definition out_type (x : rpc) : jtype := JMessage (cpp_type (x_output x)).

(** * The header *)

(** A declaration in the class: behind "public:" or "private:", with Q_INVOKABLE or not, type of the result (none for a constructor), name,
    types of the parameters. *)
Record member : Type := mkMember {
  b_public : bool; b_invokable : bool; b_result : option jtype; b_name : string; b_params : list jtype }.

(** Templates.cpp 115, clientdeclarationprinter.cpp 59-64. *)
Definition constructor_declaration (v : service) : member :=
  mkMember true false None (client_class v) [JPointer (JName "QObject")].

(** Clientdeclarationprinter.cpp 80-98, templates.cpp 296-300 and 382-383. *)
Definition public_declarations (qml : bool) (x : rpc) : list member :=
  let stream_name := "stream" ++ upperCaseName (x_name x) in
  if x_server_streams x then
    [ mkMember true false (Some (JLibrary true "QGrpcStreamShared")) stream_name [JConstRef (in_type x)];
      mkMember true false (Some (JLibrary true "QGrpcStreamShared")) stream_name [JConstRef (in_type x); JConstRef (JQPointer (out_type x))] ]
  else
    ([ mkMember true false (Some (JLibrary true "QGrpcStatus")) (x_name x) [JConstRef (in_type x); JConstRef (JQPointer (out_type x))];
       mkMember true false (Some (JLibrary true "QGrpcCallReplyShared")) (x_name x) [JConstRef (in_type x)];
       mkMember true true (Some JVoid) (x_name x)
         [JConstRef (in_type x); JConstPointer (JName "QObject"); JConstRef (JFunction (JLibrary true "QGrpcCallReplyShared"))] ]
     ++ (if qml
         then [ mkMember true true (Some JVoid) (x_name x) [JPointer (in_type x); JConstRef (JName "QJSValue"); JConstRef (JName "QJSValue")];
                mkMember true true (Some JVoid) (x_name x) [JPointer (in_type x); JPointer (out_type x); JConstRef (JName "QJSValue")] ]
         else []))%list.

(** Clientdeclarationprinter.cpp 103-113, templates.cpp 384. *)
Definition private_declarations (qml : bool) (x : rpc) : list member :=
  if x_server_streams x then
    if qml
    then [ mkMember false true (Some (JLibrary true "QGrpcStreamShared")) ("qmlStream" ++ upperCaseName (x_name x) ++ "_p")
             [JPointer (in_type x); JPointer (out_type x)] ]
    else []
  else [].

(** ClientDeclarationPrinter::run, clientdeclarationprinter.h 54-62, clientdeclarationprinter.cpp 77-115. *)
Definition client_header (qml : bool) (v : service) : list member :=
  constructor_declaration v :: flat_map (public_declarations qml) (v_rpcs v) ++ flat_map (private_declarations qml) (v_rpcs v).

(** * The source *)

(** What is defined: the class before "::", type of the result, name, types of the parameters; and for a method what it does, and which
    functions it names without saying in which class or namespace they are. *)
Record implementation : Type := mkImplementation {
  i_class : string; i_result : option jtype; i_name : string; i_params : list jtype; i_body : option body; i_uses : list string }.

(** Clientdefinitionprinter.cpp 68-73, templates.cpp 303-305. *)
Definition constructor_definition (v : service) : implementation :=
  mkImplementation (client_class v) None (client_class v) [JPointer (JName "QObject")] None [].

(** ClientDefinitionPrinter::printMethods, clientdefinitionprinter.cpp 45-66, templates.cpp 306-372 and 386-397.  (qProtoWarning is a macro;
    the other functions that are called are members of other objects.) *)
Definition implementations (qml : bool) (v : service) (x : rpc) : list implementation :=
  let c := client_class v in
  let stream_name := "stream" ++ upperCaseName (x_name x) in
  if x_server_streams x then
    ([ mkImplementation c (Some (JLibrary true "QGrpcStreamShared")) stream_name [JConstRef (in_type x)]
         (Some (OpenStream (x_name x))) ["stream"];
       mkImplementation c (Some (JLibrary true "QGrpcStreamShared")) stream_name [JConstRef (in_type x); JConstRef (JQPointer (out_type x))]
         (Some (OpenStreamTo (x_name x))) ["stream"] ]
     ++ (if qml
         then [ mkImplementation c (Some (JLibrary true "QGrpcStreamShared")) ("qmlStream" ++ upperCaseName (x_name x) ++ "_p")
                  [JPointer (in_type x); JPointer (out_type x)] (Some (ScriptStream (x_name x))) ["stream"] ]
         else []))%list
  else
    ([ mkImplementation c (Some (JLibrary true "QGrpcStatus")) (x_name x) [JConstRef (in_type x); JConstRef (JQPointer (out_type x))]
         (Some (BlockingCall (x_name x))) ["call"];
       mkImplementation c (Some (JLibrary true "QGrpcCallReplyShared")) (x_name x) [JConstRef (in_type x)]
         (Some (AsyncCall (x_name x))) ["call"];
       mkImplementation c (Some JVoid) (x_name x)
         [JConstRef (in_type x); JConstPointer (JName "QObject"); JConstRef (JFunction (JLibrary false "QGrpcCallReplyShared"))]
         (Some (CallbackCall (x_name x))) ["call"] ]
     ++ (if qml
         then [ mkImplementation c (Some JVoid) (x_name x) [JPointer (in_type x); JConstRef (JName "QJSValue"); JConstRef (JName "QJSValue")]
                  (Some (ScriptCallbackCall (x_name x))) ["qjsEngine"; "call"; "qmlEngine"];
                mkImplementation c (Some JVoid) (x_name x) [JPointer (in_type x); JPointer (out_type x); JConstRef (JName "QJSValue")]
                  (Some (ScriptTargetCall (x_name x))) ["qjsEngine"; "call"] ]
         else []))%list.

(** ClientDefinitionPrinter::run, clientdefinitionprinter.h 41-46. *)
Definition client_source (qml : bool) (v : service) : list implementation :=
  (constructor_definition v :: flat_map (implementations qml v) (v_rpcs v))%list.

(** "using namespace" at the top of the source, multifilegenerator.cpp 179, singlefilegenerator.cpp 234. *)
Definition source_using : string := "QtProtobuf".

(** What the types in the source are because of that: a name of the library can be written without QtProtobuf::.  (If nothing further in
    has that name.) *)
Fixpoint in_source (t : jtype) : jtype :=
  match t with
  | JLibrary q n => JLibrary (q || String.eqb source_using "QtProtobuf") n
  | JConstRef t => JConstRef (in_source t)
  | JPointer t => JPointer (in_source t)
  | JConstPointer t => JConstPointer (in_source t)
  | JQPointer t => JQPointer (in_source t)
  | JFunction t => JFunction (in_source t)
  | t => t
  end.

(** * Includes of the header in the mode with several files *)

(** ServiceDeclarationPrinterBase::printIncludes, servicedeclarationprinterbase.cpp 49-66: the names of the messages without anything
    before them, in small letters.  (The set is unordered: so is the list.) *)
Definition client_includes (messages : list (message_ref * message_ref)) : list string :=
  flat_map (fun io => [tolower (mr_name (fst io)); tolower (mr_name (snd io))]) messages.

(** * Meta objects and meta types

    Not part of the repository: moc and QMetaType.  The names of the meta types are those that the generator registers. *)

(** The path of the class of a message: namespaces and class that MessageDeclarationPrinter::printClassDeclaration opens,
    messagedeclarationprinter.cpp 44-98, descriptorprinterbase.h 61-70.  QMetaObject::className() gives it with "::" between. *)
Definition class_parts (o : options) (r : message_ref) : list string :=
  (namespaces o (full_name (mr_package r) (match mr_around r with [] => mr_name r | a :: _ => a end))
   ++ map (fun a => (upperCaseName a ++ nested_suffix)%string) (mr_around r) ++ [upperCaseName (mr_name r)])%list.
Definition meta_class_name (parts : list string) : string := String.concat "::" parts.

Inductive meta_type : Type := MValue (class : list string) | MPointer (class : list string).

(** What the registration of a message enters: templates.cpp 59-66 (Q_DECLARE_METATYPE, templates.cpp 261, has the same name), and what
    Qt enters by itself for pointers to classes with meta object: the name of the class with "*".  Types of lists are left out. *)
Definition meta_names (o : options) (r : message_ref) : list (string * meta_type) :=
  [ (message_full_type o r, MValue (class_parts o r));
    (meta_class_name (class_parts o r) ++ "*", MPointer (class_parts o r));
    (message_full_type o r ++ "*", MPointer (class_parts o r)) ].
Definition meta_types (o : options) (l : list message_ref) : list (string * meta_type) := flat_map (meta_names o) l.

(** QMetaType::type: of two registrations of one name, the first one counts. *)
Definition type_named (reg : list (string * meta_type)) (n : string) : option meta_type :=
  option_map snd (find (fun e => String.eqb (fst e) n) reg).

(** QMetaType::metaObject: there is one for pointers to objects. *)
Definition meta_object (t : option meta_type) : option (list string) :=
  match t with Some (MPointer c) => Some c | _ => None end.

(** A method in a meta object: its name, the type of the result, the types of the parameters as moc writes them (without blanks, "const" and
    reference), each with the class that the compiler takes it for, if it is a pointer to one; and what it does. *)
Record meta_method : Type := mkMetaMethod {
  mm_name : string; mm_result : string; mm_params : list (string * option (list string)); mm_body : option body }.

(** The methods of QObject (Qt 5) and the signal of QAbstractGrpcClient, qabstractgrpcclient.h 77. *)
Definition inherited_methods : list meta_method :=
  map (fun n => mkMetaMethod n "void" [] None)
    ["destroyed"; "destroyed"; "objectNameChanged"; "deleteLater"; "_q_reregisterTimers"; "error"].

Section Meta.

(** The class that the name of a message in the header of the client is for the compiler. *)
Variable compiled : string -> option (list string).

Definition moc_param (t : jtype) : string * option (list string) :=
  match t with
  | JPointer (JMessage n) => (n ++ "*", compiled n)
  | JConstRef t' => (show t', None)
  | t' => (show t', None)
  end.
Definition moc_result (r : option jtype) : string := match r with Some t => show t | None => "" end.

(** What a call of a declared method runs: the definition with its name and parameters. *)
Definition jtype_eq_dec : forall a b : jtype, {a = b} + {a <> b}.
Proof. decide equality; auto using string_dec, bool_dec. Defined.
Definition runs (src : list implementation) (m : member) : option body :=
  match find (fun i => String.eqb (i_name i) (b_name m)
                       && (if list_eq_dec jtype_eq_dec (map in_source (i_params i)) (b_params m) then true else false)) src with
  | Some i => i_body i
  | None => None
  end.

(** Methods with Q_INVOKABLE get into the meta object, private ones too, in their order. *)
Definition meta_methods (qml : bool) (v : service) : list meta_method :=
  (inherited_methods
   ++ map (fun m => mkMetaMethod (b_name m) (moc_result (b_result m)) (map moc_param (b_params m)) (runs (client_source qml v) m))
        (filter b_invokable (client_header qml v)))%list.

(** * QQuickGrpcStream::stream, qquickgrpcstream.cpp 72-160 *)

(** QMetaMethod::parameterType: by the name, or by the class. *)
Definition parameter_type (reg : list (string * meta_type)) (p : string * option (list string)) : option meta_type :=
  match type_named reg (fst p) with
  | Some t => Some t
  | None => option_map MPointer (snd p)
  end.

Definition parts_eqb (a b : list string) : bool := if list_eq_dec string_dec a b then true else false.
Definition same_object (a : option (list string)) (c : list string) : bool :=
  match a with Some c' => parts_eqb c' c | None => false end.

(** The first lines, 74-83.  QChar::toUpper is taken for ASCII: "method" is compared with names of C++ in the end.  (Two other characters,
    U+0131 and U+017F, have capitals in ASCII; names with them are left out.) *)
Definition wanted_name (method : string) : string := "qmlStream" ++ upperCaseName method ++ "_p".

(** The status code that is reported, or what the method that is invoked does.  Creating an object of another class than the one expected
    and using a meta object that does not exist are undefined.  [argument]: the class of the object that was set as argument. *)
Definition quick_stream (reg : list (string * meta_type)) (methods : list meta_method) (method : string) (argument : list string)
  : res (Z + option body) :=
  match find (fun m => String.eqb (wanted_name method) (mm_name m)) methods with
  | None => Ok (inl 12%Z)
  | Some m =>
      match mm_params m with
      | p0 :: p1 :: _ =>
          if negb (same_object (meta_object (parameter_type reg p0)) argument) then Ok (inl 3%Z)
          else
            match type_named reg (meta_class_name argument) with
            | None => Ok (inl 3%Z)
            | Some t0 =>
                if negb (match t0 with MValue c => parts_eqb c argument | MPointer _ => false end) then UB TypeConfusion
                else
                  match parameter_type reg p1 with
                  | None => Ok (inl 3%Z)
                  | Some t1 =>
                      match meta_object (Some t1) with
                      | None => UB NullDeref
                      | Some c1 =>
                          match type_named reg (meta_class_name c1) with
                          | None => Ok (inl 3%Z)
                          | Some t2 =>
                              if negb (match t2 with MValue c => parts_eqb c c1 | MPointer _ => false end) then UB TypeConfusion
                              else if String.eqb (mm_result m) "QtProtobuf::QGrpcStreamShared" then Ok (inr (mm_body m))
                              else Ok (inl 2%Z)
                          end
                      end
                  end
            end
      | _ => Ok (inl 3%Z)
      end
  end.

End Meta.

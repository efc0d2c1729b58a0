(** Words used to state the properties of generated clients as classes of C++ and as objects of QML. *)

From Coq Require Import String Ascii ZArith List Bool Arith.
From Verif Require Import GenModel GenSpec GenTypesModel GenTypesSpec GenLookupModel GenLookupSpec GenClassSpec BuildModel ClientModel.
Import ListNotations.
Open Scope string_scope.

(** By what a declaration and a definition are known to belong together: name, types of parameters and result. *)
Definition declared_as (m : member) : string * list jtype * option jtype := (b_name m, b_params m, b_result m).
Definition defined_as (i : implementation) : string * list jtype * option jtype :=
  (i_name i, map in_source (i_params i), option_map in_source (i_result i)).

(** The names of what the class declares. *)
Definition own_names (qml : bool) (v : service) : list string := map b_name (client_header qml v).

(** In a method, a name without class or namespace before it is looked for in the class of the method first, and only if the class does not
    declare it, in its base class and outside. *)
Definition found_outside (qml : bool) (v : service) (f : string) : Prop := ~ In f (own_names qml v).

(** The messages of a service have names of letters, digits, underscores and dots; its procedures have names of protobuf. *)
Definition service_names_ok (v : service) : Prop :=
  identifier (v_name v)
  /\ forall x, In x (v_rpcs v) -> identifier (x_name x) /\ free_of "*" (x_input x) /\ free_of "*" (x_output x).

(** A procedure that takes one message and gives one. *)
Definition unary (x : rpc) : Prop := x_server_streams x = false.

(** The first parameter of a method is a message. *)
Definition message_first (m : member) : Prop :=
  exists t ps, b_params m = JConstRef (JMessage t) :: ps \/ b_params m = JPointer (JMessage t) :: ps.

(** Where a quoted include in a header of the package [parts] is looked for: in the directory of that header, and in that of all generated
    files. *)
Definition header_directory (o : options) (parts : list string) : string :=
  if o_folder o then match parts with [] => "" | _ => join "/" parts ++ "/" end else "".
Definition include_gives (o : options) (parts : list string) (inc file : string) : Prop :=
  file = (header_directory o parts ++ inc)%string \/ file = inc.

(** The files of a program are in packages, and their names have no slash. *)
Definition files_ok (fs : list proto_file) : Prop :=
  forall f, In f fs -> (exists parts, package_parts parts /\ f_package f = package_of parts)
    /\ Forall (free_of "/") (f_messages f ++ f_services f)%list.

(** What tells overloads apart: two declarations with the same name and the same types of parameters in one class are an error. *)
Definition signature (m : member) : string * list jtype := (b_name m, b_params m).

(** Two procedures get methods that cannot be told apart: both are streams, with names that differ at most in the case of the first letter;
    or one is called what the method of the other stream is called. *)
Definition clash (x y : rpc) : Prop :=
  x_input x = x_input y /\ ~ unary x
  /\ ((~ unary y /\ first_capital (x_name x) = first_capital (x_name y)) \/ (unary y /\ x_name y = "stream" ++ first_capital (x_name x))).

(** Methods for programs in JavaScript. *)
Definition for_script (b : body) : Prop :=
  exists n, b = ScriptCallbackCall n \/ b = ScriptTargetCall n \/ b = ScriptStream n.

(** Procedures whose methods for QML have the same name as that of [x] are [x]. *)
Definition qml_name_free (v : service) (x : rpc) : Prop :=
  (forall y, In y (v_rpcs v) -> ~ unary y -> first_capital (x_name y) = first_capital (x_name x) -> y = x)
  /\ (forall y, In y (v_rpcs v) -> unary y -> x_name y <> "qmlStream" ++ first_capital (x_name x) ++ "_p").

(** * Meta types *)

(** A message with a class: the parts of its package, the names of the messages around it, its name. *)
Record known : Type := mkKnown { k_parts : list string; k_around : list string; k_name : string }.
Definition ref_of (k : known) : message_ref := mkMessageRef (package_of (k_parts k)) (k_around k) (k_name k).
Definition class_at (o : options) (k : known) : path := class_path o (k_parts k) (k_around k) (k_name k).

(** The names that a program is made of. *)
Definition known_ok (k : known) : Prop :=
  message_names_ok (k_parts k) (k_around k) (k_name k)
  /\ Forall (free_of "*") (k_parts k ++ k_around k ++ [k_name k])%list
  /\ plain_names (k_parts k ++ k_around k ++ [k_name k])%list.

(** The name by which the generator registers a message is made of the extra namespace, the package, the messages around it and its own.
    No two messages of a program have the same one. *)
Definition registered_path (o : options) (k : known) : path := (outer_namespaces o (k_parts k) ++ k_around k ++ [first_capital (k_name k)])%list.
Definition program_ok (o : options) (program : list known) : Prop :=
  (o_extra o = "" \/ (part_ok (o_extra o) /\ free_of "*" (o_extra o) /\ plain_names [o_extra o]))
  /\ Forall known_ok program
  /\ forall k k', In k program -> In k' program -> registered_path o k = registered_path o k' -> k = k'.

(** A procedure takes and gives messages of the program, which the compiler finds (see C57). *)
Definition takes (o : options) (program : list known) (compiled : string -> option (list string)) (full : string) (k : known) : Prop :=
  In k program /\ full = join "." (k_parts k ++ k_around k ++ [k_name k])%list
  /\ Forall capital (k_around k ++ [k_name k])%list
  /\ extra_ok o (k_parts k ++ k_around k)%list
  /\ compiled (text (k_parts k ++ k_around k ++ [k_name k])%list) = Some (class_at o k).

(** Declared in no other message. *)
Definition top_level (k : known) : Prop := k_around k = [].

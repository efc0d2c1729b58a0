(** Words used to state the properties of types, enumerations, constructors, includes and clients. *)

From Coq Require Import String Ascii ZArith List Bool Arith.
From Verif Require Import GenModel GenSpec GenTypesModel.
Import ListNotations.
Open Scope string_scope.

(** * Handlers *)

(** The types of fields that are neither messages nor enumerations. *)
Definition simple (t : ftype) : Prop := t <> TMessage /\ t <> TEnum.

(** What protobuf allows as type of keys. *)
Definition key_type (t : ftype) : Prop := simple t /\ t <> TFloat /\ t <> TDouble /\ t <> TBytes.

(** The handlers that a field needs: one for its values; for a map, those for the map, its keys and its values. *)
Definition element_handler (e : element) : handler :=
  match e with Simple t => HSimple t | Mess m => HObject m | Enu e => HEnum e | Qt q => HQt q end.
Definition list_handler (e : element) : option handler :=
  match e with Simple t => Some (HSimples t) | Mess m => Some (HList m) | Enu e => Some (HEnumList e) | Qt _ => None end.
Definition needed_handlers (s : shape) : option (list handler) :=
  match s with
  | One e => Some [element_handler e]
  | Many e => option_map (fun h => [h]) (list_handler e)
  | Assoc k v => Some [HMap k v; HSimple k; element_handler v]
  end.

(** The classes that an application consists of. *)
Definition classes_of (ps : list proto) : list message := flat_map (fun p => flat_map classes (o_messages p)) ps.

(** A message has a class. *)
Definition has_class (ps : list proto) (m : nat) : Prop := In m (map g_id (classes_of ps)).

(** An enumeration is declared at the top level of a file, or in a message with a field (not a map) of its type. *)
Definition direct_field (m : message) (e : nat) : Prop :=
  exists f, In f (g_fields m) /\ (m_shape f = One (Enu e) \/ m_shape f = Many (Enu e)).
Definition registered_enum (ps : list proto) (e : nat) : Prop :=
  (exists p x, In p ps /\ In x (o_enums p) /\ e_id x = e)
  \/ (exists m x, In m (classes_of ps) /\ In x (g_enums m) /\ e_id x = e /\ direct_field m e).

(** The type of a field can be handled. *)
Definition element_supported (ps : list proto) (qt : list string) (e : element) : Prop :=
  match e with
  | Simple t => simple t
  | Mess m => has_class ps m
  | Enu e => registered_enum ps e
  | Qt q => In q qt
  end.
Definition is_qt (e : element) : Prop := exists q, e = Qt q.
Definition shape_supported (ps : list proto) (qt : list string) (s : shape) : Prop :=
  match s with
  | One e => element_supported ps qt e
  | Many e => element_supported ps qt e /\ ~ is_qt e /\ e <> Simple TBool
  | Assoc k v => key_type k /\ element_supported ps qt v /\ ~ is_qt v
  end.

(** All that the functions of an application register, in some order. *)
Definition registrations (ps : list proto) (qt : list string) : list (ctype * handler) :=
  (flat_map register_proto ps ++ register_qt qt)%list.

(** * Names of enumerations *)

(** Where a C++ name is declared: the names of the namespaces and classes around it, and its own. *)
Definition path : Type := list string.
Definition text (p : path) : string := join "::" p.

(** A name, as it is printed in the class with path [place], means what is declared at [p]: put behind the path of
    the class, or of a class or namespace around it, it gives that path. *)
Definition means (place : path) (printed : string) (p : path) : Prop :=
  exists inner outer, place = (outer ++ inner)%list /\ text p = match outer with [] => printed | _ => text outer ++ "::" ++ printed end.

(** Parts of names contain neither dots nor colons. *)
Definition part_ok (s : string) : Prop := s <> "" /\ free_of "." s /\ free_of ":" s.

(** The path of the class of a message, with the messages around it: inside of the extra namespace and the package,
    and of one namespace for each message around it. *)
Definition class_path (o : options) (parts around : list string) (name : string) : path :=
  (outer_namespaces o parts ++ map (fun a => (first_capital a ++ "_QtProtobufNested")%string) around ++ [first_capital name])%list.

(** The other path to the class of a nested message: the class around it has an alias for it, which can be used where
    that class is complete. *)
Definition alias_path (o : options) (parts around : list string) (name : string) : path :=
  (outer_namespaces o parts ++ map first_capital around ++ [first_capital name])%list.

(** The path at which an enumeration is declared: inside of a class of its own, for one of the top level, or of that of
    the message around it. *)
Inductive declared_at (o : options) (parts : list string) : list string -> string -> path -> Prop :=
| at_gadget name :
    declared_at o parts [] name (outer_namespaces o parts ++ [(first_capital name ++ "Gadget")%string; first_capital name])%list
| at_class around m name :
    declared_at o parts (around ++ [m])%list name (class_path o parts around m ++ [first_capital name])%list.

(** The same, or the path through aliases. *)
Inductive reached_at (o : options) (parts : list string) : list string -> string -> path -> Prop :=
| reached_directly around name p : declared_at o parts around name p -> reached_at o parts around name p
| reached_by_alias around m name :
    reached_at o parts (around ++ [m])%list name (alias_path o parts around m ++ [first_capital name])%list.

(** An enumeration [name] is declared in message [m] of the file. *)
Definition has_enum (m : message) (name : string) : Prop := exists e, In e (g_enums m) /\ e_name e = name.

(** What the generator knows about an enumeration with the parts [parts] of its package, the messages [around] it, its
    [name] and the messages [file] of its file; and about a message in whose class it is used. *)
Definition enum_of (parts around : list string) (name : string) (file : list message) : enum_ref :=
  mkEnumRef (package_of parts) around name file.
Definition scope_of (parts around : list string) (m : message) : option scope := Some (mkScope (package_of parts) around m).

(** The names in it. *)
Definition enum_names_ok (parts around : list string) (name : string) (file : list message) : Prop :=
  Forall part_ok parts /\ Forall part_ok around /\ part_ok name
  /\ Forall (fun m => part_ok (g_name m) /\ Forall (fun e => part_ok (e_name e)) (g_enums m)) file.
Definition scope_names_ok (parts around : list string) (m : message) : Prop :=
  Forall part_ok parts /\ Forall part_ok around /\ part_ok (g_name m) /\ Forall (fun e => part_ok (e_name e)) (g_enums m).

(** The extra namespace has no dots and colons, and is not also the first part of a package. *)
Definition extra_ok (o : options) (parts : list string) : Prop :=
  o_extra o = "" \/ (part_ok (o_extra o) /\ forall rest, parts <> o_extra o :: rest).

(** Full names, as lists: protoc refuses two declarations with one full name. *)
Definition full_names (parts around : list string) (m : message) : list (list string) :=
  map (fun e => parts ++ around ++ [g_name m; e_name e])%list (g_enums m).

(** What the constant for the number of a field is called: the name of the field in camel case (with "_proto" behind
    names that QML does not allow) with a capital letter, and "ProtoFieldNumber". *)
Definition field_constant (name n : string) : Prop :=
  exists c, camel_case name c /\
    n = first_capital (if existsb (String.eqb c) ["id"; "property"; "import"] then c ++ "_proto" else c) ++ "ProtoFieldNumber".

(** * Constructors *)

(** What protobuf prescribes for a field without value. *)
Definition default_member (s : shape) (x : member) : Prop :=
  match s with
  | One (Simple TString) | One (Simple TBytes) | One (Qt _) | Many _ | Assoc _ _ => x = Constructed
  | One (Simple TDouble) | One (Simple TFloat) => x = Literal "0.0"
  | One (Simple TBool) => x = Literal "false"
  | One (Simple _) => x = Literal "0" \/ x = Constructed
  | One (Mess _) => x = NullPointer
  | One (Enu e) => x = Enumerator e
  end.

(** What a constructor makes of an argument: members of message types hold a copy of their own. *)
Definition argument_member (s : shape) (i : nat) (x : member) : Prop :=
  match s with One (Mess _) => x = CopyOf i | _ => x = Argument i end.

(** The constructors that can be called with arguments of exactly these types: the parent can be left out. *)
Definition fits (args params : list parameter) : Prop := params = args \/ params = (args ++ [PParent])%list.
Definition exactly_one {A : Type} (P : A -> Prop) (l : list A) : Prop :=
  exists a x b, l = (a ++ x :: b)%list /\ P x /\ Forall (fun y => ~ P y) (a ++ b)%list.
Definition more_than_one {A : Type} (P : A -> Prop) (l : list A) : Prop :=
  exists a x b y c, l = (a ++ x :: b ++ y :: c)%list /\ P x /\ P y.

(** * Includes *)

(** The includes that the use of a type needs in the header of message [own]. *)
Fixpoint needs (own : nat) (i : included) (x : include) : Prop :=
  match i with
  | InMessage _ highest _ _ path => highest <> own /\ x = Internal path
  | InQt name | InText name => x = External name
  | InEnum GLOBAL_ENUM _ _ => x = GlobalEnums
  | InEnum NEIGHBOR_ENUM dir owner => x = Internal (dir ++ in_small owner)
  | InEnum LOCAL_ENUM _ _ | InNumber => False
  | InMap key value => x = External "QMap" \/ needs own key x \/ needs own value x
  end.

(** What the descriptors answer: a message that is directly inside of the message [own], which is one of the top level, has it as
    outermost message. *)
Fixpoint right_answers (own : nat) (i : included) : Prop :=
  match i with
  | InMessage containing highest nested _ _ => containing = Some own -> highest = own
  | InMap key value => right_answers own key /\ right_answers own value
  | _ => True
  end.

(** A type inside of message [own]. *)
Fixpoint type_inside (own : nat) (i : included) : Prop :=
  match i with
  | InMessage _ highest nested _ _ => nested = true /\ highest = own
  | InMap key value => type_inside own key \/ type_inside own value
  | _ => False
  end.

(** Enumerations of other messages are those of the same directory. *)
Fixpoint same_directory (i : included) : Prop :=
  match i with
  | InEnum NEIGHBOR_ENUM dir _ => dir = ""
  | InMap key value => same_directory key /\ same_directory value
  | _ => True
  end.

(** Names of headers of messages are neither empty nor those of Qt. *)
Fixpoint names_in (i : included) : list string * list string :=
  match i with
  | InMessage _ _ _ _ path => ([path], [])
  | InEnum NEIGHBOR_ENUM _ owner => ([in_small owner], [])
  | InQt name | InText name => ([], [name])
  | InMap key value => (fst (names_in key) ++ fst (names_in value), ["QMap"] ++ snd (names_in key) ++ snd (names_in value))%list
  | _ => ([], [])
  end.
Definition names_apart (l : list included) : Prop :=
  forall i j, In i l -> In j l ->
    (forall x y, In x (fst (names_in i)) -> In y (snd (names_in j)) -> x <> y)
    /\ ~ In "" (fst (names_in i)) /\ ~ In "" (snd (names_in i)) .

(** * Clients *)

(** The path of a remote procedure, as gRPC prescribes it: /package.Service/Method. *)
Definition rpc_path (parts : list string) (v : service) (x : rpc) : string :=
  "/" ++ join "." (parts ++ [v_name v])%list ++ "/" ++ x_name x.

(** A method that opens a stream; one that makes a call. *)
Definition opens_stream (m : cmethod) : Prop :=
  match c_body m with OpenStream _ | OpenStreamTo _ | ScriptStream _ => True | _ => False end.

(** The C++ name of the class of a message, from its full name. *)
Definition class_text (full : list string) : string := join "::" full.

(** The parameters through which messages of a class can be sent. *)
Definition sends (t p : string) : Prop := p = "const " ++ t ++ " &" \/ p = t ++ " *".

(** * Timestamp *)

(** What google/protobuf/timestamp.proto says: the seconds and nanoseconds that stand for a time in milliseconds, the latter from 0 up
    to 999,999,999; and the time that they stand for. *)
Definition stands_for (ms : Z) (t : Z * Z) : Prop :=
  (fst t * 1000000000 + snd t = ms * 1000000 /\ 0 <= snd t < 1000000000)%Z.
Definition milliseconds (seconds nanos : Z) : Z := (seconds * 1000 + nanos / 1000000)%Z.

(** Words used to state the properties of the generator. *)

From Coq Require Import String Ascii ZArith List Bool Arith.
From Verif Require Import GenModel.
Import ListNotations.
Open Scope string_scope.

(** * Strings *)

(** The strings of a list with a separator between them. *)
Fixpoint join (d : string) (l : list string) : string :=
  match l with
  | [] => ""
  | [x] => x
  | x :: l' => x ++ d ++ join d l'
  end.

(** A string without a character. *)
Definition free_of (c : ascii) (s : string) : Prop := ~ In c (list_ascii_of_string s).

Definition ends_with (suffix s : string) : Prop := exists a, s = a ++ suffix.

(** Small and capital letters. *)
Definition small_letters : list ascii := list_ascii_of_string "abcdefghijklmnopqrstuvwxyz".
Definition capital_letters : list ascii := list_ascii_of_string "ABCDEFGHIJKLMNOPQRSTUVWXYZ".
Fixpoint exchange (l l' : list ascii) (c : ascii) : ascii :=
  match l, l' with x :: l1, y :: l2 => if Ascii.eqb x c then y else exchange l1 l2 c | _, _ => c end.
Definition to_small : ascii -> ascii := exchange capital_letters small_letters.
Definition to_capital : ascii -> ascii := exchange small_letters capital_letters.

(** The string in small letters; with a small, a capital first letter. *)
Fixpoint in_small (s : string) : string := match s with EmptyString => EmptyString | String c s' => String (to_small c) (in_small s') end.
Definition first_small (s : string) : string := match s with EmptyString => EmptyString | String c s' => String (to_small c) s' end.
Definition first_capital (s : string) : string := match s with EmptyString => EmptyString | String c s' => String (to_capital c) s' end.

(** A package: names with dots between them.  No names: no package. *)
Definition package_of (parts : list string) : string := join "." parts.
Definition package_parts (parts : list string) : Prop := Forall (fun p => p <> "" /\ free_of "." p) parts.

(** Names of messages, enumerations and services are identifiers. *)
Definition name_ok (name : string) : Prop := name <> "" /\ free_of "." name.
Definition names_ok (f : file) : Prop :=
  Forall (fun d => name_ok (d_name d)) (p_messages f) /\ Forall name_ok (p_enums f) /\ Forall name_ok (p_services f).

(** * Properties of a class *)

(** Small letters without underscores.  protoc refuses a proto3 message with two fields that agree in
    this. *)
Fixpoint key (s : string) : string :=
  match s with
  | EmptyString => EmptyString
  | String c s' => if Ascii.eqb c "_" then key s' else String (to_small c) (key s')
  end.

(** What protoc guarantees for the fields of a message. *)
Definition valid_fields (fs : list field) : Prop :=
  NoDup (map f_number fs) /\ NoDup (map (fun f => key (f_name f)) fs).

(** The property that belongs to the field at a position: it uses the getter and the setter of that field and
    has its type. *)
Definition belongs_to (p : property) (i : nat) : Prop := p_field p = i /\ p_access p = Stored.

Definition repeated_message (f : field) : Prop := f_type f = TMessage /\ f_repeated f = true /\ f_map f = false.

(** The name of a field in camel case: words with underscores between them ("foo_bar_baz") are put together, all
    but the first one with a capital letter; the first letter is small ("fooBarBaz"). *)
Definition camel_case (name n : string) : Prop :=
  exists w ws, name = join "_" (w :: ws) /\ Forall (free_of "_") (w :: ws)
    /\ n = first_small (w ++ join "" (map first_capital ws)).

(** What the property of a field is called: its name in camel case, with "_proto" behind names that QML does not
    allow. *)
Definition called (f : field) (n : string) : Prop :=
  exists c, camel_case (f_name f) c /\
    ((In c ["id"; "property"; "import"] /\ n = c ++ "_proto") \/ (~ In c ["id"; "property"; "import"] /\ n = c)).

(** The fields of a type for which QML gets a plain int. *)
Definition qml_number (f : field) : Prop :=
  f_repeated f = false /\ f_map f = false /\ In (f_type f) [TInt32; TSFixed32; TFixed32].

(** A repeated message field with another field that is called like it with "data" appended, as for
    "repeated Foo foo" and "string foo_data" (or fooData).  In a class without QML support another repeated
    message field does not count, as its property is called "fooDataData". *)
Definition clash (qml : bool) (fs : list field) : Prop :=
  exists f g n, In f fs /\ In g fs /\ repeated_message f
    /\ called f n /\ called g (n ++ "Data") /\ (qml = true \/ ~ repeated_message g).

(** * Namespaces *)

(** The printed constructs with the namespaces around each.  Nothing if a namespace is closed that is not
    open, or if one stays open. *)
Fixpoint placed_in (stack : list string) (l : list item) : option (list (list string * item)) :=
  match l with
  | [] => match stack with [] => Some [] | _ => None end
  | Open ns :: l' => placed_in (stack ++ [ns])%list l'
  | Close :: l' => match stack with [] => None | _ => placed_in (removelast stack) l' end
  | x :: l' => option_map (cons (stack, x)) (placed_in stack l')
  end.
Definition placed (l : list item) : option (list (list string * item)) := placed_in [] l.

(** The extra namespace, if there is one, and the parts of the package. *)
Definition outer_namespaces (o : options) (parts : list string) : list string :=
  match o_extra o with EmptyString => parts | e => e :: parts end.

(** Message [m] stands inside of the messages [ds], whose classes belong in the namespaces [base], and
    its class belongs in the namespaces [path]: for each message around it one more. *)
Inductive at_path (base : list string) (ds : list descriptor) : list string -> descriptor -> Prop :=
| at_top d : In d ds -> at_path base ds base d
| at_nested path d n :
    at_path base ds path d -> In n (d_nested d) ->
    at_path base ds (path ++ [(first_capital (d_name d) ++ "_QtProtobufNested")%string])%list n.

(** The messages around [m], from the outermost one. *)
Inductive inside (ds : list descriptor) : list string -> descriptor -> Prop :=
| inside_top d : In d ds -> inside ds [] d
| inside_nested around d n :
    inside ds around d -> In n (d_nested d) -> inside ds (around ++ [d_name d])%list n.

(** A name that starts with a capital letter (or with no letter). *)
Definition capital (name : string) : Prop := first_capital name = name.

(** * Classes for messages *)

(** The message and all inside of it. *)
Fixpoint messages_of (d : descriptor) : list descriptor :=
  match d with Descriptor _ _ _ nested => d :: flat_map messages_of nested end.
Definition all_messages (ds : list descriptor) : list descriptor := flat_map messages_of ds.

(** A type made for a map field of [d]. *)
Definition map_entry (d n : descriptor) : Prop :=
  exists f, In f (d_fields d) /\ f_map f = true /\ f_type_of f = Some (d_id n).

(** A field of [d] that is no map has type [n]. *)
Definition field_of_type (d n : descriptor) : Prop :=
  exists f, In f (d_fields d) /\ f_map f = false /\ f_type_of f = Some (d_id n).

(** What protoc guarantees: numbers (addresses) of messages are distinct; a type made for a map is not
    used by other fields and has no types inside of it. *)
Definition valid_messages (ds : list descriptor) : Prop :=
  NoDup (map d_id (all_messages ds))
  /\ forall d n, In d (all_messages ds) -> In n (d_nested d) -> map_entry d n ->
       ~ field_of_type d n /\ d_nested n = [].

(** A message that should get a class: one of the file that is not made for a map. *)
Inductive wants_class (ds : list descriptor) : descriptor -> Prop :=
| wants_top d : In d ds -> wants_class ds d
| wants_nested d n : wants_class ds d -> In n (d_nested d) -> ~ map_entry d n -> wants_class ds n.

Fixpoint declared_ids (l : list item) : list nat :=
  match l with [] => [] | Declare id _ _ :: l' => id :: declared_ids l' | _ :: l' => declared_ids l' end.
Fixpoint forward_ids (l : list item) : list nat :=
  match l with [] => [] | Forward id _ :: l' => id :: forward_ids l' | _ :: l' => forward_ids l' end.
Fixpoint defined_ids (l : list item) : list nat :=
  match l with [] => [] | Define id _ :: l' => id :: defined_ids l' | _ :: l' => defined_ids l' end.

(** The type is known to the compiler before the class [id] that comes after the items [before]. *)
Definition known (before : list item) (id t : nat) : Prop :=
  t = id \/ In t (forward_ids before) \/ In t (declared_ids before).

(** What is asked about the types that a header for the outermost message [d] mentions is answered
    rightly. *)
Definition right_lookup (lookup : nat -> reference) (d : descriptor) : Prop :=
  forall t, (r_nested (lookup t) = false -> r_highest (lookup t) = t)
    /\ (r_containing (lookup t) = Some (d_id d) -> r_highest (lookup t) = d_id d).

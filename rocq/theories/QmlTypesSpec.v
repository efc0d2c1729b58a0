(** Words used to state the properties of types in QML. *)

From Coq Require Import String Ascii ZArith List Bool Arith.
From Verif Require Import GenModel GenSpec GenTypesModel GenTypesSpec GenClassSpec QmlTypesModel.
Import ListNotations.
Open Scope string_scope.

(** Message [m] of the file has a class, and stands inside of the messages [around].  (A message that is declared in one
    with fields has a class if one of these fields has its type, [aliased]: see property C47.) *)
Inductive class_of (p : proto) : list string -> message -> Prop :=
| class_top m : In m (o_messages p) -> class_of p [] m
| class_nested around m n :
    class_of p around m -> aliased m n ->
    class_of p (around ++ [g_name m])%list n.

(** The type [t], called [name], of a file of the package [parts] stands inside of the messages [around]. *)
Inductive type_of (p : proto) : list string -> string -> qml_type -> Prop :=
| type_message around m : class_of p around m -> type_of p around (g_name m) (QmlMessage m)
| type_enum e : In e (o_enums p) -> type_of p [] (e_name e) (QmlEnum e).

(** The QML module for it, as parts: the extra namespace, if there is one, the package, and the messages around the
    type.  And as it is written in an import. *)
Definition module_parts (o : options) (parts around : list string) : list string := (outer_namespaces o parts ++ around)%list.
Definition module (o : options) (parts around : list string) : string := join "." (module_parts o parts around).

(** A file of a package, and the names in it. *)
Record source : Type := mkSource { src_parts : list string; src_file : proto }.
Definition source_ok (s : source) : Prop :=
  o_package (src_file s) = package_of (src_parts s)
  /\ Forall identifier (src_parts s)
  /\ forall around name t, type_of (src_file s) around name t -> Forall identifier around /\ identifier name.

(** A program consists of files that were generated with the same options. *)
Definition type_in (o : options) (program : list source) (place : list string) (name : string) (t : qml_type) : Prop :=
  exists s around, In s program /\ type_of (src_file s) around name t /\ place = module_parts o (src_parts s) around.

(** No two types of one place have names that differ in the case of the first letter only (or are equal). *)
Definition names_apart (o : options) (program : list source) : Prop :=
  forall place n t n' t', type_in o program place n t -> type_in o program place n' t' ->
    first_capital n = first_capital n' -> t = t'.

(** All that a program registers. *)
Definition registered (o : options) (program : list source) : list registration :=
  flat_map (fun s => qml_register o (src_file s)) program.

(** What can be written in a QML document: a module is imported by identifiers with dots between them, a type has a
    name that starts with a capital letter.  (Words that QML reserves are left out.) *)
Definition importable (uri : string) : Prop := exists parts, parts <> [] /\ Forall identifier parts /\ uri = join "." parts.
Definition type_name (n : string) : Prop := identifier n /\ exists c s, n = String c s /\ In c capital_letters.

(** A name starts with a letter. *)
Definition starts_with_letter (s : string) : Prop := exists c s', s = String c s' /\ (In c small_letters \/ In c capital_letters).

(** The values of the enumerations of a type: those declared in the message, or those of the enumeration. *)
Definition value_in (t : qml_type) (name : string) (number : Z) : Prop :=
  match t with
  | QmlMessage m => exists e, In e (g_enums m) /\ In (name, number) (e_values e)
  | QmlEnum e => In (name, number) (e_values e)
  end.
Definition values_apart (t : qml_type) : Prop :=
  forall a b x y, value_in t a x -> value_in t b y -> first_capital a = first_capital b -> x = y.

(** The names of messages as the generator prints them where they are used. *)

From Coq Require Import String Ascii ZArith List Bool Arith.
From Verif Require Import GenModel GenTypesModel.
Import ListNotations.
Open Scope string_scope.

(** What the generator asks about a message: its package, the names of the messages around it, from the outermost
    one, and its name. *)
Record message_ref : Type := mkMessageRef { mr_package : string; mr_around : list string; mr_name : string }.
Definition ref_full (r : message_ref) : string := message_full (mr_package r) (mr_around r) (mr_name r).

(** namespaceList and nestedNamespaceList of produceMessageTypeMap, generatorcommon.cpp 97-105: the extra namespace
    is in the first one only.  isNested, generatorcommon.cpp 472-475. *)
Definition message_namespaces (o : options) (r : message_ref) : list string := namespaces o (ref_full r).
Definition nested_namespace_list (o : options) (r : message_ref) : list string :=
  match mr_around r with
  | [] => message_namespaces o r
  | _ :: _ => getNestedNamespaces (mr_package r) (ref_full r)
  end.

(** scopeNamespaces, generatorcommon.cpp 107. *)
Definition message_scope_namespaces (o : options) (r : message_ref) (s : option scope) : string :=
  getScopeNamespacesString (namespaces_string (nested_namespace_list o r)) (scope_namespaces s).

(** full_type (property_type), scope_type (getter_type, setter_type), full_list_type and scope_list_type,
    generatorcommon.cpp 110-132, with ListSuffix of templates.cpp. *)
Definition list_suffix : string := "Repeated".
Definition message_full_type (o : options) (r : message_ref) : string :=
  in_namespace (namespaces_string (message_namespaces o r)) (upperCaseName (mr_name r)).
Definition message_scope_type (o : options) (r : message_ref) (s : option scope) : string :=
  in_namespace (message_scope_namespaces o r s) (upperCaseName (mr_name r)).
Definition message_full_list_type (o : options) (r : message_ref) : string :=
  in_namespace (namespaces_string (message_namespaces o r)) (upperCaseName (mr_name r) ++ list_suffix).
Definition message_scope_list_type (o : options) (r : message_ref) (s : option scope) : string :=
  in_namespace (message_scope_namespaces o r s) (upperCaseName (mr_name r) ++ list_suffix).

(** input_type and output_type of produceMethodMap, generatorcommon.cpp 411-423. *)
Definition method_type (r : message_ref) : string := cpp_type (ref_full r).

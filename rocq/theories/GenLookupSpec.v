(** How C++ finds what a printed name means. *)

From Coq Require Import String Ascii ZArith List Bool Arith.
From Verif Require Import GenModel GenSpec GenTypesModel GenTypesSpec.
Import ListNotations.
Open Scope string_scope.

(** The paths of all that is declared.  What something is declared in is declared, too. *)
Definition closed (declared : path -> Prop) : Prop := forall p q, declared (p ++ q)%list -> p <> [] -> declared p.

(** The first part of a name. *)
Definition first_part (l : path) : string := match l with [] => "" | a :: _ => a end.

(** Lookup of a name with the parts [parts], in a class or namespace with path [place]: of the classes and namespaces
    around that place, the innermost one is taken in which the first part is declared; the other parts are looked for
    in what was found, and nowhere else.  The result is what is declared at [p].  (Base classes and using directives
    play no part: the generated headers have none that matter, except for the members of QObject.) *)
Definition found (declared : path -> Prop) (place parts p : path) : Prop :=
  exists outer inner, place = (outer ++ inner)%list
    /\ declared (outer ++ [first_part parts])%list
    /\ (forall outer' inner', place = (outer' ++ inner')%list -> List.length outer < List.length outer' ->
        ~ declared (outer' ++ [first_part parts])%list)
    /\ p = (outer ++ parts)%list /\ declared p.

(** Something of the same name as the first part of a name, which is to be found in [outer], is declared further in. *)
Definition hidden (declared : path -> Prop) (place outer parts : path) : Prop :=
  exists outer' inner', place = (outer' ++ inner')%list /\ List.length outer < List.length outer'
    /\ declared (outer' ++ [first_part parts])%list.

(** The names of messages, their packages and the extra namespace. *)
Definition message_names_ok (parts around : list string) (name : string) : Prop :=
  Forall part_ok parts /\ Forall part_ok around /\ part_ok name.

(** The messages [around], in the package [ps], are not also a package around that of [pt]: protoc refuses that; and the
    extra namespace is not the name of the outermost of them, or of the package. *)
Definition messages_apart (o : options) (ps around pt : list string) : Prop :=
  (forall rest, around <> [] -> pt <> (ps ++ around ++ rest)%list) /\ extra_ok o (ps ++ around)%list.

(** No name ends like the namespaces for nested messages. *)
Definition plain_names (l : list string) : Prop := forall a, In a l -> forall x, a <> x ++ "_QtProtobufNested".

(** The path of the type of lists of a message: next to the class. *)
Definition list_path (o : options) (parts around : list string) (name : string) : path :=
  (outer_namespaces o parts ++ map (fun a => (first_capital a ++ "_QtProtobufNested")%string) around
   ++ [(first_capital name ++ "Repeated")%string])%list.

(** The extra namespace, as path. *)
Definition extra_path (o : options) : path := match o_extra o with EmptyString => [] | e => [e] end.

(** A class inside of the namespaces of a package. *)
Definition package_class (o : options) (parts : list string) (name : string) : path := (outer_namespaces o parts ++ [name])%list.

(** The path of the other name for the lists of a message, next to the other name of the class. *)
Definition alias_list_path (o : options) (parts around : list string) (name : string) : path :=
  (outer_namespaces o parts ++ map first_capital around ++ [(first_capital name ++ "Repeated")%string])%list.

(** Clients and servers that are built from different versions of the .proto files. *)

From Coq Require Import ZArith String List Bool.
From Verif Require Values.
From Verif Require Import Base MessageSpec EvolveSpec GenModel GenSpec GenTypesModel GenTypesSpec LinkSpec WholeSpec.
Import ListNotations.

(** The message [r] of type [k'] in the program with the schema [sch'] is what the message [obj] of type [k] becomes there: fields with
    the same number have the same values, other fields of [r] have their default values, at any depth (see EvolveSpec). *)
Definition received_as (sch sch' : Values.schema) (k k' : nat) (obj r : list Values.value) : Prop :=
  exists r', same sch' k' r r' /\ becomes sch sch' (Values.EM k) (Values.EM k') (Values.VMsg obj) (Values.VMsg r').

(** The service [v'] of the files [ps'] is a version of the service [v] of the files [ps]: it has the same name, and for each procedure of [v]
    one with the same name, which is of the same kind and whose messages are versions of those of the other.  [v'] may have more
    procedures. *)
Definition same_procedure (newer : nat -> nat -> Prop) (ps ps' : list proto) (x x' : rpc) : Prop :=
  x_name x' = x_name x /\ x_server_streams x' = x_server_streams x
  /\ (forall i i', full_name_of ps (x_input x) i -> full_name_of ps' (x_input x') i' -> newer i i')
  /\ (forall i i', full_name_of ps (x_output x) i -> full_name_of ps' (x_output x') i' -> newer i i').
Definition service_versions (newer : nat -> nat -> Prop) (ps ps' : list proto) (v v' : service) : Prop :=
  v_package v' = v_package v /\ v_name v' = v_name v
  /\ forall x, In x (v_rpcs v) -> exists x', In x' (v_rpcs v') /\ same_procedure newer ps ps' x x'.

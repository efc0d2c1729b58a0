(** A server for a service as gRPC over HTTP/2 describes it, written with a program from the same .proto files as the client. *)

From Coq Require Import ZArith String List Bool.
From Verif Require Values.
From Verif Require Import Base FrameSpec MessageModel GenModel GenSpec GenTypesModel GenTypesSpec LinkSpec RequestModel WholeModel.
Import ListNotations.
Open Scope string_scope.

(** * Names of messages *)

(** The message with a name inside of others: the names of the messages around it and its own. *)
Inductive message_at : list message -> list string -> nat -> Prop :=
| at_top ms m : In m ms -> message_at ms [g_name m] (g_id m)
| at_inner ms m path i : In m ms -> message_at (g_nested m) path i -> message_at ms (g_name m :: path) i.

(** The full name of a message of the files: package and path, with dots. *)
Definition full_name_of (ps : list proto) (full : string) (i : nat) : Prop :=
  exists f parts path, In f ps /\ package_parts parts /\ o_package f = package_of parts /\ message_at (o_messages f) path i
    /\ full = join "." (parts ++ path)%list.

(** The class at position [k] is that of the message with this full name. *)
Definition class_of (ps : list proto) (full : string) (k : nat) : Prop :=
  exists c, nth_error (classes_of ps) k = Some c /\ full_name_of ps full (g_id c).

(** * Requests *)

(** Names of headers are compared without case. *)
Definition header_is (hs : list header) (name value : string) : Prop :=
  (exists n, In (n, value) hs /\ in_small n = name) /\ forall n v, In (n, v) hs -> in_small n = name -> v = value.

(** A request of the procedure [x] with the message [arg]: path, headers that gRPC requires, body. *)
Definition requests {ssl : Type} (parts : list string) (v : service) (x : rpc) (rq : request ssl) (arg : list Z) : Prop :=
  u_path (rq_url rq) = rpc_path parts v x
  /\ header_is (rq_headers rq) "content-type" "application/grpc" /\ header_is (rq_headers rq) "te" "trailers"
  /\ framed 0 arg (rq_body rq).

(** * Servers *)

Section Server.
  Context {ssl : Type} (ps : list proto) (parts : list string) (v : service).
  (** The schema that the program of the server runs with, and what it implements: the answer to a message, and the answers for streams. *)
  Context (sch : Values.schema) (answer : rpc -> list Values.value -> list Values.value)
    (answers : rpc -> list Values.value -> list (list Values.value)).

  (** The network operation of a call ends without error, with the status 0 ("0" is 48) and the framed answer. *)
  Definition serves_calls (net : network ssl) : Prop :=
    forall x rq arg a kin kout,
      In x (v_rpcs v) -> x_server_streams x = false -> requests parts v x rq arg ->
      class_of ps (x_input x) kin -> class_of ps (x_output x) kout -> deserializes sch kin arg a (Ok tt) ->
      exists bs flag bytes, serializes sch kout (answer x a) bs /\ (Zlen bs <= INT_MAX)%Z /\ framed flag bs bytes
        /\ net rq = (0%Z, [48%Z], bytes).

  (** A stream delivers the framed answers in some pieces. *)
  Definition serves_streams (net : request ssl -> list (list Z)) : Prop :=
    forall x rq arg a kin kout,
      In x (v_rpcs v) -> x_server_streams x = true -> requests parts v x rq arg ->
      class_of ps (x_input x) kin -> class_of ps (x_output x) kout -> deserializes sch kin arg a (Ok tt) ->
      exists messages frames, Forall2 (serializes sch kout) (answers x a) messages /\ Forall FrameSpec.fits messages /\ frames_of messages frames
        /\ concat (net rq) = concat frames /\ well_cut frames (net rq).
End Server.

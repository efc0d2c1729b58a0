(** A server for a service behind the gRPC library, written with a program from the same .proto files as the client. *)

From Coq Require Import ZArith String List Bool.
From Verif Require Values.
From Verif Require Import Base MessageModel GenModel GenSpec GenTypesModel GenTypesSpec WholeSpec NativeModel NativeSpec NativeCallModel.
Import ListNotations.

Section Server.
  Context (ps : list proto) (parts : list string) (v : service).
  (** The schema that the program of the server runs with, and what it implements: the answer to a message, and the answers for streams. *)
  Context (sch : Values.schema) (answer : rpc -> list Values.value -> list Values.value)
    (answers : rpc -> list Values.value -> list (list Values.value)).

  (** A buffer with these bytes, in whatever slices. *)
  Definition holds (b : buffer) (bs : list Z) : Prop := exists l, b = Slices l /\ concat l = bs.

  (** The library passes the bytes of a request to the procedure of that path and returns the bytes of the answer. *)
  Definition library_calls (lib : library) : Prop :=
    forall x slices a kin kout,
      In x (v_rpcs v) -> x_server_streams x = false ->
      class_of ps (x_input x) kin -> class_of ps (x_output x) kout -> deserializes sch kin (concat slices) a (Ok tt) ->
      exists bs b, serializes sch kout (answer x a) bs /\ (Zlen bs <= INT_MAX)%Z /\ holds b bs /\ l_call lib (rpc_path parts v x) slices = (0%Z, b).

  Definition library_streams (lib : library) : Prop :=
    forall x slices a kin kout,
      In x (v_rpcs v) -> x_server_streams x = true ->
      class_of ps (x_input x) kin -> class_of ps (x_output x) kout -> deserializes sch kin (concat slices) a (Ok tt) ->
      exists messages bs, Forall2 (serializes sch kout) (answers x a) messages /\ Forall (fun m => (Zlen m <= INT_MAX)%Z) messages
        /\ Forall2 holds bs messages /\ l_stream lib (rpc_path parts v x) slices = (bs, 0%Z).
End Server.

(** The thread of work [i] has run to its end, the user has not disturbed it, and the event loop has handled all events. *)
Definition work_done (evs : list event) (n : world) (i : nat) : Prop :=
  execution evs n /\ In (WExit i) evs /\ ~ disturbed i (w_owner (work_at n i)) evs /\ n_queue n = [].

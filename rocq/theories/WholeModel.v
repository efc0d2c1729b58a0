(** A method of a generated client from the arguments to the result, over HTTP/2 with the binary serializer.  This ties the models of clients
    (GenTypesModel), calls (CallModel), requests (RequestModel), frames (FrameModel) and messages (MessageModel) together. *)

From Coq Require Import ZArith String List Bool.
From Verif Require Values.
From Verif Require Import Base FrameModel CallModel MessageModel GenModel GenTypesModel RequestModel.
Import ListNotations.
Open Scope Z_scope.

Section Whole.
  Variable ssl : Type.

  (** How a request ends: error of the QNetworkReply, value of the grpc-status header, body.  Not part of the repository. *)
  Definition network : Type := request ssl -> Z * list Z * list Z.

  (** A generated client: the service it is generated for, its channel, and the schema that the program runs with (see LinkModel). *)
  Record client : Type := mkClient { cl_service : service; cl_channel : channel ssl; cl_schema : Values.schema }.

  (** The request that a method of the client makes: "call("$method_name$", ...)" of templates.cpp 306-371, qabstractgrpcclient.cpp 75-131 with the
      name of the service from the constructor, templates.cpp 303, and QGrpcHttp2ChannelPrivate::post, qgrpchttp2channel.cpp 115-137. *)
  Definition sends_request (c : client) (b : body) (args : list Z) : request ssl :=
    post (cl_channel c) (passed_name b) (service_name (cl_service c)) args.

  (** Deserialization into the target of a call, qabstractprotobufserializer.h 97-111: a new object is filled and assigned, also if an
      exception passes.  (C17 is about the assignment.) *)
  Definition target_after (fuel : nat) (c : client) (k : nat) (data : list Z) : list Values.value :=
    fst (deserializeMessage fuel false (cl_schema c) k data).
  Definition outcome (fuel : nat) (c : client) (k : nat) (data : list Z) : res unit :=
    snd (deserializeMessage fuel false (cl_schema c) k data).

  (** A method that blocks, templates.cpp 306-310: status, error signals of the client, and the target after the call.  [kin], [kout]: the
      classes of argument and target.  QGrpcHttp2Channel::call, qgrpchttp2channel.cpp 211-229; simplified to targets that are there
      from beginning to end. *)
  Definition blocking_call (fuel : nat) (net : network) (c : client) (b : body) (kin kout : nat) (arg target : list Values.value)
    : res (Z * list Z) * list Values.value :=
    let over a := let '(err, status, answer) := net (sends_request c b a) in http2_call err status answer in
    let sent := serializeMessage fuel (cl_schema c) kin arg in
    (sync_call (Some over) true false false sent (outcome fuel c kout),
     match (a <- sent ;; over a) with
     | Ok (code, data) => if code =? 0 then target_after fuel c kout data else target
     | _ => target
     end).

  (** One that returns a reply, templates.cpp 311-371: the state of the reply when the network operation has ended.  qabstractgrpcclient.h 117-131,
      qgrpchttp2channel.cpp 231-270. *)
  Definition reply_of_call (fuel : nat) (net : network) (c : client) (b : body) (kin : nat) (arg : list Values.value) : res call_state :=
    a <- serializeMessage fuel (cl_schema c) kin arg ;;
    let '(err, status, answer) := net (sends_request c b a) in
    http2_events new_call [NetworkDone err status answer].

  (** QGrpcAsyncOperationBase::read, qgrpcasyncoperationbase_p.h 54-63: status, error signals, and the object. *)
  Definition read_from (fuel : nat) (c : client) (kout : nat) (r : call_state) : res (Z * list Z) * list Values.value :=
    (read_reply true (outcome fuel c kout) r, target_after fuel c kout (c_data r)).

  (** A stream: the data of the messages for the handler, from the pieces in which the network delivers the body,
      qgrpchttp2channel.cpp 272-318; and what the handler of "OpenStreamTo" makes of them, qabstractgrpcclient.h 174-184: the values
      that the target has one after the other, and the outcomes. *)
  Definition stream_of (fuel : nat) (c : client) (kout : nat) (chunks : list (list Z)) : list (list Values.value * res unit) * res entry :=
    let '(messages, r) := read_stream fuel (fun _ => false) None chunks in
    (map (fun d => (target_after fuel c kout d, outcome fuel c kout d)) messages, r).
End Whole.

Arguments mkClient {ssl}.
Arguments cl_service {ssl}.
Arguments cl_channel {ssl}.
Arguments cl_schema {ssl}.
Arguments sends_request {ssl}.
Arguments target_after {ssl}.
Arguments outcome {ssl}.
Arguments blocking_call {ssl}.
Arguments reply_of_call {ssl}.
Arguments read_from {ssl}.
Arguments stream_of {ssl}.

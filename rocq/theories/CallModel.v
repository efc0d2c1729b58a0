(** Model of unary calls: src/grpc/qgrpccallreply.cpp, qgrpchttp2channel.cpp, qgrpcchannel.cpp,
    qabstractgrpcclient.h/.cpp. *)

From Coq Require Import ZArith List Bool.
From Verif Require Import Base FrameModel.
Import ListNotations.
Open Scope Z_scope.

(** ** Asynchronous calls *)

(** Terminal signals of a QGrpcCallReply: finished with the data the reply holds then, error with the
    status code. *)
Inductive signal : Type :=
| Finished (data : list Z)
| Error (code : Z).

(** State of a call. *)
Record call_state : Type := mkCall {
  c_running : bool;         (* the network operation is running *)
  c_connected : bool;       (* *connection: end of the network operation -> slot of the channel *)
  c_abort : bool;           (* *abortConnection: error of the reply -> slot of the channel *)
  c_client : bool;          (* errorConnection, finishedConnection of the client *)
  c_data : list Z;          (* QGrpcAsyncOperationBase::m_data *)
  c_signals : list signal;  (* signals of the reply, oldest first *)
  c_errors : list Z         (* error signals of the client, oldest first *)
}.

(** State when call(method, arg) returns: qabstractgrpcclient.cpp 108-125 and
    qgrpchttp2channel.cpp 234-269 or qgrpcchannel.cpp 211-240. *)
Definition new_call : call_state := mkCall true true true true [] [] [].

Definition Aborted : Z := 10.

(** reply->error(code).  Slots in the order of connection: qabstractgrpcclient.cpp 112-117 (client), then
    qgrpchttp2channel.cpp 259-269 / qgrpcchannel.cpp 233-238 (channel).  Slots of the user
    see the signal last; they are recorded only. *)
Definition emit_error (code : Z) (c : call_state) : call_state :=
  let hit := c_abort c && (code =? Aborted) in
  mkCall (c_running c) (if hit then false else c_connected c) (if hit then false else c_abort c) false
    (c_data c) (c_signals c ++ [Error code]) (if c_client c then c_errors c ++ [code] else c_errors c).

(** reply->finished(); qabstractgrpcclient.cpp 119-123. *)
Definition emit_finished (c : call_state) : call_state :=
  mkCall (c_running c) (c_connected c) (c_abort c) false (c_data c)
    (c_signals c ++ [Finished (c_data c)]) (c_errors c).

Definition set_data (d : list Z) (c : call_state) : call_state :=
  mkCall (c_running c) (c_connected c) (c_abort c) (c_client c) d (c_signals c) (c_errors c).
Definition disconnect (c : call_state) : call_state :=
  mkCall (c_running c) false false (c_client c) (c_data c) (c_signals c) (c_errors c).
Definition stop (c : call_state) : call_state :=
  mkCall false (c_connected c) (c_abort c) (c_client c) (c_data c) (c_signals c) (c_errors c).

(** QGrpcCallReply::abort, qgrpccallreply.cpp 32-43; from another thread the same is done by
    the thread of the reply while the caller waits. *)
Definition abort_call (c : call_state) : call_state := emit_error Aborted (set_data [] c).

(** Events of a call over HTTP/2. *)
Inductive call_event : Type :=
| NetworkDone (err : Z) (status body : list Z)  (* QNetworkReply::finished *)
| Timeout                                       (* qgrpchttp2channel.cpp 147-152 *)
| SslErrors                                     (* qgrpchttp2channel.cpp 140-145 *)
| UserAbort.                                        (* QGrpcCallReply::abort *)

(** End of the network operation (at most once): qgrpchttp2channel.cpp 238-257. *)
Definition network_done (err : Z) (status body : list Z) (c : call_state) : res call_state :=
  if negb (c_running c) then Ok c
  else if negb (c_connected c) then Ok (stop c)
  else
    '(code, data) <- processReply err status body ;;
    let c1 := disconnect (stop c) in
    Ok (if code =? 0 then emit_finished (set_data data c1) else emit_error code (set_data [] c1)).

(** abortNetworkReply, qgrpchttp2channel.cpp 156-162: QNetworkReply::abort ends the operation with
    OperationCanceledError (5). *)
Definition http2_event (c : call_state) (e : call_event) : res call_state :=
  match e with
  | NetworkDone err status body => network_done err status body c
  | Timeout | SslErrors => network_done 5 [] [] c
  | UserAbort => Ok (abort_call c)
  end.

Fixpoint http2_events (c : call_state) (evs : list call_event) : res call_state :=
  match evs with
  | [] => Ok c
  | e :: evs' => c' <- http2_event c e ;; http2_events c' evs'
  end.

(** The channel based on the gRPC library, qgrpcchannel.cpp 207-241: [NativeDone code response]: the
    thread has ended with this status and response. *)
Inductive native_event : Type :=
| NativeDone (code : Z) (response : list Z)
| NativeAbort.

Definition native_done (code : Z) (response : list Z) (c : call_state) : call_state :=
  if negb (c_running c) then c
  else if negb (c_connected c) then stop c
  else disconnect (if code =? 0 then emit_finished (set_data response (stop c))
                   else emit_error code (set_data [] (stop c))).

Definition native_step (c : call_state) (e : native_event) : call_state :=
  match e with
  | NativeDone code response => native_done code response c
  | NativeAbort => abort_call c
  end.

(** ** Synchronous calls *)

(** tryDeserialize, qabstractgrpcclient.h 206-232.  [ready]: serializer() is not null; [des]: outcome of
    ret.deserialize.  Result: status code and error signals of the client. *)
Definition tryDeserialize (ready : bool) (des : res unit) : res (Z * list Z) :=
  if ready then
    match des with
    | Ok _ => Ok (0, [])
    | Throw InvalidArgument => Ok (3, [3])
    | Throw OutOfRange => Ok (11, [11])
    | Throw _ => Ok (13, [13])
    | UB u => UB u
    | OutOfFuel => OutOfFuel
    end
  else Ok (2, [2]).

(** QAbstractGrpcClient::call, qabstractgrpcclient.cpp 75-97.  [channel]: the attached channel,
    from the argument to status and response.  Called from another thread the same is done in
    the thread of the client (78-84).  Result: status, response and error signals. *)
Definition raw_call (channel : option (list Z -> res (Z * list Z))) (arg : list Z)
  : res (Z * list Z * list Z) :=
  '(code, ret) <- match channel with Some ch => ch arg | None => Ok (2, []) end ;;
  Ok (code, ret, if code =? 0 then [] else [code]).

(** call<A, R>, qabstractgrpcclient.h 92-115.  [has_serializer]: channel->serializer() is not null;
    [null_before], [null_after]: the QPointer to the target is null before and after the
    call of the channel, which runs an event loop; [arg]: outcome of arg.serialize; [des]: outcome of
    deserializing a response. *)
Definition sync_call (channel : option (list Z -> res (Z * list Z))) (has_serializer null_before null_after : bool)
  (arg : res (list Z)) (des : list Z -> res unit) : res (Z * list Z) :=
  if null_before then Ok (3, [3])
  else
    let ready := match channel with Some _ => has_serializer | None => false end in
    if negb ready then Ok (2, [2])
    else
      a <- arg ;;
      '(code, ret, errs) <- raw_call channel a ;;
      if code =? 0 then
        if null_after then UB NullDeref
        else '(code', errs') <- tryDeserialize ready (des ret) ;; Ok (code', errs ++ errs')
      else Ok (code, errs).

(** QGrpcAsyncOperationBase::read, qgrpcasyncoperationbase_p.h 54-63. *)
Definition read_reply (ready : bool) (des : list Z -> res unit) (c : call_state) : res (Z * list Z) :=
  tryDeserialize ready (des (c_data c)).

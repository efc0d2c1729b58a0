(** Model of server streams as the client sees them: src/grpc/qabstractgrpcclient.cpp (attachChannel,
    stream), qgrpcstream.h/.cpp and the signal connections of qgrpchttp2channel.cpp and
    qgrpcchannel.cpp.  One event of the event loop is one step; slots of the user are run last by
    Qt and are later steps here.  How bytes are cut into messages is the matter of FrameModel. *)

From Coq Require Import ZArith List Bool Arith.
From Verif Require Import Base.
Import ListNotations.
Open Scope Z_scope.

(** The two channel classes: QGrpcHttp2Channel, QGrpcChannel. *)
Inductive kind : Type := Http2 | Native.

(** A channel object: its number and class. *)
Definition channel : Type := (nat * kind)%type.

(** qgrpcstream.h 104-107 and the lifetime of the object, which is governed by shared pointers:
    the two slots of the client (qabstractgrpcclient.cpp 155, 171) hold one each as long as they are
    connected, activeStreams and the user hold the others. *)
Record stream : Type := mkStream {
  s_method : list Z;
  s_arg : list Z;
  s_handlers : list nat;   (* m_handlers; functions are named by numbers *)
  s_client : bool;         (* *errorConnection and *finishedConnection exist *)
  s_refs : nat;            (* shared pointers held by the user *)
  s_deleted : bool         (* the deferred deletion has happened *)
}.

(** A connection (QNetworkReply or QGrpcChannelStream) with its slots. *)
Record conn : Type := mkConn { n_id : nat; n_stream : nat; n_channel : channel }.

(** What can be observed from outside, in order. *)
Inductive output : Type :=
| OReturned (sid : nat) (h : option nat)      (* stream() with handler h returned stream sid *)
| OOpen (cid sid : nat) (ch : channel)        (* request of stream sid sent on a new connection cid *)
| OClose (cid : nat)                          (* connection closed by the client *)
| OMessage (sid : nat) (h : nat) (data : list Z)   (* handler h called *)
| OReceived (sid : nat) (data : list Z)       (* signal messageReceived with read() = data *)
| OFinished (sid : nat)                       (* signal finished of the stream *)
| OError (sid : nat) (code : Z)               (* signal error of the stream *)
| OClientError (code : Z).                    (* signal error of the client *)

(** QAbstractGrpcClientPrivate, qabstractgrpcclient.cpp 38-45, with all streams and connections. *)
Record client : Type := mkClient {
  k_channel : option channel;
  k_active : list nat;        (* activeStreams *)
  k_streams : list stream;    (* all streams, by number *)
  k_conns : list conn;        (* open connections *)
  k_next : nat;               (* number of the next connection *)
  k_timers : list nat;        (* pending QTimer::singleShot, by stream *)
  k_log : list output
}.

Definition new_client : client := mkClient None [] [] [] 0 [] [].

Definition no_stream : stream := mkStream [] [] [] false 0 true.
Definition stream_at (c : client) (sid : nat) : stream := nth sid (k_streams c) no_stream.

(** QGrpcStream::operator==, qgrpcstream.h 98-101. *)
Fixpoint bytes_eqb (a b : list Z) : bool :=
  match a, b with
  | [], [] => true
  | x :: a', y :: b' => (x =? y) && bytes_eqb a' b'
  | _, _ => false
  end.
Definition equal_to (c : client) (method arg : list Z) (sid : nat) : bool :=
  bytes_eqb (s_method (stream_at c sid)) method && bytes_eqb (s_arg (stream_at c sid)) arg.

Fixpoint set_nth {A : Type} (i : nat) (x : A) (l : list A) : list A :=
  match l, i with
  | [], _ => []
  | _ :: l', O => x :: l'
  | y :: l', S i' => y :: set_nth i' x l'
  end.

Fixpoint remove_nth {A : Type} (i : nat) (l : list A) : list A :=
  match l, i with
  | [], _ => []
  | _ :: l', O => l'
  | y :: l', S i' => y :: remove_nth i' l'
  end.

(** std::find_if followed by erase. *)
Fixpoint erase_first (p : nat -> bool) (l : list nat) : list nat :=
  match l with
  | [] => []
  | x :: l' => if p x then l' else x :: erase_first p l'
  end.

Definition say (o : list output) (c : client) : client :=
  mkClient (k_channel c) (k_active c) (k_streams c) (k_conns c) (k_next c) (k_timers c) (k_log c ++ o).
Definition with_stream (sid : nat) (s : stream) (c : client) : client :=
  mkClient (k_channel c) (k_active c) (set_nth sid s (k_streams c)) (k_conns c) (k_next c) (k_timers c) (k_log c).
Definition with_active (l : list nat) (c : client) : client :=
  mkClient (k_channel c) l (k_streams c) (k_conns c) (k_next c) (k_timers c) (k_log c).
Definition with_conns (l : list conn) (c : client) : client :=
  mkClient (k_channel c) (k_active c) (k_streams c) l (k_next c) (k_timers c) (k_log c).
Definition with_timers (l : list nat) (c : client) : client :=
  mkClient (k_channel c) (k_active c) (k_streams c) (k_conns c) (k_next c) l (k_log c).
Definition with_channel (ch : channel) (c : client) : client :=
  mkClient (Some ch) (k_active c) (k_streams c) (k_conns c) (k_next c) (k_timers c) (k_log c).

(** Some shared pointer to the stream exists. *)
Definition alive (s : stream) : bool := s_client s || negb (Nat.eqb (s_refs s) 0).

(** channel->stream(stream, service, client): qgrpchttp2channel.cpp 272-386, qgrpcchannel.cpp 259-317:
    send the request and make the connections. *)
Definition open_conn (ch : channel) (sid : nat) (c : client) : client :=
  say [OOpen (k_next c) sid ch]
    (mkClient (k_channel c) (k_active c) (k_streams c) (k_conns c ++ [mkConn (k_next c) sid ch])
       (S (k_next c)) (k_timers c) (k_log c)).

(** Connections of a stream. *)
Definition of_stream (sid : nat) (n : conn) : bool := Nat.eqb (n_stream n) sid.

(** The slot of the channel for finished: qgrpchttp2channel.cpp 373-385, qgrpcchannel.cpp 294-303. *)
Definition close_conns (sid : nat) (c : client) : client :=
  say (map (fun n => OClose (n_id n)) (filter (of_stream sid) (k_conns c)))
    (with_conns (filter (fun n => negb (of_stream sid n)) (k_conns c)) c).

(** The slot of the client for finished, qabstractgrpcclient.cpp 171-183. *)
Definition client_finished (sid : nat) (c : client) : client :=
  let s := stream_at c sid in
  if s_client s then
    with_stream sid (mkStream (s_method s) (s_arg s) (s_handlers s) false (s_refs s) (s_deleted s))
      (with_active (erase_first (equal_to c (s_method s) (s_arg s)) (k_active c)) c)
  else c.

(** stream->finished(): the slots in the order they were connected. *)
Definition emit_finished (sid : nat) (c : client) : client :=
  close_conns sid (client_finished sid (say [OFinished sid] c)).

(** stream->error(code): the slot of the client, qabstractgrpcclient.cpp 155-168. *)
Definition emit_error (sid : nat) (code : Z) (c : client) : client :=
  let c1 := say [OError sid code] c in
  if s_client (stream_at c1 sid) then with_timers (k_timers c1 ++ [sid]) (say [OClientError code] c1) else c1.

(** QGrpcStream::handler, qgrpcstream.h 74-80. *)
Definition handle (sid : nat) (data : list Z) (c : client) : client :=
  say (map (fun h => OMessage sid h data) (s_handlers (stream_at c sid)) ++ [OReceived sid data]) c.

(** addHandler, qgrpcstream.cpp 42-47; the returned shared pointer is held by the user. *)
Definition hold (sid : nat) (h : option nat) (c : client) : client :=
  let s := stream_at c sid in
  say [OReturned sid h]
    (with_stream sid (mkStream (s_method s) (s_arg s)
       (s_handlers s ++ match h with Some x => [x] | None => [] end) (s_client s) (S (s_refs s)) (s_deleted s)) c).

(** QAbstractGrpcClient::stream, qabstractgrpcclient.cpp 133-191. *)
Definition client_stream (method arg : list Z) (h : option nat) (c : client) : client :=
  match k_channel c with
  | None => say [OClientError 2] c
  | Some ch =>
      match find (equal_to c method arg) (k_active c) with
      | Some sid => hold sid h c
      | None =>
          let sid := length (k_streams c) in
          let s := mkStream method arg (match h with Some x => [x] | None => [] end) true 1 false in
          let c1 := mkClient (k_channel c) (k_active c) (k_streams c ++ [s]) (k_conns c) (k_next c)
                      (k_timers c) (k_log c) in
          let c2 := open_conn ch sid c1 in
          say [OReturned sid h] (with_active (k_active c2 ++ [sid]) c2)
      end
  end.

(** How a connection ends: closed by the peer (RemoteHostClosedError), regularly with status Ok, with
    an error that is reported under a status code. *)
Inductive ending : Type := Closed | Done | Failed (code : Z).

Definition conn_of (cid : nat) (c : client) : option conn := find (fun n => Nat.eqb (n_id n) cid) (k_conns c).

(** readyRead with one complete message, qgrpchttp2channel.cpp 280-318; dataReady, qgrpcchannel.cpp
    276-278.  The slots vanish with the stream object. *)
Definition conn_data (cid : nat) (data : list Z) (c : client) : client :=
  match conn_of cid c with
  | None => c
  | Some n => if s_deleted (stream_at c (n_stream n)) then c else handle (n_stream n) data c
  end.

(** End of a connection, qgrpchttp2channel.cpp 335-371, qgrpcchannel.cpp 280-292.  The gRPC library
    reports a closed connection as status 14 (Unavailable). *)
Definition conn_end (cid : nat) (e : ending) (c : client) : client :=
  match conn_of cid c with
  | None => c
  | Some n =>
      let sid := n_stream n in
      let c1 := with_conns (filter (fun n' => negb (Nat.eqb (n_id n') cid)) (k_conns c)) c in
      if s_deleted (stream_at c sid) then c1
      else match e, snd (n_channel n) with
           | Closed, Http2 => open_conn (n_channel n) sid c1
           | Closed, Native => emit_error sid 14 c1
           | Done, Http2 => emit_finished sid c1
           | Done, Native => c1
           | Failed code, _ => emit_error sid code c1
           end
  end.

(** The retry timer, qabstractgrpcclient.cpp 160-167. *)
Definition timer_fires (i : nat) (c : client) : res client :=
  match nth_error (k_timers c) i with
  | None => Ok c
  | Some sid =>
      let c1 := with_timers (remove_nth i (k_timers c)) c in
      if alive (stream_at c1 sid) then
        match k_channel c1 with
        | Some ch => Ok (open_conn ch sid c1)
        | None => UB NullDeref
        end
      else Ok c1
  end.

(** The loops of attachChannel, qabstractgrpcclient.cpp 66-68 and 70-72.  The begin and end of the
    vector are taken before the loop; aborting erases from the vector, so that positions from its new
    size on hold destroyed shared pointers.  (By the letter of the C++ standard the iterator is
    invalid after the first erase; here it is taken as the pointer it is in practice.) *)
Fixpoint abort_loop (n i : nat) (c : client) : res client :=
  match n with
  | O => Ok c
  | S n' =>
      match nth_error (k_active c) i with
      | Some sid => abort_loop n' (S i) (emit_finished sid c)
      | None => UB DanglingRef
      end
  end.

(** QAbstractGrpcClient::attachChannel, qabstractgrpcclient.cpp 58-73. *)
Definition attachChannel (same_thread : bool) (ch : channel) (c : client) : res client :=
  if negb same_thread then Throw RuntimeError
  else
    c1 <- abort_loop (length (k_active c)) 0 c ;;
    let c2 := with_channel ch c1 in
    abort_loop (length (k_active c2)) 0 c2.

(** Events.  [AbortStream sid] and [Drop sid] are calls of the user, who must hold a reference to the stream;
    [Delete sid] is the deferred deletion of a stream nobody refers to. *)
Inductive event : Type :=
| Attach (same_thread : bool) (ch : channel)
| Subscribe (method arg : list Z) (h : option nat)
| Data (cid : nat) (data : list Z)
| End (cid : nat) (e : ending)
| AbortStream (sid : nat)
| Drop (sid : nat)
| Timer (i : nat)
| Delete (sid : nat).

Definition step (c : client) (e : event) : res client :=
  match e with
  | Attach same_thread ch => attachChannel same_thread ch c
  | Subscribe method arg h => Ok (client_stream method arg h c)
  | Data cid data => Ok (conn_data cid data c)
  | End cid e' => Ok (conn_end cid e' c)
  | AbortStream sid =>
      (* QGrpcStream::abort, qgrpcstream.cpp 49-56.  Messages of the native channel that wait in the event queue at this
         point are left out here; NativeModel has them. *)
      Ok (if Nat.eqb (s_refs (stream_at c sid)) 0 then c else emit_finished sid c)
  | Drop sid =>
      let s := stream_at c sid in
      Ok (with_stream sid (mkStream (s_method s) (s_arg s) (s_handlers s) (s_client s) (pred (s_refs s)) (s_deleted s)) c)
  | Timer i => timer_fires i c
  | Delete sid =>
      let s := stream_at c sid in
      Ok (if alive s then c
          else with_stream sid (mkStream (s_method s) (s_arg s) (s_handlers s) (s_client s) (s_refs s) true) c)
  end.

(** A history of events.  The caller catches an exception; the only one comes from the first line of
    attachChannel, nothing has been changed then. *)
Fixpoint run (c : client) (evs : list event) : res client :=
  match evs with
  | [] => Ok c
  | e :: evs' =>
      match step c e with
      | Throw _ => run c evs'
      | r => c' <- r ;; run c' evs'
      end
  end.

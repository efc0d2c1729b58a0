(** Model of the threads of the channel that is based on the gRPC library: src/grpc/qgrpcchannel.cpp and
    qgrpcchannel_p.h.  Every call and every stream has a thread of its own, which blocks in the gRPC library;
    results are passed to the thread of the client through the event queue of Qt.  One event here is one step of one
    thread; the steps of all threads can be interleaved in any way.  What the gRPC library returns is part of the
    events.  Slots of the user are later steps. *)

From Coq Require Import ZArith List Bool Arith.
From Verif Require Import Base.
Import ListNotations.
Open Scope Z_scope.

(** The two kinds of work: QGrpcChannelCall and QGrpcChannelStream, qgrpcchannel_p.h 45-92. *)
Inductive task : Type := Unary | Streaming.

(** Where the thread of a work is, qgrpcchannel.cpp 90-118 (streams) and 149-174 (calls): before BlockingUnaryCall
    has made its call (calls only); in the loop of Read, or in BlockingUnaryCall; before Finish (streams only); behind
    the assignment of the member status; behind the emission of QThread::finished. *)
Inductive place : Type := Begin | Inside | Finishing | Leaving | Over.

(** A QGrpcChannelCall or QGrpcChannelStream. *)
Record work : Type := mkWork {
  w_owner : nat;           (* the reply or stream: parent and receiver *)
  w_channel : nat;         (* the channel *)
  w_place : place;
  w_status : Z;            (* member status, its code *)
  w_response : list Z;     (* member response *)
  w_linked : bool;         (* the connections made by call and stream exist; they are only cut all at once *)
  w_cancelled : bool;      (* context.TryCancel() was called *)
  w_gone : bool            (* the destructor has ended *)
}.

(** An event in the queue of the thread of the client: dataReady for the slot of the stream (276-278), or
    QThread::finished for the signal finished of the work (120, 176).  The signals are emitted by another thread than
    the one of the receiver, so that the connections are queued. *)
Inductive posted : Type :=
| PData (i : nat) (data : list Z)
| PFinished (i : nat).

(** What the user sees, in order; the number of the work is added for reference. *)
Inductive report : Type :=
| RMessage (owner i : nat) (data : list Z)   (* stream->handler(data) *)
| RDone (owner i : nat) (data : list Z)      (* reply->finished() with this data *)
| RError (owner i : nat) (code : Z)          (* reply->error or stream->error *)
| RAborted (owner : nat).                    (* abort of the user: reply->error(Aborted), stream->finished() *)

Record world : Type := mkWorld {
  n_owners : list (task * bool);  (* replies and streams, and whether they exist *)
  n_channels : list bool;         (* whether the QGrpcChannel exists *)
  n_works : list work;
  n_queue : list posted;
  n_doomed : list nat;            (* works with a pending deferred deletion *)
  n_joining : list nat;           (* works whose destructors are being run, the first one first *)
  n_log : list report
}.

Definition start : world := mkWorld [] [] [] [] [] [] [].

Definition no_work : work := mkWork 0 0 Over 0 [] false false true.
Definition work_at (n : world) (i : nat) : work := nth i (n_works n) no_work.
Definition owner_at (n : world) (o : nat) : task * bool := nth o (n_owners n) (Unary, false).
Definition task_of (n : world) (i : nat) : task := fst (owner_at n (w_owner (work_at n i))).

Fixpoint set_nth {A : Type} (i : nat) (x : A) (l : list A) : list A :=
  match l, i with
  | [], _ => []
  | _ :: l', O => x :: l'
  | y :: l', S i' => y :: set_nth i' x l'
  end.

Definition with_works (l : list work) (n : world) : world :=
  mkWorld (n_owners n) (n_channels n) l (n_queue n) (n_doomed n) (n_joining n) (n_log n).
Definition with_work (i : nat) (w : work) (n : world) : world := with_works (set_nth i w (n_works n)) n.
Definition with_queue (q : list posted) (n : world) : world :=
  mkWorld (n_owners n) (n_channels n) (n_works n) q (n_doomed n) (n_joining n) (n_log n).
Definition with_doomed (l : list nat) (n : world) : world :=
  mkWorld (n_owners n) (n_channels n) (n_works n) (n_queue n) l (n_joining n) (n_log n).
Definition with_joining (l : list nat) (n : world) : world :=
  mkWorld (n_owners n) (n_channels n) (n_works n) (n_queue n) (n_doomed n) l (n_log n).
Definition with_owners (l : list (task * bool)) (n : world) : world :=
  mkWorld l (n_channels n) (n_works n) (n_queue n) (n_doomed n) (n_joining n) (n_log n).
Definition with_channels (l : list bool) (n : world) : world :=
  mkWorld (n_owners n) l (n_works n) (n_queue n) (n_doomed n) (n_joining n) (n_log n).
Definition tell (r : list report) (n : world) : world :=
  mkWorld (n_owners n) (n_channels n) (n_works n) (n_queue n) (n_doomed n) (n_joining n) (n_log n ++ r).

Definition at_place (p : place) (w : work) : work :=
  mkWork (w_owner w) (w_channel w) p (w_status w) (w_response w) (w_linked w) (w_cancelled w) (w_gone w).
Definition with_result (code : Z) (data : list Z) (w : work) : work :=
  mkWork (w_owner w) (w_channel w) Leaving code data (w_linked w) (w_cancelled w) (w_gone w).
Definition unlink (w : work) : work :=
  mkWork (w_owner w) (w_channel w) (w_place w) (w_status w) (w_response w) false (w_cancelled w) (w_gone w).
Definition cancel (w : work) : work :=
  mkWork (w_owner w) (w_channel w) (w_place w) (w_status w) (w_response w) (w_linked w) true (w_gone w).
Definition bury (w : work) : work :=
  mkWork (w_owner w) (w_channel w) (w_place w) (w_status w) (w_response w) (w_linked w) (w_cancelled w) true.

(** The numbers of the works of an owner that satisfy a condition. *)
Definition works_of (n : world) (o : nat) (p : work -> bool) : list nat :=
  filter (fun i => Nat.eqb (w_owner (work_at n i)) o && p (work_at n i)) (seq 0 (length (n_works n))).

Fixpoint change_works (f : work -> work) (is_ : list nat) (n : world) : world :=
  match is_ with
  | [] => n
  | i :: rest => change_works f rest (with_work i (f (work_at n i)) n)
  end.

(** ** The thread of the client *)

(** QGrpcChannelPrivate::call, qgrpcchannel.cpp 207-241, and ::stream, 259-317: a new work with its connections; the
    thread is started.  The constructor of a stream makes the call of the gRPC library (86-88); that of a call leaves it
    to the thread.  A request that the constructor waits for is taken as sent at once. *)
Definition start_work (o ch : nat) (n : world) : world :=
  with_works (n_works n ++ [mkWork o ch (match fst (owner_at n o) with Unary => Begin | Streaming => Inside end)
                                   0 [] true false false]) n.

(** The shared pointers in the slots are the only ones: when the slots are cut, deleteLater is called (217, 273). *)
Definition doom (is_ : list nat) (n : world) : world := with_doomed (n_doomed n ++ is_) n.

(** abort of a reply, qgrpccallreply.cpp 32-43, and of a stream, qgrpcstream.cpp 49-56, with the slots of the channel,
    qgrpcchannel.cpp 233-238 and 294-303.  Only a stream is cancelled here. *)
Definition abort_owner (o : nat) (n : world) : world :=
  let l := works_of n o w_linked in
  let f := match fst (owner_at n o) with Unary => unlink | Streaming => fun w => cancel (unlink w) end in
  doom l (change_works f l (tell [RAborted o] n)).

(** ~QGrpcChannelCall, ~QGrpcChannelStream, qgrpcchannel.cpp 184-189 and 128-137: cancel, then wait for the thread. *)
Definition enter (l : list nat) (n : world) : world :=
  with_joining l (match l with [] => n | i :: _ => with_work i (cancel (work_at n i)) n end).

(** Destruction of a reply or stream by its deferred deletion or by the destructor of the client, its parent: the
    connections are cut and the events for it are dropped, then its children are destroyed.  The slot for destroyed of
    the client, 305-314, does nothing more than that. *)
Definition not_data_of (n : world) (o : nat) (p : posted) : bool :=
  match p with PData i _ => negb (Nat.eqb (w_owner (work_at n i)) o) | PFinished _ => true end.
Definition destroy_owner (o : nat) (n : world) : world :=
  let l := works_of n o (fun w => negb (w_gone w)) in
  enter l (change_works unlink l
    (with_owners (set_nth o (fst (owner_at n o), false) (n_owners n)) (with_queue (filter (not_data_of n o) (n_queue n)) n))).

(** The deferred deletion of a work. *)
Definition other (i j : nat) : bool := negb (Nat.eqb i j).
Definition deferred (i : nat) (n : world) : world :=
  enter [i] (with_doomed (filter (other i) (n_doomed n)) n).

(** thread->wait() returns when the thread is over; the rest of the destructor drops the events for the object. *)
Definition not_finished_of (i : nat) (p : posted) : bool :=
  match p with PFinished j => other i j | PData _ _ => true end.
Definition join (n : world) : world :=
  match n_joining n with
  | [] => n
  | i :: rest =>
      enter rest (with_work i (bury (work_at n i))
        (with_queue (filter (not_finished_of i) (n_queue n)) (with_doomed (filter (other i) (n_doomed n)) n)))
  end.

(** The slots for the signal finished, qgrpcchannel.cpp 220-231 (calls) and 280-292 (streams). *)
Definition finished_slot (i : nat) (n : world) : world :=
  let w := work_at n i in
  if w_linked w then
    doom [i] (with_work i (unlink w)
      (tell (match task_of n i with
             | Unary => if w_status w =? 0 then [RDone (w_owner w) i (w_response w)] else [RError (w_owner w) i (w_status w)]
             | Streaming => if w_status w =? 0 then [] else [RError (w_owner w) i (w_status w)]
             end) n))
  else n.

(** The event loop takes the first event.  An event of a connection that was cut after the signal had been emitted is
    handled all the same.  The slots use the stream or reply, and the work. *)
Definition dispatch (n : world) : res world :=
  match n_queue n with
  | [] => Ok n
  | PData i data :: q =>
      let o := w_owner (work_at n i) in
      if snd (owner_at n o) then Ok (tell [RMessage o i data] (with_queue q n)) else UB DanglingRef
  | PFinished i :: q =>
      let w := work_at n i in
      if w_gone w || (w_linked w && negb (snd (owner_at n (w_owner w)))) then UB DanglingRef
      else Ok (finished_slot i (with_queue q n))
  end.

(** ** The threads of the works *)

(** The grpc::Channel exists as long as the QGrpcChannel has its shared pointer (qgrpcchannel_p.h 97) or the context
    of a call that has been made on it holds one. *)
Definition uses (ch : nat) (w : work) : bool :=
  Nat.eqb (w_channel w) ch && negb (w_gone w) && match w_place w with Begin => false | _ => true end.
Definition channel_exists (n : world) (ch : nat) : bool := nth ch (n_channels n) false || existsb (uses ch) (n_works n).

(** A thread uses the members of its work. *)
Definition on_work (i : nat) (n : world) (k : work -> res world) : res world :=
  let w := work_at n i in if w_gone w then UB DanglingRef else k w.

(** The events.  [WRead i data], [WEnd i], [WBad i code]: Read has returned a message, or false, or a message whose
    Dump fails with this code (94-108); [WStatus i code]: Finish has returned (110-115); [WBegin i]: BlockingUnaryCall
    makes its call (154-157, the pointer to the channel is captured as it is); [WReply i code data]: it has returned
    (159-173; the response is only filled when all is well); [WExit i]: the function of the thread returns. *)
Inductive event : Type :=
| MChannel
| MNew (t : task)
| MStart (o ch : nat)
| MAbort (o : nat)
| MDestroy (o : nat)
| MDeferred (i : nat)
| MJoin
| MDropChannel (ch : nat)
| MDispatch
| WBegin (i : nat)
| WRead (i : nat) (data : list Z)
| WEnd (i : nat)
| WBad (i : nat) (code : Z)
| WStatus (i : nat) (code : Z)
| WReply (i : nat) (code : Z) (data : list Z)
| WExit (i : nat).

Definition place_eqb (a b : place) : bool :=
  match a, b with
  | Begin, Begin | Inside, Inside | Finishing, Finishing | Leaving, Leaving | Over, Over => true
  | _, _ => false
  end.
Definition task_eqb (a b : task) : bool :=
  match a, b with Unary, Unary | Streaming, Streaming => true | _, _ => false end.

(** Whether the event can be the next one: a thread goes on where it is; the thread of the client does nothing else
    while it waits in a destructor; objects that are used by the user exist. *)
Definition idle (n : world) : bool := match n_joining n with [] => true | _ => false end.
Definition is_at (n : world) (i : nat) (t : task) (p : place) : bool :=
  Nat.ltb i (length (n_works n)) && task_eqb (task_of n i) t && place_eqb (w_place (work_at n i)) p.
Definition owner_exists (n : world) (o : nat) : bool := snd (owner_at n o).

Definition enabled (n : world) (e : event) : bool :=
  match e with
  | MChannel | MNew _ => idle n
  | MStart o ch => idle n && owner_exists n o && nth ch (n_channels n) false
  | MAbort o | MDestroy o => idle n && owner_exists n o
  | MDeferred i => idle n && existsb (Nat.eqb i) (n_doomed n)
  | MJoin => match n_joining n with [] => false | i :: _ => place_eqb (w_place (work_at n i)) Over end
  | MDropChannel ch => idle n && nth ch (n_channels n) false
  | MDispatch => idle n && match n_queue n with [] => false | _ => true end
  | WBegin i => is_at n i Unary Begin
  | WRead i _ | WEnd i => is_at n i Streaming Inside
  | WBad i code => is_at n i Streaming Inside && negb (code =? 0)
  | WStatus i _ => is_at n i Streaming Finishing
  | WReply i _ _ => is_at n i Unary Inside
  | WExit i => is_at n i Unary Leaving || is_at n i Streaming Leaving
  end.

Definition step (n : world) (e : event) : res world :=
  match e with
  | MChannel => Ok (with_channels (n_channels n ++ [true]) n)
  | MNew t => Ok (with_owners (n_owners n ++ [(t, true)]) n)
  | MStart o ch => Ok (start_work o ch n)
  | MAbort o => Ok (abort_owner o n)
  | MDestroy o => Ok (destroy_owner o n)
  | MDeferred i => Ok (deferred i n)
  | MJoin => Ok (join n)
  | MDropChannel ch => Ok (with_channels (set_nth ch false (n_channels n)) n)
  | MDispatch => dispatch n
  | WBegin i =>
      on_work i n (fun w =>
        if channel_exists n (w_channel w) then Ok (with_work i (at_place Inside w) n) else UB DanglingRef)
  | WRead i data =>
      on_work i n (fun w => Ok (if w_linked w then with_queue (n_queue n ++ [PData i data]) n else n))
  | WEnd i => on_work i n (fun w => Ok (with_work i (at_place Finishing w) n))
  | WBad i code | WStatus i code => on_work i n (fun w => Ok (with_work i (with_result code [] w) n))
  | WReply i code data =>
      on_work i n (fun w => Ok (with_work i (with_result code (if code =? 0 then data else []) w) n))
  | WExit i =>
      on_work i n (fun w => Ok (with_queue (n_queue n ++ [PFinished i]) (with_work i (at_place Over w) n)))
  end.

(** Executions: any interleaving of steps that are possible. *)
Inductive execution : list event -> world -> Prop :=
| ExStart : execution [] start
| ExStep : forall evs n e n', execution evs n -> enabled n e = true -> step n e = Ok n' -> execution (evs ++ [e]) n'.

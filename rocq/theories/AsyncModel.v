(** Model of a reply or stream that is used by handlers, slots and other threads: QGrpcAsyncOperationBase::read and setData with their
    mutex (qgrpcasyncoperationbase_p.h 54-74, 104), QGrpcStream::handler, addHandler and abort (qgrpcstream.h 70-76, qgrpcstream.cpp 42-57),
    QGrpcCallReply::abort (qgrpccallreply.cpp 32-43), tryDeserialize (qabstractgrpcclient.h 206-232).

    Each thread has a stack of what the library is doing in it.  Code of the user runs on top of frames that call handlers or slots, and
    below all frames.  QMutex is not recursive: a thread that asks for a mutex that it has waits forever.  Slots of the thread that emits
    are called at once, slots of other threads by their event loops.  Messages and calls from other threads reach the thread of the
    operation in its outermost event loop.  A range-for over a vector that has changed since is undefined. *)

From Coq Require Import ZArith List Bool Arith.
From Verif Require Import Base.
Import ListNotations.

Definition data : Type := list Z.

(** What a thread wants the mutex for: read; handler with a message; abort of a reply, for another thread or not. *)
Inductive want : Type := WRead | WMessage (d : data) | WAbort (who : option nat).
(** handler calls handlers: the next one and the end of the range, qgrpcstream.h 72-74; a signal of the operation is emitted, maybe for
    another thread that waits; read has the mutex and deserializes; read has the mutex and the client emits error; the thread waits
    for the mutex; it waits for the abort in the thread of the operation; the event loop calls the slot for this message. *)
Inductive frame : Type :=
| Handling (next last : nat) (d : data) | Emitting (who : option nat) | Decoding | Failing | Want (w : want) | Remote | Slot (d : data).

(** What can be observed, oldest first: the data are set; a handler is called; messageReceived is emitted; a call of
    read begins to deserialize; it has used these data, with success or not; finished or error is emitted after abort; a handler is added; a slot in another
    thread is called for a message. *)
Inductive report : Type :=
| Sets (d : data) | Handled (k : nat) (d : data) | Received (d : data) | ReadBegins (t : nat) | GotRead (t : nat) (d : data) (ok : bool)
| Ended | Subscribed (k : nat) | Noticed (t : nat) (d : data).

Record state : Type := mkState {
  a_data : data;                   (* m_data *)
  a_lock : option nat;             (* thread that has m_asyncLock *)
  a_handlers : list nat;           (* m_handlers *)
  a_stacks : nat -> list frame;    (* innermost first *)
  a_posted : list nat;             (* threads that wait for an abort *)
  a_notes : nat -> list data;      (* messageReceived, queued for other threads *)
  a_log : list report
}.

Definition put {A} (f : nat -> A) (k : nat) (v : A) : nat -> A := fun n => if Nat.eqb n k then v else f n.
Definition with_data (d : data) (s : state) : state :=
  mkState d (a_lock s) (a_handlers s) (a_stacks s) (a_posted s) (a_notes s) (a_log s).
Definition with_lock (l : option nat) (s : state) : state :=
  mkState (a_data s) l (a_handlers s) (a_stacks s) (a_posted s) (a_notes s) (a_log s).
Definition with_handlers (l : list nat) (s : state) : state :=
  mkState (a_data s) (a_lock s) l (a_stacks s) (a_posted s) (a_notes s) (a_log s).
Definition with_stack (t : nat) (l : list frame) (s : state) : state :=
  mkState (a_data s) (a_lock s) (a_handlers s) (put (a_stacks s) t l) (a_posted s) (a_notes s) (a_log s).
Definition with_posted (l : list nat) (s : state) : state :=
  mkState (a_data s) (a_lock s) (a_handlers s) (a_stacks s) l (a_notes s) (a_log s).
Definition with_notes (f : nat -> list data) (s : state) : state :=
  mkState (a_data s) (a_lock s) (a_handlers s) (a_stacks s) (a_posted s) f (a_log s).
Definition tell (l : list report) (s : state) : state :=
  mkState (a_data s) (a_lock s) (a_handlers s) (a_stacks s) (a_posted s) (a_notes s) (a_log s ++ l).
Definition push (t : nat) (f : frame) (s : state) : state := with_stack t (f :: a_stacks s t) s.
Definition pop (t : nat) (s : state) : state := with_stack t (tl (a_stacks s t)) s.

Section Operation.
  (** The thread of the operation; whether it is a stream; whether data can be deserialized; threads with a slot for messageReceived. *)
  Context (home : nat) (stream : bool) (decode : data -> bool) (listens : nat -> bool).

  (** Whether code of the user runs in a thread. *)
  Definition runs (s : state) (t : nat) : bool :=
    match a_stacks s t with Decoding :: _ | Want _ :: _ | Remote :: _ => false | _ => true end.

  (** QGrpcAsyncOperationBase::setData 70-74, with the mutex. *)
  Definition set_data (d : data) (s : state) : state := tell [Sets d] (with_data d s).

  (** QGrpcStream::handler, qgrpcstream.h 72-75: the loop goes on with handler [n]; then messageReceived is emitted. *)
  Definition turn (n last : nat) (d : data) (s : state) : res state :=
    if Nat.eqb (length (a_handlers s)) last then
      match nth_error (a_handlers s) n with
      | Some k => Ok (tell [Handled k d] (push home (Handling (S n) last d) s))
      | None => Ok (tell [Received d] (push home (Emitting None)
                  (with_notes (fun t => if listens t && negb (Nat.eqb t home) then a_notes s t ++ [d] else a_notes s t) s)))
      end
    else UB DanglingRef.
  (** QGrpcStream::handler 70-76 with the mutex; replies: setData and finished in the channel (qgrpchttp2channel.cpp 249-252), which have
      no handlers. *)
  Definition deliver (d : data) (s : state) : res state := turn 0 (length (a_handlers s)) d (set_data d s).
  (** QGrpcStream::abort 51-56: finished; QGrpcCallReply::abort 34-37: setData({}), with the mutex, and error. *)
  Definition abort_now (who : option nat) (s : state) : state :=
    tell [Ended] (push home (Emitting who) (if stream then s else set_data [] s)).

  (** A thread has asked for the mutex and gets it. *)
  Definition granted (t : nat) (w : want) (s : state) : res state :=
    match w with
    | WRead => Ok (tell [ReadBegins t] (push t Decoding (with_lock (Some t) s)))
    | WMessage d => deliver d s
    | WAbort who => Ok (abort_now who s)
    end.
  (** QMutexLocker locker(&m_asyncLock). *)
  Definition ask (t : nat) (w : want) (s : state) : res state :=
    match a_lock s with None => granted t w s | Some _ => Ok (push t (Want w) s) end.
  Definition do_abort (who : option nat) (s : state) : res state :=
    if stream then Ok (abort_now who s) else ask home (WAbort who) s.

  (** [Message d]: the channel passes a message to the operation.  [Read t], [Abort t]: code of the user in thread [t] calls read, abort.
      [Subscribe k]: a handler is added, in the thread of the operation (QAbstractGrpcClient::stream 149-152).  [Return t]: the
      handler or slot that runs in [t] returns.  [Proceed t]: deserialization ends, or the thread gets the mutex.  [Serve]: the
      thread of the operation executes an abort for another thread.  [Take t]: the event loop of [t] calls the slot for a message. *)
  Inductive event : Type :=
  | Message (d : data) | Read (t : nat) | Abort (t : nat) | Subscribe (k : nat) | Return (t : nat) | Proceed (t : nat) | Serve | Take (t : nat).

  (** Events that cannot happen change nothing. *)
  Definition step (s : state) (e : event) : res state :=
    match e with
    | Message d => match a_stacks s home with [] => ask home (WMessage d) s | _ => Ok s end
    | Read t => if runs s t then ask t WRead s else Ok s
    | Abort t =>
        if runs s t then
          if Nat.eqb t home then do_abort None s else Ok (push t Remote (with_posted (a_posted s ++ [t]) s))
        else Ok s
    | Subscribe k => if runs s home then Ok (tell [Subscribed k] (with_handlers (a_handlers s ++ [k]) s)) else Ok s
    | Return t =>
        match a_stacks s t with
        | Handling n last d :: _ => turn n last d (pop t s)
        | Emitting None :: _ => Ok (pop t s)
        | Emitting (Some u) :: _ => Ok (pop u (pop t s))
        | Failing :: _ => Ok (with_lock None (pop t s))
        | Slot _ :: _ => Ok (pop t s)
        | _ => Ok s
        end
    | Proceed t =>
        match a_stacks s t with
        | Decoding :: _ =>
            if decode (a_data s) then Ok (tell [GotRead t (a_data s) true] (with_lock None (pop t s)))
            else Ok (tell [GotRead t (a_data s) false] (push t Failing (pop t s)))
        | Want w :: _ => match a_lock s with None => granted t w (pop t s) | Some _ => Ok s end
        | _ => Ok s
        end
    | Serve =>
        match a_stacks s home, a_posted s with
        | [], t :: q => do_abort (Some t) (with_posted q s)
        | _, _ => Ok s
        end
    | Take t =>
        match a_stacks s t, a_notes s t with
        | [], d :: q => Ok (tell [Noticed t d] (push t (Slot d) (with_notes (put (a_notes s) t q) s)))
        | _, _ => Ok s
        end
    end.

  Fixpoint run (s : state) (l : list event) : res state :=
    match l with [] => Ok s | e :: l' => s' <- step s e ;; run s' l' end.
End Operation.

(** A new operation with the handler that it was created with; replies have none. *)
Definition start (handlers : list nat) : state :=
  mkState [] None handlers (fun _ => []) [] (fun _ => []) [].

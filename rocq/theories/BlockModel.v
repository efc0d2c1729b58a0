(** Model of blocking calls: QAbstractGrpcClient::call with its detour through the thread of the client
    (qabstractgrpcclient.cpp 75-97), QGrpcHttp2Channel::call with its event loop (qgrpchttp2channel.cpp 138-162, 211-229) and
    QGrpcChannelPrivate::call (qgrpcchannel.cpp 243-258).

    Each thread has a stack: event loops of calls that wait for their replies, and at the top maybe a call that it has passed to
    another thread and waits for (Qt::BlockingQueuedConnection).  Code runs on top of the innermost event loop; code that makes
    a call does nothing else, so that a call that returns gives the control back to the event loop below.  Of Qt we rely on this:
    events of a thread (invocations from other threads in order, replies, timers) are processed by its innermost event
    loop; QEventLoop::exec returns when quit was called and all event loops inside of it have returned;
    an object that deleteLater was called for in an event loop is destroyed when the control is back in that loop; a blocking
    invocation whose receiver is destroyed ends without being executed; a network access manager destroys its replies, without
    a signal.  Calls through the gRPC library have no timer and belong to their caller; what happens if its channel is
    destroyed is left out here (see NativeModel). *)

From Coq Require Import ZArith List Bool Arith.
From Verif Require Import Base FrameModel.
Import ListNotations.
Open Scope Z_scope.

(** Event loop of a call; call that is executed by another thread. *)
Inductive frame : Type := Loop (i : nat) | Blocked (i : nat).
(** Where a call is: in the queue of the thread of the client; in its event loop; returned. *)
Inductive phase : Type := Posted | Inside | Over.

(** What a network reply has when it is finished: network error, grpc-status, body. *)
Definition answer : Type := Z * list Z * list Z.

(** A call: its client, the thread that it was made in, the channel that is used, when it was sent, the answer if the
    reply is finished, whether the reply exists and its timer has not fired. *)
Record call : Type := mkCall {
  k_client : nat; k_from : nat; k_phase : phase; k_channel : nat; k_start : Z;
  k_net : option answer; k_alive : bool; k_timer : bool
}.

(** What can be observed, oldest first: a thread calls a client; a call of a client is sent through a channel; the reply of a call is
    finished; a client emits error; a call of a client returns status and data to the thread that made it. *)
Inductive report : Type :=
| Called (i t c : nat) | Sent (i c ch : nat) | Answered (i : nat) (a : answer) | ClientError (c : nat) (code : Z)
| Returned (i c : nat) (code : Z) (data : list Z).

Record state : Type := mkState {
  s_now : Z;                      (* milliseconds *)
  s_stacks : nat -> list frame;   (* of each thread, innermost first *)
  s_posted : nat -> list nat;     (* calls that other threads passed to a thread *)
  s_calls : list call;
  s_channels : nat -> option nat; (* of each client *)
  s_gone : nat -> bool;           (* clients that were destroyed *)
  s_log : list report
}.

Definition put {A} (f : nat -> A) (k : nat) (v : A) : nat -> A := fun n => if Nat.eqb n k then v else f n.
Fixpoint set_nth {A} (i : nat) (x : A) (l : list A) : list A :=
  match l, i with [], _ => [] | _ :: r, O => x :: r | y :: r, S j => y :: set_nth j x r end.
Definition no_call : call := mkCall 0 0 Over 0 0 None false false.
Definition call_at (s : state) (i : nat) : call := nth i (s_calls s) no_call.

Definition with_stack (t : nat) (l : list frame) (s : state) : state :=
  mkState (s_now s) (put (s_stacks s) t l) (s_posted s) (s_calls s) (s_channels s) (s_gone s) (s_log s).
Definition with_posted (t : nat) (l : list nat) (s : state) : state :=
  mkState (s_now s) (s_stacks s) (put (s_posted s) t l) (s_calls s) (s_channels s) (s_gone s) (s_log s).
Definition with_calls (l : list call) (s : state) : state :=
  mkState (s_now s) (s_stacks s) (s_posted s) l (s_channels s) (s_gone s) (s_log s).
Definition with_call (i : nat) (k : call) (s : state) : state := with_calls (set_nth i k (s_calls s)) s.
Definition with_channel (c : nat) (ch : option nat) (s : state) : state :=
  mkState (s_now s) (s_stacks s) (s_posted s) (s_calls s) (put (s_channels s) c ch) (s_gone s) (s_log s).
Definition with_gone (c : nat) (s : state) : state :=
  mkState (s_now s) (s_stacks s) (s_posted s) (s_calls s) (s_channels s) (put (s_gone s) c true) (s_log s).
Definition later (d : Z) (s : state) : state :=
  mkState (s_now s + d) (s_stacks s) (s_posted s) (s_calls s) (s_channels s) (s_gone s) (s_log s).
Definition tell (l : list report) (s : state) : state :=
  mkState (s_now s) (s_stacks s) (s_posted s) (s_calls s) (s_channels s) (s_gone s) (s_log s ++ l).

Definition in_phase (p : phase) (k : call) : call :=
  mkCall (k_client k) (k_from k) p (k_channel k) (k_start k) (k_net k) (k_alive k) (k_timer k).
Definition sent (ch : nat) (now : Z) (k : call) : call := mkCall (k_client k) (k_from k) Inside ch now None true true.
Definition answered (a : answer) (k : call) : call :=
  mkCall (k_client k) (k_from k) (k_phase k) (k_channel k) (k_start k) (Some a) (k_alive k) (k_timer k).
Definition destroyed (k : call) : call :=
  mkCall (k_client k) (k_from k) (k_phase k) (k_channel k) (k_start k) (k_net k) false (k_timer k).
Definition fired (k : call) : call :=
  mkCall (k_client k) (k_from k) (k_phase k) (k_channel k) (k_start k) (k_net k) (k_alive k) false.

Section Threads.
  (** The thread of each client; whether a thread has an event loop; whether a channel is the one over HTTP/2. *)
  Context (home : nat -> nat) (loops : nat -> bool) (http2 : nat -> bool).

  (** Whether the thread can run code, and whether it processes events. *)
  Definition runs (s : state) (t : nat) : bool := match s_stacks s t with Blocked _ :: _ => false | _ => true end.
  Definition ready (s : state) (t : nat) : bool :=
    match s_stacks s t with [] => loops t | Loop _ :: _ => true | Blocked _ :: _ => false end.

  (** The invocation ends: QAbstractGrpcClient::call 79-83; a thread that waits for it goes on. *)
  Definition give_back (i : nat) (code : Z) (data : list Z) (s : state) : state :=
    let k := call_at s i in
    let s1 := tell [Returned i (k_client k) code data] (with_call i (in_phase Over k) s) in
    if Nat.eqb (k_from k) (home (k_client k)) then s1 else with_stack (k_from k) (tl (s_stacks s1 (k_from k))) s1.
  (** QAbstractGrpcClient::call 92-96: the channel has returned. *)
  Definition finish (i : nat) (code : Z) (data : list Z) (s : state) : res state :=
    let c := k_client (call_at s i) in
    if code =? 0 then Ok (give_back i code data s)
    else if s_gone s c then UB DanglingRef
    else Ok (give_back i code data (tell [ClientError c code] s)).

  (** QGrpcHttp2Channel::call 223-228: behind the event loop. *)
  Definition conclude (i : nat) (a : answer) (s : state) : res state :=
    let '(err, status, body) := a in '(code, data) <- processReply err status body ;; finish i code data s.

  (** QAbstractGrpcClient::call 86-90 and QGrpcHttp2Channel::call 213-221, in the thread of the client.  [at_once]: the reply
      is finished when post returns. *)
  Definition begin (at_once : option answer) (i : nat) (s : state) : res state :=
    let k := call_at s i in
    match s_channels s (k_client k) with
    | None => finish i 2 [] s
    | Some ch =>
        let s1 := tell [Sent i (k_client k) ch] (with_call i (sent ch (s_now s) k) s) in
        match at_once with
        | Some a => conclude i a (tell [Sent i (k_client k) ch; Answered i a] (with_call i (answered a (sent ch (s_now s) k)) s))
        | None => Ok (with_stack (home (k_client k)) (Loop i :: s_stacks s (home (k_client k))) s1)
        end
    end.

  (** The last pointer to a channel is gone: its network access manager destroys the replies. *)
  Definition drop_channel (ch : nat) (s : state) : state :=
    with_calls (map (fun k => match k_phase k with
                              | Inside => if Nat.eqb (k_channel k) ch && http2 ch then destroyed k else k
                              | _ => k
                              end) (s_calls s)) s.

  (** Invocations whose receiver is destroyed: the default status is returned. *)
  Fixpoint cancel (l : list nat) (s : state) : state :=
    match l with [] => s | i :: l' => cancel l' (give_back i 2 [] s) end.

  (** [Call t c a]: thread [t] calls client [c].  [Dispatch t a]: thread [t] executes the first invocation in its queue.
      [Answer i a]: the reply of call [i] is finished (in its event loop).  [Expire i]: its timer, qgrpchttp2channel.cpp 149-162; the
      reply that is finished is destroyed when the control is back in an event loop that goes on.
      [Exit t]: the innermost event loop of [t] returns, if quit was called.  [Attach c ch kept]: attachChannel in the
      thread of the client, 58-73; [kept]: someone else has a pointer to the old channel.  [Destroy c kept]: the client is
      destroyed in its thread.  [Tick d]: time passes. *)
  Inductive event : Type :=
  | Call (t c : nat) (at_once : option answer) | Dispatch (t : nat) (at_once : option answer)
  | Answer (i : nat) (a : answer) | Expire (i : nat) | Exit (t : nat)
  | Attach (c ch : nat) (kept : bool) | Destroy (c : nat) (kept : bool) | Tick (d : Z).

  Definition waiting (s : state) (i : nat) : bool :=
    match k_phase (call_at s i) with Inside => k_alive (call_at s i) && ready s (home (k_client (call_at s i))) | _ => false end.
  (** A call inside of the event loop of [i] still waits. *)
  Fixpoint held (calls : list call) (i : nat) (l : list frame) : bool :=
    match l with
    | [] => false
    | Blocked _ :: l' => held calls i l'
    | Loop j :: l' =>
        if Nat.eqb j i then false
        else match k_net (nth j calls no_call) with None => true | Some _ => held calls i l' end
    end.
  (** abortNetworkReply ends a reply with OperationCanceledError. *)
  Definition canceled : answer := (5, [], []).

  Definition leave_channel (c : nat) (kept : bool) (s : state) : state :=
    match s_channels s c with Some old => if kept then s else drop_channel old s | None => s end.

  (** Events that cannot happen change nothing. *)
  Definition step (s : state) (e : event) : res state :=
    match e with
    | Call t c a =>
        if runs s t && negb (s_gone s c) then
          let i := length (s_calls s) in
          let s1 := tell [Called i t c] (with_calls (s_calls s ++ [mkCall c t Posted 0 0 None false false]) s) in
          if Nat.eqb t (home c) then begin a i s1
          else Ok (with_stack t (Blocked i :: s_stacks s t) (with_posted (home c) (s_posted s (home c) ++ [i]) s1))
        else Ok s
    | Dispatch t a =>
        if ready s t then
          match s_posted s t with i :: q => begin a i (with_posted t q s) | [] => Ok s end
        else Ok s
    | Answer i a =>
        if waiting s i then
          match k_net (call_at s i) with
          | None => Ok (tell [Answered i a] (with_call i (answered a (call_at s i)) s))
          | Some _ => Ok s
          end
        else Ok s
    | Expire i =>
        if waiting s i && k_timer (call_at s i) && http2 (k_channel (call_at s i)) && (k_start (call_at s i) + 6000 <=? s_now s) then
          match k_net (call_at s i) with
          | None => Ok (tell [Answered i canceled] (with_call i (fired (answered canceled (call_at s i))) s))
          | Some _ =>
              if held (s_calls s) i (s_stacks s (home (k_client (call_at s i))))
              then Ok (with_call i (fired (destroyed (call_at s i))) s) else Ok (with_call i (fired (call_at s i)) s)
          end
        else Ok s
    | Exit t =>
        match s_stacks s t with
        | Loop i :: rest =>
            match k_net (call_at s i) with
            | Some a => if k_alive (call_at s i) then conclude i a (with_stack t rest s) else UB DanglingRef
            | None => Ok s
            end
        | _ => Ok s
        end
    | Attach c ch kept =>
        if runs s (home c) && negb (s_gone s c) then
          Ok (with_channel c (Some ch) (leave_channel c (kept || match s_channels s c with Some old => Nat.eqb old ch | None => true end) s))
        else Ok s
    | Destroy c kept =>
        if runs s (home c) && negb (s_gone s c) then
          let mine := filter (fun i => Nat.eqb (k_client (call_at s i)) c) (s_posted s (home c)) in
          let others := filter (fun i => negb (Nat.eqb (k_client (call_at s i)) c)) (s_posted s (home c)) in
          Ok (cancel mine (with_posted (home c) others (with_channel c None (with_gone c (leave_channel c kept s)))))
        else Ok s
    | Tick d => if 0 <=? d then Ok (later d s) else Ok s
    end.

  Fixpoint run (s : state) (l : list event) : res state :=
    match l with [] => Ok s | e :: l' => s' <- step s e ;; run s' l' end.
End Threads.

(** Nothing is called yet; the clients have these channels. *)
Definition start (channels : nat -> option nat) : state :=
  mkState 0 (fun _ => []) (fun _ => []) [] channels (fun _ => false) [].

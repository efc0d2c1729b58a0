(** Model of the replies of asynchronous calls: how long they exist and which callbacks they lead to.
    src/grpc/qabstractgrpcclient.cpp, qgrpccallreply.h, qgrpcasyncoperationbase_p.h, qgrpchttp2channel.cpp and the methods of
    generated clients in src/generator/templates.cpp. *)

From Coq Require Import ZArith List Bool.
From Verif Require Import Base Values FrameModel CallModel.
Import ListNotations.
Open Scope Z_scope.

(** The methods of a generated client that start a call, templates.cpp 310-371. *)
Inductive style : Type :=
| AsHandle                                      (* 310-313: returns the reply *)
| AsCallback (context : nat)                    (* 314-320: callback in a context object *)
| AsScript (on_error : bool)                    (* 322-345: for QML; whether errorCallback is callable *)
| AsScriptInto (target : nat) (on_error : bool).  (* 346-371: for QML, into an object *)

(** What user code learns from a call. *)
Inductive told : Type :=
| GotReply (data : list Z)            (* callback(reply), with the data of the reply *)
| GotObject (obj : list value)        (* callback(object) in JavaScript *)
| Stored (target : nat) (obj : list value)  (* the target was assigned *)
| GotError (code : Z).                (* errorCallback(status) in JavaScript *)

(** A reply.  [r_handles]: shared pointers to it held by user code; [r_slots]: the slots connected by the method (317-319,
    334-344, 361-370) exist, the one for finished holds a shared pointer to the reply. *)
Record reply : Type := mkReply {
  r_call : call_state;
  r_style : style;
  r_channel : nat;
  r_handles : nat;
  r_slots : bool
}.

(** Objects are numbered; channels too.  [w_held]: channels to which user code holds a shared pointer; [w_gone]: destroyed
    contexts and targets. *)
Record world : Type := mkWorld {
  w_client : bool;              (* the client exists *)
  w_engine : bool;              (* the JavaScript engine exists *)
  w_channel : option nat;       (* dPtr->channel *)
  w_held : list nat;
  w_gone : list nat;
  w_replies : list reply;
  w_told : list (nat * told);   (* oldest first *)
  w_errors : list Z             (* error signals of the client, oldest first *)
}.

Definition new_world : world := mkWorld true true None [] [] [] [] [].

Definition with_replies (l : list reply) (w : world) : world :=
  mkWorld (w_client w) (w_engine w) (w_channel w) (w_held w) (w_gone w) l (w_told w) (w_errors w).
Definition tell (i : nat) (l : list told) (w : world) : world :=
  mkWorld (w_client w) (w_engine w) (w_channel w) (w_held w) (w_gone w) (w_replies w) (w_told w ++ map (pair i) l) (w_errors w).
Definition client_error (l : list Z) (w : world) : world :=
  mkWorld (w_client w) (w_engine w) (w_channel w) (w_held w) (w_gone w) (w_replies w) (w_told w) (w_errors w ++ l).
Definition with_call (c : call_state) (r : reply) : reply := mkReply c (r_style r) (r_channel r) (r_handles r) (r_slots r).
Definition with_handles (n : nat) (r : reply) : reply := mkReply (r_call r) (r_style r) (r_channel r) n (r_slots r).
Definition without_slots (r : reply) : reply := mkReply (r_call r) (r_style r) (r_channel r) (r_handles r) false.

Fixpoint set_reply (i : nat) (r : reply) (l : list reply) : list reply :=
  match l, i with
  | [], _ => []
  | _ :: l', O => r :: l'
  | x :: l', S i' => x :: set_reply i' r l'
  end.

Definition has (x : nat) (l : list nat) : bool := existsb (Nat.eqb x) l.

(** A shared pointer to the reply exists: in the slots of the client (qabstractgrpcclient.cpp 112-123), in the slot of the
    method, or in user code.  Without one the reply is destroyed (line 108, deleteLater). *)
Definition referenced (r : reply) : bool := c_client (r_call r) || r_slots r || negb (Nat.eqb (r_handles r) 0).

Section Replies.
  (** Deserializing the response into a new object of the return type: the object and how it ended. *)
  Variable decode : list Z -> list value * res unit.

  (** reply->read, qgrpcasyncoperationbase_p.h 54-63: the object, and the error signals of the client. *)
  Definition read_object (data : list Z) : res (list value * list Z) :=
    let '(obj, o) := decode data in
    '(_, errs) <- tryDeserialize true o ;; Ok (obj, errs).

  (** User code gets a shared pointer to the reply, the parameter of the callback (318); it drops it when it
      likes. *)
  Definition hand (i : nat) (w : world) : world :=
    match nth_error (w_replies w) i with
    | Some r => with_replies (set_reply i (with_handles (S (r_handles r)) r) (w_replies w)) w
    | None => w
    end.

  (** The slots of the method for a signal of the reply: templates.cpp 317-319, 334-344, 361-370.  A destroyed context,
      target or engine is the receiver of no signal.  Which objects the slots need beside is not modelled: the
      client has a QML engine. *)
  Definition user_slot (i : nat) (r : reply) (s : signal) (w : world) : res world :=
    if r_slots r then
      match r_style r, s with
      | AsCallback _, Finished d => Ok (tell i [GotReply d] (hand i w))
      | AsScript _, Finished d => '(obj, errs) <- read_object d ;; Ok (tell i [GotObject obj] (client_error errs w))
      | AsScriptInto t _, Finished d =>
          if has t (w_gone w) then Ok w
          else '(obj, errs) <- read_object d ;; Ok (tell i [Stored t obj] (client_error errs w))
      | AsScript e, Error code => Ok (tell i (if e then [GotError code] else []) w)
      | AsScriptInto _ e, Error code => Ok (tell i (if e then [GotError code] else []) w)
      | _, _ => Ok w
      end
    else Ok w.

  (** The call changes its state to [c]: the slots of the client and of the channel are part of CallModel; the slots
      of the method come last. *)
  Definition call_changed (i : nat) (r : reply) (c : call_state) (w : world) : res world :=
    let w1 := client_error (skipn (List.length (c_errors (r_call r))) (c_errors c))
                (with_replies (set_reply i (with_call c r) (w_replies w)) w) in
    match skipn (List.length (c_signals (r_call r))) (c_signals c) with
    | s :: _ => user_slot i r s w1
    | [] => Ok w1
    end.

  (** call(method, arg), qabstractgrpcclient.h 123-131 and .cpp 99-130, from each of the methods.  Without channel there is
      no serializer (238-241).  [valid]: the arguments checked in templates.cpp 324-332, 348-358 are
      valid. *)
  Definition start (s : style) (valid : bool) (w : world) : res world :=
    let script := match s with AsScript _ | AsScriptInto _ _ => true | _ => false end in
    if script && negb (valid && w_engine w) then Ok w
    else
      match w_channel w with
      | None => if script then UB NullDeref else Ok (client_error [2] w)
      | Some ch =>
          let slots := match s with AsHandle => false | AsCallback x => negb (has x (w_gone w)) | _ => true end in
          let handles := match s with AsHandle => 1%nat | _ => 0%nat end in
          Ok (with_replies (w_replies w ++ [mkReply new_call s ch handles slots]) w)
      end.

  (** The channel [ch] is destroyed, and with it its QNetworkAccessManager (qgrpchttp2channel.cpp 108) and the network
      operations of its calls, which send no signal. *)
  Definition channel_gone (ch : nat) (w : world) : world :=
    with_replies (map (fun r => if Nat.eqb (r_channel r) ch then with_call (stop (r_call r)) r else r) (w_replies w)) w.

  Definition is_current (ch : nat) (w : world) : bool :=
    match w_channel w with Some x => w_client w && Nat.eqb x ch | None => false end.

  (** attachChannel, qabstractgrpcclient.cpp 58-73, with a channel of the thread of the client.  Streams are not
      part of this model. *)
  Definition attach (ch : nat) (w : world) : world :=
    let w1 := mkWorld (w_client w) (w_engine w) (Some ch) (ch :: w_held w) (w_gone w) (w_replies w) (w_told w) (w_errors w) in
    match w_channel w with
    | Some old => if has old (w_held w1) then w1 else channel_gone old w1
    | None => w1
    end.

  Definition release_channel (ch : nat) (w : world) : world :=
    let w1 := mkWorld (w_client w) (w_engine w) (w_channel w) (filter (fun x => negb (Nat.eqb x ch)) (w_held w)) (w_gone w)
                (w_replies w) (w_told w) (w_errors w) in
    if is_current ch w1 then w1 else channel_gone ch w1.

  (** An object is destroyed; slots in its context are disconnected. *)
  Definition object_gone (x : nat) (w : world) : world :=
    mkWorld (w_client w) (w_engine w) (w_channel w) (w_held w) (x :: w_gone w)
      (map (fun r => match r_style r with AsCallback y => if Nat.eqb y x then without_slots r else r | _ => r end) (w_replies w))
      (w_told w) (w_errors w).

  Definition engine_gone (w : world) : world :=
    mkWorld (w_client w) false (w_channel w) (w_held w) (w_gone w)
      (map (fun r => match r_style r with AsScript _ | AsScriptInto _ _ => without_slots r | _ => r end) (w_replies w))
      (w_told w) (w_errors w).

  (** The client is destroyed: its children, the replies, are deleted with all slots (QObject), and its
      pointer to the channel. *)
  Definition client_gone (w : world) : world :=
    let w1 := mkWorld false (w_engine w) (w_channel w) (w_held w) (w_gone w)
      (map (fun r => without_slots (with_call (mkCall (c_running (r_call r)) false false false (c_data (r_call r)) (c_signals (r_call r))
                                          (c_errors (r_call r))) r)) (w_replies w))
      (w_told w) (w_errors w) in
    match w_channel w with
    | Some ch => if has ch (w_held w) then w1 else channel_gone ch w1
    | None => w1
    end.

  (** Uses of the client after its destruction are not events. *)
  Inductive event : Type :=
  | Start (s : style) (valid : bool)
  | Network (i : nat) (err : Z) (status body : list Z)  (* end of the network operation of call [i] *)
  | Expire (i : nat)                                    (* its timeout *)
  | Refuse (i : nat)                                    (* SSL errors *)
  | Abort (i : nat)                                     (* QGrpcCallReply::abort through a handle *)
  | Copy (i : nat)                                      (* one more handle *)
  | Drop (i : nat)                                      (* one handle less *)
  | Read (i : nat)                                      (* QGrpcCallReply::read through a handle *)
  | Attach (ch : nat)
  | Release (ch : nat)
  | Gone (x : nat)
  | EngineGone
  | ClientGone.

  (** Through a handle of call [i]; without handle user code cannot do it. *)
  Definition through (i : nat) (w : world) (f : reply -> res world) : res world :=
    match nth_error (w_replies w) i with
    | None => Ok w
    | Some r => if Nat.eqb (r_handles r) 0 then Ok w else if w_client w then f r else UB DanglingRef
    end.

  (** A network event of call [i]; the slots of a destroyed reply are disconnected. *)
  Definition network (i : nat) (e : call_event) (w : world) : res world :=
    match nth_error (w_replies w) i with
    | None => Ok w
    | Some r => if w_client w then c <- http2_event (r_call r) e ;; call_changed i r c w else Ok w
    end.

  Definition step (w : world) (e : event) : res world :=
    match e with
    | Start s valid => if w_client w then start s valid w else Ok w
    | Network i err status body => network i (NetworkDone err status body) w
    | Expire i => network i Timeout w
    | Refuse i => network i SslErrors w
    | Abort i => through i w (fun r => call_changed i r (abort_call (r_call r)) w)
    | Copy i =>
        match nth_error (w_replies w) i with
        | None => Ok w
        | Some r => Ok (if Nat.eqb (r_handles r) 0 then w
                        else with_replies (set_reply i (with_handles (S (r_handles r)) r) (w_replies w)) w)
        end
    | Drop i =>
        match nth_error (w_replies w) i with
        | None => Ok w
        | Some r =>
            match r_handles r with
            | O => Ok w
            | S n =>
                (* the deleter of line 108 is run for the last pointer *)
                if Nat.eqb n 0 && negb (w_client w) then UB DanglingRef
                else Ok (with_replies (set_reply i (with_handles n r) (w_replies w)) w)
            end
        end
    | Read i => through i w (fun r => '(_, errs) <- read_object (c_data (r_call r)) ;; Ok (client_error errs w))
    | Attach ch => if w_client w then Ok (attach ch w) else Ok w
    | Release ch => Ok (release_channel ch w)
    | Gone x => Ok (object_gone x w)
    | EngineGone => Ok (engine_gone w)
    | ClientGone => Ok (client_gone w)
    end.

  Fixpoint run (w : world) (evs : list event) : res world :=
    match evs with
    | [] => Ok w
    | e :: evs' => w' <- step w e ;; run w' evs'
    end.
End Replies.

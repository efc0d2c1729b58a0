(** Model of the QML element GrpcStream: src/grpc/quick/qquickgrpcstream_p.h and qquickgrpcstream.cpp, on
    top of the clients of StreamModel.  Any number of elements and clients exist; they are named by numbers.
    Slots of QML code run as later events. *)

From Coq Require Import ZArith List Bool Arith.
From Verif Require Import Base StreamModel.
Import ListNotations.
Open Scope Z_scope.

(** The members, qquickgrpcstream_p.h 182-187.  An empty method is an unset one.  The argument is the
    address of an object and what it serializes to; the content is taken as fixed while it is used.
    [q_stream]: number of the client and of its stream.  [q_return]: m_returnValue is not null. *)
Record item : Type := mkItem {
  q_client : option nat;
  q_enabled : bool;
  q_method : list Z;
  q_arg : option (nat * list Z);
  q_stream : option (nat * nat);
  q_return : bool
}.

(** qquickgrpcstream.cpp 35-39. *)
Definition new_item : item := mkItem None false [] None None false.

(** The signals of an element. *)
Inductive qoutput : Type :=
| QClientChanged | QEnabledChanged | QMethodChanged | QArgumentChanged | QReturnValueChanged
| QMessage (data : list Z)
| QError (code : Z).

(** [w_slots]: element i is connected to the signals of stream (k, sid), qquickgrpcstream.cpp 167-173. *)
Record world : Type := mkWorld {
  w_client : nat -> client;
  w_item : nat -> item;
  w_slots : list (nat * (nat * nat));
  w_log : list (nat * qoutput)
}.

Definition new_world : world := mkWorld (fun _ => new_client) (fun _ => new_item) [] [].

Definition upd {A : Type} (f : nat -> A) (k : nat) (x : A) : nat -> A := fun j => if Nat.eqb j k then x else f j.

Definition with_client (k : nat) (c : client) (w : world) : world :=
  mkWorld (upd (w_client w) k c) (w_item w) (w_slots w) (w_log w).
Definition with_item (i : nat) (q : item) (w : world) : world :=
  mkWorld (w_client w) (upd (w_item w) i q) (w_slots w) (w_log w).
Definition signal (i : nat) (o : qoutput) (w : world) : world :=
  mkWorld (w_client w) (w_item w) (w_slots w) (w_log w ++ [(i, o)]).

Definition set_stream (s : option (nat * nat)) (q : item) : item :=
  mkItem (q_client q) (q_enabled q) (q_method q) (q_arg q) s (q_return q).
Definition set_enabled (b : bool) (q : item) : item :=
  mkItem (q_client q) b (q_method q) (q_arg q) (q_stream q) (q_return q).
Definition set_return (b : bool) (q : item) : item :=
  mkItem (q_client q) (q_enabled q) (q_method q) (q_arg q) (q_stream q) b.

(** Giving up a shared pointer to a stream. *)
Definition drop_ref (sid : nat) (c : client) : client :=
  let s := stream_at c sid in
  with_stream sid (mkStream (s_method s) (s_arg s) (s_handlers s) (s_client s) (pred (s_refs s)) (s_deleted s)) c.

(** m_stream.reset(). *)
Definition reset (i : nat) (w : world) : world :=
  match q_stream (w_item w i) with
  | None => w
  | Some (k, sid) =>
      with_item i (set_stream None (w_item w i)) (with_client k (drop_ref sid (w_client w k)) w)
  end.

(** qquickgrpcstream.cpp 57-61. *)
Definition clear_return (i : nat) (w : world) : world :=
  if q_return (w_item w i) then signal i QReturnValueChanged (with_item i (set_return false (w_item w i)) w)
  else w.

(** The elements connected to a stream, in the order in which they connected. *)
Definition pair_eqb (a b : nat * nat) : bool := Nat.eqb (fst a) (fst b) && Nat.eqb (snd a) (snd b).
Definition listeners (w : world) (s : nat * nat) : list nat :=
  map fst (filter (fun x => pair_eqb (snd x) s) (w_slots w)).

(** Slots are called one after another. *)
Fixpoint each (f : nat -> world -> res world) (l : list nat) (w : world) : res world :=
  match l with
  | [] => Ok w
  | i :: l' => w' <- f i w ;; each f l' w'
  end.

Section Resolve.

(** The part of QQuickGrpcStream::stream() that looks up the method of the client by its name and compares
    the argument with its parameter, qquickgrpcstream.cpp 74-139: a status code to be reported, or the name of the
    remote method.  It depends on the generated client class: see
    ClientModel, quick_stream. *)
Variable resolve : list Z -> list Z -> Z + list Z.

(** QQuickGrpcStream::stream(), qquickgrpcstream.cpp 72-176.  The handler given to the client is not
    numbered: messages are observed by [QMessage]. *)
Definition stream_of (i k : nat) (arg : list Z) (w : world) : bool * world :=
  match resolve (q_method (w_item w i)) arg with
  | inl code => (false, signal i (QError code) w)
  | inr method =>
      let w1 := signal i QReturnValueChanged (with_item i (set_return true (w_item w i)) w) in
      let c := w_client w1 k in
      let w2 := with_client k (client_stream method arg None c) w1 in
      match k_channel c with
      | None => (false, signal i (QError 2) w2)
      | Some _ =>
          (* the stream that was returned *)
          let sid := match find (equal_to c method arg) (k_active c) with
                     | Some sid => sid
                     | None => length (k_streams c)
                     end in
          let w3 := with_item i (set_stream (Some (k, sid)) (w_item w2 i)) w2 in
          (true, mkWorld (w_client w3) (w_item w3) (w_slots w3 ++ [(i, (k, sid))]) (w_log w3))
      end
  end.

(** setEnabled, qquickgrpcstream_p.h 139-147, given updateStream. *)
Definition setEnabled_with (update : nat -> world -> res world) (b : bool) (i : nat) (w : world) : res world :=
  if Bool.eqb (q_enabled (w_item w i)) b then Ok w
  else update i (signal i QEnabledChanged (with_item i (set_enabled b (w_item w i)) w)).

(** The slot of an element for finished, qquickgrpcstream.cpp 173. *)
Definition finished_slot (update : nat -> world -> res world) (i : nat) (w : world) : res world :=
  setEnabled_with update false i (reset i w).

(** m_stream->abort(): qgrpcstream.cpp 49-56, the slots of the client first. *)
Definition abort_stream (update : nat -> world -> res world) (k sid : nat) (w : world) : res world :=
  each (finished_slot update) (listeners w (k, sid)) (with_client k (emit_finished sid (w_client w k)) w).

(** updateStream, qquickgrpcstream.cpp 50-70.  It calls itself through setEnabled; [n] bounds the depth. *)
Fixpoint updateStream (n : nat) (i : nat) (w : world) : res world :=
  match n with
  | O => OutOfFuel
  | S n' =>
      w1 <- match q_stream (w_item w i) with
            | None => Ok w
            | Some (k, sid) => w' <- abort_stream (updateStream n') k sid w ;; Ok (reset i w')
            end ;;
      let w2 := clear_return i w1 in
      let q := w_item w2 i in
      match q_client q, q_arg q with
      | Some k, Some (_, arg) =>
          if match q_method q with [] => true | _ => false end || negb (q_enabled q) then Ok w2
          else match stream_of i k arg w2 with
               | (true, w3) => Ok w3
               | (false, w3) => setEnabled_with (updateStream n') false i w3
               end
      | _, _ => Ok w2
      end
  end.

(** Three levels are never exhausted, see QuickProofs. *)
Definition update : nat -> world -> res world := updateStream 3.

(** The setters, qquickgrpcstream_p.h 129-167.  Arguments are compared by address. *)
Definition setEnabled (b : bool) (i : nat) (w : world) : res world := setEnabled_with update b i w.

Definition option_eqb (a b : option nat) : bool :=
  match a, b with None, None => true | Some x, Some y => Nat.eqb x y | _, _ => false end.

Definition setClient (k : option nat) (i : nat) (w : world) : res world :=
  let q := w_item w i in
  if option_eqb (q_client q) k then Ok w
  else update i (signal i QClientChanged
         (with_item i (mkItem k (q_enabled q) (q_method q) (q_arg q) (q_stream q) (q_return q)) w)).

Definition setMethod (m : list Z) (i : nat) (w : world) : res world :=
  let q := w_item w i in
  if bytes_eqb (q_method q) m then Ok w
  else update i (signal i QMethodChanged
         (with_item i (mkItem (q_client q) (q_enabled q) m (q_arg q) (q_stream q) (q_return q)) w)).

Definition setArgument (a : option (nat * list Z)) (i : nat) (w : world) : res world :=
  let q := w_item w i in
  if option_eqb (option_map fst (q_arg q)) (option_map fst a) then Ok w
  else update i (signal i QArgumentChanged
         (with_item i (mkItem (q_client q) (q_enabled q) (q_method q) a (q_stream q) (q_return q)) w)).

(** The destructor, qquickgrpcstream.cpp 41-47; the number may be used for a new element afterwards. *)
Definition destroy (i : nat) (w : world) : res world :=
  w1 <- match q_stream (w_item w i) with
        | None => Ok w
        | Some (k, sid) => w' <- abort_stream update k sid w ;; Ok (reset i w')
        end ;;
  Ok (mkWorld (w_client w1) (upd (w_item w1) i new_item)
        (filter (fun x => negb (Nat.eqb (fst x) i)) (w_slots w1)) (w_log w1)).

(** The signals of streams of client k reach the elements that are connected to them. *)
Fixpoint deliver (k : nat) (o : list output) (w : world) : res world :=
  match o with
  | [] => Ok w
  | OFinished sid :: o' =>
      w' <- each (finished_slot update) (listeners w (k, sid)) w ;; deliver k o' w'
  | OReceived sid data :: o' =>
      w' <- each (fun i w => Ok (signal i (QMessage data) w)) (listeners w (k, sid)) w ;; deliver k o' w'
  | OError sid code :: o' =>
      w' <- each (fun i w => Ok (signal i (QError code) w)) (listeners w (k, sid)) w ;; deliver k o' w'
  | _ :: o' => deliver k o' w
  end.

(** Events: properties set by QML, destruction of an element, and any event of a client (of the network, the
    timers, or of other users of the client). *)
Inductive qevent : Type :=
| SetClient (i : nat) (k : option nat)
| SetEnabled (i : nat) (b : bool)
| SetMethod (i : nat) (m : list Z)
| SetArgument (i : nat) (a : option (nat * list Z))
| Destroy (i : nat)
| ClientEvent (k : nat) (e : event).

Definition qstep (w : world) (e : qevent) : res world :=
  match e with
  | SetClient i k => setClient k i w
  | SetEnabled i b => setEnabled b i w
  | SetMethod i m => setMethod m i w
  | SetArgument i a => setArgument a i w
  | Destroy i => destroy i w
  | ClientEvent k e' =>
      c <- step (w_client w k) e' ;;
      deliver k (skipn (length (k_log (w_client w k))) (k_log c)) (with_client k c w)
  end.

(** A history; the exception of attachChannel is caught by its caller. *)
Fixpoint qrun (w : world) (evs : list qevent) : res world :=
  match evs with
  | [] => Ok w
  | e :: evs' =>
      match qstep w e with
      | Throw _ => qrun w evs'
      | r => w' <- r ;; qrun w' evs'
      end
  end.

End Resolve.

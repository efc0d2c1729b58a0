(** Model of the ownership of nested messages: src/protobuf/qprotobuflazymessagepointer.h and the accessors of
    message fields that the generator emits (src/generator/templates.cpp).

    Objects are message objects (QObjects).  Each has some number of message fields, and each such field is a
    QProtobufLazyMessagePointer: a pointer and a connection to the destroyed signal of an object.  Values of
    other fields are left out.  The move operations of the pointer class are left out as well, generated code
    does not use them. *)

From Coq Require Import List Bool Arith.
From Verif Require Import Base.
Import ListNotations.

(** An object whose destructor has not begun, is running, or has ended. *)
Inductive state : Type := Alive | Dying | Dead.

(** [o_js]: QQmlEngine::objectOwnership is JavaScriptOwnership; [o_own]: created by a message field itself;
    [o_fields]: the number of message fields. *)
Record object : Type := mkObject { o_state : state; o_js : bool; o_own : bool; o_fields : nat }.

(** qprotobuflazymessagepointer.h 114-115: m_ptr and m_destroyed.  The connection is given by the object whose
    signal it is connected to. *)
Record cell : Type := mkCell { c_ptr : option nat; c_conn : option nat }.
Definition empty : cell := mkCell None None.

(** Who ran a destructor: a message field, or someone else (user code, a parent, the QML engine). *)
Inductive destroyer : Type := ByField (o i : nat) | ByOther.

(** [w_next] objects have been created so far; [w_log] are the destructors that have been run to the end, the
    last one first. *)
Record world : Type := mkWorld {
  w_next : nat; w_obj : nat -> object; w_cell : nat -> nat -> cell; w_log : list (nat * destroyer)
}.

Definition no_object : object := mkObject Dead false false 0.
Definition initial : world := mkWorld 0 (fun _ => no_object) (fun _ _ => empty) [].

Definition state_of (w : world) (p : nat) : state := o_state (w_obj w p).
Definition is_alive (s : state) : bool := match s with Alive => true | _ => false end.
Definition is_dead (s : state) : bool := match s with Dead => true | _ => false end.

Definition set_object (w : world) (p : nat) (o : object) : world :=
  mkWorld (w_next w) (fun q => if Nat.eqb q p then o else w_obj w q) (w_cell w) (w_log w).
Definition set_state (w : world) (p : nat) (s : state) : world :=
  let o := w_obj w p in set_object w p (mkObject s (o_js o) (o_own o) (o_fields o)).
Definition set_cell (w : world) (o i : nat) (c : cell) : world :=
  mkWorld (w_next w) (w_obj w)
    (fun o' i' => if Nat.eqb o' o && Nat.eqb i' i then c else w_cell w o' i') (w_log w).

(** A new object at the next address. *)
Definition create (w : world) (js own : bool) (fields : nat) : world :=
  mkWorld (S (w_next w)) (fun q => if Nat.eqb q (w_next w) then mkObject Alive js own fields else w_obj w q)
    (w_cell w) (w_log w).

(** The signal destroyed of QObject runs the connected lambdas, qprotobuflazymessagepointer.h 83-86: the
    connection is removed and the pointer released. *)
Definition emit_destroyed (w : world) (p : nat) : world :=
  mkWorld (w_next w) (w_obj w)
    (fun o i => match c_conn (w_cell w o i) with
                | Some q => if Nat.eqb q p then empty else w_cell w o i
                | None => w_cell w o i
                end) (w_log w).

Definition add_log (w : world) (p : nat) (by_ : destroyer) : world :=
  mkWorld (w_next w) (w_obj w) (w_cell w) ((p, by_) :: w_log w).

(** checkAndRelease, qprotobuflazymessagepointer.h 100-110; [qml]: compiled with QT_QML_LIB.
    QQmlEngine::objectOwnership reads the object (for a null pointer it does not). *)
Definition checkAndRelease (qml : bool) (w : world) (o i : nat) : res world :=
  match c_ptr (w_cell w o i) with
  | None => Ok w
  | Some p =>
      if qml then
        if is_dead (state_of w p) then UB DanglingRef
        else if o_js (w_obj w p) then Ok (set_cell w o i empty) else Ok w
      else Ok (set_cell w o i empty)
  end.

(** ~QProtobufLazyMessagePointer, qprotobuflazymessagepointer.h 43-46, and ~unique_ptr for the first [n] fields
    of object [o], from the last to the first.  The pointer counts as null when the object is destroyed: nothing
    reads it in between. *)
Fixpoint destroy_cells (destroy : destroyer -> world -> nat -> res world) (qml : bool) (w : world)
  (o n : nat) : res world :=
  match n with
  | O => Ok w
  | S i =>
      w1 <- checkAndRelease qml w o i ;;
      let w2 := set_cell w1 o i empty in
      w3 <- match c_ptr (w_cell w1 o i) with
            | None => Ok w2
            | Some p => destroy (ByField o i) w2 p
            end ;;
      destroy_cells destroy qml w3 o i
  end.

(** delete of an object: the destructors of its fields, then ~QObject, which emits the signal. *)
Fixpoint destroy (fuel : nat) (qml : bool) (by_ : destroyer) (w : world) (p : nat) : res world :=
  match fuel with
  | O => OutOfFuel
  | S fuel' =>
      if negb (is_alive (state_of w p)) then UB DanglingRef
      else
        w1 <- destroy_cells (destroy fuel' qml) qml (set_state w p Dying) p (o_fields (w_obj w p)) ;;
        Ok (emit_destroyed (add_log (set_state w1 p Dead) p by_) p)
  end.

(** operator* and get, qprotobuflazymessagepointer.h 48-69: an object is created if there is none.  [fields] is
    the number of message fields of its type. *)
Definition access (w : world) (o i fields : nat) : world :=
  match c_ptr (w_cell w o i) with
  | Some _ => w
  | None =>
      let p := w_next w in
      set_cell (create w false true fields) o i (mkCell (Some p) (c_conn (w_cell w o i)))
  end.

(** reset, qprotobuflazymessagepointer.h 80-90.  connect with a null pointer makes no connection;
    unique_ptr::reset stores the new pointer and then deletes the old object. *)
Definition reset (qml : bool) (w : world) (o i : nat) (p : option nat) : res world :=
  w1 <- checkAndRelease qml w o i ;;
  let old := c_ptr (w_cell w1 o i) in
  if match p with Some q => is_dead (state_of w1 q) | None => false end then UB DanglingRef
  else
    let w2 := set_cell w1 o i (mkCell p p) in
    match old with
    | None => Ok w2
    | Some q => destroy (S (w_next w2)) qml (ByField o i) w2 q
    end.

(** The setter that takes a pointer, templates.cpp 206-212. *)
Definition assign (qml : bool) (w : world) (o i : nat) (p : option nat) (fields : nat) : res world :=
  let w1 := access w o i fields in
  match c_ptr (w_cell w1 o i), p with
  | Some q, Some r => if Nat.eqb q r then Ok w1 else reset qml w1 o i p
  | None, None => Ok w1
  | _, _ => reset qml w1 o i p
  end.

(** What can happen to message objects:
    - [New]: user code or QML creates one;
    - [Access]: a getter of a message field, templates.cpp 180-190, its setter by value, 215-221, or a comparison,
      copy or assignment that dereferences it, 124-141, 165-166;
    - [Assign]: its setter by pointer (the write function of its Qt property: QML, the deserializer);
    - [SetOwnership]: QQmlEngine::setObjectOwnership or a change of owner by the engine;
    - [Delete]: user code, a QObject parent or the garbage collector of QML deletes an object. *)
Inductive op : Type :=
| New (js : bool) (fields : nat)
| Access (o i fields : nat)
| Assign (o i : nat) (p : option nat) (fields : nat)
| SetOwnership (p : nat) (js : bool)
| Delete (p : nat).

Definition step (qml : bool) (w : world) (x : op) : res world :=
  match x with
  | New js fields => Ok (create w js false fields)
  | Access o i fields => if is_alive (state_of w o) then Ok (access w o i fields) else UB DanglingRef
  | Assign o i p fields => if is_alive (state_of w o) then assign qml w o i p fields else UB DanglingRef
  | SetOwnership p js =>
      if is_alive (state_of w p)
      then let o := w_obj w p in Ok (set_object w p (mkObject (o_state o) js (o_own o) (o_fields o)))
      else UB DanglingRef
  | Delete p => destroy (S (w_next w)) qml ByOther w p
  end.

Fixpoint run (qml : bool) (w : world) (xs : list op) : res world :=
  match xs with
  | [] => Ok w
  | x :: xs' => w1 <- step qml w x ;; run qml w1 xs'
  end.

(** Model of the iterator with bounds checks as a class of its own: src/protobuf/qprotobufselfcheckiterator.h.  [WireModel] has the part of it that the
    deserializer uses, where an exception ends everything; here iterators are used further after an exception. *)

From Coq Require Import ZArith List Bool.
From Verif Require Import Base.
Import ListNotations.
Open Scope Z_scope.

(** qprotobufselfcheckiterator.h 131-135: m_sizeLeft, m_containerSize and m_it.  The pointer is an offset [cu_pos] into the container number [cu_home]. *)
Record cursor : Type := mkCursor { cu_left : Z; cu_size : Z; cu_home : nat; cu_pos : Z }.

(** For indices that are not used. *)
Definition no_cursor : cursor := mkCursor 0 0 0 0.

Section Containers.
  (** The containers, which outlive the iterators and do not change.  (QByteArray.) *)
  Variable bufs : list (list Z).

  Definition buf_at (h : nat) : list Z := nth h bufs [].

  (** qprotobufselfcheckiterator.h 42-44: the constructor. *)
  Definition construct (h : nat) : cursor := mkCursor (Zlen (buf_at h)) (Zlen (buf_at h)) h 0.

  (** qprotobufselfcheckiterator.h 49, 103: the test of copies and assignments. *)
  Definition unfit (n size : Z) : bool := (size <? n) || (n <? 0).

  (** qprotobufselfcheckiterator.h 46-52: the copy constructor. *)
  Definition copy (c : cursor) : res cursor := if unfit (cu_left c) (cu_size c) then Throw OutOfRange else Ok c.

  (** Calculations with int, and with pointers: undefined beyond the range of int and outside of the array. *)
  Definition as_int (z : Z) : res Z := if (z <? - INT_MAX - 1) || (INT_MAX <? z) then UB SignedOverflow else Ok z.
  Definition move (c : cursor) (n d : Z) : cursor * res unit :=
    let p := cu_pos c + d in
    if (p <? 0) || (Zlen (buf_at (cu_home c)) <? p) then (c, UB PtrOutOfArray) else (mkCursor n (cu_size c) (cu_home c) p, Ok tt).
  Definition with_left (c : cursor) (n : Z) : cursor := mkCursor n (cu_size c) (cu_home c) (cu_pos c).

  (** qprotobufselfcheckiterator.h 59-66: operator++.  The count is changed before the test, and stays so if the test fails. *)
  Definition increment (c : cursor) : cursor * res unit :=
    match as_int (cu_left c - 1) with
    | Ok n => if n <? 0 then (with_left c n, Throw OutOfRange) else move c n 1
    | Throw e => (c, Throw e) | UB r => (c, UB r) | OutOfFuel => (c, OutOfFuel)
    end.

  (** qprotobufselfcheckiterator.h 68-75: operator--. *)
  Definition decrement (c : cursor) : cursor * res unit :=
    match as_int (cu_left c + 1) with
    | Ok n => if cu_size c <? n then (with_left c n, Throw OutOfRange) else move c n (-1)
    | Throw e => (c, Throw e) | UB r => (c, UB r) | OutOfFuel => (c, OutOfFuel)
    end.

  (** qprotobufselfcheckiterator.h 77-84: operator+=. *)
  Definition plus (c : cursor) (count : Z) : cursor * res unit :=
    match as_int (cu_left c - count) with
    | Ok n => if n <? 0 then (with_left c n, Throw OutOfRange) else move c n count
    | Throw e => (c, Throw e) | UB r => (c, UB r) | OutOfFuel => (c, OutOfFuel)
    end.

  (** qprotobufselfcheckiterator.h 86-93: operator-=. *)
  Definition minus (c : cursor) (count : Z) : cursor * res unit :=
    match as_int (cu_left c + count) with
    | Ok n => if cu_size c <? n then (with_left c n, Throw OutOfRange) else move c n (- count)
    | Throw e => (c, Throw e) | UB r => (c, UB r) | OutOfFuel => (c, OutOfFuel)
    end.

  (** qprotobufselfcheckiterator.h 95-108: operator=.  If the test fails, the sizes are those of the other iterator and the pointer is the old one.
      [self]: an assignment to itself. *)
  Definition assign (self : bool) (c other : cursor) : cursor * res unit :=
    if self then (c, Ok tt) else
    if unfit (cu_left other) (cu_size other) then (mkCursor (cu_left other) (cu_size other) (cu_home c) (cu_pos c), Throw OutOfRange)
    else (other, Ok tt).

  (** qprotobufselfcheckiterator.h 138-141: operator+; the result is a copy of the local variable. *)
  Definition sum (c : cursor) (count : Z) : res cursor :=
    c1 <- copy c ;;
    match plus c1 count with
    | (c2, Ok _) => copy c2
    | (_, Throw e) => Throw e | (_, UB r) => UB r | (_, OutOfFuel) => OutOfFuel
    end.

  (** qprotobufselfcheckiterator.h 57: operator*, not checked.  A QByteArray has a zero byte behind its end, which may be read. *)
  Definition deref (c : cursor) : res Z :=
    if (cu_pos c <? 0) || (Zlen (buf_at (cu_home c)) <? cu_pos c) then UB OverRead else Ok (nth (Z.to_nat (cu_pos c)) (buf_at (cu_home c)) 0).

  (** qprotobufselfcheckiterator.h 109-115: operator== (operator!= is its negation).  Pointers into different containers are taken to differ. *)
  Definition equal (c other : cursor) : bool := Nat.eqb (cu_home other) (cu_home c) && (cu_pos other =? cu_pos c).

  (** ** Histories

      A program with any number of iterators, which are numbered in the order of their construction.  Each operation has an outcome, with the
      byte that was read or 0. *)
  Inductive op : Type :=
  | New (h : nat) | CopyOf (i : nat) | SumOf (i : nat) (n : Z)
  | Incr (i : nat) | Decr (i : nat) | Plus (i : nat) (n : Z) | Minus (i : nat) (n : Z)
  | Assign (i j : nat) | Deref (i : nat) | Size (i : nat) | Equal (i j : nat).

  Definition cursors : Type := list cursor.
  Definition at_ (w : cursors) (i : nat) : cursor := nth i w no_cursor.
  Fixpoint set_ (w : cursors) (i : nat) (c : cursor) : cursors :=
    match w, i with
    | [], _ => []
    | _ :: w', O => c :: w'
    | x :: w', S i' => x :: set_ w' i' c
    end.

  Definition changed (w : cursors) (i : nat) (r : cursor * res unit) : cursors * res Z := (set_ w i (fst r), (_ <- snd r ;; Ok 0)).
  Definition made (w : cursors) (r : res cursor) : cursors * res Z :=
    match r with
    | Ok c => (w ++ [c], Ok 0)
    | Throw e => (w, Throw e) | UB u => (w, UB u) | OutOfFuel => (w, OutOfFuel)
    end.

  (** One operation; qprotobufselfcheckiterator.h 128-130 for [Size]. *)
  Definition step (w : cursors) (o : op) : cursors * res Z :=
    match o with
    | New h => (w ++ [construct h], Ok 0)
    | CopyOf i => made w (copy (at_ w i))
    | SumOf i n => made w (sum (at_ w i) n)
    | Incr i => changed w i (increment (at_ w i))
    | Decr i => changed w i (decrement (at_ w i))
    | Plus i n => changed w i (plus (at_ w i) n)
    | Minus i n => changed w i (minus (at_ w i) n)
    | Assign i j => changed w i (assign (Nat.eqb i j) (at_ w i) (at_ w j))
    | Deref i => (w, deref (at_ w i))
    | Size i => (w, Ok (cu_left (at_ w i)))
    | Equal i j => (w, Ok (if equal (at_ w i) (at_ w j) then 1 else 0))
    end.

  (** A history: the iterators at its end, and the outcomes. *)
  Fixpoint history (w : cursors) (os : list op) : cursors * list (res Z) :=
    match os with
    | [] => (w, [])
    | o :: os' => let (w1, r) := step w o in let (w2, rs) := history w1 os' in (w2, r :: rs)
    end.
End Containers.

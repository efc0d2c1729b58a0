(** Model of QGrpcStatus as a value: qgrpcstatus.h 46-120, qgrpcstatus.cpp. *)

From Coq Require Import ZArith List Bool Arith String.
From Verif Require Import Base.
Import ListNotations.

(** QGrpcStatusPrivate, qgrpcstatus.cpp 30-40: code and message (a QString, by its UTF-16 code units). *)
Definition content : Type := (Z * list Z)%type.

(** dPtr, qgrpcstatus.h 115: a unique pointer, [None] is null.  A variable of a program that holds no status at the moment: [Gone]. *)
Inductive variable : Type := Gone | Status (d : option content).

(** What programs do with statuses.  [New x]: construction from code and message; [Copy x y], [Move x y]: construction of x from y;
    [Assign x y], [MoveAssign x y]: assignment to x; [Destroy x]; and the questions. *)
Inductive operation : Type :=
| New (x : nat) (code : Z) (message : list Z)
| Copy (x y : nat) | Move (x y : nat) | Assign (x y : nat) | MoveAssign (x y : nat) | Destroy (x : nat)
| Code (x : nat) | Message (x : nat) | EqualCode (x : nat) (code : Z) | DifferentCode (x : nat) (code : Z) | Equal (x y : nat).

Inductive answer : Type := ACode (c : Z) | AMessage (m : list Z) | ABool (b : bool).

Definition variables : Type := nat -> variable.
Definition put (v : variables) (x : nat) (s : variable) : variables := fun y => if Nat.eqb y x then s else v y.

(** dPtr->...: undefined for a null pointer; so is the use of a variable without object, which is the fault of the program. *)
Definition deref (s : variable) : res content :=
  match s with
  | Gone => UB DanglingRef
  | Status None => UB NullDeref
  | Status (Some d) => Ok d
  end.
Definition pointer (s : variable) : res (option content) :=
  match s with Gone => UB DanglingRef | Status d => Ok d end.

(** A constructor makes an object where none is. *)
Definition fresh (s : variable) : res unit := match s with Gone => Ok tt | Status _ => UB DanglingRef end.

Definition operate (v : variables) (o : operation) : res (variables * list answer) :=
  match o with
  | New x c m =>                                        (* qgrpcstatus.cpp 42-44 *)
      _ <- fresh (v x) ;; Ok (put v x (Status (Some (c, m))), [])
  | Copy x y =>                                         (* 46-47 *)
      _ <- fresh (v x) ;; d <- deref (v y) ;; Ok (put v x (Status (Some (fst d, snd d))), [])
  | Move x y =>                                         (* 49-51: the pointer of y is null after it *)
      _ <- fresh (v x) ;; p <- pointer (v y) ;; Ok (put (put v y (Status None)) x (Status p), [])
  | Assign x y =>                                       (* 53-58: both pointers are used *)
      a <- deref (v x) ;; d <- deref (v y) ;; Ok (put v x (Status (Some (fst d, snd d))), [])
  | MoveAssign x y =>                                   (* 60-64: std::unique_ptr::operator=, reset(other.release()) *)
      a <- pointer (v x) ;; p <- pointer (v y) ;; Ok (put (put v y (Status None)) x (Status p), [])
  | Destroy x => _ <- pointer (v x) ;; Ok (put v x Gone, [])  (* 66-67 *)
  | Code x => d <- deref (v x) ;; Ok (v, [ACode (fst d)])     (* 74-77 *)
  | Message x => d <- deref (v x) ;; Ok (v, [AMessage (snd d)])  (* 69-72 *)
  | EqualCode x c => d <- deref (v x) ;; Ok (v, [ABool (fst d =? c)%Z])  (* 79-82, 96-99 *)
  | DifferentCode x c => d <- deref (v x) ;; Ok (v, [ABool (negb (fst d =? c)%Z)])  (* 84-87, 100-103 *)
  | Equal x y => a <- deref (v x) ;; b <- deref (v y) ;; Ok (v, [ABool (fst a =? fst b)%Z])  (* 89-92 *)
  end.

Fixpoint program (v : variables) (l : list operation) : res (variables * list answer) :=
  match l with
  | [] => Ok (v, [])
  | o :: l' => r <- operate v o ;; r' <- program (fst r) l' ;; Ok (fst r', (snd r ++ snd r')%list)
  end.

Definition nothing : variables := fun _ => Gone.

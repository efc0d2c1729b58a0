(** Outcomes of C++ functions, machine integers and byte buffers.

    This file models no particular repository code; it fixes the vocabulary used by
    all model files. *)

From Coq Require Import ZArith List Bool Lia.
Import ListNotations.
Open Scope Z_scope.

(** Exceptions the modelled code can raise. *)
Inductive exn : Type :=
| OutOfRange        (* std::out_of_range *)
| InvalidArgument   (* std::invalid_argument *)
| BadFunctionCall   (* std::bad_function_call, call of an empty std::function *)
| RuntimeError      (* std::runtime_error *)
| NegativeLength.   (* never raised by the code; see [advance] in WireModel *)

(** Reasons why an execution is undefined. *)
Inductive ubreason : Type :=
| OverRead          (* read outside of the buffer and its terminating NUL *)
| ShiftOverflow     (* shift by at least the width of the type *)
| SignedOverflow    (* int overflow *)
| PtrOutOfArray     (* pointer arithmetic leaving the array *)
| NullDeref         (* null pointer dereference *)
| BadIndex          (* container access out of range, precondition of Qt *)
| DanglingRef       (* use of an invalidated iterator or destroyed object *)
| TypeConfusion     (* value does not have the C++ type the code assumes *)
| StackExhausted.   (* more nested calls than the stack of the thread has room for; see StackModel *)

Inductive res (A : Type) : Type :=
| Ok (a : A)
| Throw (e : exn)
| UB (r : ubreason)
| OutOfFuel.
Arguments Ok {A} _.
Arguments Throw {A} _.
Arguments UB {A} _.
Arguments OutOfFuel {A}.

Definition bind {A B : Type} (m : res A) (f : A -> res B) : res B :=
  match m with
  | Ok a => f a
  | Throw e => Throw e
  | UB r => UB r
  | OutOfFuel => OutOfFuel
  end.

Notation "x <- m ;; k" := (bind m (fun x => k))
  (at level 61, m at next level, right associativity).
Notation "' p <- m ;; k" := (bind m (fun x => let p := x in k))
  (at level 61, p pattern, m at next level, right associativity).

Definition is_byte (b : Z) : Prop := 0 <= b < 256.
Definition bytes (l : list Z) : Prop := Forall is_byte l.

(** Conversion to an unsigned type of [w] bits. *)
Definition wrapU (w z : Z) : Z := z mod 2 ^ w.

(** Conversion to a signed (two's complement) type of [w] bits. *)
Definition toS (w z : Z) : Z :=
  let u := z mod 2 ^ w in if u <? 2 ^ (w - 1) then u else u - 2 ^ w.

Definition Zlen {A : Type} (l : list A) : Z := Z.of_nat (length l).

(** Bytes [pos .. pos+n) of a list. *)
Definition slice (l : list Z) (pos n : Z) : list Z :=
  firstn (Z.to_nat n) (skipn (Z.to_nat pos) l).

Definition INT_MAX : Z := 2147483647.

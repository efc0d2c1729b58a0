(** Nesting of message types and of messages. *)

From Coq Require Import ZArith List Bool.
From Verif Require Import Base Values MessageModel WireSpec MessageSpec.
Import ListNotations.
Open Scope Z_scope.

(** Fields of type [ty] hold messages of type [m]. *)
Definition holds (ty : fty) (m : nat) : Prop :=
  match ty with
  | FSing (EM m') | FRep (EM m') | FMap _ (EM m') => m' = m
  | _ => False
  end.

(** [height] ranks message types such that the messages in the fields of a message have a lower rank.  There is one if no type
    contains itself, directly or through others; it is then at least the length of the longest chain of types. *)
Definition ranked (sch : schema) (height : nat -> nat) : Prop :=
  forall m i m', (i < length (md_fields (msg_at sch m)))%nat -> holds (f_ty (field_at sch m i)) m' -> (height m' < height m)%nat.

(** [chain j] is the type of a message, which has in its field [at_ j], or in a list in that field, messages of type [chain (j + 1)],
    and so on for ever. *)
Definition endless (sch : schema) (chain at_ : nat -> nat) : Prop :=
  forall j, (at_ j < length (md_fields (msg_at sch (chain j))))%nat /\
    (f_ty (field_at sch (chain j) (at_ j)) = FSing (EM (chain (S j))) \/ f_ty (field_at sch (chain j) (at_ j)) = FRep (EM (chain (S j)))).

(** [n] messages within each other. *)
Fixpoint nested (sch : schema) (chain at_ : nat -> nat) (j n : nat) : list (Z * wval) :=
  match n with
  | O => []
  | S n' => [(f_num (field_at sch (chain j) (at_ j)), WMsg (nested sch chain at_ (S j) n'))]
  end.

(** Words used to state how nested messages are owned. *)

From Coq Require Import List Bool Arith.
From Verif Require Import Base OwnerModel.
Import ListNotations.

(** Field [i] of object [o] points to object [p]. *)
Definition holds (w : world) (o i p : nat) : Prop := c_ptr (w_cell w o i) = Some p.

(** [p] is nested in [o], directly or deeper. *)
Inductive nested (w : world) : nat -> nat -> Prop :=
| nested_one o i p : holds w o i p -> nested w o p
| nested_more o i p q : holds w o i p -> nested w p q -> nested w o q.

Definition alive (w : world) (p : nat) : Prop := p < w_next w /\ o_state (w_obj w p) = Alive.
Definition destroyed (w : world) (p : nat) : Prop := p < w_next w /\ o_state (w_obj w p) = Dead.

(** An object that a message field has created for itself. *)
Definition made_by_field (w : world) (p : nat) : Prop := o_own (w_obj w p) = true.
Definition js_owned (w : world) (p : nat) : Prop := o_js (w_obj w p) = true.

(** Operations that are allowed: they use objects that are alive; objects that a field has created are left to
    that field (they are not set into other fields, deleted or given to the QML engine), and an object is not
    put into a field of itself or of an object nested in it. *)
Definition legal (w : world) (x : op) : Prop :=
  match x with
  | New _ _ => True
  | Access o i _ => alive w o /\ i < o_fields (w_obj w o)
  | Assign o i p _ =>
      alive w o /\ i < o_fields (w_obj w o)
      /\ match p with
         | None => True
         | Some q => holds w o i q \/ (alive w q /\ ~ made_by_field w q /\ q <> o /\ ~ nested w q o)
         end
  | SetOwnership p _ | Delete p => alive w p /\ ~ made_by_field w p
  end.

(** All operations are allowed at their time. *)
Fixpoint legal_run (qml : bool) (w : world) (xs : list op) : Prop :=
  match xs with
  | [] => True
  | x :: xs' => legal w x /\ forall w', step qml w x = Ok w' -> legal_run qml w' xs'
  end.

(** The number of destructor runs of an object. *)
Definition destructions (w : world) (p : nat) : nat := count_occ Nat.eq_dec (map fst (w_log w)) p.

(** How message types refer to each other, independent of the model. *)

From Coq Require Import List Relations.
From Verif Require Import Values.
Import ListNotations.

(** Messages of type [m] have a singular field that holds a message of type [m']. *)
Definition singular (sch : schema) (m m' : nat) : Prop :=
  exists f, In f (md_fields (msg_at sch m)) /\ f_ty f = FSing (EM m').

(** Messages of type [m] have a field that holds messages of type [m']: singular, repeated or map. *)
Definition refers (sch : schema) (m m' : nat) : Prop :=
  exists f, In f (md_fields (msg_at sch m)) /\
    (f_ty f = FSing (EM m') \/ f_ty f = FRep (EM m') \/ exists k, f_ty f = FMap k (EM m')).

(** Inside a message of type [m] there can be one of a type that contains itself through singular fields. *)
Definition can_hold_cycle (sch : schema) (m : nat) : Prop :=
  exists x, clos_refl_trans nat (refers sch) m x /\ clos_trans nat (singular sch) x x.

(** Statuses as values: what a program that uses them correctly is told. *)

From Coq Require Import ZArith List Bool Arith.
From Verif Require Import Base StatusModel.
Import ListNotations.

(** A variable has no status, one whose value nobody may rely on (it has been moved from), or one with a code and a message. *)
Inductive value : Type := Absent | Unspecified | Known (code : Z) (message : list Z).
Definition values : Type := nat -> value.
Definition set_value (v : values) (x : nat) (s : value) : values := fun y => if Nat.eqb y x then s else v y.

(** The rules for values: a status is made where none is, copying gives the same code and message and leaves the source as it is, moving
    gives them and leaves the source unspecified (unless it is moved to itself), an unspecified status can be assigned to and destroyed but not be asked or
    copied.  Equal statuses are those with the same code and message. *)
Inductive does : values -> operation -> values -> list answer -> Prop :=
| does_new v x c m : v x = Absent -> does v (New x c m) (set_value v x (Known c m)) []
| does_copy v x y c m : v x = Absent -> v y = Known c m -> does v (Copy x y) (set_value v x (Known c m)) []
| does_move v x y : v x = Absent -> v y <> Absent -> does v (Move x y) (set_value (set_value v y Unspecified) x (v y)) []
| does_assign v x y c m : v x <> Absent -> v y = Known c m -> does v (Assign x y) (set_value v x (Known c m)) []
| does_move_assign v x y : v x <> Absent -> v y <> Absent -> does v (MoveAssign x y) (set_value (set_value v y Unspecified) x (v y)) []
| does_destroy v x : v x <> Absent -> does v (Destroy x) (set_value v x Absent) []
| does_code v x c m : v x = Known c m -> does v (Code x) v [ACode c]
| does_message v x c m : v x = Known c m -> does v (Message x) v [AMessage m]
| does_equal_code v x c m k b : v x = Known c m -> (b = true <-> c = k) -> does v (EqualCode x k) v [ABool b]
| does_different_code v x c m k b : v x = Known c m -> (b = true <-> c <> k) -> does v (DifferentCode x k) v [ABool b]
| does_equal v x y c m c' m' b : v x = Known c m -> v y = Known c' m' -> (b = true <-> (c, m) = (c', m')) -> does v (Equal x y) v [ABool b].

Inductive does_all : values -> list operation -> values -> list answer -> Prop :=
| all_nil v : does_all v [] v []
| all_cons v o v' a l v'' a' : does v o v' a -> does_all v' l v'' a' -> does_all v (o :: l) v'' (a ++ a')%list.

(** Programs that do not assign by copying to a status that was moved from, and do not compare statuses of the same code and different
    messages. *)
Definition careful (v : values) (o : operation) : Prop :=
  match o with
  | Assign x _ => v x <> Unspecified
  | Equal x y => forall c m m', v x = Known c m -> v y = Known c m' -> m = m'
  | _ => True
  end.
Inductive careful_all : values -> list operation -> Prop :=
| careful_nil v : careful_all v []
| careful_cons v o v' a l : careful v o -> does v o v' a -> careful_all v' l -> careful_all v (o :: l).

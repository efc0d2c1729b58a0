(** The stack of the thread that reads a message.

    qprotobufserializer.cpp 99-117, 124-128, 285-325 and 327-353: deserializeMessage calls deserializeProperty, which calls the handler
    of the field; for a message in a field, a list or a map this is deserializeObject, deserializeListObject or deserializeMapPair,
    which calls deserializeMessage again.  [stack] is the number of such nested calls that the stack has room for; what one of them
    needs is not modelled further (for instance that it depends on the kind of field).  A call without room is undefined behaviour.
    Apart from that this is [deserialize_loop] of MessageModel. *)

From Coq Require Import ZArith List Bool.
From Verif Require Import Base WireModel Values MessageModel.
Import ListNotations.
Open Scope Z_scope.

(** qprotobufserializer.cpp 99-104: the loop of deserializeMessage. *)
Fixpoint loop_on_stack (fuel stack : nat) (hard : bool) (sch : schema) (m : nat) (data : list Z) (it : iter) (obj : list value)
  : list value * res unit :=
  match fuel with
  | O => (obj, OutOfFuel)
  | S fuel' =>
      if it_pos it =? Zlen data then (obj, Ok tt) else
      let rec := fun m' data' =>
        match stack with
        | O => ([], UB StackExhausted)
        | S stack' => loop_on_stack fuel' stack' hard sch m' data' (it_begin data') (default_obj sch m')
        end in
      match deserializeProperty fuel' hard sch rec m data it obj with
      | Ok (obj', it') => loop_on_stack fuel' stack hard sch m data it' obj'
      | Throw e => (obj, Throw e)
      | UB r => (obj, UB r)
      | OutOfFuel => (obj, OutOfFuel)
      end
  end.

(** deserializeMessage of [data] into a new object, with room for [stack] nested calls, ends with outcome [o] and leaves [obj]
    (qprotobufserializer.cpp 99-104). *)
Definition deserializes_on_stack (stack : nat) (sch : schema) (m : nat) (data : list Z) (obj : list value) (o : res unit) : Prop :=
  o <> OutOfFuel /\ exists fuel, loop_on_stack fuel stack false sch m data (it_begin data) (default_obj sch m) = (obj, o).

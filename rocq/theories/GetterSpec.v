(** Specification for changes made through the getters of a message object. *)

From Coq Require Import ZArith List Bool.
From Verif Require Import Base Values MessageSpec ObjectModel ObjectSpec.
Import ListNotations.
Open Scope Z_scope.

Section Getters.
  Variable sch : schema.
  Variable h : heap.

  (** [reads path m xs n ys]: the chain of getters [path], called on an object of type [m] with the
      members [xs], ends at an object of type [n] with the members [ys].  The getter of a nested
      message that has not been created yet gives one with default values; those of repeated messages
      and maps are followed by the choice of an element or of a key. *)
  Inductive reads : list step -> nat -> list mem -> nat -> list mem -> Prop :=
  | reads_here m xs : reads [] m xs m xs
  | reads_nested j path m xs m' o n ys :
      f_ty (field_at sch m j) = FSing (EM m') -> nth_error xs j = Some (MOwn (Some o)) ->
      reads path m' o n ys -> reads (Nested j :: path) m xs n ys
  | reads_not_created j path m xs m' n ys :
      f_ty (field_at sch m j) = FSing (EM m') -> nth_error xs j = Some (MOwn None) ->
      reads path m' (default_mems sch m') n ys -> reads (Nested j :: path) m xs n ys
  | reads_element j e path m xs m' l a o n ys :
      f_ty (field_at sch m j) = FRep (EM m') -> nth_error xs j = Some (MPtrs l) ->
      nth_error l e = Some (Some a) -> nth_error h a = Some o ->
      reads path m' o n ys -> reads (Element j e :: path) m xs n ys
  | reads_entry j k key path m xs m' l a o n ys :
      f_ty (field_at sch m j) = FMap k (EM m') -> nth_error xs j = Some (MPtrMap l) ->
      qmap_value k key l = Some a -> nth_error h a = Some o ->
      reads path m' o n ys -> reads (Entry j k key :: path) m xs n ys.
End Getters.

(** The value [vs] of an object of type [m], with field [i] of the nested message at [path] replaced
    by [w] and everything else kept.  Nested messages on the way that are not set have their default
    values. *)
Fixpoint put (sch : schema) (path : list nat) (i : nat) (w : value) (m : nat) (vs : list value)
  : list value :=
  match path with
  | [] => upd i w vs
  | j :: path' =>
      match f_ty (field_at sch m j) with
      | FSing (EM m') =>
          let inner := match nth j vs VNull with VMsg us => us | _ => default_obj sch m' end in
          upd j (VMsg (put sch path' i w m' inner)) vs
      | _ => vs
      end
  end.

(** Messages whose strings are texts. *)

From Coq Require Import ZArith List Bool.
From Verif Require Import Values WireSpec MessageSpec TextSpec.
Import ListNotations.
Local Open Scope Z_scope.

(** Texts that have a meaning in Unicode, without the character U+0000, that do not begin with a byte order mark. *)
Definition faithful (us : list Z) : Prop := well_formed us /\ ~ In 0 us /\ forall t, us <> 65279 :: t.

(** [text_object_ok P sch m fs]: [fs] are values for the fields of an object of type [m], with strings that are units with [P].
    Other values as in [object_ok]. *)
Section Typed.
  Variable P : list Z -> Prop.
  Variable sch : schema.

  Definition text_scalar_ok (t : sty) (s : scalar) : Prop :=
    match t, s with
    | TString, SStr null us => P us /\ (null = true -> us = [])
    | _, _ => scalar_ok t s
    end.

  Fixpoint text_ok (e : elty) (v : value) {struct v} : Prop :=
    match e, v with
    | ES t, VScalar s => text_scalar_ok t s
    | EM _, VNull => True
    | EM m, VMsg fs =>
        (fix all (fields : list field) (fs : list value) {struct fs} : Prop :=
           match fields, fs with
           | [], [] => True
           | f :: fields', x :: fs' =>
               match f_ty f, x with
               | FSing e', _ => text_ok e' x
               | FRep e', VList l => every (text_ok e') l
               | FMap k e', VMap l => keys_sorted k l /\ every (fun p => text_scalar_ok k (fst p) /\ text_ok e' (snd p)) l
               | _, _ => False
               end /\ all fields' fs'
           | _, _ => False
           end) (md_fields (msg_at sch m)) fs
    | _, _ => False
    end.
  Definition text_object_ok (m : nat) (fs : list value) : Prop := text_ok (EM m) (VMsg fs).
End Typed.

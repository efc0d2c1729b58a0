(** Specification of what is dangerous in received bytes, independent of the model. *)

From Coq Require Import ZArith List.
From Verif Require Import Base Values WireSpec.
Import ListNotations.
Open Scope Z_scope.

(** [occurs x data]: the bytes [x] occur in [data] in one piece. *)
Definition occurs (x data : list Z) : Prop := exists before after, data = before ++ x ++ after.

(** Some place of [data] can be taken for a length that is negative as an int: a varint whose low 32 bits
    have the top bit set. *)
Definition has_negative_length (data : list Z) : Prop :=
  exists v x, occurs x data /\ wire_varint v x /\ 2 ^ 31 <= v mod 2 ^ 32.


(** Some place of [data] has [n] bytes with the top bit set in a row. *)
Definition has_run (n : nat) (data : list Z) : Prop :=
  exists x, occurs x data /\ length x = n /\ Forall (fun b => 128 <= b) x.

(** Some place of [data] can be taken for a varint of more than ten bytes. *)
Definition has_long_varint (data : list Z) : Prop := has_run 10 data.

(** Fields that hold texts, byte strings or messages: the bytes of a value follow its length. *)
Definition holds_bytes (ty : fty) : Prop :=
  match ty with
  | FSing (ES t) | FRep (ES t) => t = TString \/ t = TBytes
  | FSing (EM _) | FRep (EM _) => True
  | FMap _ _ => False
  end.

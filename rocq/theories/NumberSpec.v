(** Numbers as QVariant, QML and the fields of messages hold them. *)

From Coq Require Import ZArith List Bool.
From Verif Require Import Base Values WireSpec JsonSpec.
Import ListNotations.
Open Scope Z_scope.

(** A floating point number: [m] times 2 to the power of [e], an infinity, or none. *)
Inductive double : Type := Finite (m e : Z) | Infinite (negative : bool) | NaN.

(** [d] is the integer [z]. *)
Definition is_number (d : double) (z : Z) : Prop :=
  match d with Finite m e => (0 <= e /\ z = m * 2 ^ e) \/ (e < 0 /\ m = z * 2 ^ (- e)) | _ => False end.

(** [z] is [d] without its fraction. *)
Definition whole_part (d : double) (z : Z) : Prop :=
  match d with
  | Finite m e => (0 <= e /\ z = m * 2 ^ e) \/ (e < 0 /\ 0 <= z * m /\ Z.abs z * 2 ^ (- e) <= Z.abs m < (Z.abs z + 1) * 2 ^ (- e))
  | _ => False
  end.

(** Integers with no more than 53 significant bits, which are those that are floating point numbers (here: of up to 64 bits). *)
Definition bits_53 (z : Z) : Prop := exists m k, 0 <= k /\ Z.abs m < 2 ^ 53 /\ z = m * 2 ^ k.

(** The field types with classes of their own in QtProtobuf, qtprotobuftypes.h; how wide they are; whether they have a sign; what they
    can hold. *)
Definition wrapped (t : sty) : bool := match t with TInt32 | TInt64 | TSFixed32 | TSFixed64 | TFixed32 | TFixed64 => true | _ => false end.
Definition width (t : sty) : Z := match t with TInt32 | TSInt32 | TUInt32 | TSFixed32 | TFixed32 => 32 | _ => 64 end.
Definition has_sign (t : sty) : bool := match t with TInt32 | TInt64 | TSInt32 | TSInt64 | TSFixed32 | TSFixed64 => true | _ => false end.
Definition fits (t : sty) (z : Z) : Prop := if has_sign t then in_s (width t) z else in_u (width t) z.

(** What a QVariant holds: int32_t, uint32_t, int64_t or qlonglong, uint64_t or qulonglong, double, QString. *)
Inductive kind : Type := KInt | KUInt | KLong | KULong.
Inductive variant : Type := VInteger (k : kind) (z : Z) | VDouble (d : double) | VString (s : list Z).
Definition holds (k : kind) (z : Z) : Prop :=
  match k with KInt => in_s 32 z | KUInt => in_u 32 z | KLong => in_s 64 z | KULong => in_u 64 z end.

(** A reader of texts as floating point numbers that reads the integers it can represent. *)
Definition reads_integers (parse : list Z -> double) : Prop :=
  forall z s, integer_text z s -> Z.abs z < 2 ^ 53 -> is_number (parse s) z.

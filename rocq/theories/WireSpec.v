(** Specification of the protobuf wire format, independent of the model
    (https://protobuf.dev/programming-guides/encoding). *)

From Coq Require Import ZArith List.
From Verif Require Import Base.
Import ListNotations.
Open Scope Z_scope.

(** [is_varint v bs]: the bytes [bs] are a base-128 encoding of [v], least significant group
    first; all bytes but the last one have the top bit set. *)
Inductive is_varint : Z -> list Z -> Prop :=
| varint_last b : 0 <= b < 128 -> is_varint b [b]
| varint_more b v bs : 0 <= b < 128 -> is_varint v bs -> is_varint (b + 128 * v) (b + 128 :: bs).

(** The shortest encoding of [v]. *)
Definition shortest_varint (v : Z) (bs : list Z) : Prop :=
  is_varint v bs /\ forall bs', is_varint v bs' -> (length bs <= length bs')%nat.

(** A varint as protobuf allows it on the wire: at most ten bytes. *)
Definition wire_varint (v : Z) (bs : list Z) : Prop :=
  is_varint v bs /\ (length bs <= 10)%nat.

(** ZigZag code of a signed number. *)
Definition zigzag (n : Z) : Z := if n <? 0 then -2 * n - 1 else 2 * n.

(** Ranges of the integer types. *)
Definition in_u (w n : Z) : Prop := 0 <= n < 2 ^ w.
Definition in_s (w n : Z) : Prop := - 2 ^ (w - 1) <= n < 2 ^ (w - 1).

(** Little-endian number. *)
Definition le_number (bs : list Z) : Z := fold_right (fun b n => b + 256 * n) 0 bs.

(** [is_le n v bs]: [bs] is the n-byte little-endian form of [v]. *)
Definition is_le (n : nat) (v : Z) (bs : list Z) : Prop :=
  length bs = n /\ bytes bs /\ le_number bs = v.

(** A length-delimited payload. *)
Definition delimited (content bs : list Z) : Prop :=
  exists len, wire_varint (Zlen content) len /\ bs = len ++ content.

(** Wire types and tags. *)
Definition wire_types : list Z := [0; 1; 2; 5].
Definition field_number (n : Z) : Prop := 1 <= n < 2 ^ 29.
Definition is_tag (num wt : Z) (bs : list Z) : Prop := wire_varint (8 * num + wt) bs.

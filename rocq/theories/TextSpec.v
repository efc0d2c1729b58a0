(** Unicode, as far as texts are concerned. *)

From Coq Require Import ZArith List Bool.
Import ListNotations.
Local Open Scope Z_scope.

(** Characters: Unicode scalar values, that is code points that are not surrogates. *)
Definition character (c : Z) : Prop := 0 <= c <= 55295 \/ 57344 <= c <= 1114111.

(** UTF-8 and UTF-16 of a character (The Unicode Standard, tables 3-6 and 3-5). *)
Definition utf8_char (c : Z) : list Z :=
  if c <? 128 then [c]
  else if c <? 2048 then [192 + c / 64; 128 + c mod 64]
  else if c <? 65536 then [224 + c / 4096; 128 + (c / 64) mod 64; 128 + c mod 64]
  else [240 + c / 262144; 128 + (c / 4096) mod 64; 128 + (c / 64) mod 64; 128 + c mod 64].
Definition utf16_char (c : Z) : list Z :=
  if c <? 65536 then [c] else [55296 + (c - 65536) / 1024; 56320 + (c - 65536) mod 1024].
Definition utf8 (cs : list Z) : list Z := flat_map utf8_char cs.
Definition utf16 (cs : list Z) : list Z := flat_map utf16_char cs.

(** What a QString holds: any numbers of 16 bits. *)
Definition units (us : list Z) : Prop := Forall (fun u => 0 <= u < 65536) us.

(** The texts among them, and the byte sequences that are UTF-8. *)
Definition well_formed (us : list Z) : Prop := exists cs, Forall character cs /\ us = utf16 cs.
Definition valid_utf8 (bs : list Z) : Prop := exists cs, Forall character cs /\ bs = utf8 cs.

(** A unit that is half of a pair without its other half. *)
Definition high (u : Z) : Prop := 55296 <= u < 56320.
Definition low (u : Z) : Prop := 56320 <= u < 57344.
Definition lone (before : list Z) (u : Z) (after : list Z) : Prop :=
  (high u /\ forall v t, after = v :: t -> ~ low v)
  \/ (low u /\ forall t v, before = t ++ [v] -> ~ high v).

(** * Messages of a status

    A gRPC server sends the UTF-8 of the message in the header grpc-message, with all bytes that are not printable ASCII, and
    percent signs, written as a percent sign with two digits (PROTOCOL-HTTP2: Percent-Encoded). *)
Definition plain (c : Z) : Prop := 32 <= c <= 126 /\ c <> 37.
Definition hex_digit (d : Z) : Z := if d <? 10 then 48 + d else 55 + d.
Definition percent_byte (b : Z) : list Z :=
  if (32 <=? b) && (b <=? 126) && negb (b =? 37) then [b] else [37; hex_digit (b / 16); hex_digit (b mod 16)].
Definition percent_encoded (bs : list Z) : list Z := flat_map percent_byte bs.

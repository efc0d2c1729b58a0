(** Texts: where the serializers turn a QString into bytes and back.

    The conversions are those of Qt 5 (QUtf8::convertFromUnicode and convertToUnicode), by what is known of them: halves of
    surrogate pairs are written as question marks, bytes that are no UTF-8 are read as U+FFFD one by one, a byte order mark at the
    start is skipped, and QString::fromUtf8 of a QByteArray stops at the first byte that is 0. *)

From Coq Require Import ZArith List Bool.
From Verif Require Import Base Values MessageModel.
Import ListNotations.
Local Open Scope Z_scope.

(** QString::toUtf8, called in serializeBasic for QString and serializeListType for QStringList, qprotobufserializer_p.h 215-218,
    260-268, and in qprotobufjsonserializer.cpp 63-65, 98-109, 441. *)
Fixpoint to_utf8 (us : list Z) : list Z :=
  match us with
  | [] => []
  | u :: us' =>
      if u <? 128 then u :: to_utf8 us'
      else if u <? 2048 then 192 + u / 64 :: 128 + u mod 64 :: to_utf8 us'
      else if (55296 <=? u) && (u <? 57344) then
        match us' with
        | v :: us'' =>
            if (u <? 56320) && (56320 <=? v) && (v <? 57344) then
              let c := 65536 + (u - 55296) * 1024 + (v - 56320) in
              240 + c / 262144 :: 128 + (c / 4096) mod 64 :: 128 + (c / 64) mod 64 :: 128 + c mod 64 :: to_utf8 us''
            else 63 :: to_utf8 us'
        | [] => [63]
        end
      else 224 + u / 4096 :: 128 + (u / 64) mod 64 :: 128 + u mod 64 :: to_utf8 us'
  end.

(** [n] bytes that go on with a character. *)
Fixpoint following (n : nat) (c : Z) (bs : list Z) : option Z :=
  match n with
  | O => Some c
  | S n' =>
      match bs with
      | b :: bs' => if (128 <=? b) && (b <? 192) then following n' (c * 64 + b mod 64) bs' else None
      | [] => None
      end
  end.

(** The character that begins with the byte [b], and the number of bytes that follow; None if there is none. *)
Definition one_char (b : Z) (bs : list Z) : option (Z * nat) :=
  let checked n least c :=
    match following n c bs with
    | Some c' =>
        if (c' <? least) || ((55296 <=? c') && (c' <? 57344)) || (1114111 <? c') then None else Some (c', n)
    | None => None
    end in
  if b <? 128 then Some (b, O)
  else if b <=? 193 then None
  else if b <=? 223 then checked 1%nat 128 (b mod 32)
  else if b <=? 239 then checked 2%nat 2048 (b mod 16)
  else if b <? 245 then checked 3%nat 65536 (b mod 8)
  else None.

(** The loop over the bytes; [skip] bytes belong to the character before. *)
Fixpoint decode (skip : nat) (bs : list Z) : list Z :=
  match bs with
  | [] => []
  | b :: bs' =>
      match skip with
      | S n => decode n bs'
      | O =>
          match one_char b bs' with
          | Some (c, n) =>
              (if c <? 65536 then [c] else [55296 + (c - 65536) / 1024; 56320 + (c - 65536) mod 1024]) ++ decode n bs'
          | None => 65533 :: decode 0 bs'
          end
      end
  end.

(** qstrnlen. *)
Fixpoint before_nul (bs : list Z) : list Z :=
  match bs with [] => [] | b :: bs' => if b =? 0 then [] else b :: before_nul bs' end.

Definition after_mark (bs : list Z) : list Z :=
  match bs with
  | a :: b :: c :: bs' => if (a =? 239) && (b =? 187) && (c =? 191) then bs' else bs
  | _ => bs
  end.

(** QString::fromUtf8 of a QByteArray, called in deserializeBasic for QString, qprotobufserializer_p.h 349-352, deserializeList
    for QStringList, qprotobufserializer.cpp 65-73, and for status messages, qgrpchttp2channel.cpp 228, 254, 361. *)
Definition from_utf8 (bs : list Z) : list Z := decode 0 (after_mark (before_nul bs)).

(** * Messages

    In the values of MessageModel strings are what is on the wire.  [convert c sch (EM m) v] takes all strings in [v] through
    [c]: [to_utf8] before a message is serialized, [from_utf8] when it has been deserialized.  Strings occur in fields, lists, keys and
    values of maps; the entries of a map are in the order of its keys, QMap<QString, ...> compares units.
    Simplified: the entries of a map are serialized in the order of the bytes of their keys (that of the units differs where characters
    beyond U+FFFF meet those from U+E000 on), and if two keys become the same bytes, only the entry that wins in the end. *)
Section Convert.
  Context (c : list Z -> list Z).

  Definition convert_scalar (t : sty) (s : scalar) : scalar :=
    match t, s with TString, SStr null us => SStr null (c us) | _, _ => s end.

  (** Insertion into a QMap of one entry after the other. *)
  Definition in_order (k : sty) (l : list (scalar * value)) : list (scalar * value) :=
    match k with
    | TString => fold_left (fun acc p => map_insert k (fst p) (snd p) acc) l []
    | _ => l
    end.

  Fixpoint convert (sch : schema) (e : elty) (v : value) {struct v} : value :=
    match v with
    | VScalar s => match e with ES t => VScalar (convert_scalar t s) | EM _ => v end
    | VMsg fs =>
        match e with
        | ES _ => v
        | EM m =>
            VMsg ((fix go (fields : list field) (fs : list value) {struct fs} : list value :=
               match fields, fs with
               | f :: fields', x :: fs' =>
                   match f_ty f with
                   | FSing e' => convert sch e' x
                   | FRep e' => match x with VList l => VList (map (convert sch e') l) | _ => x end
                   | FMap k e' =>
                       match x with
                       | VMap l => VMap (in_order k (map (fun p => (convert_scalar k (fst p), convert sch e' (snd p))) l))
                       | _ => x
                       end
                   end :: go fields' fs'
               | _, _ => fs
               end) (md_fields (msg_at sch m)) fs)
        end
    | _ => v
    end.

  Definition convert_object (sch : schema) (m : nat) (fs : list value) : list value :=
    match convert sch (EM m) (VMsg fs) with VMsg fs' => fs' | _ => [] end.
End Convert.

(** QProtobufSerializer::serialize and deserialize (MessageModel) of messages that hold texts; deserialize into a new message. *)
Definition text_serializes (sch : schema) (m : nat) (obj : list value) (bs : list Z) : Prop :=
  serializes sch m (convert_object to_utf8 sch m obj) bs.
Definition text_deserializes (sch : schema) (m : nat) (data : list Z) (obj : list value) (o : res unit) : Prop :=
  exists r, deserializes sch m data r o /\ obj = convert_object from_utf8 sch m r.

(** * Messages of a status *)

(** qgrpchttp2channel.cpp 228, 254, 361: the text of the status of a failed call or stream, for the value of the header
    grpc-message. *)
Definition http2_message (header : list Z) : list Z := from_utf8 header.
(** qgrpcchannel.cpp 99-102, 112-115, 160-163, 170-173: the same, for the message that the gRPC library gives (a
    std::string), which is passed on as const char pointer: QString of it stops at the first 0, too. *)
Definition native_message (message : list Z) : list Z := from_utf8 message.

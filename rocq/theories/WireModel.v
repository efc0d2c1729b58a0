(** Model of the low-level protobuf wire codec:
    src/protobuf/qprotobufselfcheckiterator.h,
    src/protobuf/qprotobufserializer_p.h and the skip functions of
    src/protobuf/qprotobufserializer.cpp. *)

From Coq Require Import ZArith List Bool.
From Verif Require Import Base.
Import ListNotations.
Open Scope Z_scope.

(** ** QProtobufSelfcheckIterator *)

(** qprotobufselfcheckiterator.h 132-136: m_sizeLeft, m_containerSize, m_it.
    The pointer m_it is modelled as offset from the begin of the container. *)
Record iter : Type := mkIter { it_left : Z; it_size : Z; it_pos : Z }.

(** qprotobufselfcheckiterator.h 42-44: constructor from a container. *)
Definition it_begin (data : list Z) : iter :=
  mkIter (Zlen data) (Zlen data) 0.

(** qprotobufselfcheckiterator.h 57: operator*.  The container is a QByteArray
    and so is followed by a NUL byte that may be read; any other position outside
    of the container is an over-read. *)
Definition it_deref (data : list Z) (it : iter) : res Z :=
  if (0 <=? it_pos it) && (it_pos it <=? Zlen data)
  then Ok (nth (Z.to_nat (it_pos it)) data 0)
  else UB OverRead.

(** qprotobufselfcheckiterator.h 59-66: operator++. *)
Definition it_incr (it : iter) : res iter :=
  let left := it_left it - 1 in
  if left <? 0 then Throw OutOfRange
  else Ok (mkIter left (it_size it) (it_pos it + 1)).

(** qprotobufselfcheckiterator.h 77-84: operator+=(int).  [count] is the value after
    conversion to int.  The subtraction may overflow; moving the pointer out of
    the array is undefined.
    [hard] is a proof device: [hard = false] is the code; [hard = true] is the
    same code hardened by a rejection of negative counts, which the code does not have. *)
Definition advance (hard : bool) (it : iter) (count : Z) : res iter :=
  if hard && (count <? 0) then Throw NegativeLength else
  let left := it_left it - count in
  if INT_MAX <? left then UB SignedOverflow
  else if left <? 0 then Throw OutOfRange
  else
    let pos := it_pos it + count in
    if (pos <? 0) || (it_size it <? pos) then UB PtrOutOfArray
    else Ok (mkIter left (it_size it) pos).

(** qprotobufselfcheckiterator.h 46-52: copy constructor. *)
Definition it_copy (it : iter) : res iter :=
  if (it_size it <? it_left it) || (it_left it <? 0) then Throw OutOfRange else Ok it.

(** qprotobufselfcheckiterator.h 138-141: operator+, two copies around operator+=. *)
Definition it_plus (hard : bool) (it : iter) (count : Z) : res iter :=
  i1 <- it_copy it ;;
  i2 <- advance hard i1 count ;;
  it_copy i2.

(** ** Writers *)

(** qprotobufserializer_p.h 83-88 and 195-200: the 7-bit group loop.
    [n] bounds the number of rounds; ten rounds suffice for a uint64. *)
Fixpoint varint_groups (n : nat) (v : Z) : list Z :=
  match n with
  | O => []
  | S n' =>
      if v =? 0 then []
      else Z.lor (Z.land v 127) 128 :: varint_groups n' (Z.shiftr v 7)
  end.

(** qprotobufserializer_p.h 94 and 208:
    [result.data()[result.size() - 1] &= ~0b10000000]. *)
Fixpoint clear_last (l : list Z) : list Z :=
  match l with
  | [] => []
  | [b] => [Z.land b 127]
  | b :: l' => b :: clear_last l'
  end.

(** qprotobufserializer_p.h 75-96: serializeVarintCommon. *)
Definition serializeVarintCommon (v : Z) : list Z :=
  let result := varint_groups 10 v in
  let result := match result with [] => [0] | _ => result end in
  clear_last result.

(** qabstractprotobufserializer_p.h 47. *)
Definition NotUsedFieldIndex : Z := -1.

(** qprotobufserializer_p.h 187-211: serializeBasic for unsigned integral types.
    Returns the bytes and the out parameter outFieldIndex. *)
Definition serializeUnsigned (v idx : Z) : list Z * Z :=
  let result := varint_groups 10 v in
  match result with
  | [] => ([], NotUsedFieldIndex)
  | _ => (clear_last result, idx)
  end.

(** qprotobufserializer_p.h 153-165: serializeBasic for signed integral types (zigzag).
    The shift of a negative value is taken as two's complement arithmetic. *)
Definition serializeZigZag (w v idx : Z) : list Z * Z :=
  let zz := toS w (Z.lxor (toS w (Z.shiftl v 1)) (Z.shiftr v (w - 1))) in
  serializeUnsigned (wrapU w zz) idx.

(** qprotobufserializer_p.h 167-174: serializeBasic for int32 and int64. *)
Definition serializeInt (w v idx : Z) : list Z * Z :=
  serializeUnsigned (wrapU w v) idx.

(** qprotobufserializer_p.h 108-117 and 128-140: serializeBasic for floating point and
    fixed size types, memory layout of a little-endian host; [n] bytes, the value
    (for floating point types: its bit pattern) taken modulo 2^(8n). *)
Fixpoint le_bytes (n : nat) (v : Z) : list Z :=
  match n with
  | O => []
  | S n' => Z.land v 255 :: le_bytes n' (Z.shiftr v 8)
  end.

Definition serializeFixed (n : nat) (v idx : Z) : list Z * Z := (le_bytes n v, idx).

(** qprotobufserializer_p.h 401-404: prependLengthDelimitedSize. *)
Definition prependLengthDelimitedSize (data : list Z) : list Z :=
  serializeVarintCommon (wrapU 32 (Zlen data)) ++ data.

(** qprotobufserializer_p.h 383-389: serializeLengthDelimited. *)
Definition serializeLengthDelimited (data : list Z) : list Z :=
  prependLengthDelimitedSize data.

(** qtprotobuftypes.h 48-56: WireTypes. *)
Definition WVarintT : Z := 0.
Definition WFixed64T : Z := 1.
Definition WLengthDelimitedT : Z := 2.
Definition WFixed32T : Z := 5.

(** qprotobufserializer_p.h 468-472: encodeHeader. *)
Definition encodeHeader (fieldIndex wireType : Z) : list Z :=
  serializeVarintCommon (wrapU 32 (Z.lor (Z.shiftl fieldIndex 3) wireType)).

(** ** Readers *)

(** qprotobufserializer_p.h 275-294: deserializeVarintCommon<V>, [w] is the width of V.
    The shift is done in uint64_t and is undefined from 64 on; the sum is
    truncated to V.  Eleven rounds always reach an end or the undefined shift. *)
Fixpoint varint_loop (n : nat) (w : Z) (data : list Z) (it : iter) (k value : Z)
  : res (Z * iter) :=
  match n with
  | O => OutOfFuel
  | S n' =>
      byte <- it_deref data it ;;
      if 64 <=? k then UB ShiftOverflow else
      let value' := wrapU w (value + wrapU 64 (Z.shiftl (Z.land byte 127) k)) in
      it' <- it_incr it ;;
      if Z.land byte 128 =? 0 then Ok (value', it')
      else varint_loop n' w data it' (k + 7) value'
  end.

Definition deserializeVarintCommon (w : Z) (data : list Z) (it : iter) : res (Z * iter) :=
  varint_loop 11 w data it 0 0.

(** Little-endian value of a list of bytes (host layout, see [le_bytes]). *)
Fixpoint le_value (l : list Z) : Z :=
  match l with
  | [] => 0
  | b :: l' => b + 256 * le_value l'
  end.

(** qprotobufserializer_p.h 297-308: deserializeBasic for floating point and fixed size
    types: the value is read before the bounds check; the terminating NUL of
    the container may be part of the read.  Alignment of the access is ignored. *)
Definition deserializeFixed (hard : bool) (n : Z) (data : list Z) (it : iter)
  : res (Z * iter) :=
  if it_pos it + n <=? Zlen data + 1 then
    let value := le_value (slice (data ++ [0]) (it_pos it) n) in
    it' <- advance hard it n ;;
    Ok (value, it')
  else UB OverRead.

(** qprotobufserializer_p.h 319-328: deserializeBasic for signed integral types (zigzag). *)
Definition unZigZag (w u : Z) : Z :=
  toS w (Z.lxor (Z.shiftr u 1) (wrapU w (-1 * Z.land u 1))).

(** The bytes up to the first NUL, as QByteArray(const char *, int size) takes them
    for a negative size. *)
Fixpoint cstring (l : list Z) : list Z :=
  match l with
  | [] => []
  | b :: l' => if b =? 0 then [] else b :: cstring l'
  end.

(** qprotobufserializer_p.h 374-381: deserializeLengthDelimited.  The length is converted to
    int twice: by the QByteArray constructor (a negative size means
    strlen) and by operator+=.  The bytes are copied before the bounds check. *)
Definition deserializeLengthDelimited (hard : bool) (data : list Z) (it : iter)
  : res (list Z * iter) :=
  '(length, it1) <- deserializeVarintCommon 32 data it ;;
  let n := toS 32 length in
  result <- (if n <? 0 then Ok (cstring (skipn (Z.to_nat (it_pos it1)) data))
             else if it_pos it1 + n <=? Zlen data + 1
             then Ok (slice (data ++ [0]) (it_pos it1) n)
             else UB OverRead) ;;
  it2 <- advance hard it1 n ;;
  Ok (result, it2).

(** qprotobufserializer_p.h 482-493: decodeHeader.  Result: field index, wire type, validity. *)
Definition decodeHeader (data : list Z) (it : iter) : res (Z * Z * bool * iter) :=
  '(header, it') <- deserializeVarintCommon 32 data it ;;
  let wireType := Z.land header 7 in
  let fieldIndex := Z.shiftr header 3 in
  let valid := (fieldIndex <=? 2 ^ 29 - 1) && (0 <? fieldIndex)
               && ((wireType =? WVarintT) || (wireType =? WFixed64T)
                   || (wireType =? WFixed32T) || (wireType =? WLengthDelimitedT)) in
  Ok (fieldIndex, wireType, valid, it').

(** qprotobufserializer.cpp 218-224: skipVarint.  The number of rounds is bounded by the
    container size because every round moves the iterator. *)
Fixpoint skipVarint (n : nat) (data : list Z) (it : iter) : res iter :=
  match n with
  | O => OutOfFuel
  | S n' =>
      byte <- it_deref data it ;;
      it' <- it_incr it ;;
      if Z.land byte 128 =? 0 then Ok it' else skipVarint n' data it'
  end.

(** qprotobufserializer.cpp 226-231: skipLengthDelimited. *)
Definition skipLengthDelimited (hard : bool) (data : list Z) (it : iter) : res iter :=
  '(length, it1) <- deserializeVarintCommon 32 data it ;;
  advance hard it1 (toS 32 length).

(** qprotobufserializer.cpp 233-255: skipSerializedFieldBytes (the returned distance is only
    logged and not modelled). *)
Definition skipSerializedFieldBytes (hard : bool) (data : list Z) (it : iter) (wireType : Z)
  : res iter :=
  if wireType =? WVarintT then skipVarint (S (length data)) data it
  else if wireType =? WFixed32T then advance hard it 4
  else if wireType =? WFixed64T then advance hard it 8
  else if wireType =? WLengthDelimitedT then skipLengthDelimited hard data it
  else Throw InvalidArgument.

(** The iterator after [pos] bytes of the container were consumed. *)
Definition it_at (data : list Z) (pos : Z) : iter :=
  mkIter (Zlen data - pos) (Zlen data) pos.

(** Model of the message level of the binary serializer:
    src/protobuf/qprotobufserializer.cpp, qprotobufserializer_p.h (handlers) and
    qabstractprotobufserializer_p.h (object, list, map and enum handlers). *)

From Coq Require Import ZArith List Bool.
From Verif Require Import Base WireModel Values.
Import ListNotations.
Open Scope Z_scope.

(** ** Serialization *)

(** qprotobufserializer.cpp 185-199: the wire type of the handler of each basic type
    (enums: 147). *)
Definition wire_of (t : sty) : Z :=
  match t with
  | TFloat | TFixed32 | TSFixed32 => WFixed32T
  | TDouble | TFixed64 | TSFixed64 => WFixed64T
  | TString | TBytes => WLengthDelimitedT
  | _ => WVarintT
  end.

(** qprotobufserializer_p.h 108-224: serializeBasic<V> selected by the type.  A bool is handled
    as uint32 (qprotobufserializer.cpp 197), an enum as int64 (149). *)
Definition serializeBasic (t : sty) (v : scalar) (idx : Z) : list Z * Z :=
  match t with
  | TInt32 => serializeInt 32 (num_of v) idx
  | TInt64 | TEnum => serializeInt 64 (num_of v) idx
  | TUInt32 | TUInt64 | TBool => serializeUnsigned (num_of v) idx
  | TSInt32 => serializeZigZag 32 (num_of v) idx
  | TSInt64 => serializeZigZag 64 (num_of v) idx
  | TFixed32 | TSFixed32 | TFloat => serializeFixed 4 (num_of v) idx
  | TFixed64 | TSFixed64 | TDouble => serializeFixed 8 (num_of v) idx
  | TString | TBytes => (serializeLengthDelimited (blob_of v), idx)
  end.

(** QVariant::isNull of a basic value (Qt 5): only null strings and byte arrays. *)
Definition variant_isNull (v : scalar) : bool :=
  match v with SStr null _ => null | SNum _ => false end.

(** qprotobufserializer_p.h 406-415: serializeWrapper. *)
Definition serializeWrapper (t : sty) (v : scalar) (idx : Z) : list Z * Z :=
  if variant_isNull v then ([], NotUsedFieldIndex) else serializeBasic t v idx.

(** qprotobufserializer_p.h 227-250: serializeListType for numeric elements. *)
Definition list_element (t : sty) (v : scalar) : list Z :=
  match fst (serializeBasic t v NotUsedFieldIndex) with
  | [] => [0]
  | element => element
  end.
Definition serializeListNumeric (t : sty) (l : list scalar) (idx : Z) : list Z * Z :=
  match l with
  | [] => ([], NotUsedFieldIndex)
  | _ => (prependLengthDelimitedSize (concat (map (list_element t) l)), idx)
  end.

(** qprotobufserializer_p.h 252-270 (QString) and qprotobufserializer.cpp 34-52 (QByteArray). *)
Definition serializeListBlob (l : list scalar) (idx : Z) : list Z * Z :=
  match l with
  | [] => ([], NotUsedFieldIndex)
  | _ => (concat (map (fun v => encodeHeader idx WLengthDelimitedT
                                  ++ serializeLengthDelimited (blob_of v)) l),
          NotUsedFieldIndex)
  end.

(** qprotobufserializer.cpp 270-277 and 145-165: prepend the header unless the
    handler invalidated the field index. *)
Definition with_header (idx wire : Z) (r : list Z * Z) : list Z :=
  if snd r =? NotUsedFieldIndex then fst r else encodeHeader idx wire ++ fst r.

(** qprotobufserializer.cpp 258-283 (serializeProperty) for basic types and 145-154
    (serializeEnum). *)
Definition serializeScalar (t : sty) (v : scalar) (idx : Z) : list Z :=
  if is_enum t then with_header idx WVarintT (serializeInt 64 (num_of v) idx)
  else with_header idx (wire_of t) (serializeWrapper t v idx).

(** serializeProperty for lists of basic types; 156-165 (serializeEnumList) with
    qabstractprotobufserializer_p.h 158-168. *)
Definition serializeScalarList (t : sty) (l : list scalar) (idx : Z) : list Z :=
  if is_blob t then with_header idx WLengthDelimitedT (serializeListBlob l idx)
  else with_header idx WLengthDelimitedT (serializeListNumeric t l idx).

(** Run the writers of a list one after the other and append their output. *)
Fixpoint concat_res (l : list (res (list Z))) : res (list Z) :=
  match l with
  | [] => Ok []
  | r :: l' => a <- r ;; b <- concat_res l' ;; Ok (a ++ b)
  end.

Section Serializer.
  Variable sch : schema.
  (** serializeMessage of nested objects. *)
  Variable rec : nat -> list value -> res (list Z).

  (** qprotobufserializer.cpp 106-111: serializeObject (and 119-122 serializeListObject). *)
  Definition serializeObject (idx : Z) (m : nat) (obj : list value) : res (list Z) :=
    body <- rec m obj ;;
    Ok (encodeHeader idx WLengthDelimitedT ++ prependLengthDelimitedSize body).

  (** serializeProperty of a single value: basic, enum or message
      (qabstractprotobufserializer_p.h 78-83).  Reading the property of a message field creates a
      default object if there is none (templates.cpp 180-182,
      qprotobuflazymessagepointer.h 61-66); the creation is not visible otherwise and the
      value itself is left as it is here. *)
  Definition serializeElement (idx : Z) (e : elty) (v : value) : res (list Z) :=
    match e with
    | ES t => Ok (serializeScalar t (scalar_of v) idx)
    | EM m =>
        match v with
        | VMsg obj => serializeObject idx m obj
        | _ => serializeObject idx m (default_obj sch m)
        end
    end.

  (** qabstractprotobufserializer_p.h 89-106: serializeList, null elements are skipped. *)
  Definition serializeListElement (idx : Z) (m : nat) (v : value) : res (list Z) :=
    match v with
    | VMsg obj => serializeObject idx m obj
    | _ => Ok []
    end.

  (** qprotobufserializer.cpp 130-137 (serializeMapPair) and qabstractprotobufserializer_p.h
      112-142 (serializeMap, null values are skipped). *)
  Definition serializeMapElement (idx : Z) (k : sty) (e : elty) (kv : scalar * value)
    : res (list Z) :=
    match e, snd kv with
    | EM _, VNull => Ok []
    | _, _ =>
        value <- serializeElement 2 e (snd kv) ;;
        Ok (encodeHeader idx WLengthDelimitedT
              ++ prependLengthDelimitedSize (serializeScalar k (fst kv) 1 ++ value))
    end.

  (** qprotobufserializer.cpp 258-283: serializeProperty. *)
  Definition serializeProperty (f : field) (v : value) : res (list Z) :=
    match f_ty f with
    | FSing e => serializeElement (f_num f) e v
    | FRep (ES t) => Ok (serializeScalarList t (map scalar_of (list_of v)) (f_num f))
    | FRep (EM m) => concat_res (map (serializeListElement (f_num f) m) (list_of v))
    | FMap k e => concat_res (map (serializeMapElement (f_num f) k e) (map_of v))
    end.
End Serializer.

(** qprotobufserializer.cpp 81-97: serializeMessage.  Fuel bounds the nesting depth. *)
Fixpoint serializeMessage (fuel : nat) (sch : schema) (m : nat) (obj : list value)
  : res (list Z) :=
  match fuel with
  | O => OutOfFuel
  | S fuel' =>
      concat_res (map (fun i => serializeProperty sch (serializeMessage fuel' sch)
                                  (field_at sch m i) (nth i obj VNull))
                      (md_order (msg_at sch m)))
  end.

(** ** Deserialization *)

(** qprotobufserializer_p.h 297-352: deserializeBasic<V>, and for enums
    qprotobufserializer.cpp 167-172 with the cast of qabstractprotobufserializer_p.h 255.  A bool is
    read as uint32 and converted by QVariant when it is stored. *)
Definition deserializeBasic (hard : bool) (t : sty) (data : list Z) (it : iter)
  : res (scalar * iter) :=
  match t with
  | TInt32 => '(u, it') <- deserializeVarintCommon 32 data it ;; Ok (SNum (toS 32 u), it')
  | TInt64 => '(u, it') <- deserializeVarintCommon 64 data it ;; Ok (SNum (toS 64 u), it')
  | TEnum => '(u, it') <- deserializeVarintCommon 64 data it ;;
             Ok (SNum (toS 32 (toS 64 u)), it')
  | TUInt32 => '(u, it') <- deserializeVarintCommon 32 data it ;; Ok (SNum u, it')
  | TUInt64 => '(u, it') <- deserializeVarintCommon 64 data it ;; Ok (SNum u, it')
  | TBool => '(u, it') <- deserializeVarintCommon 32 data it ;;
             Ok (SNum (if u =? 0 then 0 else 1), it')
  | TSInt32 => '(u, it') <- deserializeVarintCommon 32 data it ;; Ok (SNum (unZigZag 32 u), it')
  | TSInt64 => '(u, it') <- deserializeVarintCommon 64 data it ;; Ok (SNum (unZigZag 64 u), it')
  | TFixed32 | TFloat => '(u, it') <- deserializeFixed hard 4 data it ;; Ok (SNum u, it')
  | TSFixed32 => '(u, it') <- deserializeFixed hard 4 data it ;; Ok (SNum (toS 32 u), it')
  | TFixed64 | TDouble => '(u, it') <- deserializeFixed hard 8 data it ;; Ok (SNum u, it')
  | TSFixed64 => '(u, it') <- deserializeFixed hard 8 data it ;; Ok (SNum (toS 64 u), it')
  | TString | TBytes => '(bs, it') <- deserializeLengthDelimited hard data it ;;
                        Ok (SStr false bs, it')
  end.

(** qprotobufserializer_p.h 363-367: the element loop of deserializeList; [last] is the position
    of lastVarint. *)
Fixpoint list_loop (fuel : nat) (hard : bool) (t : sty) (data : list Z) (it : iter) (last : Z)
  : res (list scalar * iter) :=
  match fuel with
  | O => OutOfFuel
  | S fuel' =>
      if it_pos it =? last then Ok ([], it) else
      '(s, it1) <- deserializeBasic hard t data it ;;
      '(l, it2) <- list_loop fuel' hard t data it1 last ;;
      Ok (s :: l, it2)
  end.

(** qprotobufserializer_p.h 355-369: deserializeList<V> for numeric element types. *)
Definition deserializeListNumeric (fuel : nat) (hard : bool) (t : sty) (data : list Z) (it : iter)
  : res (list scalar * iter) :=
  '(count, it1) <- deserializeVarintCommon 32 data it ;;
  lastVarint <- it_plus hard it1 (toS 32 count) ;;
  list_loop fuel hard t data it1 (it_pos lastVarint).

(** The setters written by the generator, templates.cpp 230-235 and 222-228:
    the member is only overwritten if the new value differs. *)
Definition store_scalar (t : sty) (old new : scalar) : scalar :=
  if scalar_eqb t old new then old else new.
Definition store_scalars (t : sty) (old new : list value) : list value :=
  if list_eqb (scalar_eqb t) (map scalar_of old) (map scalar_of new) then old else new.
Definition store_map (k : sty) (e : elty) (old new : list (scalar * value))
  : list (scalar * value) :=
  match e with
  | ES t =>
      if list_eqb (fun a b => negb (key_ltb k (fst a) (fst b)) && negb (key_ltb k (fst b) (fst a))
                              && scalar_eqb t (scalar_of (snd a)) (scalar_of (snd b))) old new
      then old else new
  | EM _ => new   (* compares pointers, which differ *)
  end.

Section Deserializer.
  Variable fuel : nat.
  Variable hard : bool.
  Variable sch : schema.
  (** deserializeMessage of a new object of type [m]: the object and how it ended. *)
  Variable rec : nat -> list Z -> list value * res unit.

  (** qprotobufserializer.cpp 113-117 (deserializeObject), 124-128 (deserializeListObject),
      qabstractprotobufserializer_p.h 174-181 ("new T"; lost if an exception passes). *)
  Definition deserializeObject (m : nat) (data : list Z) (it : iter) : res (list value * iter) :=
    '(array, it') <- deserializeLengthDelimited hard data it ;;
    match rec m array with
    | (obj, Ok _) => Ok (obj, it')
    | (_, Throw e) => Throw e
    | (_, UB r) => UB r
    | (_, OutOfFuel) => OutOfFuel
    end.

  (** Reading of a single value into a fresh variable: qprotobufserializer.cpp 343-350. *)
  Definition deserializeElement (e : elty) (data : list Z) (it : iter) : res (value * iter) :=
    match e with
    | ES t => '(s, it') <- deserializeBasic hard t data it ;; Ok (VScalar s, it')
    | EM m => '(obj, it') <- deserializeObject m data it ;; Ok (VMsg obj, it')
    end.

  (** qprotobufserializer.cpp 334-352: the loop of deserializeMapPair.  The validity computed by
      decodeHeader is ignored, every field index but 1 is taken as the value. *)
  Fixpoint map_loop (n : nat) (k : sty) (e : elty) (data : list Z) (it : iter) (last : Z)
    (key : scalar) (val : value) : res (scalar * value * iter) :=
    match n with
    | O => OutOfFuel
    | S n' =>
        if it_pos it =? last then Ok (key, val, it) else
        '(mapIndex, _, _, it1) <- decodeHeader data it ;;
        if mapIndex =? 1 then
          '(key', it2) <- deserializeBasic hard k data it1 ;;
          map_loop n' k e data it2 last key' val
        else
          '(val', it2) <- deserializeElement e data it1 ;;
          map_loop n' k e data it2 last key val'
    end.

  (** qabstractprotobufserializer_p.h 213-214 and 235-236: initial value of a map entry. *)
  Definition default_element (e : elty) : value :=
    match e with ES t => VScalar (default_scalar t) | EM _ => VNull end.

  (** qprotobufserializer.cpp 327-353: deserializeMapPair. *)
  Definition deserializeMapPair (k : sty) (e : elty) (data : list Z) (it : iter)
    : res (scalar * value * iter) :=
    '(count, it1) <- deserializeVarintCommon 32 data it ;;
    last <- it_plus hard it1 (toS 32 count) ;;
    map_loop fuel k e data it1 (it_pos last) (default_scalar k) (default_element e).

  (** qprotobufserializer.cpp 311-324: read the property, run its deserializer, write the property.
      [old] is the current value of the property, the result the new one. *)
  Definition deserializeField (ty : fty) (old : value) (data : list Z) (it : iter)
    : res (value * iter) :=
    match ty with
    | FSing (ES t) =>
        '(s, it') <- deserializeBasic hard t data it ;;
        Ok (VScalar (store_scalar t (scalar_of old) s), it')
    | FSing (EM m) =>
        '(obj, it') <- deserializeObject m data it ;;
        Ok (VMsg obj, it')
    | FRep (ES t) =>
        if is_blob t then
          (* qprotobufserializer.cpp 54-73: append one element *)
          '(s, it') <- deserializeBasic hard t data it ;;
          Ok (VList (store_scalars t (list_of old) (list_of old ++ [VScalar s])), it')
        else if is_enum t then
          (* qabstractprotobufserializer_p.h 263-274: append the elements *)
          '(l, it') <- deserializeListNumeric fuel hard t data it ;;
          Ok (VList (store_scalars t (list_of old) (list_of old ++ map VScalar l)), it')
        else
          (* qprotobufserializer_p.h 355-369: replace the list *)
          '(l, it') <- deserializeListNumeric fuel hard t data it ;;
          Ok (VList (store_scalars t (list_of old) (map VScalar l)), it')
    | FRep (EM m) =>
        (* qabstractprotobufserializer_p.h 187-199 *)
        '(obj, it') <- deserializeObject m data it ;;
        Ok (VList (list_of old ++ [VMsg obj]), it')
    | FMap k e =>
        (* qabstractprotobufserializer_p.h 206-242 *)
        '(key, val, it') <- deserializeMapPair k e data it ;;
        Ok (VMap (store_map k e (map_of old) (map_insert k key val (map_of old))), it')
    end.

  (** qprotobufserializer.cpp 285-325: deserializeProperty on the object [obj] of type [m]. *)
  Definition deserializeProperty (m : nat) (data : list Z) (it : iter) (obj : list value)
    : res (list value * iter) :=
    '(fieldNumber, wireType, valid, it1) <- decodeHeader data it ;;
    if negb valid then Throw InvalidArgument else
    match find_field (msg_at sch m) fieldNumber with
    | None =>
        it2 <- skipSerializedFieldBytes hard data it1 wireType ;;
        Ok (obj, it2)
    | Some i =>
        '(v, it2) <- deserializeField (f_ty (field_at sch m i)) (nth i obj VNull) data it1 ;;
        Ok (update i v obj, it2)
    end.
End Deserializer.

(** qprotobufserializer.cpp 99-104: deserializeMessage; the loop over the properties.
    Result: the object as far as it was filled, and how the loop ended. *)
Fixpoint deserialize_loop (fuel : nat) (hard : bool) (sch : schema) (m : nat) (data : list Z)
  (it : iter) (obj : list value) : list value * res unit :=
  match fuel with
  | O => (obj, OutOfFuel)
  | S fuel' =>
      if it_pos it =? Zlen data then (obj, Ok tt) else
      let rec := fun m' data' =>
        deserialize_loop fuel' hard sch m' data' (it_begin data') (default_obj sch m') in
      match deserializeProperty fuel' hard sch rec m data it obj with
      | Ok (obj', it') => deserialize_loop fuel' hard sch m data it' obj'
      | Throw e => (obj, Throw e)
      | UB r => (obj, UB r)
      | OutOfFuel => (obj, OutOfFuel)
      end
  end.

(** deserializeMessage on a newly constructed object. *)
Definition deserializeMessage (fuel : nat) (hard : bool) (sch : schema) (m : nat) (data : list Z)
  : list value * res unit :=
  deserialize_loop fuel hard sch m data (it_begin data) (default_obj sch m).

(** ** Complete runs

    Fuel is not part of the code: [serializes] and [deserializes] say how the functions end, given
    enough of it.  A run that never ends is related to nothing. *)

(** serialize of the object [obj] returns [bs]. *)
Definition serializes (sch : schema) (m : nat) (obj : list value) (bs : list Z) : Prop :=
  exists fuel, serializeMessage fuel sch m obj = Ok bs.

(** deserializeMessage of [data] into a new object ends with outcome [o] and leaves [obj]. *)
Definition deserializes (sch : schema) (m : nat) (data : list Z) (obj : list value) (o : res unit)
  : Prop :=
  o <> OutOfFuel /\ exists fuel, deserializeMessage fuel false sch m data = (obj, o).

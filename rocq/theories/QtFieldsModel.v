(** Model of messages that hold values of Qt types next to other fields, at any depth: the binary
    serializer (src/protobuf/qprotobufserializer.cpp) with the handlers that
    qRegisterProtobufQtTypes installs (src/qttypes/qtprotobufqttypes.cpp 278-318).

    A field of a Qt type is one whose type in the .proto file is a message of QtCore.proto or
    QtGui.proto and that is not repeated; the generator gives it the Qt type
    (generatorcommon.cpp 63-76, 268-273, 286-293).  Everything that does not depend on it is taken from
    MessageModel. *)

From Coq Require Import ZArith List Bool.
From Verif Require Import Base WireModel Values MessageModel QtTypesModel.
Import ListNotations.
Open Scope Z_scope.

Section Mixed.
  Variables Url Image : Type.
  Variable url_string : Url -> list Z.
  Variable url_parse : list Z -> Url.
  Variable png_save : Image -> list Z.
  Variable image_load : list Z -> list Z -> Image.
  Variable to_rgb : Z -> Z * Z * Z * Z -> Z * Z * Z * Z.
  Local Notation qtval := (qtval Url Image).
  Local Notation to_message := (to_message Url Image url_string png_save to_rgb).
  Local Notation of_message := (of_message Url Image url_parse image_load).
  (** Qt's operator== and default constructors. *)
  Variable qt_eq : qtval -> qtval -> bool.
  Variable new_qt : kind -> qtval.

  (** What a member holds: a scalar or a list or map of scalars, a null pointer or an object, a list or
      map of objects, a value of a Qt type. *)
  Inductive mvalue : Type :=
  | MPlain (v : value)
  | MNull
  | MMsg (fs : list mvalue)
  | MList (l : list mvalue)
  | MMap (l : list (scalar * mvalue))
  | MQt (q : qtval).

  Definition plain_of (v : mvalue) : value := match v with MPlain x => x | _ => VNull end.
  Definition objects_of (v : mvalue) : list mvalue := match v with MList l => l | _ => [] end.
  Definition entries_of (v : mvalue) : list (scalar * mvalue) := match v with MMap l => l | _ => [] end.

  Variable sch : schema.
  (** [qt_field m i]: the Qt type of field [i] of message [m], if it has one. *)
  Variable qt_field : nat -> nat -> option kind.

  (** messagedefinitionprinter.cpp 149-198 (printInitializationList with fieldCount 0): members of Qt
      types are default constructed; the others as in Values.v. *)
  Definition new_member (m i : nat) : mvalue :=
    match qt_field m i with
    | Some k => MQt (new_qt k)
    | None =>
        match f_ty (field_at sch m i) with
        | FSing (EM _) => MNull
        | FRep (EM _) => MList []
        | FMap _ (EM _) => MMap []
        | ty => MPlain (default_field ty)
        end
    end.
  Definition new_object (m : nat) : list mvalue :=
    map (new_member m) (seq 0 (length (md_fields (msg_at sch m)))).

  (** ** Serialization *)

  Section Serializer.
    Variable fuel : nat.
    (** serializeMessage of nested objects. *)
    Variable rec : nat -> list mvalue -> res (list Z).

    (** qprotobufserializer.cpp 106-111: serializeObject (and 119-122 serializeListObject). *)
    Definition mixed_object (idx : Z) (m : nat) (obj : list mvalue) : res (list Z) :=
      body <- rec m obj ;;
      Ok (encodeHeader idx WLengthDelimitedT ++ prependLengthDelimitedSize body).

    (** qabstractprotobufserializer_p.h 89-106: serializeList, null elements are skipped. *)
    Definition mixed_list_element (idx : Z) (m : nat) (v : mvalue) : res (list Z) :=
      match v with
      | MMsg obj => mixed_object idx m obj
      | _ => Ok []
      end.

    (** qprotobufserializer.cpp 130-137 (serializeMapPair) and qabstractprotobufserializer_p.h
        112-142 (serializeMap, null values are skipped), for values that are messages. *)
    Definition mixed_map_element (idx : Z) (k : sty) (m : nat) (kv : scalar * mvalue) : res (list Z) :=
      match snd kv with
      | MMsg obj =>
          value <- mixed_object 2 m obj ;;
          Ok (encodeHeader idx WLengthDelimitedT
                ++ prependLengthDelimitedSize (serializeScalar k (fst kv) 1 ++ value))
      | _ => Ok []
      end.

    (** qprotobufserializer.cpp 258-283: serializeProperty of field [i] of message [m].  For a Qt type
        qtprotobufqttypes.cpp 281-284: the value is converted and sent as an object, whatever it is.
        Reading the property of a message field creates a default object if there is none
        (templates.cpp 180-182), see MessageModel.serializeElement. *)
    Definition mixed_property (m i : nat) (v : mvalue) : res (list Z) :=
      let f := field_at sch m i in
      match qt_field m i with
      | Some k =>
          match v with
          | MQt q =>
              fs <- to_message q ;;
              serializeObject (serializeMessage fuel sch) (f_num f) (index k) fs
          | _ => Ok []
          end
      | None =>
          match f_ty f with
          | FSing (EM m') =>
              mixed_object (f_num f) m' (match v with MMsg obj => obj | _ => new_object m' end)
          | FRep (EM m') => concat_res (map (mixed_list_element (f_num f) m') (objects_of v))
          | FMap k (EM m') => concat_res (map (mixed_map_element (f_num f) k m') (entries_of v))
          | _ => serializeProperty sch (serializeMessage fuel sch) f (plain_of v)
          end
      end.
  End Serializer.

  (** qprotobufserializer.cpp 81-97: serializeMessage. *)
  Fixpoint mixed_serialize (fuel : nat) (m : nat) (obj : list mvalue) : res (list Z) :=
    match fuel with
    | O => OutOfFuel
    | S fuel' =>
        concat_res (map (fun i => mixed_property fuel' (mixed_serialize fuel') m i (nth i obj MNull))
                        (md_order (msg_at sch m)))
    end.

  (** ** Deserialization *)

  Fixpoint mixed_update (i : nat) (v : mvalue) (l : list mvalue) : list mvalue :=
    match l, i with
    | [], _ => []
    | _ :: l', O => v :: l'
    | x :: l', S i' => x :: mixed_update i' v l'
    end.

  (** QMap::operator[] followed by an assignment of the value. *)
  Fixpoint mixed_insert (t : sty) (k : scalar) (v : mvalue) (l : list (scalar * mvalue))
    : list (scalar * mvalue) :=
    match l with
    | [] => [(k, v)]
    | (k', v') :: l' =>
        if key_ltb t k k' then (k, v) :: l
        else if key_ltb t k' k then (k', v') :: mixed_insert t k v l'
        else (k', v) :: l'
    end.

  Section Deserializer.
    Variable fuel : nat.
    (** deserializeMessage of a new object of type [m]. *)
    Variable rec : nat -> list Z -> list mvalue * res unit.

    (** qprotobufserializer.cpp 113-117 (deserializeObject), 124-128 (deserializeListObject). *)
    Definition mixed_read_object (m : nat) (data : list Z) (it : iter) : res (list mvalue * iter) :=
      '(array, it') <- deserializeLengthDelimited false data it ;;
      match rec m array with
      | (obj, Ok _) => Ok (obj, it')
      | (_, Throw e) => Throw e
      | (_, UB r) => UB r
      | (_, OutOfFuel) => OutOfFuel
      end.

    (** qprotobufserializer.cpp 334-352: the loop of deserializeMapPair, for values that are
        messages. *)
    Fixpoint mixed_map_loop (n : nat) (k : sty) (m : nat) (data : list Z) (it : iter) (last : Z)
      (key : scalar) (val : mvalue) : res (scalar * mvalue * iter) :=
      match n with
      | O => OutOfFuel
      | S n' =>
          if it_pos it =? last then Ok (key, val, it) else
          '(mapIndex, _, _, it1) <- decodeHeader data it ;;
          if mapIndex =? 1 then
            '(key', it2) <- deserializeBasic false k data it1 ;;
            mixed_map_loop n' k m data it2 last key' val
          else
            '(obj, it2) <- mixed_read_object m data it1 ;;
            mixed_map_loop n' k m data it2 last key (MMsg obj)
      end.

    (** qprotobufserializer.cpp 327-353: deserializeMapPair. *)
    Definition mixed_map_pair (k : sty) (m : nat) (data : list Z) (it : iter)
      : res (scalar * mvalue * iter) :=
      '(count, it1) <- deserializeVarintCommon 32 data it ;;
      last <- it_plus false it1 (toS 32 count) ;;
      mixed_map_loop fuel k m data it1 (it_pos last) (default_scalar k) MNull.

    (** qprotobufserializer.cpp 311-324 for field [i] of message [m]: the new value of the property
        that holds [old].  For a Qt type qtprotobufqttypes.cpp 285-289 and the setter, templates.cpp
        230-235: an object is read and converted, and stored unless the member is equal to it. *)
    Definition mixed_field (m i : nat) (old : mvalue) (data : list Z) (it : iter) : res (mvalue * iter) :=
      match qt_field m i with
      | Some k =>
          '(fs, it') <- deserializeObject false
             (fun m' data' => deserializeMessage fuel false sch m' data') (index k) data it ;;
          w <- of_message k fs ;;
          Ok (match old with MQt o => MQt (if qt_eq o w then o else w) | _ => MQt w end, it')
      | None =>
          match f_ty (field_at sch m i) with
          | FSing (EM m') =>
              '(obj, it') <- mixed_read_object m' data it ;; Ok (MMsg obj, it')
          | FRep (EM m') =>
              '(obj, it') <- mixed_read_object m' data it ;;
              Ok (MList (objects_of old ++ [MMsg obj]), it')
          | FMap k (EM m') =>
              '(key, val, it') <- mixed_map_pair k m' data it ;;
              Ok (MMap (mixed_insert k key val (entries_of old)), it')
          | ty =>
              '(v, it') <- deserializeField fuel false
                 (fun m' data' => deserializeMessage fuel false sch m' data') ty (plain_of old) data it ;;
              Ok (MPlain v, it')
          end
      end.

    (** qprotobufserializer.cpp 285-325: deserializeProperty. *)
    Definition mixed_read_property (m : nat) (data : list Z) (it : iter) (obj : list mvalue)
      : res (list mvalue * iter) :=
      '(fieldNumber, wireType, valid, it1) <- decodeHeader data it ;;
      if negb valid then Throw InvalidArgument else
      match find_field (msg_at sch m) fieldNumber with
      | None =>
          it2 <- skipSerializedFieldBytes false data it1 wireType ;;
          Ok (obj, it2)
      | Some i =>
          '(v, it2) <- mixed_field m i (nth i obj MNull) data it1 ;;
          Ok (mixed_update i v obj, it2)
      end.
  End Deserializer.

  (** qprotobufserializer.cpp 99-104: deserializeMessage; the loop over the properties. *)
  Fixpoint mixed_loop (fuel : nat) (m : nat) (data : list Z) (it : iter) (obj : list mvalue)
    : list mvalue * res unit :=
    match fuel with
    | O => (obj, OutOfFuel)
    | S fuel' =>
        if it_pos it =? Zlen data then (obj, Ok tt) else
        let rec := fun m' data' => mixed_loop fuel' m' data' (it_begin data') (new_object m') in
        match mixed_read_property fuel' rec m data it obj with
        | Ok (obj', it') => mixed_loop fuel' m data it' obj'
        | Throw e => (obj, Throw e)
        | UB r => (obj, UB r)
        | OutOfFuel => (obj, OutOfFuel)
        end
    end.

  (** deserializeMessage on a newly constructed object. *)
  Definition mixed_deserialize (fuel : nat) (m : nat) (data : list Z) : list mvalue * res unit :=
    mixed_loop fuel m data (it_begin data) (new_object m).
End Mixed.

Arguments MPlain {Url Image} v.
Arguments MNull {Url Image}.
Arguments MMsg {Url Image} fs.
Arguments MList {Url Image} l.
Arguments MMap {Url Image} l.
Arguments MQt {Url Image} q.

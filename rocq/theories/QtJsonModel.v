(** Model of the JSON serializer (src/protobuf/qprotobufjsonserializer.cpp) on messages that hold values of Qt types
    next to other fields, with the handlers that qRegisterProtobufQtTypes installs (src/qttypes/qtprotobufqttypes.cpp
    278-318).

    Which fields are of Qt types, and the values of members, are those of QtFieldsModel.  Everything that does not
    depend on them is taken from JsonModel and JsonReadModel. *)

From Coq Require Import String ZArith List Bool.
From Verif Require Import Base Values MessageModel QtTypesModel QtFieldsModel JsonSpec JsonModel JsonReadModel.
Import ListNotations.
Open Scope Z_scope.

Section MixedJson.
  Variables Url Image : Type.
  Variable url_string : Url -> list Z.
  Variable url_parse : list Z -> Url.
  Variable png_save : Image -> list Z.
  Variable image_load : list Z -> list Z -> Image.
  Variable to_rgb : Z -> Z * Z * Z * Z -> Z * Z * Z * Z.
  Local Notation qtval := (qtval Url Image).
  Local Notation mvalue := (mvalue Url Image).
  Local Notation to_message := (to_message Url Image url_string png_save to_rgb).
  Local Notation of_message := (of_message Url Image url_parse image_load).
  (** Qt's operator== and default constructors. *)
  Variable qt_eq : qtval -> qtval -> bool.
  Variable new_qt : kind -> qtval.
  Variable sch : schema.
  Variable nm : names.
  Variable qt_field : nat -> nat -> option kind.
  Local Notation new_object := (new_object Url Image new_qt sch qt_field).

  (** ** Writing *)

  Section Writer.
    Variable fm : formats.
    Variable fuel : nat.
    (** serializeObject of nested objects. *)
    Variable rec : nat -> list mvalue -> res (list Z).

    (** serializeListObject, 403-406, with qabstractprotobufserializer_p.h 98-104: null elements are skipped. *)
    Definition mixed_json_element (m : nat) (v : mvalue) : res (list Z) :=
      match v with MMsg obj => t <- rec m obj ;; Ok (t ++ [44]) | _ => Ok [] end.

    (** serializeMapPair, 439-442, with qabstractprotobufserializer_p.h 134-140, for values that are messages. *)
    Definition mixed_json_pair (k : sty) (m : nat) (kv : scalar * mvalue) : res (list Z) :=
      match snd kv with
      | MMsg obj => t <- rec m obj ;; Ok (34 :: toString fm k (fst kv) ++ 34 :: 58 :: t ++ [44])
      | _ => Ok []
      end.

    (** serializeValue, 159-174.  For a Qt type qtprotobufqttypes.cpp 281-284: the value is converted and written as an
        object (387-390), whatever it is.  Reading the property of a message field creates a default object if there is
        none. *)
    Definition mixed_json_field (m i : nat) (v : mvalue) : res (list Z) :=
      match qt_field m i with
      | Some k =>
          match v with
          | MQt q => fs <- to_message q ;; json_object fuel sch nm fm (index k) fs
          | _ => Ok []
          end
      | None =>
          match f_ty (field_at sch m i) with
          | FSing (EM m') => rec m' (match v with MMsg obj => obj | _ => new_object m' end)
          | FRep (EM m') => t <- concat_res (map (mixed_json_element m') (objects_of _ _ v)) ;; Ok (close (91 :: t) 93)
          | FMap k (EM m') => t <- concat_res (map (mixed_json_pair k m') (entries_of _ _ v)) ;; Ok (close (123 :: t) 125)
          | _ => json_field sch nm fm (json_object fuel sch nm fm) m i (plain_of _ _ v)
          end
      end.

    (** serializeProperty, 176-178, with the comma of line 192. *)
    Definition mixed_json_property (m i : nat) (v : mvalue) : res (list Z) :=
      t <- mixed_json_field m i v ;; Ok (34 :: n_json nm m i ++ 34 :: 58 :: t ++ [44]).
  End Writer.

  (** serializeObject, 180-197.  Fuel bounds the nesting depth. *)
  Fixpoint mixed_json (fm : formats) (fuel : nat) (m : nat) (obj : list mvalue) : res (list Z) :=
    match fuel with
    | O => OutOfFuel
    | S fuel' =>
        t <- concat_res (map (fun i => mixed_json_property fm fuel' (mixed_json fm fuel') m i (nth i obj MNull))
                             (md_order (msg_at sch m))) ;;
        Ok (chop (123 :: t) ++ [125])
    end.

  (** ** Reading *)

  Variable mj : microjson.
  Variable conv : conversions.

  Section Reader.
    Variable fuel : nat.
    (** deserializeObject (335-360) of a new object of the given type. *)
    Variable rec : nat -> list Z -> res (list mvalue).

    (** The loop in lines 318-325 for a list of messages: deserializeListObject (416-433) with
        qabstractprotobufserializer_p.h 187-199. *)
    Fixpoint mixed_messages (n : nat) (m : nat) (s : list Z) (acc : list mvalue) : res (list mvalue) :=
      match n with
      | O => OutOfFuel
      | S n' =>
          match s with
          | [] => Ok acc
          | _ =>
              let s1 := skip_open 91 s in
              match extractValue mj s1 93 with
              | None => Ok acc
              | Some (i, v) =>
                  obj <- rec m (snd v) ;;
                  if (i <=? List.length s1)%nat then mixed_messages n' m (skipn i s1) (acc ++ [MMsg obj]) else Throw OutOfRange
              end
          end
      end.

    (** The loop for a map: deserializeMapPair (452-477) with qabstractprotobufserializer_p.h 206-242, for values that
        are messages. *)
    Fixpoint mixed_pairs (n : nat) (k : sty) (m : nat) (s : list Z) (acc : list (scalar * mvalue))
      : res (list (scalar * mvalue)) :=
      match n with
      | O => OutOfFuel
      | S n' =>
          match s with
          | [] => Ok acc
          | _ =>
              let s1 := skip_open 123 s in
              match extractProperty mj s1 125 with
              | None => Ok acc
              | Some (i, (name, v)) =>
                  val <- (match snd v with [] => Ok MNull | _ => obj <- rec m (snd v) ;; Ok (MMsg obj) end) ;;
                  if (i <=? List.length s1)%nat
                  then mixed_pairs n' k m (skipn i s1) (mixed_insert _ _ k (read_key conv k name) val acc)
                  else Throw OutOfRange
              end
          end
      end.

    (** deserializeValue, 314-333.  For a Qt type qtprotobufqttypes.cpp 285-289: an object of the message of the
        library is read (392-396) and converted. *)
    Definition mixed_json_value (m i : nat) (v : jvalue) : res (variant mvalue) :=
      match qt_field m i with
      | Some k =>
          match snd v with
          | [] => Ok (None, false)
          | _ =>
              fs <- read_object fuel mj conv sch nm (index k) (snd v) (default_obj sch (index k)) ;;
              w <- of_message k fs ;;
              Ok (Some (MQt w), true)
          end
      | None =>
          match f_ty (field_at sch m i) with
          | FSing (EM m') => match snd v with [] => Ok (None, false) | _ => obj <- rec m' (snd v) ;; Ok (Some (MMsg obj), true) end
          | FRep (EM m') =>
              match snd v with [] => Ok (None, false) | _ => l <- mixed_messages fuel m' (snd v) [] ;; Ok (Some (MList l), true) end
          | FMap k (EM m') =>
              match snd v with [] => Ok (None, false) | _ => l <- mixed_pairs fuel k m' (snd v) [] ;; Ok (Some (MMap l), true) end
          | _ =>
              x <- read_value mj conv sch nm
                     (fun m' data' => read_object fuel mj conv sch nm m' data' (default_obj sch m')) fuel m i v ;;
              Ok (option_map MPlain (fst x), snd x)
          end
      end.

    (** QMetaProperty::write with the setters of the generated class (see JsonReadModel.write_property).  A member of a Qt
        type is assigned unless it is equal (templates.cpp 230-235); for an invalid variant Qt passes a default
        constructed value. *)
    Definition mixed_write (m i : nat) (old : mvalue) (new : option mvalue) : mvalue :=
      match qt_field m i with
      | Some k =>
          let w := match new with Some (MQt w) => w | _ => new_qt k end in
          match old with MQt o => MQt (if qt_eq o w then o else w) | _ => MQt w end
      | None =>
          match f_ty (field_at sch m i) with
          | FSing (EM _) => match new with Some v => v | None => MNull end
          | FRep (EM _) => match new with Some v => v | None => MList [] end
          | FMap _ (EM _) => match new with Some v => v | None => MMap [] end
          | ty => MPlain (write_property ty (plain_of _ _ old) (option_map (plain_of _ _) new))
          end
      end.

    (** The loop of deserializeObject, lines 338-359. *)
    Fixpoint mixed_members (m : nat) (l : list (list Z * jvalue)) (obj : list mvalue) : res (list mvalue) :=
      match l with
      | [] => Ok obj
      | (name, v) :: l' =>
          match find (fun i => same_bytes (n_json nm m i) name) (md_order (msg_at sch m)) with
          | None => mixed_members m l' obj
          | Some i =>
              if same_bytes (snd v) (bytes_of "null") && is_object (fst v)
              then mixed_members m l' (mixed_update _ _ i (mixed_write m i (nth i obj MNull) None) obj)
              else
                x <- mixed_json_value m i v ;;
                if snd x then mixed_members m l' (mixed_update _ _ i (mixed_write m i (nth i obj MNull) (fst x)) obj)
                else mixed_members m l' obj
          end
      end.
  End Reader.

  (** deserializeObject, lines 335-360, on the object [obj].  Fuel bounds the nesting and the lengths of lists and maps. *)
  Fixpoint mixed_json_read (fuel : nat) (m : nat) (data : list Z) (obj : list mvalue) : res (list mvalue) :=
    match fuel with
    | O => OutOfFuel
    | S fuel' =>
        mixed_members fuel' (fun m' data' => mixed_json_read fuel' m' data' (new_object m')) m (parseJsonObject mj data) obj
    end.
End MixedJson.

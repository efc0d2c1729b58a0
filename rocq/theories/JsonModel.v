(** Model of the writer of the JSON serializer, src/protobuf/qprotobufjsonserializer.cpp, with the handlers of
    qabstractprotobufserializer_p.h.  Its reader calls the library microjson, which is not part of the repository, and
    is not modelled. *)

From Coq Require Import String ZArith List Bool.
From Verif Require Import Base Values MessageModel JsonSpec.
Import ListNotations.
Open Scope Z_scope.

(** QString::number of an integer (Qt). *)
Fixpoint digits (fuel : nat) (n : Z) (acc : list Z) : list Z :=
  match fuel with
  | O => acc
  | S fuel' => if n <? 10 then (48 + n) :: acc else digits fuel' (n / 10) ((48 + n mod 10) :: acc)
  end.
Definition decimal (z : Z) : list Z :=
  let ds := digits (S (Z.to_nat (Z.log2 (Z.abs z)))) (Z.abs z) [] in if z <? 0 then 45 :: ds else ds.

(** Lines 63-65. *)
Definition quoted (bs : list Z) : list Z := 34 :: bs ++ [34].

(** QByteArray::resize(size() - 1). *)
Definition chop (bs : list Z) : list Z := removelast bs.

(** QMetaEnum::key(index): the name of the enumerator with this index, null (appended as nothing) if there is none.
    Lines 479-482 pass the value of the field. *)
Definition enum_key (en : list (list Z * Z)) (index : Z) : list Z :=
  if index <? 0 then [] else match nth_error en (Z.to_nat index) with Some p => fst p | None => [] end.

(** QVariant::toString of the basic types without handler, line 170. *)
Definition toString (fm : formats) (t : sty) (v : scalar) : list Z :=
  match t with
  | TBool => if num_of v =? 0 then bytes_of "false" else bytes_of "true"
  | TString | TBytes => blob_of v
  | TFloat => fmt_float fm (num_of v)
  | TDouble => fmt_double fm (num_of v)
  | _ => decimal (num_of v)
  end.

(** serializeValue, lines 159-174, for a basic value: serializeFloat (54-61), serializeString (63-65),
    serializeBytes (67-69), serializeEnum (479-482) and otherwise toString. *)
Definition json_scalar (fm : formats) (en : list (list Z * Z)) (t : sty) (v : scalar) : list Z :=
  match t with
  | TFloat => fmt_float fm (num_of v)
  | TString => quoted (blob_of v)
  | TBytes => quoted (base64 (blob_of v))
  | TEnum => quoted (enum_key en (num_of v))
  | _ => toString fm t v
  end.

(** The elements written by serializeList (71-83), serializeDoubleList (85-96), serializeStringList (98-109),
    serializeBytesList (111-122), serializeEnumList (484-497). *)
Definition json_element (fm : formats) (en : list (list Z * Z)) (t : sty) (v : scalar) : list Z :=
  match t with
  | TFloat => fmt_float fm (num_of v)
  | TDouble => fmt_double6 fm (num_of v)
  | TString => quoted (blob_of v)
  | TBytes => quoted (base64 (blob_of v))
  | TEnum => quoted (enum_key en (num_of v))
  | _ => decimal (num_of v)
  end.

(** The loops of those functions; a list of bools has no handler and no text, line 170. *)
Definition json_scalar_list (fm : formats) (en : list (list Z * Z)) (t : sty) (l : list scalar) : list Z :=
  match t with
  | TBool => []
  | _ =>
      let result := 91 :: concat (map (fun v => json_element fm en t v ++ [44]) l) in
      (match l with [] => result | _ => chop result end) ++ [93]
  end.

(** serializeListEnd (408-414) and serializeMapEnd (444-450): drop a trailing comma, then close. *)
Definition close (buffer : list Z) (c : Z) : list Z :=
  (if last buffer 0 =? 44 then chop buffer else buffer) ++ [c].

Section Writer.
  Variable sch : schema.
  Variable nm : names.
  Variable fm : formats.
  Variable rec : nat -> list value -> res (list Z).

  (** serializeValue of a basic value or a message (387-390). *)
  Definition json_value (en : list (list Z * Z)) (e : elty) (v : value) : res (list Z) :=
    match e with
    | ES t => Ok (json_scalar fm en t (scalar_of v))
    | EM m => match v with VMsg obj => rec m obj | _ => rec m (default_obj sch m) end
    end.

  (** serializeListObject, 403-406, and qabstractprotobufserializer_p.h 98-104. *)
  Definition json_list_object (m : nat) (v : value) : res (list Z) :=
    match v with VMsg obj => t <- rec m obj ;; Ok (t ++ [44]) | _ => Ok [] end.

  (** serializeMapPair, 439-442, and qabstractprotobufserializer_p.h 118-120, 134-140. *)
  Definition json_map_pair (en : list (list Z * Z)) (k : sty) (e : elty) (kv : scalar * value) : res (list Z) :=
    match e, snd kv with
    | EM _, VNull => Ok []
    | _, _ => t <- json_value en e (snd kv) ;; Ok (34 :: toString fm k (fst kv) ++ 34 :: 58 :: t ++ [44])
    end.

  (** serializeValue of the property of field [i] of message type [m]. *)
  Definition json_field (m i : nat) (v : value) : res (list Z) :=
    let en := n_enum nm m i in
    match f_ty (field_at sch m i) with
    | FSing e => json_value en e v
    | FRep (ES t) => Ok (json_scalar_list fm en t (map scalar_of (list_of v)))
    | FRep (EM m') => t <- concat_res (map (json_list_object m') (list_of v)) ;; Ok (close (91 :: t) 93)
    | FMap k e => t <- concat_res (map (json_map_pair en k e) (map_of v)) ;; Ok (close (123 :: t) 125)
    end.

  (** serializeProperty, 176-178, with the comma of line 192. *)
  Definition json_property (m i : nat) (v : value) : res (list Z) :=
    t <- json_field m i v ;; Ok (34 :: n_json nm m i ++ 34 :: 58 :: t ++ [44]).
End Writer.

(** serializeObject, 180-197.  Fuel bounds the nesting depth. *)
Fixpoint json_object (fuel : nat) (sch : schema) (nm : names) (fm : formats) (m : nat) (obj : list value) : res (list Z) :=
  match fuel with
  | O => OutOfFuel
  | S fuel' =>
      t <- concat_res (map (fun i => json_property sch nm fm (json_object fuel' sch nm fm) m i (nth i obj VNull))
                           (md_order (msg_at sch m))) ;;
      Ok (chop (123 :: t) ++ [125])
  end.

(** Model of the reader of the JSON serializer, src/protobuf/qprotobufjsonserializer.cpp, with the handlers of
    qabstractprotobufserializer_p.h. *)

From Coq Require Import String ZArith List Bool.
From Verif Require Import Base Values MessageModel JsonSpec.
Import ListNotations.
Open Scope Z_scope.

(** ** The library microjson, which is not part of the repository

    Only the functions called are given, as parameters; what is expected of them is [right_on] of JsonReadSpec.v. *)

(** microjson::JsonType, as far as used (lines 201-349); null is an object for line 349. *)
Inductive jtype : Type := NumberType | BoolType | StringType | ArrayType | ObjectType.
Definition is_number (t : jtype) : bool := match t with NumberType => true | _ => false end.
Definition is_bool (t : jtype) : bool := match t with BoolType => true | _ => false end.
Definition is_string (t : jtype) : bool := match t with StringType => true | _ => false end.
Definition is_array (t : jtype) : bool := match t with ArrayType => true | _ => false end.
Definition is_object (t : jtype) : bool := match t with ObjectType => true | _ => false end.

(** A value: its type and its text (of a string, without the quotation marks). *)
Definition jvalue : Type := jtype * list Z.

(** parseJsonObject (line 336), parseJsonArray (282, 305, 507), extractValue (425) and extractProperty (461): the last
    two get the closing character, and also return by how many bytes the position [i] moved. *)
Record microjson : Type := mkMicrojson {
  parseJsonObject : list Z -> list (list Z * jvalue);
  parseJsonArray : list Z -> list jvalue;
  extractValue : list Z -> Z -> option (nat * jvalue);
  extractProperty : list Z -> Z -> option (nat * (list Z * jvalue))
}.

(** ** Functions of Qt *)

Definition same_bytes (a b : list Z) : bool := list_eqb Z.eqb a b.

(** QByteArray::toInt, toUInt, toLongLong, toULongLong: an optional sign and digits, in the range of the type.  White
    space around the digits, which Qt skips, is not modelled: the texts of JSON values have none. *)
Fixpoint digits_value (acc : Z) (s : list Z) : option Z :=
  match s with
  | [] => Some acc
  | c :: s' => if (48 <=? c) && (c <=? 57) then digits_value (acc * 10 + (c - 48)) s' else None
  end.
Definition lowest (t : sty) : Z :=
  match t with TInt32 | TSInt32 | TSFixed32 => - 2 ^ 31 | TInt64 | TSInt64 | TSFixed64 => - 2 ^ 63 | _ => 0 end.
Definition highest (t : sty) : Z :=
  match t with
  | TInt32 | TSInt32 | TSFixed32 => 2 ^ 31 - 1 | TInt64 | TSInt64 | TSFixed64 => 2 ^ 63 - 1
  | TUInt32 | TFixed32 => 2 ^ 32 - 1 | _ => 2 ^ 64 - 1
  end.
Definition toInteger (t : sty) (s : list Z) : option Z :=
  let '(negative, ds) :=
    match s with c :: s' => if c =? 45 then (true, s') else if c =? 43 then (false, s') else (false, s) | [] => (false, []) end in
  match ds with
  | [] => None
  | _ =>
      match digits_value 0 ds with
      | None => None
      | Some n =>
          let z := if negative then - n else n in
          if (lowest t <=? z) && (z <=? highest t) then Some z else None
      end
  end.

(** QString::replace of the two characters backslash and quotation mark by the latter. *)
Fixpoint unescape (s : list Z) : list Z :=
  match s with
  | [] => []
  | c :: s' =>
      match s' with
      | d :: s'' => if (c =? 92) && (d =? 34) then 34 :: unescape s'' else c :: unescape s'
      | [] => [c]
      end
  end.

(** QByteArray::fromBase64: six bits for each character of the alphabet, other characters are skipped. *)
Definition base64_value (c : Z) : option Z :=
  if (65 <=? c) && (c <=? 90) then Some (c - 65)
  else if (97 <=? c) && (c <=? 122) then Some (c - 71)
  else if (48 <=? c) && (c <=? 57) then Some (c + 4)
  else if c =? 43 then Some 62
  else if c =? 47 then Some 63
  else None.
Fixpoint fromBase64 (buf nbits : Z) (s : list Z) : list Z :=
  match s with
  | [] => []
  | c :: s' =>
      match base64_value c with
      | None => fromBase64 buf nbits s'
      | Some d =>
          let buf' := buf * 64 + d in
          let nbits' := nbits + 6 in
          if 8 <=? nbits' then (buf' / 2 ^ (nbits' - 8)) mod 256 :: fromBase64 (buf' mod 2 ^ (nbits' - 8)) (nbits' - 8) s'
          else fromBase64 buf' nbits' s'
      end
  end.

(** QMetaEnum::keyToValue: the value of the enumerator with the name, -1 if there is none. *)
Definition keyToValue (en : list (list Z * Z)) (key : list Z) : Z :=
  match find (fun p => same_bytes (fst p) key) en with Some p => snd p | None => -1 end.

(** QByteArray::toFloat and toDouble: the bits and whether the text was a number (Qt). *)
Definition conversions : Type := sty -> list Z -> Z * bool.

(** ** Basic values *)

(** A QVariant, [None] if invalid, and the flag ok. *)
Definition variant (A : Type) : Type := option A * bool.

Definition not_finite (data : list Z) : bool :=
  same_bytes data (bytes_of "NaN") || same_bytes data (bytes_of "Infinity") || same_bytes data (bytes_of "-Infinity").

(** deserializeInt32 to deserializeByteArray, lines 199-271, by the table in lines 126-140; enums: the loop in lines
    318-325 with qabstractprotobufserializer_p.h 249-256 and lines 499-503. *)
Definition read_scalar (conv : conversions) (en : list (list Z * Z)) (t : sty) (v : jvalue) : variant scalar :=
  let '(type, data) := v in
  match t with
  | TFloat | TDouble =>
      if not_finite data then (None, true)
      else let '(x, ok) := conv t data in (Some (SNum x), ok || is_number type)
  | TBool => if is_bool type then (Some (SNum (if same_bytes data (bytes_of "true") then 1 else 0)), true) else (None, false)
  | TString => if is_string type then (Some (SStr false (unescape data)), true) else (None, false)
  | TBytes => if is_string type then (Some (SStr false (fromBase64 0 0 data)), true) else (None, false)
  | TEnum => match data with [] => (None, false) | _ => (Some (SNum (keyToValue en data)), true) end
  | _ => match toInteger t data with Some z => (Some (SNum z), true) | None => (Some (SNum 0), is_number type) end
  end.

(** QVariant::value of a basic type: an invalid variant gives the default value. *)
Definition value_or_default (t : sty) (v : variant scalar) : scalar := match fst v with Some s => s | None => default_scalar t end.

(** The elements of deserializeList and deserializeStringList (lines 289-293, 306-310), and of deserializeEnumList
    (lines 505-518, with qabstractprotobufserializer_p.h 263-274), where null is the first enumerator. *)
Definition read_element (conv : conversions) (en : list (list Z * Z)) (t : sty) (v : jvalue) : scalar :=
  if is_enum t then
    if same_bytes (snd v) (bytes_of "null") then SNum (match en with p :: _ => snd p | [] => -1 end) else SNum (keyToValue en (snd v))
  else value_or_default t (read_scalar conv en t v).

Section Reader.
  Variable mj : microjson.
  Variable conv : conversions.
  Variable sch : schema.
  Variable nm : names.

  (** deserializeList (273-295), deserializeStringList (297-312), and for enums the loop in lines 318-325 with the
      handler; lists of bools have no handler. *)
  Definition read_scalars (en : list (list Z * Z)) (t : sty) (v : jvalue) : variant value :=
    match t with
    | TBool => (None, false)
    | TEnum =>
        match snd v with
        | [] => (None, false)
        | _ => (Some (VList (map (fun x => VScalar (read_element conv en t x)) (parseJsonArray mj (snd v)))), true)
        end
    | _ =>
        if is_array (fst v)
        then (Some (VList (map (fun x => VScalar (read_element conv en t x)) (parseJsonArray mj (snd v)))), true)
        else (None, false)
    end.

  (** deserializeObject (335-360) of a new object of the given type. *)
  Variable rec : nat -> list Z -> res (list value).

  (** The text after the character [c], if it begins with it (lines 418-421, 454-457). *)
  Definition skip_open (c : Z) (s : list Z) : list Z := match s with x :: s' => if x =? c then s' else s | [] => [] end.

  (** The loop in lines 318-325 for a list of messages: deserializeListObject (416-433) with
      qabstractprotobufserializer_p.h 187-199. *)
  Fixpoint read_messages (n : nat) (m : nat) (s : list Z) (acc : list value) : res (list value) :=
    match n with
    | O => OutOfFuel
    | S n' =>
        match s with
        | [] => Ok acc
        | _ =>
            let s1 := skip_open 91 s in
            match extractValue mj s1 93 with
            | None => Ok acc
            | Some (i, v) =>
                obj <- rec m (snd v) ;;
                if (i <=? List.length s1)%nat then read_messages n' m (skipn i s1) (acc ++ [VMsg obj]) else Throw OutOfRange
            end
        end
    end.

  (** The value of a map entry: deserializeValue (314-333) in line 467, with lines 468-470 and
      qabstractprotobufserializer_p.h 217, 239. *)
  Definition read_entry_value (en : list (list Z * Z)) (e : elty) (v : jvalue) : res value :=
    match e with
    | ES t => let x := read_scalar conv en t v in Ok (VScalar (value_or_default t (if snd x then x else (None, false))))
    | EM m => match snd v with [] => Ok VNull | _ => obj <- rec m (snd v) ;; Ok (VMsg obj) end
    end.

  (** Its key, lines 463-466, always taken as string. *)
  Definition read_key (k : sty) (name : list Z) : scalar :=
    let x := read_scalar conv [] k (StringType, name) in value_or_default k (if snd x then x else (None, false)).

  (** The loop for a map: deserializeMapPair (452-477) with qabstractprotobufserializer_p.h 206-242. *)
  Fixpoint read_pairs (n : nat) (en : list (list Z * Z)) (k : sty) (e : elty) (s : list Z) (acc : list (scalar * value))
    : res (list (scalar * value)) :=
    match n with
    | O => OutOfFuel
    | S n' =>
        match s with
        | [] => Ok acc
        | _ =>
            let s1 := skip_open 123 s in
            match extractProperty mj s1 125 with
            | None => Ok acc
            | Some (i, (name, v)) =>
                val <- read_entry_value en e v ;;
                if (i <=? List.length s1)%nat then read_pairs n' en k e (skipn i s1) (map_insert k (read_key k name) val acc)
                else Throw OutOfRange
            end
        end
    end.

  (** deserializeValue (314-333) for the property of field [i] of message type [m]. *)
  Definition read_value (n : nat) (m i : nat) (v : jvalue) : res (variant value) :=
    let en := n_enum nm m i in
    match f_ty (field_at sch m i) with
    | FSing (ES t) => let x := read_scalar conv en t v in Ok (option_map VScalar (fst x), snd x)
    | FSing (EM m') => match snd v with [] => Ok (None, false) | _ => obj <- rec m' (snd v) ;; Ok (Some (VMsg obj), true) end
    | FRep (ES t) => Ok (read_scalars en t v)
    | FRep (EM m') =>
        match snd v with [] => Ok (None, false) | _ => l <- read_messages n m' (snd v) [] ;; Ok (Some (VList l), true) end
    | FMap k e => match snd v with [] => Ok (None, false) | _ => l <- read_pairs n en k e (snd v) [] ;; Ok (Some (VMap l), true) end
    end.

  (** QMetaProperty::write with the setters of the generated class.  Qt writes the default value of the type for an
      invalid variant; it does not write an enum property then. *)
  Definition write_property (ty : fty) (old : value) (new : option value) : value :=
    match ty, new with
    | FSing (ES TEnum), None => old
    | _, _ =>
        let v := match new with Some v => v | None => default_field ty end in
        match ty with
        | FSing (ES t) => VScalar (store_scalar t (scalar_of old) (scalar_of v))
        | FSing (EM _) => v
        | FRep (ES t) => VList (store_scalars t (list_of old) (list_of v))
        | FRep (EM _) => v
        | FMap k e => VMap (store_map k e (map_of old) (map_of v))
        end
    end.

  (** The loop of deserializeObject, lines 338-359. *)
  Fixpoint read_members (n : nat) (m : nat) (l : list (list Z * jvalue)) (obj : list value) : res (list value) :=
    match l with
    | [] => Ok obj
    | (name, v) :: l' =>
        match find (fun i => same_bytes (n_json nm m i) name) (md_order (msg_at sch m)) with
        | None => read_members n m l' obj
        | Some i =>
            let ty := f_ty (field_at sch m i) in
            if same_bytes (snd v) (bytes_of "null") && is_object (fst v)
            then read_members n m l' (update i (write_property ty (nth i obj VNull) None) obj)
            else
              x <- read_value n m i v ;;
              if snd x then read_members n m l' (update i (write_property ty (nth i obj VNull) (fst x)) obj)
              else read_members n m l' obj
        end
    end.
End Reader.

(** deserializeObject, lines 335-360, on the object [obj].  Fuel bounds the nesting and the lengths of lists and maps. *)
Fixpoint read_object (fuel : nat) (mj : microjson) (conv : conversions) (sch : schema) (nm : names) (m : nat)
  (data : list Z) (obj : list value) : res (list value) :=
  match fuel with
  | O => OutOfFuel
  | S fuel' =>
      read_members mj conv sch nm (fun m' data' => read_object fuel' mj conv sch nm m' data' (default_obj sch m')) fuel' m
        (parseJsonObject mj data) obj
  end.

(** Model of src/qttypes: conversions between Qt types and the messages of QtCore.proto and
    QtGui.proto, and of messages with fields of Qt types.

    The classes of Qt are represented by their data members as in Qt 5.15; the members used by the
    conversions follow the documentation and source of Qt.  URLs and images stay abstract: reading
    and writing them belongs to Qt. *)

From Coq Require Import ZArith List Bool.
From Verif Require Import Base WireModel Values MessageModel.
Import ListNotations.
Open Scope Z_scope.

(** * Qt *)

(** Arithmetic on int. *)
Definition int_op (z : Z) : res Z :=
  if (- 2 ^ 31 <=? z) && (z <? 2 ^ 31) then Ok z else UB SignedOverflow.

(** ** QDate: the Julian day; [nullJd] stands for no date. *)
Definition nullJd : Z := - 2 ^ 63.
Definition minJd : Z := -784350574879.
Definition maxJd : Z := 784354017364.
Definition date_valid (jd : Z) : bool := (minJd <=? jd) && (jd <=? maxJd).

(** QGregorianCalendar::partsFromJulian. *)
Definition partsFromJulian (jd : Z) : Z * Z * Z :=
  let a := jd + 32044 in
  let b := (4 * a + 3) / 146097 in
  let c := a - (146097 * b) / 4 in
  let d := (4 * c + 3) / 1461 in
  let e := c - (1461 * d) / 4 in
  let m := (5 * e + 2) / 153 in
  let y := 100 * b + d - 4800 + m / 10 in
  ((if 0 <? y then y else y - 1), m + 3 - 12 * (m / 10), e - (153 * m + 2) / 5 + 1).

(** QDate::year, month, day: 0 for an invalid date. *)
Definition date_parts (jd : Z) : Z * Z * Z :=
  if date_valid jd then partsFromJulian jd else (0, 0, 0).

(** QGregorianCalendar::leapTest, monthLength, validParts: there is no year 0. *)
Definition leap_year (year : Z) : bool :=
  let y := if year <? 1 then year + 1 else year in
  ((y mod 4 =? 0) && negb (y mod 100 =? 0)) || (y mod 400 =? 0).
Definition month_length (month year : Z) : Z :=
  if month =? 2 then if leap_year year then 29 else 28
  else if (month =? 4) || (month =? 6) || (month =? 9) || (month =? 11) then 30 else 31.
Definition valid_parts (year month day : Z) : bool :=
  negb (year =? 0) && ((1 <=? month) && (month <=? 12)) &&
  ((1 <=? day) && (day <=? month_length month year)).

(** QGregorianCalendar::julianFromParts, QDate::QDate(int, int, int). *)
Definition julian (year month day : Z) : Z :=
  let year := if year <? 0 then year + 1 else year in
  let a := if month <? 3 then 1 else 0 in
  let y := year + 4800 - a in
  let m := month + 12 * a - 3 in
  day + (153 * m + 2) / 5 - 32045 + 365 * y + y / 4 - y / 100 + y / 400.
Definition date_of (year month day : Z) : Z :=
  if valid_parts year month day then julian year month day else nullJd.

(** ** QTime: milliseconds since midnight; [nullTime] stands for no time. *)
Definition nullTime : Z := -1.
Definition time_valid (mds : Z) : bool := (0 <=? mds) && (mds <? 86400000).
Definition msecsSinceStartOfDay (mds : Z) : Z := if mds =? nullTime then 0 else mds.
Definition fromMSecsSinceStartOfDay (msecs : Z) : Z := msecs.

(** ** QDateTime: time specification, date and time.  Local times that a change of daylight saving
    time skips or repeats are not modelled. *)
Inductive timespec : Type := LocalTime | UTC | OffsetFromUTC (secs : Z) | TimeZone (id : Z).

(** QDateTime::QDateTime(QDate, QTime): local time; a valid date without valid time starts at
    midnight. *)
Definition datetime_of (jd mds : Z) : timespec * Z * Z :=
  (LocalTime, (if date_valid jd then jd else nullJd),
   if time_valid mds then mds else if date_valid jd then 0 else nullTime).

(** ** QUuid *)
Definition hex_digit (d : Z) : Z := if d <? 10 then 48 + d else 87 + d.
Fixpoint to_hex (n : nat) (z : Z) : list Z :=
  match n with O => [] | S n' => to_hex n' (z / 16) ++ [hex_digit (z mod 16)] end.

(** QtMiscUtils::fromHex *)
Definition from_hex_digit (c : Z) : option Z :=
  if (48 <=? c) && (c <=? 57) then Some (c - 48)
  else if (65 <=? c) && (c <=? 70) then Some (c - 55)
  else if (97 <=? c) && (c <=? 102) then Some (c - 87)
  else None.

Fixpoint from_hex (n : nat) (acc : Z) (src : list Z) : option (Z * list Z) :=
  match n with
  | O => Some (acc, src)
  | S n' =>
      match src with
      | [] => None
      | c :: src' =>
          match from_hex_digit c with
          | None => None
          | Some d => from_hex n' (acc * 16 + d) src'
          end
      end
  end.

Definition expect (c : Z) (src : list Z) : option (list Z) :=
  match src with x :: src' => if x =? c then Some src' else None | [] => None end.

(** QUuid::toString *)
Definition uuid_string (d1 d2 d3 : Z) (d4 : list Z) : list Z :=
  [123] ++ to_hex 8 d1 ++ [45] ++ to_hex 4 d2 ++ [45] ++ to_hex 4 d3 ++ [45]
  ++ concat (map (to_hex 2) (firstn 2 d4)) ++ [45] ++ concat (map (to_hex 2) (skipn 2 d4)) ++ [125].

Definition obind {A B} (o : option A) (f : A -> option B) : option B :=
  match o with Some a => f a | None => None end.

Fixpoint from_hex_bytes (n : nat) (src : list Z) : option (list Z * list Z) :=
  match n with
  | O => Some ([], src)
  | S n' => obind (from_hex 2 0 src) (fun p =>
            obind (from_hex_bytes n' (snd p)) (fun q => Some (fst p :: fst q, snd q)))
  end.

(** QUuid::QUuid(QString), _q_uuidFromHex: the braces are optional, anything else gives the null
    id. *)
Definition uuid_parse (text : list Z) : Z * Z * Z * list Z :=
  let src := match text with x :: t => if x =? 123 then t else text | [] => text end in
  match
    obind (from_hex 8 0 src) (fun p1 => obind (expect 45 (snd p1)) (fun s1 =>
    obind (from_hex 4 0 s1) (fun p2 => obind (expect 45 (snd p2)) (fun s2 =>
    obind (from_hex 4 0 s2) (fun p3 => obind (expect 45 (snd p3)) (fun s3 =>
    obind (from_hex_bytes 2 s3) (fun p4 => obind (expect 45 (snd p4)) (fun s4 =>
    obind (from_hex_bytes 6 s4) (fun p5 =>
    Some (fst p1, fst p2, fst p3, fst p4 ++ fst p5))))))))))
  with
  | Some u => u
  | None => (0, 0, 0, [0; 0; 0; 0; 0; 0; 0; 0])
  end.

(** ** QColor: the specification and 16 bit channels. *)
Inductive colorspec : Type := InvalidColor | Rgb | OtherSpec (n : Z).

(** * The messages *)

(** Positions of the message types in the schema: QtCore.proto and QtGui.proto. *)
Inductive kind : Type :=
| KUrl | KChar | KUuid | KTime | KDate | KDateTime | KSize | KSizeF | KPoint | KPointF | KRect | KRectF
| KPolygon | KPolygonF | KColor | KMatrix4x4 | KVector2D | KVector3D | KVector4D | KTransform
| KQuaternion | KImage.

Definition all_kinds : list kind :=
  [ KUrl; KChar; KUuid; KTime; KDate; KDateTime; KSize; KSizeF; KPoint; KPointF; KRect; KRectF;
    KPolygon; KPolygonF; KColor; KMatrix4x4; KVector2D; KVector3D; KVector4D; KTransform;
    KQuaternion; KImage ].

Definition index (k : kind) : nat :=
  match k with
  | KUrl => 0 | KChar => 1 | KUuid => 2 | KTime => 3 | KDate => 4 | KDateTime => 5 | KSize => 6
  | KSizeF => 7 | KPoint => 8 | KPointF => 9 | KRect => 10 | KRectF => 11 | KPolygon => 12
  | KPolygonF => 13 | KColor => 14 | KMatrix4x4 => 15 | KVector2D => 16 | KVector3D => 17
  | KVector4D => 18 | KTransform => 19 | KQuaternion => 20 | KImage => 21
  end.

(** The field types, in the order of the field numbers 1, 2, ...; QtCore.proto 4-72, QtGui.proto
    4-76. *)
Definition field_types (k : kind) : list fty :=
  match k with
  | KUrl => [FSing (ES TString)]
  | KChar => [FSing (ES TBytes)]
  | KUuid => [FSing (ES TString)]
  | KTime => [FSing (ES TSInt32)]
  | KDate => [FSing (ES TSInt32); FSing (ES TSInt32); FSing (ES TSInt32)]
  | KDateTime => [FSing (EM (index KDate)); FSing (EM (index KTime))]
  | KSize => [FSing (ES TSInt32); FSing (ES TSInt32)]
  | KSizeF => [FSing (ES TDouble); FSing (ES TDouble)]
  | KPoint => [FSing (ES TSInt32); FSing (ES TSInt32)]
  | KPointF => [FSing (ES TDouble); FSing (ES TDouble)]
  | KRect => [FSing (EM (index KPoint)); FSing (EM (index KSize))]
  | KRectF => [FSing (EM (index KPointF)); FSing (EM (index KSizeF))]
  | KPolygon => [FRep (EM (index KPoint))]
  | KPolygonF => [FRep (EM (index KPointF))]
  | KColor => [FSing (ES TUInt32)]
  | KMatrix4x4 => repeat (FSing (ES TFloat)) 16
  | KVector2D => repeat (FSing (ES TFloat)) 2
  | KVector3D => repeat (FSing (ES TFloat)) 3
  | KVector4D => repeat (FSing (ES TFloat)) 4
  | KTransform => repeat (FSing (ES TDouble)) 9
  | KQuaternion => [FSing (ES TFloat); FSing (EM (index KVector3D))]
  | KImage => [FSing (ES TBytes); FSing (ES TString)]
  end.

Fixpoint number_from (n : Z) (l : list fty) : list field :=
  match l with [] => [] | ty :: l' => mkField n ty :: number_from (n + 1) l' end.

(** The message types of the library, followed by a message of the user whose fields have the numbers
    and Qt types [fields].  [order] is the order in which fields are sent, see Values.v. *)
Definition qt_schema (order : nat -> list nat) (fields : list (Z * kind)) : schema :=
  map (fun k => mkMsg (number_from 1 (field_types k)) (order (index k))) all_kinds
  ++ [ mkMsg (map (fun p => mkField (fst p) (FSing (EM (index (snd p))))) fields) (order 22%nat) ].
Definition user_message : nat := 22%nat.

(** * Conversions *)

Section Convert.
  Variables Url Image : Type.
  (** QUrl::url and QUrl::QUrl(QString). *)
  Variable url_string : Url -> list Z.
  Variable url_parse : list Z -> Url.
  (** QImage::save to a buffer in PNG format and QImage::fromData with a format. *)
  Variable png_save : Image -> list Z.
  Variable image_load : list Z -> list Z -> Image.
  (** QColor::toRgb of other colours: alpha, red, green, blue. *)
  Variable to_rgb : Z -> Z * Z * Z * Z -> Z * Z * Z * Z.

  (** Values of the Qt types.  QRect: left, top, right, bottom; QMatrix4x4: the 16 floats in column
      order; floats and doubles are bit patterns; QQuaternion: scalar, x, y, z. *)
  Inductive qtval : Type :=
  | QUrl (u : Url)
  | QChar (c : Z)
  | QUuid (d1 d2 d3 : Z) (d4 : list Z)
  | QTime (mds : Z)
  | QDate (jd : Z)
  | QDateTime (spec : timespec) (jd mds : Z)
  | QSize (w h : Z)
  | QSizeF (w h : Z)
  | QPoint (x y : Z)
  | QPointF (x y : Z)
  | QRect (x1 y1 x2 y2 : Z)
  | QRectF (x y w h : Z)
  | QPolygon (points : list (Z * Z))
  | QPolygonF (points : list (Z * Z))
  | QColor (spec : colorspec) (alpha red green blue : Z)
  | QMatrix4x4 (data : list Z)
  | QVector2D (x y : Z)
  | QVector3D (x y z : Z)
  | QVector4D (x y z w : Z)
  | QTransform (m11 m12 m13 m21 m22 m23 m31 m32 m33 : Z)
  | QQuaternion (scalar x y z : Z)
  | QImage (i : Image).

  Definition kind_of (v : qtval) : kind :=
    match v with
    | QUrl _ => KUrl | QChar _ => KChar | QUuid _ _ _ _ => KUuid | QTime _ => KTime | QDate _ => KDate
    | QDateTime _ _ _ => KDateTime | QSize _ _ => KSize | QSizeF _ _ => KSizeF | QPoint _ _ => KPoint
    | QPointF _ _ => KPointF | QRect _ _ _ _ => KRect | QRectF _ _ _ _ => KRectF
    | QPolygon _ => KPolygon | QPolygonF _ => KPolygonF | QColor _ _ _ _ _ => KColor
    | QMatrix4x4 _ => KMatrix4x4 | QVector2D _ _ => KVector2D | QVector3D _ _ _ => KVector3D
    | QVector4D _ _ _ _ => KVector4D | QTransform _ _ _ _ _ _ _ _ _ => KTransform
    | QQuaternion _ _ _ _ => KQuaternion | QImage _ => KImage
    end.

  Definition num (z : Z) : value := VScalar (SNum z).
  Definition text (bs : list Z) : value := VScalar (SStr false bs).

  (** QColor::rgba: 8 bits per channel. *)
  Definition rgba (spec : colorspec) (alpha red green blue : Z) : Z :=
    let pack (c : Z * Z * Z * Z) :=
      let '(a, r, g, b) := c in
      (a / 256) * 2 ^ 24 + (r / 256) * 2 ^ 16 + (g / 256) * 2 ^ 8 + b / 256 in
    match spec with
    | OtherSpec n => pack (to_rgb n (alpha, red, green, blue))
    | _ => pack (alpha, red, green, blue)
    end.

  (** QColor::fromRgba: the channels times 0x101. *)
  Definition fromRgba (c : Z) : qtval :=
    QColor Rgb ((c / 2 ^ 24) mod 256 * 257) ((c / 2 ^ 16) mod 256 * 257) ((c / 2 ^ 8) mod 256 * 257)
      (c mod 256 * 257).

  (** The sixteen arguments of the constructor, in row order, qtprotobufqttypes.cpp 215-218. *)
  Definition matrix_rows (data : list Z) : list Z :=
    map (fun i => nth i data 0) [0; 4; 8; 12; 1; 5; 9; 13; 2; 6; 10; 14; 3; 7; 11; 15]%nat.
  (** QMatrix4x4::QMatrix4x4(m11, m12, ..., m44) stores its arguments by columns. *)
  Definition matrix_columns (rows : list Z) : list Z :=
    map (fun i => nth i rows 0) [0; 4; 8; 12; 1; 5; 9; 13; 2; 6; 10; 14; 3; 7; 11; 15]%nat.

  (** qtprotobufqttypes.cpp 63-276, convert from a Qt type to its message.  QRect::size computes
      right - left + 1 and bottom - top + 1 as int. *)
  Definition to_message (v : qtval) : res (list value) :=
    match v with
    | QUrl u => Ok [text (url_string u)]
    | QChar c => Ok [text [c / 256; c mod 256]]
    | QUuid d1 d2 d3 d4 => Ok [text (uuid_string d1 d2 d3 d4)]
    | QTime mds => Ok [num (msecsSinceStartOfDay mds)]
    | QDate jd => let '(y, m, d) := date_parts jd in Ok [num y; num m; num d]
    | QDateTime _ jd mds =>
        let '(y, m, d) := date_parts jd in
        Ok [VMsg [num y; num m; num d]; VMsg [num (msecsSinceStartOfDay mds)]]
    | QSize w h => Ok [num w; num h]
    | QSizeF w h => Ok [num w; num h]
    | QPoint x y => Ok [num x; num y]
    | QPointF x y => Ok [num x; num y]
    | QRect x1 y1 x2 y2 =>
        dx <- int_op (x2 - x1) ;; w <- int_op (dx + 1) ;;
        dy <- int_op (y2 - y1) ;; h <- int_op (dy + 1) ;;
        Ok [VMsg [num x1; num y1]; VMsg [num w; num h]]
    | QRectF x y w h => Ok [VMsg [num x; num y]; VMsg [num w; num h]]
    | QPolygon l => Ok [VList (map (fun p => VMsg [num (fst p); num (snd p)]) l)]
    | QPolygonF l => Ok [VList (map (fun p => VMsg [num (fst p); num (snd p)]) l)]
    | QColor s a r g b => Ok [num (rgba s a r g b)]
    | QMatrix4x4 data => Ok (map num (matrix_rows data))
    | QVector2D x y => Ok [num x; num y]
    | QVector3D x y z => Ok [num x; num y; num z]
    | QVector4D x y z w => Ok [num x; num y; num z; num w]
    | QTransform m11 m12 m13 m21 m22 m23 m31 m32 m33 =>
        Ok [num m11; num m12; num m13; num m21; num m22; num m23; num m31; num m32; num m33]
    | QQuaternion s x y z => Ok [num s; VMsg [num x; num y; num z]]
    | QImage i => Ok [text (png_save i); text [80; 78; 71]]
    end.

  (** Getters of the message classes: number, text, nested message, list. *)
  Definition number_at (i : nat) (fs : list value) : Z := num_of (scalar_of (nth i fs VNull)).
  Definition text_at (i : nat) (fs : list value) : list Z := blob_of (scalar_of (nth i fs VNull)).
  Definition nested_at (i : nat) (k : kind) (fs : list value) : list value :=
    match nth i fs VNull with
    | VMsg gs => gs
    | _ => map default_field (field_types k)
    end.

  (** The loops over the points, 173-179 and 189-195: a null pointer is dereferenced. *)
  Fixpoint points_of (l : list value) : res (list (Z * Z)) :=
    match l with
    | [] => Ok []
    | VMsg fs :: l' =>
        ps <- points_of l' ;; Ok ((number_at 0 fs, number_at 1 fs) :: ps)
    | _ :: _ => UB NullDeref
    end.

  (** QDataStream >> QChar: two bytes, most significant first; 0 if there are fewer. *)
  Definition read_char (bs : list Z) : Z :=
    match bs with b1 :: b0 :: _ => b1 * 256 + b0 | _ => 0 end.

  (** qtprotobufqttypes.cpp 63-276, convert from the message to the Qt type.  The constructor of QRect
      computes left + width - 1 and top + height - 1 as int. *)
  Definition of_message (k : kind) (fs : list value) : res qtval :=
    match k with
    | KUrl => Ok (QUrl (url_parse (text_at 0 fs)))
    | KChar => Ok (QChar (read_char (text_at 0 fs)))
    | KUuid => let '(d1, d2, d3, d4) := uuid_parse (text_at 0 fs) in Ok (QUuid d1 d2 d3 d4)
    | KTime => Ok (QTime (fromMSecsSinceStartOfDay (number_at 0 fs)))
    | KDate => Ok (QDate (date_of (number_at 0 fs) (number_at 1 fs) (number_at 2 fs)))
    | KDateTime =>
        let d := nested_at 0 KDate fs in
        let t := nested_at 1 KTime fs in
        let '(spec, jd, mds) := datetime_of (date_of (number_at 0 d) (number_at 1 d) (number_at 2 d))
                                  (fromMSecsSinceStartOfDay (number_at 0 t)) in
        Ok (QDateTime spec jd mds)
    | KSize => Ok (QSize (number_at 0 fs) (number_at 1 fs))
    | KSizeF => Ok (QSizeF (number_at 0 fs) (number_at 1 fs))
    | KPoint => Ok (QPoint (number_at 0 fs) (number_at 1 fs))
    | KPointF => Ok (QPointF (number_at 0 fs) (number_at 1 fs))
    | KRect =>
        let p := nested_at 0 KPoint fs in
        let s := nested_at 1 KSize fs in
        sx <- int_op (number_at 0 p + number_at 0 s) ;; x2 <- int_op (sx - 1) ;;
        sy <- int_op (number_at 1 p + number_at 1 s) ;; y2 <- int_op (sy - 1) ;;
        Ok (QRect (number_at 0 p) (number_at 1 p) x2 y2)
    | KRectF =>
        let p := nested_at 0 KPointF fs in
        let s := nested_at 1 KSizeF fs in
        Ok (QRectF (number_at 0 p) (number_at 1 p) (number_at 0 s) (number_at 1 s))
    | KPolygon => ps <- points_of (list_of (nth 0 fs VNull)) ;; Ok (QPolygon ps)
    | KPolygonF => ps <- points_of (list_of (nth 0 fs VNull)) ;; Ok (QPolygonF ps)
    | KColor => Ok (fromRgba (number_at 0 fs))
    | KMatrix4x4 => Ok (QMatrix4x4 (matrix_columns (map (fun i => number_at i fs) (seq 0 16))))
    | KVector2D => Ok (QVector2D (number_at 0 fs) (number_at 1 fs))
    | KVector3D => Ok (QVector3D (number_at 0 fs) (number_at 1 fs) (number_at 2 fs))
    | KVector4D => Ok (QVector4D (number_at 0 fs) (number_at 1 fs) (number_at 2 fs) (number_at 3 fs))
    | KTransform =>
        Ok (QTransform (number_at 0 fs) (number_at 1 fs) (number_at 2 fs)
                       (number_at 3 fs) (number_at 4 fs) (number_at 5 fs)
                       (number_at 6 fs) (number_at 7 fs) (number_at 8 fs))
    | KQuaternion =>
        let v := nested_at 1 KVector3D fs in
        Ok (QQuaternion (number_at 0 fs) (number_at 0 v) (number_at 1 v) (number_at 2 v))
    | KImage => Ok (QImage (image_load (text_at 0 fs) (text_at 1 fs)))
    end.

  (** * Messages with fields of Qt types *)

  (** registerQtTypeHandler, 281-284, for every field of the message, in sending order
      (qprotobufserializer.cpp 81-97): the value is converted and sent as nested message,
      whatever it is. *)
  Definition qt_serialize (fuel : nat) (order : nat -> list nat) (fields : list (Z * kind))
    (vs : list qtval) : res (list Z) :=
    concat_res (map (fun i =>
      match nth_error fields i, nth_error vs i with
      | Some (number, k), Some v =>
          fs <- to_message v ;;
          serializeObject (serializeMessage fuel (qt_schema order fields)) number (index k) fs
      | _, _ => Ok []
      end) (order user_message)).

  (** Qt's operator== *)
  Variable qt_eq : qtval -> qtval -> bool.

  Fixpoint set_nth (i : nat) (v : qtval) (l : list qtval) : list qtval :=
    match l, i with
    | [], _ => []
    | _ :: l', O => v :: l'
    | x :: l', S i' => x :: set_nth i' v l'
    end.

  (** The setter of a field, templates.cpp 230-235. *)
  Definition set_field (i : nat) (v : qtval) (vs : list qtval) : list qtval :=
    match nth_error vs i with
    | Some old => if qt_eq old v then vs else set_nth i v vs
    | None => vs
    end.

  (** qprotobufserializer.cpp 285-325 with registerQtTypeHandler, 285-289: a message object is read
      from the input, converted, and the setter is called. *)
  Definition qt_property (fuel : nat) (order : nat -> list nat) (fields : list (Z * kind))
    (data : list Z) (it : iter) (vs : list qtval) : res (list qtval * iter) :=
    let sch := qt_schema order fields in
    '(fieldNumber, wireType, valid, it1) <- decodeHeader data it ;;
    if negb valid then Throw InvalidArgument else
    match find_field (msg_at sch user_message) fieldNumber with
    | None =>
        it2 <- skipSerializedFieldBytes false data it1 wireType ;;
        Ok (vs, it2)
    | Some i =>
        let k := snd (nth i fields (0, KUrl)) in
        '(fs, it2) <- deserializeObject false (deserializeMessage fuel false sch) (index k) data it1 ;;
        v <- of_message k fs ;;
        Ok (set_field i v vs, it2)
    end.

  (** qprotobufserializer.cpp 99-104: deserializeMessage. *)
  Fixpoint qt_deserialize (fuel : nat) (order : nat -> list nat) (fields : list (Z * kind))
    (data : list Z) (it : iter) (vs : list qtval) : res (list qtval) :=
    match fuel with
    | O => OutOfFuel
    | S fuel' =>
        if it_pos it =? Zlen data then Ok vs else
        '(vs', it') <- qt_property fuel' order fields data it vs ;;
        qt_deserialize fuel' order fields data it' vs'
    end.
End Convert.

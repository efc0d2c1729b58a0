(** Words used to state that programs with Qt types from the same .proto files understand each other's JSON texts. *)

From Coq Require Import String ZArith List Bool Arith.
From Verif Require Import JsonSpec GenModel GenSpec GenTypesModel GenTypesSpec LinkSpec LinkQtSpec LinkJsonSpec.
From Verif Require QtTypesModel.
Import ListNotations.

(** The Qt types of the library and the members that JSON objects for them have: the fields of the messages with these names in QtCore.proto and QtGui.proto. *)
Definition library_members : list (string * list string) :=
  [ ("QUrl", ["url"]); ("QChar", ["character"]); ("QUuid", ["uuid"]); ("QTime", ["msec"]); ("QDate", ["year"; "month"; "day"]); ("QDateTime", ["date"; "time"]);
    ("QSize", ["width"; "height"]); ("QSizeF", ["width"; "height"]); ("QPoint", ["x"; "y"]); ("QPointF", ["x"; "y"]); ("QRect", ["position"; "size"]);
    ("QRectF", ["position"; "size"]); ("QPolygon", ["points"]); ("QPolygonF", ["points"]); ("QColor", ["rgba"]);
    ("QMatrix4x4", ["m11"; "m12"; "m13"; "m14"; "m21"; "m22"; "m23"; "m24"; "m31"; "m32"; "m33"; "m34"; "m41"; "m42"; "m43"; "m44"]);
    ("QVector2D", ["xpos"; "ypos"]); ("QVector3D", ["xpos"; "ypos"; "zpos"]); ("QVector4D", ["xpos"; "ypos"; "zpos"; "wpos"]);
    ("QTransform", ["m11"; "m12"; "m13"; "m21"; "m22"; "m23"; "m31"; "m32"; "m33"]); ("QQuaternion", ["scalar"; "vector"]); ("QImage", ["data"; "format"]) ]%string.

(** The names in JSON texts are those of the files, where the messages of the library are listed before those of the files; enumerators get a capital
    letter.  The fields of the library's messages have the names above. *)
Definition names_said (json_name : nat -> Z -> list Z) (ps : list proto) (nm : names) : Prop :=
  (forall q members k i name, In (q, members) library_members -> In (q, k) qt_names -> nth_error members i = Some name ->
     n_json nm (QtTypesModel.index k) i = bytes_of name) /\
  forall k c i f, nth_error (classes_of ps) k = Some c -> nth_error (g_fields c) i = Some f ->
    n_json nm (List.length qt_names + k) i = json_name (g_id c) (m_number f)
    /\ forall x, In x (enums_of ps) -> element_of (m_shape f) = Enu (e_id x) ->
         n_enum nm (List.length qt_names + k) i = map (fun v => (bytes_of (first_capital (fst v)), snd v)) (e_values x).

(** Enumerators have values of 32 bits, which protoc guarantees. *)
Definition enums_small (ps : list proto) : Prop :=
  Forall (fun x => Forall (fun v => (- 2 ^ 31 <= snd v < 2 ^ 31)%Z) (e_values x)) (enums_of ps).

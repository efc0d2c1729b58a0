(** Words used to state that programs with fields of Qt types from the same .proto files understand each other. *)

From Coq Require Import String ZArith List Bool Arith Permutation.
From Verif Require Values.
From Verif Require Import GenModel GenSpec GenTypesModel GenTypesSpec LinkModel LinkSpec LinkQtModel.
From Verif Require QtTypesModel.
Import ListNotations.

(** The Qt types of the Qt types library. *)
Definition qt_names : list (string * QtTypesModel.kind) :=
  [ ("QUrl", QtTypesModel.KUrl); ("QChar", QtTypesModel.KChar); ("QUuid", QtTypesModel.KUuid); ("QTime", QtTypesModel.KTime);
    ("QDate", QtTypesModel.KDate); ("QDateTime", QtTypesModel.KDateTime); ("QSize", QtTypesModel.KSize); ("QSizeF", QtTypesModel.KSizeF);
    ("QPoint", QtTypesModel.KPoint); ("QPointF", QtTypesModel.KPointF); ("QRect", QtTypesModel.KRect); ("QRectF", QtTypesModel.KRectF);
    ("QPolygon", QtTypesModel.KPolygon); ("QPolygonF", QtTypesModel.KPolygonF); ("QColor", QtTypesModel.KColor);
    ("QMatrix4x4", QtTypesModel.KMatrix4x4); ("QVector2D", QtTypesModel.KVector2D); ("QVector3D", QtTypesModel.KVector3D);
    ("QVector4D", QtTypesModel.KVector4D); ("QTransform", QtTypesModel.KTransform); ("QQuaternion", QtTypesModel.KQuaternion);
    ("QImage", QtTypesModel.KImage) ]%string.

(** The Qt types an application registers are those of the Qt types library, or some of them. *)
Definition of_library (qt : list string) : Prop := forall q, In q qt -> exists k, In (q, k) qt_names.

(** The tables of the messages of the library are traversed in any order. *)
Definition any_order (library_order : nat -> list nat) : Prop :=
  forall k, Permutation (library_order (QtTypesModel.index k)) (seq 0 (List.length (QtTypesModel.field_types k))).

(** Messages whose fields can all be serialized (see C62), and that have no field called like a repeated message field with "data"
    appended (see C28).  Fields may be of Qt types. *)
Definition usable_with_qt (ps : list proto) (qt : list string) (qml : bool) : Prop :=
  Forall (fun c => names_fine qml c /\ Forall (fun f => shape_supported ps qt (m_shape f)) (g_fields c)) (classes_of ps).

(** The same type, if [n] other messages are listed first. *)
Definition element_behind (n : nat) (t t' : Values.elty) : Prop :=
  match t with Values.EM k => t' = Values.EM (n + k) | Values.ES _ => t' = t end.
Definition behind (n : nat) (t t' : Values.fty) : Prop :=
  match t, t' with
  | Values.FSing e, Values.FSing e' | Values.FRep e, Values.FRep e' => element_behind n e e'
  | Values.FMap k e, Values.FMap k' e' => k' = k /\ element_behind n e e'
  | _, _ => False
  end.

(** What the files say about a field, in a schema that lists the messages of the library before those of the files: its number and type.
    A field of a Qt type is known as such and has the type of the message of the same name. *)
Definition declared_field (cs : list message) (f : mfield) (x : Values.field) (qt : option QtTypesModel.kind) : Prop :=
  Values.f_num x = m_number f
  /\ match m_shape f with
     | One (Qt q) => exists k, In (q, k) qt_names /\ qt = Some k /\ Values.f_ty x = Values.FSing (Values.EM (QtTypesModel.index k))
     | s => qt = None /\ exists t, same_shape cs s t /\ behind (List.length qt_names) t (Values.f_ty x)
     end.
Definition declared (cs : list message) (sch : Values.schema) (qt_field : nat -> nat -> option QtTypesModel.kind) : Prop :=
  List.length sch = List.length qt_names + List.length cs
  /\ forall k c, nth_error cs k = Some c ->
       List.length (Values.md_fields (Values.msg_at sch (List.length qt_names + k))) = List.length (g_fields c)
       /\ forall i f, nth_error (g_fields c) i = Some f ->
            declared_field cs f (Values.field_at sch (List.length qt_names + k) i) (qt_field (List.length qt_names + k) i).

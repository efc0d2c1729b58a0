(** A program whose messages have fields of Qt types: the classes that the generator writes for them, the Qt types library
    (src/qttypes) and the serializer.  This ties the models of the generator (LinkModel) to that of messages with Qt types
    (QtFieldsModel). *)

From Coq Require Import String ZArith List Bool Arith.
From Verif Require Values.
From Verif Require Import GenModel GenTypesModel GenBodyModel LinkModel.
From Verif Require QtTypesModel.
Import ListNotations.

(** The Qt types for which registerQtTypeHandler is called, qtprotobufqttypes.cpp 297-320, and their names, which are those of the
    messages of QtCore.proto 4-72 and QtGui.proto 4-76 (generatorcommon.cpp 70-72). *)
Definition type_name (k : QtTypesModel.kind) : string :=
  match k with
  | QtTypesModel.KUrl => "QUrl" | QtTypesModel.KChar => "QChar" | QtTypesModel.KUuid => "QUuid"
  | QtTypesModel.KTime => "QTime" | QtTypesModel.KDate => "QDate" | QtTypesModel.KDateTime => "QDateTime"
  | QtTypesModel.KSize => "QSize" | QtTypesModel.KSizeF => "QSizeF" | QtTypesModel.KPoint => "QPoint"
  | QtTypesModel.KPointF => "QPointF" | QtTypesModel.KRect => "QRect" | QtTypesModel.KRectF => "QRectF"
  | QtTypesModel.KPolygon => "QPolygon" | QtTypesModel.KPolygonF => "QPolygonF" | QtTypesModel.KColor => "QColor"
  | QtTypesModel.KMatrix4x4 => "QMatrix4x4" | QtTypesModel.KVector2D => "QVector2D" | QtTypesModel.KVector3D => "QVector3D"
  | QtTypesModel.KVector4D => "QVector4D" | QtTypesModel.KTransform => "QTransform"
  | QtTypesModel.KQuaternion => "QQuaternion" | QtTypesModel.KImage => "QImage"
  end.
Definition kind_named (name : string) : option QtTypesModel.kind :=
  find (fun k => String.eqb (type_name k) name) QtTypesModel.all_kinds.

(** The message types of a program: first those of the library, then its own. *)
Definition library_size : nat := length QtTypesModel.all_kinds.
Definition shifted_element (t : Values.elty) : Values.elty :=
  match t with Values.EM k => Values.EM (library_size + k) | Values.ES s => Values.ES s end.
Definition shifted (t : Values.fty) : Values.fty :=
  match t with
  | Values.FSing e => Values.FSing (shifted_element e)
  | Values.FRep e => Values.FRep (shifted_element e)
  | Values.FMap k e => Values.FMap k (shifted_element e)
  end.

(** The branch of QtFieldsModel.mixed_property and mixed_field that handlers stand for: that of a Qt type, qtprotobufqttypes.cpp
    279-294, which reads and writes the message of this type in the library, or as in LinkModel.handled_field. *)
Definition handled_with_qt (p : program) (hs : list handler) : option (Values.fty * option QtTypesModel.kind) :=
  match hs with
  | [HQt name] => option_map (fun k => (Values.FSing (Values.EM (QtTypesModel.index k)), Some k)) (kind_named name)
  | _ => option_map (fun t => (shifted t, None)) (handled_field p hs)
  end.

(** The field whose value a property holds and how it is serialized, qprotobufserializer.cpp 258-283, 311-322; see LinkModel.accessed. *)
Definition accessed_with_qt (p : program) (c : message) (x : property) : option (nat * (Values.fty * option QtTypesModel.kind)) :=
  match p_access x with
  | Stored =>
      match nth_error (g_fields c) (p_field x) with
      | Some f =>
          match field_handlers (pr_registered p) (m_shape f) with
          | Some hs => option_map (pair (p_field x)) (handled_with_qt p hs)
          | None => None
          end
      | None => None
      end
  | Alias | QmlList => None
  end.

(** What deserialization does with a field number, qprotobufserializer.cpp 297-324. *)
Definition read_with_qt (p : program) (c : message) (number : Z) : option (nat * (Values.fty * option QtTypesModel.kind)) :=
  match deserialized_property (pr_qml p) (map descriptor_field (g_fields c)) number with
  | Some x => accessed_with_qt p c x
  | None => None
  end.

(** What serialization does with an entry of the table, qprotobufserializer.cpp 84-93. *)
Definition written_with_qt (p : program) (c : message) (number : Z) : option (nat * (Values.fty * option QtTypesModel.kind)) :=
  match serialized_property (pr_qml p) (map descriptor_field (g_fields c)) number with
  | Some x => accessed_with_qt p c x
  | None => None
  end.

(** * Running a program

    The model of messages with Qt types finds the same as the program, if it runs with the schema [sch] and the fields [qt_field] of Qt types: for the
    messages of the library what QtCore.proto and QtGui.proto say, with tables that are traversed in the order [library_order];
    for the class at position [k] of the program, for each entry of the table the number, the field, its type and the Qt type if it
    has one, for other numbers nothing, and the entries in the same order.  No other fields are of Qt types; those of the
    library's own messages are not, generatorcommon.cpp 272. *)
Definition found (sch : Values.schema) (qt_field : nat -> nat -> option QtTypesModel.kind) (m : nat) (number : Z)
  : option (nat * (Values.fty * option QtTypesModel.kind)) :=
  option_map (fun i => (i, (Values.f_ty (Values.field_at sch m i), qt_field m i))) (Values.find_field (Values.msg_at sch m) number).

Definition runs_with_qt (p : program) (library_order : nat -> list nat) (sch : Values.schema)
  (qt_field : nat -> nat -> option QtTypesModel.kind) : Prop :=
  length sch = library_size + length (program_classes p)
  /\ (forall k, Values.md_fields (Values.msg_at sch (QtTypesModel.index k)) = QtTypesModel.number_from 1 (QtTypesModel.field_types k)
        /\ Values.md_order (Values.msg_at sch (QtTypesModel.index k)) = library_order (QtTypesModel.index k))
  /\ (forall k c, nth_error (program_classes p) k = Some c ->
        map Values.f_num (Values.md_fields (Values.msg_at sch (library_size + k)))
          = map fst (fields_ordering 0 (map descriptor_field (g_fields c)))
        /\ Values.md_order (Values.msg_at sch (library_size + k)) = pr_order p k
        /\ forall n, read_with_qt p c n = found sch qt_field (library_size + k) n
                  /\ written_with_qt p c n = found sch qt_field (library_size + k) n)
  /\ (forall m i, qt_field m i <> None -> library_size <= m < length sch /\ i < length (Values.md_fields (Values.msg_at sch m))).

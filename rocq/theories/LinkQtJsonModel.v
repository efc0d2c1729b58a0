(** A program whose messages have fields of Qt types and that uses the JSON serializer: how it finds its way through the generated classes by the names
    in their tables.  This ties the models of the generator (LinkJsonModel, LinkQtModel) to that of the JSON serializer on messages with Qt
    types (QtJsonModel). *)

From Coq Require Import String ZArith List Bool Arith.
From Verif Require Values JsonReadModel.
From Verif Require Import JsonSpec GenModel GenTypesModel GenBodyModel LinkModel LinkQtModel LinkJsonModel.
From Verif Require QtTypesModel.
Import ListNotations.
Open Scope nat_scope.

(** The names of the fields of the messages of the library in QtCore.proto 5-71 and QtGui.proto 5-75.  They have no underscores, so that protoc makes the
    same JSON names. *)
Definition library_json (k : QtTypesModel.kind) : list string :=
  match k with
  | QtTypesModel.KUrl => ["url"] | QtTypesModel.KChar => ["character"] | QtTypesModel.KUuid => ["uuid"]
  | QtTypesModel.KTime => ["msec"] | QtTypesModel.KDate => ["year"; "month"; "day"] | QtTypesModel.KDateTime => ["date"; "time"]
  | QtTypesModel.KSize | QtTypesModel.KSizeF => ["width"; "height"]
  | QtTypesModel.KPoint | QtTypesModel.KPointF => ["x"; "y"]
  | QtTypesModel.KRect | QtTypesModel.KRectF => ["position"; "size"]
  | QtTypesModel.KPolygon | QtTypesModel.KPolygonF => ["points"]
  | QtTypesModel.KColor => ["rgba"]
  | QtTypesModel.KMatrix4x4 =>
      ["m11"; "m12"; "m13"; "m14"; "m21"; "m22"; "m23"; "m24"; "m31"; "m32"; "m33"; "m34"; "m41"; "m42"; "m43"; "m44"]
  | QtTypesModel.KVector2D => ["xpos"; "ypos"] | QtTypesModel.KVector3D => ["xpos"; "ypos"; "zpos"]
  | QtTypesModel.KVector4D => ["xpos"; "ypos"; "zpos"; "wpos"]
  | QtTypesModel.KTransform => ["m11"; "m12"; "m13"; "m21"; "m22"; "m23"; "m31"; "m32"; "m33"]
  | QtTypesModel.KQuaternion => ["scalar"; "vector"]
  | QtTypesModel.KImage => ["data"; "format"]
  end%string.

(** The field whose value a property holds and how the JSON serializer treats it, qprotobufjsonserializer.cpp 157-174, 314-333: as
    [LinkJsonModel.json_accessed]; for the handlers of Qt types, which both serializers use, as [LinkQtModel.handled_with_qt]. *)
Definition json_accessed_with_qt (p : program) (c : message) (x : property) : option (nat * (Values.fty * option QtTypesModel.kind)) :=
  match p_access x with
  | Stored =>
      match nth_error (g_fields c) (p_field x) with
      | Some f =>
          match json_field_handlers (pr_registered p) (m_shape f) with
          | Some hs => option_map (pair (p_field x)) (handled_with_qt p hs)
          | None => None
          end
      | None => None
      end
  | Alias | QmlList => None
  end.

Section Names.
  (** FieldDescriptor::json_name() of the field with a number, of a message. *)
  Variable json_name : nat -> Z -> list Z.

  (** What the writer does with the entry of the table for a field, qprotobufjsonserializer.cpp 180-196; as [LinkJsonModel.json_written]. *)
  Definition json_written_with_qt (p : program) (c : message) (f : mfield) : option (list Z * (nat * (Values.fty * option QtTypesModel.kind))) :=
    match table_name (json_name (g_id c) (m_number f)), serialized_property (pr_qml p) (map descriptor_field (g_fields c)) (m_number f) with
    | Some name, Some x => option_map (pair name) (json_accessed_with_qt p c x)
    | _, _ => None
    end.

  (** What the reader does with the name of a member, qprotobufjsonserializer.cpp 338-356; as [LinkJsonModel.json_read]. *)
  Definition json_read_with_qt (p : program) (c : message) (order : list nat) (name : list Z) : option (nat * (Values.fty * option QtTypesModel.kind)) :=
    match find_name json_name c order name with
    | Some index =>
        match meta_property (class_properties (pr_qml p) (map descriptor_field (g_fields c))) index with
        | Some x => json_accessed_with_qt p c x
        | None => None
        end
    | None => None
    end.

  (** * Running a program

      The model of the JSON serializer on messages with Qt types finds the same as the program, if it runs with the schema [sch], the names [nm] and the
      fields [qt_field] of Qt types; see [LinkQtModel.runs_with_qt] and [LinkJsonModel.json_runs_as]. *)
  Definition json_found_with_qt (sch : Values.schema) (nm : names) (qt_field : nat -> nat -> option QtTypesModel.kind) (m : nat) (name : list Z)
    : option (nat * (Values.fty * option QtTypesModel.kind)) :=
    option_map (fun i => (i, (Values.f_ty (Values.field_at sch m i), qt_field m i)))
               (find (fun i => JsonReadModel.same_bytes (n_json nm m i) name) (Values.md_order (Values.msg_at sch m))).

  Definition json_runs_with_qt (p : program) (library_order : nat -> list nat) (sch : Values.schema) (nm : names)
    (qt_field : nat -> nat -> option QtTypesModel.kind) : Prop :=
    length sch = library_size + length (program_classes p)
    /\ (forall k, Values.md_fields (Values.msg_at sch (QtTypesModel.index k)) = QtTypesModel.number_from 1 (QtTypesModel.field_types k)
          /\ Values.md_order (Values.msg_at sch (QtTypesModel.index k)) = library_order (QtTypesModel.index k)
          /\ forall i, n_json nm (QtTypesModel.index k) i = nth i (map bytes_of (library_json k)) [] /\ n_enum nm (QtTypesModel.index k) i = [])
    /\ (forall m i, library_size <= m -> (forall c, nth_error (program_classes p) (m - library_size) = Some c -> nth_error (g_fields c) i = None) ->
          n_json nm m i = [] /\ n_enum nm m i = [])
    /\ (forall k c, nth_error (program_classes p) k = Some c ->
          map Values.f_num (Values.md_fields (Values.msg_at sch (library_size + k)))
            = map fst (fields_ordering 0 (map descriptor_field (g_fields c)))
          /\ Values.md_order (Values.msg_at sch (library_size + k)) = pr_order p k
          /\ (forall i f, nth_error (g_fields c) i = Some f ->
                json_written_with_qt p c f
                = Some (n_json nm (library_size + k) i, (i, (Values.f_ty (Values.field_at sch (library_size + k) i), qt_field (library_size + k) i)))
                /\ n_enum nm (library_size + k) i = json_enumerators p f)
          /\ forall name, json_read_with_qt p c (pr_order p k) name = json_found_with_qt sch nm qt_field (library_size + k) name)
    /\ (forall m i, qt_field m i <> None -> library_size <= m < length sch /\ i < length (Values.md_fields (Values.msg_at sch m))).
End Names.

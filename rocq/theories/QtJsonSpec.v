(** Specification of JSON texts for messages that hold values of Qt types.  Which messages of a program without the Qt
    types have the same values ([stands_for]) and which values can be sent ([sendable], [alike]) is said in QtFieldsSpec. *)

From Coq Require Import ZArith List Bool.
From Verif Require Import Base Values MessageSpec QtTypesModel QtTypesSpec QtFieldsModel QtFieldsSpec.
Import ListNotations.
Open Scope Z_scope.

Section Spec.
  Context {Url Image : Type}.
  Local Notation qtval := (qtval Url Image).
  Local Notation mvalue := (mvalue Url Image).
  Variable url_parse : list Z -> Url.
  Variable image_load : list Z -> list Z -> Image.
  Variable qt_eq : qtval -> qtval -> bool.
  Variable new_qt : kind -> qtval.
  Variable sch : schema.
  Variable qt_field : nat -> nat -> option kind.

  (** [json_read_as m r p]: the message [r], read with Qt types, has the values of the message [p], read without them.
      A value of a Qt type is the one the message of the library stands for, and if there is none, as for null, the
      default one; or Qt's comparison takes it for that one. *)
  Inductive json_read_as : nat -> list mvalue -> list value -> Prop :=
  | json_read_intro m r p :
      length r = length (md_fields (msg_at sch m)) -> length p = length r ->
      (forall i, (i < length r)%nat -> json_read_member m i (nth i r MNull) (nth i p VNull)) ->
      json_read_as m r p
  with json_read_member : nat -> nat -> mvalue -> value -> Prop :=
  | json_read_qt m i k x w fs :
      qt_field m i = Some k -> of_message Url Image url_parse image_load k fs = Ok w ->
      x = w \/ qt_eq x w = true -> json_read_member m i (MQt x) (VMsg fs)
  | json_read_null_qt m i k x :
      qt_field m i = Some k -> x = new_qt k \/ qt_eq x (new_qt k) = true -> json_read_member m i (MQt x) VNull
  | json_read_plain m i v :
      qt_field m i = None -> without_messages (f_ty (field_at sch m i)) -> json_read_member m i (MPlain v) v
  | json_read_unset m i m' :
      qt_field m i = None -> f_ty (field_at sch m i) = FSing (EM m') -> json_read_member m i MNull VNull
  | json_read_message m i m' r p :
      qt_field m i = None -> f_ty (field_at sch m i) = FSing (EM m') -> json_read_as m' r p ->
      json_read_member m i (MMsg r) (VMsg p)
  | json_read_list m i m' l l' :
      qt_field m i = None -> f_ty (field_at sch m i) = FRep (EM m') ->
      Forall2 (fun x y => exists r p, x = MMsg r /\ y = VMsg p /\ json_read_as m' r p) l l' ->
      json_read_member m i (MList l) (VList l')
  | json_read_map m i k m' l l' :
      qt_field m i = None -> f_ty (field_at sch m i) = FMap k (EM m') ->
      Forall2 (fun x y => fst x = fst y /\ (snd x = MNull /\ snd y = VNull \/
                 exists r p, snd x = MMsg r /\ snd y = VMsg p /\ json_read_as m' r p)) l l' ->
      json_read_member m i (MMap l) (VMap l').
End Spec.

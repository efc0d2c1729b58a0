(** Specification of messages that hold values of Qt types. *)

From Coq Require Import ZArith List Bool.
From Verif Require Import Base Values WireSpec MessageSpec QtTypesModel QtTypesSpec QtFieldsModel.
Import ListNotations.
Open Scope Z_scope.

(** The schema knows the messages of QtCore.proto and QtGui.proto. *)
Definition has_library (sch : schema) : Prop :=
  forall k, md_fields (msg_at sch (index k)) = number_from 1 (field_types k).

(** Fields of Qt types are singular fields whose type is the message of the library. *)
Definition qt_fields_ok (sch : schema) (qt_field : nat -> nat -> option kind) : Prop :=
  forall m i k, qt_field m i = Some k -> f_ty (field_at sch m i) = FSing (EM (index k)).

(** Fields that hold no messages. *)
Definition without_messages (ty : fty) : Prop :=
  match ty with
  | FSing (ES _) | FRep (ES _) | FMap _ (ES _) => True
  | _ => False
  end.

(** Values of fields that hold no messages. *)
Definition well_typed (ty : fty) (v : value) : Prop :=
  match ty, v with
  | FSing (ES t), VScalar s => scalar_ok t s
  | FRep (ES t), VList l => Forall (fun x => exists s, x = VScalar s /\ scalar_ok t s) l
  | FMap k (ES t), VMap l =>
      keys_sorted k l /\
      Forall (fun p => scalar_ok k (fst p) /\ exists s, snd p = VScalar s /\ scalar_ok t s) l
  | _, _ => False
  end.

(** Keys of a map strictly ascending. *)
Fixpoint ascending {A : Type} (k : sty) (l : list (scalar * A)) : Prop :=
  match l with
  | [] => True
  | (a, _) :: l' => Forall (fun p => key_ltb k a (fst p) = true) l' /\ ascending k l'
  end.

Section Spec.
  Context {Url Image : Type}.
  Local Notation qtval := (qtval Url Image).
  Local Notation mvalue := (mvalue Url Image).
  Variable url_string : Url -> list Z.
  Variable url_parse : list Z -> Url.
  Variable png_save : Image -> list Z.
  Variable image_load : list Z -> list Z -> Image.
  Variable to_rgb : Z -> Z * Z * Z * Z -> Z * Z * Z * Z.
  Variable qt_eq : qtval -> qtval -> bool.
  Variable new_qt : kind -> qtval.
  Variable sch : schema.
  Variable qt_field : nat -> nat -> option kind.
  Local Notation new_object := (new_object Url Image new_qt sch qt_field).

  (** A message of type [m] all of whose members have values of their types, the Qt types values that
      are sent faithfully (QtTypesSpec).  A message field that was not set is created when the message
      is sent; then its members have their default values, to which the same applies. *)
  Inductive sendable : nat -> list mvalue -> Prop :=
  | sendable_intro m obj :
      length obj = length (md_fields (msg_at sch m)) ->
      (forall i, (i < length obj)%nat -> sendable_member m i (nth i obj MNull)) ->
      sendable m obj
  with sendable_member : nat -> nat -> mvalue -> Prop :=
  | sendable_qt m i q :
      qt_field m i = Some (kind_of Url Image q) -> faithful url_string url_parse png_save image_load q ->
      sendable_member m i (MQt q)
  | sendable_plain m i v :
      qt_field m i = None -> without_messages (f_ty (field_at sch m i)) ->
      well_typed (f_ty (field_at sch m i)) v -> sendable_member m i (MPlain v)
  | sendable_message m i m' obj :
      qt_field m i = None -> f_ty (field_at sch m i) = FSing (EM m') -> sendable m' obj ->
      sendable_member m i (MMsg obj)
  | sendable_unset m i m' :
      qt_field m i = None -> f_ty (field_at sch m i) = FSing (EM m') -> sendable m' (new_object m') ->
      sendable_member m i MNull
  | sendable_list m i m' l :
      qt_field m i = None -> f_ty (field_at sch m i) = FRep (EM m') ->
      (forall x, In x l -> x = MNull \/ exists obj, x = MMsg obj /\ sendable m' obj) ->
      sendable_member m i (MList l)
  | sendable_map m i k m' l :
      qt_field m i = None -> f_ty (field_at sch m i) = FMap k (EM m') -> ascending k l ->
      (forall a x, In (a, x) l ->
         scalar_ok k a /\ (x = MNull \/ exists obj, x = MMsg obj /\ sendable m' obj)) ->
      sendable_member m i (MMap l).

  (** Elements that are sent: null pointers are not. *)
  Definition set_elements (l : list mvalue) : list mvalue :=
    filter (fun x => match x with MNull => false | _ => true end) l.
  Definition set_entries (l : list (scalar * mvalue)) : list (scalar * mvalue) :=
    filter (fun p => match snd p with MNull => false | _ => true end) l.

  (** [alike m r obj]: the message [r] that was received has the values of [obj].
      Of a Qt type a value is the same up to the sign of zeros, or Qt's comparison takes it for
      such a value; scalars are the same up to the sign of zeros and null against empty strings. *)
  Inductive alike : nat -> list mvalue -> list mvalue -> Prop :=
  | alike_intro m r obj :
      length r = length (md_fields (msg_at sch m)) ->
      (forall i, (i < length r)%nat -> alike_member m i (nth i r MNull) (nth i obj MNull)) ->
      alike m r obj
  with alike_member : nat -> nat -> mvalue -> mvalue -> Prop :=
  | alike_qt m i x w q :
      same_qt w q -> x = w \/ qt_eq x w = true -> alike_member m i (MQt x) (MQt q)
  | alike_plain m i v v' :
      same_field sch (f_ty (field_at sch m i)) v v' -> alike_member m i (MPlain v) (MPlain v')
  | alike_message m i m' r obj :
      f_ty (field_at sch m i) = FSing (EM m') -> alike m' r obj -> alike_member m i (MMsg r) (MMsg obj)
  | alike_unset m i m' r :
      f_ty (field_at sch m i) = FSing (EM m') -> alike m' r (new_object m') ->
      alike_member m i (MMsg r) MNull
  | alike_list m i m' l l' :
      f_ty (field_at sch m i) = FRep (EM m') ->
      Forall2 (fun x y => exists r obj, x = MMsg r /\ y = MMsg obj /\ alike m' r obj) l (set_elements l') ->
      alike_member m i (MList l) (MList l')
  | alike_map m i k m' l l' :
      f_ty (field_at sch m i) = FMap k (EM m') ->
      Forall2 (fun p q => canon_scalar k (fst p) = canon_scalar k (fst q) /\
                 exists r obj, snd p = MMsg r /\ snd q = MMsg obj /\ alike m' r obj) l (set_entries l') ->
      alike_member m i (MMap l) (MMap l').

  (** [stands_for m obj p]: the message [p] of a program without the Qt types has the values of
      [obj], in the messages of the library. *)
  Inductive stands_for : nat -> list mvalue -> list value -> Prop :=
  | stands_intro m obj p :
      (forall i, (i < length (md_fields (msg_at sch m)))%nat ->
         stands_member m i (nth i obj MNull) (nth i p VNull)) ->
      stands_for m obj p
  with stands_member : nat -> nat -> mvalue -> value -> Prop :=
  | stands_qt m i k q fs :
      qt_field m i = Some k -> to_message Url Image url_string png_save to_rgb q = Ok fs ->
      stands_member m i (MQt q) (VMsg fs)
  | stands_plain m i v :
      qt_field m i = None -> without_messages (f_ty (field_at sch m i)) -> stands_member m i (MPlain v) v
  | stands_message m i m' obj p :
      qt_field m i = None -> f_ty (field_at sch m i) = FSing (EM m') -> stands_for m' obj p ->
      stands_member m i (MMsg obj) (VMsg p)
  | stands_unset m i m' p :
      qt_field m i = None -> f_ty (field_at sch m i) = FSing (EM m') -> stands_for m' (new_object m') p ->
      stands_member m i MNull (VMsg p)
  | stands_list m i m' l l' :
      qt_field m i = None -> f_ty (field_at sch m i) = FRep (EM m') ->
      Forall2 (fun x y => x = MNull /\ y = VNull \/
                 exists obj p, x = MMsg obj /\ y = VMsg p /\ stands_for m' obj p) l l' ->
      stands_member m i (MList l) (VList l')
  | stands_map m i k m' l l' :
      qt_field m i = None -> f_ty (field_at sch m i) = FMap k (EM m') ->
      Forall2 (fun x y => fst x = fst y /\ (snd x = MNull /\ snd y = VNull \/
                 exists obj p, snd x = MMsg obj /\ snd y = VMsg p /\ stands_for m' obj p)) l l' ->
      stands_member m i (MMap l) (VMap l').

  (** [read_as m r p]: the message [r], read with Qt types, has the values of the message [p], read
      without them.  A value of a Qt type is the one the message of the library stands for, or Qt's
      comparison takes it for that one; if there was none the member has its initial value. *)
  Inductive read_as : nat -> list mvalue -> list value -> Prop :=
  | read_intro m r p :
      length r = length (md_fields (msg_at sch m)) -> length p = length r ->
      (forall i, (i < length r)%nat -> read_member m i (nth i r MNull) (nth i p VNull)) ->
      read_as m r p
  with read_member : nat -> nat -> mvalue -> value -> Prop :=
  | read_qt m i k x w fs :
      qt_field m i = Some k -> of_message Url Image url_parse image_load k fs = Ok w ->
      x = w \/ qt_eq x w = true -> read_member m i (MQt x) (VMsg fs)
  | read_new_qt m i k :
      qt_field m i = Some k -> read_member m i (MQt (new_qt k)) VNull
  | read_plain m i v :
      qt_field m i = None -> without_messages (f_ty (field_at sch m i)) -> read_member m i (MPlain v) v
  | read_unset m i m' :
      qt_field m i = None -> f_ty (field_at sch m i) = FSing (EM m') -> read_member m i MNull VNull
  | read_message m i m' r p :
      qt_field m i = None -> f_ty (field_at sch m i) = FSing (EM m') -> read_as m' r p ->
      read_member m i (MMsg r) (VMsg p)
  | read_list m i m' l l' :
      qt_field m i = None -> f_ty (field_at sch m i) = FRep (EM m') ->
      Forall2 (fun x y => exists r p, x = MMsg r /\ y = VMsg p /\ read_as m' r p) l l' ->
      read_member m i (MList l) (VList l')
  | read_map m i k m' l l' :
      qt_field m i = None -> f_ty (field_at sch m i) = FMap k (EM m') ->
      Forall2 (fun x y => fst x = fst y /\ (snd x = MNull /\ snd y = VNull \/
                 exists r p, snd x = MMsg r /\ snd y = VMsg p /\ read_as m' r p)) l l' ->
      read_member m i (MMap l) (VMap l').
End Spec.

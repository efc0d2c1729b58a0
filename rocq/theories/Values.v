(** Message descriptors and message values.

    Descriptors abstract the FieldDescriptor/Descriptor objects the generator
    works on; values abstract the generated classes (one member per field).  *)

From Coq Require Import ZArith List Bool.
From Verif Require Import Base.
Import ListNotations.
Open Scope Z_scope.

(** Scalar field types, src/generator/templates.cpp 401-418 (TypeReflection) plus enums. *)
Inductive sty : Type :=
| TInt32 | TInt64 | TUInt32 | TUInt64 | TSInt32 | TSInt64
| TFixed32 | TFixed64 | TSFixed32 | TSFixed64 | TFloat | TDouble
| TBool | TEnum | TString | TBytes.

(** Element type of a field: a scalar or the message type with a given number. *)
Inductive elty : Type := ES (t : sty) | EM (m : nat).

(** Field types: singular, repeated, map. *)
Inductive fty : Type := FSing (e : elty) | FRep (e : elty) | FMap (k : sty) (v : elty).

Record field : Type := mkField { f_num : Z; f_ty : fty }.

(** A message descriptor: the fields in declaration order, and the order in which the
    hash table propertyOrdering (src/protobuf/qtprotobuftypes.h 78) is
    traversed, as list of field positions. *)
Record msgdesc : Type := mkMsg { md_fields : list field; md_order : list nat }.

(** All message types; [EM m] refers to position [m]. *)
Definition schema : Type := list msgdesc.

Definition msg_at (sch : schema) (m : nat) : msgdesc := nth m sch (mkMsg [] []).
Definition dummy_field : field := mkField 0 (FSing (ES TInt32)).
Definition field_at (sch : schema) (m i : nat) : field :=
  nth i (md_fields (msg_at sch m)) dummy_field.

(** A scalar value: the number, the bit pattern of a float or double, 0/1 for a bool, or the
    content of a QString/QByteArray with its null flag.  Strings are represented by
    their bytes on the wire: how QStrings are turned into these and back is in TextModel. *)
Inductive scalar : Type := SNum (z : Z) | SStr (null : bool) (bs : list Z).

(** Value of a field: scalar, null message pointer, message object (values of its fields in
    declaration order), list, map (sorted by key like QMap). *)
Inductive value : Type :=
| VScalar (s : scalar)
| VNull
| VMsg (fs : list value)
| VList (l : list value)
| VMap (l : list (scalar * value)).

Definition num_of (s : scalar) : Z := match s with SNum z => z | SStr _ _ => 0 end.
Definition blob_of (s : scalar) : list Z := match s with SNum _ => [] | SStr _ bs => bs end.
Definition scalar_of (v : value) : scalar := match v with VScalar s => s | _ => SNum 0 end.
Definition list_of (v : value) : list value := match v with VList l => l | _ => [] end.
Definition map_of (v : value) : list (scalar * value) := match v with VMap l => l | _ => [] end.

Definition is_blob (t : sty) : bool := match t with TString | TBytes => true | _ => false end.
Definition is_enum (t : sty) : bool := match t with TEnum => true | _ => false end.

(** src/generator/messagedefinitionprinter.cpp 149-198 (printInitializationList with
    fieldCount 0) and the member types of templates.cpp 102-104: numbers are 0 (enums: their first
    value, 0 in proto3), strings null, nested messages null pointers, containers empty. *)
Definition default_scalar (t : sty) : scalar := if is_blob t then SStr true [] else SNum 0.

Definition default_field (ty : fty) : value :=
  match ty with
  | FSing (ES t) => VScalar (default_scalar t)
  | FSing (EM _) => VNull
  | FRep _ => VList []
  | FMap _ _ => VMap []
  end.

Definition default_obj (sch : schema) (m : nat) : list value :=
  map (fun f => default_field (f_ty f)) (md_fields (msg_at sch m)).

(** Position of the field with a given number: propertyOrdering.find. *)
Fixpoint find_from (i : nat) (fs : list field) (num : Z) : option nat :=
  match fs with
  | [] => None
  | f :: fs' => if f_num f =? num then Some i else find_from (S i) fs' num
  end.
Definition find_field (md : msgdesc) (num : Z) : option nat := find_from 0 (md_fields md) num.

Fixpoint update (i : nat) (v : value) (l : list value) : list value :=
  match l, i with
  | [], _ => []
  | _ :: l', O => v :: l'
  | x :: l', S i' => x :: update i' v l'
  end.

(** ** Comparison of the C++ values *)

(** IEEE comparison on bit patterns ([w] bits, [e] exponent bits): NaN is unequal to
    everything, the two zeros are equal. *)
Definition is_nan (w e : Z) (b : Z) : bool :=
  let mant := w - 1 - e in
  (Z.land (Z.shiftr b mant) (2 ^ e - 1) =? 2 ^ e - 1) && negb (b mod 2 ^ mant =? 0).
Definition is_fzero (w : Z) (b : Z) : bool := b mod 2 ^ (w - 1) =? 0.
Definition feqb (w e a b : Z) : bool :=
  negb (is_nan w e a) && negb (is_nan w e b) && ((a =? b) || (is_fzero w a && is_fzero w b)).

Fixpoint list_eqb {A : Type} (eq : A -> A -> bool) (a b : list A) : bool :=
  match a, b with
  | [], [] => true
  | x :: a', y :: b' => eq x y && list_eqb eq a' b'
  | _, _ => false
  end.

(** operator== of the C++ type of a scalar; QString and QByteArray comparison does not look at
    the null flag. *)
Definition scalar_eqb (t : sty) (a b : scalar) : bool :=
  match t with
  | TFloat => feqb 32 8 (num_of a) (num_of b)
  | TDouble => feqb 64 11 (num_of a) (num_of b)
  | TString | TBytes => list_eqb Z.eqb (blob_of a) (blob_of b)
  | _ => num_of a =? num_of b
  end.

(** QMap key order.  For strings QMap compares UTF-16 code units; here the UTF-8 bytes are
    compared, which can differ in order (not in equality) for characters beyond the BMP. *)
Fixpoint bytes_ltb (a b : list Z) : bool :=
  match a, b with
  | _, [] => false
  | [], _ :: _ => true
  | x :: a', y :: b' => (x <? y) || ((x =? y) && bytes_ltb a' b')
  end.
Definition key_ltb (t : sty) (a b : scalar) : bool :=
  if is_blob t then bytes_ltb (blob_of a) (blob_of b) else num_of a <? num_of b.

(** QMap::operator[] followed by an assignment of the value. *)
Fixpoint map_insert (t : sty) (k : scalar) (v : value) (l : list (scalar * value))
  : list (scalar * value) :=
  match l with
  | [] => [(k, v)]
  | (k', v') :: l' =>
      if key_ltb t k k' then (k, v) :: l
      else if key_ltb t k' k then (k', v') :: map_insert t k v l'
      else (k', v) :: l'
  end.

(** Two versions of a schema: what a message of one becomes in a program with the other.  Written from the section "Updating A
    Message Type" of the protobuf documentation. *)

From Coq Require Import ZArith List Bool.
From Verif Require Import Base Values MessageModel WireSpec MessageSpec.
Import ListNotations.
Open Scope Z_scope.

(** Scalar types that may replace each other. *)
Definition family (t : sty) : nat :=
  match t with
  | TInt32 | TInt64 | TUInt32 | TUInt64 | TBool | TEnum => 0
  | TSInt32 | TSInt64 => 1
  | TFixed32 | TSFixed32 => 2
  | TFixed64 | TSFixed64 => 3
  | TFloat => 4
  | TDouble => 5
  | TString | TBytes => 6
  end.

(** "If a number is parsed from the wire which doesn't fit in the corresponding type, you will get the same effect as if you had cast
    the number to that type in C++."  For sint64 read as sint32: "If the value written was between INT_MIN and INT_MAX inclusive it
    will parse as the same value with either type.  If a sint64 value was written outside of that range and parsed as a sint32, the
    varint is truncated to 32 bits and then zigzag decoding occurs." *)
Definition cast (t t' : sty) (z : Z) : Z :=
  match t' with
  | TSInt32 =>
      match t with
      | TSInt64 => if (- 2 ^ 31 <=? z) && (z <? 2 ^ 31) then z else unzigzag (zigzag z mod 2 ^ 32)
      | _ => z
      end
  | TInt32 | TSFixed32 | TEnum => twos 32 z
  | TInt64 | TSFixed64 => twos 64 z
  | TSInt64 => z
  | TUInt32 | TFixed32 => z mod 2 ^ 32
  | TUInt64 | TFixed64 => z mod 2 ^ 64
  | TBool => if z =? 0 then 0 else 1
  | TFloat | TDouble | TString | TBytes => z
  end.

(** Numbers for which this does not hold: negative int32 in a field that has become 64 bits wide. *)
Definition lost (t t' : sty) (z : Z) : bool :=
  match t, t' with
  | TInt32, (TInt64 | TUInt64) => z <? 0
  | _, _ => false
  end.

(** What the reader gets instead. *)
Definition arrives (t t' : sty) (z : Z) : Z := if lost t t' z then z + 2 ^ 32 else cast t t' z.

(** Types that may replace each other, with the exception of bool for int64 and uint64. *)
Definition may_become (t t' : sty) : Prop :=
  family t = family t' /\ (t' = TBool -> t = TBool \/ t = TInt32 \/ t = TUInt32 \/ t = TEnum).

Definition scalar_becomes (t t' : sty) (s s' : scalar) : Prop :=
  match s, s' with
  | SNum z, SNum z' => z' = arrives t t' z
  | SStr _ bs, SStr _ bs' => bs' = bs
  | _, _ => False
  end.

Definition is_null (v : value) : bool := match v with VNull => true | _ => false end.

(** Fields whose records carry bytes one by one: texts, bytes and messages. *)
Definition one_by_one (e : elty) : Prop := match e with ES t => is_blob t = true | EM _ => True end.

Section Versions.
  Variables sch sch' : schema.

  (** [related m m']: the type [m'] of the schema [sch'] is a version of the type [m] of [sch]. *)
  Variable related : nat -> nat -> Prop.

  (** Element types: scalars as above, versions of messages, bytes for a message. *)
  Definition elem_may (e e' : elty) : Prop :=
    match e, e' with
    | ES t, ES t' => may_become t t'
    | EM m, EM m' => related m m'
    | EM _, ES t' => t' = TBytes
    | _, _ => False
    end.

  (** Field types: of the same shape, or a list in place of a single text or message and the other way round. *)
  Definition field_may (ty ty' : fty) : Prop :=
    match ty, ty' with
    | FSing e, FSing e' => elem_may e e'
    | FRep e, FRep e' => elem_may e e'
    | FMap k e, FMap k' e' => k = k' /\ elem_may e e'
    | FSing e, FRep e' => elem_may e e' /\ one_by_one e
    | FRep e, FSing e' => elem_may e e' /\ one_by_one e
    | _, _ => False
    end.

  (** Fields of the same number have such types.  Fields may be added and removed, renamed and put into another order. *)
  Definition versions : Prop :=
    forall m m', related m m' ->
    forall i i', (i < length (md_fields (msg_at sch m)))%nat -> (i' < length (md_fields (msg_at sch' m')))%nat ->
      f_num (field_at sch m i) = f_num (field_at sch' m' i') ->
      field_may (f_ty (field_at sch m i)) (f_ty (field_at sch' m' i')).

  (** [becomes e e' v v']: the value [v] of type [e] is [v'] in the program with the other schema. *)
  Inductive becomes : elty -> elty -> value -> value -> Prop :=
  | becomes_scalar t t' s s' : scalar_becomes t t' s s' -> becomes (ES t) (ES t') (VScalar s) (VScalar s')
  | becomes_message m m' fs fs' :
      length fs' = length (md_fields (msg_at sch' m')) ->
      (forall i i', (i < length (md_fields (msg_at sch m)))%nat -> (i' < length (md_fields (msg_at sch' m')))%nat ->
         f_num (field_at sch m i) = f_num (field_at sch' m' i') ->
         becomes_field (f_ty (field_at sch m i)) (f_ty (field_at sch' m' i')) (nth i fs VNull) (nth i' fs' VNull)) ->
      (forall i', (i' < length (md_fields (msg_at sch' m')))%nat ->
         (forall i, (i < length (md_fields (msg_at sch m)))%nat -> f_num (field_at sch m i) <> f_num (field_at sch' m' i')) ->
         nth i' fs' VNull = default_field (f_ty (field_at sch' m' i'))) ->
      becomes (EM m) (EM m') (VMsg fs) (VMsg fs')
  | becomes_bytes m fs body : serializes sch m fs body -> becomes (EM m) (ES TBytes) (VMsg fs) (VScalar (SStr false body))
  | becomes_null m e' v' : becomes (EM m) e' (VMsg (default_obj sch m)) v' -> becomes (EM m) e' VNull v'
  with becomes_field : fty -> fty -> value -> value -> Prop :=
  | becomes_one e e' v v' : becomes e e' v v' -> becomes_field (FSing e) (FSing e') v v'
  | becomes_list e e' l l' :
      Forall2 (becomes e e') (filter (fun v => negb (is_null v)) l) l' -> becomes_field (FRep e) (FRep e') (VList l) (VList l')
  | becomes_map k e e' l l' :
      Forall2 (fun p p' => scalar_becomes k k (fst p) (fst p') /\ becomes e e' (snd p) (snd p')) (filter (fun p => negb (is_null (snd p))) l) l' ->
      becomes_field (FMap k e) (FMap k e') (VMap l) (VMap l')
  | becomes_single_list e e' v v' : becomes e e' v v' -> becomes_field (FSing e) (FRep e') v (VList [v'])
  | becomes_no_list t e' : becomes_field (FSing (ES t)) (FRep e') (VScalar (SStr true [])) (VList [])
  | becomes_last e e' l others v v' : filter (fun v => negb (is_null v)) l = others ++ [v] -> becomes e e' v v' -> becomes_field (FRep e) (FSing e') (VList l) v'
  | becomes_none e e' l : filter (fun v => negb (is_null v)) l = [] -> becomes_field (FRep e) (FSing e') (VList l) (default_field (FSing e')).
End Versions.

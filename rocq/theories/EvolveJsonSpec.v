(** Two versions of a schema: what a message of one becomes if it is sent as JSON text to a program with the other.  Written from the JSON mapping of proto3. *)

From Coq Require Import ZArith List Bool.
From Verif Require Import Base Values MessageSpec JsonSpec.
Import ListNotations.
Open Scope Z_scope.

Section Versions.
  Variables sch sch' : schema.
  Variables nm nm' : names.
  (** [floating t x s]: the reader takes the text [s] for the floating point number of type [t] with the bits [x]. *)
  Variable floating : sty -> Z -> list Z -> Prop.

  (** [scalar_reads en en' t t' s s']: the scalar [s] of type [t] is read as [s'] of type [t'].  Integers may have another integer type or become floating point
      numbers.  Enums are matched by name; [en] and [en'] are the enumerators in the two versions. *)
  Definition scalar_reads (en en' : list (list Z * Z)) (t t' : sty) (s s' : scalar) : Prop :=
    match t, t' with
    | TEnum, TEnum => forall name, named en (num_of s) name -> named en' (num_of s') name
    | _, _ =>
        (t = t' /\ t <> TEnum /\ num_of s' = num_of s /\ blob_of s' = blob_of s)
        \/ (is_integer t = true /\ is_integer t' = true /\ num_of s' = num_of s)
        \/ (is_integer t = true /\ is_float t' = true /\ forall x, integer_text (num_of s) x -> floating t' (num_of s') x)
    end.

  (** [reads en en' e e' v v']: the value [v] of type [e] is [v'], of type [e'], in the program with the other version. *)
  Inductive reads : list (list Z * Z) -> list (list Z * Z) -> elty -> elty -> value -> value -> Prop :=
  | reads_scalar en en' t t' s s' : scalar_reads en en' t t' s s' -> reads en en' (ES t) (ES t') (VScalar s) (VScalar s')
  | reads_message en en' m m' fs fs' : reads_object m m' fs (default_obj sch' m') fs' -> reads en en' (EM m) (EM m') (VMsg fs) (VMsg fs')
  | reads_unset en en' m m' v' : reads en en' (EM m) (EM m') (VMsg (default_obj sch m)) v' -> reads en en' (EM m) (EM m') VNull v'
  (** [reads_object m m' fs base fs']: the values [fs] of a message of type [m], read into an object of type [m'] with the values [base], give the values [fs'].  Fields
      are matched by their JSON names; others keep their values. *)
  with reads_object : nat -> nat -> list value -> list value -> list value -> Prop :=
  | reads_fields m m' fs base fs' : length fs' = length (md_fields (msg_at sch' m')) ->
      (forall i', (i' < length (md_fields (msg_at sch' m')))%nat -> reads_member m m' i' fs (nth i' base VNull) (nth i' fs' VNull)) ->
      reads_object m m' fs base fs'
  with reads_member : nat -> nat -> nat -> list value -> value -> value -> Prop :=
  | reads_known m m' i i' fs old v' : (i < length (md_fields (msg_at sch m)))%nat -> n_json nm m i = n_json nm' m' i' ->
      reads_field m i m' i' (nth i fs VNull) v' -> reads_member m m' i' fs old v'
  | reads_unknown m m' i' fs old : (forall i, (i < length (md_fields (msg_at sch m)))%nat -> n_json nm m i <> n_json nm' m' i') -> reads_member m m' i' fs old old
  (** Lists and maps have no null messages afterwards. *)
  with reads_field : nat -> nat -> nat -> nat -> value -> value -> Prop :=
  | reads_one m i m' i' e e' v v' : f_ty (field_at sch m i) = FSing e -> f_ty (field_at sch' m' i') = FSing e' ->
      reads (n_enum nm m i) (n_enum nm' m' i') e e' v v' -> reads_field m i m' i' v v'
  | reads_list m i m' i' e e' l l' : f_ty (field_at sch m i) = FRep e -> f_ty (field_at sch' m' i') = FRep e' ->
      Forall2 (reads (n_enum nm m i) (n_enum nm' m' i') e e') (filter (fun v => match v with VNull => false | _ => true end) l) l' ->
      reads_field m i m' i' (VList l) (VList l')
  | reads_map m i m' i' k e e' l l' : f_ty (field_at sch m i) = FMap k e -> f_ty (field_at sch' m' i') = FMap k e' ->
      Forall2 (fun p p' => fst p' = fst p /\ reads (n_enum nm m i) (n_enum nm' m' i') e e' (snd p) (snd p'))
        (filter (fun p => match snd p with VNull => false | _ => true end) l) l' ->
      reads_field m i m' i' (VMap l) (VMap l').

  (** Types for which this works with all values: [t'] has all values of [t], and all enumerators. *)
  Definition scalar_may (en en' : list (list Z * Z)) (t t' : sty) : Prop :=
    match t, t' with
    | TEnum, TEnum => forall z, scalar_ok TEnum (SNum z) -> exists z', scalar_ok TEnum (SNum z') /\ forall name, named en z name -> named en' z' name
    | _, _ => (t = t' /\ t <> TEnum) \/ (is_integer t = true /\ is_integer t' = true /\ forall z, scalar_ok t (SNum z) -> scalar_ok t' (SNum z))
    end.

  (** [related m m']: the type [m'] is a version of the type [m]. *)
  Variable related : nat -> nat -> Prop.
  Definition elem_may (en en' : list (list Z * Z)) (e e' : elty) : Prop :=
    match e, e' with ES t, ES t' => scalar_may en en' t t' | EM m, EM m' => related m m' | _, _ => False end.
  Definition field_may (en en' : list (list Z * Z)) (ty ty' : fty) : Prop :=
    match ty, ty' with
    | FSing e, FSing e' => elem_may en en' e e'
    | FRep e, FRep e' => elem_may en en' e e'
    | FMap k e, FMap k' e' => k = k' /\ elem_may en en' e e'
    | _, _ => False
    end.
  (** Fields with the same JSON name have such types.  Fields may be added and removed, get other numbers and be put into another order. *)
  Definition versions : Prop :=
    forall m m', related m m' ->
    forall i i', (i < length (md_fields (msg_at sch m)))%nat -> (i' < length (md_fields (msg_at sch' m')))%nat ->
      n_json nm m i = n_json nm' m' i' -> field_may (n_enum nm m i) (n_enum nm' m' i') (f_ty (field_at sch m i)) (f_ty (field_at sch' m' i')).
End Versions.

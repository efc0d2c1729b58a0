(** Specification of protobuf messages: which byte strings are encodings of which
    records, and which message value a sequence of records denotes.  Written from the
    protobuf documentation; nothing of the serializer model is used.
    The meaning deviates from protobuf in two points, where the code does: a second occurrence
    of a singular message or of a packed list replaces the first one (theorems
    C23_merge_refuted and C16_packed_concat_refuted show the difference); and [fits] leaves
    out what the code does not understand (C50, C51, C52). *)

From Coq Require Import ZArith List Bool.
From Verif Require Import Base Values WireSpec.
Import ListNotations.
Open Scope Z_scope.

(** ** Records and their encoding *)

(** Payload of a record: the four wire types; length-delimited payloads are plain bytes,
    packed numbers or nested records. *)
Inductive wval : Type :=
| WVarint (v : Z)
| WFix64 (v : Z)
| WFix32 (v : Z)
| WBytes (bs : list Z)
| WPacked (ws : list wval)
| WMsg (rs : list (Z * wval)).

Definition wtype (w : wval) : Z :=
  match w with
  | WVarint _ => 0
  | WFix64 _ => 1
  | WFix32 _ => 5
  | _ => 2
  end.

(** [enc_val w bs]: [bs] is an encoding of the payload [w];
    [enc_recs rs bs]: [bs] is an encoding of the records [rs], one after the other;
    [enc_elems ws bs]: [bs] are the payloads [ws] one after the other. *)
Inductive enc_val : wval -> list Z -> Prop :=
| enc_varint v bs : in_u 64 v -> wire_varint v bs -> enc_val (WVarint v) bs
| enc_fix64 v bs : is_le 8 v bs -> enc_val (WFix64 v) bs
| enc_fix32 v bs : is_le 4 v bs -> enc_val (WFix32 v) bs
| enc_bytes content bs : bytes content -> delimited content bs -> enc_val (WBytes content) bs
| enc_packed ws content bs :
    enc_elems ws content -> delimited content bs -> enc_val (WPacked ws) bs
| enc_msg rs content bs :
    enc_recs rs content -> delimited content bs -> enc_val (WMsg rs) bs
with enc_elems : list wval -> list Z -> Prop :=
| enc_elems_nil : enc_elems [] []
| enc_elems_cons w ws bs rest :
    enc_val w bs -> enc_elems ws rest -> enc_elems (w :: ws) (bs ++ rest)
with enc_recs : list (Z * wval) -> list Z -> Prop :=
| enc_recs_nil : enc_recs [] []
| enc_recs_cons num w rs tag bs rest :
    field_number num -> is_tag num (wtype w) tag -> enc_val w bs -> enc_recs rs rest ->
    enc_recs ((num, w) :: rs) (tag ++ bs ++ rest).

(** ** Which payloads fit a type *)

(** Scalars.  Bools are restricted to zero and numbers whose lower 32 bits are not all zero (true is sent as 1). *)
Definition fits_scalar (t : sty) (w : wval) : Prop :=
  match t, w with
  | TBool, WVarint v => v = 0 \/ v mod 2 ^ 32 <> 0
  | (TInt32 | TInt64 | TUInt32 | TUInt64 | TSInt32 | TSInt64 | TEnum), WVarint _ => True
  | (TFixed32 | TSFixed32 | TFloat), WFix32 _ => True
  | (TFixed64 | TSFixed64 | TDouble), WFix64 _ => True
  | (TString | TBytes), WBytes _ => True
  | _, _ => False
  end.

(** An unknown field may carry anything that has a wire type. *)
Definition fits_unknown (w : wval) : Prop :=
  match w with WVarint _ | WFix64 _ | WFix32 _ | WBytes _ => True | _ => False end.

(** [P] holds for all elements. *)
Definition every {A : Type} (P : A -> Prop) : list A -> Prop :=
  fix go l := match l with [] => True | x :: l' => P x /\ go l' end.

Section Fits.
  Variable sch : schema.

  (** Repeated numbers are packed; a map entry is a message with key 1 and value 2, the value
      being present if it is a message. *)
  Fixpoint fits_elem (e : elty) (w : wval) {struct w} : Prop :=
    match e, w with
    | ES t, _ => fits_scalar t w
    | EM m, WMsg rs =>
        every (fun r =>
          match find_field (msg_at sch m) (fst r) with
          | None => fits_unknown (snd r)
          | Some i =>
              match f_ty (field_at sch m i), snd r with
              | FSing e', _ => fits_elem e' (snd r)
              | FRep (EM m'), _ => fits_elem (EM m') (snd r)
              | FRep (ES t), w' =>
                  if is_blob t then fits_scalar t w'
                  else match w' with WPacked ws => Forall (fits_scalar t) ws | _ => False end
              | FMap k e', WMsg es =>
                  every (fun x => fst x = 1 /\ fits_scalar k (snd x)
                                  \/ fst x = 2 /\ fits_elem e' (snd x)) es
                  /\ match e' with EM _ => In 2 (map fst es) | ES _ => True end
              | FMap _ _, _ => False
              end
          end) rs
    | EM _, _ => False
    end.

  (** The records [rs] form a message of type [m]. *)
  Definition fits (m : nat) (rs : list (Z * wval)) : Prop := fits_elem (EM m) (WMsg rs).
End Fits.

(** ** What records mean *)

(** Number read from a varint, fixed or bytes payload. *)
Definition payload_num (w : wval) : Z :=
  match w with WVarint v => v | WFix64 v => v | WFix32 v => v | _ => 0 end.
Definition payload_bytes (w : wval) : list Z := match w with WBytes bs => bs | _ => [] end.

(** Two's complement reading of the low [w] bits. *)
Definition twos (w n : Z) : Z :=
  let u := n mod 2 ^ w in if u <? 2 ^ (w - 1) then u else u - 2 ^ w.

(** Inverse of [zigzag]. *)
Definition unzigzag (u : Z) : Z := if u mod 2 =? 0 then u / 2 else - ((u + 1) / 2).

Definition mean_scalar (t : sty) (w : wval) : scalar :=
  let n := payload_num w in
  match t with
  | TInt32 | TEnum | TSFixed32 => SNum (twos 32 n)
  | TInt64 | TSFixed64 => SNum (twos 64 n)
  | TUInt32 => SNum (n mod 2 ^ 32)
  | TUInt64 | TFixed32 | TFixed64 | TFloat | TDouble => SNum n
  | TSInt32 => SNum (unzigzag (n mod 2 ^ 32))
  | TSInt64 => SNum (unzigzag n)
  | TBool => SNum (if n =? 0 then 0 else 1)
  | TString | TBytes => SStr false (payload_bytes w)
  end.

Section Mean.
  Variable sch : schema.

  (** Default of a map entry's value. *)
  Definition default_elem (e : elty) : value :=
    match e with ES t => VScalar (default_scalar t) | EM m => VMsg (default_obj sch m) end.

  (** Value of a payload of element type [e].  The records of a message act one after the
      other on the default object: a singular field takes the last value, repeated strings,
      bytes, enums and messages append, a map is updated, packed numbers replace the list. *)
  Fixpoint mean_elem (e : elty) (w : wval) {struct w} : value :=
    match e, w with
    | ES t, _ => VScalar (mean_scalar t w)
    | EM m, WMsg rs =>
        VMsg (fold_left (fun obj r =>
          match find_field (msg_at sch m) (fst r) with
          | None => obj
          | Some i =>
              let old := nth i obj VNull in
              update i
                match f_ty (field_at sch m i), snd r with
                | FSing e', _ => mean_elem e' (snd r)
                | FRep (EM m'), _ => VList (list_of old ++ [mean_elem (EM m') (snd r)])
                | FRep (ES t), WPacked ws =>
                    let l := map (fun x => VScalar (mean_scalar t x)) ws in
                    if is_enum t then VList (list_of old ++ l) else VList l
                | FRep (ES t), w' => VList (list_of old ++ [VScalar (mean_scalar t w')])
                | FMap k e', WMsg es =>
                    let kv := fold_left (fun kv x =>
                                if fst x =? 1 then (mean_scalar k (snd x), snd kv)
                                else (fst kv, mean_elem e' (snd x)))
                                es (default_scalar k, default_elem e') in
                    VMap (map_insert k (fst kv) (snd kv) (map_of old))
                | FMap _ _, _ => old
                end obj
          end) rs (default_obj sch m))
    | EM _, _ => VNull
    end.

  (** The message of type [m] denoted by the records [rs]. *)
  Definition mean (m : nat) (rs : list (Z * wval)) : list value :=
    match mean_elem (EM m) (WMsg rs) with VMsg fs => fs | _ => [] end.
End Mean.

(** ** Well-typed values *)

Definition scalar_ok (t : sty) (s : scalar) : Prop :=
  match t, s with
  | (TInt32 | TSInt32 | TSFixed32 | TEnum), SNum z => in_s 32 z
  | (TInt64 | TSInt64 | TSFixed64), SNum z => in_s 64 z
  | (TUInt32 | TFixed32 | TFloat), SNum z => in_u 32 z
  | (TUInt64 | TFixed64 | TDouble), SNum z => in_u 64 z
  | TBool, SNum z => z = 0 \/ z = 1
  | (TString | TBytes), SStr null bs => bytes bs /\ (null = true -> bs = [])
  | _, _ => False
  end.

(** Keys of a map strictly ascending. *)
Fixpoint keys_sorted (k : sty) (l : list (scalar * value)) : Prop :=
  match l with
  | [] => True
  | (a, _) :: l' => Forall (fun p => key_ltb k a (fst p) = true) l' /\ keys_sorted k l'
  end.

Section Typed.
  Variable sch : schema.

  (** [elem_ok e v]: [v] is a value of a singular field, list element or map value of type [e]. *)
  Fixpoint elem_ok (e : elty) (v : value) {struct v} : Prop :=
    match e, v with
    | ES t, VScalar s => scalar_ok t s
    | EM _, VNull => True
    | EM m, VMsg fs =>
        (fix all (fields : list field) (fs : list value) {struct fs} : Prop :=
           match fields, fs with
           | [], [] => True
           | f :: fields', x :: fs' =>
               match f_ty f, x with
               | FSing e', _ => elem_ok e' x
               | FRep e', VList l => every (elem_ok e') l
               | FMap k e', VMap l =>
                   keys_sorted k l /\
                   every (fun p => scalar_ok k (fst p) /\ elem_ok e' (snd p)) l
               | _, _ => False
               end /\ all fields' fs'
           | _, _ => False
           end) (md_fields (msg_at sch m)) fs
    | _, _ => False
    end.

  (** [fs] are the member values of an object of type [m]. *)
  Definition object_ok (m : nat) (fs : list value) : Prop := elem_ok (EM m) (VMsg fs).
End Typed.

(** ** When two values are the same

    Two values are the same if they only differ in the sign of floating point zeros, in null
    against empty strings, and in a nested message not yet created against one with
    default values.  This is what operator== cannot tell apart.
    [canon_obj] computes a representative. *)

Definition canon_scalar (t : sty) (s : scalar) : scalar :=
  if is_blob t then SStr false (blob_of s)
  else match t with
       | TFloat => SNum (if num_of s mod 2 ^ 31 =? 0 then 0 else num_of s)
       | TDouble => SNum (if num_of s mod 2 ^ 63 =? 0 then 0 else num_of s)
       | _ => SNum (num_of s)
       end.

(** Default value in canonical form. *)
Definition is_default (v : value) : bool :=
  match v with
  | VScalar (SNum z) => z =? 0
  | VScalar (SStr _ bs) => match bs with [] => true | _ => false end
  | VNull => true
  | VMsg _ => false
  | VList l => match l with [] => true | _ => false end
  | VMap l => match l with [] => true | _ => false end
  end.

(** A nested message with default values counts as not created. *)
Definition collapse (v : value) : value :=
  match v with VMsg fs => if forallb is_default fs then VNull else v | _ => v end.

Section Canon.
  Variable sch : schema.

  Fixpoint canon_elem (e : elty) (v : value) {struct v} : value :=
    match e with
    | ES t => VScalar (canon_scalar t (scalar_of v))
    | EM m =>
        match v with
        | VMsg fs =>
            VMsg ((fix go (fields : list field) (fs : list value) {struct fs} : list value :=
               match fields, fs with
               | f :: fields', x :: fs' =>
                   match f_ty f with
                   | FSing e' => collapse (canon_elem e' x)
                   | FRep e' =>
                       match x with VList l => VList (map (canon_elem e') l) | _ => VList [] end
                   | FMap k e' =>
                       match x with
                       | VMap l => VMap (map (fun p => (canon_scalar k (fst p),
                                                        canon_elem e' (snd p))) l)
                       | _ => VMap []
                       end
                   end :: go fields' fs'
               | _, _ => []
               end) (md_fields (msg_at sch m)) fs)
        | _ => VNull
        end
    end.

  Definition canon_obj (m : nat) (fs : list value) : list value :=
    match canon_elem (EM m) (VMsg fs) with VMsg fs' => fs' | _ => [] end.

  (** The objects [a] and [b] of type [m] have the same value. *)
  Definition same (m : nat) (a b : list value) : Prop := canon_obj m a = canon_obj m b.

  (** The same for one field of type [ty]. *)
  Definition canon_field (ty : fty) (v : value) : value :=
    match ty with
    | FSing e' => collapse (canon_elem e' v)
    | FRep e' => VList (map (canon_elem e') (list_of v))
    | FMap k e' => VMap (map (fun p => (canon_scalar k (fst p), canon_elem e' (snd p)))
                             (map_of v))
    end.
  Definition same_field (ty : fty) (a b : value) : Prop := canon_field ty a = canon_field ty b.
End Canon.

(** ** Schemas the generator accepts

    Field numbers are distinct and in range, the emission order lists every field once, map keys
    are integers, bools or strings, there is no repeated bool (its class BoolList does not exist, see
    DESIGN.md). *)

Definition key_type (t : sty) : Prop :=
  match t with TFloat | TDouble | TBytes | TEnum => False | _ => True end.

Definition field_ok (f : field) : Prop :=
  field_number (f_num f) /\
  match f_ty f with
  | FRep (ES TBool) => False
  | FMap k _ => key_type k
  | _ => True
  end.

Definition msg_ok (md : msgdesc) : Prop :=
  NoDup (map f_num (md_fields md)) /\
  Forall field_ok (md_fields md) /\
  NoDup (md_order md) /\
  (forall i, In i (md_order md) <-> (i < length (md_fields md))%nat).

Definition schema_ok (sch : schema) : Prop := Forall msg_ok sch.

(** The singular message fields form no cycle: there is a rank that decreases along them. *)
Definition acyclic (sch : schema) : Prop :=
  exists rank : nat -> nat, forall m f m', In f (md_fields (msg_at sch m)) ->
  f_ty f = FSing (EM m') -> (rank m' < rank m)%nat.

(** ** Values that are not sent

    Null elements of repeated message fields and map entries with a null message are not sent. *)
Fixpoint drop_nulls (v : value) : value :=
  match v with
  | VScalar _ | VNull => v
  | VMsg fs => VMsg (map drop_nulls fs)
  | VList l => VList (flat_map (fun x => match x with VNull => [] | _ => [drop_nulls x] end) l)
  | VMap l => VMap (flat_map (fun p => match snd p with
                                       | VNull => []
                                       | _ => [(fst p, drop_nulls (snd p))]
                                       end) l)
  end.

(** A field that produces no record: integer, bool or enum 0, null string, empty list or map. *)
Definition unset_field (ty : fty) (v : value) : bool :=
  match ty, v with
  | FSing (ES (TFixed32 | TFixed64 | TSFixed32 | TSFixed64 | TFloat | TDouble)), _ => false
  | FSing (ES _), VScalar (SNum z) => z =? 0
  | FSing (ES _), VScalar (SStr null _) => null
  | FRep _, VList [] => true
  | FMap _ _, VMap [] => true
  | _, _ => false
  end.

(** ** Reading aids for the property statements *)

(** The wire type protobuf prescribes for the records of a field (repeated numbers are packed). *)
Definition prescribed_wire (ty : fty) : Z :=
  match ty with
  | FSing (ES (TFixed32 | TSFixed32 | TFloat)) => 5
  | FSing (ES (TFixed64 | TSFixed64 | TDouble)) => 1
  | FSing (ES (TString | TBytes)) => 2
  | FSing (ES _) => 0
  | _ => 2
  end.

(** Payloads of the records with a given field number, in order. *)
Definition occurrences (num : Z) (rs : list (Z * wval)) : list wval :=
  map snd (filter (fun r => fst r =? num) rs).

(** Elements contributed to a repeated field by one record. *)
Definition elements (sch : schema) (e : elty) (w : wval) : list value :=
  match e, w with
  | ES t, WPacked ws => map (fun x => VScalar (mean_scalar t x)) ws
  | _, _ => [mean_elem sch e w]
  end.

(** The entry denoted by the record of a map field: the last key and the last value in it,
    defaults if there is none. *)
Definition entry_of (sch : schema) (k : sty) (e : elty) (w : wval) : scalar * value :=
  match w with
  | WMsg es =>
      (last (map (mean_scalar k) (occurrences 1 es)) (default_scalar k),
       last (map (mean_elem sch e) (occurrences 2 es)) (default_elem sch e))
  | _ => (default_scalar k, default_elem sch e)
  end.

(** First entry with a given key; null and empty strings are the same key. *)
Definition scalar_dec (a b : scalar) : {a = b} + {a <> b}.
Proof. decide equality; [apply Z.eq_dec | apply (list_eq_dec Z.eq_dec) | apply bool_dec]. Defined.
Fixpoint lookup (k : sty) (key : scalar) (l : list (scalar * value)) : option value :=
  match l with
  | [] => None
  | (a, v) :: l' => if scalar_dec (canon_scalar k key) (canon_scalar k a) then Some v else lookup k key l'
  end.

(** No field of the type has this number; the field at position [i] has it. *)
Definition no_field (sch : schema) (m : nat) (num : Z) : Prop := Forall (fun f => f_num f <> num) (md_fields (msg_at sch m)).
Definition field_is (sch : schema) (m : nat) (num : Z) (i : nat) : Prop :=
  exists f, nth_error (md_fields (msg_at sch m)) i = Some f /\ f_num f = num.

(** The default values of protobuf: zero, empty text, no message, empty list, empty map. *)
Definition protobuf_default (ty : fty) (v : value) : Prop :=
  match ty with
  | FSing (ES (TString | TBytes)) => exists null, v = VScalar (SStr null [])
  | FSing (ES _) => v = VScalar (SNum 0)
  | FSing (EM _) => v = VNull
  | FRep _ => v = VList []
  | FMap _ _ => v = VMap []
  end.

(** Specification for message objects: which value the members of an object stand for. *)

From Coq Require Import ZArith List Bool.
From Verif Require Import Base Values MessageSpec ObjectModel.
Import ListNotations.
Open Scope Z_scope.

Section Denotes.
  Variable sch : schema.
  Variable h : heap.

  (** [denotes m xs vs]: the object of type [m] with the members [xs] has the value [vs];
      pointers are followed in the heap. *)
  Inductive denotes : nat -> list mem -> list value -> Prop :=
  | den_object m xs vs : den_fields (md_fields (msg_at sch m)) xs vs -> denotes m xs vs
  with den_fields : list field -> list mem -> list value -> Prop :=
  | den_fields_nil : den_fields [] [] []
  | den_fields_cons f fields x xs v vs :
      den_field (f_ty f) x v -> den_fields fields xs vs ->
      den_fields (f :: fields) (x :: xs) (v :: vs)
  with den_field : fty -> mem -> value -> Prop :=
  | den_scalar t s : den_field (FSing (ES t)) (MScalar s) (VScalar s)
  | den_unset m : den_field (FSing (EM m)) (MOwn None) VNull
  | den_own m xs vs : denotes m xs vs -> den_field (FSing (EM m)) (MOwn (Some xs)) (VMsg vs)
  | den_scalars t l : den_field (FRep (ES t)) (MScalars l) (VList (map VScalar l))
  | den_ptrs m l vs : den_list m l vs -> den_field (FRep (EM m)) (MPtrs l) (VList vs)
  | den_scalar_map k t l :
      den_field (FMap k (ES t)) (MScalarMap l)
        (VMap (map (fun p => (fst p, VScalar (snd p))) l))
  | den_ptr_map k m l kvs : den_entries m l kvs -> den_field (FMap k (EM m)) (MPtrMap l) (VMap kvs)
  with den_list : nat -> list (option nat) -> list value -> Prop :=
  | den_list_nil m : den_list m [] []
  | den_list_cons m p l v vs : den_ptr m p v -> den_list m l vs -> den_list m (p :: l) (v :: vs)
  with den_entries : nat -> list (scalar * option nat) -> list (scalar * value) -> Prop :=
  | den_entries_nil m : den_entries m [] []
  | den_entries_cons m k p l v kvs : den_ptr m p v -> den_entries m l kvs ->
      den_entries m ((k, p) :: l) ((k, v) :: kvs)
  with den_ptr : nat -> option nat -> value -> Prop :=
  | den_null m : den_ptr m None VNull
  | den_address m a xs vs : nth_error h a = Some xs -> denotes m xs vs ->
      den_ptr m (Some a) (VMsg vs).
End Denotes.

(** The number [s] is no NaN of type [t]: without the sign, the pattern is at most that of infinity. *)
Definition not_nan (t : sty) (s : scalar) : Prop :=
  match t with
  | TFloat => num_of s mod 2 ^ 31 <= 255 * 2 ^ 23
  | TDouble => num_of s mod 2 ^ 63 <= 2047 * 2 ^ 52
  | _ => True
  end.

Section NanFree.
  Variable sch : schema.

  (** No float or double in the value is a NaN. *)
  Fixpoint nan_free (e : elty) (v : value) {struct v} : Prop :=
    match e, v with
    | ES t, VScalar s => not_nan t s
    | EM m, VMsg fs =>
        (fix all (fields : list field) (fs : list value) {struct fs} : Prop :=
           match fields, fs with
           | f :: fields', x :: fs' =>
               match f_ty f, x with
               | FSing e', _ => nan_free e' x
               | FRep e', VList l => every (nan_free e') l
               | FMap k e', VMap l => every (fun p => nan_free e' (snd p)) l
               | _, _ => True
               end /\ all fields' fs'
           | _, _ => True
           end) (md_fields (msg_at sch m)) fs
    | _, _ => True
    end.
End NanFree.

(** No element of a list of messages and no value of a map to messages is a null pointer. *)
Fixpoint no_nulls (v : value) : Prop :=
  match v with
  | VMsg fs => every no_nulls fs
  | VList l => every (fun x => x <> VNull /\ no_nulls x) l
  | VMap l => every (fun p => snd p <> VNull /\ no_nulls (snd p)) l
  | _ => True
  end.

(** No message type has a map to messages. *)
Definition no_message_maps (sch : schema) : Prop :=
  forall m f k m', In f (md_fields (msg_at sch m)) -> f_ty f <> FMap k (EM m').

(** A proper message value of type [m]: well typed, without NaN and null elements. *)
Definition proper (sch : schema) (m : nat) (vs : list value) : Prop :=
  object_ok sch m vs /\ nan_free sch (EM m) (VMsg vs) /\ no_nulls (VMsg vs).

(** ** Values that can be compared

    The comparison of two values of a message type meets no two maps to messages that have the same number of
    entries but different keys. *)
Section Comparable.
  Variable sch : schema.

  Definition keys_of (l : list (scalar * value)) : list scalar := map fst l.
  (** Both maps have the same keys (null and empty strings are the same key). *)
  Definition same_keys (k : sty) (l l' : list (scalar * value)) : Prop :=
    forall c, In c (map (canon_scalar k) (keys_of l)) <-> In c (map (canon_scalar k) (keys_of l')).

  Inductive comparable : nat -> list value -> list value -> Prop :=
  | comparable_fields m vs ws :
      (forall i v w, (i < length (md_fields (msg_at sch m)))%nat ->
         nth_error vs i = Some v -> nth_error ws i = Some w -> comparable_at (f_ty (field_at sch m i)) v w) ->
      comparable m vs ws
  with comparable_at : fty -> value -> value -> Prop :=
  | comparable_plain ty v w :
      match ty with FSing (ES _) | FRep (ES _) | FMap _ (ES _) => True | _ => False end -> comparable_at ty v w
  | comparable_unset_left m w : comparable_at (FSing (EM m)) VNull w
  | comparable_unset_right m v : comparable_at (FSing (EM m)) v VNull
  | comparable_nested m vs ws : comparable m vs ws -> comparable_at (FSing (EM m)) (VMsg vs) (VMsg ws)
  | comparable_list m l l' :
      (forall i vs ws, length l = length l' -> nth_error l i = Some (VMsg vs) -> nth_error l' i = Some (VMsg ws) ->
         comparable m vs ws) ->
      comparable_at (FRep (EM m)) (VList l) (VList l')
  | comparable_map k m l l' :
      (length l = length l' -> same_keys k l l') ->
      (forall a a' vs ws, length l = length l' -> In (a, VMsg vs) l -> In (a', VMsg ws) l' ->
         canon_scalar k a = canon_scalar k a' -> comparable m vs ws) ->
      comparable_at (FMap k (EM m)) (VMap l) (VMap l').

  (** The same for the nested messages that are set in both. *)
  Definition nested_comparable (m : nat) (vs ws : list value) : Prop :=
    forall i m' v w, (i < length (md_fields (msg_at sch m)))%nat -> f_ty (field_at sch m i) = FSing (EM m') ->
      nth_error vs i = Some v -> nth_error ws i = Some w -> comparable_at (FSing (EM m')) v w.

  (** Type [m] has no map to messages, nor has a type of its nested messages and list elements, at any depth. *)
  Definition no_map_inside (m : nat) : Prop :=
    exists T : nat -> Prop, T m /\ forall m' f, T m' -> In f (md_fields (msg_at sch m')) ->
      match f_ty f with
      | FMap _ (EM _) => False
      | FSing (EM m'') | FRep (EM m'') => T m''
      | _ => True
      end.
  (** The same for its nested messages (those of singular fields) only. *)
  Definition no_map_nested (m : nat) : Prop :=
    forall f m', In f (md_fields (msg_at sch m)) -> f_ty f = FSing (EM m') -> no_map_inside m'.

  (** The first difference of two values is in a map to messages: it has the same number of entries in both, but
      a key of the first is missing in the second; entries with the same key are the same. *)
  Definition clash (m : nat) (vs ws : list value) : Prop :=
    exists i k m' l l' a, (i < length (md_fields (msg_at sch m)))%nat /\ f_ty (field_at sch m i) = FMap k (EM m') /\
      nth_error vs i = Some (VMap l) /\ nth_error ws i = Some (VMap l') /\ length l = length l' /\
      In a (keys_of l) /\ ~ In (canon_scalar k a) (map (canon_scalar k) (keys_of l')) /\
      (forall b b' v v', In (b, v) l -> In (b', v') l' -> canon_scalar k b = canon_scalar k b' ->
         same_field sch (FSing (EM m')) v v') /\
      (forall j v w, (j < i)%nat -> nth_error vs j = Some v -> nth_error ws j = Some w ->
         same_field sch (f_ty (field_at sch m j)) v w).
  (** The same in two nested messages, those of field [i]; the nested messages before it can be compared. *)
  Definition nested_clash (m i m' : nat) (vs ws : list value) : Prop :=
    (i < length (md_fields (msg_at sch m)))%nat /\ f_ty (field_at sch m i) = FSing (EM m') /\
    exists us us', nth_error vs i = Some (VMsg us) /\ nth_error ws i = Some (VMsg us') /\ clash m' us us' /\
      forall j m'' v w, (j < i)%nat -> f_ty (field_at sch m j) = FSing (EM m'') ->
        nth_error vs j = Some v -> nth_error ws j = Some w -> comparable_at (FSing (EM m'')) v w.
End Comparable.

(** A computation with an explicit step bound returns [r], whatever large enough bound is chosen. *)
Definition returns {A} (f : nat -> res A) (r : A) : Prop :=
  exists n, forall fuel, (n <= fuel)%nat -> f fuel = Ok r.
(** A computation reaches undefined behaviour. *)
Definition crashes {A} (f : nat -> res A) : Prop :=
  exists n u, forall fuel, (n <= fuel)%nat -> f fuel = UB u.

(** ** Sequences of setter calls *)

(** Call of the setter of field [fst c] with the argument [snd c], whose value is [snd a]: the value
    is one the field of a proper message can have. *)
Definition call_with (sch : schema) (h : heap) (m : nat) (c : nat * mem) (a : nat * value) : Prop :=
  fst c = fst a /\ (fst a < length (md_fields (msg_at sch m)))%nat /\
  den_field sch h (f_ty (field_at sch m (fst a))) (snd c) (snd a) /\
  exists us, proper sch m us /\ nth_error us (fst a) = Some (snd a).

(** The arguments for field [i], in order. *)
Definition args_for (i : nat) (args : list (nat * value)) : list value :=
  map snd (filter (fun a => Nat.eqb (fst a) i) args).

(** [changes R v ws n]: going from [v] through [ws], there are [n] steps between values that are not
    related by [R]. *)
Inductive changes (R : value -> value -> Prop) : value -> list value -> nat -> Prop :=
| changes_nil v : changes R v [] 0
| changes_same v w ws n : R v w -> changes R w ws n -> changes R v (w :: ws) n
| changes_diff v w ws n : ~ R v w -> changes R w ws n -> changes R v (w :: ws) (S n).


(** ** Sharing

    Type [m] has neither directly nor through its singular message fields repeated messages or maps
    to messages. *)
Definition unshared (sch : schema) (m : nat) : Prop :=
  exists T : nat -> Prop, T m /\ forall m' f, T m' -> In f (md_fields (msg_at sch m')) ->
    match f_ty f with
    | FRep (EM _) | FMap _ (EM _) => False
    | FSing (EM m'') => T m''
    | _ => True
    end.

(** The modification uses getters of nested messages only. *)
Definition is_nested (s : step) : bool := match s with Nested _ => true | _ => false end.

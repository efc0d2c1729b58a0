(** Model of the generated message classes: members, comparison, setters, copy and move.
    The code is written by src/generator (templates.cpp, messagedefinitionprinter.cpp) and uses
    src/protobuf/qprotobuflazymessagepointer.h and qtprotobuftypes.h. *)

From Coq Require Import ZArith List Bool.
From Verif Require Import Base Values.
Import ListNotations.
Open Scope Z_scope.

(** Data members, templates.cpp 102-104 with messagedeclarationprinter.cpp 426-439: plain values,
    QProtobufLazyMessagePointer (owns the nested object, which is therefore kept inside the
    member), containers of values, and containers of QSharedPointer, which refer to objects in
    a heap shared by all messages ([None] is a null pointer). *)
Inductive mem : Type :=
| MScalar (s : scalar)
| MOwn (o : option (list mem))
| MScalars (l : list scalar)
| MPtrs (l : list (option nat))
| MScalarMap (l : list (scalar * scalar))
| MPtrMap (l : list (scalar * option nat)).

(** Members of the objects that are elements of lists and maps, by address. *)
Definition heap : Type := list (list mem).

Definition own_of (x : mem) : option (list mem) := match x with MOwn o => o | _ => None end.
Definition ptrs_of (x : mem) : list (option nat) := match x with MPtrs l => l | _ => [] end.
Definition ptr_map_of (x : mem) : list (scalar * option nat) :=
  match x with MPtrMap l => l | _ => [] end.

(** messagedefinitionprinter.cpp 149-198, fieldCount 0: the default constructor. *)
Definition default_mem (ty : fty) : mem :=
  match ty with
  | FSing (ES t) => MScalar (default_scalar t)
  | FSing (EM _) => MOwn None
  | FRep (ES _) => MScalars []
  | FRep (EM _) => MPtrs []
  | FMap _ (ES _) => MScalarMap []
  | FMap _ (EM _) => MPtrMap []
  end.
Definition default_mems (sch : schema) (m : nat) : list mem :=
  map (fun f => default_mem (f_ty f)) (md_fields (msg_at sch m)).

(** ** Comparison of plain members *)

(** operator== of QSharedPointer compares the pointers. *)
Definition ptr_eqb (a b : option nat) : bool :=
  match a, b with
  | None, None => true
  | Some x, Some y => Nat.eqb x y
  | _, _ => false
  end.

(** operator== of QMap: same size, keys neither less nor greater, equal values, pairwise. *)
Definition qmap_eqb {A : Type} (k : sty) (eq : A -> A -> bool) (a b : list (scalar * A)) : bool :=
  list_eqb (fun p q => negb (key_ltb k (fst p) (fst q)) && negb (key_ltb k (fst q) (fst p))
                       && eq (snd p) (snd q)) a b.

(** operator== of the member type, as used by the setters. *)
Definition mem_eqb (ty : fty) (x y : mem) : bool :=
  match ty, x, y with
  | FSing (ES t), MScalar a, MScalar b => scalar_eqb t a b
  | FRep (ES t), MScalars a, MScalars b => list_eqb (scalar_eqb t) a b
  | FRep (EM _), MPtrs a, MPtrs b => list_eqb ptr_eqb a b
  | FMap k (ES t), MScalarMap a, MScalarMap b => qmap_eqb k (scalar_eqb t) a b
  | FMap k (EM _), MPtrMap a, MPtrMap b => qmap_eqb k ptr_eqb a b
  | _, _, _ => false
  end.

(** ** operator== of a message *)

Section Equality.
  Variable sch : schema.
  Variable h : heap.
  (** operator== of nested objects of type [m]. *)
  Variable rec : nat -> list mem -> list mem -> res bool.

  (** *m_x of a lazy pointer, qprotobuflazymessagepointer.h 47-52.  Simplification: the created
      object is not stored, which is visible neither to comparison nor to serialization. *)
  Definition deref (m : nat) (p : option (list mem)) : list mem :=
    match p with Some o => o | None => default_mems sch m end.

  (** QProtobufLazyMessagePointer::operator==, qprotobuflazymessagepointer.h 68-73. *)
  Definition lazy_eq (m : nat) (p q : option (list mem)) : res bool :=
    match p, q with
    | None, None => Ok true
    | Some x, None => rec m x (default_mems sch m)
    | None, Some y => rec m y (default_mems sch m)
    | Some x, Some y => rec m x y
    end.

  (** templates.cpp 170-171: m_x == other.m_x || *m_x == *other.m_x. *)
  Definition message_eq (m : nat) (p q : option (list mem)) : res bool :=
    r <- lazy_eq m p q ;; if r then Ok true else rec m (deref m p) (deref m q).

  (** Comparison of two QSharedPointers in repeatedValueCompare: equal pointers, or equal objects;
      *ptr of a null pointer is undefined. *)
  Definition pointee_eq (m : nat) (p q : option nat) : res bool :=
    if ptr_eqb p q then Ok true else
    match p, q with
    | Some a, Some b =>
        match nth_error h a, nth_error h b with
        | Some x, Some y => rec m x y
        | _, _ => UB DanglingRef
        end
    | _, _ => UB NullDeref
    end.

  (** qtprotobuftypes.h 278-294: lists of messages. *)
  Fixpoint list_compare (m : nat) (a b : list (option nat)) : res bool :=
    match a, b with
    | p :: a', q :: b' =>
        r <- pointee_eq m p q ;; if r then list_compare m a' b' else Ok false
    | _, _ => Ok true
    end.
  Definition repeatedValueCompare (m : nat) (a b : list (option nat)) : res bool :=
    if Nat.eqb (length a) (length b) then list_compare m a b else Ok false.

  (** QMap::value with a null pointer as default. *)
  Fixpoint qmap_value (k : sty) (key : scalar) (l : list (scalar * option nat)) : option nat :=
    match l with
    | [] => None
    | (a, p) :: l' =>
        if key_ltb k key a || key_ltb k a key then qmap_value k key l' else p
    end.

  (** qtprotobuftypes.h 301-315: maps to messages. *)
  Fixpoint map_compare (k : sty) (m : nat) (a b : list (scalar * option nat)) : res bool :=
    match a with
    | [] => Ok true
    | (key, p) :: a' =>
        r <- pointee_eq m (qmap_value k key b) p ;;
        if r then map_compare k m a' b else Ok false
    end.
  Definition repeatedMapCompare (k : sty) (m : nat) (a b : list (scalar * option nat)) : res bool :=
    if Nat.eqb (length a) (length b) then map_compare k m a b else Ok false.

  (** messagedefinitionprinter.cpp 334-340: comparison of one member. *)
  Definition field_eq (ty : fty) (x y : mem) : res bool :=
    match ty with
    | FSing (EM m) => message_eq m (own_of x) (own_of y)
    | FRep (EM m) => repeatedValueCompare m (ptrs_of x) (ptrs_of y)
    | FMap k (EM m) => repeatedMapCompare k m (ptr_map_of x) (ptr_map_of y)
    | _ => Ok (mem_eqb ty x y)
    end.

  (** messagedefinitionprinter.cpp 314-353: the conjunction over all fields, with short cut. *)
  Fixpoint fields_eq (fields : list field) (xs ys : list mem) : res bool :=
    match fields, xs, ys with
    | f :: fields', x :: xs', y :: ys' =>
        r <- field_eq (f_ty f) x y ;; if r then fields_eq fields' xs' ys' else Ok false
    | _, _, _ => Ok true
    end.
End Equality.

(** operator== of message type [m]; fuel bounds the nesting depth. *)
Fixpoint eq_obj (fuel : nat) (sch : schema) (h : heap) (m : nat) (xs ys : list mem) : res bool :=
  match fuel with
  | O => OutOfFuel
  | S fuel' => fields_eq sch h (eq_obj fuel' sch h) (md_fields (msg_at sch m)) xs ys
  end.

(** operator!=, templates.cpp 175-177. *)
Definition ne_obj (fuel : nat) (sch : schema) (h : heap) (m : nat) (xs ys : list mem) : res bool :=
  r <- eq_obj fuel sch h m xs ys ;; Ok (negb r).

(** ** Setters

    A setter returns the new member and whether the change signal is emitted. *)

(** templates.cpp 222-235: plain members and containers. *)
Definition set_plain (ty : fty) (old new : mem) : mem * bool :=
  if mem_eqb ty old new then (old, false) else (new, true).

(** ** Copy and move *)

Section Copy.
  Variable sch : schema.
  Variable h : heap.
  Variable fuel : nat.
  (** Copy assignment of nested objects. *)
  Variable rec : nat -> list mem -> list mem -> res (list mem * list nat).

  (** templates.cpp 129-132: assignment of a message member.  The objects are different ones that do
      not contain each other (nested objects are owned). *)
  Definition assign_message (m : nat) (p q : option (list mem))
    : res (option (list mem) * bool) :=
    r <- lazy_eq sch (eq_obj fuel sch h) m p q ;;
    if r then Ok (p, false) else
    '(o, _) <- rec m (deref sch m p) (deref sch m q) ;; Ok (Some o, true).

  Definition assign_field (ty : fty) (x y : mem) : res (mem * bool) :=
    match ty with
    | FSing (EM m) =>
        '(o, s) <- assign_message m (own_of x) (own_of y) ;; Ok (MOwn o, s)
    | _ => Ok (set_plain ty x y)
    end.

  (** messagedefinitionprinter.cpp 231-242: all fields in order.  Result: the members and the
      positions of the fields whose change signal is emitted; [i] is the first position. *)
  Fixpoint assign_fields (i : nat) (fields : list field) (xs ys : list mem)
    : res (list mem * list nat) :=
    match fields, xs, ys with
    | f :: fields', x :: xs', y :: ys' =>
        '(x', s) <- assign_field (f_ty f) x y ;;
        '(xs'', sigs) <- assign_fields (S i) fields' xs' ys' ;;
        Ok (x' :: xs'', if s : bool then i :: sigs else sigs)
    | _, _, _ => Ok (xs, [])
    end.
End Copy.

(** operator=(const T &). *)
Fixpoint assign (fuel : nat) (sch : schema) (h : heap) (m : nat) (xs ys : list mem)
  : res (list mem * list nat) :=
  match fuel with
  | O => OutOfFuel
  | S fuel' =>
      assign_fields sch h fuel' (assign fuel' sch h) 0 (md_fields (msg_at sch m)) xs ys
  end.

(** templates.cpp 215-220: setX(const T &) of a message member. *)
Definition set_message (fuel : nat) (sch : schema) (h : heap) (m : nat)
  (p : option (list mem)) (new : list mem) : res (option (list mem) * bool) :=
  r <- eq_obj fuel sch h m (deref sch m p) new ;;
  if r then Ok (p, false) else
  '(o, _) <- assign fuel sch h m (deref sch m p) new ;; Ok (Some o, true).

(** messagedefinitionprinter.cpp 211-229: the copy constructor.  Members of the types float,
    double, bool, enum, uint32, uint64, sint32, sint64 have no initializer: the setter compares with an
    indeterminate value [junk] (strictly undefined; modelled as an arbitrary value of the
    type). *)
Definition raw_type (t : sty) : bool :=
  match t with
  | TFloat | TDouble | TBool | TEnum | TUInt32 | TUInt64 | TSInt32 | TSInt64 => true
  | _ => false
  end.
Fixpoint raw_mems (junk : nat -> scalar) (i : nat) (fields : list field) : list mem :=
  match fields with
  | [] => []
  | f :: fields' =>
      match f_ty f with
      | FSing (ES t) => if raw_type t then MScalar (junk i) else default_mem (f_ty f)
      | ty => default_mem ty
      end :: raw_mems junk (S i) fields'
  end.
Definition copy_construct (fuel : nat) (sch : schema) (h : heap) (junk : nat -> scalar) (m : nat)
  (ys : list mem) : res (list mem) :=
  match fuel with
  | O => OutOfFuel
  | S fuel' =>
      '(xs, _) <- assign_fields sch h fuel' (assign fuel' sch h) 0 (md_fields (msg_at sch m))
                    (raw_mems junk 0 (md_fields (msg_at sch m))) ys ;;
      Ok xs
  end.

(** ** Move *)

Section Move.
  Variable sch : schema.
  Variable h : heap.
  Variable fuel : nat.
  (** Move assignment of nested objects: the new target and what is left of the source. *)
  Variable rec : nat -> list mem -> list mem -> res (list mem * list mem).

  (** templates.cpp 133-140: message members. *)
  Definition move_message (m : nat) (p q : option (list mem))
    : res (option (list mem) * option (list mem)) :=
    r <- lazy_eq sch (eq_obj fuel sch h) m p q ;;
    if r then Ok (p, q) else
    '(o, o') <- rec m (deref sch m p) (deref sch m q) ;; Ok (Some o, Some o').

  (** messagedefinitionprinter.cpp 290-308.  Numbers: setX(std::exchange(other.m_x, 0)), 150-151;
      enums: copied, 152; strings and containers: moved if different, 141-145; Qt's move
      assignment exchanges the contents. *)
  Definition move_field (ty : fty) (x y : mem) : res (mem * mem) :=
    match ty with
    | FSing (EM m) =>
        '(o, o') <- move_message m (own_of x) (own_of y) ;; Ok (MOwn o, MOwn o')
    | FSing (ES TEnum) => Ok (y, y)
    | FSing (ES t) =>
        if is_blob t then if mem_eqb ty x y then Ok (x, y) else Ok (y, x)
        else Ok (fst (set_plain ty x y), MScalar (SNum 0))
    | _ => if mem_eqb ty x y then Ok (x, y) else Ok (y, x)
    end.

  Fixpoint move_fields (fields : list field) (xs ys : list mem) : res (list mem * list mem) :=
    match fields, xs, ys with
    | f :: fields', x :: xs', y :: ys' =>
        '(x', y') <- move_field (f_ty f) x y ;;
        '(xs'', ys'') <- move_fields fields' xs' ys' ;;
        Ok (x' :: xs'', y' :: ys'')
    | _, _, _ => Ok (xs, ys)
    end.
End Move.

(** operator=(T &&). *)
Fixpoint move_assign (fuel : nat) (sch : schema) (h : heap) (m : nat) (xs ys : list mem)
  : res (list mem * list mem) :=
  match fuel with
  | O => OutOfFuel
  | S fuel' =>
      move_fields sch h fuel' (move_assign fuel' sch h) (md_fields (msg_at sch m)) xs ys
  end.

(** messagedefinitionprinter.cpp 256-286: the move constructor.  Strings and containers are moved
    without comparison (templates.cpp 147-148) into the newly constructed member. *)
Definition move_construct_field (fuel : nat) (sch : schema) (h : heap) (ty : fty) (x y : mem)
  : res (mem * mem) :=
  match ty with
  | FSing (EM _) | FSing (ES TEnum) => move_field sch h fuel (move_assign fuel sch h) ty x y
  | FSing (ES t) =>
      if is_blob t then Ok (y, x) else move_field sch h fuel (move_assign fuel sch h) ty x y
  | _ => Ok (y, x)
  end.
Fixpoint move_construct_fields (fuel : nat) (sch : schema) (h : heap) (fields : list field)
  (xs ys : list mem) : res (list mem * list mem) :=
  match fields, xs, ys with
  | f :: fields', x :: xs', y :: ys' =>
      '(x', y') <- move_construct_field fuel sch h (f_ty f) x y ;;
      '(xs'', ys'') <- move_construct_fields fuel sch h fields' xs' ys' ;;
      Ok (x' :: xs'', y' :: ys'')
  | _, _, _ => Ok (xs, ys)
  end.
Definition move_construct (fuel : nat) (sch : schema) (h : heap) (junk : nat -> scalar) (m : nat)
  (ys : list mem) : res (list mem * list mem) :=
  move_construct_fields fuel sch h (md_fields (msg_at sch m))
    (raw_mems junk 0 (md_fields (msg_at sch m))) ys.

(** ** deserialize

    qabstractprotobufserializer.h 97-111: a new object is filled and assigned to the target,
    whether an exception passes or not.  [filled] are the members of newValue. *)
Definition deserialize_into (fuel : nat) (sch : schema) (h : heap) (m : nat)
  (target filled : list mem) : res (list mem) :=
  '(xs, _) <- assign fuel sch h m target filled ;; Ok xs.

(** ** Setters on an object and sequences of operations *)

Fixpoint upd {A : Type} (i : nat) (a : A) (l : list A) : list A :=
  match l, i with
  | [], _ => []
  | _ :: l', O => a :: l'
  | x :: l', S i' => x :: upd i' a l'
  end.

(** Call of the setter of field [i] of an object of type [m]; for a message field the argument is
    [MOwn (Some o)].  Result: members and whether the change signal was emitted.
    templates.cpp 206-241. *)
Definition set_field (fuel : nat) (sch : schema) (h : heap) (m : nat) (xs : list mem) (i : nat)
  (new : mem) : res (list mem * bool) :=
  let old := nth i xs (MOwn None) in
  match f_ty (field_at sch m i) with
  | FSing (EM m') =>
      '(o, s) <- set_message fuel sch h m' (own_of old) (deref sch m' (own_of new)) ;;
      Ok (upd i (MOwn o) xs, s)
  | ty => let '(x, s) := set_plain ty old new in Ok (upd i x xs, s)
  end.

(** Setter calls one after the other; the result lists the position of each call that emitted
    its signal, in order. *)
Fixpoint set_fields (fuel : nat) (sch : schema) (h : heap) (m : nat) (xs : list mem)
  (calls : list (nat * mem)) : res (list mem * list nat) :=
  match calls with
  | [] => Ok (xs, [])
  | (i, new) :: calls' =>
      '(xs', s) <- set_field fuel sch h m xs i new ;;
      '(xs'', sigs) <- set_fields fuel sch h m xs' calls' ;;
      Ok (xs'', if s : bool then i :: sigs else sigs)
  end.

(** ** Modification through accessors

    A modification follows getters to an object and changes one of its members.  Getters:
    a nested message by reference (templates.cpp 184-187), an element of a repeated message field or
    a value of a map by its shared pointer (189-199). *)
Inductive step : Type :=
| Nested (i : nat)
| Element (i j : nat)
| Entry (i : nat) (k : sty) (key : scalar).

Definition nested_type (sch : schema) (m i : nat) : nat :=
  match f_ty (field_at sch m i) with FSing (EM m') | FRep (EM m') | FMap _ (EM m') => m' | _ => 0%nat end.

(** Change of member [i] of the object reached by [path] from an object of type [m] with the
    members [xs].  [None]: the path leads nowhere (null or dangling pointer). *)
Fixpoint modify (sch : schema) (path : list step) (i : nat) (new : mem) (m : nat) (xs : list mem)
  (h : heap) : option (list mem * heap) :=
  let through (p : option nat) (path' : list step) (m' : nat) :=
    match p with
    | None => None
    | Some a =>
        match nth_error h a with
        | None => None
        | Some o =>
            match modify sch path' i new m' o h with
            | None => None
            | Some (o', h') => Some (xs, upd a o' h')
            end
        end
    end in
  match path with
  | [] => Some (upd i new xs, h)
  | Nested j :: path' =>
      let m' := nested_type sch m j in
      match modify sch path' i new m' (deref sch m' (own_of (nth j xs (MOwn None)))) h with
      | None => None
      | Some (o', h') => Some (upd j (MOwn (Some o')) xs, h')
      end
  | Element j n :: path' =>
      through (nth n (ptrs_of (nth j xs (MOwn None))) None) path' (nested_type sch m j)
  | Entry j k key :: path' =>
      through (qmap_value k key (ptr_map_of (nth j xs (MOwn None)))) path' (nested_type sch m j)
  end.

Fixpoint modify_all (sch : schema) (mods : list (list step * nat * mem)) (m : nat) (xs : list mem)
  (h : heap) : option (list mem * heap) :=
  match mods with
  | [] => Some (xs, h)
  | (path, i, new) :: mods' =>
      match modify sch path i new m xs h with
      | None => None
      | Some (xs', h') => modify_all sch mods' m xs' h'
      end
  end.

(** What exactly a serialized message looks like after it is deserialized.

    [arrives sch m obj r]: [r] are the member values of the object of type [m] that a receiver should get for
    the sender's member values [obj].  Nothing is compared up to operator== here: floating point numbers are
    bit patterns, null and empty strings are told apart, and so are nested messages that are not there and those
    with default values.  Nothing of the serializer model is used. *)

From Coq Require Import ZArith List Bool.
From Verif Require Import Base Values.
Import ListNotations.
Open Scope Z_scope.

(** A singular field: the number itself, except that a negative zero arrives as zero (bit patterns 2^31 and 2^63);
    an empty string arrives as the null string a new message holds, any other as it is. *)
Definition single_back (t : sty) (s : scalar) : scalar :=
  match t, s with
  | TFloat, SNum z => if z =? 2 ^ 31 then SNum 0 else SNum z
  | TDouble, SNum z => if z =? 2 ^ 63 then SNum 0 else SNum z
  | _, SStr _ [] => SStr true []
  | _, SStr _ bs => SStr false bs
  | _, SNum z => SNum z
  end.

(** An element of a list: the number itself, bit for bit; strings are never null. *)
Definition element_back (s : scalar) : scalar :=
  match s with SStr _ bs => SStr false bs | SNum z => SNum z end.

Section Arrives.
  Variable sch : schema.

  Inductive arrives : nat -> list value -> list value -> Prop :=
  | arrives_message m fs rs : arrives_fields (md_fields (msg_at sch m)) fs rs -> arrives m fs rs
  with arrives_fields : list field -> list value -> list value -> Prop :=
  | arrives_end : arrives_fields [] [] []
  | arrives_next f fields x fs y rs :
      arrives_field (f_ty f) x y -> arrives_fields fields fs rs ->
      arrives_fields (f :: fields) (x :: fs) (y :: rs)
  with arrives_field : fty -> value -> value -> Prop :=
  | arrives_single t s : arrives_field (FSing (ES t)) (VScalar s) (VScalar (single_back t s))
  (* a nested message that is not there arrives as a message with default values *)
  | arrives_created m r :
      arrives m (default_obj sch m) r -> arrives_field (FSing (EM m)) VNull (VMsg r)
  | arrives_nested m fs r : arrives m fs r -> arrives_field (FSing (EM m)) (VMsg fs) (VMsg r)
  | arrives_repeated e l l' : arrives_list e l l' -> arrives_field (FRep e) (VList l) (VList l')
  | arrives_mapped k e l l' : arrives_map e l l' -> arrives_field (FMap k e) (VMap l) (VMap l')
  (* elements keep their order, null messages are left out *)
  with arrives_list : elty -> list value -> list value -> Prop :=
  | list_end e : arrives_list e [] []
  | list_scalar t s l l' : arrives_list (ES t) l l' ->
      arrives_list (ES t) (VScalar s :: l) (VScalar (element_back s) :: l')
  | list_null m l l' : arrives_list (EM m) l l' -> arrives_list (EM m) (VNull :: l) l'
  | list_message m fs r l l' : arrives m fs r -> arrives_list (EM m) l l' ->
      arrives_list (EM m) (VMsg fs :: l) (VMsg r :: l')
  (* keys and scalar values of maps arrive as they are, entries with null messages are left out *)
  with arrives_map : elty -> list (scalar * value) -> list (scalar * value) -> Prop :=
  | map_end e : arrives_map e [] []
  | map_scalar t k s l l' : arrives_map (ES t) l l' ->
      arrives_map (ES t) ((k, VScalar s) :: l) ((k, VScalar s) :: l')
  | map_null m k l l' : arrives_map (EM m) l l' -> arrives_map (EM m) ((k, VNull) :: l) l'
  | map_message m k fs r l l' : arrives m fs r -> arrives_map (EM m) l l' ->
      arrives_map (EM m) ((k, VMsg fs) :: l) ((k, VMsg r) :: l').
End Arrives.

(** Model of the conversions of numbers: qtprotobuf.cpp 36-55, qtprotobuftypes.h 84-96, the generator's properties for QML and
    src/protobuf/quick/qtprotobufquickplugin.cpp. *)

From Coq Require Import ZArith List Bool.
From Verif Require Import Base Values JsonModel NumberSpec.
Import ListNotations.
Open Scope Z_scope.

(** C++ conversion between integer types (modulo, as compilers define it for types with a sign). *)
Definition integer (signed : bool) (w z : Z) : Z := if signed then toS w z else wrapU w z.
Definition of_kind (k : kind) (z : Z) : Z :=
  match k with KInt => integer true 32 z | KUInt => integer false 32 z | KLong => integer true 64 z | KULong => integer false 64 z end.

(** C++ conversion of a floating point number to an integer type: undefined if the number without its fraction is not in range. *)
Definition truncate (d : double) : option Z :=
  match d with Finite m e => Some (if 0 <=? e then m * 2 ^ e else Z.quot m (2 ^ (- e))) | _ => None end.
Definition in_range (signed : bool) (w z : Z) : bool :=
  if signed then (- 2 ^ (w - 1) <=? z) && (z <? 2 ^ (w - 1)) else (0 <=? z) && (z <? 2 ^ w).
Definition of_double (signed : bool) (w : Z) (d : double) : res Z :=
  match truncate d with
  | Some z => if in_range signed w z then Ok z else UB SignedOverflow
  | None => UB SignedOverflow
  end.

(** C++ conversion of an integer to double: to the nearest, ties to even. *)
Definition nearest (z : Z) : Z :=
  let n := Z.log2 z - 52 in
  if n <=? 0 then z else
  let q := z / 2 ^ n in
  let r := z mod 2 ^ n in
  let up := (2 ^ (n - 1) <? r) || ((2 ^ (n - 1) =? r) && Z.odd q) in
  (q + (if up then 1 else 0)) * 2 ^ n.
Definition to_double (z : Z) : double := Finite (if z <? 0 then - nearest (- z) else nearest z) 0.

(** registerBasicConverters<T> with transparent<T>::fromType: the conversions to the type of a field.  There is none from QString. *)
Definition fromType (t : sty) (v : variant) : res (option Z) :=
  match v with
  | VInteger _ z => Ok (Some (integer (has_sign t) (width t) z))
  | VDouble d => z <- of_double (has_sign t) (width t) d ;; Ok (Some z)
  | VString _ => Ok None
  end.

(** transparent<T>::toType and toString: the conversions from it. *)
Definition toType (k : kind) (z : Z) : variant := VInteger k (of_kind k z).
Definition toDouble (z : Z) : variant := VDouble (to_double z).
Definition toText (z : Z) : variant := VString (decimal z).

(** QObject::setProperty of a property of such a type (QMetaProperty::write): the value is converted, and if that is not possible,
    nothing is written. *)
Definition setProperty (t : sty) (old : Z) (v : variant) : res (bool * Z) :=
  r <- fromType t v ;; Ok (match r with Some z => (true, z) | None => (false, old) end).

(** * QML *)

(** generatorcommon.cpp 314-320: SCRIPTABLE of the property of a field that is no list and no map. *)
Definition scriptable (t : sty) : bool := match t with TInt64 | TSInt64 | TFixed64 | TSFixed64 => false | _ => true end.

(** The property of the name of a field that the QML engine sees in classes generated with the option QML: the alias of type int or
    unsigned int, templates.cpp 91-92, generatorcommon.cpp 228-239, 400-407, otherwise the property itself.  The result is the
    C++ type behind it; sint32, uint32, uint64 are aliases of such types, qtprotobuftypes.h.  Other types are left out. *)
Definition qml_type (t : sty) : option kind :=
  match t with
  | TInt32 | TSFixed32 => Some KInt
  | TFixed32 => Some KUInt
  | TSInt32 => if scriptable t then Some KInt else None
  | TUInt32 => if scriptable t then Some KUInt else None
  | TUInt64 => if scriptable t then Some KULong else None
  | TSInt64 => if scriptable t then Some KLong else None
  | TInt64 | TFixed64 | TSFixed64 => None
  | _ => None
  end.

(** The number that QML reads: the engine takes int and unsigned int as they are and turns other integers into double. *)
Definition qml_reads (t : sty) (z : Z) : option double :=
  match qml_type t with
  | Some KInt => Some (Finite (of_kind KInt z) 0)
  | Some KUInt => Some (Finite (of_kind KUInt z) 0)
  | Some _ => Some (to_double z)
  | None => None
  end.

(** An assignment of a JavaScript number to an int or unsigned int: ToInt32 and ToUint32 of ECMAScript, then the setter of the alias,
    templates.cpp 236-241, which converts to the type of the field.  Assignments to other types are left out. *)
Definition qml_writes (t : sty) (d : double) : option Z :=
  let n := match truncate d with Some z => z | None => 0 end in
  match qml_type t with
  | Some KInt => Some (integer (has_sign t) (width t) (of_kind KInt n))
  | Some KUInt => Some (integer (has_sign t) (width t) (of_kind KUInt n))
  | _ => None
  end.

(** coverter<T>, qtprotobufquickplugin.cpp 29-34, for int32, fixed32 and sfixed32 (42-44): a text written in QML for a field.
    [parse] is QString::toDouble. *)
Definition coverter (parse : list Z -> double) (t : sty) (s : list Z) : res (option Z) := fromType t (VDouble (parse s)).

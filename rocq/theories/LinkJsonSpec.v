(** Words used to state that programs from the same .proto files understand each other's JSON texts. *)

From Coq Require Import String ZArith List Bool Arith.
From Verif Require Values.
From Verif Require Import JsonSpec GenModel GenSpec GenTypesModel GenTypesSpec GenClassSpec LinkSpec.
Import ListNotations.
Open Scope Z_scope.

(** A text that stands for itself between the quotation marks of a string literal of C++, and in a string that ends with a zero byte. *)
Definition for_itself (s : list Z) : Prop := Forall (fun c => c <> 34 /\ c <> 92 /\ c <> 10 /\ c <> 0) s.

(** All enumerations of the files that are declared at the top level or in a message with a class. *)
Definition enums_of (ps : list proto) : list enum :=
  flat_map (fun p => o_enums p ++ flat_map (fun m => flat_map g_enums (classes m)) (o_messages p))%list ps.

Definition element_of (s : shape) : element := match s with One e | Many e | Assoc _ e => e end.

Section Names.
  (** The JSON name of the field with a number, of a message. *)
  Variable json_name : nat -> Z -> list Z.

  (** What protoc guarantees: the JSON names of a message are distinct; the names of an enumeration are distinct identifiers.  And that it needs no escape
      sequences to write the names, and that enumerators do not only differ in the case of the first letter (see C63). *)
  Definition names_valid (c : message) : Prop :=
    NoDup (map (fun f => json_name (g_id c) (m_number f)) (g_fields c))
    /\ Forall (fun f => Forall JsonSpec.plain (json_name (g_id c) (m_number f))) (g_fields c).
  Definition enum_valid (e : enum) : Prop :=
    NoDup (map (fun v => first_capital (fst v)) (e_values e)) /\ Forall (fun v => identifier (fst v)) (e_values e).
  Definition json_valid (ps : list proto) : Prop :=
    Forall names_valid (classes_of ps) /\ NoDup (map e_id (enums_of ps)) /\ Forall enum_valid (enums_of ps).

  (** The names in JSON texts are those of the files; enumerators get a capital letter. *)
  Definition names_say (ps : list proto) (nm : names) : Prop :=
    forall k c i f, nth_error (classes_of ps) k = Some c -> nth_error (g_fields c) i = Some f ->
      n_json nm k i = json_name (g_id c) (m_number f)
      /\ forall x, In x (enums_of ps) -> element_of (m_shape f) = Enu (e_id x) ->
           n_enum nm k i = map (fun v => (bytes_of (first_capital (fst v)), snd v)) (e_values x).
End Names.

(** * Versions of the files *)

(** The least and the greatest value of an integer type. *)
Definition range (t : ftype) : option (Z * Z) :=
  match t with
  | TInt32 | TSInt32 | TSFixed32 => Some (- 2 ^ 31, 2 ^ 31 - 1)
  | TInt64 | TSInt64 | TSFixed64 => Some (- 2 ^ 63, 2 ^ 63 - 1)
  | TUInt32 | TFixed32 => Some (0, 2 ^ 32 - 1)
  | TUInt64 | TFixed64 => Some (0, 2 ^ 64 - 1)
  | _ => None
  end.
Definition wider (t t' : ftype) : Prop :=
  match range t, range t' with Some (a, b), Some (a', b') => a' <= a /\ b <= b' | _, _ => False end.

Section Versions.
  (** [newer m m']: the message [m'] of the one files is a version of the message [m] of the others. *)
  Context (newer : nat -> nat -> Prop) (ps ps' : list proto).
  Inductive element_json : element -> element -> Prop :=
  | json_simple t : element_json (Simple t) (Simple t)
  | json_wider t t' : wider t t' -> element_json (Simple t) (Simple t')
  | json_message m m' : newer m m' -> element_json (Mess m) (Mess m')
  (** Enumerators may be added. *)
  | json_enum x x' : In x (enums_of ps) -> In x' (enums_of ps') -> incl (e_values x) (e_values x') -> element_json (Enu (e_id x)) (Enu (e_id x')).
  Inductive shape_json : shape -> shape -> Prop :=
  | json_one e e' : element_json e e' -> shape_json (One e) (One e')
  | json_many e e' : element_json e e' -> shape_json (Many e) (Many e')
  | json_map k v v' : element_json v v' -> shape_json (Assoc k v) (Assoc k v').

  (** Fields with the same JSON name have such types.  Fields may be added and removed, get other numbers and be put into another order. *)
  Definition json_versions (json_name json_name' : nat -> Z -> list Z) : Prop :=
    forall c c' f f', In c (classes_of ps) -> In c' (classes_of ps') -> newer (g_id c) (g_id c') ->
      In f (g_fields c) -> In f' (g_fields c') -> json_name (g_id c) (m_number f) = json_name' (g_id c') (m_number f') ->
      shape_json (m_shape f) (m_shape f').
End Versions.

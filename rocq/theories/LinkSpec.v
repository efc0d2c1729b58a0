(** Words used to state that programs from the same .proto files understand each other. *)

From Coq Require Import String ZArith List Bool Arith Permutation.
From Verif Require Values.
From Verif Require Import GenModel GenSpec GenTypesModel GenTypesSpec WireSpec LinkModel.
Import ListNotations.

(** * What the files say about messages *)

(** The types of protobuf and those that the model of the serializer calls the same. *)
Inductive same_type : ftype -> Values.sty -> Prop :=
| same_double : same_type TDouble Values.TDouble
| same_float : same_type TFloat Values.TFloat
| same_int32 : same_type TInt32 Values.TInt32
| same_int64 : same_type TInt64 Values.TInt64
| same_uint32 : same_type TUInt32 Values.TUInt32
| same_uint64 : same_type TUInt64 Values.TUInt64
| same_sint32 : same_type TSInt32 Values.TSInt32
| same_sint64 : same_type TSInt64 Values.TSInt64
| same_fixed32 : same_type TFixed32 Values.TFixed32
| same_fixed64 : same_type TFixed64 Values.TFixed64
| same_sfixed32 : same_type TSFixed32 Values.TSFixed32
| same_sfixed64 : same_type TSFixed64 Values.TSFixed64
| same_bool : same_type TBool Values.TBool
| same_string : same_type TString Values.TString
| same_bytes : same_type TBytes Values.TBytes.

(** The type of a field in a file, and in a schema whose message types are in the order of [cs]. *)
Inductive same_element (cs : list message) : element -> Values.elty -> Prop :=
| element_simple t s : same_type t s -> same_element cs (Simple t) (Values.ES s)
| element_message k c : nth_error cs k = Some c -> same_element cs (Mess (g_id c)) (Values.EM k)
| element_enum e : same_element cs (Enu e) (Values.ES Values.TEnum).
Inductive same_shape (cs : list message) : shape -> Values.fty -> Prop :=
| shape_one e t : same_element cs e t -> same_shape cs (One e) (Values.FSing t)
| shape_many e t : same_element cs e t -> same_shape cs (Many e) (Values.FRep t)
| shape_map k s v t : same_type k s -> same_element cs v t -> same_shape cs (Assoc k v) (Values.FMap s t).

(** The schema lists the messages of the files, each with its fields, by number and type. *)
Definition says (cs : list message) (sch : Values.schema) : Prop :=
  Forall2 (fun c d => Forall2 (fun f x => Values.f_num x = m_number f /\ same_shape cs (m_shape f) (Values.f_ty x))
                              (g_fields c) (Values.md_fields d)) cs sch.

(** * Files and programs *)

(** What protoc guarantees about a message: fields have different numbers, which are in range, and names that do not only differ in case and
    underscores; the types are types. *)
Definition type_exists (s : shape) : Prop :=
  match s with
  | One (Simple t) | Many (Simple t) => simple t
  | Assoc k v => key_type k /\ match v with Simple t => simple t | _ => True end
  | _ => True
  end.
Definition message_valid (c : message) : Prop :=
  NoDup (map m_number (g_fields c)) /\ NoDup (map (fun f => key (m_name f)) (g_fields c))
  /\ Forall (fun f => field_number (m_number f) /\ type_exists (m_shape f)) (g_fields c).
Definition files_valid (ps : list proto) : Prop := NoDup (map g_id (classes_of ps)) /\ Forall message_valid (classes_of ps).

(** A program from these files: all registration functions ran, in any order, and the tables are traversed in any order. *)
Definition program_of (ps : list proto) (qt : list string) (p : program) : Prop :=
  pr_files p = ps /\ Permutation (pr_registered p) (registrations ps qt)
  /\ forall k c, nth_error (classes_of ps) k = Some c -> Permutation (pr_order p k) (seq 0 (List.length (g_fields c))).

(** Messages whose fields can all be serialized (see C62) and that have no field called like a repeated message field with "data"
    appended (see C28; in a class without QML support this may be another repeated message field, whose property is called otherwise);
    fields of Qt types are left out. *)
Definition no_qt (s : shape) : Prop := match s with One e | Many e | Assoc _ e => ~ is_qt e end.
Definition many_messages (s : shape) : Prop := match s with Many (Mess _) | Many (Qt _) => True | _ => False end.
Definition property_called (name n : string) : Prop :=
  exists c, camel_case name c /\
    ((In c ["id"; "property"; "import"] /\ n = c ++ "_proto") \/ (~ In c ["id"; "property"; "import"] /\ n = c))%string.
Definition names_clash (qml : bool) (fs : list mfield) : Prop :=
  exists f g n, In f fs /\ In g fs /\ many_messages (m_shape f)
    /\ property_called (m_name f) n /\ property_called (m_name g) (n ++ "Data")%string /\ (qml = true \/ ~ many_messages (m_shape g)).
Definition names_fine (qml : bool) (c : message) : Prop := ~ names_clash qml (g_fields c).
Definition usable (ps : list proto) (qt : list string) (qml : bool) : Prop :=
  Forall (fun c => names_fine qml c /\ Forall (fun f => shape_supported ps qt (m_shape f) /\ no_qt (m_shape f)) (g_fields c)) (classes_of ps).

(** * Versions of files *)

(** [newer m m']: the message [m'] of the other files is a version of the message [m]. *)
Section Versions.
  Context (newer : nat -> nat -> Prop).
  Inductive element_kept : element -> element -> Prop :=
  | kept_simple t : element_kept (Simple t) (Simple t)
  | kept_message m m' : newer m m' -> element_kept (Mess m) (Mess m')
  | kept_enum e e' : element_kept (Enu e) (Enu e').
  Inductive shape_kept : shape -> shape -> Prop :=
  | kept_one e e' : element_kept e e' -> shape_kept (One e) (One e')
  | kept_many e e' : element_kept e e' -> shape_kept (Many e) (Many e')
  | kept_map k v v' : element_kept v v' -> shape_kept (Assoc k v) (Assoc k v').

  (** Fields with the same number keep their type.  Fields may be added, removed, renamed and put into another order. *)
  Definition files_versions (ps ps' : list proto) : Prop :=
    forall c c' f f', In c (classes_of ps) -> In c' (classes_of ps') -> newer (g_id c) (g_id c') ->
      In f (g_fields c) -> In f' (g_fields c') -> m_number f = m_number f' -> shape_kept (m_shape f) (m_shape f').
End Versions.

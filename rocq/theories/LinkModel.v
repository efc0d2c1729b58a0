(** A program: the classes of its messages, as the generator writes them, with the serializer that finds its way through them at
    run time.  This ties the models of the generator (GenModel, GenTypesModel) to that of the serializer (MessageModel), which works
    on a [Values.schema]. *)

From Coq Require Import String ZArith List Bool Arith.
From Verif Require Values.
From Verif Require Import GenModel GenTypesModel GenBodyModel.
Import ListNotations.

(** * Fields *)

(** FieldDescriptor::type(): maps are repeated fields of a message type that protoc makes; see GenModel.field.  The name in JSON,
    which is not used here, is left out. *)
Definition element_ftype (e : element) : ftype := match e with Simple t => t | Mess _ | Qt _ => TMessage | Enu _ => TEnum end.
Definition element_message (e : element) : option nat := match e with Mess m => Some m | _ => None end.
Definition element_qt (e : element) : bool := match e with Qt _ => true | _ => false end.
Definition descriptor_field (f : mfield) : field :=
  match m_shape f with
  | One e => mkField (m_name f) (m_number f) "" (element_ftype e) false false (element_message e) None (element_qt e)
  | Many e => mkField (m_name f) (m_number f) "" (element_ftype e) true false (element_message e) None (element_qt e)
  | Assoc _ v => mkField (m_name f) (m_number f) "" TMessage true true None (element_message v) (element_qt v)
  end.

(** * Programs *)

(** The .proto files its classes are generated from, whether they are generated for QML (GeneratorOptions::hasQml), what is
    registered with the serializer (in the order in which the registration functions ran), and in which order the table
    propertyOrdering of the class at each position, a std::unordered_map, is traversed: positions of fields. *)
Record program : Type := mkProgram {
  pr_files : list proto; pr_qml : bool; pr_registered : list (ctype * handler); pr_order : nat -> list nat
}.

(** The classes generated for files, messagedefinitionprinter.cpp 40-59. *)
Definition program_classes (p : program) : list message := flat_map (fun f => flat_map classes (o_messages f)) (pr_files p).

(** Position of the class of a message. *)
Fixpoint position_from (i : nat) (l : list message) (m : nat) : option nat :=
  match l with [] => None | c :: l' => if Nat.eqb (g_id c) m then Some i else position_from (S i) l' m end.
Definition position (p : program) (m : nat) : option nat := position_from 0 (program_classes p) m.

(** The branch of MessageModel.deserializeElement and serializeElement that a handler stands for: that of a number or text of a
    type, qprotobufserializer.cpp 181-216, of an object, 106-117, or of an enumeration, 157-172.  Handlers for Qt types are not modelled there. *)
Definition handled_element (p : program) (h : handler) : option Values.elty :=
  match h with
  | HSimple t => Some (Values.ES (sty_of t))
  | HObject m => option_map Values.EM (position p m)
  | HEnum _ => Some (Values.ES Values.TEnum)
  | _ => None
  end.
(** The same for a field: qprotobufserializer.cpp 181-216 and qabstractprotobufserializer.h 286-333. *)
Definition handled_field (p : program) (hs : list handler) : option Values.fty :=
  match hs with
  | [HSimples t] => Some (Values.FRep (Values.ES (sty_of t)))
  | [HList m] => option_map (fun k => Values.FRep (Values.EM k)) (position p m)
  | [HEnumList _] => Some (Values.FRep (Values.ES Values.TEnum))
  | [HMap _ _; HSimple k; h] => option_map (Values.FMap (sty_of k)) (handled_element p h)
  | [h] => option_map Values.FSing (handled_element p h)
  | _ => None
  end.

(** The field whose value a property holds and how it is serialized: by the type of the property, qprotobufserializer.cpp 258-283,
    311-322.  There is no handler for the types of the views for QML (int and QQmlListProperty). *)
Definition accessed (p : program) (c : message) (x : property) : option (nat * Values.fty) :=
  match p_access x with
  | Stored =>
      match nth_error (g_fields c) (p_field x) with
      | Some f =>
          match field_handlers (pr_registered p) (m_shape f) with
          | Some hs => option_map (pair (p_field x)) (handled_field p hs)
          | None => None
          end
      | None => None
      end
  | Alias | QmlList => None
  end.

(** What deserialization does with a field number, qprotobufserializer.cpp 297-324: the position of the field that is set and how its value
    is read.  None: there is no such field, or an exception is thrown. *)
Definition read_as (p : program) (c : message) (number : Z) : option (nat * Values.fty) :=
  match deserialized_property (pr_qml p) (map descriptor_field (g_fields c)) number with
  | Some x => accessed p c x
  | None => None
  end.

(** What serialization does with an entry of the table, qprotobufserializer.cpp 84-93: the position of the field that is taken and how its
    value is written. *)
Definition written_as (p : program) (c : message) (number : Z) : option (nat * Values.fty) :=
  match serialized_property (pr_qml p) (map descriptor_field (g_fields c)) number with
  | Some x => accessed p c x
  | None => None
  end.

(** * Running a program

    The model of the serializer finds the same as the program, if it runs with the schema [sch]: for the class at position [k], for each
    entry of the table the number, the field and its type, for other numbers nothing, and the entries in the same order. *)
Definition looked_up (sch : Values.schema) (k : nat) (number : Z) : option (nat * Values.fty) :=
  option_map (fun i => (i, Values.f_ty (Values.field_at sch k i))) (Values.find_field (Values.msg_at sch k) number).

Definition runs_as (p : program) (sch : Values.schema) : Prop :=
  length sch = length (program_classes p) /\
  forall k c, nth_error (program_classes p) k = Some c ->
    map Values.f_num (Values.md_fields (Values.msg_at sch k)) = map fst (fields_ordering 0 (map descriptor_field (g_fields c)))
    /\ Values.md_order (Values.msg_at sch k) = pr_order p k
    /\ forall n, read_as p c n = looked_up sch k n /\ written_as p c n = looked_up sch k n.

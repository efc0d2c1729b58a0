(** A program that uses the JSON serializer: how it finds its way through the generated classes by the names that the generator writes
    into the tables and by the enumerators that it declares.  This ties the models of the generator (GenModel, GenTypesModel) to those of the
    JSON serializer (JsonModel, JsonReadModel), which work on a [Values.schema] and on [JsonSpec.names]. *)

From Coq Require Import String ZArith List Bool Arith.
From Verif Require Values JsonModel JsonReadModel.
From Verif Require Import JsonSpec GenModel GenTypesModel GenBodyModel LinkModel.
Import ListNotations.
Open Scope Z_scope.

(** * String literals of C++ *)

Definition octal (c : Z) : bool := (48 <=? c) && (c <=? 55).
(** The digits at the beginning of a text, at most [n] of them, and the rest. *)
Fixpoint digits_of (n : nat) (is : Z -> bool) (s : list Z) : list Z * list Z :=
  match n, s with
  | S n', c :: s' => if is c then let '(ds, r) := digits_of n' is s' in (c :: ds, r) else ([], s)
  | _, _ => ([], s)
  end.
Definition octal_value (ds : list Z) : Z := fold_left (fun v d => v * 8 + (d - 48)) ds 0.
Definition is_hex (c : Z) : bool := match hex_digit c with Some _ => true | None => false end.
Definition hex_value (ds : list Z) : Z := fold_left (fun v d => v * 16 + match hex_digit d with Some x => x | None => 0 end) ds 0.

(** What follows a backslash in a string literal (C++14, [lex.ccon], [lex.phases] and [lex.charset]): the bytes it stands for and the rest.  Other characters stand
    for themselves, as in common compilers.  None: this does not compile. *)
Definition escaped (s : list Z) : option (list Z * list Z) :=
  match s with
  | [] => None
  | c :: s' =>
      if c =? 97 then Some ([7], s') else if c =? 98 then Some ([8], s') else if c =? 102 then Some ([12], s')
      else if c =? 110 then Some ([10], s') else if c =? 114 then Some ([13], s') else if c =? 116 then Some ([9], s')
      else if c =? 118 then Some ([11], s') else if c =? 10 then Some ([], s')
      else if octal c then
        let '(ds, r) := digits_of 3 octal s in if octal_value ds <? 256 then Some ([octal_value ds], r) else None
      else if c =? 120 then
        let '(ds, r) := digits_of (List.length s') is_hex s' in
        match ds with [] => None | _ => if hex_value ds <? 256 then Some ([hex_value ds], r) else None end
      else if c =? 117 then
        let '(ds, r) := digits_of 4 is_hex s' in if (List.length ds =? 4)%nat then Some (utf8 (hex_value ds), r) else None
      else if c =? 85 then
        let '(ds, r) := digits_of 8 is_hex s' in
        if (List.length ds =? 8)%nat && (hex_value ds <? 1114112) then Some (utf8 (hex_value ds), r) else None
      else Some ([c], s')
  end.

(** The bytes of the string literal with the text [s] between its quotation marks.  None: the text is no single literal, as it has a quotation mark or the end of a
    line in it.  (With a quotation mark it could still be two literals, whose bytes are not [s] either.) *)
Fixpoint literal (fuel : nat) (s : list Z) : option (list Z) :=
  match fuel, s with
  | _, [] => Some []
  | O, _ => None
  | S fuel', c :: s' =>
      if (c =? 34) || (c =? 10) then None
      else if c =? 92 then
        match escaped s' with
        | Some (bs, r) => option_map (app bs) (literal fuel' r)
        | None => None
        end
      else option_map (cons c) (literal fuel' s')
  end.

(** The constructor of QString from a pointer: up to the first zero byte; the text is UTF-8. *)
Fixpoint until_nul (s : list Z) : list Z := match s with [] => [] | c :: s' => if c =? 0 then [] else c :: until_nul s' end.

(** The name in the table, templates.cpp 248, for the JSON name of a field, messagedefinitionprinter.cpp 101-103. *)
Definition table_name (json_name : list Z) : option (list Z) := option_map until_nul (literal (List.length json_name) json_name).

(** * Handlers *)

(** The handlers of the JSON serializer itself, qprotobufjsonserializer.cpp 124-154. *)
Definition json_handlers : list (ctype * handler) :=
  (map (fun t => (CSimple t, HSimple t))
     [TInt32; TSFixed32; TSInt32; TSInt64; TInt64; TSFixed64; TUInt32; TFixed32; TUInt64; TFixed64; TBool; TFloat; TDouble; TString; TBytes]
   ++ map (fun t => (CSimples t, HSimples t))
     [TInt32; TInt64; TSInt32; TSInt64; TUInt32; TUInt64; TFixed32; TFixed64; TSFixed32; TSFixed64; TFloat; TDouble; TString; TBytes])%list.

(** serializeValue and deserializeValue, qprotobufjsonserializer.cpp 157-174, 314-333: the registered handlers, then those of the serializer. *)
Definition find_json_handler (regs : list (ctype * handler)) (t : ctype) : option handler :=
  match lookup_type regs t with Some h => Some h | None => lookup_type json_handlers t end.

(** The handlers used for a field: that of its property, and for a map also those of keys and values, qprotobufjsonserializer.cpp 439-442, 452-477. *)
Definition json_field_handlers (regs : list (ctype * handler)) (s : shape) : option (list handler) :=
  match find_json_handler regs (property_type s), s with
  | None, _ => None
  | Some h, Assoc k v =>
      match find_json_handler regs (named (simple_full_type k)), find_json_handler regs (value_type v) with
      | Some hk, Some hv => Some [h; hk; hv]
      | _, _ => None
      end
  | Some h, _ => Some [h]
  end.

(** The field whose value a property holds and the type as which JsonModel and JsonReadModel treat it; as [LinkModel.accessed]. *)
Definition json_accessed (p : program) (c : message) (x : property) : option (nat * Values.fty) :=
  match p_access x with
  | Stored =>
      match nth_error (g_fields c) (p_field x) with
      | Some f =>
          match json_field_handlers (pr_registered p) (m_shape f) with
          | Some hs => option_map (pair (p_field x)) (handled_field p hs)
          | None => None
          end
      | None => None
      end
  | Alias | QmlList => None
  end.

(** QMetaEnum::fromType<T>(), qabstractprotobufserializer_p.h 147-167, 249-274: the enumerators of the enumeration whose handler is used, as they are
    declared, in this order. *)
Definition declared_enums (p : program) : list enum :=
  flat_map (fun f => o_enums f ++ flat_map (fun m => flat_map g_enums (classes m)) (o_messages f))%list (pr_files p).
Definition meta_enum (p : program) (e : nat) : list (list Z * Z) :=
  match find (fun x => Nat.eqb (e_id x) e) (declared_enums p) with
  | Some x => map (fun v => (bytes_of (fst v), snd v)) (enumerators x)
  | None => []
  end.
Definition handled_enumerators (p : program) (hs : list handler) : list (list Z * Z) :=
  match hs with
  | [HEnum e] | [HEnumList e] | [_; _; HEnum e] => meta_enum p e
  | _ => []
  end.

(** * Tables *)

Section Names.
  (** FieldDescriptor::json_name() of the field with a number, of a message: the name after the option json_name, or the one that protoc makes. *)
  Variable json_name : nat -> Z -> list Z.

  (** What the writer does with the entry of the table for the field at position [i], qprotobufjsonserializer.cpp 180-196: the name
      of the member, the position of the field that is taken and how its value is written. *)
  Definition json_written (p : program) (c : message) (f : mfield) : option (list Z * (nat * Values.fty)) :=
    match table_name (json_name (g_id c) (m_number f)), serialized_property (pr_qml p) (map descriptor_field (g_fields c)) (m_number f) with
    | Some name, Some x => option_map (pair name) (json_accessed p c x)
    | _, _ => None
    end.

  (** std::find_if over the table, qprotobufjsonserializer.cpp 340-344: the first entry with the name, the entries being visited in the order [order].  [order] has
      the positions of fields; the entry of the field at position [i] has the index [i + 1]. *)
  Fixpoint find_name (c : message) (order : list nat) (name : list Z) : option nat :=
    match order with
    | [] => None
    | i :: order' =>
        match nth_error (g_fields c) i with
        | Some f =>
            match table_name (json_name (g_id c) (m_number f)) with
            | Some n => if JsonReadModel.same_bytes n name then Some (i + 1)%nat else find_name c order' name
            | None => find_name c order' name
            end
        | None => find_name c order' name
        end
    end.

  (** What the reader does with the name of a member, qprotobufjsonserializer.cpp 338-356: the position of the field that is set and how its value is read. *)
  Definition json_read (p : program) (c : message) (order : list nat) (name : list Z) : option (nat * Values.fty) :=
    match find_name c order name with
    | Some index => match meta_property (class_properties (pr_qml p) (map descriptor_field (g_fields c))) index with Some x => json_accessed p c x | None => None end
    | None => None
    end.

  (** The enumerators of the type of a field, for the reader and the writer. *)
  Definition json_enumerators (p : program) (f : mfield) : list (list Z * Z) :=
    match json_field_handlers (pr_registered p) (m_shape f) with Some hs => handled_enumerators p hs | None => [] end.

  (** * Running a program

      The models of the JSON serializer find the same as the program, if they run with the schema [sch] and the names [nm]. *)
  Definition json_found (sch : Values.schema) (nm : names) (k : nat) (name : list Z) : option (nat * Values.fty) :=
    option_map (fun i => (i, Values.f_ty (Values.field_at sch k i)))
               (find (fun i => JsonReadModel.same_bytes (n_json nm k i) name) (Values.md_order (Values.msg_at sch k))).

  Definition json_runs_as (p : program) (sch : Values.schema) (nm : names) : Prop :=
    List.length sch = List.length (program_classes p) /\
    (forall k i, (forall c, nth_error (program_classes p) k = Some c -> nth_error (g_fields c) i = None) -> n_json nm k i = [] /\ n_enum nm k i = []) /\
    forall k c, nth_error (program_classes p) k = Some c ->
      map Values.f_num (Values.md_fields (Values.msg_at sch k)) = map fst (fields_ordering 0 (map descriptor_field (g_fields c)))
      /\ Values.md_order (Values.msg_at sch k) = pr_order p k
      /\ (forall i f, nth_error (g_fields c) i = Some f ->
            json_written p c f = Some (n_json nm k i, (i, Values.f_ty (Values.field_at sch k i))) /\ n_enum nm k i = json_enumerators p f)
      /\ forall name, json_read p c (pr_order p k) name = json_found sch nm k name.
End Names.

(** Model of the code generator, src/generator, fourth part: the bodies that MessageDefinitionPrinter prints for comparison,
    copy and move, as statements, and what these statements do with objects.

    Printed code refers to members by name; here, names are looked up in the class as C++ does.  The objects and what
    library functions do with them are those of ObjectModel. *)

From Coq Require Import String Ascii ZArith List Bool Arith.
From Verif Require Values.
From Verif Require Import Base ObjectModel GenModel GenTypesModel GenClassModel.
Import ListNotations.
Open Scope string_scope.

(** * Statements *)

(** [v] is the name of a member variable.
    CallSetter: set...(other.v);  CallSetterExchange: set...(std::exchange(other.v, 0));
    AssignObject: *v = *other.v;  MoveObject: *v = std::move( *other.v);
    AssignVariable: v = other.v;  MoveVariable: v = std::move(other.v);
    Emit, EmitOther: ...Changed(), other....Changed(). *)
Inductive simple : Type :=
| CallSetter (setter v : string) | CallSetterExchange (setter v : string)
| AssignObject (v : string) | MoveObject (v : string) | AssignVariable (v : string) | MoveVariable (v : string)
| Emit (signal : string) | EmitOther (signal : string).
(** IfDifferent: if (v != other.v) {...}. *)
Inductive statement : Type := Do (s : simple) | IfDifferent (v : string) (body : list simple).

(** Parts of the expression that operator== returns: v == other.v; (v == other.v || *v == *other.v);
    QtProtobuf::repeatedValueCompare(v, other.v). *)
Inductive conjunct : Type := SameVariables (v : string) | SameObjects (v : string) | SameElements (v : string).

(** * What is printed *)

(** CopyFieldTemplate, CopyComplexFieldTemplate, AssignComplexFieldTemplate, templates.cpp 124-132. *)
Definition copy_field (f : mfield) : statement := Do (CallSetter (setter_name f) (variable_name f)).
Definition copy_complex_field (f : mfield) : statement := IfDifferent (variable_name f) [AssignObject (variable_name f)].
Definition assign_complex_field (f : mfield) : statement :=
  IfDifferent (variable_name f) [AssignObject (variable_name f); Emit (signal_name f)].

(** MoveMessageFieldTemplate, MoveAssignMessageFieldTemplate, MoveComplexFieldTemplate, MoveComplexFieldConstructorTemplate,
    MoveFieldTemplate, EnumMoveFieldTemplate, templates.cpp 133-152. *)
Definition move_message_field (f : mfield) : list statement := [IfDifferent (variable_name f) [MoveObject (variable_name f)]].
Definition move_assign_message_field (f : mfield) : list statement :=
  [IfDifferent (variable_name f) [MoveObject (variable_name f); Emit (signal_name f); EmitOther (signal_name f)]].
Definition move_complex_field (f : mfield) : list statement :=
  [IfDifferent (variable_name f) [MoveVariable (variable_name f); Emit (signal_name f); EmitOther (signal_name f)]].
Definition move_complex_field_constructor (f : mfield) : list statement :=
  [Do (MoveVariable (variable_name f)); Do (EmitOther (signal_name f))].
Definition move_plain_field (f : mfield) : list statement :=
  [Do (CallSetterExchange (setter_name f) (variable_name f)); Do (EmitOther (signal_name f))].
Definition move_enum_field (f : mfield) : list statement := [Do (AssignVariable (variable_name f))].

(** printCopyFunctionality, messagedefinitionprinter.cpp 211-242: the statements of the copy constructor and of the assignment. *)
Definition copy_body (m : message) : list statement :=
  map (fun f => if pure_message (m_shape f) then copy_complex_field f else copy_field f) (g_fields m).
Definition assignment_body (m : message) : list statement :=
  map (fun f => if pure_message (m_shape f) then assign_complex_field f else copy_field f) (g_fields m).

(** printMoveSemantic, messagedefinitionprinter.cpp 256-311.  The conditions on type() and is_repeated(). *)
Definition is_enum_type (s : shape) : bool := match s with One (Enu _) | Many (Enu _) => true | _ => false end.
Definition moved_as_whole (s : shape) : bool := message_type s || text_type s || is_repeated s.
Definition move_constructor_body (m : message) : list statement :=
  flat_map (fun f =>
    if moved_as_whole (m_shape f) then
      if pure_message (m_shape f) then move_message_field f else move_complex_field_constructor f
    else if is_enum_type (m_shape f) then move_enum_field f else move_plain_field f) (g_fields m).
Definition move_assignment_body (m : message) : list statement :=
  flat_map (fun f =>
    if moved_as_whole (m_shape f) then
      if pure_message (m_shape f) then move_assign_message_field f else move_complex_field f
    else if is_enum_type (m_shape f) then move_enum_field f else move_plain_field f) (g_fields m).

(** printComparisonOperators, messagedefinitionprinter.cpp 314-353, templates.cpp 165-172.  Without fields, "true" is printed. *)
Definition equality_body (m : message) : list conjunct :=
  map (fun f =>
    if pure_message (m_shape f) then SameObjects (variable_name f)
    else if message_type (m_shape f) && is_repeated (m_shape f) then SameElements (variable_name f)
    else SameVariables (variable_name f)) (g_fields m).

(** Initializers of the copy and the move constructor, messagedefinitionprinter.cpp 213-217, 258-262. *)
Definition copy_initializers (m : message) : list initializer :=
  map (fun f => if pure_message (m_shape f) then INull else INone) (g_fields m).

(** * Types *)

(** The C++ type of a variable, by its shape.  Qt types are left out; see [supported]. *)
Definition sty_of (t : ftype) : Values.sty :=
  match t with
  | TDouble => Values.TDouble | TFloat => Values.TFloat | TInt64 => Values.TInt64 | TUInt64 => Values.TUInt64
  | TInt32 => Values.TInt32 | TFixed64 => Values.TFixed64 | TFixed32 => Values.TFixed32 | TBool => Values.TBool
  | TString => Values.TString | TMessage | TBytes => Values.TBytes | TUInt32 => Values.TUInt32 | TEnum => Values.TEnum
  | TSFixed32 => Values.TSFixed32 | TSFixed64 => Values.TSFixed64 | TSInt32 => Values.TSInt32 | TSInt64 => Values.TSInt64
  end.
Definition elty_of (e : element) : Values.elty :=
  match e with
  | Simple t => Values.ES (sty_of t) | Mess m => Values.EM m | Enu _ => Values.ES Values.TEnum | Qt _ => Values.ES Values.TBytes
  end.
Definition fty_of (s : shape) : Values.fty :=
  match s with One e => Values.FSing (elty_of e) | Many e => Values.FRep (elty_of e) | Assoc k v => Values.FMap (sty_of k) (elty_of v) end.

(** * What statements do *)

(** The position of the first variable of this name. *)
Fixpoint slot_from (i : nat) (fs : list mfield) (v : string) : option nat :=
  match fs with
  | [] => None
  | f :: fs' => if String.eqb (variable_name f) v then Some i else slot_from (S i) fs' v
  end.

(** The functions of a class that have a body. *)
Definition functions (qml field_numbers : bool) (full : string) (m : message) : list (func * body) :=
  (flat_map (fun d => match d with DInline f b => [(f, b)] | _ => [] end) (declarations qml field_numbers full m)
   ++ flat_map (fun d => match d with FFunction f b => [(f, b)] | _ => [] end) (definitions qml full m))%list.
(** The first one of this name with one parameter. *)
Definition find_setter (fs : list (func * body)) (name : string) : option body :=
  option_map snd (find (fun p => String.eqb (fn_name (fst p)) name && Nat.eqb (List.length (fn_params (fst p))) 1) fs).

(** Two objects, the signals that they emitted; if [self], there is only the first one. *)
Record world : Type := mkWorld { w_this : list mem; w_other : list mem; w_emitted : list string; w_other_emitted : list string }.

Section Run.
  Context (sch : Values.schema) (h : heap).
  (** Fields of the class and its functions. *)
  Context (fields : list mfield) (fns : list (func * body)).
  (** Whether [other] is the object itself. *)
  Context (self : bool).
  (** Comparison, assignment and move of nested objects; the flag tells whether both are one object. *)
  Context (rec_eq : nat -> list mem -> list mem -> res bool).
  Context (rec_assign : bool -> nat -> list mem -> list mem -> res (list mem)).
  Context (rec_move : bool -> nat -> list mem -> list mem -> res (list mem * list mem)).

  Definition slot (v : string) : option nat := slot_from 0 fields v.
  Definition type_of (v : string) : Values.fty :=
    match slot v with
    | Some i => match nth_error fields i with Some f => fty_of (m_shape f) | None => Values.FSing (Values.ES Values.TBytes) end
    | None => Values.FSing (Values.ES Values.TBytes)
    end.
  Definition read (v : string) (l : list mem) : res mem :=
    match slot v with
    | Some i => match nth_error l i with Some x => Ok x | None => UB BadIndex end
    | None => UB TypeConfusion
    end.
  Definition write (v : string) (x : mem) (l : list mem) : res (list mem) :=
    match slot v with Some i => Ok (upd i x l) | None => UB TypeConfusion end.

  Definition other_of (w : world) : list mem := if self then w_this w else w_other w.
  Definition with_this (w : world) (l : list mem) : world := mkWorld l (w_other w) (w_emitted w) (w_other_emitted w).
  Definition with_other (w : world) (l : list mem) : world :=
    if self then with_this w l else mkWorld (w_this w) l (w_emitted w) (w_other_emitted w).
  Definition emit (w : world) (s : string) : world := mkWorld (w_this w) (w_other w) (w_emitted w ++ [s])%list (w_other_emitted w).
  Definition emit_other (w : world) (s : string) : world :=
    if self then emit w s else mkWorld (w_this w) (w_other w) (w_emitted w) (w_other_emitted w ++ [s])%list.

  (** operator== of the type of the variable. *)
  Definition same_variables (v : string) (x y : mem) : res bool :=
    match type_of v with
    | Values.FSing (Values.EM m) => lazy_eq sch rec_eq m (own_of x) (own_of y)
    | ty => Ok (mem_eqb ty x y)
    end.

  (** SetterTemplate, SetterTemplateDefinitionComplexType, templates.cpp 222-235. *)
  Definition call_setter (name : string) (new : mem) (w : world) : res world :=
    match find_setter fns name with
    | Some (Stores v signal) =>
        old <- read v (w_this w) ;;
        r <- same_variables v old new ;;
        if r then Ok w else l <- write v new (w_this w) ;; Ok (emit (with_this w l) signal)
    | _ => UB TypeConfusion
    end.

  Definition do_simple (s : simple) (w : world) : res world :=
    match s with
    | CallSetter name v => y <- read v (other_of w) ;; call_setter name y w
    | CallSetterExchange name v =>
        y <- read v (other_of w) ;;
        l <- write v (MScalar (Values.SNum 0)) (other_of w) ;;
        call_setter name y (with_other w l)
    | AssignObject v =>
        x <- read v (w_this w) ;; y <- read v (other_of w) ;;
        match type_of v with
        | Values.FSing (Values.EM m) =>
            o <- rec_assign self m (deref sch m (own_of x)) (deref sch m (own_of y)) ;;
            l <- write v (MOwn (Some o)) (w_this w) ;; Ok (with_this w l)
        | _ => UB TypeConfusion
        end
    | MoveObject v =>
        x <- read v (w_this w) ;; y <- read v (other_of w) ;;
        match type_of v with
        | Values.FSing (Values.EM m) =>
            '(o, o') <- rec_move self m (deref sch m (own_of x)) (deref sch m (own_of y)) ;;
            l <- write v (MOwn (Some o)) (w_this w) ;;
            let w' := with_this w l in
            l' <- write v (MOwn (Some o')) (other_of w') ;; Ok (with_other w' l')
        | _ => UB TypeConfusion
        end
    | AssignVariable v => y <- read v (other_of w) ;; l <- write v y (w_this w) ;; Ok (with_this w l)
    | MoveVariable v =>
        (* Qt's move assignment of strings and containers exchanges the contents. *)
        x <- read v (w_this w) ;; y <- read v (other_of w) ;;
        l <- write v y (w_this w) ;;
        let w' := with_this w l in
        l' <- write v x (other_of w') ;; Ok (with_other w' l')
    | Emit s => Ok (emit w s)
    | EmitOther s => Ok (emit_other w s)
    end.

  Fixpoint do_simples (l : list simple) (w : world) : res world :=
    match l with [] => Ok w | s :: l' => w' <- do_simple s w ;; do_simples l' w' end.

  Definition do_statement (s : statement) (w : world) : res world :=
    match s with
    | Do s => do_simple s w
    | IfDifferent v body =>
        x <- read v (w_this w) ;; y <- read v (other_of w) ;;
        r <- same_variables v x y ;; if r then Ok w else do_simples body w
    end.

  Fixpoint do_statements (l : list statement) (w : world) : res world :=
    match l with [] => Ok w | s :: l' => w' <- do_statement s w ;; do_statements l' w' end.

  Definition eval_conjunct (c : conjunct) (xs ys : list mem) : res bool :=
    match c with
    | SameVariables v => x <- read v xs ;; y <- read v ys ;; same_variables v x y
    | SameObjects v =>
        x <- read v xs ;; y <- read v ys ;;
        match type_of v with
        | Values.FSing (Values.EM m) =>
            r <- same_variables v x y ;;
            if r then Ok true else rec_eq m (deref sch m (own_of x)) (deref sch m (own_of y))
        | _ => UB TypeConfusion
        end
    | SameElements v =>
        x <- read v xs ;; y <- read v ys ;;
        match type_of v with
        | Values.FRep (Values.EM m) => repeatedValueCompare h rec_eq m (ptrs_of x) (ptrs_of y)
        | Values.FMap k (Values.EM m) => repeatedMapCompare h rec_eq k m (ptr_map_of x) (ptr_map_of y)
        | ty => Ok (mem_eqb ty x y)
        end
    end.
  (** && evaluates from left to right and stops at the first false. *)
  Fixpoint eval_conjuncts (l : list conjunct) (xs ys : list mem) : res bool :=
    match l with [] => Ok true | c :: l' => r <- eval_conjunct c xs ys ;; if r then eval_conjuncts l' xs ys else Ok false end.
End Run.

(** * Running what is printed for all classes *)

Section Classes.
  Context (classes : nat -> message) (names : nat -> string) (qml field_numbers : bool) (sch : Values.schema) (h : heap).

  Definition fields_of (m : nat) : list mfield := g_fields (classes m).
  Definition functions_of (m : nat) : list (func * body) := functions qml field_numbers (names m) (classes m).

  (** operator== of the class with number [m]; fuel bounds the depth of nested messages. *)
  Fixpoint run_equal (fuel : nat) (m : nat) (xs ys : list mem) : res bool :=
    match fuel with
    | O => OutOfFuel
    | S n => eval_conjuncts sch h (fields_of m) (run_equal n) (equality_body (classes m)) xs ys
    end.

  (** Assignment: the object afterwards and the signals that it emits. *)
  Fixpoint run_assign (fuel : nat) (self : bool) (m : nat) (xs ys : list mem) : res (list mem * list string) :=
    match fuel with
    | O => OutOfFuel
    | S n =>
        w <- do_statements sch (fields_of m) (functions_of m) self (run_equal n)
               (fun s m xs ys => '(l, _) <- run_assign n s m xs ys ;; Ok l) (fun _ _ _ _ => UB TypeConfusion)
               (assignment_body (classes m)) (mkWorld xs ys [] []) ;;
        Ok (w_this w, w_emitted w)
    end.

  (** Move assignment: both objects afterwards, and their signals. *)
  Fixpoint run_move (fuel : nat) (self : bool) (m : nat) (xs ys : list mem) : res world :=
    match fuel with
    | O => OutOfFuel
    | S n =>
        do_statements sch (fields_of m) (functions_of m) self (run_equal n)
          (fun _ _ _ _ => UB TypeConfusion) (fun s m xs ys => w <- run_move n s m xs ys ;; Ok (w_this w, if s then w_this w else w_other w))
          (move_assignment_body (classes m)) (mkWorld xs ys [] [])
    end.

  (** Members before the body of the copy or move constructor: [junk] is what is found in memory. *)
  Definition initial (junk : Values.scalar) (f : mfield) (x : initializer) : mem :=
    match member_after 0 (m_shape f) x with
    | NullPointer => MOwn None
    | Garbage => MScalar junk
    | _ => default_mem (fty_of (m_shape f))
    end.
  Fixpoint initial_members (junk : nat -> Values.scalar) (i : nat) (fs : list mfield) (xs : list initializer) : list mem :=
    match fs, xs with
    | f :: fs', x :: xs' => initial (junk i) f x :: initial_members junk (S i) fs' xs'
    | _, _ => []
    end.

  Definition run_copy_constructor (fuel : nat) (junk : nat -> Values.scalar) (m : nat) (ys : list mem) : res (list mem) :=
    match fuel with
    | O => OutOfFuel
    | S n =>
        w <- do_statements sch (fields_of m) (functions_of m) false (run_equal n)
               (fun s m xs ys => '(l, _) <- run_assign n s m xs ys ;; Ok l) (fun _ _ _ _ => UB TypeConfusion)
               (copy_body (classes m)) (mkWorld (initial_members junk 0 (fields_of m) (copy_initializers (classes m))) ys [] []) ;;
        Ok (w_this w)
    end.

  Definition run_move_constructor (fuel : nat) (junk : nat -> Values.scalar) (m : nat) (ys : list mem) : res (list mem * list mem) :=
    w <- do_statements sch (fields_of m) (functions_of m) false (run_equal fuel)
           (fun _ _ _ _ => UB TypeConfusion) (fun s m xs ys => w <- run_move fuel s m xs ys ;; Ok (w_this w, if s then w_this w else w_other w))
           (move_constructor_body (classes m)) (mkWorld (initial_members junk 0 (fields_of m) (copy_initializers (classes m))) ys [] []) ;;
    Ok (w_this w, w_other w).
End Classes.

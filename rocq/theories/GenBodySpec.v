(** Words used to state the properties of printed bodies. *)

From Coq Require Import String Ascii ZArith List Bool Arith.
From Verif Require Values.
From Verif Require Import Base ObjectModel GenModel GenTypesModel GenClassModel GenClassSpec GenBodyModel.
Import ListNotations.
Open Scope string_scope.

(** Types that the object model knows: no Qt types; messages and enumerations are named as such. *)
Definition known_type (t : ftype) : Prop := t <> TMessage /\ t <> TEnum.
Definition known_element (e : element) : Prop := match e with Simple t => known_type t | Qt _ => False | _ => True end.
Definition supported (f : mfield) : Prop :=
  match m_shape f with One e | Many e => known_element e | Assoc k v => known_type k /\ known_element v end.

(** The message types of [sch] are the messages [classes]. *)
Definition describes (sch : Values.schema) (classes : nat -> message) : Prop :=
  (forall i, Values.md_fields (Values.msg_at sch i)
             = map (fun f => Values.mkField (m_number f) (fty_of (m_shape f))) (g_fields (classes i)))
  /\ forall i, fields_distinct (classes i) /\ Forall supported (g_fields (classes i)).

(** What is compared before a variable is moved: true if operator!= of the variables says that they differ. *)
Definition differ (sch : Values.schema) (equal : nat -> list mem -> list mem -> res bool) (s : shape) (x y : mem) : bool :=
  match s with
  | One (Mess m) => match lazy_eq sch equal m (own_of x) (own_of y) with Ok true => false | _ => true end
  | _ => negb (mem_eqb (fty_of s) x y)
  end.
(** Whether the target and the source of a move assignment emit the signal of a field. *)
Definition target_emits (sch : Values.schema) (equal : nat -> list mem -> list mem -> res bool) (f : mfield) (x y : mem) : bool :=
  match m_shape f with One (Enu _) => false | s => differ sch equal s x y end.
Definition source_emits (sch : Values.schema) (equal : nat -> list mem -> list mem -> res bool) (f : mfield) (x y : mem) : bool :=
  match m_shape f with
  | One (Enu _) => false
  | One (Simple TString) | One (Simple TBytes) => differ sch equal (m_shape f) x y
  | One (Simple _) => true
  | s => differ sch equal s x y
  end.
(** The signals of the fields that [emits] says, in order. *)
Fixpoint signals_of (emits : mfield -> mem -> mem -> bool) (fs : list mfield) (xs ys : list mem) : list string :=
  match fs, xs, ys with
  | f :: fs', x :: xs', y :: ys' => ((if emits f x y then [signal_name f] else []) ++ signals_of emits fs' xs' ys')%list
  | _, _, _ => []
  end.

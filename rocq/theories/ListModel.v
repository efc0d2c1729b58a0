(** Model of the QML list property of a repeated message field: src/protobuf/qqmllistpropertyconstructor.h, and the
    C++ accessors of such a field (src/generator/templates.cpp).

    The field is a QList<QSharedPointer<T>>.  A shared pointer is modelled by the number of its control block, a
    null pointer by [None].  QList shares its data between copies and copies them when one is changed; here every
    copy has shared pointers of its own, which destroys the objects at the same time.  The message that has the
    field outlives the histories. *)

From Coq Require Import List Bool Arith ZArith.
From Verif Require Import Base.
Import ListNotations.
Local Open Scope nat_scope.

(** [l_made] objects have been created: [l_dead] those whose destructor has run, [l_js] those that belong to the
    QML engine.  [l_blocks] control blocks exist: [b_obj] is the object and [b_strong] the number of shared
    pointers of a block.  [l_field] is the field, [l_vars] are other lists in C++ variables and other messages.
    [l_log] are the destructors that have been run. *)
Record lworld : Type := mkL {
  l_made : nat; l_dead : nat -> bool; l_js : nat -> bool;
  l_blocks : nat; b_obj : nat -> nat; b_strong : nat -> nat;
  l_field : list (option nat); l_vars : list (list (option nat)); l_log : list nat
}.

Definition l_initial : lworld :=
  mkL 0 (fun _ => true) (fun _ => false) 0 (fun _ => 0) (fun _ => 0) [] [] [].

Definition upd {A : Type} (f : nat -> A) (k : nat) (v : A) : nat -> A := fun j => if Nat.eqb j k then v else f j.

Definition set_field (w : lworld) (l : list (option nat)) : lworld :=
  mkL (l_made w) (l_dead w) (l_js w) (l_blocks w) (b_obj w) (b_strong w) l (l_vars w) (l_log w).
Definition set_vars (w : lworld) (v : list (list (option nat))) : lworld :=
  mkL (l_made w) (l_dead w) (l_js w) (l_blocks w) (b_obj w) (b_strong w) (l_field w) v (l_log w).
Definition set_strong (w : lworld) (b n : nat) : lworld :=
  mkL (l_made w) (l_dead w) (l_js w) (l_blocks w) (b_obj w) (upd (b_strong w) b n) (l_field w) (l_vars w) (l_log w).

(** A new object. *)
Definition new_object (w : lworld) (js : bool) : lworld :=
  mkL (S (l_made w)) (upd (l_dead w) (l_made w) false) (upd (l_js w) (l_made w) js)
    (l_blocks w) (b_obj w) (b_strong w) (l_field w) (l_vars w) (l_log w).

(** delete of an object. *)
Definition delete (w : lworld) (p : nat) : res lworld :=
  if l_dead w p then UB DanglingRef
  else Ok (mkL (l_made w) (upd (l_dead w) p true) (l_js w) (l_blocks w) (b_obj w) (b_strong w) (l_field w) (l_vars w)
             (p :: l_log w)).

(** The constructor of QSharedPointer from a pointer: a new control block. *)
Definition new_block (w : lworld) (p : nat) : lworld :=
  mkL (l_made w) (l_dead w) (l_js w) (S (l_blocks w)) (upd (b_obj w) (l_blocks w) p) (upd (b_strong w) (l_blocks w) 1)
    (l_field w) (l_vars w) (l_log w).

(** Copying and destroying a shared pointer. *)
Definition take (w : lworld) (e : option nat) : lworld :=
  match e with Some b => set_strong w b (S (b_strong w b)) | None => w end.
Definition drop (w : lworld) (e : option nat) : res lworld :=
  match e with
  | None => Ok w
  | Some b =>
      match b_strong w b with
      | O => UB DanglingRef
      | S O => delete (set_strong w b 0) (b_obj w b)
      | S n => Ok (set_strong w b n)
      end
  end.

(** Copying a list. *)
Fixpoint take_all (w : lworld) (l : list (option nat)) : lworld :=
  match l with [] => w | e :: l' => take_all (take w e) l' end.
(** Destroying the elements of a list; QList does it from the last to the first. *)
Fixpoint drop_all (w : lworld) (l : list (option nat)) : res lworld :=
  match l with
  | [] => Ok w
  | e :: l' => w1 <- drop_all w l' ;; drop w1 e
  end.

(** qmllistpropertyAppend, qqmllistpropertyconstructor.h 33-36.  setObjectOwnership reads the object. *)
Definition qmllistpropertyAppend (w : lworld) (v : option nat) : res lworld :=
  match v with
  | None => Ok (set_field w (l_field w ++ [None]))
  | Some p =>
      if l_dead w p then UB DanglingRef
      else
        let w1 := mkL (l_made w) (l_dead w) (upd (l_js w) p false) (l_blocks w) (b_obj w) (b_strong w) (l_field w)
                    (l_vars w) (l_log w) in
        let b := l_blocks w1 in
        let w2 := new_block w1 p in
        Ok (set_field w2 (l_field w2 ++ [Some b]))
  end.

(** qmllistpropertyCount, qqmllistpropertyconstructor.h 40-42. *)
Definition qmllistpropertyCount (w : lworld) : Z := Z.of_nat (length (l_field w)).

(** qmllistpropertyAt, qqmllistpropertyconstructor.h 46-48.  QList::at only asserts that the index is in range,
    and does so in debug builds only. *)
Definition qmllistpropertyAt (w : lworld) (index : Z) : res (option nat) :=
  if (index <? 0)%Z then UB BadIndex
  else match nth_error (l_field w) (Z.to_nat index) with
       | Some (Some b) => Ok (Some (b_obj w b))
       | Some None => Ok None
       | None => UB BadIndex
       end.

(** qmllistpropertyReset, qqmllistpropertyconstructor.h 52-54. *)
Definition qmllistpropertyReset (w : lworld) : res lworld := drop_all (set_field w []) (l_field w).

(** operator!= of the lists, elementwise: the objects the pointers point to are compared by address. *)
Definition pointer_of (w : lworld) (e : option nat) : option nat := option_map (b_obj w) e.
Definition pointer_eqb (a b : option nat) : bool :=
  match a, b with Some x, Some y => Nat.eqb x y | None, None => true | _, _ => false end.
Fixpoint pointers_eqb (a b : list (option nat)) : bool :=
  match a, b with
  | [], [] => true
  | x :: a', y :: b' => pointer_eqb x y && pointers_eqb a' b'
  | _, _ => false
  end.

(** The setter, templates.cpp 222-228. *)
Definition set_list (w : lworld) (l : list (option nat)) : res lworld :=
  if pointers_eqb (map (pointer_of w) (l_field w)) (map (pointer_of w) l) then Ok w
  else let old := l_field w in drop_all (set_field (take_all w l) l) old.

Definition remove_nth {A : Type} (k : nat) (l : list A) : list A := firstn k l ++ skipn (S k) l.

(** What can happen:
    - [LNew]: QML or C++ creates an object;
    - [LAppend], [LCount], [LAt], [LClear]: the QML list property;
    - [LAdd]: C++ code (or the deserializer) appends a new object to the field;
    - [LCopy]: C++ copies the field to a new variable, getter in templates.cpp 189-199;
    - [LSet]: C++ sets the field to the list in variable [k];
    - [LDrop]: variable [k] ends;
    - [LCollect]: the QML engine has no more use for an object: it deletes the object if it owns it;
    - [LDelete]: C++ code deletes an object. *)
Inductive lop : Type :=
| LNew (js : bool)
| LAppend (v : option nat) | LCount | LAt (index : Z) | LClear
| LAdd | LCopy | LSet (k : nat) | LDrop (k : nat)
| LCollect (p : nat) | LDelete (p : nat).

(** What an operation answers. *)
Inductive answer : Type := Nothing | Number (n : Z) | Object (p : option nat).

Definition lstep (w : lworld) (x : lop) : res (lworld * answer) :=
  match x with
  | LNew js => Ok (new_object w js, Nothing)
  | LAppend v => w1 <- qmllistpropertyAppend w v ;; Ok (w1, Nothing)
  | LCount => Ok (w, Number (qmllistpropertyCount w))
  | LAt i => p <- qmllistpropertyAt w i ;; Ok (w, Object p)
  | LClear => w1 <- qmllistpropertyReset w ;; Ok (w1, Nothing)
  | LAdd =>
      let p := l_made w in
      let w1 := new_object w false in
      let b := l_blocks w1 in
      let w2 := new_block w1 p in
      Ok (set_field w2 (l_field w2 ++ [Some b]), Nothing)
  | LCopy => Ok (set_vars (take_all w (l_field w)) (l_vars w ++ [l_field w]), Nothing)
  | LSet k =>
      match nth_error (l_vars w) k with
      | None => UB BadIndex
      | Some l => w1 <- set_list w l ;; Ok (w1, Nothing)
      end
  | LDrop k =>
      match nth_error (l_vars w) k with
      | None => UB BadIndex
      | Some l => w1 <- drop_all (set_vars w (remove_nth k (l_vars w))) l ;; Ok (w1, Nothing)
      end
  | LCollect p =>
      if negb (l_dead w p) && l_js w p then w1 <- delete w p ;; Ok (w1, Nothing) else Ok (w, Nothing)
  | LDelete p => w1 <- delete w p ;; Ok (w1, Nothing)
  end.

Fixpoint lrun (w : lworld) (xs : list lop) : res (lworld * list answer) :=
  match xs with
  | [] => Ok (w, [])
  | x :: xs' => r <- lstep w x ;; s <- lrun (fst r) xs' ;; Ok (fst s, snd r :: snd s)
  end.

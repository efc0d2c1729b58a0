(** What a user expects of a repeated message field with a QML list property: a plain list of objects. *)

From Coq Require Import List Bool Arith ZArith.
From Verif Require Import Base ListModel.
Import ListNotations.
Local Open Scope nat_scope.

(** [p_field] are the objects in the field and [p_vars] those in other lists.  [p_listed] are the objects that have
    ever been put into a list; an object that has not belongs to whoever made it, [p_engine] to the QML engine.
    [p_gone] are the objects that their owners have deleted. *)
Record plain : Type := mkP {
  p_made : nat; p_field : list (option nat); p_vars : list (list (option nat));
  p_listed : list nat; p_engine : list nat; p_gone : list nat
}.

Definition p_initial : plain := mkP 0 [] [] [] [] [].

(** An object that has been put into a list lives as long as a list has it. *)
Definition in_list (s : plain) (p : nat) : Prop := In (Some p) (p_field s) \/ exists l, In l (p_vars s) /\ In (Some p) l.
Definition lives (s : plain) (p : nat) : Prop :=
  p < p_made s /\ ~ In p (p_gone s) /\ (In p (p_listed s) -> in_list s p).

Definition eqb_dec := Nat.eq_dec.
Definition plain_step (s : plain) (x : lop) : plain * answer :=
  match x with
  | LNew js => (mkP (S (p_made s)) (p_field s) (p_vars s) (p_listed s)
                  (if js then p_made s :: p_engine s else p_engine s) (p_gone s), Nothing)
  | LAppend v => (mkP (p_made s) (p_field s ++ [v]) (p_vars s)
                    (match v with Some p => p :: p_listed s | None => p_listed s end) (p_engine s) (p_gone s), Nothing)
  | LCount => (s, Number (Z.of_nat (length (p_field s))))
  | LAt i => (s, Object (nth (Z.to_nat i) (p_field s) None))
  | LClear => (mkP (p_made s) [] (p_vars s) (p_listed s) (p_engine s) (p_gone s), Nothing)
  | LAdd => (mkP (S (p_made s)) (p_field s ++ [Some (p_made s)]) (p_vars s) (p_made s :: p_listed s) (p_engine s)
               (p_gone s), Nothing)
  | LCopy => (mkP (p_made s) (p_field s) (p_vars s ++ [p_field s]) (p_listed s) (p_engine s) (p_gone s), Nothing)
  | LSet k => (mkP (p_made s) (nth k (p_vars s) []) (p_vars s) (p_listed s) (p_engine s) (p_gone s), Nothing)
  | LDrop k => (mkP (p_made s) (p_field s) (firstn k (p_vars s) ++ skipn (S k) (p_vars s)) (p_listed s) (p_engine s)
                  (p_gone s), Nothing)
  | LCollect p =>
      (if in_dec eqb_dec p (p_engine s) then
         if in_dec eqb_dec p (p_listed s) then s
         else mkP (p_made s) (p_field s) (p_vars s) (p_listed s) (p_engine s) (p :: p_gone s)
       else s, Nothing)
  | LDelete p => (mkP (p_made s) (p_field s) (p_vars s) (p_listed s) (p_engine s) (p :: p_gone s), Nothing)
  end.

Fixpoint plain_run (s : plain) (xs : list lop) : plain * list answer :=
  match xs with
  | [] => (s, [])
  | x :: xs' => let (s1, a) := plain_step s x in let (s2, l) := plain_run s1 xs' in (s2, a :: l)
  end.

(** Operations that are allowed: an index in range; objects appended through QML are alive and have not been put
    into a list before; C++ code deletes only objects it has not put into a list. *)
Definition allowed (s : plain) (x : lop) : Prop :=
  match x with
  | LAppend (Some p) | LDelete p => lives s p /\ ~ In p (p_listed s)
  | LAt i => (0 <= i < Z.of_nat (length (p_field s)))%Z
  | LSet k | LDrop k => k < length (p_vars s)
  | _ => True
  end.

Fixpoint allowed_run (s : plain) (xs : list lop) : Prop :=
  match xs with
  | [] => True
  | x :: xs' => allowed s x /\ allowed_run (fst (plain_step s x)) xs'
  end.

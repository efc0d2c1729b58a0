(** How C++ reads comments. *)

From Coq Require Import ZArith List Bool.
Import ListNotations.
Open Scope Z_scope.

(** [code_of Code s]: the text [s] with each comment replaced by a space (ISO C++, translation phase 3; without raw strings, line
    splices and trigraphs).  34 is the quotation mark, 39 the apostrophe, 92 the backslash. *)
Inductive mode : Type := Code | Block | Line | Quoted (q : Z).
Fixpoint code_of (m : mode) (s : list Z) : list Z :=
  match s with
  | [] => []
  | c :: s' =>
      match m with
      | Code =>
          if c =? 47 then
            match s' with
            | d :: s'' => if d =? 42 then 32 :: code_of Block s'' else if d =? 47 then 32 :: code_of Line s'' else c :: code_of Code s'
            | [] => [c]
            end
          else if (c =? 34) || (c =? 39) then c :: code_of (Quoted c) s'
          else c :: code_of Code s'
      | Block =>
          if c =? 42 then
            match s' with d :: s'' => if d =? 47 then code_of Code s'' else code_of Block s' | [] => [] end
          else code_of Block s'
      | Line => if c =? 10 then c :: code_of Code s' else code_of Line s'
      | Quoted q =>
          if c =? 92 then match s' with d :: s'' => c :: d :: code_of m s'' | [] => [c] end
          else c :: code_of (if c =? q then Code else m) s'
      end
  end.

(** [part s t]: [s] occurs in [t]. *)
Definition part (s t : list Z) : Prop := exists a b, t = a ++ s ++ b.

(** The asterisk and slash that end a comment, and a slash at the beginning of a line that is not the first. *)
Definition ends_comment (c : list Z) : Prop := part [42; 47] c \/ part [10; 47] c.

(** White space, and a text without it at its ends. *)
Definition space (c : Z) : Prop := In c [32; 9; 10; 13; 12; 11].
Definition trimmed (s t : list Z) : Prop :=
  exists a b, s = a ++ t ++ b /\ Forall space a /\ Forall space b /\ (forall c t', t = c :: t' -> ~ space c) /\ (forall c t', t = t' ++ [c] -> ~ space c).

(** The lines of a text, and lines with something between them. *)
Fixpoint lines (s : list Z) : list (list Z) :=
  match s with
  | [] => [[]]
  | c :: s' => if c =? 10 then [] :: lines s' else match lines s' with l :: ls => (c :: l) :: ls | [] => [[c]] end
  end.
Fixpoint joined (between : list Z) (ls : list (list Z)) : list Z :=
  match ls with [] => [] | [l] => l | l :: ls' => l ++ between ++ joined between ls' end.

(** The layout of comments in the header: a comment of one line in a line, otherwise each line begins with an asterisk.  Comments that
    do not begin with an exclamation mark or asterisk are set off from the opening by a space or a line. *)
Definition comment_text (indent c : list Z) : list Z :=
  let marked := match c with x :: _ => (x =? 33) || (x =? 42) | [] => true end in
  let newline := 10 :: indent ++ [32] in
  10 :: indent ++ [47; 42] ++
  match lines c with
  | [l] => (if marked then [] else [32]) ++ l ++ [32]
  | ls => (if marked then [] else newline ++ [42; 32]) ++ joined (newline ++ [42]) ls ++ newline
  end ++ [42; 47].

(** A text that ends outside of comments and literals, so that it can be read apart from what follows. *)
Definition closed (s : list Z) : Prop := forall t, code_of Code (s ++ t) = code_of Code s ++ code_of Code t.

(** An indentation. *)
Definition blank (s : list Z) : Prop := Forall (fun c => c = 32) s.

(** What a checked iterator is: an offset into a container.  Moves lead to other offsets of the container; a move that would leave it is an exception
    instead, after which nothing is said about the iterator until it is assigned. *)

From Coq Require Import ZArith List Bool.
From Verif Require Import Base IterModel.
Import ListNotations.
Open Scope Z_scope.

Section Containers.
  Variable bufs : list (list Z).

  (** The container and the offset of each iterator; None after an exception. *)
  Definition offsets : Type := list (option (nat * Z)).

  Definition length_of (h : nat) : Z := Z.of_nat (length (nth h bufs [])).

  (** Sizes of containers: Qt needs some of the INT_MAX bytes that an allocation may have for itself. *)
  Definition sized : Prop := forall h, length_of h < INT_MAX.

  (** Offset [x] is in the container or just behind its end. *)
  Definition inside (h : nat) (x : Z) : Prop := 0 <= x <= length_of h.

  (** The state with the entry [i] replaced. *)
  Definition replaced (s : offsets) (i : nat) (e : option (nat * Z)) (s' : offsets) : Prop :=
    length s' = length s /\ nth_error s' i = Some e /\ forall j, j <> i -> nth_error s' j = nth_error s j.

  (** How far an operation moves its iterator.  Counts must not be negative, and for -= the sum of count and size must be an int. *)
  Inductive moves : op -> nat -> Z -> Prop :=
  | m_incr i : moves (Incr i) i 1
  | m_decr i : moves (Decr i) i (-1)
  | m_plus i n : 0 <= n <= INT_MAX -> moves (Plus i n) i n
  | m_minus i n : 0 <= n -> (forall h, length_of h + n <= INT_MAX) -> moves (Minus i n) i (- n).

  (** [fine s o s' r]: in the state [s] the operation [o] leads to [s'] with outcome [r]. *)
  Inductive fine : offsets -> op -> offsets -> res Z -> Prop :=
  | f_new s h : fine s (New h) (s ++ [Some (h, 0)]) (Ok 0)
  | f_copy s i h x : nth_error s i = Some (Some (h, x)) -> fine s (CopyOf i) (s ++ [Some (h, x)]) (Ok 0)
  | f_sum s i n h x : nth_error s i = Some (Some (h, x)) -> 0 <= n <= INT_MAX -> inside h (x + n) -> fine s (SumOf i n) (s ++ [Some (h, x + n)]) (Ok 0)
  | f_no_sum s i n h x : nth_error s i = Some (Some (h, x)) -> 0 <= n <= INT_MAX -> ~ inside h (x + n) -> fine s (SumOf i n) s (Throw OutOfRange)
  | f_move s o i d h x s' : moves o i d -> nth_error s i = Some (Some (h, x)) -> inside h (x + d) -> replaced s i (Some (h, x + d)) s' -> fine s o s' (Ok 0)
  | f_no_move s o i d h x s' : moves o i d -> nth_error s i = Some (Some (h, x)) -> ~ inside h (x + d) -> replaced s i None s' ->
      fine s o s' (Throw OutOfRange)
  | f_assign s i j h x s' : (i < length s)%nat -> nth_error s j = Some (Some (h, x)) -> replaced s i (Some (h, x)) s' -> fine s (Assign i j) s' (Ok 0)
  | f_deref s i h x b : nth_error s i = Some (Some (h, x)) -> nth_error (nth h bufs [] ++ [0]) (Z.to_nat x) = Some b -> fine s (Deref i) s (Ok b)
  | f_size s i h x : nth_error s i = Some (Some (h, x)) -> fine s (Size i) s (Ok (length_of h - x))
  | f_same s i j h x : nth_error s i = Some (Some (h, x)) -> nth_error s j = Some (Some (h, x)) -> fine s (Equal i j) s (Ok 1)
  | f_differ s i j h x y : nth_error s i = Some (Some (h, x)) -> nth_error s j = Some (Some (h, y)) -> x <> y -> fine s (Equal i j) s (Ok 0).

  (** Careful programs: counts as above, and no use of an iterator after an exception before it is assigned. *)
  Definition known (s : offsets) (i : nat) : Prop := exists h x, nth_error s i = Some (Some (h, x)) /\ inside h x.
  Definition careful (s : offsets) (o : op) : Prop :=
    match o with
    | New _ => True
    | CopyOf i | Incr i | Decr i | Deref i | Size i => known s i
    | SumOf i n | Plus i n => known s i /\ 0 <= n <= INT_MAX
    | Minus i n => known s i /\ 0 <= n /\ forall h, length_of h + n <= INT_MAX
    | Assign i j => (i < length s)%nat /\ known s j
    | Equal i j => exists h x y, nth_error s i = Some (Some (h, x)) /\ nth_error s j = Some (Some (h, y))
    end.

  Inductive fine_history : offsets -> list op -> offsets -> list (res Z) -> Prop :=
  | h_nil s : fine_history s [] s []
  | h_cons s o s1 r os s2 rs : fine s o s1 r -> fine_history s1 os s2 rs -> fine_history s (o :: os) s2 (r :: rs).
End Containers.

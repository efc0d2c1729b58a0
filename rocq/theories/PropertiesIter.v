(** C103: iterators with bounds checks stay in their container, for every history of operations.  The specification is in [IterSpec]. *)

From Coq Require Import ZArith List Bool Lia.
From Verif Require Import Base WireModel IterModel IterSpec.
Import ListNotations.
Open Scope Z_scope.

(** ** Lists *)

Lemma set_length : forall w i c, length (set_ w i c) = length w.
Proof. induction w as [|x w IH]; intros [|i] c; cbn; auto. Qed.

Lemma set_same : forall w i c, (i < length w)%nat -> nth_error (set_ w i c) i = Some c.
Proof. induction w as [|x w IH]; intros [|i] c L; cbn in *; try lia; auto. apply IH. lia. Qed.

Lemma set_other : forall w i j c, j <> i -> nth_error (set_ w i c) j = nth_error w j.
Proof. induction w as [|x w IH]; intros [|i] [|j] c N; cbn; auto; try congruence. Qed.

Lemma nth_error_at : forall w i c, nth_error w i = Some c -> at_ w i = c.
Proof. intros w i c E. unfold at_. apply nth_error_nth. exact E. Qed.

(** ** The invariant *)

Section Containers.
  Variable bufs : list (list Z).
  Hypothesis sizes : sized bufs.

  Definition stands (c : cursor) (e : option (nat * Z)) : Prop :=
    match e with
    | None => True
    | Some (h, x) => c = mkCursor (length_of bufs h - x) (length_of bufs h) h x /\ inside bufs h x
    end.
  Definition matches (w : cursors) (s : offsets) : Prop := Forall2 stands w s.

  Lemma matches_nth : forall w s, matches w s -> forall i h x, nth_error s i = Some (Some (h, x)) ->
    at_ w i = mkCursor (length_of bufs h - x) (length_of bufs h) h x /\ inside bufs h x /\ (i < length w)%nat.
  Proof.
    unfold matches. induction 1 as [|c e w s C M IH]; intros [|i] h x E; try discriminate E; cbn in E.
    - injection E as ->. destruct C as (-> & I). cbn. repeat split; auto; try apply I. lia.
    - destruct (IH _ _ _ E) as (A & I & L). cbn. repeat split; auto; try apply I. lia.
  Qed.

  Lemma matches_length : forall w s, matches w s -> length w = length s.
  Proof. induction 1; cbn; auto. Qed.

  Lemma matches_set : forall w s i e s' c, matches w s -> replaced s i e s' -> (i < length w)%nat -> stands c e -> matches (set_ w i c) s'.
  Proof.
    intros w s i e s' c M. revert i s'. induction M as [|c0 e0 w s C M IH]; intros i s' (L & Q & O) I S0; [cbn in I; lia|].
    destruct s' as [|e' s']; [discriminate L|]. destruct i as [|i].
    - cbn in Q. injection Q as ->. cbn. constructor; auto.
      assert (s' = s) as ->.
      { clear - O L. injection L as L. assert (A : forall j, nth_error s' j = nth_error s j) by (intros j; apply (O (S j)); lia).
        clear O. revert s L A. induction s' as [|y s' IH]; intros [|z s] L A; try discriminate L; auto.
        f_equal; [generalize (A 0%nat); cbn; congruence|]. apply IH; [cbn in L; lia|]. intros j. apply (A (S j)). }
      exact M.
    - cbn. constructor.
      + generalize (O 0%nat). cbn. intros E. rewrite <- (f_equal (fun o => match o with Some v => v | None => e0 end) (E ltac:(lia))) in C. exact C.
      + apply IH; auto.
        * split; [cbn in L; lia|]. split; [exact Q|]. intros j N. apply (O (S j)). lia.
        * cbn in I. lia.
  Qed.

  Lemma matches_app : forall w s c e, matches w s -> stands c e -> matches (w ++ [c]) (s ++ [e]).
  Proof. intros. apply Forall2_app; auto. Qed.

  Lemma as_int_ok : forall z, - INT_MAX - 1 <= z <= INT_MAX -> as_int z = Ok z.
  Proof. intros z B. unfold as_int. rewrite (proj2 (Z.ltb_ge _ _)), (proj2 (Z.ltb_ge _ _)) by lia. reflexivity. Qed.

  Lemma move_ok : forall h x d, inside bufs h x -> inside bufs h (x + d) -> forall n,
    move bufs (mkCursor (length_of bufs h - x) (length_of bufs h) h x) n d = (mkCursor n (length_of bufs h) h (x + d), Ok tt).
  Proof.
    intros h x d I I' n. unfold move. cbn. unfold inside in *. change (Zlen (buf_at bufs h)) with (length_of bufs h).
    rewrite (proj2 (Z.ltb_ge _ _)), (proj2 (Z.ltb_ge _ _)) by lia. reflexivity.
  Qed.

  Lemma max_is : INT_MAX = 2147483647. Proof. reflexivity. Qed.

  Definition moved (o : op) (c : cursor) : cursor * res unit :=
    match o with
    | Incr _ => increment bufs c | Decr _ => decrement bufs c | Plus _ n => plus bufs c n | Minus _ n => minus bufs c n
    | _ => (c, Ok tt)
    end.

  Lemma moves_step : forall o i d, moves bufs o i d -> forall w, step bufs w o = changed w i (moved o (at_ w i)).
  Proof. intros o i d []; reflexivity. Qed.

  Lemma moves_inside : forall o i d h x, moves bufs o i d -> inside bufs h x -> inside bufs h (x + d) ->
    moved o (mkCursor (length_of bufs h - x) (length_of bufs h) h x) = (mkCursor (length_of bufs h - (x + d)) (length_of bufs h) h (x + d), Ok tt).
  Proof.
    intros o i d h x M I I'. generalize (sizes h) max_is. intros B X. generalize (move_ok h x d I I'). intros Y. unfold inside in *.
    destruct M as [i|i|i n N|i n N N']; cbn [moved]; unfold increment, decrement, plus, minus; cbn [cu_left cu_size].
    all: try generalize (N' h); try intros N''.
    all: rewrite as_int_ok by lia; cbv iota; rewrite (proj2 (Z.ltb_ge _ _)) by lia; rewrite Y; apply (f_equal (fun z => (mkCursor z (length_of bufs h) h _, Ok tt))); lia.
  Qed.

  Lemma moves_outside : forall o i d h x, moves bufs o i d -> inside bufs h x -> ~ inside bufs h (x + d) ->
    snd (moved o (mkCursor (length_of bufs h - x) (length_of bufs h) h x)) = Throw OutOfRange.
  Proof.
    intros o i d h x M I I'. generalize (sizes h) max_is. intros B X. unfold inside in *.
    destruct M as [i|i|i n N|i n N N']; cbn [moved]; unfold increment, decrement, plus, minus; cbn [cu_left cu_size].
    all: try generalize (N' h); try intros N''.
    all: rewrite as_int_ok by lia; cbv iota; rewrite (proj2 (Z.ltb_lt _ _)) by lia; reflexivity.
  Qed.

  Lemma copy_ok : forall h x, inside bufs h x -> copy (mkCursor (length_of bufs h - x) (length_of bufs h) h x) = Ok (mkCursor (length_of bufs h - x) (length_of bufs h) h x).
  Proof.
    intros h x I. unfold copy, unfit, inside in *. cbn. rewrite (proj2 (Z.ltb_ge _ _)), (proj2 (Z.ltb_ge _ _)) by lia. reflexivity.
  Qed.

  Lemma fine_step : forall s o s' r, fine bufs s o s' r -> forall w, matches w s -> matches (fst (step bufs w o)) s' /\ snd (step bufs w o) = r.
  Proof.
    intros s o s' r F w M. destruct F as [s h|s i h x E|s i n h x E N I|s i n h x E N I|s o i d h x s' V E I R|s o i d h x s' V E I R|s i j h x s' L E R|s i h x b E Q|s i h x E|s i j h x E E'|s i j h x y E E' N].
    - split; [|reflexivity]. apply matches_app; auto. cbn. split; [|unfold inside, length_of; lia]. unfold construct. f_equal.
      change (length_of bufs h = length_of bufs h - 0). lia.
    - destruct (matches_nth _ _ M _ _ _ E) as (A & I & L). cbn [step]. rewrite A, copy_ok by exact I. split; [|reflexivity].
      apply matches_app; auto. split; auto.
    - destruct (matches_nth _ _ M _ _ _ E) as (A & I0 & L). cbn [step]. unfold sum. rewrite A, copy_ok by exact I0. cbn [bind].
      generalize (moves_inside (Plus i n) i n h x (m_plus _ _ _ N) I0 I). cbn [moved]. intros ->. cbv iota. rewrite copy_ok by exact I.
      split; [|reflexivity]. apply matches_app; auto. split; auto.
    - destruct (matches_nth _ _ M _ _ _ E) as (A & I0 & L). cbn [step]. unfold sum. rewrite A, copy_ok by exact I0. cbn [bind].
      generalize (moves_outside (Plus i n) i n h x (m_plus _ _ _ N) I0 I). cbn [moved]. destruct (plus _ _ _) as [c2 u]. cbn [snd]. intros ->.
      split; [exact M|reflexivity].
    - destruct (matches_nth _ _ M _ _ _ E) as (A & I0 & L). rewrite (moves_step _ _ _ V), A, (moves_inside _ _ _ _ _ V I0 I). split; [|reflexivity].
      eapply matches_set; eauto. split; auto.
    - destruct (matches_nth _ _ M _ _ _ E) as (A & I0 & L). rewrite (moves_step _ _ _ V), A. generalize (moves_outside _ _ _ _ _ V I0 I).
      destruct (moved o _) as [c2 u]. cbn [snd]. intros ->. split; [|reflexivity]. eapply matches_set; eauto. exact Logic.I.
    - destruct (matches_nth _ _ M _ _ _ E) as (A & I0 & L'). cbn [step]. rewrite <- (matches_length _ _ M) in L.
      assert (B : assign (Nat.eqb i j) (at_ w i) (at_ w j) = (at_ w j, Ok tt)).
      { unfold assign. destruct (Nat.eqb_spec i j) as [->|_]; [reflexivity|]. generalize (copy_ok h x I0). unfold copy. rewrite A.
        destruct (unfit _ _); [discriminate|reflexivity]. }
      rewrite B. split; [|reflexivity]. eapply matches_set; eauto. rewrite A. split; auto.
    - destruct (matches_nth _ _ M _ _ _ E) as (A & I0 & L). split; [exact M|]. cbn [step snd]. rewrite A. unfold deref. cbn [cu_pos cu_home].
      change (Zlen (buf_at bufs h)) with (length_of bufs h). unfold inside in I0. rewrite (proj2 (Z.ltb_ge _ _)), (proj2 (Z.ltb_ge _ _)) by lia. cbn [orb].
      f_equal. unfold buf_at. unfold length_of in I0. generalize dependent (nth h bufs []). intros l Q I0.
      destruct (Nat.lt_ge_cases (Z.to_nat x) (length l)) as [G|G].
      + rewrite nth_error_app1 in Q by exact G. apply nth_error_nth. exact Q.
      + rewrite nth_error_app2 in Q by exact G. rewrite nth_overflow by exact G. replace (Z.to_nat x - length l)%nat with 0%nat in Q by lia. cbn in Q. congruence.
    - destruct (matches_nth _ _ M _ _ _ E) as (A & I0 & L). split; [exact M|]. cbn [step snd]. rewrite A. reflexivity.
    - destruct (matches_nth _ _ M _ _ _ E) as (A & _). destruct (matches_nth _ _ M _ _ _ E') as (A' & _). split; [exact M|]. cbn [step snd]. rewrite A, A'. unfold equal. cbn.
      rewrite Nat.eqb_refl, Z.eqb_refl. reflexivity.
    - destruct (matches_nth _ _ M _ _ _ E) as (A & _). destruct (matches_nth _ _ M _ _ _ E') as (A' & _). split; [exact M|]. cbn [step snd]. rewrite A, A'. unfold equal. cbn.
      rewrite Nat.eqb_refl, (proj2 (Z.eqb_neq _ _)) by congruence. reflexivity.
  Qed.
End Containers.

Lemma fine_history_runs : forall bufs, sized bufs -> forall s os s' rs, fine_history bufs s os s' rs -> forall w, matches bufs w s ->
  matches bufs (fst (history bufs w os)) s' /\ snd (history bufs w os) = rs.
Proof.
  intros bufs Z0 s os s' rs H. induction H as [s|s o s1 r os s2 rs F H IH]; intros w M; [split; [exact M|reflexivity]|].
  destruct (fine_step bufs Z0 _ _ _ _ F w M) as (M1 & <-). cbn [history]. destruct (step bufs w o) as [w1 r]. cbn [fst snd] in *.
  destruct (IH _ M1) as (M2 & <-). destruct (history bufs w1 os) as [w2 rs]. split; [exact M2|reflexivity].
Qed.

(** ** Progress of the specification *)

Definition put (s : offsets) (i : nat) (e : option (nat * Z)) : offsets := firstn i s ++ e :: skipn (S i) s.

Lemma put_replaced : forall s i e, (i < length s)%nat -> replaced s i e (put s i e).
Proof.
  unfold replaced, put. induction s as [|y s IH]; intros [|i] e L; cbn [length] in L; try lia.
  - cbn. repeat split; auto. intros [|j] N; [congruence|reflexivity].
  - destruct (IH i e ltac:(lia)) as (A & B & C). cbn. repeat split; [f_equal; exact A|exact B|]. intros [|j] N; [reflexivity|]. cbn. apply C. lia.
Qed.

Lemma inside_dec : forall bufs h x, inside bufs h x \/ ~ inside bufs h x.
Proof. intros. unfold inside. lia. Qed.

Lemma careful_move : forall bufs s o i d, moves bufs o i d -> known bufs s i -> exists s' r, fine bufs s o s' r.
Proof.
  intros bufs s o i d V (h & x & E & I). assert (L : (i < length s)%nat) by (apply nth_error_Some; congruence).
  destruct (inside_dec bufs h (x + d)) as [J|J].
  - do 2 eexists. eapply f_move; eauto. apply put_replaced. exact L.
  - do 2 eexists. eapply f_no_move; eauto. apply put_replaced. exact L.
Qed.

Lemma careful_fine : forall bufs s o, careful bufs s o -> exists s' r, fine bufs s o s' r.
Proof.
  intros bufs s o K. destruct o as [h|i|i n|i|i|i n|i n|i j|i|i|i j]; cbn in K.
  - do 2 eexists. apply f_new.
  - destruct K as (h & x & E & I). do 2 eexists. eapply f_copy; eauto.
  - destruct K as ((h & x & E & I) & N). destruct (inside_dec bufs h (x + n)) as [J|J]; do 2 eexists; [eapply f_sum; eauto|eapply f_no_sum; eauto].
  - eapply careful_move; eauto. constructor.
  - eapply careful_move; eauto. constructor.
  - destruct K as (K & N). eapply careful_move; eauto. constructor. exact N.
  - destruct K as (K & N & N'). eapply careful_move; eauto. constructor; auto.
  - destruct K as (L & h & x & E & I). do 2 eexists. eapply f_assign; eauto. apply put_replaced. exact L.
  - destruct K as (h & x & E & I). assert (B : exists b, nth_error (nth h bufs [] ++ [0]) (Z.to_nat x) = Some b).
    { destruct (nth_error (nth h bufs [] ++ [0]) (Z.to_nat x)) as [b|] eqn:Q; [eauto|]. apply nth_error_None in Q. rewrite app_length in Q. cbn in Q.
      unfold inside, length_of in I. lia. }
    destruct B as (b & B). do 2 eexists. eapply f_deref; eauto.
  - destruct K as (h & x & E & I). do 2 eexists. eapply f_size; eauto.
  - destruct K as (h & x & y & E & E'). destruct (Z.eq_dec x y) as [<-|N]; do 2 eexists; [eapply f_same; eauto|eapply f_differ; eauto].
Qed.

(** ** C103 *)

(** For any containers and any history of constructions, copies, sums, moves, assignments, comparisons, reads and questions for the size, whose
    operations are careful: the outcomes are those of offsets into the containers.  A move succeeds if and only if it stays in the container or
    leads to its end; otherwise std::out_of_range is thrown; no operation is undefined, nothing outside of a container is read, and in the end each
    iterator that can be used stands at its offset, with the right number of bytes left.
    Missing: iterators after an exception, negative counts and counts of -= near INT_MAX, see the refutations; the conversion to an unchecked
    iterator (a reference, through which the pointer may be changed). *)
Theorem C103_contained_partial : forall bufs os s rs,
  sized bufs ->
  fine_history bufs [] os s rs ->
  snd (history bufs [] os) = rs /\
  forall i h x, nth_error s i = Some (Some (h, x)) ->
    inside bufs h x /\ nth_error (fst (history bufs [] os)) i = Some (mkCursor (length_of bufs h - x) (length_of bufs h) h x).
Proof.
  intros bufs os s rs Z0 H. destruct (fine_history_runs bufs Z0 _ _ _ _ H [] (Forall2_nil _)) as (M & R). split; [exact R|].
  intros i h x E. destruct (matches_nth _ _ _ M _ _ _ E) as (A & I & L). split; [exact I|]. unfold at_ in A.
  rewrite <- A. apply nth_error_nth'. exact L.
Qed.

(** A careful operation is always covered by [C103_contained_partial]: histories of careful operations have fine outcomes, whatever they are.
    Missing: as C103_contained_partial. *)
Theorem C103_careful_partial : forall bufs os s rs o,
  sized bufs ->
  fine_history bufs [] os s rs -> careful bufs s o ->
  exists s' r, fine_history bufs [] (os ++ [o]) s' (rs ++ [r]) /\
    (snd (history bufs [] (os ++ [o])) = rs ++ [r]) /\
    ((exists z, r = Ok z) \/ r = Throw OutOfRange).
Proof.
  intros bufs os s rs o Z0 H K. destruct (careful_fine _ _ _ K) as (s' & r & F). exists s', r.
  assert (X : fine_history bufs [] (os ++ [o]) s' (rs ++ [r])).
  { clear K Z0. induction H as [s|s o1 s1 r1 os s2 rs F1 H IH]; cbn.
    - eapply h_cons; [exact F|constructor].
    - eapply h_cons; eauto. }
  split; [exact X|]. split; [exact (proj1 (C103_contained_partial _ _ _ _ Z0 X))|]. destruct F; eauto.
Qed.

(** *** Refuted *)

Lemma increments : forall bufs h n k x tail, (x + Z.of_nat k <= length_of bufs h) -> 0 <= x -> Z.of_nat k <= n -> n <= INT_MAX ->
  history bufs [mkCursor n (length_of bufs h) h x] (repeat (Incr 0) k ++ tail)
  = (let (w, rs) := history bufs [mkCursor (n - Z.of_nat k) (length_of bufs h) h (x + Z.of_nat k)] tail in (w, repeat (Ok 0) k ++ rs)).
Proof.
  intros bufs h n k. revert n. induction k as [|k IH]; intros n x tail A B C D.
  - cbn. rewrite Z.sub_0_r, Z.add_0_r. destruct (history _ _ _); reflexivity.
  - cbn [repeat app history step changed at_ nth]. unfold increment. cbn [cu_left]. generalize max_is. intros X. rewrite as_int_ok by lia. cbv iota.
    rewrite (proj2 (Z.ltb_ge _ _)) by lia. unfold move. cbn [cu_pos cu_home cu_size]. change (Zlen (buf_at bufs h)) with (length_of bufs h).
    rewrite (proj2 (Z.ltb_ge _ _)), (proj2 (Z.ltb_ge _ _)) by lia. cbn [orb changed fst snd set_ bind].
    rewrite IH by lia. replace (n - 1 - Z.of_nat k) with (n - Z.of_nat (S k)) by lia. replace (x + 1 + Z.of_nat k) with (x + Z.of_nat (S k)) by lia.
    destruct (history _ _ tail). reflexivity.
Qed.

Lemma plus_from_begin : forall bufs h x, length_of bufs h <= INT_MAX -> inside bufs h x ->
  plus bufs (construct bufs h) x = (mkCursor (length_of bufs h - x) (length_of bufs h) h x, Ok tt).
Proof.
  intros bufs h x L I. generalize max_is. intros X. unfold inside in *. unfold construct. change (Zlen (buf_at bufs h)) with (length_of bufs h).
  unfold plus. cbn [cu_left]. rewrite as_int_ok by lia. cbv iota. rewrite (proj2 (Z.ltb_ge _ _)) by lia.
  unfold move. cbn [cu_pos cu_home cu_size]. change (Zlen (buf_at bufs h)) with (length_of bufs h).
  rewrite (proj2 (Z.ltb_ge _ _)), (proj2 (Z.ltb_ge _ _)) by lia. reflexivity.
Qed.

(** A -- at the begin of any container throws; but it has changed the count of bytes left.  If the exception is caught and the iterator is used
    further, as many ++ as the container has bytes succeed, and the next one, which should throw, moves the pointer out of the container. *)
Theorem C103_after_decrement_refuted : forall bufs h, length_of bufs h < INT_MAX ->
  snd (history bufs [] (New h :: Decr 0 :: repeat (Incr 0) (length (nth h bufs [])) ++ [Incr 0]))
  = Ok 0 :: Throw OutOfRange :: repeat (Ok 0) (length (nth h bufs [])) ++ [UB PtrOutOfArray].
Proof.
  intros bufs h L. generalize max_is. intros X. set (n := length (nth h bufs [])). assert (N : length_of bufs h = Z.of_nat n) by reflexivity.
  cbn [history step app]. unfold at_. cbn [nth]. unfold construct. change (Zlen (buf_at bufs h)) with (length_of bufs h). cbn [changed at_ nth]. unfold decrement. cbn [cu_left cu_size].
  rewrite as_int_ok by lia. cbv iota. rewrite (proj2 (Z.ltb_lt _ _)) by lia. unfold with_left; cbn [changed cu_size cu_home cu_pos fst snd set_ bind].
  rewrite increments by lia. cbn [history step changed at_ nth]. unfold increment. cbn [cu_left]. rewrite as_int_ok by lia. cbv iota.
  rewrite (proj2 (Z.ltb_ge _ _)) by lia. unfold move. cbn [cu_pos cu_home]. change (Zlen (buf_at bufs h)) with (length_of bufs h).
  rewrite (proj2 (Z.ltb_lt (length_of bufs h) _)) by lia. rewrite orb_true_r. reflexivity.
Qed.

(** A += that is too large throws, from any offset; but it has changed the count.  Afterwards -= by more than the offset, which should throw, moves the
    pointer before the container. *)
Theorem C103_after_plus_refuted : forall bufs h x n m, length_of bufs h < INT_MAX ->
  inside bufs h x -> ~ inside bufs h (x + n) -> 0 <= n <= INT_MAX -> x < m <= x + n ->
  snd (history bufs [] [New h; Plus 0 x; Plus 0 n; Minus 0 m]) = [Ok 0; Ok 0; Throw OutOfRange; UB PtrOutOfArray].
Proof.
  intros bufs h x n m L I J N M. generalize max_is. intros X.
  cbn [history step app changed]. unfold at_. cbn [nth]. rewrite plus_from_begin by (auto; lia). unfold at_; cbn [changed fst snd set_ bind nth]. unfold inside in *.
  unfold plus. cbn [cu_left]. rewrite as_int_ok by lia. cbv iota. rewrite (proj2 (Z.ltb_lt _ _)) by lia.
  unfold with_left; unfold at_; cbn [cu_size cu_home cu_pos changed fst snd set_ bind nth]. unfold minus. cbn [cu_left cu_size]. rewrite as_int_ok by lia. cbv iota.
  rewrite (proj2 (Z.ltb_ge _ _)) by lia. unfold move. cbn [cu_pos cu_home]. rewrite (proj2 (Z.ltb_lt _ 0)) by lia. reflexivity.
Qed.

(** After a ++ at the end of a container that is not empty throws, a -- leads to the last byte, as it should, but the iterator does not know that a
    byte is left: size() is 0, and ++ throws. *)
Theorem C103_after_increment_refuted : forall bufs h, length_of bufs h < INT_MAX -> 0 < length_of bufs h ->
  snd (history bufs [] [New h; Plus 0 (length_of bufs h); Incr 0; Decr 0; Deref 0; Size 0; Incr 0])
  = [Ok 0; Ok 0; Throw OutOfRange; Ok 0; Ok (last (nth h bufs []) 0); Ok 0; Throw OutOfRange].
Proof.
  intros bufs h L I. generalize max_is. intros X.
  cbn [history step app changed]. unfold at_. cbn [nth]. rewrite plus_from_begin by (unfold inside; lia). unfold at_; cbn [changed fst snd set_ bind nth].
  rewrite Z.sub_diag. set (n := length_of bufs h) in *.
  assert (A : increment bufs (mkCursor 0 n h n) = (mkCursor (-1) n h n, Throw OutOfRange)) by reflexivity.
  assert (B : decrement bufs (mkCursor (-1) n h n) = (mkCursor 0 n h (n + -1), Ok tt)).
  { unfold decrement. cbn [cu_left cu_size]. rewrite as_int_ok by lia. cbv iota. rewrite (proj2 (Z.ltb_ge _ _)) by lia. unfold move. cbn [cu_pos cu_home cu_size].
    change (Zlen (buf_at bufs h)) with n. rewrite (proj2 (Z.ltb_ge _ _)), (proj2 (Z.ltb_ge _ _)) by lia. reflexivity. }
  assert (C : increment bufs (mkCursor 0 n h (n + -1)) = (mkCursor (-1) n h (n + -1), Throw OutOfRange)) by reflexivity.
  rewrite A. cbn [fst snd bind]. rewrite B. cbn [fst snd bind cu_left]. rewrite C. cbn [fst snd bind].
  unfold deref. cbn [cu_pos cu_home]. change (Zlen (buf_at bufs h)) with n. rewrite (proj2 (Z.ltb_ge _ _)), (proj2 (Z.ltb_ge _ _)) by lia. cbn [orb].
  repeat f_equal. subst n. unfold buf_at, length_of in *. clear A B C. generalize dependent (nth h bufs []). intros l _ P.
  destruct (exists_last (l := l)) as (l' & b & ->); [intros ->; cbn in P; lia|]. rewrite last_last, app_length. cbn [length].
  replace (Z.to_nat (Z.of_nat (length l' + 1) + -1)) with (length l') by lia. rewrite app_nth2 by lia. rewrite Nat.sub_diag. reflexivity.
Qed.

(** A negative count of += or -= that leads out of the container is not noticed: += checks only the end, -= only the begin. *)
Theorem C103_negative_refuted : forall bufs h x k, length_of bufs h + k <= INT_MAX -> inside bufs h x ->
  (x < k -> snd (history bufs [] [New h; Plus 0 x; Plus 0 (- k)]) = [Ok 0; Ok 0; UB PtrOutOfArray]) /\
  (length_of bufs h - x < k -> snd (history bufs [] [New h; Plus 0 x; Minus 0 (- k)]) = [Ok 0; Ok 0; UB PtrOutOfArray]).
Proof.
  intros bufs h x k L I. generalize max_is. intros X. assert (A : 0 <= length_of bufs h) by (unfold length_of; lia).
  cbn [history step app changed]. unfold at_. cbn [nth]. split; intros K; (rewrite plus_from_begin by (auto; unfold inside in I; lia)); unfold at_; cbn [changed fst snd set_ bind nth]; unfold inside in I.
  - unfold plus. cbn [cu_left]. rewrite as_int_ok by lia. cbv iota. rewrite (proj2 (Z.ltb_ge _ _)) by lia.
    unfold move. cbn [cu_pos cu_home]. rewrite (proj2 (Z.ltb_lt _ 0)) by lia. reflexivity.
  - unfold minus. cbn [cu_left cu_size]. rewrite as_int_ok by lia. cbv iota. rewrite (proj2 (Z.ltb_ge _ _)) by lia.
    unfold move. cbn [cu_pos cu_home]. change (Zlen (buf_at bufs h)) with (length_of bufs h).
    rewrite (proj2 (Z.ltb_lt (length_of bufs h) _)) by lia. rewrite orb_true_r. reflexivity.
Qed.

(** A count of -= that is far too large is a signed overflow, not an exception, if bytes are left. *)
Theorem C103_overflow_refuted : forall bufs h n, length_of bufs h < INT_MAX -> n <= INT_MAX -> INT_MAX < length_of bufs h + n ->
  snd (history bufs [] [New h; Minus 0 n]) = [Ok 0; UB SignedOverflow].
Proof.
  intros bufs h n L N O. cbn [history step app]. unfold at_. cbn [nth]. unfold construct. change (Zlen (buf_at bufs h)) with (length_of bufs h). cbn [changed at_ nth].
  unfold minus. cbn [cu_left]. unfold as_int. rewrite (proj2 (Z.ltb_lt INT_MAX _)) by lia. rewrite orb_true_r. reflexivity.
Qed.

(** An iterator after an exception cannot be copied; and an assignment of it throws and leaves the target with the sizes of one container and a pointer
    into another.  So a shorter container may be left by ++. *)
Theorem C103_after_assign_refuted : forall bufs g h n, length_of bufs g < INT_MAX -> length_of bufs h < INT_MAX ->
  0 <= n -> length_of bufs h + n < length_of bufs g -> 
  snd (history bufs [] [New g; New h; Decr 0; CopyOf 0; Assign 1 0; Plus 1 (length_of bufs h + n + 1)])
  = [Ok 0; Ok 0; Throw OutOfRange; Throw OutOfRange; Throw OutOfRange; UB PtrOutOfArray].
Proof.
  intros bufs g h n G H N L. generalize max_is. intros X. assert (0 <= length_of bufs h) by (unfold length_of; lia).
  cbn [history step app]. unfold at_. cbn [nth]. unfold construct. change (Zlen (buf_at bufs h)) with (length_of bufs h). change (Zlen (buf_at bufs g)) with (length_of bufs g).
  cbn [changed at_ nth]. unfold decrement. cbn [cu_left cu_size]. rewrite as_int_ok by lia. cbv iota. rewrite (proj2 (Z.ltb_lt _ _)) by lia.
  unfold with_left; unfold at_; cbn [cu_size cu_home cu_pos changed fst snd set_ bind nth made]. unfold copy, unfit. cbn [cu_left cu_size].
  rewrite (proj2 (Z.ltb_lt (length_of bufs g) _)) by lia. cbn [orb made at_ nth Nat.eqb]. unfold assign, unfit. cbn [cu_left cu_size].
  rewrite (proj2 (Z.ltb_lt (length_of bufs g) _)) by lia. unfold at_; cbn [orb changed fst snd set_ bind nth cu_home cu_pos].
  unfold plus. cbn [cu_left nth]. rewrite as_int_ok by lia. cbv iota. rewrite (proj2 (Z.ltb_ge _ _)) by lia.
  unfold move. cbn [cu_pos cu_home]. change (Zlen (buf_at bufs h)) with (length_of bufs h).
  rewrite (proj2 (Z.ltb_lt (length_of bufs h) _)) by lia. rewrite orb_true_r. reflexivity.
Qed.

(** *** The iterator of the deserializer

    [WireModel] has the same operations, for the runs of the deserializer, which end with the first exception. *)
Definition seen (bufs : list (list Z)) (c : cursor) : iter := mkIter (cu_left c) (cu_size c) (cu_pos c).

Definition outcome_of (bufs : list (list Z)) (r : cursor * res unit) : res iter := _ <- snd r ;; Ok (seen bufs (fst r)).

(** For every iterator that is in its container and every count that is an int: += of both models have the same outcomes, also the undefined ones. *)
Lemma reader_plus : forall bufs h x n, sized bufs -> inside bufs h x -> - INT_MAX - 1 <= n <= INT_MAX ->
  outcome_of bufs (plus bufs (mkCursor (length_of bufs h - x) (length_of bufs h) h x) n)
  = advance false (seen bufs (mkCursor (length_of bufs h - x) (length_of bufs h) h x)) n.
Proof.
  intros bufs h x n Z0 I N. generalize (Z0 h) max_is. intros L X. unfold inside in I. unfold plus, advance, seen. cbn [cu_left cu_size cu_pos it_left it_size it_pos andb].
  unfold as_int. rewrite (proj2 (Z.ltb_ge _ (- INT_MAX - 1))) by lia. cbn [orb]. destruct (INT_MAX <? _); [reflexivity|].
  destruct (_ <? 0) eqn:E; [reflexivity|]. unfold move. cbn [cu_left cu_size cu_pos cu_home]. change (Zlen (buf_at bufs h)) with (length_of bufs h).
  destruct ((x + n <? 0) || (length_of bufs h <? x + n)); reflexivity.
Qed.

Lemma reader_increment : forall bufs h x, sized bufs -> inside bufs h x ->
  outcome_of bufs (increment bufs (mkCursor (length_of bufs h - x) (length_of bufs h) h x))
  = it_incr (seen bufs (mkCursor (length_of bufs h - x) (length_of bufs h) h x)).
Proof.
  intros bufs h x Z0 I. generalize (Z0 h) max_is. intros L X. unfold inside in I. unfold increment, it_incr, seen. cbn [cu_left cu_size cu_pos it_left it_size it_pos].
  rewrite as_int_ok by lia. cbv iota. destruct (_ <? 0) eqn:E; [reflexivity|]. apply Z.ltb_ge in E. unfold move. cbn [cu_left cu_size cu_pos cu_home].
  change (Zlen (buf_at bufs h)) with (length_of bufs h). rewrite (proj2 (Z.ltb_ge _ _)), (proj2 (Z.ltb_ge _ _)) by lia. reflexivity.
Qed.

Lemma reader_begin : forall bufs h, seen bufs (construct bufs h) = it_begin (nth h bufs []).
Proof. reflexivity. Qed.

(** *** Cases *)

(** Two containers and four iterators.  A history with a sum, with exceptions of ++, of -- and of a sum, and with an iterator that is assigned after its
    exception and used again. *)
Definition two : list (list Z) := [[10; 20; 30]; [7]].
Definition walk : list op :=
  [New 0; Incr 0; Deref 0; SumOf 0 2; Equal 0 1; Size 1; Deref 1; Incr 1; SumOf 0 3; New 1; Assign 1 2; Deref 1; Decr 2; Assign 2 0; Equal 0 2; Minus 2 1; Deref 2; CopyOf 2; Plus 3 3].
Definition walk_outcomes : list (res Z) :=
  [Ok 0; Ok 0; Ok 20; Ok 0; Ok 0; Ok 0; Ok 0; Throw OutOfRange; Throw OutOfRange; Ok 0; Ok 0; Ok 7; Throw OutOfRange; Ok 0; Ok 1; Ok 0; Ok 10; Ok 0; Ok 0].
Definition walk_end : offsets := [Some (0%nat, 1); Some (1%nat, 0); Some (0%nat, 0); Some (0%nat, 3)].

Lemma two_sized : sized two.
Proof. intros [|[|[|h]]]; reflexivity. Qed.


Example C103_walk_case : fine_history two [] walk walk_end walk_outcomes.
Proof.
  unfold walk, walk_outcomes.
  eapply h_cons; [apply f_new|]. cbn [app].
  eapply h_cons; [eapply f_move; [apply m_incr|reflexivity|unfold inside; cbn; lia|apply put_replaced; cbn; lia]|]. cbn [put firstn skipn app Z.add].
  eapply h_cons; [eapply f_deref; reflexivity|].
  eapply h_cons; [eapply f_sum; [reflexivity|rewrite max_is; lia|unfold inside; cbn; lia]|]. cbn [app Z.add Pos.add Pos.succ].
  eapply h_cons; [eapply f_differ; [reflexivity|reflexivity|discriminate]|].
  eapply h_cons; [refine (f_size two _ 1 0%nat 3 _); reflexivity|].
  eapply h_cons; [eapply f_deref; reflexivity|].
  eapply h_cons; [eapply f_no_move; [apply m_incr|reflexivity|unfold inside; cbn; lia|apply put_replaced; cbn; lia]|]. cbn [put firstn skipn app].
  eapply h_cons; [eapply f_no_sum; [reflexivity|rewrite max_is; lia|unfold inside; cbn; lia]|].
  eapply h_cons; [apply f_new|]. cbn [app].
  eapply h_cons; [eapply f_assign; [cbn; lia|reflexivity|apply put_replaced; cbn; lia]|]. cbn [put firstn skipn app].
  eapply h_cons; [eapply f_deref; reflexivity|].
  eapply h_cons; [eapply f_no_move; [apply m_decr|reflexivity|unfold inside; cbn; lia|apply put_replaced; cbn; lia]|]. cbn [put firstn skipn app].
  eapply h_cons; [eapply f_assign; [cbn; lia|reflexivity|apply put_replaced; cbn; lia]|]. cbn [put firstn skipn app].
  eapply h_cons; [eapply f_same; reflexivity|].
  eapply h_cons; [eapply f_move; [apply m_minus; [lia|intros [|[|[|h]]]; vm_compute; discriminate]|reflexivity|unfold inside; cbn; lia|apply put_replaced; cbn; lia]|].
  cbn [put firstn skipn app Z.add Z.opp].
  eapply h_cons; [eapply f_deref; reflexivity|].
  eapply h_cons; [eapply f_copy; reflexivity|]. cbn [app].
  eapply h_cons; [eapply f_move; [apply m_plus; rewrite max_is; lia|reflexivity|unfold inside; cbn; lia|apply put_replaced; cbn; lia]|].
  apply h_nil.
Qed.

Example C103_walk_runs : snd (history two [] walk) = walk_outcomes.
Proof. exact (proj1 (C103_contained_partial _ _ _ _ two_sized C103_walk_case)). Qed.

(** The next -= 4 of the last iterator, which is at the end, is careful; it throws. *)
Example C103_careful_case : careful two walk_end (Minus 3 4) /\ snd (history two [] (walk ++ [Minus 3 4])) = walk_outcomes ++ [Throw OutOfRange].
Proof.
  split; [|vm_compute; reflexivity]. cbn. split; [exists 0%nat, 3; split; [reflexivity|unfold inside; cbn; lia]|]. split; [lia|].
  intros [|[|[|h]]]; vm_compute; discriminate.
Qed.

(** The conditions of the refutations hold: offset 2 of the first container, counts 5 and 4; the second container is shorter than the first. *)
Example C103_refuted_case :
  inside two 0 2 /\ ~ inside two 0 (2 + 5) /\ 2 < 4 <= 2 + 5 /\ 0 < length_of two 0 /\ length_of two 1 + 1 < length_of two 0 /\ INT_MAX < length_of two 0 + (INT_MAX - 1).
Proof. unfold inside. cbn. repeat split; intros; try lia; vm_compute; congruence. Qed.

Print Assumptions C103_contained_partial.
Print Assumptions C103_careful_partial.
Print Assumptions C103_after_decrement_refuted.
Print Assumptions C103_after_plus_refuted.
Print Assumptions C103_after_increment_refuted.
Print Assumptions C103_negative_refuted.
Print Assumptions C103_overflow_refuted.
Print Assumptions C103_after_assign_refuted.

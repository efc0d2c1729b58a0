(** C90: QGrpcStatus is a value. *)

From Coq Require Import ZArith List Bool Arith Lia.
From Verif Require Import Base StatusModel StatusSpec.
Import ListNotations.

(** A variable of the program stands for the value. *)
Definition stands (s : variable) (w : value) : Prop :=
  match w with
  | Absent => s = Gone
  | Unspecified => s = Status None
  | Known c m => s = Status (Some (c, m))
  end.
Definition stand (v : variables) (w : values) : Prop := forall x, stands (v x) (w x).

Lemma stand_put : forall v w x s t, stand v w -> stands s t -> stand (put v x s) (set_value w x t).
Proof. intros v w x s t H S y. unfold put, set_value. destruct (Nat.eqb y x); [exact S | apply H]. Qed.

Lemma stands_known : forall s c m, stands s (Known c m) -> s = Status (Some (c, m)).
Proof. auto. Qed.

Lemma stands_there : forall s w, stands s w -> w <> Absent -> exists d, s = Status d.
Proof. intros s [| | c m] H N; [congruence | eexists; exact H | eexists; exact H]. Qed.

Lemma does_det : forall w o w1 a1, does w o w1 a1 -> forall w2 a2, does w o w2 a2 -> w1 = w2 /\ a1 = a2.
Proof.
  assert (B : forall (b b' : bool) (P : Prop), (b = true <-> P) -> (b' = true <-> P) -> b = b').
  { intros [] [] P H H'; auto; [symmetry; tauto | tauto]. }
  intros w o w1 a1 D w2 a2 D'. destruct D; inversion D'; subst; auto; repeat match goal with
    | H : ?v ?x = Known ?c ?m, H' : ?v ?x = Known _ _ |- _ => rewrite H in H'; injection H' as <- <- end; auto.
  - split; [reflexivity |]. f_equal. f_equal. eapply B; eassumption.
  - split; [reflexivity |]. f_equal. f_equal. eapply B; eassumption.
  - split; [reflexivity |]. f_equal. f_equal. eapply B; eassumption.
Qed.

Lemma answer_eq : forall (b : bool) (P : Prop) (b' : bool), (b = true <-> P) -> (b' = true <-> P) -> b = b'.
Proof. intros [] P [] H H'; auto; [symmetry; tauto | tauto]. Qed.

Lemma operate_does : forall v w o w' a, stand v w -> does w o w' a -> careful w o -> exists v', operate v o = Ok (v', a) /\ stand v' w'.
Proof.
  intros v w o w' a S D C. destruct D; cbn [operate careful] in *.
  - pose proof (S x) as Sx. rewrite H in Sx. cbn in Sx. rewrite Sx. cbn. eexists. split; [reflexivity |].
    now apply stand_put.
  - pose proof (S x) as Sx. rewrite H in Sx. cbn in Sx. pose proof (S y) as Sy. rewrite H0 in Sy. cbn in Sy. rewrite Sx, Sy. cbn.
    eexists. split; [reflexivity |]. now apply stand_put.
  - pose proof (S x) as Sx. rewrite H in Sx. cbn in Sx. destruct (stands_there _ _ (S y) H0) as (d & Sy). rewrite Sx, Sy. cbn.
    eexists. split; [reflexivity |]. apply stand_put; [apply stand_put; [exact S | reflexivity] |]. rewrite <- Sy. apply S.
  - pose proof (S y) as Sy. rewrite H0 in Sy. cbn in Sy. pose proof (S x) as Sx.
    destruct (v0 x) as [| | c0 m0]; [congruence | congruence |]. cbn in Sx. rewrite Sx, Sy. cbn. eexists. split; [reflexivity |]. now apply stand_put.
  - destruct (stands_there _ _ (S x) H) as (d & Sx). destruct (stands_there _ _ (S y) H0) as (d' & Sy). rewrite Sx, Sy. cbn.
    eexists. split; [reflexivity |]. apply stand_put; [apply stand_put; [exact S | reflexivity] |]. rewrite <- Sy. apply S.
  - destruct (stands_there _ _ (S x) H) as (d & Sx). rewrite Sx. cbn. eexists. split; [reflexivity |]. now apply stand_put.
  - pose proof (S x) as Sx. rewrite H in Sx. cbn in Sx. rewrite Sx. cbn. eauto.
  - pose proof (S x) as Sx. rewrite H in Sx. cbn in Sx. rewrite Sx. cbn. eauto.
  - pose proof (S x) as Sx. rewrite H in Sx. cbn in Sx. rewrite Sx. cbn. exists v. split; [| exact S].
    rewrite (answer_eq b (c = k) (c =? k)%Z H0 (Z.eqb_eq c k)). reflexivity.
  - pose proof (S x) as Sx. rewrite H in Sx. cbn in Sx. rewrite Sx. cbn. exists v. split; [| exact S].
    rewrite (answer_eq b (c <> k) (negb (c =? k)%Z) H0); [reflexivity |]. rewrite negb_true_iff. apply Z.eqb_neq.
  - pose proof (S x) as Sx. rewrite H in Sx. cbn in Sx. pose proof (S y) as Sy. rewrite H0 in Sy. cbn in Sy. rewrite Sx, Sy. cbn.
    exists v. split; [| exact S]. rewrite (answer_eq b _ (c =? c')%Z H1); [reflexivity |]. rewrite Z.eqb_eq. split.
    + intros ->. f_equal. exact (C _ _ _ H H0).
    + congruence.
Qed.

(** A program that obeys the rules for values is told what the rules say.  Missing: copy assignment to a status that was moved from, and
    comparison of statuses with the same code and different messages; see the next two theorems. *)
Theorem C90_value_partial : forall l w a, does_all (fun _ => Absent) l w a -> careful_all (fun _ => Absent) l ->
  exists v, program nothing l = Ok (v, a).
Proof.
  intros l w a D C.
  assert (G : forall l w0 w a v0, stand v0 w0 -> does_all w0 l w a -> careful_all w0 l -> exists v, program v0 l = Ok (v, a)).
  { clear. induction l as [| o l IH]; intros w0 w a v0 S D C.
    - inversion D; subst. exists v0. reflexivity.
    - inversion D as [| ? ? w1 a1 ? ? a2 D1 D2]; subst. inversion C as [| ? ? w1' a1' ? C1 D1' C2]; subst.
      destruct (does_det _ _ _ _ D1 _ _ D1') as [-> ->].
      destruct (operate_does v0 w0 o w1' a1' S D1' C1) as (v1 & E & S1). destruct (IH w1' w a2 v1 S1 D2 C2) as (v & E').
      exists v. cbn [program]. rewrite E. cbn [bind fst snd]. rewrite E'. reflexivity. }
  apply (G l (fun _ => Absent) w a nothing); [intro x; reflexivity | exact D | exact C].
Qed.

Lemma run_stand : forall l w0 w a v0, stand v0 w0 -> does_all w0 l w a -> careful_all w0 l -> exists v, program v0 l = Ok (v, a) /\ stand v w.
Proof.
  induction l as [| o l IH]; intros w0 w a v0 S D C.
  - inversion D; subst. exists v0. auto.
  - inversion D as [| ? ? w1 a1 ? ? a2 D1 D2]; subst. inversion C as [| ? ? w1' a1' ? C1 D1' C2]; subst.
    destruct (does_det _ _ _ _ D1 _ _ D1') as [-> ->].
    destruct (operate_does v0 w0 o w1' a1' S D1' C1) as (v1 & E & S1). destruct (IH w1' w a2 v1 S1 D2 C2) as (v & E' & S').
    exists v. cbn [program]. rewrite E. cbn [bind fst snd]. rewrite E'. auto.
Qed.

Lemma program_app : forall l v o v' a, program v l = Ok (v', a) -> program v (l ++ [o]) = (r <- operate v' o ;; Ok (fst r, (a ++ snd r)%list)).
Proof.
  induction l as [| p l IH]; intros v o v' a H.
  - injection H as <- <-. cbn [app program]. destruct (operate v o) as [r | | |]; reflexivity || (cbn; now rewrite app_nil_r).
  - cbn [app program] in *. destruct (operate v p) as [r | | |]; try discriminate H. cbn [bind] in *.
    destruct (program (fst r) l) as [r' | | |] eqn:E; try discriminate H. cbn [bind] in H. injection H as <- <-.
    rewrite (IH _ o (fst r') (snd r')) by (now destruct r'). destruct (operate (fst r') o) as [r'' | | |]; cbn; try reflexivity.
    now rewrite app_assoc.
Qed.

(** After every such program: assigning a status to one that was moved from, which the rules allow, is undefined. *)
Theorem C90_assign_moved_refuted : forall l w a x y c m, does_all (fun _ => Absent) l w a -> careful_all (fun _ => Absent) l ->
  w x = Unspecified -> w y = Known c m -> program nothing (l ++ [Assign x y]) = UB NullDeref.
Proof.
  intros l w a x y c m D C X Y. destruct (run_stand l (fun _ => Absent) w a nothing (fun _ => eq_refl) D C) as (v & E & S).
  rewrite (program_app l nothing _ v a E). pose proof (S x) as Sx. rewrite X in Sx. cbn in Sx. cbn [operate]. now rewrite Sx.
Qed.

(** And statuses with one code and different messages are called equal. *)
Theorem C90_equal_refuted : forall l w a x y c m m', does_all (fun _ => Absent) l w a -> careful_all (fun _ => Absent) l ->
  w x = Known c m -> w y = Known c m' -> m <> m' ->
  exists v, program nothing (l ++ [Equal x y]) = Ok (v, (a ++ [ABool true])%list).
Proof.
  intros l w a x y c m m' D C X Y N. destruct (run_stand l (fun _ => Absent) w a nothing (fun _ => eq_refl) D C) as (v & E & S).
  rewrite (program_app l nothing _ v a E). pose proof (S x) as Sx. rewrite X in Sx. pose proof (S y) as Sy. rewrite Y in Sy. cbn in Sx, Sy.
  cbn [operate]. rewrite Sx, Sy. cbn. rewrite Z.eqb_refl. eauto.
Qed.

(** A status is copied, the original moved away, assigned to by moving, and both are read. *)
Definition ex_program : list operation :=
  [New 0%nat 5%Z [65%Z]; Copy 1 0; Move 2 0; New 3 14%Z []; MoveAssign 0 3; Message 1; Code 2; Code 0; Equal 1 2].
Lemma ex_does : exists w, does_all (fun _ => Absent) ex_program w [AMessage [65%Z]; ACode 5%Z; ACode 14%Z; ABool true]
  /\ careful_all (fun _ => Absent) ex_program /\ w 3%nat = Unspecified /\ w 1%nat = Known 5%Z [65%Z].
Proof.
  eexists. split; [| split; [| split]].
  - unfold ex_program. change [AMessage [65%Z]; ACode 5%Z; ACode 14%Z; ABool true] with
      ([] ++ [] ++ [] ++ [] ++ [] ++ [AMessage [65%Z]] ++ [ACode 5%Z] ++ [ACode 14%Z] ++ [ABool true] ++ [])%list.
    repeat (eapply all_cons; [first
      [ apply does_new; reflexivity | eapply does_copy; reflexivity | apply does_move; [reflexivity | discriminate]
      | apply does_move_assign; discriminate | eapply does_message; reflexivity | eapply does_code; reflexivity
      | eapply does_equal; [reflexivity | reflexivity | split; reflexivity] ] |]). apply all_nil.
  - unfold ex_program. repeat (eapply careful_cons; [| first
      [ apply does_new; reflexivity | eapply does_copy; reflexivity | apply does_move; [reflexivity | discriminate]
      | apply does_move_assign; discriminate | eapply does_message; reflexivity | eapply does_code; reflexivity
      | eapply does_equal; [reflexivity | reflexivity | split; reflexivity] ] |]); try exact Logic.I; [| apply careful_nil].
    intros c m m' X Y. vm_compute in X, Y. congruence.
  - reflexivity.
  - reflexivity.
Qed.

Example C90_case :
  (exists v, program nothing ex_program = Ok (v, [AMessage [65%Z]; ACode 5%Z; ACode 14%Z; ABool true]))
  /\ program nothing (ex_program ++ [Assign 3 1]) = UB NullDeref.
Proof.
  destruct ex_does as (w & D & C & X & Y). split; [exact (C90_value_partial _ _ _ D C) |].
  exact (C90_assign_moved_refuted _ _ _ 3 1 _ _ D C X Y).
Qed.

Example C90_equal_case :
  exists v, program nothing ([New 0 5%Z [65%Z]; New 1 5%Z []] ++ [Equal 0 1]) = Ok (v, [ABool true]).
Proof.
  refine (C90_equal_refuted _ (set_value (set_value (fun _ => Absent) 0 (Known 5%Z [65%Z])) 1 (Known 5%Z [])) [] 0 1 5%Z [65%Z] [] _ _ eq_refl eq_refl _).
  - change (@nil answer) with (@nil answer ++ (@nil answer ++ @nil answer))%list. repeat (eapply all_cons; [apply does_new; reflexivity |]). apply all_nil.
  - repeat (eapply careful_cons; [exact Logic.I | apply does_new; reflexivity |]). apply careful_nil.
  - discriminate.
Qed.

Print Assumptions C90_value_partial.
Print Assumptions C90_assign_moved_refuted.
Print Assumptions C90_equal_refuted.

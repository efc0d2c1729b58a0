(** Invariants of the use of replies and streams by handlers, slots and other threads. *)

From Coq Require Import ZArith List Bool Arith Lia.
From Verif Require Import Base AsyncModel AsyncSpec.
Import ListNotations.
Local Close Scope Z_scope.

Lemma put_same {A} (f : nat -> A) k v : put f k v k = v.
Proof. unfold put. now rewrite Nat.eqb_refl. Qed.
Lemma put_other {A} (f : nat -> A) k v n : n <> k -> put f k v n = f n.
Proof. unfold put. intros H. apply Nat.eqb_neq in H. now rewrite H. Qed.

(** Frames on top of which code of the user runs. *)
Definition user (f : frame) : Prop := match f with Decoding | Want _ | Remote => False | _ => True end.
(** Frames whose thread has the mutex. *)
Definition holds (f : frame) : nat := match f with Decoding | Failing => 1 | _ => 0 end.
Fixpoint held (l : list frame) : nat := match l with [] => 0 | f :: l' => holds f + held l' end.
(** Threads that an abort is being executed for. *)
Definition serves (f : frame) : list nat := match f with Emitting (Some u) | Want (WAbort (Some u)) => [u] | _ => [] end.
Definition served (l : list frame) : list nat := flat_map serves l.
(** Frames of the outermost event loop. *)
Definition outermost (f : frame) : Prop := match f with Handling _ _ _ | Want (WMessage _) => True | _ => False end.
Definition remote (l : list frame) : Prop := exists r, l = Remote :: r.

Section Operation.
  Context (home : nat).

  Definition place (t : nat) (f : frame) : Prop :=
    match f with
    | Handling _ _ _ | Emitting _ | Want (WMessage _) | Want (WAbort _) => t = home
    | Remote => t <> home
    | _ => True
    end.
  Definition mine (l : option nat) (t : nat) : nat := match l with Some u => if Nat.eqb u t then 1 else 0 | None => 0 end.

  (** Where threads are: who has the mutex, who waits for whom. *)
  Record Inv (lock : option nat) (stacks : nat -> list frame) (posted : list nat) : Prop := {
    v_hold : forall t, held (stacks t) = mine lock t;
    v_shape : forall t f r, stacks t = f :: r -> Forall user r;
    v_place : forall t f, In f (stacks t) -> place t f;
    v_bottom : forall above f below, stacks home = above ++ f :: below -> outermost f -> below = [];
    v_wait : forall u, remote (stacks u) <-> In u (posted ++ served (stacks home));
    v_once : NoDup (posted ++ served (stacks home))
  }.

  Lemma inv_ext lock stacks stacks' posted : Inv lock stacks posted -> (forall t, stacks' t = stacks t) -> Inv lock stacks' posted.
  Proof.
    intros [A B C D E F] X. constructor; intros *; rewrite ?X; eauto.
  Qed.
  Lemma put_put {A} (f : nat -> A) t x y n : put (put f t x) t y n = put f t y n.
  Proof. unfold put. now destruct (Nat.eqb n t). Qed.

  Lemma not_remote l : Forall user l -> ~ remote l.
  Proof. intros F [r ->]. inversion F. now cbn in *. Qed.

  (** A frame that neither has the mutex nor serves another thread is pushed on code of the user. *)
  Lemma inv_push lock stacks posted t f : Inv lock stacks posted ->
    Forall user (stacks t) -> place t f -> holds f = 0 -> serves f = [] -> f <> Remote -> (outermost f -> stacks t = []) ->
    Inv lock (put stacks t (f :: stacks t)) posted.
  Proof.
    intros V U P H S R B.
    assert (SV : served (put stacks t (f :: stacks t) home) = served (stacks home)).
    { destruct (Nat.eq_dec home t) as [->|N]; [rewrite put_same; unfold served; cbn; now rewrite S|now rewrite put_other]. }
    constructor.
    - intros u. destruct (Nat.eq_dec u t) as [->|N]; [rewrite put_same; cbn; rewrite H; apply (v_hold _ _ _ V)|].
      rewrite put_other by auto. apply (v_hold _ _ _ V).
    - intros u g r. destruct (Nat.eq_dec u t) as [->|N]; [rewrite put_same; intros E; now injection E as <- <-|].
      rewrite put_other by auto. apply (v_shape _ _ _ V).
    - intros u g. destruct (Nat.eq_dec u t) as [->|N]; [rewrite put_same; intros [<-|I]; auto; now apply (v_place _ _ _ V)|].
      rewrite put_other by auto. apply (v_place _ _ _ V).
    - intros above g below. destruct (Nat.eq_dec home t) as [E|N]; [|rewrite put_other by auto; apply (v_bottom _ _ _ V)].
      rewrite <- E, put_same. intros Q O. destruct above as [|x above]; cbn in Q; injection Q as Q1 Q2.
      + subst g. rewrite <- Q2, E. auto.
      + now apply (v_bottom _ _ _ V above g below).
    - intros u. rewrite SV. rewrite <- (v_wait _ _ _ V). destruct (Nat.eq_dec u t) as [->|N]; [|now rewrite put_other].
      rewrite put_same. split; intros Q.
      + destruct Q as [r Q]. injection Q as Q _. contradiction.
      + now apply not_remote in Q.
    - rewrite SV. apply (v_once _ _ _ V).
  Qed.

  (** Such a frame, or any frame that does not serve another thread, ends. *)
  Lemma inv_pop lock stacks posted t f r : Inv lock stacks posted -> stacks t = f :: r -> serves f = [] -> f <> Remote ->
    Inv (if Nat.eqb (holds f) 0 then lock else None) (put stacks t r) posted.
  Proof.
    intros V E S R. pose proof (v_shape _ _ _ V _ _ _ E) as U.
    assert (SV : served (put stacks t r home) = served (stacks home)).
    { destruct (Nat.eq_dec home t) as [->|N]; [rewrite put_same, E; unfold served; cbn; now rewrite S|now rewrite put_other]. }
    assert (HR : held r = match holds f with 0 => mine lock t | _ => 0 end).
    { pose proof (v_hold _ _ _ V t) as H. rewrite E in H. cbn in H. unfold mine in *. destruct lock as [u|]; [destruct (Nat.eqb u t)|]; destruct f; cbn in *; lia. }
    constructor.
    - intros u. destruct (Nat.eq_dec u t) as [->|N]; [rewrite put_same|rewrite put_other by auto].
      + rewrite HR. destruct f; cbn; reflexivity.
      + pose proof (v_hold _ _ _ V u) as Q. pose proof (v_hold _ _ _ V t) as H. rewrite E in H. cbn in H. destruct f; cbn; auto; rewrite Q;
        unfold mine in *; destruct lock as [x|]; auto; destruct (Nat.eqb_spec x t); cbn in H; try lia; subst x; apply Nat.neq_sym, Nat.eqb_neq in N; now rewrite N.
    - intros u g q. destruct (Nat.eq_dec u t) as [->|N]; [rewrite put_same|rewrite put_other by auto; apply (v_shape _ _ _ V)].
      intros ->. now inversion U.
    - intros u g. destruct (Nat.eq_dec u t) as [->|N]; [rewrite put_same|rewrite put_other by auto; apply (v_place _ _ _ V)].
      intros I. apply (v_place _ _ _ V). rewrite E. now right.
    - intros above g below. destruct (Nat.eq_dec home t) as [Q|N]; [|rewrite put_other by auto; apply (v_bottom _ _ _ V)].
      rewrite <- Q, put_same. intros ->. rewrite <- Q in E. apply (v_bottom _ _ _ V (f :: above) g below E).
    - intros u. rewrite SV. rewrite <- (v_wait _ _ _ V). destruct (Nat.eq_dec u t) as [->|N]; [|now rewrite put_other].
      rewrite put_same, E. split; intros Q; [now apply not_remote in Q|]. destruct Q as [q Q]. injection Q as Q _. contradiction.
    - rewrite SV. apply (v_once _ _ _ V).
  Qed.

  (** read gets the mutex. *)
  Lemma inv_lock stacks posted t : Inv None stacks posted -> Forall user (stacks t) -> Inv (Some t) (put stacks t (Decoding :: stacks t)) posted.
  Proof.
    intros V U.
    assert (SV : served (put stacks t (Decoding :: stacks t) home) = served (stacks home)).
    { destruct (Nat.eq_dec home t) as [->|N]; [now rewrite put_same|now rewrite put_other]. }
    constructor.
    - intros u. pose proof (v_hold _ _ _ V u) as Q. cbn in Q. destruct (Nat.eq_dec u t) as [->|N]; [rewrite put_same|rewrite put_other by auto].
      + cbn. rewrite Q. now rewrite Nat.eqb_refl.
      + rewrite Q. cbn. apply Nat.neq_sym, Nat.eqb_neq in N. now rewrite N.
    - intros u g r. destruct (Nat.eq_dec u t) as [->|N]; [rewrite put_same; intros E; now injection E as <- <-|].
      rewrite put_other by auto. apply (v_shape _ _ _ V).
    - intros u g. destruct (Nat.eq_dec u t) as [->|N]; [rewrite put_same; intros [<-|I]; [exact Logic.I|now apply (v_place _ _ _ V)]|].
      rewrite put_other by auto. apply (v_place _ _ _ V).
    - intros above g below. destruct (Nat.eq_dec home t) as [E|N]; [|rewrite put_other by auto; apply (v_bottom _ _ _ V)].
      rewrite <- E, put_same. intros Q O. destruct above as [|x above]; cbn in Q; injection Q as Q1 Q2.
      + subst g. destruct O.
      + now apply (v_bottom _ _ _ V above g below).
    - intros u. rewrite SV. rewrite <- (v_wait _ _ _ V). destruct (Nat.eq_dec u t) as [->|N]; [|now rewrite put_other].
      rewrite put_same. split; intros Q; [destruct Q; discriminate|now apply not_remote in Q].
    - rewrite SV. apply (v_once _ _ _ V).
  Qed.

  (** A thread asks another one for an abort. *)
  Lemma inv_remote lock stacks posted t : Inv lock stacks posted -> Forall user (stacks t) -> t <> home ->
    Inv lock (put stacks t (Remote :: stacks t)) (posted ++ [t]).
  Proof.
    intros V U H.
    assert (SV : put stacks t (Remote :: stacks t) home = stacks home) by (apply put_other; auto).
    assert (NI : ~ In t (posted ++ served (stacks home))) by (rewrite <- (v_wait _ _ _ V); now apply not_remote).
    constructor.
    - intros u. destruct (Nat.eq_dec u t) as [->|N]; [rewrite put_same; cbn; apply (v_hold _ _ _ V)|].
      rewrite put_other by auto. apply (v_hold _ _ _ V).
    - intros u g r. destruct (Nat.eq_dec u t) as [->|N]; [rewrite put_same; intros E; now injection E as <- <-|].
      rewrite put_other by auto. apply (v_shape _ _ _ V).
    - intros u g. destruct (Nat.eq_dec u t) as [->|N]; [rewrite put_same; intros [<-|I]; [exact H|now apply (v_place _ _ _ V)]|].
      rewrite put_other by auto. apply (v_place _ _ _ V).
    - rewrite SV. apply (v_bottom _ _ _ V).
    - intros u. rewrite SV, <- app_assoc. cbn. destruct (Nat.eq_dec u t) as [->|N].
      + rewrite put_same. split; intros _; [apply in_or_app; right; now left|now exists (stacks t)].
      + rewrite put_other by auto. rewrite (v_wait _ _ _ V). rewrite !in_app_iff. cbn. intuition congruence.
    - rewrite SV, <- app_assoc. cbn. apply NoDup_Add with (a := t) (l := posted ++ served (stacks home)).
      + apply Add_app.
      + split; [apply (v_once _ _ _ V)|exact NI].
  Qed.

  (** The abort for another thread begins, in a frame that serves it. *)
  Lemma inv_serve lock stacks posted f u : Inv lock stacks (u :: posted) -> stacks home = [] -> serves f = [u] ->
    Inv lock (put stacks home [f]) posted.
  Proof.
    intros V E S.
    assert (NH : u <> home).
    { intros ->. destruct (proj2 (v_wait _ _ _ V home)) as [r Q]; [now left|]. congruence. }
    assert (HF : holds f = 0 /\ place home f /\ f <> Remote /\ ~ outermost f).
    { destruct f as [| [?|] | | |[| |[?|]]| |]; cbn in S; try discriminate; repeat split; auto; discriminate. }
    destruct HF as (HF & PF & RF & OF). constructor.
    - intros t. destruct (Nat.eq_dec t home) as [->|N]; [rewrite put_same; cbn; rewrite HF; rewrite <- (v_hold _ _ _ V); now rewrite E|].
      rewrite put_other by auto. apply (v_hold _ _ _ V).
    - intros t g r. destruct (Nat.eq_dec t home) as [->|N]; [rewrite put_same; intros Q; injection Q as <- <-; constructor|].
      rewrite put_other by auto. apply (v_shape _ _ _ V).
    - intros t g. destruct (Nat.eq_dec t home) as [->|N]; [rewrite put_same; intros [<-|[]]; auto|].
      rewrite put_other by auto. apply (v_place _ _ _ V).
    - rewrite put_same. intros [|x above] g below Q O; injection Q as Q1 Q2; [now symmetry|now destruct above].
    - intros t. rewrite put_same. unfold served. cbn. rewrite S. cbn. destruct (Nat.eq_dec t home) as [->|N].
      + rewrite put_same. split; intros Q.
        * destruct Q as [r Q]. injection Q as Q _. contradiction.
        * exfalso. apply in_app_or in Q. destruct Q as [Q|[Q|[]]]; [|contradiction].
          destruct (proj2 (v_wait _ _ _ V home)) as [r Z]; [cbn; right; apply in_or_app; now left|]. congruence.
      + rewrite put_other by auto. rewrite (v_wait _ _ _ V), E. cbn. rewrite !in_app_iff. cbn. intuition.
    - rewrite put_same. unfold served. cbn. rewrite S. cbn. pose proof (v_once _ _ _ V) as O. rewrite E in O. cbn in O. rewrite app_nil_r in O.
      apply NoDup_Add with (a := u) (l := posted); [|now inversion O]. rewrite <- (app_nil_r posted) at 1. apply Add_app.
  Qed.

  (** One frame takes the place of another. *)
  Lemma inv_swap lock stacks posted t f g r : Inv lock stacks posted -> stacks t = f :: r -> serves g = serves f ->
    holds f = holds g -> place t g -> f <> Remote -> g <> Remote -> ~ outermost g ->
    Inv lock (put stacks t (g :: r)) posted.
  Proof.
    intros V E S H P F G O.
    assert (SV : served (put stacks t (g :: r) home) = served (stacks home)).
    { destruct (Nat.eq_dec home t) as [->|N]; [rewrite put_same, E; unfold served; cbn; now rewrite S|now rewrite put_other]. }
    constructor.
    - intros u. destruct (Nat.eq_dec u t) as [->|N]; [rewrite put_same|rewrite put_other by auto; apply (v_hold _ _ _ V)].
      rewrite <- (v_hold _ _ _ V t), E. cbn. now rewrite H.
    - intros u x q. destruct (Nat.eq_dec u t) as [->|N]; [rewrite put_same|rewrite put_other by auto; apply (v_shape _ _ _ V)].
      intros Q. injection Q as <- <-. now apply (v_shape _ _ _ V t f).
    - intros u x. destruct (Nat.eq_dec u t) as [->|N]; [rewrite put_same|rewrite put_other by auto; apply (v_place _ _ _ V)].
      intros [<-|I]; auto. apply (v_place _ _ _ V). rewrite E. now right.
    - intros above x below. destruct (Nat.eq_dec home t) as [Q|N]; [|rewrite put_other by auto; apply (v_bottom _ _ _ V)].
      subst t. rewrite put_same. intros Q Ox. destruct above as [|y above]; injection Q as Q1 Q2; [subst; contradiction|].
      apply (v_bottom _ _ _ V (f :: above) x below); auto. rewrite E. cbn. now rewrite Q2.
    - intros u. rewrite SV, <- (v_wait _ _ _ V). destruct (Nat.eq_dec u t) as [->|N]; [|now rewrite put_other].
      rewrite put_same, E. split; intros [q Q]; injection Q as Q _; contradiction.
    - rewrite SV. apply (v_once _ _ _ V).
  Qed.

  (** The abort for another thread ends. *)
  Lemma inv_done lock stacks posted u r : Inv lock stacks posted -> stacks home = Emitting (Some u) :: r ->
    exists q, stacks u = Remote :: q /\ u <> home /\ Inv lock (put (put stacks home r) u q) posted.
  Proof.
    intros V E.
    assert (RU : remote (stacks u)) by (apply (v_wait _ _ _ V); rewrite E; apply in_or_app; right; now left).
    destruct RU as [q RU]. assert (NH : u <> home) by (intros ->; congruence). exists q. split; auto. split; auto.
    pose proof (v_once _ _ _ V) as NO. rewrite E in NO. cbn in NO. pose proof (NoDup_remove _ _ _ NO) as [N1 N2].
    assert (SH : put (put stacks home r) u q home = r) by (rewrite put_other by auto; apply put_same).
    pose proof (v_shape _ _ _ V _ _ _ E) as UR. pose proof (v_shape _ _ _ V _ _ _ RU) as UQ.
    assert (CASES : forall t, put (put stacks home r) u q t = if Nat.eqb t u then q else if Nat.eqb t home then r else stacks t) by reflexivity.
    constructor.
    - intros t. rewrite CASES, <- (v_hold _ _ _ V). destruct (Nat.eqb_spec t u) as [->|A]; [now rewrite RU|].
      destruct (Nat.eqb_spec t home) as [->|B]; [now rewrite E|reflexivity].
    - intros t f l. rewrite CASES. destruct (Nat.eqb_spec t u) as [->|A]; [intros ->; now inversion UQ|].
      destruct (Nat.eqb_spec t home) as [->|B]; [intros ->; now inversion UR|apply (v_shape _ _ _ V)].
    - intros t f. rewrite CASES. destruct (Nat.eqb_spec t u) as [->|A]; [intros I; apply (v_place _ _ _ V); rewrite RU; now right|].
      destruct (Nat.eqb_spec t home) as [->|B]; [intros I; apply (v_place _ _ _ V); rewrite E; now right|apply (v_place _ _ _ V)].
    - rewrite SH. intros above f below ->. apply (v_bottom _ _ _ V (Emitting (Some u) :: above) f below). now rewrite E.
    - intros t. rewrite SH, CASES. destruct (Nat.eqb_spec t u) as [->|A].
      + split; intros Q; [now apply not_remote in Q|contradiction].
      + destruct (Nat.eqb_spec t home) as [->|B].
        * split; intros Q; [now apply not_remote in Q|]. exfalso.
          destruct (proj2 (v_wait _ _ _ V home)) as [z Z]; [rewrite E; cbn; rewrite in_app_iff in *; cbn; tauto|]. congruence.
        * rewrite (v_wait _ _ _ V), E. cbn. rewrite !in_app_iff. cbn. intuition congruence.
    - rewrite SH. exact N1.
  Qed.

  Lemma inv_start : Inv None (fun _ => []) [].
  Proof.
    constructor; try reflexivity; try discriminate.
    - intros t f [].
    - intros [|]; discriminate.
    - intros u. split; [intros [r Q]; discriminate|intros []].
    - constructor.
  Qed.

  (** Facts about the report. *)
  Lemma latest_from_app d l m : latest_from d (l ++ m) = latest_from (latest_from d l) m.
  Proof. revert d; induction l as [|r l IH]; intros d; auto. destruct r; cbn; auto. Qed.
  Lemma latest_quiet d l : nothing_set l -> latest_from d l = d.
  Proof.
    revert d; induction l as [|r l IH]; intros d N; auto. assert (NL : nothing_set l) by (intros e I; apply (N e); now right).
    destruct r; cbn; auto. destruct (N d0). now left.
  Qed.

  Context (stream : bool) (decode : data -> bool) (listens : nat -> bool).
  Notation step := (step home stream decode listens).
  Notation run := (run home stream decode listens).
  Notation turn := (turn home listens).

  Definition good (s : state) : Prop := Inv (a_lock s) (a_stacks s) (a_posted s).

  Lemma runs_user s t : good s -> runs s t = true -> Forall user (a_stacks s t).
  Proof.
    intros V R. unfold runs in R. destruct (a_stacks s t) as [|f r] eqn:E; [constructor|].
    constructor; [|now apply (v_shape _ _ _ V t f)]. destruct f; try discriminate; exact Logic.I.
  Qed.
  Lemma wants_rest s t f r : good s -> a_stacks s t = f :: r -> Forall user r.
  Proof. intros V E. now apply (v_shape _ _ _ V t f). Qed.

  Lemma good_turn s n last d s' : good s -> a_stacks s home = [] -> turn n last d s = Ok s' -> good s'.
  Proof.
    intros V E. unfold AsyncModel.turn. destruct (Nat.eqb _ _); [|discriminate]. destruct (nth_error _ _); intros Q; injection Q as <-;
    unfold good; cbn -[put]; apply inv_push; auto; try discriminate; try exact eq_refl; rewrite E; constructor.
  Qed.
  Lemma good_abort s who : good s -> Forall user (a_stacks s home) -> (who = None) -> good (abort_now home stream who s).
  Proof.
    intros V U ->. unfold abort_now. destruct stream; unfold good; cbn -[put]; apply inv_push; auto; try discriminate; try exact eq_refl; intros [].
  Qed.
  Lemma good_granted s t w s' : good s -> a_lock s = None -> Forall user (a_stacks s t) -> place t (Want w) -> serves (Want w) = [] ->
    (outermost (Want w) -> a_stacks s t = []) -> granted home stream listens t w s = Ok s' -> good s'.
  Proof.
    intros V L U P S O. destruct w as [|d|who]; cbn [granted].
    - intros Q. injection Q as <-. unfold good. cbn -[put]. apply inv_lock; auto. rewrite <- L. exact V.
    - cbn in P. subst t. unfold deliver. apply good_turn; [exact V|]. apply O. exact Logic.I.
    - intros Q. injection Q as <-. cbn in P. subst t. apply good_abort; auto. destruct who; auto. discriminate.
  Qed.
  Lemma good_ask s t w s' : good s -> Forall user (a_stacks s t) -> place t (Want w) -> serves (Want w) = [] ->
    (outermost (Want w) -> a_stacks s t = []) -> ask home stream listens t w s = Ok s' -> good s'.
  Proof.
    intros V U P S O. unfold ask. destruct (a_lock s) eqn:L.
    - intros Q. injection Q as <-. unfold good. cbn -[put]. rewrite L. apply inv_push; auto; [now rewrite <- L|discriminate].
    - now apply good_granted.
  Qed.

  Lemma step_good s e s' : good s -> step s e = Ok s' -> good s'.
  Proof.
    intros V. destruct e as [d|t|t|k|t|t| |t]; cbn [AsyncModel.step].
    - destruct (a_stacks s home) eqn:E; [|intros Q; now injection Q as <-]. apply good_ask; auto; try exact eq_refl. rewrite E; constructor.
    - destruct (runs s t) eqn:R; [|intros Q; now injection Q as <-]. apply good_ask; auto; try exact eq_refl; try exact Logic.I; [now apply runs_user|intros []].
    - destruct (runs s t) eqn:R; [|intros Q; now injection Q as <-]. pose proof (runs_user _ _ V R) as U. destruct (Nat.eqb_spec t home) as [->|N].
      + unfold do_abort. destruct stream eqn:ST.
        * intros Q. injection Q as <-. rewrite <- ST. now apply good_abort.
        * rewrite <- ST. apply good_ask; auto; try exact eq_refl. intros [].
      + intros Q. injection Q as <-. unfold good. cbn -[put]. now apply inv_remote.
    - destruct (runs s home); intros Q; injection Q as <-; exact V.
    - destruct (a_stacks s t) as [|f r] eqn:E; [intros Q; now injection Q as <-|].
      destruct f as [n last d|[u|]| | |w| |d]; try (intros Q; injection Q as <-; try exact V).
      + intros Q. assert (T : t = home) by (apply (v_place _ _ _ V t (Handling n last d)); rewrite E; now left). subst t.
        assert (B : r = []) by (apply (v_bottom _ _ _ V [] _ _ E); exact Logic.I). subst r. revert Q. apply good_turn.
        * unfold good. cbn -[put]. rewrite E. cbn [tl]. apply (inv_pop _ _ _ _ _ _ V E); [reflexivity|discriminate].
        * cbn. rewrite E. apply put_same.
      + assert (T : t = home) by (apply (v_place _ _ _ V t (Emitting (Some u))); rewrite E; now left). subst t.
        destruct (inv_done _ _ _ _ _ V E) as (q & RU & NU & Z). unfold good. cbn -[put].
        rewrite (put_other _ home _ u) by auto. rewrite RU, E. exact Z.
      + unfold good. cbn -[put]. rewrite E. cbn [tl]. apply (inv_pop _ _ _ _ _ _ V E); [reflexivity|discriminate].
      + unfold good. cbn -[put]. rewrite E. cbn [tl]. apply (inv_pop _ _ _ _ _ _ V E); [reflexivity|discriminate].
      + unfold good. cbn -[put]. rewrite E. cbn [tl]. apply (inv_pop _ _ _ _ _ _ V E); [reflexivity|discriminate].
    - destruct (a_stacks s t) as [|f r] eqn:E; [intros Q; now injection Q as <-|].
      destruct f as [n last d|who| | |w| |d]; try (intros Q; injection Q as <-; try exact V).
      + destruct (decode (a_data s)); intros Q; injection Q as <-; unfold good; cbn -[put]; rewrite E; cbn [tl].
        * apply (inv_pop _ _ _ _ _ _ V E); [reflexivity|discriminate].
        * assert (X : put (put (a_stacks s) t r) t (Failing :: put (a_stacks s) t r t) = put (put (a_stacks s) t r) t (Failing :: r)) by now rewrite put_same.
          rewrite X. assert (Y := inv_swap _ _ _ t _ Failing r V E eq_refl eq_refl Logic.I ltac:(discriminate) ltac:(discriminate) ltac:(intros [])).
          apply (inv_ext _ _ _ _ Y). intros u. apply put_put.
      + destruct (a_lock s) eqn:L; [intros Q; now injection Q as <-|].
        assert (PL : place t (Want w)) by (apply (v_place _ _ _ V); rewrite E; now left).
        assert (W : serves (Want w) = [] -> good (pop t s)).
        { intros S. unfold good. cbn -[put]. rewrite E. cbn [tl]. assert (Z := inv_pop _ _ _ _ _ _ V E S ltac:(discriminate)). exact Z. }
        destruct w as [|d|[u|]].
        * apply good_granted; auto; try exact eq_refl; cbn; rewrite E, put_same; [now apply (wants_rest _ _ _ _ V E)|intros []].
        * cbn in PL. subst t. assert (B : r = []) by (apply (v_bottom _ _ _ V [] _ _ E); exact Logic.I). subst r.
          apply good_granted; auto; try exact eq_refl; cbn; rewrite E, put_same; auto; constructor.
        * cbn in PL. subst t. assert (Y := inv_swap _ _ _ home _ (Emitting (Some u)) r V E eq_refl eq_refl eq_refl ltac:(discriminate) ltac:(discriminate) ltac:(intros [])).
          intros Q. cbn [granted] in Q. injection Q as <-. unfold good, abort_now.
          destruct stream; cbn -[put]; (apply (inv_ext _ _ _ _ Y); intros x; rewrite put_put, put_same, E; reflexivity).
        * apply good_granted; auto; try exact eq_refl; cbn; rewrite E, put_same; [now apply (wants_rest _ _ _ _ V E)|intros []].
    - destruct (a_stacks s home) eqn:E; [|intros Q; now injection Q as <-]. destruct (a_posted s) as [|t q] eqn:P; [intros Q; now injection Q as <-|].
      unfold do_abort. destruct stream eqn:ST.
      + intros Q. injection Q as <-. unfold good, abort_now. cbn -[put]. rewrite E. apply inv_serve with (u := t); auto. rewrite <- P. exact V.
      + unfold ask. cbn. destruct (a_lock s) eqn:L; intros Q; injection Q as <-; unfold good; cbn -[put]; rewrite E, L; apply inv_serve with (u := t); auto; rewrite <- P, <- L; exact V.
    - destruct (a_stacks s t) eqn:E; [|intros Q; now injection Q as <-]. destruct (a_notes s t) eqn:NT; intros Q; injection Q as <-; [exact V|].
      unfold good. cbn -[put]. apply inv_push; auto; try discriminate; try exact Logic.I; try (rewrite E; constructor).
  Qed.
End Operation.

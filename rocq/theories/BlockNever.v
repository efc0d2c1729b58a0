(** Blocking calls that never return, and replies that are used after their end. *)

From Coq Require Import ZArith List Bool Arith Lia Sorted.
From Verif Require Import Base FrameModel BlockModel BlockSpec BlockProofs BlockRun BlockSafe BlockEnds BlockTerm.
Import ListNotations.
Local Close Scope Z_scope.

Section Threads.
  Context (home : nat -> nat) (loops : nat -> bool) (http2 : nat -> bool).

  Notation client s i := (k_client (call_at s i)).
  Notation from s i := (k_from (call_at s i)).
  Notation ph s i := (k_phase (call_at s i)).
  Notation at_home s i := (home (k_client (call_at s i))).
  Notation Inv := (Inv home).
  Notation step := (step home loops http2).
  Notation run := (run home loops http2).

  (** *** Only the call that is worked on changes *)

  Lemma set_other s i j k : i <> j -> call_at (with_call j k s) i = call_at s i.
  Proof. intros D. unfold call_at, with_call, with_calls. cbn. now apply set_nth_other. Qed.
  Lemma give_back_other s i j code data : i <> j -> call_at (give_back home j code data s) i = call_at s i.
  Proof.
    intros D. rewrite <- (set_other s i j (in_phase Over (call_at s j)) D). unfold give_back, with_stack. destruct (Nat.eqb _ _); reflexivity.
  Qed.
  Lemma finish_other s i j code data s' : i <> j -> finish home j code data s = Ok s' -> call_at s' i = call_at s i.
  Proof. intros D H. destruct (finish_shape _ _ _ _ _ _ H) as (m & -> & _). now apply (give_back_other (tell m s)). Qed.
  Lemma conclude_other s i j a s' : i <> j -> conclude home j a s = Ok s' -> call_at s' i = call_at s i.
  Proof.
    intros D. unfold conclude. destruct a as [[err st] body]. destruct (processReply err st body) as [[code data]| | |]; cbn; try discriminate.
    now apply finish_other.
  Qed.
  Lemma begin_other s i j at_once s' : i <> j -> begin home at_once j s = Ok s' -> call_at s' i = call_at s i.
  Proof.
    intros D. unfold begin. destruct (s_channels s (client s j)) as [ch|]; [destruct at_once as [a|]|]; intros H.
    - rewrite (conclude_other _ i _ _ _ D H). now apply (set_other s).
    - injection H as <-. now apply (set_other s).
    - now apply (finish_other _ i _ _ _ _ D H).
  Qed.
  Lemma cancel_other l i : ~ In i l -> forall s, call_at (cancel home l s) i = call_at s i.
  Proof.
    induction l as [|j l IH]; cbn; intros N s; auto. rewrite IH by tauto. apply give_back_other. intuition congruence.
  Qed.

  (** Events with which a thread works on calls of its clients. *)
  Definition acts (s : state) (e : event) (t : nat) : Prop :=
    (exists a, e = Dispatch t a /\ ready loops s t = true)
    \/ (e = Exit t /\ exists j r, s_stacks s t = Loop j :: r)
    \/ (exists c kept, e = Destroy c kept /\ home c = t /\ runs s t = true).

  Lemma step_phase s e s' i : Inv [] s -> step s e = Ok s' -> i < length (s_calls s) -> ph s' i = ph s i \/ acts s e (at_home s i).
  Proof.
    intros V H N. destruct e as [t c at_once|t at_once|j a|j|t|c ch kept|c kept|d]; cbn [BlockModel.step] in H.
    - left. destruct (_ && _); [|injection H as <-; auto]. fold (new_call t c) in H. fold (calling t c s) in H.
      assert (C : call_at (calling t c s) i = call_at s i).
      { rewrite call_at_calling. destruct (Nat.eqb_spec i (length (s_calls s))); [lia|auto]. }
      destruct (Nat.eqb _ _).
      + apply (begin_other _ i) in H; [|lia]. now rewrite H, C.
      + injection H as <-. now rewrite <- C.
    - destruct (ready loops s t) eqn:R; [|injection H as <-; auto].
      destruct (s_posted s t) as [|j q] eqn:P; [injection H as <-; auto|].
      assert (I : In j (s_posted s t)) by (rewrite P; now left). apply (v_post _ _ _ V) in I. destruct I as (_ & I & _).
      destruct (Nat.eq_dec i j) as [->|D].
      + right. left. exists at_once. now rewrite I.
      + left. apply (begin_other _ i) in H; auto. now rewrite H.
    - left. destruct (waiting _ _ _ _); [|injection H as <-; auto]. destruct (k_net (call_at s j)); injection H as <-; auto.
      destruct (Nat.eq_dec i j) as [->|D].
      + change (call_at (tell _ ?x)) with (call_at x). now rewrite call_at_set, Nat.eqb_refl.
      + now rewrite (set_other s i j _ D : call_at (tell _ _) i = _).
    - left. destruct (_ && _); [|injection H as <-; auto].
      destruct (Nat.eq_dec i j) as [->|D].
      + destruct (k_net (call_at s j)); [destruct (held _ _ _)|]; injection H as <-;
          try change (call_at (tell [Answered j canceled] ?x)) with (call_at x); rewrite call_at_set, Nat.eqb_refl; auto.
      + destruct (k_net (call_at s j)); [destruct (held _ _ _)|]; injection H as <-;
          try change (call_at (tell [Answered j canceled] ?x)) with (call_at x); now rewrite set_other.
    - destruct (s_stacks s t) as [|[j|j] rest] eqn:S; try (injection H as <-; auto; fail).
      destruct (k_net (call_at s j)) as [a|]; [|injection H as <-; auto].
      destruct (k_alive (call_at s j)); [|discriminate].
      assert (I : In (Loop j) (s_stacks s t)) by (rewrite S; now left). apply (v_loop _ _ _ V) in I. destruct I as (_ & I & _).
      destruct (Nat.eq_dec i j) as [->|D].
      + right. right. left. rewrite I. eauto.
      + left. apply (conclude_other _ i) in H; auto. now rewrite H.
    - left. destruct (runs _ _ && _); injection H as <-; [|auto].
      destruct (leave_same http2 c (kept || match s_channels s c with Some old => old =? ch | None => true end) s) as (_ & _ & _ & _ & _ & _ & A7).
      apply A7.
    - destruct (runs s (home c)) eqn:R; [|injection H as <-; auto]. destruct (negb _); injection H as <-; [|auto].
      destruct (leave_same http2 c kept s) as (_ & _ & _ & _ & _ & _ & A7).
      destruct (in_dec Nat.eq_dec i (filter (fun j => client s j =? c) (s_posted s (home c)))) as [I|I].
      + right. right. right. exists c, kept. apply filter_In in I. destruct I as [_ I]. apply Nat.eqb_eq in I. rewrite I. auto.
      + left. rewrite cancel_other by auto. apply A7.
    - left. destruct (0 <=? d)%Z; injection H as <-; auto.
  Qed.

  (** A call stays with its client. *)
  Lemma step_same s e s' i : step s e = Ok s' -> i < length (s_calls s) ->
    client s' i = client s i /\ from s' i = from s i /\ i < length (s_calls s').
  Proof.
    intros H N. destruct (step_keeps _ _ _ _ _ _ H) as [[K1 K2]|(t & c & a & -> & [K1 K2] & _)]; destruct (K2 i) as [-> ->].
    - repeat split; auto. congruence.
    - rewrite call_at_calling. destruct (Nat.eqb_spec i (length (s_calls s))) as [->|D]; [lia|]. repeat split; auto.
      rewrite K1. cbn. rewrite app_length. cbn. lia.
  Qed.

  (** *** Threads that wait for each other *)

  Definition stuck (D : nat -> Prop) (s : state) : Prop :=
    forall t, D t -> exists i, i < length (s_calls s) /\ from s i = t /\ t <> at_home s i /\ ph s i <> Over /\ D (at_home s i).

  Lemma stuck_blocked D s t : Inv [] s -> stuck D s -> D t -> exists i r, s_stacks s t = Blocked i :: r.
  Proof.
    intros V S H. destruct (S t H) as (i & N & F & A & P & _).
    pose proof (v_blocked _ _ _ V i P ltac:(congruence)) as B. rewrite F in B. destruct (s_stacks s t) as [|f r] eqn:E; [destruct B|].
    destruct B as [->|B]; [eauto|]. now destruct (v_shape _ _ _ V _ _ _ E i).
  Qed.

  Lemma stuck_idle D s e t : Inv [] s -> stuck D s -> D t -> ~ acts s e t.
  Proof.
    intros V S H. destruct (stuck_blocked D s t V S H) as (i & r & E). unfold acts, ready, runs. rewrite E.
    intros [(a & _ & X)|[(_ & j & q & X)|(c & k & _ & _ & X)]]; discriminate.
  Qed.

  Lemma stuck_forever D chs l : forall s s', Inv [] s -> Log home chs s -> Errs s -> stuck D s -> run s l = Ok s' ->
    stuck D s' /\ forall i, i < length (s_calls s) -> D (at_home s i) -> ph s' i = ph s i.
  Proof.
    induction l as [|e l IH]; cbn [BlockModel.run]; intros s s' V L E S H; [injection H as <-; auto|].
    destruct (step s e) as [s1| | |] eqn:Q; cbn in H; try discriminate.
    destruct (step_good home loops http2 chs s e s1 V L E Q) as (V1 & L1 & E1).
    assert (K : forall i, i < length (s_calls s) -> D (at_home s i) -> ph s1 i = ph s i).
    { intros i N HD. destruct (step_phase s e s1 i V Q N) as [X|X]; auto. now apply (stuck_idle D) in X. }
    assert (S1 : stuck D s1).
    { intros t HD. destruct (S t HD) as (i & N & F & A & P & B). destruct (step_same s e s1 i Q N) as (C1 & C2 & C3).
      exists i. rewrite C1, C2, (K i N B). auto. }
    destruct (IH s1 s' V1 L1 E1 S1 H) as [X1 X2]. split; auto. intros i N HD.
    destruct (step_same s e s1 i Q N) as (C1 & C2 & C3). rewrite X2; auto. now rewrite C1.
  Qed.

  (** *** A thread without an event loop *)

  Definition asleep (u : nat) (s : state) : Prop :=
    s_stacks s u = [] /\ forall i, i < length (s_calls s) -> at_home s i = u -> ph s i = Posted.
  Definition leaves_alone (u : nat) (e : event) : Prop :=
    match e with Call t _ _ => t <> u | Destroy c _ => home c <> u | _ => True end.

  Lemma asleep_step u s e s' chs : loops u = false -> Inv [] s -> Log home chs s -> Errs s -> leaves_alone u e -> asleep u s ->
    step s e = Ok s' -> asleep u s'.
  Proof.
    intros LP V L E A [S P] H. destruct (step_good home loops http2 chs s e s' V L E H) as (V' & _ & _). split.
    - destruct (step_stacks home loops http2 s e s' V H u) as [[k K]|[[i K]|(i & K & W)]]; rewrite S in K.
      + rewrite K. now rewrite skipn_nil.
      + exfalso. assert (I : In (Blocked i) (s_stacks s' u)) by (rewrite K; now left). apply (v_block _ _ _ V') in I.
        destruct I as (F & D & _). assert (B : i < length (s_calls s')) by (apply pending_bound; apply (v_block _ _ _ V' u i); rewrite K; now left).
        destruct (step_keeps _ _ _ _ _ _ H) as [[K1 K2]|(t & c & a & -> & [K1 K2] & R)].
        * rewrite K1 in B. destruct (K2 i) as [C1 C2].
          assert (X : In (Blocked i) (s_stacks s u) -> False) by (rewrite S; intros []). apply X.
          rewrite C2 in F. rewrite <- F. apply (v_blocked _ _ _ V); [|congruence].
          intros O. assert (X2 : ph s' i = Over).
          { destruct (step_phase s e s' i V H B) as [Y|Y]; [congruence|].
            exfalso. destruct Y as [(a & -> & Y)|[(-> & j & q & Y)|(c & kp & -> & Y1 & Y2)]];
              apply (v_block _ _ _ V' u i ltac:(rewrite K; now left)).
            - (* an over call is not dispatched *)
              cbn [BlockModel.step] in H. rewrite Y in H. destruct (s_posted s (at_home s i)) as [|j q] eqn:PQ; [now injection H as <-|].
              assert (IJ : In j (s_posted s (at_home s i))) by (rewrite PQ; now left). apply (v_post _ _ _ V) in IJ.
              destruct (Nat.eq_dec i j) as [->|DJ]; [destruct IJ; congruence|].
              apply (begin_other _ i) in H; auto. now rewrite H.
            - cbn [BlockModel.step] in H. rewrite Y in H. assert (IJ : In (Loop j) (s_stacks s (at_home s i))) by (rewrite Y; now left).
              apply (v_loop _ _ _ V) in IJ. destruct IJ as (IJ & _).
              destruct (k_net (call_at s j)); [|now injection H as <-]. destruct (k_alive (call_at s j)); [|discriminate].
              apply (conclude_other _ i) in H; [now rewrite H|]. intros ->. congruence.
            - cbn [BlockModel.step] in H. rewrite Y1, Y2 in H. destruct (negb _); injection H as <-; [|auto].
              rewrite cancel_other; [destruct (leave_same http2 c kp s) as (_ & _ & _ & _ & _ & _ & A7); rewrite <- O; apply A7|]. intros I. apply filter_In in I. destruct I as [I _].
              apply (v_post _ _ _ V) in I. destruct I. congruence. }
          apply (v_block _ _ _ V' u i); auto. rewrite K. now left.
        * cbn in A. rewrite K1 in B. cbn in B. rewrite app_length in B. cbn in B. destruct (K2 i) as [C1 C2].
          rewrite call_at_calling in C1, C2. destruct (Nat.eqb_spec i (length (s_calls s))) as [->|DI].
          -- cbn in C2. congruence.
          -- (* an older call *)
             assert (NI : i < length (s_calls s)) by lia.
             assert (X : In (Blocked i) (s_stacks s u) -> False) by (rewrite S; intros []). apply X.
             rewrite C2 in F. rewrite <- F. apply (v_blocked _ _ _ V); [|congruence].
             destruct (step_phase s _ s' i V H NI) as [Y|Y].
             ++ rewrite <- Y. apply (v_block _ _ _ V' u i). rewrite K. now left.
             ++ destruct Y as [(a' & Y & _)|[(Y & _)|(c' & kp & Y & _)]]; discriminate.
      + exfalso. destruct W as [(c & a & -> & W)|(a & ->)].
        * now apply A.
        * cbn [BlockModel.step] in H. unfold ready in H. rewrite S, LP in H. injection H as <-. rewrite S in K. discriminate.
    - intros i N HI. destruct (step_keeps _ _ _ _ _ _ H) as [[K1 K2]|(t & c & a & -> & [K1 K2] & R)]; destruct (K2 i) as [C1 C2].
      + rewrite K1 in N. rewrite C1 in HI. destruct (step_phase s e s' i V H N) as [X|X]; [rewrite X; auto|]. exfalso.
        rewrite HI in X. destruct X as [(a & _ & X)|[(_ & j & q & X)|(c & k & -> & X & _)]].
        * unfold ready in X. now rewrite S, LP in X.
        * now rewrite S in X.
        * now apply A.
      + rewrite K1 in N. cbn in N. rewrite app_length in N. cbn in N. rewrite C1, call_at_calling in HI.
        destruct (Nat.eqb_spec i (length (s_calls s))) as [->|DI].
        * cbn in HI. subst u. cbn in A. cbn [BlockModel.step] in H. rewrite R in H. cbn [andb] in H.
          destruct (s_gone s c); [injection H as <-; cbn in K1; rewrite app_length in K1; cbn in K1; lia|]. cbn [negb] in H. destruct (Nat.eqb_spec t (home c)) as [->|DT]; [now destruct A|].
          injection H as <-. fold (new_call t c). fold (calling t c s).
          change (call_at (with_stack _ _ (with_posted _ _ ?x))) with (call_at x). rewrite call_at_calling, Nat.eqb_refl. reflexivity.
        * assert (NI : i < length (s_calls s)) by lia.
          destruct (step_phase s _ s' i V H NI) as [X|X]; [rewrite X; auto|].
          destruct X as [(a' & Y & _)|[(Y & _)|(c' & kp & Y & _)]]; discriminate.
  Qed.

  Lemma asleep_forever u chs l : loops u = false -> forall s s', Inv [] s -> Log home chs s -> Errs s -> Forall (leaves_alone u) l ->
    asleep u s -> run s l = Ok s' -> asleep u s'.
  Proof.
    intros LP. induction l as [|e l IH]; cbn [BlockModel.run]; intros s s' V L E F A H; [now injection H as <-|].
    destruct (step s e) as [s1| | |] eqn:Q; cbn in H; try discriminate. inversion F as [|x y F1 F2]; subst x y.
    destruct (step_good home loops http2 chs s e s1 V L E Q) as (V1 & L1 & E1).
    apply (IH s1 s'); auto. now apply (asleep_step u s e s1 chs).
  Qed.

  (** *** Calls without an answer *)

  Definition unanswered (i : nat) (s : state) : Prop := ph s i = Inside /\ k_net (call_at s i) = None.
  Definition spares (i : nat) (e : event) : Prop :=
    match e with Answer j _ | Expire j => j <> i | _ => True end.

  Lemma unanswered_step i s e s' : Inv [] s -> unanswered i s -> spares i e \/ k_alive (call_at s i) = false -> step s e = Ok s' ->
    unanswered i s' /\ (k_alive (call_at s i) = false -> k_alive (call_at s' i) = false).
  Proof.
    intros V [P N] SP H. assert (B : i < length (s_calls s)) by (apply pending_bound; congruence).
    assert (SAME : call_at s' i = call_at s i -> unanswered i s' /\ (k_alive (call_at s i) = false -> k_alive (call_at s' i) = false)).
    { intros X. unfold unanswered. rewrite X. auto. }
    assert (LEAVE : forall c k, unanswered i (leave_channel http2 c k s)
       /\ (k_alive (call_at s i) = false -> k_alive (call_at (leave_channel http2 c k s) i) = false)).
    { intros c k. destruct (leave_same http2 c k s) as (_ & _ & _ & _ & _ & _ & A7). destruct (A7 i) as (A & _ & _ & A').
      split; [split; congruence|]. unfold leave_channel. destruct (s_channels s c); auto. destruct k; auto.
      rewrite call_at_drop. unfold lose. destruct (ph s i); auto. destruct (_ && _); auto. }
    destruct e as [t c at_once|t at_once|j a|j|t|c ch kept|c kept|d]; cbn [BlockModel.step] in H.
    - apply SAME. destruct (_ && _); [|injection H as <-; auto]. fold (new_call t c) in H. fold (calling t c s) in H.
      assert (C : call_at (calling t c s) i = call_at s i).
      { rewrite call_at_calling. destruct (Nat.eqb_spec i (length (s_calls s))); [lia|auto]. }
      destruct (Nat.eqb _ _).
      + apply (begin_other _ i) in H; [|lia]. now rewrite H, C.
      + injection H as <-. now rewrite <- C.
    - apply SAME. destruct (ready loops s t); [|injection H as <-; auto].
      destruct (s_posted s t) as [|j q] eqn:PQ; [injection H as <-; auto|].
      assert (I : In j (s_posted s t)) by (rewrite PQ; now left). apply (v_post _ _ _ V) in I. destruct I as (I & _).
      apply (begin_other _ i) in H; [auto|]. intros ->. congruence.
    - apply SAME. unfold waiting in H. destruct (Nat.eq_dec i j) as [->|D].
      + destruct SP as [SP|SP]; [now destruct SP|]. rewrite P, SP in H. cbn in H. now injection H as <-.
      + destruct (ph s j); try (injection H as <-; auto; fail). destruct (_ && _); [|injection H as <-; auto].
        destruct (k_net (call_at s j)); injection H as <-; auto. change (call_at (tell _ ?x)) with (call_at x). now apply set_other.
    - apply SAME. unfold waiting in H. destruct (Nat.eq_dec i j) as [->|D].
      + destruct SP as [SP|SP]; [now destruct SP|]. rewrite P, SP in H. cbn in H. now injection H as <-.
      + destruct (ph s j); try (injection H as <-; auto; fail). destruct (_ && _); [|injection H as <-; auto].
        destruct (k_net (call_at s j)); [destruct (held _ _ _)|]; injection H as <-;
          try change (call_at (tell [Answered j canceled] ?x)) with (call_at x); now apply set_other.
    - apply SAME. destruct (s_stacks s t) as [|[j|j] rest] eqn:S; try (injection H as <-; auto; fail).
      destruct (k_net (call_at s j)) as [a|] eqn:NJ; [|injection H as <-; auto].
      destruct (k_alive (call_at s j)); [|discriminate]. apply (conclude_other _ i) in H; [auto|]. intros ->. congruence.
    - destruct (runs _ _ && _); injection H as <-; [|apply SAME; auto]. apply LEAVE.
    - destruct (runs _ _ && _); injection H as <-; [|apply SAME; auto].
      assert (X : call_at (cancel home (filter (fun j => client s j =? c) (s_posted s (home c)))
        (with_posted (home c) (filter (fun j => negb (client s j =? c)) (s_posted s (home c)))
          (with_channel c None (with_gone c (leave_channel http2 c kept s))))) i = call_at (leave_channel http2 c kept s) i).
      { rewrite cancel_other; [reflexivity|]. intros I. apply filter_In in I. destruct I as [I _].
        apply (v_post _ _ _ V) in I. destruct I. congruence. }
      unfold unanswered. rewrite X. apply LEAVE.
    - apply SAME. destruct (0 <=? d)%Z; injection H as <-; auto.
  Qed.

  Lemma unanswered_forever i chs l : forall s s', Inv [] s -> Log home chs s -> Errs s -> unanswered i s ->
    Forall (spares i) l \/ k_alive (call_at s i) = false -> run s l = Ok s' -> unanswered i s'.
  Proof.
    induction l as [|e l IH]; cbn [BlockModel.run]; intros s s' V L E U SP H; [now injection H as <-|].
    destruct (step s e) as [s1| | |] eqn:Q; cbn in H; try discriminate.
    destruct (step_good home loops http2 chs s e s1 V L E Q) as (V1 & L1 & E1).
    destruct (unanswered_step i s e s1 V U) as [U1 A1]; auto.
    - destruct SP as [SP|SP]; auto. inversion SP; auto.
    - apply (IH s1 s'); auto. destruct SP as [SP|SP]; auto. inversion SP; auto.
  Qed.

  (** *** The log only grows *)

  Definition longer (s s' : state) : Prop := exists m, s_log s' = s_log s ++ m.
  Lemma longer_refl s : longer s s.
  Proof. exists []. now rewrite app_nil_r. Qed.
  Lemma longer_eq s s' : s_log s' = s_log s -> longer s s'.
  Proof. intros E. exists []. now rewrite app_nil_r. Qed.
  Lemma longer_trans a b c : longer a b -> longer b c -> longer a c.
  Proof. intros [m M] [n N]. exists (m ++ n). now rewrite N, M, app_assoc. Qed.
  Lemma longer_give_back s i code data : longer s (give_back home i code data s).
  Proof. destruct (give_back_log home s i code data) as (E & _). eexists. exact E. Qed.
  Lemma longer_finish s i code data s' : finish home i code data s = Ok s' -> longer s s'.
  Proof.
    intros H. destruct (finish_shape _ _ _ _ _ _ H) as (m & -> & _). apply (longer_trans _ (tell m s)); [now exists m|apply longer_give_back].
  Qed.
  Lemma longer_conclude s i a s' : conclude home i a s = Ok s' -> longer s s'.
  Proof.
    unfold conclude. destruct a as [[err st] body]. destruct (processReply err st body) as [[code data]| | |]; cbn; try discriminate.
    apply longer_finish.
  Qed.
  Lemma longer_begin s i at_once s' : begin home at_once i s = Ok s' -> longer s s'.
  Proof.
    unfold begin. destruct (s_channels s (client s i)) as [ch|]; [destruct at_once as [a|]|]; intros H.
    - apply longer_conclude in H. eapply longer_trans; [|exact H]. eexists. reflexivity.
    - injection H as <-. eexists. reflexivity.
    - now apply longer_finish in H.
  Qed.
  Lemma longer_cancel l : forall s, longer s (cancel home l s).
  Proof. induction l as [|i l IH]; intros s; cbn [cancel]; [apply longer_refl|]. eapply longer_trans; [|apply IH]. apply longer_give_back. Qed.

  Lemma step_log s e s' : step s e = Ok s' -> longer s s'.
  Proof.
    destruct e as [t c at_once|t at_once|i a|i|t|c ch kept|c kept|d]; cbn [BlockModel.step]; intros H.
    - destruct (_ && _); [|injection H as <-; apply longer_refl]. destruct (Nat.eqb _ _).
      + apply longer_begin in H. eapply longer_trans; [|exact H]. eexists. reflexivity.
      + injection H as <-. eexists. reflexivity.
    - destruct (ready loops s t); [|injection H as <-; apply longer_refl].
      destruct (s_posted s t) as [|i q]; [injection H as <-; apply longer_refl|]. apply longer_begin in H. exact H.
    - destruct (waiting _ _ _ _); [|injection H as <-; apply longer_refl].
      destruct (k_net (call_at s i)); injection H as <-; [apply longer_refl|]. eexists. reflexivity.
    - destruct (_ && _); [|injection H as <-; apply longer_refl].
      destruct (k_net (call_at s i)); [destruct (held _ _ _)|]; injection H as <-; [now apply longer_eq|now apply longer_eq|eexists; reflexivity].
    - destruct (s_stacks s t) as [|[i|i] rest]; try (injection H as <-; apply longer_refl).
      destruct (k_net (call_at s i)) as [a|]; [|injection H as <-; apply longer_refl].
      destruct (k_alive (call_at s i)); [|discriminate]. now apply longer_conclude in H.
    - destruct (runs _ _ && _); injection H as <-; [|apply longer_refl]. apply longer_eq.
      apply (leave_same http2 c (kept || match s_channels s c with Some old => old =? ch | None => true end) s).
    - destruct (runs _ _ && _); injection H as <-; [|apply longer_refl]. eapply longer_trans; [|apply longer_cancel].
      apply longer_eq. apply (leave_same http2 c kept s).
    - destruct (0 <=? d)%Z; injection H as <-; apply longer_eq; reflexivity.
  Qed.
  Lemma run_log l : forall s s', run s l = Ok s' -> exists m, s_log s' = s_log s ++ m.
  Proof.
    induction l as [|e l IH]; cbn [BlockModel.run]; intros s s' H; [injection H as <-; apply longer_refl|].
    destruct (step s e) as [s1| | |] eqn:Q; cbn in H; try discriminate. apply IH in H. apply step_log in Q. now apply (longer_trans s s1).
  Qed.
End Threads.

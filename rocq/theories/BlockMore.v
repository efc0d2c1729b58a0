(** Blocking calls: what each step reports, channels that are used, calls of a client that is destroyed, timeouts. *)

From Coq Require Import ZArith List Bool Arith Lia.
From Verif Require Import Base FrameModel BlockModel BlockSpec BlockProofs BlockRun BlockSafe BlockEnds BlockTerm BlockNever.
Import ListNotations.
Local Close Scope Z_scope.

Lemma finish_log home s i code data s' : finish home i code data s = Ok s' ->
  exists m, s_log s' = s_log s ++ m
    /\ Forall (fun r => r = ClientError (k_client (call_at s i)) code \/ r = Returned i (k_client (call_at s i)) code data) m.
Proof.
  unfold finish. destruct (code =? 0)%Z.
  - intros H. injection H as <-. destruct (give_back_log home s i code data) as (E & _). eexists. split; [exact E|]. auto.
  - destruct (s_gone s _); [discriminate|]. intros H. injection H as <-.
    destruct (give_back_log home (tell [ClientError (k_client (call_at s i)) code] s) i code data) as (E & _).
    exists [ClientError (k_client (call_at s i)) code; Returned i (k_client (call_at s i)) code data].
    split; [rewrite E; cbn; now rewrite <- app_assoc|auto].
Qed.

Section Threads.
  Context (home : nat -> nat) (loops : nat -> bool) (http2 : nat -> bool).

  Notation client s i := (k_client (call_at s i)).
  Notation from s i := (k_from (call_at s i)).
  Notation ph s i := (k_phase (call_at s i)).
  Notation at_home s i := (home (k_client (call_at s i))).
  Notation Inv := (Inv home).
  Notation step := (step home loops http2).
  Notation run := (run home loops http2).

  (** *** What a step reports *)

  (** The thread that a report comes from does not wait for another one. *)
  Definition news (s : state) (e : event) (r : report) : Prop :=
    (match r with
     | Called i t c => runs s t = true /\ i = length (s_calls s) /\ exists a, e = Call t c a
     | Sent i c ch => runs s (home c) = true /\ s_channels s c = Some ch
     | Answered i a =>
         (forall s', step s e = Ok s' -> runs s (at_home s' i) = true)
         /\ (e = Answer i a \/ (exists t, e = Dispatch t (Some a)) \/ (exists t c, e = Call t c (Some a))
             \/ (ph s i = Inside /\ k_start (call_at s i) + 6000 <= s_now s)%Z)
     | ClientError c _ | Returned _ c _ _ => runs s (home c) = true
     end)
    /\ (forall t c a, e = Call t c a -> t <> home c -> exists i, r = Called i t c).

  Lemma ready_runs s t : ready loops s t = true -> runs s t = true.
  Proof. unfold ready, runs. now destruct (s_stacks s t) as [|[]]. Qed.
  Lemma same_client s i code data k : client (give_back home i code data s) k = client s k.
  Proof.
    destruct (Nat.eq_dec k i) as [->|D]; [|now rewrite (give_back_other home)].
    assert (E : call_at (give_back home i code data s) i = call_at (with_call i (in_phase Over (call_at s i)) s) i)
      by (unfold give_back, with_stack; destruct (Nat.eqb _ _); reflexivity).
    rewrite E. destruct (Nat.lt_ge_cases i (length (s_calls s))) as [B|B].
    - rewrite call_at_set by auto. now rewrite Nat.eqb_refl.
    - unfold call_at. rewrite !nth_overflow; auto. cbn. now rewrite set_nth_length.
  Qed.
  Lemma finish_client s i code data s' k : finish home i code data s = Ok s' -> client s' k = client s k.
  Proof. intros H. destruct (finish_shape _ _ _ _ _ _ H) as (m & -> & _). now rewrite same_client. Qed.

  (** [X] is the state in which the step began; its call may be new. *)
  Lemma begin_news X e s i at_once s' : i < length (s_calls s) -> begin home at_once i s = Ok s' ->
    runs X (at_home s i) = true -> (forall c, s_channels s c = s_channels X c) ->
    (forall t c a, e = Call t c a -> t = home c) -> step X e = Ok s' ->
    (forall a, at_once = Some a -> (exists t, e = Dispatch t (Some a)) \/ (exists t c, e = Call t c (Some a))) ->
    exists m, s_log s' = s_log s ++ m /\ Forall (news X e) m.
  Proof.
    intros B H R C E ST AO.
    assert (EE : forall r, forall t c a, e = Call t c a -> t <> home c -> exists i, r = Called i t c) by (intros r t c a Q N; now destruct (N (E _ _ _ Q))).
    assert (FIN : forall s0 code data, finish home i code data s0 = Ok s' -> client s0 i = client s i ->
      exists m, s_log s' = s_log s0 ++ m /\ Forall (news X e) m).
    { intros s0 code data F Q. destruct (finish_log _ _ _ _ _ _ F) as (m & M1 & M2). exists m. split; auto. rewrite Q in M2.
      eapply Forall_impl; [|exact M2]. intros r [-> | ->]; (split; [exact R|apply EE]). }
    unfold begin in H. destruct (s_channels s (client s i)) as [ch|] eqn:CH; [destruct at_once as [a|]|].
    - unfold conclude in H. destruct a as [[err st] body] eqn:EA. destruct (processReply err st body) as [[code data]| | |]; cbn [bind] in H; try discriminate.
      assert (Q : client s' i = client s i).
      { rewrite (finish_client _ _ _ _ _ i H). change (call_at (tell ?l ?x)) with (call_at x). rewrite call_at_set by auto. now rewrite Nat.eqb_refl. }
      apply FIN in H.
      + destruct H as (m & M1 & M2). exists ([Sent i (client s i) ch; Answered i (err, st, body)] ++ m). split.
        * rewrite M1. cbn. now rewrite <- app_assoc.
        * apply Forall_app. split; auto. constructor; [|constructor; [|constructor]]; (split; [|apply EE]).
          -- split; auto. now rewrite <- C.
          -- split; [intros s2 S2; rewrite ST in S2; injection S2 as <-; now rewrite Q|]. right. destruct (AO _ eq_refl); auto.
      + change (call_at (tell ?l ?x)) with (call_at x). rewrite call_at_set by auto. now rewrite Nat.eqb_refl.
    - injection H as <-. exists [Sent i (client s i) ch]. split; [reflexivity|]. constructor; [|constructor]. split; [|apply EE]. split; auto. now rewrite <- C.
    - apply (FIN _ _ _ H). reflexivity.
  Qed.
  Lemma cancel_news X e c l : runs X (home c) = true -> (forall t c a, e = Call t c a -> t = home c) ->
    forall s, (forall i, In i l -> client s i = c) -> exists m, s_log (cancel home l s) = s_log s ++ m /\ Forall (news X e) m.
  Proof.
    intros R E. induction l as [|i l IH]; intros s H; cbn [cancel]; [exists []; split; [now rewrite app_nil_r|constructor]|].
    destruct (IH (give_back home i 2%Z [] s)) as (m & M1 & M2); [intros j J; rewrite same_client; apply H; now right|].
    destruct (give_back_log home s i 2%Z []) as (L & _). rewrite M1, L. exists ([Returned i (client s i) 2%Z []] ++ m).
    split; [now rewrite <- app_assoc|]. apply Forall_app. split; auto. constructor; [|constructor]. split.
    - rewrite (H i) by now left. exact R.
    - intros t d a Q N. now destruct (N (E _ _ _ Q)).
  Qed.

  Lemma step_news s e s' : Inv [] s -> step s e = Ok s' -> exists m, s_log s' = s_log s ++ m /\ Forall (news s e) m.
  Proof.
    intros V H. assert (ST := H).
    assert (NO : s_log s = s_log s ++ [] /\ Forall (news s e) []) by (split; [now rewrite app_nil_r|constructor]).
    destruct e as [t c at_once|t at_once|i a|i|t|c ch kept|c kept|d]; cbn [BlockModel.step] in H.
    - destruct (runs s t) eqn:R; [|injection H as <-; eauto]. destruct (s_gone s c); cbn [andb negb] in H; [injection H as <-; eauto|].
      fold (new_call t c) in H. fold (calling t c s) in H. destruct (Nat.eqb_spec t (home c)) as [->|N].
      + apply (begin_news s (Call (home c) c at_once)) in H; auto.
        * destruct H as (m & M1 & M2). exists ([Called (length (s_calls s)) (home c) c] ++ m).
          split; [rewrite M1; cbn; now rewrite <- app_assoc|]. apply Forall_app. split; auto. constructor; [|constructor]. split; [repeat split; eauto|].
          intros t d a Q N. injection Q as <- <- <-. now destruct N.
        * unfold calling, with_calls, tell. cbn. rewrite app_length. cbn. lia.
        * rewrite call_at_calling, Nat.eqb_refl. exact R.
        * intros t d a Q. now injection Q as <- <- <-.
        * intros a ->. eauto.
      + injection H as <-. exists [Called (length (s_calls s)) t c]. split; [reflexivity|]. constructor; [|constructor]. split; [repeat split; eauto|].
        intros u d a Q _. injection Q as <- <- <-. eauto.
    - destruct (ready loops s t) eqn:R; [|injection H as <-; eauto]. destruct (s_posted s t) as [|i q] eqn:P; [injection H as <-; eauto|].
      assert (I : In i (s_posted s t)) by (rewrite P; now left). apply (v_post _ _ _ V) in I. destruct I as (I1 & I2 & _).
      apply (begin_news s (Dispatch t at_once)) in H; auto.
      + change (i < length (s_calls s)). apply pending_bound. congruence.
      + change (runs s (at_home s i) = true). rewrite I2. now apply ready_runs.
      + intros u d a Q. discriminate.
      + intros a ->. eauto.
    - destruct (waiting home loops s i) eqn:W; [|injection H as <-; eauto]. destruct (k_net (call_at s i)) as [b|]; [injection H as <-; eauto|].
      injection H as <-. exists [Answered i a]. split; [reflexivity|]. constructor; [|constructor]. split; [|discriminate].
      split; auto. intros s2 S2. rewrite ST in S2. injection S2 as <-. unfold waiting in W. destruct (ph s i) eqn:P; try discriminate.
      apply andb_prop in W. destruct W as [_ W]. apply ready_runs in W. change (call_at (tell ?l ?x)) with (call_at x).
      rewrite call_at_set by (apply pending_bound; congruence). rewrite Nat.eqb_refl. exact W.
    - destruct (waiting home loops s i) eqn:W; [|injection H as <-; eauto]. cbn [andb] in H.
      destruct (k_timer _ && http2 _ && _)%bool eqn:T; [|injection H as <-; eauto].
      assert (EX : s_log s' = s_log s \/ s_log s' = s_log s ++ [Answered i canceled]).
      { destruct (k_net (call_at s i)); [destruct (held _ _ _)|]; injection H as <-; auto. }
      assert (Q : client s' i = client s i).
      { destruct (k_net (call_at s i)); [destruct (held _ _ _)|]; injection H as <-; try (change (call_at (tell ?l ?x)) with (call_at x));
        (rewrite call_at_set; [now rewrite Nat.eqb_refl|]); apply pending_bound; unfold waiting in W; destruct (ph s i); discriminate. }
      destruct EX as [EX|EX]; [exists []; rewrite EX; exact NO|]. exists [Answered i canceled]. split; auto.
      constructor; [|constructor]. split; [|discriminate]. unfold waiting in W. destruct (ph s i) eqn:P; try discriminate.
      apply andb_prop in W. destruct W as [_ W]. apply ready_runs in W. split.
      + intros s2 S2. rewrite ST in S2. injection S2 as <-. now rewrite Q.
      + right. right. right. split; auto. apply andb_prop in T. destruct T as [_ T]. now apply Z.leb_le.
    - destruct (s_stacks s t) as [|[i|i] rest] eqn:S; try (injection H as <-; eauto; fail).
      destruct (k_net (call_at s i)) as [[[err st] body]|]; [|injection H as <-; eauto]. destruct (k_alive (call_at s i)); [|discriminate].
      unfold conclude in H. destruct (processReply err st body) as [[code data]| | |]; cbn [bind] in H; try discriminate.
      destruct (finish_log _ _ _ _ _ _ H) as (m & M1 & M2). exists m. split; [exact M1|].
      assert (I : In (Loop i) (s_stacks s t)) by (rewrite S; now left). pose proof (v_loop _ _ _ V _ _ I) as (P & Hi & _).
      assert (R : runs s (at_home s i) = true) by (rewrite Hi; unfold runs; now rewrite S).
      eapply Forall_impl; [|exact M2]. intros r [-> | ->]; (split; [exact R|discriminate]).
    - destruct (runs _ _ && _); injection H as <-; [|eauto]. exists []. split; [|constructor]. rewrite app_nil_r.
      apply (leave_same http2 c (kept || match s_channels s c with Some old => old =? ch | None => true end) s).
    - destruct (runs s (home c)) eqn:R; [|injection H as <-; eauto]. cbn [andb] in H. destruct (negb _); injection H as <-; [|eauto].
      set (s0 := with_posted _ _ _).
      destruct (cancel_news s (Destroy c kept) c (filter (fun i => client s i =? c) (s_posted s (home c))) R) with (s := s0) as (m & M1 & M2).
      + discriminate.
      + intros i I. apply filter_In in I. destruct I as [_ I]. apply Nat.eqb_eq in I. rewrite <- I.
        destruct (leave_same http2 c kept s) as (_ & _ & _ & _ & _ & A6 & _).
        unfold s0. unfold leave_channel. destruct (s_channels s c) as [old|]; [destruct kept|]; try reflexivity.
        change (client (drop_channel http2 old s) i = client s i). rewrite call_at_drop. unfold lose. destruct (ph s i); try reflexivity.
        destruct (_ && _); reflexivity.
      + exists m. split; auto. rewrite M1. f_equal. apply (leave_same http2 c kept s).
    - destruct (0 <=? d)%Z; injection H as <-; eauto.
  Qed.

  (** A thread that can run code has no call that waits for another thread, and the other way round. *)
  Lemma runs_log chs s t : Inv [] s -> Log home chs s ->
    runs s t = true <-> (forall i c, In (Called i t c) (s_log s) -> t <> home c -> has_returned (s_log s) i).
  Proof.
    intros V L. split.
    - intros R i c I N. apply (l_called _ _ _ L) in I. destruct I as (I1 & I2 & I3). apply (l_ret _ _ _ L). split; auto.
      destruct (ph s i) eqn:P; auto; exfalso;
        (assert (B : In (Blocked i) (s_stacks s t)) by (rewrite <- I2; apply (v_blocked _ _ _ V); congruence);
         unfold runs in R; destruct (s_stacks s t) as [|f r] eqn:S; [destruct B|]; destruct B as [->|B]; [discriminate|];
         now destruct (v_shape _ _ _ V _ _ _ S i)).
    - intros H. unfold runs. destruct (s_stacks s t) as [|[i|i] r] eqn:S; auto. exfalso.
      assert (B : In (Blocked i) (s_stacks s t)) by (rewrite S; now left). apply (v_block _ _ _ V) in B. destruct B as (B1 & B2 & B3).
      assert (R : has_returned (s_log s) i).
      { apply (H i (client s i)); [|congruence]. apply (l_called _ _ _ L). repeat split; auto. now apply pending_bound. }
      apply (l_ret _ _ _ L) in R. tauto.
  Qed.

  (** *** Who is busy *)

  Definition idle (l : list report) (r : report) : Prop :=
    forall t, comes_from home l r t -> forall i c, In (Called i t c) l -> t <> home c -> has_returned l i.

  Lemma more_returned l m i : has_returned l i -> has_returned (l ++ m) i.
  Proof. intros (a & b & c & H). exists a, b, c. apply in_or_app. now left. Qed.

  Lemma always_append (P : list report -> report -> Prop) l m : always P l ->
    (forall m1 r m2, m = m1 ++ r :: m2 -> P (l ++ m1) r) -> always P (l ++ m).
  Proof.
    intros A. revert l A. induction m as [|r m IH]; intros l A H; [now rewrite app_nil_r|].
    replace (l ++ r :: m) with ((l ++ [r]) ++ m) by now rewrite <- app_assoc. apply IH.
    - apply always_snoc; auto. specialize (H [] r m eq_refl). now rewrite app_nil_r in H.
    - intros m1 r' m2 ->. rewrite <- app_assoc. apply (H (r :: m1) r' m2). reflexivity.
  Qed.

  Lemma step_idle chs s e s' : Inv [] s -> Log home chs s -> Errs s -> step s e = Ok s' -> always idle (s_log s) -> always idle (s_log s').
  Proof.
    intros V L E H A. destruct (step_news s e s' V H) as (m & M1 & M2). rewrite M1. apply always_append; auto.
    destruct (step_good home loops http2 chs s e s' V L E H) as (V' & L' & _).
    intros m1 r m2 M t F i c I N. rewrite M in M2. apply Forall_app in M2. destruct M2 as [N1 N2]. inversion N2 as [|x y [R1 R2] _]; subst x y.
    assert (LL : s_log s' = (s_log s ++ m1) ++ r :: m2) by now rewrite M1, M, app_assoc.
    assert (R : runs s t = true).
    { destruct r as [j u d|j d ch|j a|d code|j d code data]; cbn in F.
      - subst u. tauto.
      - rewrite <- F. tauto.
      - destruct F as (u & d & F1 & F2). destruct R1 as [R1 _]. specialize (R1 s' H).
        assert (Q : In (Called j u d) (s_log s')) by (rewrite LL; apply in_or_app; now left). apply (l_called _ _ _ L') in Q.
        destruct Q as (_ & _ & Q). rewrite Q, F2 in R1. exact R1.
      - rewrite <- F. tauto.
      - rewrite <- F. tauto. }
    apply in_app_or in I. destruct I as [I|I].
    - apply more_returned. now apply (runs_log chs s t V L) with (c := c).
    - exfalso. rewrite Forall_forall in N1. destruct (N1 _ I) as [(_ & I1 & (b & I2)) _].
      destruct (R2 t c b I2 N) as (k & ->). destruct R1 as (_ & K & _).
      destruct (l_fine _ _ _ L' _ _ _ LL) as (U & _). apply U. exists t, c. apply in_or_app. right. now rewrite K, <- I1.
  Qed.
  Lemma run_idle chs l : forall s s', Inv [] s -> Log home chs s -> Errs s -> run s l = Ok s' -> always idle (s_log s) -> always idle (s_log s').
  Proof.
    induction l as [|e l IH]; cbn [BlockModel.run]; intros s s' V L E H A; [now injection H as <-|].
    destruct (step s e) as [s1| | |] eqn:Q; cbn in H; try discriminate.
    destruct (step_good home loops http2 chs s e s1 V L E Q) as (V1 & L1 & E1). apply (IH s1); auto. now apply (step_idle chs s e s1).
  Qed.

  (** *** Channels *)

  Lemma finish_channels s i code data s' : finish home i code data s = Ok s' -> s_channels s' = s_channels s.
  Proof. intros H. destruct (finish_shape _ _ _ _ _ _ H) as (m & -> & _). apply (give_back_rest home (tell m s)). Qed.
  Lemma conclude_channels s i a s' : conclude home i a s = Ok s' -> s_channels s' = s_channels s.
  Proof.
    unfold conclude. destruct a as [[err st] body]. destruct (processReply err st body) as [[code data]| | |]; cbn; try discriminate. apply finish_channels.
  Qed.
  Lemma begin_channels s i at_once s' : begin home at_once i s = Ok s' -> s_channels s' = s_channels s.
  Proof.
    unfold begin. destruct (s_channels s (client s i)) as [ch|]; [destruct at_once as [a|]|]; intros H.
    - now apply conclude_channels in H.
    - now injection H as <-.
    - now apply finish_channels in H.
  Qed.
  Lemma cancel_channels l : forall s, s_channels (cancel home l s) = s_channels s.
  Proof. induction l as [|i l IH]; intros s; cbn [cancel]; auto. rewrite IH. apply (give_back_rest home s i). Qed.
  Lemma leave_channels c kept s : s_channels (leave_channel http2 c kept s) = s_channels s.
  Proof. unfold leave_channel. destruct (s_channels s c); [destruct kept|]; reflexivity. Qed.

  (** A step changes the channel of a client only by attachChannel and by its end. *)
  Lemma step_channels s e s' c : step s e = Ok s' ->
    s_channels s' c = s_channels s c \/ (exists ch kept, e = Attach c ch kept /\ s_channels s' c = Some ch) \/ (exists kept, e = Destroy c kept /\ s_channels s' c = None).
  Proof.
    destruct e as [t d at_once|t at_once|i a|i|t|d ch kept|d kept|d]; cbn [BlockModel.step]; intros H.
    - destruct (_ && _); [|injection H as <-; auto]. destruct (Nat.eqb _ _); [|injection H as <-; auto]. apply begin_channels in H. rewrite H. auto.
    - destruct (ready _ _ _); [|injection H as <-; auto]. destruct (s_posted s t); [injection H as <-; auto|]. apply begin_channels in H. rewrite H. auto.
    - destruct (waiting _ _ _ _); [|injection H as <-; auto]. destruct (k_net _); injection H as <-; auto.
    - destruct (_ && _); [|injection H as <-; auto]. destruct (k_net _); [destruct (held _ _ _)|]; injection H as <-; auto.
    - destruct (s_stacks s t) as [|[i|i] r]; try (injection H as <-; auto; fail). destruct (k_net _); [|injection H as <-; auto].
      destruct (k_alive _); [|discriminate]. apply conclude_channels in H. rewrite H. auto.
    - destruct (runs _ _ && _); injection H as <-; auto. cbn [with_channel s_channels]. rewrite leave_channels. unfold put.
      destruct (Nat.eqb_spec c d) as [->|]; auto. right. left. eauto.
    - destruct (runs _ _ && _); injection H as <-; auto. rewrite cancel_channels. cbn [with_posted with_channel with_gone s_channels].
      rewrite leave_channels. unfold put. destruct (Nat.eqb_spec c d) as [->|]; auto. right. right. eauto.
    - destruct (0 <=? d)%Z; injection H as <-; auto.
  Qed.

  (** Channels that a client may have. *)
  Lemma run_sent_channel chs c (P : nat -> Prop) l : forall s s', Inv [] s -> Log home chs s -> Errs s ->
    (forall ch, s_channels s c = Some ch -> P ch) -> (forall ch kept, In (Attach c ch kept) l -> P ch) -> run s l = Ok s' ->
    exists m, s_log s' = s_log s ++ m /\ forall i ch, In (Sent i c ch) m -> P ch.
  Proof.
    induction l as [|e l IH]; cbn [BlockModel.run]; intros s s' V L E HC HA H;
      [injection H as <-; exists []; split; [now rewrite app_nil_r|intros ? ? []]|].
    destruct (step s e) as [s1| | |] eqn:Q; cbn in H; try discriminate.
    destruct (step_good home loops http2 chs s e s1 V L E Q) as (V1 & L1 & E1).
    destruct (IH s1 s' V1 L1 E1) as (m2 & M2 & N2); auto.
    - intros ch X. destruct (step_channels s e s1 c Q) as [Y|[(ch' & kept & -> & Y)|(kept & -> & Y)]]; [apply HC; congruence| |congruence].
      rewrite X in Y. injection Y as <-. apply (HA ch kept). now left.
    - intros ch kept I. apply (HA ch kept). now right.
    - destruct (step_news s e s1 V Q) as (m1 & M1 & N1). exists (m1 ++ m2). split; [now rewrite M2, M1, app_assoc|].
      intros i ch I. apply in_app_or in I. destruct I as [I|I]; [|now apply (N2 i)].
      rewrite Forall_forall in N1. destruct (N1 _ I) as [(_ & X) _]. auto.
  Qed.

  (** *** The end of a client *)

  Lemma give_back_over s i code data k : ph s k = Over -> ph (give_back home i code data s) k = Over.
  Proof.
    intros H. destruct (Nat.eq_dec k i) as [->|D]; [|now rewrite (give_back_other home)].
    destruct (Nat.lt_ge_cases i (length (s_calls s))) as [B|B].
    - assert (E : call_at (give_back home i code data s) i = call_at (with_call i (in_phase Over (call_at s i)) s) i)
        by (unfold give_back, with_stack; destruct (Nat.eqb _ _); reflexivity).
      rewrite E, call_at_set by auto. now rewrite Nat.eqb_refl.
    - unfold call_at. rewrite nth_overflow; auto. destruct (give_back_rest home s i code data) as (_ & _ & -> & _). auto.
  Qed.
  Lemma cancel_over l : forall s k, (In k l /\ k < length (s_calls s)) \/ ph s k = Over -> ph (cancel home l s) k = Over.
  Proof.
    induction l as [|i l IH]; intros s k H; cbn [cancel]; [destruct H as [[[] _]|H]; auto|]. apply IH.
    destruct H as [[[->|I] B]|H].
    - right. assert (E : call_at (give_back home k 2%Z [] s) k = call_at (with_call k (in_phase Over (call_at s k)) s) k)
        by (unfold give_back, with_stack; destruct (Nat.eqb _ _); reflexivity).
      rewrite E, call_at_set by auto. now rewrite Nat.eqb_refl.
    - left. split; auto. destruct (give_back_rest home s i 2%Z []) as (_ & _ & -> & _). auto.
    - right. now apply give_back_over.
  Qed.

  Lemma destroy_returns chs s c kept s' : Inv [] s -> Log home chs s -> Errs s ->
    runs s (home c) = true -> s_gone s c = false -> step s (Destroy c kept) = Ok s' ->
    forall i, i < length (s_calls s) -> client s i = c -> ~ was_sent (s_log s) i -> has_returned (s_log s') i.
  Proof.
    intros V L E R G H i B C NS. destruct (step_good home loops http2 chs s _ s' V L E H) as (_ & L' & _).
    cbn [BlockModel.step] in H. rewrite R, G in H. cbn [andb negb] in H.
    apply (l_ret _ _ _ L'). injection H as <-. set (s0 := with_posted _ _ _).
    assert (B0 : length (s_calls s0) = length (s_calls s)).
    { unfold s0, leave_channel. destruct (s_channels s c) as [old|]; [destruct kept|]; try reflexivity. cbn. now rewrite map_length. }
    assert (LEN : forall l x, length (s_calls (cancel home l x)) = length (s_calls x)).
    { induction l as [|j l IH]; intros x; cbn [cancel]; auto. rewrite IH. apply (give_back_rest home x j). }
    rewrite LEN, B0. split; auto. apply cancel_over. rewrite B0.
    destruct (ph s i) eqn:P.
    - left. split; auto. apply filter_In. split; [|now apply Nat.eqb_eq]. destruct (v_posted _ _ _ V i P) as [[]|X]. now rewrite C in X.
    - destruct NS. now apply (l_inside _ _ _ L).
    - right. assert (X : ph s0 i = ph s i); [|congruence].
      unfold s0, leave_channel. destruct (s_channels s c) as [old|]; [destruct kept|]; try reflexivity.
      change (ph (drop_channel http2 old s) i = ph s i). rewrite call_at_drop. unfold lose. now rewrite P.
  Qed.

  (** *** Timeouts *)

  (** Calls that wait began to do so at this time. *)
  Definition timed (now : Z) (s s' : state) : Prop :=
    forall k, ph s' k = Inside -> (ph s k = Inside /\ k_start (call_at s' k) = k_start (call_at s k)) \/ k_start (call_at s' k) = now.
  Lemma timed_same now s s' : (forall k, call_at s' k = call_at s k) -> timed now s s'.
  Proof. intros H k. rewrite H. auto. Qed.
  Lemma timed_trans now a b c : timed now a b -> timed now b c -> timed now a c.
  Proof. intros H1 H2 k P. destruct (H2 k P) as [[Q ->]|Q]; auto. Qed.
  Lemma timed_set now s i x : i < length (s_calls s) ->
    (k_phase x = Inside -> (ph s i = Inside /\ k_start x = k_start (call_at s i)) \/ k_start x = now) -> timed now s (with_call i x s).
  Proof. intros B H k. rewrite call_at_set by auto. destruct (Nat.eqb_spec k i) as [->|]; auto. Qed.
  Lemma timed_give_back now s i code data : timed now s (give_back home i code data s).
  Proof.
    intros k P. destruct (Nat.eq_dec k i) as [->|D]; [|rewrite (give_back_other home) in *; auto]. exfalso.
    assert (E : call_at (give_back home i code data s) i = call_at (with_call i (in_phase Over (call_at s i)) s) i)
      by (unfold give_back, with_stack; destruct (Nat.eqb _ _); reflexivity).
    rewrite E in P. destruct (Nat.lt_ge_cases i (length (s_calls s))) as [B|B].
    - rewrite call_at_set in P by auto. rewrite Nat.eqb_refl in P. discriminate.
    - unfold call_at in P. rewrite nth_overflow in P; [discriminate|]. cbn. now rewrite set_nth_length.
  Qed.
  Lemma timed_finish now s i code data s' : finish home i code data s = Ok s' -> timed now s s'.
  Proof. intros H. destruct (finish_shape _ _ _ _ _ _ H) as (m & -> & _). apply (timed_give_back now (tell m s)). Qed.
  Lemma timed_conclude now s i a s' : conclude home i a s = Ok s' -> timed now s s'.
  Proof.
    unfold conclude. destruct a as [[err st] body]. destruct (processReply err st body) as [[code data]| | |]; cbn; try discriminate. apply timed_finish.
  Qed.
  Lemma timed_begin s i at_once s' : i < length (s_calls s) -> begin home at_once i s = Ok s' -> timed (s_now s) s s'.
  Proof.
    intros B. unfold begin. destruct (s_channels s (client s i)) as [ch|]; [destruct at_once as [a|]|]; intros H.
    - apply (timed_conclude (s_now s)) in H. eapply timed_trans; [|exact H]. apply (timed_set (s_now s) s i (answered a (sent ch (s_now s) (call_at s i))) B). auto.
    - injection H as <-. apply (timed_set (s_now s) s i (sent ch (s_now s) (call_at s i)) B). auto.
    - now apply (timed_finish (s_now s)) in H.
  Qed.
  Lemma timed_cancel now l : forall s, timed now s (cancel home l s).
  Proof. induction l as [|i l IH]; intros s; cbn [cancel]; [now apply timed_same|]. eapply timed_trans; [apply timed_give_back|apply IH]. Qed.
  Lemma timed_leave now c kept s : timed now s (leave_channel http2 c kept s).
  Proof.
    unfold leave_channel. destruct (s_channels s c) as [old|]; [destruct kept|]; try (now apply timed_same).
    intros k. rewrite call_at_drop. unfold lose. destruct (ph s k) eqn:P; rewrite ?P; auto. destruct (_ && _); cbn; auto.
  Qed.
  Lemma step_timed s e s' : Inv [] s -> step s e = Ok s' -> timed (s_now s) s s'.
  Proof.
    intros V H. assert (NO : timed (s_now s) s s) by now apply timed_same.
    destruct e as [t c at_once|t at_once|i a|i|t|c ch kept|c kept|d]; cbn [BlockModel.step] in H.
    - destruct (_ && _); [|injection H as <-; auto]. fold (new_call t c) in H. fold (calling t c s) in H.
      assert (T : timed (s_now s) s (calling t c s)).
      { intros k. rewrite call_at_calling. destruct (Nat.eqb_spec k (length (s_calls s))); [discriminate|auto]. }
      destruct (Nat.eqb _ _); [|injection H as <-; exact T]. apply timed_begin in H.
      + eapply timed_trans; [exact T|exact H].
      + unfold calling, with_calls, tell. cbn. rewrite app_length. cbn. lia.
    - destruct (ready _ _ _); [|injection H as <-; auto]. destruct (s_posted s t) as [|i q] eqn:P; [injection H as <-; auto|].
      assert (I : In i (s_posted s t)) by (rewrite P; now left). apply (v_post _ _ _ V) in I. destruct I as (I1 & _).
      apply (timed_begin (with_posted t q s)) in H; [exact H|]. change (i < length (s_calls s)). apply pending_bound. congruence.
    - destruct (waiting _ _ _ _) eqn:W; [|injection H as <-; auto]. destruct (k_net _); injection H as <-; auto.
      apply (timed_set (s_now s) s i (answered a (call_at s i))); [|auto]. apply pending_bound. unfold waiting in W. destruct (ph s i); discriminate.
    - destruct (waiting _ _ _ _) eqn:W; [|injection H as <-; auto]. cbn [andb] in H. destruct (_ && _)%bool; [|injection H as <-; auto].
      assert (B : i < length (s_calls s)) by (apply pending_bound; unfold waiting in W; destruct (ph s i); discriminate).
      destruct (k_net _); [destruct (held _ _ _)|]; injection H as <-.
      + apply (timed_set (s_now s) s i (fired (destroyed (call_at s i)))); auto.
      + apply (timed_set (s_now s) s i (fired (call_at s i))); auto.
      + apply (timed_set (s_now s) s i (fired (answered canceled (call_at s i)))); auto.
    - destruct (s_stacks s t) as [|[i|i] r]; try (injection H as <-; auto; fail). destruct (k_net _); [|injection H as <-; auto].
      destruct (k_alive _); [|discriminate]. now apply (timed_conclude (s_now s)) in H.
    - destruct (runs _ _ && _); injection H as <-; auto.
      apply (timed_leave (s_now s) c (kept || match s_channels s c with Some old => old =? ch | None => true end) s).
    - destruct (runs _ _ && _); injection H as <-; auto. eapply timed_trans; [|apply timed_cancel]. apply (timed_leave (s_now s) c kept s).
    - destruct (0 <=? d)%Z; injection H as <-; auto.
  Qed.

  Lemma finish_now s i code data s' : finish home i code data s = Ok s' -> s_now s' = s_now s.
  Proof. intros H. destruct (finish_shape _ _ _ _ _ _ H) as (m & -> & _). unfold give_back, with_stack. now destruct (Nat.eqb _ _). Qed.
  Lemma conclude_now s i a s' : conclude home i a s = Ok s' -> s_now s' = s_now s.
  Proof.
    unfold conclude. destruct a as [[err st] body]. destruct (processReply err st body) as [[code data]| | |]; cbn; try discriminate. apply finish_now.
  Qed.
  Lemma begin_now s i at_once s' : begin home at_once i s = Ok s' -> s_now s' = s_now s.
  Proof.
    unfold begin. destruct (s_channels s (client s i)) as [ch|]; [destruct at_once as [a|]|]; intros H.
    - now apply conclude_now in H.
    - now injection H as <-.
    - now apply finish_now in H.
  Qed.
  Lemma cancel_now l : forall s, s_now (cancel home l s) = s_now s.
  Proof. induction l as [|i l IH]; intros s; cbn [cancel]; auto. rewrite IH. unfold give_back, with_stack. now destruct (Nat.eqb _ _). Qed.
  Lemma step_now s e s' : step s e = Ok s' -> s_now s' = (s_now s + match e with Tick d => if 0 <=? d then d else 0 | _ => 0 end)%Z.
  Proof.
    destruct e as [t d at_once|t at_once|i a|i|t|d ch kept|d kept|d]; cbn [BlockModel.step]; intros H; rewrite ?Z.add_0_r.
    - destruct (_ && _); [|injection H as <-; auto]. destruct (Nat.eqb _ _); [|injection H as <-; auto]. apply begin_now in H. now rewrite H.
    - destruct (ready _ _ _); [|injection H as <-; auto]. destruct (s_posted s t); [injection H as <-; auto|]. apply begin_now in H. now rewrite H.
    - destruct (waiting _ _ _ _); [|injection H as <-; auto]. destruct (k_net _); injection H as <-; auto.
    - destruct (_ && _); [|injection H as <-; auto]. destruct (k_net _); [destruct (held _ _ _)|]; injection H as <-; auto.
    - destruct (s_stacks s t) as [|[i|i] r]; try (injection H as <-; auto; fail). destruct (k_net _); [|injection H as <-; auto].
      destruct (k_alive _); [|discriminate]. apply conclude_now in H. now rewrite H.
    - destruct (runs _ _ && _); injection H as <-; auto. unfold leave_channel. destruct (s_channels s d); [destruct (_ || _)|]; reflexivity.
    - destruct (runs _ _ && _); injection H as <-; auto. rewrite cancel_now. unfold leave_channel. destruct (s_channels s d); [destruct kept|]; reflexivity.
    - destruct (0 <=? d)%Z; injection H as <-; cbn; lia.
  Qed.

  Lemma elapsed_pos l : (0 <= elapsed l)%Z.
  Proof.
    induction l as [|e l IH]; [cbn; lia|]. cbn [elapsed fold_right]. fold (elapsed l). destruct e; try lia. destruct (Z.leb_spec 0 d); lia.
  Qed.

  Lemma early chs i T l : forall s s', Inv [] s -> Log home chs s -> Errs s ->
    (ph s i = Inside -> (T <= k_start (call_at s i))%Z) -> (s_now s + elapsed l < T + 6000)%Z -> (T <= s_now s)%Z -> run s l = Ok s' ->
    exists m, s_log s' = s_log s ++ m /\ forall a, In (Answered i a) m ->
      In (Answer i a) l \/ (exists t, In (Dispatch t (Some a)) l) \/ (exists t c, In (Call t c (Some a)) l).
  Proof.
    induction l as [|e l IH]; cbn [BlockModel.run]; intros s s' V L E HT HE TN H;
      [injection H as <-; exists []; split; [now rewrite app_nil_r|intros ? []]|].
    destruct (step s e) as [s1| | |] eqn:Q; cbn in H; try discriminate.
    destruct (step_good home loops http2 chs s e s1 V L E Q) as (V1 & L1 & E1). pose proof (step_now s e s1 Q) as NW. pose proof (elapsed_pos l) as EP.
    cbn [elapsed fold_right] in HE. fold (elapsed l) in HE.
    destruct (IH s1 s' V1 L1 E1) as (m2 & M2 & N2); auto.
    - intros P. destruct (step_timed s e s1 V Q i P) as [[P' ->]| ->]; auto.
    - rewrite NW. lia.
    - rewrite NW. destruct e; try lia. destruct (Z.leb_spec 0 d); lia.
    - destruct (step_news s e s1 V Q) as (m1 & M1 & N1). exists (m1 ++ m2). split; [now rewrite M2, M1, app_assoc|].
      intros a I. apply in_app_or in I. destruct I as [I|I].
      + rewrite Forall_forall in N1. destruct (N1 _ I) as [(_ & X) _].
        destruct X as [->|[[t ->]|[(t & c & ->)|(P & X)]]]; [left; now left|right; left; exists t; now left|right; right; exists t, c; now left|].
        exfalso. specialize (HT P). destruct e; try lia. destruct (Z.leb_spec 0 d); lia.
      + destruct (N2 a I) as [X|[[t X]|(t & c & X)]]; [left; now right|right; left; exists t; now right|right; right; exists t, c; now right].
  Qed.
End Threads.

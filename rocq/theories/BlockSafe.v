(** Every history of blocking calls keeps the invariants. *)

From Coq Require Import ZArith List Bool Arith Lia Sorted.
From Verif Require Import Base FrameModel BlockModel BlockSpec BlockProofs BlockRun.
Import ListNotations.
Local Close Scope Z_scope.

Lemma set_nth_twice {A} i (x y : A) l : set_nth i y (set_nth i x l) = set_nth i y l.
Proof. revert i. induction l as [|z l IH]; intros [|i]; cbn; auto. now rewrite IH. Qed.

Section Threads.
  Context (home : nat -> nat) (loops : nat -> bool) (http2 : nat -> bool) (chs : nat -> option nat).

  Notation client s i := (k_client (call_at s i)).
  Notation from s i := (k_from (call_at s i)).
  Notation ph s i := (k_phase (call_at s i)).
  Notation at_home s i := (home (k_client (call_at s i))).
  Notation Inv := (Inv home).
  Notation Log := (Log home chs).

  Definition Errs (s : state) : Prop := forall c, s_gone s c = false -> errors c (s_log s) = failures c (s_log s).

  Lemma errors_app c l m : errors c (l ++ m) = errors c l ++ errors c m.
  Proof. apply flat_map_app. Qed.
  Lemma failures_app c l m : failures c (l ++ m) = failures c l ++ failures c m.
  Proof. apply flat_map_app. Qed.

  Lemma Errs_tell s m : Errs s -> (forall c, s_gone s c = false -> errors c m = failures c m) -> Errs (tell m s).
  Proof. intros H K c G. cbn [tell s_log]. rewrite errors_app, failures_app, (H c G), (K c G). reflexivity. Qed.
  Lemma Errs_ext s s' : s_log s' = s_log s -> (forall c, s_gone s c = true -> s_gone s' c = true) -> Errs s -> Errs s'.
  Proof. intros E G H c K. rewrite E. apply H. destruct (s_gone s c) eqn:Q; auto. now rewrite (G c Q) in K. Qed.

  Lemma give_back_log s i code data :
    s_log (give_back home i code data s) = s_log s ++ [Returned i (client s i) code data]
    /\ s_gone (give_back home i code data s) = s_gone s
    /\ s_channels (give_back home i code data s) = s_channels s.
  Proof. unfold give_back, with_stack. destruct (Nat.eqb _ _); repeat split; reflexivity. Qed.

  (** *** The end of a call *)

  Lemma finish_good X s i code data s' :
    Inv (i :: X) s -> Log s -> Errs s ->
    ((exists err st body, k_net (call_at s i) = Some (err, st, body) /\ processReply err st body = Ok (code, data))
     \/ (code = 2%Z /\ data = [] /\ ph s i = Posted /\ (chs (client s i) = None \/ s_gone s (client s i) = true))) ->
    (forall ci chi j cj chj, ph s j = Inside -> at_home s j = at_home s i -> ~ before (Sent i ci chi) (Sent j cj chj) (s_log s)) ->
    finish home i code data s = Ok s' -> Inv X s' /\ Log s' /\ Errs s'.
  Proof.
    intros V L E R T. unfold finish. destruct (Z.eqb_spec code 0) as [Z|Z].
    - intros H. injection H as <-. destruct (give_back_log s i code data) as (GL & GG & GC). repeat apply conj.
      + now apply Inv_return.
      + now apply (Log_return home chs X).
      + intros c G. rewrite GG in G. rewrite GL, errors_app, failures_app, (E c G). f_equal. cbn. rewrite Z. cbn.
        now rewrite andb_false_r.
    - assert (G : exists b, s_gone s (client s i) = b) by eauto. destruct G as [[|] G]; rewrite G; [discriminate|]. intros H. injection H as <-.
      set (s1 := tell [ClientError (client s i) code] s).
      assert (V1 : Inv (i :: X) s1) by (eapply Inv_ext; [..|exact V]; intros; auto).
      assert (L1 : Log s1) by now apply Log_error.
      destruct (give_back_log s1 i code data) as (GL & GG & GC). repeat apply conj.
      + now apply Inv_return.
      + apply (Log_return home chs X); [exact V1|exact L1|exact R|]. intros * H1 H2 H3. unfold s1 in H3. cbn [tell s_log] in H3. apply before_snoc in H3.
        destruct H3 as [H3|[_ H3]]; [|discriminate]. exact (T _ _ _ _ _ H1 H2 H3).
      + intros c K. rewrite GG in K. change (s_gone s1) with (s_gone s) in K. rewrite GL.
        change (s_log s1) with (s_log s ++ [ClientError (client s i) code]).
        rewrite !errors_app, !failures_app, (E c K), <- !app_assoc. f_equal. cbn. change (client s1 i) with (client s i).
        fold (call_at s i). apply Z.eqb_neq in Z. rewrite Z. destruct (Nat.eqb (client s i) c); reflexivity.
  Qed.

  Lemma conclude_good X s i a s' :
    Inv (i :: X) s -> Log s -> Errs s -> k_net (call_at s i) = Some a ->
    (forall ci chi j cj chj, ph s j = Inside -> at_home s j = at_home s i -> ~ before (Sent i ci chi) (Sent j cj chj) (s_log s)) ->
    conclude home i a s = Ok s' -> Inv X s' /\ Log s' /\ Errs s'.
  Proof.
    intros V L E N T. unfold conclude. destruct a as [[err st] body].
    destruct (processReply err st body) as [[code data]| | |] eqn:P; cbn; try discriminate.
    apply finish_good; auto. left. exists err, st, body. auto.
  Qed.

  (** *** The beginning *)

  Lemma begin_good s i at_once s' :
    Inv [i] s -> Log s -> Errs s -> ph s i = Posted -> first_of home s i ->
    (forall j r, s_stacks s (at_home s i) <> Blocked j :: r) ->
    begin home at_once i s = Ok s' -> Inv [] s' /\ Log s' /\ Errs s'.
  Proof.
    intros V L E P F T. pose proof (pending_bound s i ltac:(congruence)) as N.
    assert (NS : forall c ch, ~ In (Sent i c ch) (s_log s)).
    { intros c ch H. apply (l_sent _ _ _ L) in H. tauto. }
    unfold begin. destruct (s_channels s (client s i)) as [ch|] eqn:C.
    - set (s1 := sending i ch s).
      assert (V1 : Inv [i] s1) by now apply Inv_sending.
      assert (L1 : Log s1) by now apply Log_sending.
      assert (E1 : Errs s1) by (apply (Errs_tell _ _ E); reflexivity).
      assert (C1 : call_at s1 i = sent ch (s_now s) (call_at s i)) by (unfold s1; rewrite call_at_sending, Nat.eqb_refl; auto).
      assert (P1 : ph s1 i = Inside) by now rewrite C1.
      assert (H1 : at_home s1 i = at_home s i) by now rewrite C1.
      destruct at_once as [a|].
      + set (s2 := tell [Answered i a] (with_call i (answered a (sent ch (s_now s) (call_at s i))) s1)).
        assert (Q : tell [Sent i (client s i) ch; Answered i a] (with_call i (answered a (sent ch (s_now s) (call_at s i))) s) = s2).
        { unfold s2, s1, sending, with_call, with_calls, tell. cbn [s_now s_stacks s_posted s_calls s_channels s_gone s_log].
          rewrite set_nth_twice, <- app_assoc. reflexivity. }
        rewrite Q.
        assert (C2 : forall j, call_at s2 j = if Nat.eqb j i then answered a (sent ch (s_now s) (call_at s i)) else call_at s1 j).
        { intros j. apply (call_at_set s1). unfold s1, sending. cbn. now rewrite set_nth_length. }
        apply conclude_good.
        * eapply Inv_ext; [..|exact V1]; try (intros; reflexivity). intros j. rewrite C2.
          destruct (Nat.eqb_spec j i) as [->|]; auto. rewrite C1. auto.
        * apply Log_answered; auto; now rewrite C1.
        * apply Errs_tell; [exact E1|]. reflexivity.
        * rewrite C2, Nat.eqb_refl. reflexivity.
        * intros * _ _ B. unfold s2, s1, sending in B. cbn [tell s_log with_call with_calls] in B.
          apply before_snoc in B. destruct B as [B|[_ B]]; [|discriminate].
          apply before_snoc in B. destruct B as [B|[B _]]; [apply before_in in B; destruct B as [B _]|]; now apply NS in B.
      + intros H. injection H as <-. fold (sending i ch s). fold s1. rewrite <- H1. change (s_stacks s) with (s_stacks s1). repeat apply conj.
        * apply Inv_push; auto. intros j r. rewrite H1. apply T.
        * apply Log_push; auto. intros * HL HS HI. unfold s1, sending in HS, HI |- *. cbn [tell s_log with_call with_calls] in *.
          apply before_snoc. right. apply in_app_or in HS, HI. destruct HI as [HI|[HI|[]]]; [now apply NS in HI|]. split; auto.
          destruct HS as [HS|[HS|[]]]; auto. injection HS as -> _ _.
          apply (v_loop _ _ _ V1) in HL. destruct HL as (_ & _ & HL). destruct HL. now left.
        * eapply Errs_ext; [..|exact E1]; auto.
    - apply finish_good; auto.
      + right. repeat split; auto. now apply (l_chan _ _ _ L).
      + intros * _ _ B. apply before_in in B. destruct B as [B _]. now apply NS in B.
  Qed.

  (** *** Invocations that are given up *)

  Lemma cancel_good X s :
    Inv X s -> Log s -> Errs s -> (forall i, In i X -> ph s i = Posted /\ s_gone s (client s i) = true) ->
    Inv [] (cancel home X s) /\ Log (cancel home X s) /\ Errs (cancel home X s).
  Proof.
    revert s. induction X as [|i X IH]; intros s V L E H; cbn [cancel]; auto.
    pose proof (H i (or_introl eq_refl)) as [P G]. pose proof (pending_bound s i ltac:(congruence)) as N.
    pose proof (v_xnodup _ _ _ V) as NX. inversion NX as [|x y NX1 NX2]; subst.
    destruct (give_back_log s i 2%Z []) as (GL & GG & GC).
    apply IH.
    - now apply Inv_return.
    - apply (Log_return home chs X); [exact V|exact L|right; auto|]. intros * _ _ B. apply before_in in B. destruct B as [B _].
      apply (l_sent _ _ _ L) in B. tauto.
    - intros c K. rewrite GG in K. rewrite GL, errors_app, failures_app, (E c K). f_equal. cbn.
      destruct (Nat.eqb_spec (client s i) c) as [<-|]; auto. congruence.
    - intros j J. rewrite GG. destruct (H j (or_intror J)) as [H1 H2].
      assert (D : j <> i) by (intros ->; contradiction).
      assert (EC : call_at (give_back home i 2%Z [] s) j = call_at s j).
      { transitivity (call_at (with_call i (in_phase Over (call_at s i)) s) j).
        - unfold give_back, with_stack. destruct (Nat.eqb _ _); reflexivity.
        - rewrite call_at_set by auto. apply Nat.eqb_neq in D. now rewrite D. }
      rewrite EC. auto.
  Qed.

  Definition lose (ch : nat) (k : call) : call :=
    match k_phase k with Inside => if Nat.eqb (k_channel k) ch && http2 ch then destroyed k else k | _ => k end.
  Lemma call_at_drop ch s j : call_at (drop_channel http2 ch s) j = lose ch (call_at s j).
  Proof.
    unfold drop_channel, call_at, with_calls. cbn [s_calls].
    change no_call with (lose ch no_call) at 1. apply (map_nth (lose ch)).
  Qed.
  Lemma lose_same ch k : k_phase (lose ch k) = k_phase k /\ k_client (lose ch k) = k_client k /\ k_from (lose ch k) = k_from k
    /\ k_net (lose ch k) = k_net k.
  Proof. unfold lose. destruct (k_phase k) eqn:P; auto. destruct (_ && _); cbn; auto. Qed.
  Lemma leave_same c kept s :
    s_stacks (leave_channel http2 c kept s) = s_stacks s /\ s_posted (leave_channel http2 c kept s) = s_posted s
    /\ s_log (leave_channel http2 c kept s) = s_log s /\ length (s_calls (leave_channel http2 c kept s)) = length (s_calls s)
    /\ s_gone (leave_channel http2 c kept s) = s_gone s /\ s_channels (leave_channel http2 c kept s) = s_channels s
    /\ (forall i, ph (leave_channel http2 c kept s) i = ph s i /\ client (leave_channel http2 c kept s) i = client s i
          /\ from (leave_channel http2 c kept s) i = from s i
          /\ k_net (call_at (leave_channel http2 c kept s) i) = k_net (call_at s i)).
  Proof.
    unfold leave_channel. destruct (s_channels s c) as [old|]; [destruct kept|]; repeat apply conj; auto.
    - unfold drop_channel. cbn. apply map_length.
    - intros i. rewrite call_at_drop. apply lose_same.
  Qed.

  Theorem step_good s e s' :
    Inv [] s -> Log s -> Errs s -> step home loops http2 s e = Ok s' -> Inv [] s' /\ Log s' /\ Errs s'.
  Proof.
    intros V L E. destruct e as [t c at_once|t at_once|i a|i|t|c ch kept|c kept|d]; cbn [step].
    - (* Call *)
      destruct (runs s t) eqn:R; cbn [andb]; [|intros H; injection H as <-; auto].
      destruct (s_gone s c) eqn:G; cbn [negb]; [intros H; injection H as <-; auto|].
      fold (new_call t c). fold (calling t c s).
      destruct (Nat.eqb_spec t (home c)) as [->|D].
      + set (n := length (s_calls s)). set (s1 := calling (home c) c s).
        assert (C1 : call_at s1 n = new_call (home c) c) by (unfold s1; rewrite call_at_calling; unfold n; now rewrite Nat.eqb_refl).
        apply begin_good.
        * now apply Inv_calling.
        * now apply Log_calling.
        * apply (Errs_tell _ _ E). reflexivity.
        * now rewrite C1.
        * intros H. rewrite C1 in H. now destruct H.
        * intros j r. rewrite C1. cbn. change (s_stacks s1) with (s_stacks s). unfold runs in R. intros Q. now rewrite Q in R.
      + intros H. injection H as <-. repeat apply conj.
        * now apply Inv_posting.
        * now apply Log_posting.
        * eapply Errs_ext with (s := calling t c s); auto. apply (Errs_tell _ _ E). reflexivity.
    - (* Dispatch *)
      destruct (ready loops s t) eqn:R; [|intros H; injection H as <-; auto].
      destruct (s_posted s t) as [|i q] eqn:Q; [intros H; injection H as <-; auto|].
      assert (S := v_sorted _ _ _ V t). rewrite Q in S. assert (ND := sorted_nodup _ S).
      inversion ND as [|x y N1 N2]; subst x y. inversion S as [|x y S1 S2]; subst x y.
      assert (I : In i (s_posted s t)) by (rewrite Q; now left).
      pose proof (v_post _ _ _ V _ _ I) as (P & Hi & Fi & _).
      apply begin_good; auto.
      + apply Inv_take; auto.
        * intros j. rewrite Q. cbn. tauto.
        * constructor; [intros []|constructor].
        * intros j [<-|[]]. exact N1.
      + eapply Log_ext; [..|exact L]; auto.
      + intros _ j J. change (at_home (with_posted t q s) i) with (at_home s i) in J. rewrite Hi in J.
        cbn [with_posted s_posted] in J. rewrite put_same in J. rewrite Forall_forall in S2. now apply S2.
      + intros j r. change (at_home (with_posted t q s) i) with (at_home s i). rewrite Hi. cbn. unfold ready in R.
        intros W. now rewrite W in R.
    - (* Answer *)
      unfold waiting. destruct (ph s i) eqn:P; try (intros H; injection H as <-; auto; fail).
      destruct (_ && _); [|intros H; injection H as <-; auto].
      destruct (k_net (call_at s i)) eqn:N; intros H; injection H as <-; auto. repeat apply conj.
      + eapply Inv_ext; [..|exact V]; try reflexivity. intros j.
        change (call_at (tell _ ?x)) with (call_at x). rewrite call_at_set by (apply pending_bound; congruence).
        destruct (Nat.eqb_spec j i) as [->|]; auto.
      + apply Log_answered; auto.
      + apply Errs_tell; [|reflexivity]. eapply Errs_ext; [..|exact E]; auto.
    - (* Expire *)
      unfold waiting. destruct (ph s i) eqn:P; try (intros H; injection H as <-; auto; fail).
      destruct (_ && _); [|intros H; injection H as <-; auto].
      assert (B : i < length (s_calls s)) by (apply pending_bound; congruence).
      destruct (k_net (call_at s i)) eqn:N.
      + assert (G : forall k, k_phase k = Inside -> k_client k = client s i -> k_from k = from s i -> k_net k = k_net (call_at s i) ->
          Inv [] (with_call i k s) /\ Log (with_call i k s) /\ Errs (with_call i k s)).
        { intros k K1 K2 K3 K4. repeat apply conj.
          - eapply Inv_ext; [..|exact V]; try reflexivity. intros j. rewrite call_at_set by auto.
            destruct (Nat.eqb_spec j i) as [->|]; auto. repeat split; congruence.
          - eapply Log_ext; [..|exact L]; auto; [apply set_nth_length|]. intros j. rewrite call_at_set by auto.
            destruct (Nat.eqb_spec j i) as [->|]; auto. repeat split; congruence.
          - eapply Errs_ext; [..|exact E]; auto. }
        destruct (held _ _ _); intros H; injection H as <-; apply G; auto.
      + intros H. injection H as <-. repeat apply conj.
        * eapply Inv_ext; [..|exact V]; try reflexivity. intros j.
          change (call_at (tell _ ?x)) with (call_at x). rewrite call_at_set by auto. destruct (Nat.eqb_spec j i) as [->|]; auto.
        * apply Log_answered; auto.
        * apply Errs_tell; [|reflexivity]. eapply Errs_ext; [..|exact E]; auto.
    - (* Exit *)
      destruct (s_stacks s t) as [|[i|i] rest] eqn:S; try (intros H; injection H as <-; auto; fail).
      destruct (k_net (call_at s i)) as [a|] eqn:N; [|intros H; injection H as <-; auto].
      destruct (k_alive (call_at s i)); [|discriminate].
      assert (I : In (Loop i) (s_stacks s t)) by (rewrite S; now left).
      pose proof (v_loop _ _ _ V _ _ I) as (P & Hi & _).
      assert (F : forall l1 x y z, fine home chs (s_gone s) l1 (Sent x y z) -> ~ was_sent l1 x) by (intros * H; apply H).
      apply conclude_good; auto.
      + now apply Inv_pop.
      + now apply (Log_pop _ _ _ _ (Loop i)).
      + intros * Pj Hj B. change (call_at (with_stack t rest s)) with (call_at s) in *. cbn [with_stack s_log] in B.
        destruct (Nat.eq_dec j i) as [->|D].
        * destruct B as (l1 & l2 & l3 & B).
          assert (A : fine home chs (s_gone s) (l1 ++ Sent i ci chi :: l2) (Sent i cj chj)).
          { apply (l_fine _ _ _ L) with (l2 := l3). rewrite B. now rewrite <- app_assoc. }
          apply F in A. apply A. exists ci, chi. apply in_or_app. right. now left.
        * destruct (v_inside _ _ _ V j Pj) as [[]|J]. rewrite Hj, Hi, S in J. destruct J as [J|J]; [congruence|].
          apply in_split in J. destruct J as (x & y & J). destruct (before_in _ _ _ B) as [B1 B2].
          apply (before_asym _ _ _ _ (l_fine _ _ _ L)) in B; auto.
          -- intros l1 A IN. apply F in A. apply A. now exists cj, chj.
          -- intros l1 A IN. apply F in A. apply A. now exists ci, chi.
          -- apply (l_order _ _ _ L t [] i x j y); auto. rewrite S, J. reflexivity.
    - (* Attach *)
      destruct (runs _ _ && _); intros H; injection H as <-; auto.
      destruct (leave_same c (kept || match s_channels s c with Some old => old =? ch | None => true end) s) as (A1 & A2 & A3 & A4 & A5 & A6 & A7).
      set (s1 := leave_channel _ _ _ _) in *. repeat apply conj.
      + eapply Inv_ext; [..|exact V]; cbn; intros; try (now rewrite A1); try (now rewrite A2).
        change (call_at (with_channel c (Some ch) s1)) with (call_at s1). specialize (A7 i). tauto.
      + eapply Log_ext; [..|exact L]; cbn; auto; intros; try (now rewrite A1); try congruence.
        revert H. unfold put. destruct (Nat.eqb _ _); [discriminate|]. rewrite A6. auto.
      + eapply Errs_ext; [..|exact E]; cbn; auto. now rewrite A5.
    - (* Destroy *)
      destruct (runs _ _ && _); [|intros H; injection H as <-; auto].
      destruct (leave_same c kept s) as (A1 & A2 & A3 & A4 & A5 & A6 & A7).
      set (s1 := leave_channel _ _ _ _) in *. intros H. injection H as <-.
      set (mine := filter (fun i => Nat.eqb (client s i) c) (s_posted s (home c))).
      set (others := filter (fun i => negb (Nat.eqb (client s i) c)) (s_posted s (home c))).
      set (s2 := with_channel c None (with_gone c s1)).
      assert (V2 : Inv [] s2).
      { eapply Inv_ext; [..|exact V]; cbn; intros; try (now rewrite A1); try (now rewrite A2).
        change (call_at s2) with (call_at s1). specialize (A7 i). tauto. }
      assert (L2 : Log s2).
      { eapply Log_ext; [..|exact L]; cbn; auto; intros; try (now rewrite A1).
        - unfold put. destruct (Nat.eqb _ _); [reflexivity|]. now rewrite A5.
        - revert H. unfold put. destruct (Nat.eqb _ _); auto. rewrite A6. auto. }
      assert (E2 : Errs s2).
      { eapply Errs_ext; [..|exact E]; cbn; auto. intros d D. unfold put. destruct (Nat.eqb _ _); [reflexivity|]. now rewrite A5. }
      assert (S := v_sorted _ _ _ V (home c)).
      apply cancel_good.
      + apply Inv_take; auto.
        * intros i. cbn. rewrite A2. unfold mine, others. rewrite !filter_In. destruct (Nat.eqb _ _); cbn; intuition discriminate.
        * apply sorted_nodup, sorted_filter, S.
        * intros i I1 I2. unfold mine, others in *. apply filter_In in I1, I2. destruct I1 as [_ I1], I2 as [_ I2]. now rewrite I1 in I2.
        * apply sorted_filter, S.
      + eapply Log_ext; [..|exact L2]; auto.
      + eapply Errs_ext; [..|exact E2]; auto.
      + intros i I. apply filter_In in I. destruct I as [I1 I2]. apply Nat.eqb_eq in I2.
        change (call_at (with_posted (home c) others s2) i) with (call_at s1 i). destruct (A7 i) as (-> & -> & _).
        split; [apply (v_post _ _ _ V) in I1; tauto|]. cbn. rewrite I2. apply put_same.
    - destruct (0 <=? d)%Z; intros H; injection H as <-; auto. repeat apply conj.
      + eapply Inv_ext; [..|exact V]; auto.
      + eapply Log_ext; [..|exact L]; auto.
      + eapply Errs_ext; [..|exact E]; auto.
  Qed.

  Lemma start_good : Inv [] (start chs) /\ Log (start chs) /\ Errs (start chs).
  Proof.
    assert (O : forall i, call_at (start chs) i = no_call) by (intros [|i]; reflexivity).
    repeat apply conj.
    - split; intros *; rewrite ?O; change (s_stacks (start chs)) with (fun _ : nat => @nil frame);
        change (s_posted (start chs)) with (fun _ : nat => @nil nat); cbn [In no_call k_phase]; try tauto; try discriminate; try constructor.
    - split; intros *; rewrite ?O; change (s_log (start chs)) with (@nil report); change (s_stacks (start chs)) with (fun _ : nat => @nil frame);
        cbn; try discriminate; try tauto.
      + split; [tauto|lia].
      + intros (l1 & l2 & l3 & H). now destruct l1.
      + split; [intros (x & y & z & [])|lia].
      + intros (a & []).
      + apply always_nil.
    - intros c _. reflexivity.
  Qed.

  Theorem run_good l : forall s s', Inv [] s -> Log s -> Errs s -> run home loops http2 s l = Ok s' -> Inv [] s' /\ Log s' /\ Errs s'.
  Proof.
    induction l as [|e l IH]; cbn; intros s s' V L E; [intros H; injection H as <-; auto|].
    destruct (step home loops http2 s e) as [s1| | |] eqn:S; cbn; try discriminate.
    destruct (step_good s e s1 V L E S) as (V1 & L1 & E1). now apply IH.
  Qed.
  Corollary reach_good l s : run home loops http2 (start chs) l = Ok s -> Inv [] s /\ Log s /\ Errs s.
  Proof. destruct start_good as (V & L & E). now apply run_good. Qed.
End Threads.

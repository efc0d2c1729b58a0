(** Blocking calls: progress, and calls that never return. *)

From Coq Require Import ZArith List Bool Arith Lia Sorted.
From Verif Require Import Base FrameModel BlockModel BlockSpec BlockProofs BlockRun BlockSafe BlockEnds.
Import ListNotations.
Local Close Scope Z_scope.

(** *** A measure *)

Definition weight (k : call) : nat :=
  match k_phase k with
  | Posted => 4
  | Inside => (match k_net k with None => 2 | Some _ => 1 end) + (if k_timer k then 1 else 0)
  | Over => 0
  end.
Definition total (l : list call) : nat := list_sum (map weight l).

Arguments total : simpl never.

Lemma total_set i x l : i < length l -> total (set_nth i x l) + weight (nth i l no_call) = total l + weight x.
Proof.
  assert (C : forall y m, total (y :: m) = weight y + total m) by reflexivity.
  revert i. induction l as [|y l IH]; intros [|i] H; cbn [length set_nth nth] in *; rewrite ?C; try lia.
  specialize (IH i ltac:(lia)). lia.
Qed.
Lemma total_app l m : total (l ++ m) = total l + total m.
Proof. unfold total. now rewrite map_app, list_sum_app. Qed.

Section Threads.
  Context (home : nat -> nat) (loops : nat -> bool) (http2 : nat -> bool).

  Notation client s i := (k_client (call_at s i)).
  Notation from s i := (k_from (call_at s i)).
  Notation ph s i := (k_phase (call_at s i)).
  Notation at_home s i := (home (k_client (call_at s i))).
  Notation Inv := (Inv home).
  Notation step := (step home loops http2).
  Notation run := (run home loops http2).
  Notation left_ s := (total (s_calls s)).

  Lemma total_with s i k : i < length (s_calls s) -> left_ (with_call i k s) + weight (call_at s i) = left_ s + weight k.
  Proof. intros N. cbn. now apply total_set. Qed.

  Lemma give_back_total s i code data : ph s i <> Over -> left_ (give_back home i code data s) + weight (call_at s i) = left_ s.
  Proof.
    intros P. pose proof (pending_bound s i P) as N.
    transitivity (left_ (with_call i (in_phase Over (call_at s i)) s) + weight (call_at s i)).
    - unfold give_back, with_stack. destruct (Nat.eqb _ _); reflexivity.
    - rewrite total_with by auto. cbn. lia.
  Qed.
  Lemma finish_total s i code data s' : ph s i <> Over -> finish home i code data s = Ok s' -> left_ s' + weight (call_at s i) = left_ s.
  Proof.
    intros P H. destruct (finish_shape _ _ _ _ _ _ H) as (m & -> & _). now apply (give_back_total (tell m s)).
  Qed.
  Lemma conclude_total s i a s' : ph s i <> Over -> conclude home i a s = Ok s' -> left_ s' + weight (call_at s i) = left_ s.
  Proof.
    intros P. unfold conclude. destruct a as [[err st] body]. destruct (processReply err st body) as [[code data]| | |]; cbn; try discriminate.
    now apply finish_total.
  Qed.
  Lemma begin_total s i at_once s' : ph s i = Posted -> begin home at_once i s = Ok s' -> left_ s' < left_ s.
  Proof.
    intros P. assert (P' : ph s i <> Over) by congruence. pose proof (pending_bound s i P') as N.
    assert (W : weight (call_at s i) = 4) by (unfold weight; now rewrite P).
    unfold begin. destruct (s_channels s (client s i)) as [ch|].
    - destruct at_once as [a|]; intros H.
      + apply conclude_total in H.
        * change (call_at (tell _ ?x)) with (call_at x) in H. rewrite call_at_set, Nat.eqb_refl in H by auto. cbn in H.
          pose proof (total_set i (answered a (sent ch (s_now s) (call_at s i))) _ N) as T. fold (call_at s i) in T. rewrite W in T. cbn in T. lia.
        * change (call_at (tell _ ?x)) with (call_at x). rewrite call_at_set, Nat.eqb_refl by auto. discriminate.
      + injection H as <-. cbn.
        pose proof (total_set i (sent ch (s_now s) (call_at s i)) _ N) as T. fold (call_at s i) in T. rewrite W in T. cbn in T. lia.
    - intros H. apply finish_total in H; auto. lia.
  Qed.

  Lemma service_total s e s' : Inv [] s -> service e -> step s e = Ok s' -> s' = s \/ left_ s' < left_ s.
  Proof.
    intros V SE. destruct e as [t c at_once|t at_once|i a|i|t|c ch kept|c kept|d]; try destruct SE; cbn [BlockModel.step].
    - destruct (ready loops s t); [|intros H; injection H as <-; auto].
      destruct (s_posted s t) as [|i q] eqn:P; [intros H; injection H as <-; auto|].
      assert (I : In i (s_posted s t)) by (rewrite P; now left). apply (v_post _ _ _ V) in I.
      intros H. right. apply begin_total in H; auto. apply I.
    - unfold waiting. destruct (ph s i) eqn:P; try (intros H; injection H as <-; auto; fail).
      destruct (_ && _); [|intros H; injection H as <-; auto].
      destruct (k_net (call_at s i)) eqn:N; intros H; injection H as <-; auto. right. cbn.
      pose proof (total_set i (answered a (call_at s i)) (s_calls s) ltac:(apply pending_bound; congruence)) as T.
      fold (call_at s i) in T. unfold weight in T. cbn in T. rewrite P, N in T. lia.
    - unfold waiting. destruct (ph s i) eqn:P; try (intros H; injection H as <-; auto; fail).
      destruct (k_timer (call_at s i)) eqn:K; [|rewrite andb_false_r; intros H; injection H as <-; auto].
      destruct (_ && _); [|intros H; injection H as <-; auto].
      assert (B : i < length (s_calls s)) by (apply pending_bound; congruence).
      assert (T := fun k => total_set i k (s_calls s) B). fold (call_at s i) in T.
      destruct (k_net (call_at s i)) eqn:N; [destruct (held _ _ _)|]; intros H; injection H as <-; right; cbn.
      + specialize (T (fired (destroyed (call_at s i)))). unfold weight in T. cbn in T. rewrite P, N, K in T. lia.
      + specialize (T (fired (call_at s i))). unfold weight in T. cbn in T. rewrite P, N, K in T. lia.
      + specialize (T (fired (answered canceled (call_at s i)))). unfold weight in T. cbn in T. rewrite P, N, K in T. lia.
    - destruct (s_stacks s t) as [|[i|i] rest] eqn:S; try (intros H; injection H as <-; auto; fail).
      destruct (k_net (call_at s i)) as [a|] eqn:N; [|intros H; injection H as <-; auto].
      destruct (k_alive (call_at s i)); [|discriminate]. intros H. right.
      assert (I : In (Loop i) (s_stacks s t)) by (rewrite S; now left). apply (v_loop _ _ _ V) in I. destruct I as (P & _).
      apply conclude_total in H; [|change (ph s i <> Over); congruence].
      change (left_ (with_stack t rest s)) with (left_ s) in H. change (call_at (with_stack t rest s) i) with (call_at s i) in H.
      unfold weight in H. rewrite P, N in H. lia.
  Qed.

  (** Each call that has not returned weighs at most 4. *)
  Lemma total_pending l : total l <= 4 * length (filter (fun k => match k_phase k with Over => false | _ => true end) l).
  Proof.
    induction l as [|k l IH]; [apply Nat.le_refl|]. change (total (k :: l)) with (weight k + total l). cbn [filter].
    unfold weight. destruct (k_phase k); cbn [length]; try lia. destruct (k_net k), (k_timer k); lia.
  Qed.
  Lemma total_zero s i : left_ s = 0 -> ph s i = Over.
  Proof.
    intros H. destruct (Nat.lt_ge_cases i (length (s_calls s))) as [N|N]; [|unfold call_at; now rewrite nth_overflow].
    pose proof (total_set i no_call (s_calls s) N) as T. fold (call_at s i) in T. cbn in T.
    assert (W : weight (call_at s i) = 0) by lia. unfold weight in W. destruct (ph s i); auto; try discriminate.
    destruct (k_net (call_at s i)), (k_timer (call_at s i)); discriminate.
  Qed.

  (** *** Clients and callers of calls do not change *)

  Definition keeps (s s' : state) : Prop :=
    length (s_calls s') = length (s_calls s) /\ forall i, client s' i = client s i /\ from s' i = from s i.
  Lemma keeps_refl s : keeps s s.
  Proof. split; auto. Qed.
  Lemma keeps_trans a b c : keeps a b -> keeps b c -> keeps a c.
  Proof.
    intros [E1 H1] [E2 H2]. split; [congruence|]. intros i. destruct (H1 i), (H2 i). split; congruence.
  Qed.
  Lemma keeps_set s i k : k_client k = client s i -> k_from k = from s i -> keeps s (with_call i k s).
  Proof.
    intros K1 K2. split; [apply set_nth_length|]. intros j. destruct (Nat.lt_ge_cases i (length (s_calls s))) as [N|N].
    - rewrite call_at_set by auto. destruct (Nat.eqb_spec j i) as [->|]; auto.
    - unfold call_at, with_call, with_calls. cbn. replace (set_nth i k (s_calls s)) with (s_calls s); auto.
      clear - N. revert i N. induction (s_calls s) as [|x l IH]; intros [|i] N; cbn in *; auto; try lia. f_equal. apply IH. lia.
  Qed.
  Lemma keeps_give_back s i code data : keeps s (give_back home i code data s).
  Proof.
    assert (K : keeps s (with_call i (in_phase Over (call_at s i)) s)) by now apply keeps_set.
    unfold give_back, with_stack. destruct (Nat.eqb _ _); exact K.
  Qed.
  Lemma keeps_finish s i code data s' : finish home i code data s = Ok s' -> keeps s s'.
  Proof. intros H. destruct (finish_shape _ _ _ _ _ _ H) as (m & -> & _). apply (keeps_give_back (tell m s)). Qed.
  Lemma keeps_conclude s i a s' : conclude home i a s = Ok s' -> keeps s s'.
  Proof.
    unfold conclude. destruct a as [[err st] body]. destruct (processReply err st body) as [[code data]| | |]; cbn; try discriminate.
    apply keeps_finish.
  Qed.
  Lemma keeps_begin s i at_once s' : begin home at_once i s = Ok s' -> keeps s s'.
  Proof.
    unfold begin. destruct (s_channels s (client s i)) as [ch|]; [destruct at_once as [a|]|]; intros H.
    - apply keeps_conclude in H. eapply keeps_trans; [|exact H]. now apply (keeps_set s i (answered a (sent ch (s_now s) (call_at s i)))).
    - injection H as <-. now apply (keeps_set s i (sent ch (s_now s) (call_at s i))).
    - now apply keeps_finish in H.
  Qed.
  Lemma keeps_cancel l : forall s, keeps s (cancel home l s).
  Proof.
    induction l as [|i l IH]; intros s; cbn [cancel]; [apply keeps_refl|]. eapply keeps_trans; [|apply IH]. apply keeps_give_back.
  Qed.
  Lemma keeps_leave c kept s : keeps s (leave_channel http2 c kept s).
  Proof.
    destruct (leave_same http2 c kept s) as (_ & _ & _ & A4 & _ & _ & A7). split; auto. intros i. specialize (A7 i). tauto.
  Qed.

  Lemma step_keeps s e s' : step s e = Ok s' ->
    keeps s s' \/ exists t c a, e = Call t c a /\ keeps (calling t c s) s' /\ runs s t = true.
  Proof.
    destruct e as [t c at_once|t at_once|i a|i|t|c ch kept|c kept|d]; cbn [BlockModel.step]; intros H.
    - destruct (runs s t) eqn:R; [|injection H as <-; left; apply keeps_refl]. destruct (negb _); [|injection H as <-; left; apply keeps_refl].
      right. exists t, c, at_once. split; auto. split; auto. cbn [andb] in H. destruct (Nat.eqb _ _).
      + now apply keeps_begin in H.
      + injection H as <-. exact (keeps_refl (calling t c s)).
    - left. destruct (ready loops s t); [|injection H as <-; apply keeps_refl].
      destruct (s_posted s t) as [|i q]; [injection H as <-; apply keeps_refl|].
      apply keeps_begin in H. exact H.
    - left. destruct (waiting _ _ _ _); [|injection H as <-; apply keeps_refl].
      destruct (k_net (call_at s i)); injection H as <-; [apply keeps_refl|]. now apply (keeps_set s i (answered a (call_at s i))).
    - left. destruct (_ && _); [|injection H as <-; apply keeps_refl].
      destruct (k_net (call_at s i)); [destruct (held _ _ _)|]; injection H as <-.
      + now apply keeps_set.
      + now apply keeps_set.
      + now apply (keeps_set s i (fired (answered canceled (call_at s i)))).
    - left. destruct (s_stacks s t) as [|[i|i] rest] eqn:S; try (injection H as <-; apply keeps_refl).
      destruct (k_net (call_at s i)) as [a|]; [|injection H as <-; apply keeps_refl].
      destruct (k_alive (call_at s i)); [|discriminate]. now apply keeps_conclude in H.
    - left. destruct (runs _ _ && _); injection H as <-; [|apply keeps_refl]. apply keeps_leave.
    - left. destruct (runs _ _ && _); [|injection H as <-; apply keeps_refl]. injection H as <-.
      eapply keeps_trans; [|apply keeps_cancel]. apply keeps_leave.
    - left. destruct (0 <=? d)%Z; injection H as <-; exact (keeps_refl s).
  Qed.

  (** *** Ranks *)

  Definition Ranked (rank : nat -> nat) (s : state) : Prop :=
    forall i, i < length (s_calls s) -> from s i <> at_home s i -> rank (at_home s i) < rank (from s i).
  Lemma step_ranked rank s e s' : Ranked rank s -> ranked_event home rank e -> step s e = Ok s' -> Ranked rank s'.
  Proof.
    intros R E H. destruct (step_keeps _ _ _ H) as [[K1 K2]|(t & c & a & -> & [K1 K2] & _)]; intros i N; destruct (K2 i) as [-> ->].
    - apply R. congruence.
    - rewrite call_at_calling. destruct (Nat.eqb_spec i (length (s_calls s))) as [->|D].
      + cbn. intros D. apply E. auto.
      + apply R. rewrite K1 in N. cbn in N. rewrite app_length in N. cbn in N. lia.
  Qed.

  (** *** Progress *)

  Definition fine_answer : answer := (0%Z, [], []).
  Lemma fine_answer_known : known fine_answer.
  Proof. eexists. reflexivity. Qed.

  Definition serving (e : event) : Prop :=
    match e with Dispatch _ None | Exit _ => True | Answer _ a => a = fine_answer | _ => False end.

  Lemma progress rank s : (forall c, loops (home c) = true) -> Inv [] s -> Live known s -> Ranked rank s ->
    forall r t, rank t <= r -> s_stacks s t <> [] \/ s_posted s t <> [] ->
    exists e s', serving e /\ step s e = Ok s' /\ left_ s' < left_ s.
  Proof.
    intros LP V L R. assert (LV := L). destruct L as [L G].
    induction r as [r IH] using lt_wf_ind. intros t LE H. destruct (s_stacks s t) as [|[i|i] rest] eqn:S.
    - (* at the top level *)
      destruct H as [H|H]; [congruence|]. destruct (s_posted s t) as [|i q] eqn:P; [congruence|].
      assert (I : In i (s_posted s t)) by (rewrite P; now left). apply (v_post _ _ _ V) in I. destruct I as (I1 & I2 & _).
      assert (B : i < length (s_calls s)) by (apply pending_bound; congruence).
      destruct (begin_safe home known (with_posted t q s) i None B) as (_ & _ & B3);
        [eapply Live_ext; [..|exact LV]; auto|discriminate|]. destruct (B3 (fun a K => K)) as [s' B4].
      exists (Dispatch t None), s'. split; [exact I|].
      assert (D : ready loops s t = true) by (unfold ready; rewrite S, <- I2; apply LP).
      cbn [BlockModel.step]. rewrite D, P. split; auto. apply begin_total in B4; auto.
    - (* in an event loop *)
      assert (I : In (Loop i) (s_stacks s t)) by (rewrite S; now left). apply (v_loop _ _ _ V) in I. destruct I as (P & Hi & _).
      assert (B : i < length (s_calls s)) by (apply pending_bound; congruence).
      destruct (L i P) as (L1 & _ & L2). destruct (k_net (call_at s i)) as [a|] eqn:N.
      + destruct (conclude_safe home known (with_stack t rest s) i a B) as (_ & _ & B3); auto.
        destruct (B3 (fun a K => K)) as [s' B4].
        assert (E : step s (Exit t) = Ok s') by (cbn [BlockModel.step]; rewrite S, N, L1; exact B4).
        exists (Exit t), s'. repeat split; auto. destruct (service_total s (Exit t) s' V I E) as [->|T]; auto.
        exfalso. apply conclude_total in B4; [|change (ph s i <> Over); congruence].
        change (call_at (with_stack t rest s) i) with (call_at s i) in B4. unfold weight in B4. rewrite P, N in B4. cbn in B4. lia.
      + assert (E : step s (Answer i fine_answer) = Ok (tell [Answered i fine_answer] (with_call i (answered fine_answer (call_at s i)) s))).
        { cbn [BlockModel.step]. unfold waiting, ready. rewrite P, L1, Hi, S, N. reflexivity. }
        exists (Answer i fine_answer). eexists. split; [reflexivity|]. split; [exact E|].
        destruct (service_total s (Answer i fine_answer) _ V I E) as [T|T]; auto. exfalso.
        apply (f_equal s_log) in T. cbn in T. apply (f_equal (@length report)) in T. rewrite app_length in T. cbn in T. lia.
    - (* behind another thread *)
      assert (I : In (Blocked i) (s_stacks s t)) by (rewrite S; now left). apply (v_block _ _ _ V) in I. destruct I as (I1 & I2 & I3).
      assert (B : i < length (s_calls s)) by now apply pending_bound.
      pose proof (R i B I2) as RK. rewrite I1 in RK.
      apply (IH (rank (at_home s i)) ltac:(lia) (at_home s i)); auto. destruct (ph s i) eqn:P; [| |congruence].
      + right. destruct (v_posted _ _ _ V i P) as [[]|J]. intros E. now rewrite E in J.
      + left. destruct (v_inside _ _ _ V i P) as [[]|J]. intros E. now rewrite E in J.
  Qed.

  Lemma serving_service e : serving e -> service e /\ known_event e /\ forall s, careful_event home s e.
  Proof.
    destruct e as [t c a|t [a|]|i a|i|t|c ch kept|c kept|d]; cbn; intros H; try (now destruct H); repeat apply conj; auto.
    subst a. exact fine_answer_known.
  Qed.

  Lemma all_return rank chs n : forall s, left_ s <= n -> (forall c, loops (home c) = true) -> Inv [] s -> Log home chs s -> Errs s ->
    Live known s -> Ranked rank s ->
    exists l s', Forall serving l /\ length l <= n /\ run s l = Ok s' /\ forall i, ph s' i = Over.
  Proof.
    induction n as [|n IH]; intros s LE LP V L E LV R.
    - exists [], s. cbn. repeat split; auto. intros i. apply total_zero. lia.
    - destruct (Nat.eq_dec (left_ s) 0) as [Z|Z].
      + exists [], s. cbn. repeat split; auto; [lia|]. intros i. now apply total_zero.
      + assert (P : exists i, ph s i <> Over).
        { clear - Z. unfold call_at. induction (s_calls s) as [|k l IH]; [now destruct Z|]. unfold total in *. cbn in Z.
          destruct (k_phase k) eqn:P; [exists 0; cbn; congruence|exists 0; cbn; congruence|].
          destruct IH as [i I]; [unfold weight in Z; rewrite P in Z; exact Z|]. now exists (S i). }
        destruct P as [i P].
        assert (X : exists e s', serving e /\ step s e = Ok s' /\ left_ s' < left_ s).
        { apply (progress rank s LP V LV R (rank (at_home s i)) (at_home s i)); auto. destruct (ph s i) eqn:Q; [| |congruence].
          - right. destruct (v_posted _ _ _ V i Q) as [[]|J]. intros X. now rewrite X in J.
          - left. destruct (v_inside _ _ _ V i Q) as [[]|J]. intros X. now rewrite X in J. }
        destruct X as (e & s1 & X1 & X2 & X3). destruct (serving_service e X1) as (Y1 & Y2 & Y3).
        destruct (step_good home loops http2 chs s e s1 V L E X2) as (V1 & L1 & E1).
        assert (LV1 : Live known s1).
        { destruct (step_safe home loops http2 known canceled_known s e V LV (Y3 s)) as (_ & S & _); auto. }
        assert (R1 : Ranked rank s1) by (apply (step_ranked rank s e s1 R); auto; destruct e; cbn in *; tauto).
        destruct (IH s1 ltac:(lia) LP V1 L1 E1 LV1 R1) as (l & s' & Z1 & Z2 & Z3 & Z4).
        exists (e :: l), s'. repeat split; auto; [cbn; lia|]. cbn [BlockModel.run]. now rewrite X2.
  Qed.
End Threads.

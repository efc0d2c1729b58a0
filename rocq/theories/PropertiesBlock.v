(** C77, C78: blocking calls, their event loops and calls from other threads. *)

From Coq Require Import ZArith List Bool Arith Lia.
From Verif Require Import Base FrameModel BlockModel BlockSpec BlockProofs BlockRun BlockSafe BlockEnds BlockTerm BlockNever BlockMore.
Import ListNotations.
Local Close Scope Z_scope.

Section Histories.
  (** For every assignment of clients to threads, every set of threads with an event loop, channels of both kinds and
      channels that clients have at first. *)
  Context (home : nat -> nat) (loops : nat -> bool) (http2 : nat -> bool) (chs : nat -> option nat).

  Lemma finish_gone s i code data s' : finish home i code data s = Ok s' -> s_gone s' = s_gone s.
  Proof. intros H. destruct (finish_shape _ _ _ _ _ _ H) as (m & -> & _). apply (give_back_rest home (tell m s)). Qed.
  Lemma conclude_gone s i a s' : conclude home i a s = Ok s' -> s_gone s' = s_gone s.
  Proof.
    unfold conclude. destruct a as [[err st] body]. destruct (processReply err st body) as [[code data]| | |]; cbn; try discriminate.
    apply finish_gone.
  Qed.
  Lemma begin_gone s i at_once s' : begin home at_once i s = Ok s' -> s_gone s' = s_gone s.
  Proof.
    unfold begin. destruct (s_channels s (k_client (call_at s i))) as [ch|]; [destruct at_once as [a|]|]; intros H.
    - now apply conclude_gone in H.
    - now injection H as <-.
    - now apply finish_gone in H.
  Qed.
  Lemma cancel_gone l : forall s, s_gone (cancel home l s) = s_gone s.
  Proof.
    induction l as [|i l IH]; intros s; cbn [cancel]; auto. rewrite IH. apply (give_back_rest home s i).
  Qed.
  Lemma step_gone s e s' c : step home loops http2 s e = Ok s' -> s_gone s' c = true -> s_gone s c = true \/ exists kept, e = Destroy c kept.
  Proof.
    destruct e as [t d at_once|t at_once|i a|i|t|d ch kept|d kept|d]; cbn [step]; intros H.
    - destruct (_ && _); [|injection H as <-; auto]. destruct (Nat.eqb _ _); [|injection H as <-; auto]. apply begin_gone in H. rewrite H. auto.
    - destruct (ready _ _ _); [|injection H as <-; auto]. destruct (s_posted s t); [injection H as <-; auto|]. apply begin_gone in H. rewrite H. auto.
    - destruct (waiting _ _ _ _); [|injection H as <-; auto]. destruct (k_net _); injection H as <-; auto.
    - destruct (_ && _); [|injection H as <-; auto]. destruct (k_net _); [destruct (held _ _ _)|]; injection H as <-; auto.
    - destruct (s_stacks s t) as [|[i|i] r]; try (injection H as <-; auto; fail). destruct (k_net _); [|injection H as <-; auto].
      destruct (k_alive _); [|discriminate]. apply conclude_gone in H. rewrite H. auto.
    - destruct (runs _ _ && _); injection H as <-; auto.
      destruct (leave_same http2 d (kept || match s_channels s d with Some old => old =? ch | None => true end) s) as (_ & _ & _ & _ & A5 & _).
      cbn. rewrite A5. auto.
    - destruct (runs _ _ && _); injection H as <-; auto. rewrite cancel_gone. cbn. unfold put.
      destruct (Nat.eqb_spec c d) as [->|]; [eauto|]. destruct (leave_same http2 d kept s) as (_ & _ & _ & _ & A5 & _). rewrite A5. auto.
    - destruct (0 <=? d)%Z; injection H as <-; auto.
  Qed.
  Lemma run_gone l : forall s s' c, run home loops http2 s l = Ok s' -> s_gone s' c = true -> s_gone s c = true \/ exists kept, In (Destroy c kept) l.
  Proof.
    induction l as [|e l IH]; cbn [run]; intros s s' c H G; [injection H as <-; auto|].
    destruct (step home loops http2 s e) as [s1| | |] eqn:Q; cbn in H; try discriminate.
    destruct (IH s1 s' c H G) as [X|[k X]]; [|right; exists k; now right].
    destruct (step_gone s e s1 c Q X) as [Y|[k ->]]; auto. right. exists k. now left.
  Qed.
  Lemma give_back_from s i code data k : k_from (call_at (give_back home i code data s) k) = k_from (call_at s k).
  Proof.
    destruct (Nat.eq_dec k i) as [->|D].
    - assert (E : call_at (give_back home i code data s) i = call_at (with_call i (in_phase Over (call_at s i)) s) i)
        by (unfold give_back, with_stack; destruct (Nat.eqb _ _); reflexivity).
      rewrite E. destruct (Nat.lt_ge_cases i (length (s_calls s))) as [B|B].
      + rewrite call_at_set by auto. now rewrite Nat.eqb_refl.
      + unfold call_at. rewrite !nth_overflow; auto. cbn. now rewrite set_nth_length.
    - now rewrite (give_back_other home).
  Qed.
  Lemma cancel_stack t l : forall s, (forall j, In j l -> k_from (call_at s j) <> t) -> s_stacks (cancel home l s) t = s_stacks s t.
  Proof.
    induction l as [|i l IH]; intros s H; cbn [cancel]; auto. rewrite IH.
    - rewrite (give_back_stack home). destruct (Nat.eqb_spec t (k_from (call_at s i))) as [->|]; auto. destruct (H i); auto. now left.
    - intros j I. rewrite give_back_from. apply H. now right.
  Qed.
  Lemma start_Live Q : Live Q (start chs).
  Proof. split; [|reflexivity]. intros [|i]; cbn; discriminate. Qed.
End Histories.

(** C77: a call returns at most once and only after it was made.  What it returns is what the channel makes of the answer to
    this very call; only a call of a client that has no channel from the beginning, or is destroyed, returns Unknown
    without having been sent. *)
Theorem C77_own_result home loops http2 chs evs s l1 i c code data l2 :
  run home loops http2 (start chs) evs = Ok s -> s_log s = l1 ++ Returned i c code data :: l2 ->
  ~ has_returned l1 i /\ (exists t, In (Called i t c) l1)
  /\ ((exists err st body, In (Answered i (err, st, body)) l1 /\ processReply err st body = Ok (code, data))
      \/ (code = 2%Z /\ data = [] /\ ~ was_sent l1 i /\ (chs c = None \/ exists kept, In (Destroy c kept) evs))).
Proof.
  intros H E. destruct (reach_good home loops http2 chs evs s H) as (V & L & _).
  destruct (l_fine _ _ _ L _ _ _ E) as (A & B & C & _). split; auto. split; auto.
  destruct C as [C|(C1 & C2 & C3 & C4)]; auto. right. repeat split; auto. destruct C4 as [C4|C4]; auto. right.
  destruct (run_gone home loops http2 evs _ _ c H C4) as [X|X]; auto. discriminate.
Qed.

(** Two threads with one client each, with channels over HTTP/2. *)
Definition self (c : nat) : nat := c.
Definition all (_ : nat) : bool := true.
Definition common (_ : nat) : option nat := Some 0.
Lemma outcome {A : Type} (r : res A) (P : A -> Prop) : match r with Ok x => P x | _ => False end -> exists x, r = Ok x /\ P x.
Proof. destruct r; try contradiction. eauto. Qed.
Definition reply (b : Z) : answer := (0%Z, [], [0; 0; 0; 0; 1; b]%Z).

Example C77_own_result_case : exists s,
  run self all all (start common)
    [Call 1 0 None; Call 0 0 None; Dispatch 0 None; Answer 1 (reply 7); Answer 0 (reply 8); Exit 0; Exit 0] = Ok s
  /\ exists l1 l2, s_log s = l1 ++ Returned 0 0 0%Z [8%Z] :: l2.
Proof. apply outcome. vm_compute. exists [Called 0 1 0; Called 1 0 0; Sent 1 0 0; Sent 0 0 0; Answered 1 (reply 7); Answered 0 (reply 8)], [Returned 1 0 0%Z [7%Z]]. reflexivity. Qed.
(** Without a channel, and with a client that is destroyed while the call is on its way. *)
Example C77_own_result_none : exists s,
  run self all all (start (fun c => if Nat.eqb c 0 then None else Some 0)) [Call 0 0 None; Call 0 1 None; Destroy 1 true] = Ok s
  /\ exists l1 l2, s_log s = l1 ++ Returned 0 0 2%Z [] :: l2 /\ In (Returned 1 1 2%Z []) l2 /\ In (ClientError 0 2%Z) l1.
Proof. apply outcome. vm_compute. exists [Called 0 0 0; ClientError 0 2%Z], [Called 1 0 1; Returned 1 1 2%Z []]. cbn. repeat split; auto. Qed.

(** C77: a client that exists tells each failure of its calls, and nothing else, once and in the order in which the calls
    return. *)
Theorem C77_client_errors home loops http2 chs evs s c :
  run home loops http2 (start chs) evs = Ok s -> (forall kept, ~ In (Destroy c kept) evs) ->
  errors c (s_log s) = failures c (s_log s).
Proof.
  intros H D. destruct (reach_good home loops http2 chs evs s H) as (_ & _ & E). apply E.
  destruct (s_gone s c) eqn:G; auto. destruct (run_gone home loops http2 evs _ _ c H G) as [X|[k X]]; [discriminate|]. now destruct (D k).
Qed.
Example C77_client_errors_case : exists s,
  run self all all (start common)
    [Call 0 0 None; Call 0 0 None; Answer 1 (99%Z, [], []); Exit 0; Call 0 0 (Some (0%Z, [55%Z], [])); Answer 0 (reply 1); Exit 0] = Ok s
  /\ errors 0 (s_log s) = [2; 7]%Z /\ failures 0 (s_log s) = [2; 7]%Z.
Proof. apply outcome. vm_compute. split; reflexivity. Qed.

(** C77: a call that is sent in a thread while another call waits there returns before the other. *)
Theorem C77_nested_first home loops http2 chs evs s l1 i c code data l2 :
  run home loops http2 (start chs) evs = Ok s -> s_log s = l1 ++ Returned i c code data :: l2 ->
  forall ch j c' ch', home c' = home c -> before (Sent i c ch) (Sent j c' ch') l1 -> has_returned l1 j.
Proof.
  intros H E * HH B. destruct (reach_good home loops http2 chs evs s H) as (_ & L & _).
  destruct (l_fine _ _ _ L _ _ _ E) as (_ & _ & _ & X). eauto.
Qed.
Example C77_nested_first_case : exists s,
  run self all all (start common)
    [Call 0 0 None; Call 1 0 None; Dispatch 0 None; Answer 0 (reply 1); Exit 0; Answer 1 (reply 2); Exit 0; Exit 0] = Ok s
  /\ exists l1 l2, s_log s = l1 ++ Returned 0 0 0%Z [1%Z] :: l2 /\ before (Sent 0 0 0) (Sent 1 0 0) l1 /\ In (Returned 1 0 0%Z [2%Z]) l1.
Proof.
  apply outcome. vm_compute.
  exists [Called 0 0 0; Sent 0 0 0; Called 1 1 0; Sent 1 0 0; Answered 0 (reply 1); Answered 1 (reply 2); Returned 1 0 0%Z [2%Z]], [].
  split; [reflexivity|]. split.
  - exists [Called 0 0 0], [Called 1 1 0], [Answered 0 (reply 1); Answered 1 (reply 2); Returned 1 0 0%Z [2%Z]]. reflexivity.
  - cbn. tauto.
Qed.

(** C77: calls that other threads make of clients of one thread are sent in the order in which they were made, each at
    most once. *)
Theorem C77_in_order home loops http2 chs evs s l1 i c ch l2 :
  run home loops http2 (start chs) evs = Ok s -> s_log s = l1 ++ Sent i c ch :: l2 ->
  ~ was_sent l1 i /\ ~ has_returned l1 i /\ (exists t, In (Called i t c) l1)
  /\ forall j t t' c', before (Called j t' c') (Called i t c) l1 -> t <> home c -> t' <> home c' -> home c' = home c ->
       was_sent l1 j \/ has_returned l1 j.
Proof.
  intros H E. destruct (reach_good home loops http2 chs evs s H) as (_ & L & _).
  destruct (l_fine _ _ _ L _ _ _ E) as (A & B & C & D). eauto 10.
Qed.
Example C77_in_order_case : exists s,
  run self all all (start common) [Call 1 0 None; Call 2 0 None; Dispatch 0 None; Dispatch 0 None] = Ok s
  /\ exists l1 l2, s_log s = l1 ++ Sent 1 0 0 :: l2 /\ before (Called 0 1 0) (Called 1 2 0) l1 /\ In (Sent 0 0 0) l1.
Proof.
  apply outcome. vm_compute. exists [Called 0 1 0; Called 1 2 0; Sent 0 0 0], []. split; [reflexivity|]. split.
  - exists [], [], [Sent 0 0 0]. reflexivity.
  - cbn. tauto.
Qed.

(** C77: each call is made once, and a thread that has called a client of another thread does not go on before that
    call has returned. *)
Theorem C77_caller_waits home loops http2 chs evs s l1 j t c' l2 :
  run home loops http2 (start chs) evs = Ok s -> s_log s = l1 ++ Called j t c' :: l2 ->
  ~ was_called l1 j /\ forall i c, In (Called i t c) l1 -> t <> home c -> has_returned l1 i.
Proof.
  intros H E. destruct (reach_good home loops http2 chs evs s H) as (_ & L & _). exact (l_fine _ _ _ L _ _ _ E).
Qed.
Example C77_caller_waits_case : exists s,
  run self all all (start common)
    [Call 1 0 None; Call 1 0 None; Dispatch 0 None; Call 1 0 None; Answer 0 (reply 3); Exit 0; Call 1 0 None] = Ok s
  /\ exists l1 l2, s_log s = l1 ++ Called 1 1 0 :: l2 /\ In (Called 0 1 0) l1 /\ In (Returned 0 0 0%Z [3%Z]) l1.
Proof.
  apply outcome. vm_compute. exists [Called 0 1 0; Sent 0 0 0; Answered 0 (reply 3); Returned 0 0 0%Z [3%Z]], [].
  split; [reflexivity|]. split; cbn; tauto.
Qed.

(** C77: nothing happens in a thread while a call that it has made of a client of another thread waits: no call begins there, none
    is sent, answered or returns, no client emits. *)
Theorem C77_caller_idle home loops http2 chs evs s l1 r l2 t i c :
  run home loops http2 (start chs) evs = Ok s -> s_log s = l1 ++ r :: l2 -> comes_from home l1 r t ->
  In (Called i t c) l1 -> t <> home c -> has_returned l1 i.
Proof.
  intros H E F I N. destruct (start_good home loops http2 chs) as (V0 & L0 & E0).
  assert (A : always (idle home) (s_log s)).
  { apply (run_idle home loops http2 chs evs (start chs)); auto. intros [|] * Q; discriminate. }
  exact (A l1 r l2 E t F i c I N).
Qed.
Example C77_caller_idle_case : exists s,
  run self all all (start common)
    [Call 1 1 None; Call 1 0 None; Answer 0 (reply 1); Dispatch 0 None; Answer 1 (reply 3); Exit 0; Answer 0 (reply 2)] = Ok s
  /\ exists l1 l2, s_log s = l1 ++ Answered 0 (reply 2) :: l2 /\ comes_from self l1 (Answered 0 (reply 2)) 1 /\ In (Called 1 1 0) l1.
Proof.
  apply outcome. vm_compute.
  exists [Called 0 1 1; Sent 0 1 0; Called 1 1 0; Sent 1 0 0; Answered 1 (reply 3); Returned 1 0 0%Z [3%Z]], [].
  split; [reflexivity|]. cbn. split; [exists 1, 1; auto|auto].
Qed.

(** C77: a call is sent through the channel that was attached to its client last. *)
Theorem C77_attached home loops http2 chs evs s c ch kept more s' :
  run home loops http2 (start chs) evs = Ok s ->
  (forall i c', In (Called i (home c) c') (s_log s) -> home c <> home c' -> has_returned (s_log s) i) ->
  (forall k, ~ In (Destroy c k) evs) -> (forall ch' k, ~ In (Attach c ch' k) more) ->
  run home loops http2 s (Attach c ch kept :: more) = Ok s' ->
  exists m, s_log s' = s_log s ++ m /\ forall i ch', In (Sent i c ch') m -> ch' = ch.
Proof.
  intros H W D NA R. destruct (reach_good home loops http2 chs evs s H) as (V & L & E).
  apply (runs_log home loops http2 chs s (home c) V L) in W.
  assert (G : s_gone s c = false).
  { destruct (s_gone s c) eqn:G; auto. destruct (run_gone home loops http2 evs _ _ c H G) as [X|[k X]]; [discriminate|]. now destruct (D k). }
  cbn [run] in R. destruct (step home loops http2 s (Attach c ch kept)) as [s1| | |] eqn:Q; cbn in R; try discriminate.
  destruct (step_good home loops http2 chs s _ s1 V L E Q) as (V1 & L1 & E1).
  assert (C : s_channels s1 c = Some ch /\ s_log s1 = s_log s).
  { cbn [step] in Q. rewrite W, G in Q. cbn [andb negb] in Q. injection Q as <-. split.
    - cbn. unfold put. now rewrite Nat.eqb_refl.
    - apply (leave_same http2 c (kept || match s_channels s c with Some old => old =? ch | None => true end) s). }
  destruct C as [C1 C2].
  destruct (run_sent_channel home loops http2 chs c (fun x => x = ch) more s1 s' V1 L1 E1) as (m & M1 & M2); auto.
  - intros x X. congruence.
  - intros x k I. now destruct (NA x k).
  - exists m. split; [now rewrite M1, C2|]. intros i ch' I. now apply (M2 i).
Qed.
Example C77_attached_case : exists s,
  run self all all (start common) [Call 1 0 None; Attach 0 4 true] = Ok s
  /\ (forall i c', In (Called i 0 c') (s_log s) -> 0 <> self c' -> has_returned (s_log s) i)
  /\ exists s', run self all all s [Attach 0 5 true; Dispatch 0 None] = Ok s' /\ In (Sent 0 0 5) (s_log s').
Proof. apply outcome. vm_compute. split; [intuition discriminate|]. eexists. split; [reflexivity|]. vm_compute. tauto. Qed.

(** C77: answers are for calls that have been sent, at most one for each and before it returns. *)
Theorem C77_one_answer home loops http2 chs evs s l1 i a l2 :
  run home loops http2 (start chs) evs = Ok s -> s_log s = l1 ++ Answered i a :: l2 ->
  was_sent l1 i /\ ~ was_answered l1 i /\ ~ has_returned l1 i.
Proof.
  intros H E. destruct (reach_good home loops http2 chs evs s H) as (_ & L & _). exact (l_fine _ _ _ L _ _ _ E).
Qed.
Example C77_one_answer_case : exists s,
  run self all all (start common) [Call 0 0 None; Tick 6000; Expire 0; Answer 0 (reply 1); Exit 0] = Ok s
  /\ exists l1 l2, s_log s = l1 ++ Answered 0 canceled :: l2.
Proof. apply outcome. vm_compute. exists [Called 0 0 0; Sent 0 0 0], [ClientError 0 14%Z; Returned 0 0 14%Z []]. reflexivity. Qed.

(** C77: no reply or client is used after its end, in histories in which no client and no channel that is in use is
    destroyed, and the timer of no call that has its answer fires while a call inside of it still waits.  Missing: the other
    histories, see C77_dangling_refuted. *)
Theorem C77_no_dangling_partial home loops http2 chs evs :
  throughout (step home loops http2) (careful_event home) (start chs) evs ->
  forall u, run home loops http2 (start chs) evs <> UB u.
Proof.
  intros T. destruct (start_good home loops http2 chs) as (V & L & E).
  apply (run_safe home loops http2 (fun _ => True) Logic.I evs (start chs) chs); auto using start_Live.
  apply Forall_forall. intros [? ? [?|]|? [?|]|? ?|?|?|? ? ?|? ?|?] _; exact Logic.I.
Qed.
(** A timer that fires late, in the same event loop, is harmless. *)
Example C77_no_dangling_case : throughout (step self all all) (careful_event self) (start common)
  [Call 0 0 None; Call 0 0 None; Answer 1 (reply 1); Tick 6000; Expire 1; Expire 0; Exit 0; Exit 0].
Proof.
  vm_compute. repeat split; auto. right. intros ([|f above] & below & j & E & I & N); [destruct I|].
  injection E as <- E. destruct above as [|g above]; [discriminate|]. injection E as <- E. now destruct above.
Qed.

(** C77: the same holds, without a condition on timers, if no thread makes a call for a client of its own or executes
    one for another thread while it waits for a reply.  Missing: calls from within the event loop of another call. *)
Theorem C77_flat_partial home loops http2 chs evs :
  throughout (step home loops http2) (flat_event home) (start chs) evs ->
  forall u, run home loops http2 (start chs) evs <> UB u.
Proof.
  intros T. apply C77_no_dangling_partial. destruct (start_good home loops http2 chs) as (V & L & E).
  apply (run_Flat home loops http2 evs (start chs) chs); auto. intros t [|f a] * H; discriminate.
Qed.
Example C77_flat_case : throughout (step self all all) (flat_event self) (start common)
  [Call 1 0 None; Dispatch 0 None; Answer 0 (reply 1); Tick 7000; Expire 0; Exit 0; Call 0 0 None; Attach 0 1 true].
Proof. vm_compute. repeat split; auto. Qed.

(** C77 fails: whenever a call has its answer and a call inside of it waits until the timer of the outer one fires, the outer one
    uses its reply after the end of the reply.  The inner call may have any answer. *)
Theorem C77_dangling_refuted home loops http2 chs evs s t i j below a b code data d :
  run home loops http2 (start chs) evs = Ok s ->
  s_stacks s t = Loop j :: Loop i :: below ->
  http2 (k_channel (call_at s i)) = true -> k_alive (call_at s i) = true -> k_timer (call_at s i) = true -> k_net (call_at s i) = Some a ->
  k_alive (call_at s j) = true -> k_net (call_at s j) = None ->
  s_gone s (k_client (call_at s j)) = false ->
  (0 <= d)%Z -> (k_start (call_at s i) + 6000 <= s_now s + d)%Z ->
  (let '(err, st, body) := b in processReply err st body = Ok (code, data)) ->
  run home loops http2 s [Tick d; Expire i; Answer j b; Exit t; Exit t] = UB DanglingRef.
Proof.
  intros R S H2 A1 T1 N1 A2 N2 G D0 D1 PB. destruct (reach_good home loops http2 chs evs s R) as (V & L & _).
  assert (Ii : In (Loop i) (s_stacks s t)) by (rewrite S; right; now left).
  assert (Ij : In (Loop j) (s_stacks s t)) by (rewrite S; now left).
  pose proof (v_loop _ _ _ V _ _ Ii) as (Pi & Hi & _). pose proof (v_loop _ _ _ V _ _ Ij) as (Pj & Hj & _).
  assert (D : j <> i). { intros ->. pose proof (v_nodup _ _ _ V t) as ND. rewrite S in ND. inversion ND as [|x y X _]. apply X. now left. }
  assert (Bi : i < length (s_calls s)) by (apply pending_bound; congruence).
  assert (Bj : j < length (s_calls s)) by (apply pending_bound; congruence).
  assert (Eji : Nat.eqb j i = false) by now apply Nat.eqb_neq.
  assert (Eij : Nat.eqb i j = false) by (apply Nat.eqb_neq; auto).
  cbn [run]. cbn [step]. apply Z.leb_le in D0. rewrite D0. cbn [bind].
  set (s1 := later d s).
  assert (W : waiting home loops s1 i = true).
  { unfold waiting, ready. change (call_at s1) with (call_at s). rewrite Pi, A1, Hi. change (s_stacks s1) with (s_stacks s). now rewrite S. }
  change (call_at s1) with (call_at s). rewrite W, T1, H2, N1, Hi. change (s_stacks s1) with (s_stacks s). rewrite S.
  assert (D2 : (k_start (call_at s i) + 6000 <=? s_now s1)%Z = true) by now apply Z.leb_le.
  rewrite D2. cbn [andb held]. rewrite Eji. change (nth j (s_calls s1) no_call) with (call_at s j). rewrite N2. cbn [bind].
  set (s2 := with_call i (fired (destroyed (call_at s i))) s1).
  assert (C2 : forall k, call_at s2 k = if Nat.eqb k i then fired (destroyed (call_at s i)) else call_at s k) by (intros k; now apply (call_at_set s1)).
  assert (W2 : waiting home loops s2 j = true).
  { unfold waiting, ready. rewrite C2, Eji. rewrite Pj, A2, Hj. change (s_stacks s2) with (s_stacks s). now rewrite S. }
  rewrite W2, (C2 j), Eji, N2. cbn [bind].
  set (s3 := tell [Answered j b] (with_call j (answered b (call_at s j)) s2)).
  assert (C3 : forall k, call_at s3 k = if Nat.eqb k j then answered b (call_at s j) else call_at s2 k).
  { intros k. apply (call_at_set s2). cbn. now rewrite set_nth_length. }
  change (s_stacks s3) with (s_stacks s). rewrite S, (C3 j), Nat.eqb_refl. cbn [answered k_net k_alive]. rewrite A2.
  unfold conclude. destruct b as [[err st] body]. rewrite PB. cbn [bind].
  set (s4 := with_stack t (Loop i :: below) s3). unfold finish. change (call_at s4) with (call_at s3). rewrite (C3 j), Nat.eqb_refl.
  cbn [answered k_client]. change (s_gone s4) with (s_gone s). rewrite G.
  assert (FIN : forall s5, s_stacks s5 = s_stacks s4 -> s_calls s5 = s_calls s4 ->
    (s' <- Ok (give_back home j code data s5);; s'0 <- step home loops http2 s' (Exit t);; Ok s'0) = UB DanglingRef).
  { intros s5 E1 E2. cbn [bind step].
    assert (C5 : forall k, call_at s5 k = call_at s3 k) by (intros k; unfold call_at; now rewrite E2).
    assert (ST : s_stacks (give_back home j code data s5) t = Loop i :: below).
    { rewrite give_back_stack, E1. rewrite C5, (C3 j), Nat.eqb_refl. cbn [answered k_from k_client]. rewrite Hj.
      unfold s4. cbn [with_stack s_stacks]. rewrite put_same.
      destruct (Nat.eqb_spec t (k_from (call_at s j))) as [<-|]; cbn; auto. now rewrite Nat.eqb_refl. }
    rewrite ST, (give_back_other home s5 i j) by auto. rewrite C5, (C3 i), Eij, (C2 i), Nat.eqb_refl. cbn [fired destroyed k_net k_alive]. now rewrite N1. }
  destruct (code =? 0)%Z; apply FIN; reflexivity.
Qed.
(** Such a state is reached by a call from a slot that runs in the event loop of another call. *)
Example C77_dangling_case : exists s,
  run self all all (start common) [Call 0 0 None; Call 0 0 None; Answer 0 (reply 1)] = Ok s
  /\ run self all all s [Tick 6000; Expire 0; Answer 1 (reply 2); Exit 0; Exit 0] = UB DanglingRef.
Proof.
  eexists. split; [vm_compute; reflexivity|].
  apply (C77_dangling_refuted self all all common [Call 0 0 None; Call 0 0 None; Answer 0 (reply 1)] _ 0 0 1 [] (reply 1) (reply 2) 0%Z [2%Z]);
    try (vm_compute; reflexivity); vm_compute; discriminate.
Qed.

(** C77 fails: if the client is destroyed while a call of it waits, and the call fails, the client is used after its end: it is to emit the
    error. *)
Theorem C77_client_gone_refuted home loops http2 chs evs s t i rest b code data :
  run home loops http2 (start chs) evs = Ok s ->
  s_stacks s t = Loop i :: rest -> k_alive (call_at s i) = true -> ~ was_answered (s_log s) i -> s_gone s (k_client (call_at s i)) = false ->
  (let '(err, st, body) := b in processReply err st body = Ok (code, data)) -> code <> 0%Z ->
  run home loops http2 s [Destroy (k_client (call_at s i)) true; Answer i b; Exit t] = UB DanglingRef.
Proof.
  intros R S A U G PB NZ. destruct (reach_good home loops http2 chs evs s R) as (V & L & _).
  assert (I : In (Loop i) (s_stacks s t)) by (rewrite S; now left). pose proof (v_loop _ _ _ V _ _ I) as (P & Hi & _).
  assert (N : k_net (call_at s i) = None).
  { destruct (k_net (call_at s i)) as [a|] eqn:N; auto. destruct U. exists a. now apply (l_net _ _ _ L). }
  assert (B : i < length (s_calls s)) by (apply pending_bound; congruence).
  set (c := k_client (call_at s i)) in *. cbn [run]. cbn [step]. rewrite Hi. unfold runs at 1. rewrite S, G. cbn [andb negb bind].
  set (s0 := with_posted _ _ _). set (s1 := cancel home _ s0).
  assert (C0 : call_at s0 = call_at s) by (unfold s0, leave_channel; destruct (s_channels s c); reflexivity).
  assert (S0 : s_stacks s0 = s_stacks s) by (unfold s0, leave_channel; destruct (s_channels s c); reflexivity).
  assert (L0 : s_calls s0 = s_calls s) by (unfold s0, leave_channel; destruct (s_channels s c); reflexivity).
  assert (C1 : call_at s1 i = call_at s i).
  { unfold s1. rewrite (cancel_other home loops http2); [now rewrite C0|]. intros X. apply filter_In in X. destruct X as [X _].
    apply (v_post _ _ _ V) in X. destruct X. congruence. }
  assert (S1 : s_stacks s1 t = Loop i :: rest).
  { unfold s1. rewrite cancel_stack; [now rewrite S0|]. intros j X. rewrite C0. apply filter_In in X. destruct X as [X _].
    apply (v_post _ _ _ V) in X. tauto. }
  assert (G1 : s_gone s1 c = true).
  { unfold s1. rewrite cancel_gone. unfold s0. cbn. unfold put. now rewrite Nat.eqb_refl. }
  assert (B1 : i < length (s_calls s1)) by (apply pending_bound; congruence).
  assert (W : waiting home loops s1 i = true). { unfold waiting, ready. rewrite C1, P, A. fold c. rewrite Hi, S1. reflexivity. }
  rewrite W, C1, N. cbn [bind].
  set (s2 := tell [Answered i b] (with_call i (answered b (call_at s i)) s1)).
  assert (C2 : call_at s2 i = answered b (call_at s i)).
  { change (call_at s2) with (call_at (with_call i (answered b (call_at s i)) s1)). rewrite call_at_set by auto. now rewrite Nat.eqb_refl. }
  change (s_stacks s2) with (s_stacks s1). rewrite S1, C2. cbn [answered k_net k_alive]. rewrite A.
  unfold conclude. destruct b as [[err st] body]. rewrite PB. cbn [bind]. unfold finish.
  change (call_at (with_stack t rest s2)) with (call_at s2). rewrite C2. cbn [answered k_client]. fold c.
  change (s_gone (with_stack t rest s2)) with (s_gone s1). rewrite G1. apply Z.eqb_neq in NZ. now rewrite NZ.
Qed.
Example C77_client_gone_case : exists s,
  run self all all (start common) [Call 1 0 None; Call 2 0 None; Dispatch 0 None] = Ok s
  /\ s_stacks s 0 = [Loop 0] /\ k_alive (call_at s 0) = true /\ ~ was_answered (s_log s) 0 /\ s_gone s 0 = false
  /\ processReply 99 [] [] = Ok (2%Z, []).
Proof. apply outcome. vm_compute. repeat split; auto. intros (a & I). intuition discriminate. Qed.

(** C78: as long as a call has not returned, the library, its timers and the network have something to do for one, and they
    can go on until all calls have returned.  This holds in careful histories with answers that the channel can process,
    if the threads of the clients have event loops and the threads call clients in other threads only along a ranking of the
    threads.  Missing: the other histories, see the theorems below; that replies come, which is up to the network. *)
Theorem C78_can_return_partial home loops http2 chs rank evs s :
  (forall c, loops (home c) = true) -> Forall (ranked_event home rank) evs -> Forall known_event evs ->
  throughout (step home loops http2) (careful_event home) (start chs) evs ->
  run home loops http2 (start chs) evs = Ok s ->
  exists more s', Forall service more /\ run home loops http2 s more = Ok s'
    /\ forall i t c, In (Called i t c) (s_log s') -> has_returned (s_log s') i.
Proof.
  intros LP RE KE T H. destruct (start_good home loops http2 chs) as (V0 & L0 & E0).
  assert (LV : Live known s).
  { destruct (run_safe home loops http2 known canceled_known evs (start chs) chs) as (_ & X & _); auto using start_Live. }
  assert (RK : Ranked home rank s).
  { assert (G : forall l s0, Ranked home rank s0 -> Forall (ranked_event home rank) l -> run home loops http2 s0 l = Ok s -> Ranked home rank s).
    { induction l as [|e l IH]; cbn [run]; intros s0 R F X; [now injection X as <-|]. inversion F as [|x y F1 F2]; subst x y.
      destruct (step home loops http2 s0 e) as [s1| | |] eqn:Q; cbn in X; try discriminate.
      apply (IH s1); auto. now apply (step_ranked home loops http2 rank s0 e s1). }
    apply (G evs (start chs)); auto. intros i N. cbn in N. lia. }
  destruct (reach_good home loops http2 chs evs s H) as (V & L & E).
  destruct (all_return home loops http2 rank chs (total (s_calls s)) s (Nat.le_refl _) LP V L E LV RK) as (more & s' & M1 & _ & M3 & M4).
  exists more, s'. split; [|split; auto].
  - eapply Forall_impl; [|exact M1]. intros e X. now apply (serving_service home e).
  - intros i t c I. destruct (run_good home loops http2 chs more s s' V L E M3) as (_ & L' & _).
    apply (l_called _ _ _ L') in I. apply (l_ret _ _ _ L'). split; [tauto|apply M4].
Qed.
(** Three threads: 2 calls 1 while 1 waits for 0. *)
Example C78_can_return_case :
  let evs := [Call 0 0 None; Call 1 1 None; Call 1 0 None; Call 2 1 None; Dispatch 0 None] in
  Forall (ranked_event self (fun t => t)) evs /\ Forall known_event evs
  /\ throughout (step self all all) (careful_event self) (start common) evs
  /\ exists s, run self all all (start common) evs = Ok s /\ ~ has_returned (s_log s) 0 /\ In (Called 0 0 0) (s_log s).
Proof.
  intros evs. split; [|split; [|split]].
  - repeat (apply Forall_cons; [cbn; unfold self; lia|]). apply Forall_nil.
  - repeat constructor.
  - vm_compute. auto 10.
  - apply outcome. vm_compute. split; [|tauto]. intros (x & y & z & I). intuition discriminate.
Qed.

(** C78: what the library, the timers and the network do for the calls that have been made is bounded: at most four steps for each call
    that has not returned.  So if they do something as long as there is something to do, the calls return. *)
Theorem C78_bounded home loops http2 chs evs s more s' :
  run home loops http2 (start chs) evs = Ok s -> Forall service more ->
  throughout (step home loops http2) (fun x e => step home loops http2 x e <> Ok x) s more ->
  run home loops http2 s more = Ok s' ->
  length more <= 4 * length (filter (fun k => match k_phase k with Over => false | _ => true end) (s_calls s)).
Proof.
  intros H F T R. destruct (reach_good home loops http2 chs evs s H) as (V & L & E).
  eapply Nat.le_trans; [|apply total_pending]. clear H evs. revert s s' V L E F T R.
  induction more as [|e more IH]; intros s s' V L E F T R; [cbn; lia|]. cbn [run throughout] in *. destruct T as [T1 T2].
  inversion F as [|x y F1 F2]; subst x y. destruct (step home loops http2 s e) as [s1| | |] eqn:Q; cbn in R; try discriminate.
  destruct (service_total home loops http2 s e s1 V F1 Q) as [->|LT]; [now destruct T1|].
  destruct (step_good home loops http2 chs s e s1 V L E Q) as (V1 & L1 & E1).
  specialize (IH s1 s' V1 L1 E1 F2 T2 R). cbn [length]. lia.
Qed.
Example C78_bounded_case : exists s,
  run self all all (start common) [Call 1 0 None] = Ok s
  /\ throughout (step self all all) (fun x e => step self all all x e <> Ok x) s [Dispatch 0 None; Answer 0 (reply 1); Exit 0]
  /\ exists s', run self all all s [Dispatch 0 None; Answer 0 (reply 1); Exit 0] = Ok s' /\ True.
Proof.
  apply outcome. vm_compute. split; [|eauto].
  repeat split; intros H; apply (f_equal (fun r => match r with Ok x => length (s_log x) | _ => 0 end)) in H; vm_compute in H; discriminate.
Qed.

(** C78: in careful histories a call over HTTP/2 that is the innermost of its thread and has no answer six seconds after it was sent is
    given up: it returns Unavailable, and the client tells. *)
Theorem C78_timeout home loops http2 chs evs s t i rest d :
  throughout (step home loops http2) (careful_event home) (start chs) evs ->
  run home loops http2 (start chs) evs = Ok s ->
  s_stacks s t = Loop i :: rest -> ~ was_answered (s_log s) i -> http2 (k_channel (call_at s i)) = true ->
  (0 <= d)%Z -> (k_start (call_at s i) + 6000 <= s_now s + d)%Z ->
  exists s', run home loops http2 s [Tick d; Expire i; Exit t] = Ok s'
    /\ s_log s' = s_log s ++ [Answered i canceled; ClientError (k_client (call_at s i)) 14%Z; Returned i (k_client (call_at s i)) 14%Z []].
Proof.
  intros T R S A H2 D0 D1. destruct (reach_good home loops http2 chs evs s R) as (V & L & E).
  destruct (start_good home loops http2 chs) as (V0 & L0 & E0).
  assert (LV : Live (fun _ => True) s).
  { destruct (run_safe home loops http2 (fun _ => True) Logic.I evs (start chs) chs) as (_ & X & _); auto using start_Live.
    apply Forall_forall. intros [? ? [?|]|? [?|]|? ?|?|?|? ? ?|? ?|?] _; exact Logic.I. }
  assert (I : In (Loop i) (s_stacks s t)) by (rewrite S; now left). pose proof (v_loop _ _ _ V _ _ I) as (P & Hi & _).
  assert (N : k_net (call_at s i) = None).
  { destruct (k_net (call_at s i)) as [a|] eqn:N; auto. destruct A. exists a. now apply (l_net _ _ _ L). }
  destruct LV as [LV G]. destruct (LV i P) as (A1 & T1 & _). specialize (T1 N).
  assert (B : i < length (s_calls s)) by (apply pending_bound; congruence).
  cbn [run]. cbn [step]. apply Z.leb_le in D0. rewrite D0. cbn [bind]. set (s1 := later d s).
  assert (W : waiting home loops s1 i = true).
  { unfold waiting, ready. change (call_at s1) with (call_at s). rewrite P, A1, Hi. change (s_stacks s1) with (s_stacks s). now rewrite S. }
  change (call_at s1) with (call_at s). rewrite W, T1, H2.
  assert (D2 : (k_start (call_at s i) + 6000 <=? s_now s1)%Z = true) by now apply Z.leb_le. rewrite D2, N. cbn [andb bind].
  set (s2 := tell [Answered i canceled] (with_call i (fired (answered canceled (call_at s i))) s1)).
  assert (C2 : call_at s2 i = fired (answered canceled (call_at s i))).
  { change (call_at s2) with (call_at (with_call i (fired (answered canceled (call_at s i))) s1)). rewrite call_at_set by auto. now rewrite Nat.eqb_refl. }
  change (s_stacks s2) with (s_stacks s). rewrite S, C2. cbn [fired answered k_net k_alive]. rewrite A1.
  unfold conclude, canceled. cbn [processReply bind]. change (processReply 5 [] []) with (Ok (14%Z, @nil Z)). cbn [bind].
  unfold finish. change (14 =? 0)%Z with false. change (call_at (with_stack t rest s2)) with (call_at s2). rewrite C2.
  cbn [fired answered k_client]. change (s_gone (with_stack t rest s2)) with (s_gone s). rewrite G. cbn [bind].
  eexists. split; [reflexivity|].
  destruct (give_back_log home (tell [ClientError (k_client (call_at s i)) 14%Z] (with_stack t rest s2)) i 14%Z []) as (X & _). rewrite X.
  change (call_at (tell _ (with_stack t rest s2))) with (call_at s2). rewrite C2. cbn. now rewrite <- !app_assoc.
Qed.
Example C78_timeout_case : exists s,
  run self all all (start common) [Call 0 0 None; Tick 5999; Expire 0] = Ok s
  /\ throughout (step self all all) (careful_event self) (start common) [Call 0 0 None; Tick 5999; Expire 0]
  /\ s_stacks s 0 = [Loop 0] /\ ~ was_answered (s_log s) 0.
Proof.
  apply outcome. vm_compute. repeat split; auto. intros (a & I). intuition discriminate.
Qed.

(** C78: the timer ends no call early: the answers that a call gets within six seconds are those that the network gives. *)
Theorem C78_no_early_timeout home loops http2 chs evs s i more s' a :
  run home loops http2 (start chs) evs = Ok s -> ~ was_sent (s_log s) i ->
  run home loops http2 s more = Ok s' -> (elapsed more < 6000)%Z -> In (Answered i a) (s_log s') ->
  In (Answer i a) more \/ (exists t, In (Dispatch t (Some a)) more) \/ (exists t c, In (Call t c (Some a)) more).
Proof.
  intros H N R EL I. destruct (reach_good home loops http2 chs evs s H) as (V & L & E).
  destruct (early home loops http2 chs i (s_now s) more s s' V L E) as (m & M1 & M2); auto; try lia.
  - intros P. destruct N. now apply (l_inside _ _ _ L).
  - rewrite M1 in I. apply in_app_or in I. destruct I as [I|I]; auto. exfalso.
    apply in_split in I. destruct I as (l1 & l2 & I). destruct (l_fine _ _ _ L _ _ _ I) as ((x & y & X) & _). apply N. exists x, y.
    rewrite I. apply in_or_app. now left.
Qed.
Example C78_no_early_timeout_case : exists s,
  run self all all (start common) [Call 1 0 None; Tick 10000] = Ok s /\ ~ was_sent (s_log s) 0
  /\ exists s', run self all all s [Dispatch 0 None; Tick 5999; Expire 0; Answer 0 (reply 1)] = Ok s' /\ In (Answered 0 (reply 1)) (s_log s').
Proof. apply outcome. vm_compute. split; [intros (x & y & I); intuition discriminate|]. eexists. split; [reflexivity|]. vm_compute. tauto. Qed.

(** C78: calls of a client that is destroyed and that have not been sent return at once. *)
Theorem C78_destroyed_client home loops http2 chs evs s c kept s' :
  run home loops http2 (start chs) evs = Ok s ->
  (forall i c', In (Called i (home c) c') (s_log s) -> home c <> home c' -> has_returned (s_log s) i) ->
  (forall k, ~ In (Destroy c k) evs) ->
  run home loops http2 s [Destroy c kept] = Ok s' ->
  forall i t, In (Called i t c) (s_log s) -> ~ was_sent (s_log s) i -> has_returned (s_log s') i.
Proof.
  intros H W D R i t I NS. destruct (reach_good home loops http2 chs evs s H) as (V & L & E).
  apply (runs_log home loops http2 chs s (home c) V L) in W.
  assert (G : s_gone s c = false).
  { destruct (s_gone s c) eqn:G; auto. destruct (run_gone home loops http2 evs _ _ c H G) as [X|[k X]]; [discriminate|]. now destruct (D k). }
  cbn [run] in R. destruct (step home loops http2 s (Destroy c kept)) as [s1| | |] eqn:Q; cbn in R; try discriminate. injection R as <-.
  apply (l_called _ _ _ L) in I. destruct I as (I1 & I2 & I3).
  now apply (destroy_returns home loops http2 chs s c kept s1 V L E W G Q).
Qed.
Example C78_destroyed_client_case : exists s,
  run self all all (start common) [Call 1 0 None; Call 2 0 None; Dispatch 0 None] = Ok s
  /\ In (Called 1 2 0) (s_log s) /\ ~ was_sent (s_log s) 1
  /\ exists s', run self all all s [Destroy 0 true] = Ok s' /\ In (Returned 1 0 2%Z []) (s_log s').
Proof. apply outcome. vm_compute. repeat split; auto; [intros (x & y & I); intuition discriminate|]. eexists. split; [reflexivity|]. vm_compute. tauto. Qed.

(** C78 fails: threads that have called clients of each other wait forever. *)
Theorem C78_deadlock_refuted home loops http2 chs evs s (D : nat -> Prop) more s' :
  run home loops http2 (start chs) evs = Ok s ->
  (forall t, D t -> exists i c, In (Called i t c) (s_log s) /\ t <> home c /\ ~ has_returned (s_log s) i /\ D (home c)) ->
  run home loops http2 s more = Ok s' ->
  forall t, D t -> exists i c, In (Called i t c) (s_log s) /\ ~ has_returned (s_log s') i.
Proof.
  intros H W R t HD. destruct (reach_good home loops http2 chs evs s H) as (V & L & E).
  assert (NO : forall i t c, In (Called i t c) (s_log s) -> ~ has_returned (s_log s) i -> k_phase (call_at s i) <> Over).
  { intros i u c I N O. apply N. apply (l_ret _ _ _ L). apply (l_called _ _ _ L) in I. tauto. }
  assert (S : stuck home D s).
  { intros u U. destruct (W u U) as (i & c & I & A & N & B). pose proof (NO _ _ _ I N) as O. apply (l_called _ _ _ L) in I.
    destruct I as (I1 & I2 & I3). exists i. rewrite I3. repeat split; auto. }
  destruct (stuck_forever home loops http2 D chs more s s' V L E S R) as (_ & K).
  destruct (run_good home loops http2 chs more s s' V L E R) as (_ & L' & _).
  destruct (W t HD) as (i & c & I & A & N & B). exists i, c. split; auto. intros X. apply (l_ret _ _ _ L') in X. destruct X as [_ X].
  pose proof (NO _ _ _ I N) as O. apply (l_called _ _ _ L) in I. destruct I as (I1 & I2 & I3). rewrite K in X; auto. now rewrite I3.
Qed.
Example C78_deadlock_case : exists s,
  run self all all (start common) [Call 0 1 None; Call 1 0 None] = Ok s
  /\ forall t, t = 0 \/ t = 1 -> exists i c, In (Called i t c) (s_log s) /\ t <> self c /\ ~ has_returned (s_log s) i /\ (self c = 0 \/ self c = 1).
Proof.
  apply outcome. vm_compute. intros t [->| ->].
  - exists 0, 1. repeat split; auto; [discriminate|]. intros (x & y & z & I). intuition discriminate.
  - exists 1, 0. repeat split; auto; [discriminate|]. intros (x & y & z & I). intuition discriminate.
Qed.

(** C78 fails: a call of a client whose thread has no event loop never returns, unless that thread makes calls itself or destroys
    the client. *)
Theorem C78_no_event_loop_refuted home loops http2 chs evs s u i t c :
  loops u = false ->
  (forall e, In e evs -> match e with Call t' _ _ => t' <> u | Destroy c' _ => home c' <> u | _ => True end) ->
  run home loops http2 (start chs) evs = Ok s ->
  In (Called i t c) (s_log s) -> home c = u -> ~ has_returned (s_log s) i.
Proof.
  intros LP F H I HC X. destruct (start_good home loops http2 chs) as (V0 & L0 & E0). destruct (reach_good home loops http2 chs evs s H) as (V & L & E).
  assert (A : asleep home u s).
  { apply (asleep_forever home loops http2 u chs evs LP (start chs)); auto.
    - apply Forall_forall. exact F.
    - split; [reflexivity|]. intros j N. cbn in N. lia. }
  apply (l_called _ _ _ L) in I. apply (l_ret _ _ _ L) in X. destruct A as [_ A]. destruct I as (I1 & I2 & I3).
  rewrite A in X; [|tauto|congruence]. destruct X. discriminate.
Qed.
Example C78_no_event_loop_case : exists s,
  run self (Nat.eqb 0) all (start common) [Call 0 1 None; Dispatch 1 None; Dispatch 0 None; Tick 100000] = Ok s
  /\ In (Called 0 0 1) (s_log s).
Proof. apply outcome. vm_compute. auto. Qed.

(** C78 fails: if the last pointer to a channel over HTTP/2 goes away, through attachChannel or with its client, while a call waits for
    its answer, the call never returns. *)
Theorem C78_lost_reply_refuted home loops http2 chs evs s i c ch more s' drop :
  run home loops http2 (start chs) evs = Ok s ->
  k_phase (call_at s i) = Inside -> ~ was_answered (s_log s) i -> k_channel (call_at s i) = ch -> http2 ch = true ->
  s_channels s c = Some ch -> s_gone s c = false -> runs s (home c) = true ->
  (exists ch', ch' <> ch /\ drop = Attach c ch' false) \/ drop = Destroy c false ->
  run home loops http2 s (drop :: more) = Ok s' ->
  ~ has_returned (s_log s') i.
Proof.
  intros H P A KC H2 CH G RU DR R X. destruct (reach_good home loops http2 chs evs s H) as (V & L & E).
  assert (N : k_net (call_at s i) = None).
  { destruct (k_net (call_at s i)) as [a|] eqn:N; auto. destruct A. exists a. now apply (l_net _ _ _ L). }
  cbn [run] in R. destruct (step home loops http2 s drop) as [s1| | |] eqn:Q; cbn in R; try discriminate.
  destruct (step_good home loops http2 chs s drop s1 V L E Q) as (V1 & L1 & E1).
  assert (LOSE : call_at (drop_channel http2 ch s) i = destroyed (call_at s i)).
  { rewrite call_at_drop. unfold lose. now rewrite P, KC, Nat.eqb_refl, H2. }
  assert (U : unanswered i s1 /\ k_alive (call_at s1 i) = false).
  { destruct DR as [(ch' & NE & ->)| ->]; cbn [step] in Q; rewrite RU, G in Q; cbn [andb negb] in Q; injection Q as <-.
    - unfold leave_channel. rewrite CH. cbn [orb]. replace (Nat.eqb ch ch') with false by (symmetry; apply Nat.eqb_neq; auto).
      change (call_at (with_channel c (Some ch') ?x)) with (call_at x). unfold unanswered.
      change (call_at (with_channel c (Some ch') (drop_channel http2 ch s))) with (call_at (drop_channel http2 ch s)). rewrite LOSE. auto.
    - unfold unanswered. rewrite (cancel_other home loops http2).
      + unfold leave_channel. rewrite CH.
        change (call_at (with_posted ?a ?b (with_channel ?x ?y (with_gone ?z ?w)))) with (call_at w). rewrite LOSE. auto.
      + intros I. apply filter_In in I. destruct I as [I _]. apply (v_post _ _ _ V) in I. destruct I. congruence. }
  destruct U as [U AL]. destruct (run_good home loops http2 chs more s1 s' V1 L1 E1 R) as (_ & L' & _).
  destruct (unanswered_forever home loops http2 i chs more s1 s' V1 L1 E1 U (or_intror AL) R) as [U' _].
  apply (l_ret _ _ _ L') in X. destruct X. congruence.
Qed.
Example C78_lost_reply_case : exists s,
  run self all all (start common) [Call 0 0 None] = Ok s /\ k_phase (call_at s 0) = Inside /\ s_channels s 0 = Some 0 /\ runs s 0 = true
  /\ exists s', run self all all s [Attach 0 1 false; Tick 6000; Answer 0 (reply 1); Expire 0; Exit 0] = Ok s'.
Proof. apply outcome. vm_compute. repeat split; eauto. Qed.

(** C78 fails: a call whose reply has come does not return as long as a call that was sent later in its thread has no answer. *)
Theorem C78_nested_blocks_refuted home loops http2 chs evs s i c ch j c' ch' more s' :
  run home loops http2 (start chs) evs = Ok s ->
  before (Sent i c ch) (Sent j c' ch') (s_log s) -> home c' = home c ->
  ~ has_returned (s_log s) i -> ~ was_answered (s_log s) j ->
  (forall e, In e more -> match e with Answer k _ | Expire k => k <> j | _ => True end) ->
  run home loops http2 s more = Ok s' -> ~ has_returned (s_log s') i.
Proof.
  intros H B HC NI NJ SP R X. destruct (reach_good home loops http2 chs evs s H) as (V & L & E).
  destruct (run_good home loops http2 chs more s s' V L E R) as (V' & L' & E').
  destruct (before_in _ _ _ B) as [Bi Bj]. pose proof (l_sent _ _ _ L _ _ _ Bj) as (Nj & Cj & Pj).
  pose proof (l_sent _ _ _ L _ _ _ Bi) as (Ni & Ci & Pi).
  (* the later call is not over *)
  assert (NR : ~ has_returned (s_log s) j).
  { intros (x & y & z & I). apply in_split in I. destruct I as (l1 & l2 & I). destruct (l_fine _ _ _ L _ _ _ I) as (_ & (t & T) & W & _).
    destruct W as [(err & st & body & W & _)|(_ & _ & W & _)].
    - apply NJ. exists (err, st, body). rewrite I. apply in_or_app. now left.
    - (* sent after its return *)
      assert (I2 : In (Sent j c' ch') (l1 ++ Returned j x y z :: l2)) by now rewrite <- I.
      apply in_app_or in I2. destruct I2 as [I2|[I2|I2]]; [apply W; now exists c', ch'|discriminate|].
      apply in_split in I2. destruct I2 as (m1 & m2 & ->).
      assert (FS : fine home chs (s_gone s) (l1 ++ Returned j x y z :: m1) (Sent j c' ch')).
      { apply (l_fine _ _ _ L) with (l2 := m2). rewrite I. now rewrite <- app_assoc. }
      destruct FS as (_ & FS & _). apply FS. exists x, y, z. apply in_or_app. right. now left. }
  assert (U : unanswered j s).
  { split.
    - destruct (k_phase (call_at s j)) eqn:Q; auto; [congruence|]. destruct NR. apply (l_ret _ _ _ L). auto.
    - destruct (k_net (call_at s j)) as [a|] eqn:Q; auto. destruct NJ. exists a. now apply (l_net _ _ _ L). }
  assert (SP' : Forall (spares j) more) by (apply Forall_forall; exact SP).
  destruct (unanswered_forever home loops http2 j chs more s s' V L E U (or_introl SP') R) as [U' _].
  destruct X as (x & y & z & X). apply in_split in X. destruct X as (l1 & l2 & X).
  (* what was sent stays in the log before the return *)
  assert (G : exists m, s_log s' = s_log s ++ m) by (apply (run_log home loops http2 more s s' R)).
  destruct G as [m G].
  assert (PRE : exists k, l1 = s_log s ++ k).
  { rewrite G in X. clear - X NI. revert l1 X NI. generalize (s_log s) as l. induction l as [|r l IH]; intros l1 X NI; [now exists l1|].
    destruct l1 as [|r' l1]; cbn in X.
    - injection X as -> X. destruct NI. exists x, y, z. now left.
    - injection X as -> X. destruct (IH l1 X) as [k ->]; [|now exists k]. intros (a & b & d & I). apply NI. exists a, b, d. now right. }
  destruct PRE as [k ->].
  assert (x = c).
  { destruct (l_fine _ _ _ L' _ _ _ X) as (_ & (t & T) & _).
    assert (T' : In (Called i t x) (s_log s')) by (rewrite X; apply in_or_app; now left). apply (l_called _ _ _ L') in T'.
    assert (T2 : In (Sent i c ch) (s_log s')) by (rewrite G; apply in_or_app; now left). apply (l_sent _ _ _ L') in T2. intuition congruence. }
  subst x. destruct (l_fine _ _ _ L' _ _ _ X) as (_ & _ & _ & W).
  assert (RJ : has_returned (s_log s ++ k) j).
  { apply (W ch j c' ch'); auto. destruct B as (b1 & b2 & b3 & B). exists b1, b2, (b3 ++ k). rewrite B, <- app_assoc. cbn. now rewrite <- app_assoc. }
  destruct RJ as (p & q & r & RJ).
  assert (RJ' : has_returned (s_log s') j) by (exists p, q, r; rewrite X; apply in_or_app; now left).
  apply (l_ret _ _ _ L') in RJ'. destruct RJ'. congruence.
Qed.
Example C78_nested_blocks_case : exists s,
  run self all all (start common) [Call 0 0 None; Call 0 0 None; Answer 0 (reply 1)] = Ok s
  /\ before (Sent 0 0 0) (Sent 1 0 0) (s_log s)
  /\ exists s', run self all all s [Tick 5000; Exit 0; Exit 0; Exit 0] = Ok s'.
Proof.
  apply outcome. vm_compute. split; [|eauto].
  exists [Called 0 0 0], [Called 1 0 0], [Answered 0 (reply 1)]. reflexivity.
Qed.

Print Assumptions C77_own_result. Print Assumptions C77_client_errors. Print Assumptions C77_nested_first.
Print Assumptions C77_in_order. Print Assumptions C77_caller_waits. Print Assumptions C77_caller_idle. Print Assumptions C77_attached.
Print Assumptions C77_one_answer.
Print Assumptions C77_no_dangling_partial. Print Assumptions C77_flat_partial. Print Assumptions C77_dangling_refuted. Print Assumptions C77_client_gone_refuted.
Print Assumptions C78_can_return_partial. Print Assumptions C78_bounded. Print Assumptions C78_timeout. Print Assumptions C78_no_early_timeout. Print Assumptions C78_destroyed_client.
Print Assumptions C78_deadlock_refuted. Print Assumptions C78_no_event_loop_refuted. Print Assumptions C78_lost_reply_refuted.
Print Assumptions C78_nested_blocks_refuted.

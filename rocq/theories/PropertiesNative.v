(** C73, C74, C36 and C38 for the channel that is based on the gRPC library: what its threads receive, and what the user sees, for
    every interleaving of the threads. *)

From Coq Require Import ZArith List Bool Arith Lia.
From Verif Require Import Base NativeModel NativeSpec NativeProofs.
Import ListNotations.
Open Scope Z_scope.

(** * An execution that is used as an example: one channel, a stream (0) that gets two messages and then the status 14, a call (1)
    that is answered, and a stream (2) that is aborted while a message is in the queue. *)

Definition story : list event :=
  [MChannel; MNew Streaming; MNew Unary; MNew Streaming; MStart 0 0; MStart 1 0; MStart 2 0;
   WRead 0 [1; 2]; WBegin 1; WRead 2 [7]; WRead 0 [3]; WReply 1 0 [9]; WEnd 0; WExit 1; MDispatch; WStatus 0 14; WExit 0].

Definition told (evs : list event) : option (list report * list posted) :=
  match run start evs with Some n => Some (n_log n, n_queue n) | None => None end.

Example story_runs : told story
  = Some ([RMessage 0 0 [1; 2]], [PData 2 [7]; PData 0 [3]; PFinished 1; PFinished 0]).
Proof. reflexivity. Qed.

Example story_ends : told (story ++ repeat MDispatch 4)
  = Some ([RMessage 0 0 [1; 2]; RMessage 2 2 [7]; RMessage 0 0 [3]; RDone 1 1 [9]; RError 0 0 14], []).
Proof. reflexivity. Qed.

Definition after (evs : list event) : world := match run start evs with Some n => n | None => start end.

Lemma ran : forall evs, (if run start evs then true else false) = true -> execution evs (after evs).
Proof. intros evs R. unfold after. destruct (run start evs) as [n |] eqn:E; [| discriminate]. apply run_execution, E. Qed.

(** * C73: what was received is delivered *)

(** At any time the messages passed to the handlers of a stream are the first ones that the gRPC library has returned for it: each
    one once, in order, unchanged. *)
Theorem C73_in_order : forall evs n i, execution evs n -> prefix (messages i (n_log n)) (reads i evs).
Proof.
  intros evs n i X. pose proof (inv_execution _ _ X) as I. destruct (Nat.lt_ge_cases i (length (n_works n))) as [L | L].
  - destruct (g_prefix _ _ _ _ _ _ _ _ _ _ _ _ (i_views _ _ I i L)) as [c E]. rewrite <- app_assoc in E. eexists. exact E.
  - destruct (i_fresh _ _ I i L) as [_ F _ _ _ _ _]. rewrite F. apply prefix_nil.
Qed.

Example C73_in_order_applies : exists n, execution (story ++ [MDispatch; MDispatch]) n /\ messages 0 (n_log n) = [[1; 2]; [3]] /\
  reads 0 (story ++ [MDispatch; MDispatch]) = [[1; 2]; [3]].
Proof. exists (after (story ++ [MDispatch; MDispatch])). split; [apply ran; reflexivity | split; reflexivity]. Qed.

Print Assumptions C73_in_order.

(** A message is passed to the stream that it was received for. *)
Theorem C73_right_stream : forall evs n o i data, execution evs n -> In (RMessage o i data) (n_log n) ->
  In (WRead i data) evs /\ nth_error (filter (fun e => match e with MStart _ _ => true | _ => false end) evs) i = Some (MStart o (w_channel (work_at n i))).
Proof.
  intros evs n o i data X I.
  assert (M : In data (messages i (n_log n))).
  { unfold messages. apply in_flat_map. exists (RMessage o i data). split; [exact I |]. rewrite Nat.eqb_refl. now left. }
  destruct (C73_in_order _ _ i X) as [c E].
  assert (R : In data (reads i evs)) by (rewrite E; apply in_or_app; now left).
  assert (In (WRead i data) evs).
  { unfold reads in R. apply in_flat_map in R. destruct R as (e & Ie & R). destruct e; try destruct R.
    destruct (Nat.eqb_spec i0 i) as [-> |]; [| destruct R]. destruct R as [-> | []]. exact Ie. }
  split; [assumption |].
  assert (O : w_owner (work_at n i) = o /\ (i < length (n_works n))%nat).
  { clear - X I. induction X as [| evs n e n' X IH En St]; [destruct I |].
    rewrite (step_log _ _ _ St) in I. apply in_app_or in I.
    assert (Q : w_owner (work_at n i) = o /\ (i < length (n_works n))%nat).
    { destruct I as [I | I]; [apply IH, I |]. destruct e; cbn in I; try destruct I as [I | []]; try discriminate; try destruct I.
      destruct (n_queue n) as [| [j d | j] q] eqn:Q; [destruct I | |].
      - destruct I as [I | []]. injection I as <- <- <-. split; [reflexivity |].
        apply (queue_in _ _ _ (inv_execution _ _ X)). rewrite Q, proj_cons_data, Nat.eqb_refl. discriminate.
      - destruct (w_linked (work_at n j)); [| destruct I]. unfold outcome in I. destruct (_ =? _), (task_of n j); cbn in I;
          try destruct I as [I | []]; try discriminate; destruct I. }
    destruct Q as [<- L]. split; [apply (kp_owner _ _ (step_keeps _ _ _ i En St L)) |]. pose proof (step_length _ _ _ _ X En St). lia. }
  destruct O as [<- L]. clear - X L. revert i L. induction X as [| evs n e n' X IH En St]; intros i L; [cbn in L; lia |].
  rewrite filter_app. pose proof (exec_length _ _ X) as Ln. unfold starts in Ln.
  destruct (Nat.lt_ge_cases i (length (n_works n))) as [L' | L'].
  - rewrite nth_error_app1 by (rewrite <- Ln; exact L'). rewrite (IH i L'). pose proof (step_keeps _ _ _ i En St L') as K.
    rewrite (kp_owner _ _ K), (kp_channel _ _ K). reflexivity.
  - rewrite nth_error_app2 by lia.
    pose proof (exec_length (evs ++ [e]) n') as L2. rewrite starts_app in L2. unfold starts in L2. specialize (L2 (ExStep _ _ _ _ X En St)).
    destruct e; try lia. assert (i = length (n_works n)) as -> by lia. rewrite <- Ln, Nat.sub_diag. cbn in St. injection St as <-. cbn.
    unfold work_at, start_work. cbn [n_works with_works]. rewrite nth_app_new, Nat.eqb_refl. reflexivity.
Qed.

Example C73_right_stream_applies : exists n, execution (story ++ [MDispatch; MDispatch]) n /\ In (RMessage 0 0 [3]) (n_log n).
Proof. exists (after (story ++ [MDispatch; MDispatch])). split; [apply ran; reflexivity |]. vm_compute. auto. Qed.

Print Assumptions C73_right_stream.

(** The end of a call or stream is reported after all its messages; nothing comes after it, in particular no second end. *)
Lemma end_last : forall evs n l1 r l2 i, execution evs n -> n_log n = l1 ++ r :: l2 -> is_end i r ->
  messages i l1 = reads i evs /\ messages i l2 = [] /\ ends i (l1 ++ l2) = [] /\
  exists code data, results i evs = [(code, data)] /\ [r] = outcome (task_of n i) (w_owner (work_at n i)) i code data.
Proof.
  intros evs n l1 r l2 i X E Er.
  destruct (after_end _ _ _ _ _ _ X E Er) as [M2 E2].
  pose proof (inv_execution _ _ X) as I.
  assert (Ne : ends i (n_log n) <> []).
  { rewrite E, ends_app. change (r :: l2) with ([r] ++ l2). rewrite ends_app, Er. intro Y. apply app_eq_nil in Y. destruct Y as [_ Y]. discriminate. }
  assert (L : (i < length (n_works n))%nat).
  { destruct (Nat.lt_ge_cases i (length (n_works n))) as [L | L]; [exact L |]. destruct (i_fresh _ _ I i L) as [_ _ F _ _ _ _]. congruence. }
  pose proof (i_views _ _ I i L) as V. unfold view in V. cbv zeta in V.
  destruct (g_ended _ _ _ _ _ _ _ _ _ _ _ _ V Ne) as (_ & P & M & _ & O). pose proof (g_result _ _ _ _ _ _ _ _ _ _ _ _ V) as R. rewrite P in R.
  rewrite E in M, O. change (r :: l2) with ([r] ++ l2) in *. rewrite !messages_app, M2 in M. rewrite !ends_app, Er, E2 in O.
  assert (Mr : messages i [r] = []) by (unfold is_end in Er; destruct r; try reflexivity; discriminate).
  rewrite Mr, !app_nil_r in M. rewrite ends_app, E2, app_nil_r.
  assert (E1 : ends i l1 = []).
  { destruct (ends i l1) as [| x l]; [reflexivity |]. exfalso. unfold outcome in O. cbn [app] in O.
    destruct (w_status _ =? 0), (task_of n i); try discriminate; injection O as _ O; apply app_eq_nil in O; destruct O as [_ O]; discriminate. }
  rewrite E1, app_nil_r in O. repeat (split; [assumption |]). eauto.
Qed.

Theorem C73_error_last : forall evs n l1 o i code l2, execution evs n -> n_log n = l1 ++ RError o i code :: l2 ->
  messages i l1 = reads i evs /\ messages i l2 = [] /\ ends i (l1 ++ l2) = [] /\
  code <> 0 /\ exists data, results i evs = [(code, data)].
Proof.
  intros evs n l1 o i code l2 X E. destruct (end_last _ _ _ _ _ i X E) as (A & B & C & code' & data & R & O).
  - unfold is_end, ends. cbn. rewrite Nat.eqb_refl. reflexivity.
  - repeat (split; [assumption |]). unfold outcome in O. destruct (Z.eqb_spec code' 0) as [Z0 | Z0]; [destruct (task_of n i); discriminate |].
    injection O as _ ->. eauto.
Qed.

Example C73_error_last_applies : exists n, execution (story ++ repeat MDispatch 4) n /\
  n_log n = [RMessage 0 0 [1; 2]; RMessage 2 2 [7]; RMessage 0 0 [3]; RDone 1 1 [9]] ++ RError 0 0 14 :: [].
Proof. exists (after (story ++ repeat MDispatch 4)). split; [apply ran; reflexivity | reflexivity]. Qed.

Print Assumptions C73_error_last.

(** Nothing that was received is lost: when the thread of a stream or call has returned, the user has not aborted or destroyed it
    since its start and the event loop has handled all events, all messages have been passed on and the end has been reported. *)
Theorem C73_complete : forall evs n i o, execution evs n -> In (WExit i) evs -> w_owner (work_at n i) = o ->
  ~ disturbed i o evs -> n_queue n = [] ->
  messages i (n_log n) = reads i evs /\
  exists code data, results i evs = [(code, data)] /\ ends i (n_log n) = outcome (task_of n i) o i code data.
Proof.
  intros evs n i o X W O D Q. destruct (exit_over _ _ _ X W) as [L P]. pose proof (inv_execution _ _ X) as I.
  pose proof (i_views _ _ I i L) as V. unfold view in V. cbv zeta in V. rewrite O, Q in V.
  destruct (w_linked (work_at n i)) eqn:Lk; [elim (g_over _ _ _ _ _ _ _ _ _ _ _ _ V P Lk) |].
  destruct (g_cut _ _ _ _ _ _ _ _ _ _ _ _ V Lk) as [C | (_ & M & _ & En)]; [elim (D C) |].
  pose proof (g_result _ _ _ _ _ _ _ _ _ _ _ _ V) as R. rewrite P in R. rewrite O in En. split; [exact M | eauto].
Qed.

Example C73_complete_applies : let evs := story ++ repeat MDispatch 4 in
  execution evs (after evs) /\ In (WExit 0) evs /\ In (WExit 1) evs /\ w_owner (work_at (after evs) 0) = 0%nat /\ n_queue (after evs) = [] /\
  (forall i o, ~ disturbed i o evs).
Proof.
  cbv zeta. split; [apply ran; reflexivity |]. split; [cbn; auto 20 |]. split; [cbn; auto 20 |]. split; [reflexivity |]. split; [reflexivity |].
  intros i o (a & e & b & E & _ & D). assert (I : In e (story ++ repeat MDispatch 4)) by (rewrite E; apply in_or_app; right; now left).
  cbn in I. destruct D as [-> | ->]; intuition discriminate.
Qed.

Print Assumptions C73_complete.

(** The event loop gets to the end of its queue: no event can block it. *)
Theorem C73_dispatch : forall evs n, execution evs n -> idle n = true ->
  exists n', continues n (repeat MDispatch (length (n_queue n))) n' /\ n_queue n' = [].
Proof.
  intros evs n X Id. destruct (dispatch_all _ _ _ X Id (le_n _)) as (n' & C & Q & _). rewrite skipn_all in Q. eauto.
Qed.

Example C73_dispatch_applies : execution story (after story) /\ idle (after story) = true /\ length (n_queue (after story)) = 4%nat.
Proof. split; [apply ran; reflexivity | split; reflexivity]. Qed.

Print Assumptions C73_dispatch.

(** * C36: an asynchronous call ends once *)

(** A call over this channel never reports messages; its end is reported at most once, with the response or the error of the gRPC
    library. *)
Theorem C36_threads : forall evs n i, execution evs n -> task_of n i = Unary -> (i < length (n_works n))%nat ->
  messages i (n_log n) = [] /\
  (ends i (n_log n) = [] \/
   exists code data, results i evs = [(code, data)] /\
     ends i (n_log n) = [if code =? 0 then RDone (w_owner (work_at n i)) i data else RError (w_owner (work_at n i)) i code]).
Proof.
  intros evs n i X T L. pose proof (inv_execution _ _ X) as I. pose proof (i_views _ _ I i L) as V. unfold view in V. cbv zeta in V.
  split.
  - destruct (g_unary _ _ _ _ _ _ _ _ _ _ _ _ V T) as [_ R]. destruct (g_prefix _ _ _ _ _ _ _ _ _ _ _ _ V) as [c E]. rewrite R in E.
    destruct (messages i (n_log n)); [reflexivity | discriminate].
  - destruct (ends i (n_log n)) as [| r l] eqn:E; [now left |]. right. rewrite <- E in *.
    destruct (g_ended _ _ _ _ _ _ _ _ _ _ _ _ V) as (_ & P & _ & _ & O); [rewrite E; discriminate |].
    pose proof (g_result _ _ _ _ _ _ _ _ _ _ _ _ V) as R. rewrite P in R. do 2 eexists. split; [exact R |]. rewrite O. unfold outcome. rewrite T.
    destruct (w_status (work_at n i) =? 0); reflexivity.
Qed.

Example C36_threads_applies : let evs := story ++ repeat MDispatch 4 in
  execution evs (after evs) /\ task_of (after evs) 1 = Unary /\ ends 1 (n_log (after evs)) = [RDone 1 1 [9]].
Proof. cbv zeta. split; [apply ran; reflexivity | split; reflexivity]. Qed.

Print Assumptions C36_threads.

(** * C38: after the abort *)

(** After an abort nothing that arrives later is delivered, and no end is reported: at most messages that were in the event queue
    at the time of the abort.
    Missing: nothing at all should be delivered; see [C38_native_queue_refuted]. *)
Theorem C38_native_abort_partial : forall evs n o n1 evs2 n2 i, execution evs n -> enabled n (MAbort o) = true -> step n (MAbort o) = Ok n1 ->
  continues n1 evs2 n2 -> (i < length (n_works n))%nat -> w_owner (work_at n i) = o ->
  exists l, n_log n2 = n_log n ++ RAborted o :: l /\ prefix (messages i l) (queued i (n_queue n)) /\ ends i l = [].
Proof.
  intros evs n o n1 evs2 n2 i X En St C L O.
  assert (X1 : execution (evs ++ [MAbort o]) n1) by (econstructor; eassumption).
  cbn [step] in St. injection St as <-.
  destruct (cut_continues _ _ _ _ i X1 C) as (l & Lg & P & E).
  - unfold abort_owner, doom, with_doomed. cbv zeta. cbn [n_works].
    set (k := works_of _ _ _). set (f := match _ with Unary => _ | Streaming => _ end).
    destruct (change_works_fields f k (tell [RAborted o] n)) as (_ & _ & _ & _ & _ & _ & F). rewrite F. exact L.
  - apply abort_unlinks; assumption.
  - rewrite abort_log in Lg. rewrite <- app_assoc in Lg. exists l. split; [exact Lg |]. split; [| exact E].
    rewrite abort_queue in P. eapply prefix_trans; [| exact P]. eexists. reflexivity.
Qed.

Example C38_native_abort_applies : execution story (after story) /\ enabled (after story) (MAbort 2) = true /\
  w_owner (work_at (after story) 2) = 2%nat /\ queued 2 (n_queue (after story)) = [[7]] /\
  told (story ++ [MAbort 2; WRead 2 [8]; MDispatch; MDispatch; MDeferred 2; WEnd 2; WStatus 2 1; WExit 2; MJoin; MDispatch; MDispatch])
  = Some ([RMessage 0 0 [1; 2]; RAborted 2; RMessage 2 2 [7]; RMessage 0 0 [3]; RDone 1 1 [9]; RError 0 0 14], []).
Proof. split; [apply ran; reflexivity |]. repeat (split; [reflexivity |]). reflexivity. Qed.

Print Assumptions C38_native_abort_partial.

(** Every message that is in the event queue when the user aborts the stream is passed to the handlers after the abort. *)
Theorem C38_native_queue_refuted : forall evs n i data, execution evs n -> idle n = true -> In (PData i data) (n_queue n) ->
  let o := w_owner (work_at n i) in
  exists n1 n2 l, step n (MAbort o) = Ok n1 /\ enabled n (MAbort o) = true /\
    continues n1 (repeat MDispatch (length (n_queue n))) n2 /\
    n_log n2 = n_log n ++ RAborted o :: l /\ In (RMessage o i data) l.
Proof.
  intros evs n i data X Id I o. pose proof (inv_execution _ _ X) as Iv.
  assert (Pr : In (Some data) (proj i (n_queue n))).
  { unfold proj. apply in_flat_map. exists (PData i data). split; [exact I |]. rewrite Nat.eqb_refl. now left. }
  assert (L : (i < length (n_works n))%nat).
  { apply (queue_in _ _ _ Iv). intro E. rewrite E in Pr. destruct Pr. }
  assert (Ow : owner_exists n o = true).
  { apply (g_alive _ _ _ _ _ _ _ _ _ _ _ _ (i_views _ _ Iv i L)). intro E. revert Pr E. clear. induction (proj i (n_queue n)) as [| [d |] q IH]; cbn; intros Pr E.
    - destruct Pr.
    - discriminate.
    - destruct Pr as [Pr | Pr]; [discriminate | auto]. }
  assert (En : enabled n (MAbort o) = true) by (cbn [enabled]; rewrite Id, Ow; reflexivity).
  assert (X1 : execution (evs ++ [MAbort o]) (abort_owner o n)) by (econstructor; [exact X | exact En | reflexivity]).
  destruct (dispatch_all _ _ (length (n_queue n)) X1) as (n2 & C & _ & _).
  - unfold idle. rewrite abort_idle. exact Id.
  - rewrite abort_queue. apply le_n.
  - destruct (dispatch_messages _ _ _ _ X1 C) as (l & Lg & M). exists (abort_owner o n), n2, l.
    split; [reflexivity |]. split; [exact En |]. split; [exact C |]. rewrite Lg, abort_log, <- app_assoc. split; [reflexivity |].
    rewrite abort_queue, firstn_all in M. specialize (M i data I).
    assert (K : keeps (work_at n i) (work_at (abort_owner o n) i)) by (apply (step_keeps n (MAbort o)); [exact En | reflexivity | exact L]).
    rewrite (kp_owner _ _ K) in M. exact M.
Qed.

Example C38_native_queue_applies : execution story (after story) /\ idle (after story) = true /\ In (PData 2 [7]) (n_queue (after story)).
Proof. split; [apply ran; reflexivity |]. split; [reflexivity |]. vm_compute. auto. Qed.

Print Assumptions C38_native_queue_refuted.

(** * C74: destruction is safe at any time *)

(** As long as channels are only destroyed when the threads of their calls have got hold of the connection, no step of any thread
    uses an object that was destroyed, whatever the user destroys and whenever.
    Missing: a channel should be destroyed at any time; see [C74_channel_dropped_refuted]. *)
Theorem C74_no_dangling_partial : forall evs n e, execution evs n -> careful evs -> enabled n e = true -> exists n', step n e = Ok n'.
Proof. exact careful_ok. Qed.

(** If channels are not destroyed at all, or there are only streams, the condition holds. *)
Theorem C74_no_dangling_streams : forall evs n e, execution evs n -> (forall e', In e' evs -> e' <> MNew Unary) -> enabled n e = true ->
  exists n', step n e = Ok n'.
Proof.
  intros evs n e X U En. apply (step_ok evs); [apply inv_execution, X | exact En |]. intros i ->.
  cbn [enabled] in En. apply is_at_spec in En. destruct En as (L & T & _).
  assert (A : forall o, (o < length (n_owners n))%nat -> fst (owner_at n o) = Streaming).
  { clear - X U. induction X as [| evs n e n' X IH En St]; intros o L; [cbn in L; lia |].
    assert (IH' := IH (fun e' I => U e' (in_or_app _ _ _ (or_introl I)))). clear IH.
    assert (F : match e with
                | MNew t => n_owners n' = n_owners n ++ [(t, true)]
                | MDestroy o => n_owners n' = set_nth o (fst (owner_at n o), false) (n_owners n)
                | _ => n_owners n' = n_owners n end).
    { destruct e; cbn [step] in St; try (injection St as <-; reflexivity);
        try (unfold on_work in St; gone_case; try (destruct (channel_exists _ _); [| discriminate]); injection St as <-; try destruct (w_linked _); reflexivity).
      - injection St as <-. unfold abort_owner, doom, with_doomed. cbv zeta. cbn [n_owners].
        set (k := works_of _ _ _). set (f := match _ with Unary => _ | Streaming => _ end).
        destruct (change_works_fields f k (tell [RAborted o0] n)) as (F & _). rewrite F. reflexivity.
      - injection St as <-. unfold destroy_owner. cbv zeta. set (k := works_of _ _ _). rewrite (proj1 (enter_fields _ _)).
        match goal with |- n_owners (change_works ?f k ?m) = _ => destruct (change_works_fields f k m) as (F & _) end. rewrite F. reflexivity.
      - injection St as <-. unfold join. destruct (n_joining n); [reflexivity |]. rewrite (proj1 (enter_fields _ _)). reflexivity.
      - unfold dispatch in St. destruct (n_queue n) as [| [j d | j] q]; [injection St as <-; reflexivity | |].
        + destruct (snd _); [injection St as <-; reflexivity | discriminate].
        + destruct (_ || _); [discriminate |]. injection St as <-. unfold finished_slot. destruct (w_linked _); reflexivity. }
    unfold owner_at in *. destruct e; rewrite F in *; try (apply IH', L).
    - destruct t; [elim (U (MNew Unary)); [apply in_or_app; right; now left | reflexivity] |].
      rewrite nth_app_new. destruct (Nat.eqb_spec o (length (n_owners n))) as [-> | N]; [reflexivity |]. apply IH'. rewrite app_length in L. cbn in L. lia.
    - rewrite set_nth_length in L. rewrite nth_set_nth. destruct (Nat.eqb_spec o o0) as [-> | N]; cbn [andb]; [| apply IH', L].
      rewrite (proj2 (Nat.ltb_lt _ _) L). cbn [fst]. apply IH', L. }
  unfold task_of in T. rewrite A in T; [discriminate |]. apply (i_owners _ _ (inv_execution _ _ X) i L).
Qed.

Definition busy : list event := story ++ [MAbort 2; WRead 2 [8]; MDestroy 2; WEnd 2].

Lemma never_careful : forall evs, (forall ch, ~ In (MDropChannel ch) evs) -> careful evs.
Proof. intros evs N a ch b n i E. elim (N ch). rewrite E. apply in_or_app. right. now left. Qed.

Example C74_no_dangling_applies : execution busy (after busy) /\ careful busy /\ enabled (after busy) (WStatus 2 1) = true /\ idle (after busy) = false.
Proof.
  split; [apply ran; reflexivity |]. split; [| split; reflexivity]. apply never_careful. intros ch I. vm_compute in I. intuition discriminate.
Qed.

Example C74_no_dangling_streams_applies : let evs := [MChannel; MNew Streaming; MStart 0 0; WRead 0 [1]; MDropChannel 0; MDestroy 0] in
  execution evs (after evs) /\ (forall e', In e' evs -> e' <> MNew Unary) /\ enabled (after evs) (WRead 0 [2]) = true.
Proof. cbv zeta. split; [apply ran; reflexivity |]. split; [| reflexivity]. intros e' I ->. vm_compute in I. intuition discriminate. Qed.

Print Assumptions C74_no_dangling_partial.
Print Assumptions C74_no_dangling_streams.

(** If the channel is destroyed when the thread of a call on it has not yet made its call, and no other call or stream keeps the
    connection, the thread uses the destroyed connection. *)
Theorem C74_channel_dropped_refuted : forall evs n i, execution evs n -> idle n = true -> is_at n i Unary Begin = true ->
  let ch := w_channel (work_at n i) in
  nth ch (n_channels n) false = true -> (forall w, In w (n_works n) -> uses ch w = false) ->
  exists n1, execution (evs ++ [MDropChannel ch]) n1 /\ enabled n1 (WBegin i) = true /\ step n1 (WBegin i) = UB DanglingRef.
Proof.
  intros evs n i X Id At ch Ch Us. exists (with_channels (set_nth ch false (n_channels n)) n).
  split; [econstructor; [exact X | cbn [enabled]; rewrite Id, Ch; reflexivity | reflexivity] |]. split; [exact At |].
  destruct (is_at_spec _ _ _ _ At) as (L & T & P).
  cbn [step]. unfold on_work. cbv zeta. change (work_at (with_channels _ n) i) with (work_at n i). fold ch.
  rewrite (worker_alive _ _ _ (inv_execution _ _ X) L) by (rewrite P; discriminate).
  unfold channel_exists. cbn [n_channels n_works with_channels]. rewrite nth_set_nth, Nat.eqb_refl. cbn [andb].
  assert (Lc : (ch < length (n_channels n))%nat).
  { destruct (Nat.lt_ge_cases ch (length (n_channels n))) as [Lc | Lc]; [exact Lc |]. rewrite nth_overflow in Ch by exact Lc. discriminate. }
  rewrite (proj2 (Nat.ltb_lt _ _) Lc). cbn [orb].
  destruct (existsb (uses ch) (n_works n)) eqn:E; [| reflexivity]. apply existsb_exists in E. destruct E as (w & I & U). rewrite (Us w I) in U. discriminate.
Qed.

Example C74_channel_dropped_applies : let evs := [MChannel; MNew Unary; MStart 0 0] in
  execution evs (after evs) /\ idle (after evs) = true /\ is_at (after evs) 0 Unary Begin = true /\
  nth (w_channel (work_at (after evs) 0)) (n_channels (after evs)) false = true /\
  (forall w, In w (n_works (after evs)) -> uses (w_channel (work_at (after evs) 0)) w = false).
Proof.
  cbv zeta. split; [apply ran; reflexivity |]. repeat (split; [reflexivity |]). intros w I. vm_compute in I. destruct I as [<- | []]. reflexivity.
Qed.

Print Assumptions C74_channel_dropped_refuted.

(** The thread of the client that waits in a destructor is never blocked for ever: what it waits for has been cancelled, and from
    there on the threads that it waits for need nothing but the answer of the gRPC library to get to their end.
    Missing: as in [C74_no_dangling_partial]. *)
Theorem C74_no_deadlock_partial : forall evs n, execution evs n -> careful evs ->
  (forall i rest, n_joining n = i :: rest -> w_cancelled (work_at n i) = true) /\
  exists evs2 n2, continues n evs2 n2 /\ Forall (only_ending (n_joining n)) evs2 /\ idle n2 = true.
Proof.
  intros evs n X C. split; [apply (i_head _ _ (inv_execution _ _ X)) |].
  destruct (waiting_ends _ _ _ X C eq_refl) as (evs2 & n2 & C2 & F & J & _). exists evs2, n2. unfold idle. rewrite J. auto.
Qed.

Example C74_no_deadlock_applies : execution busy (after busy) /\ careful busy /\ n_joining (after busy) = [2%nat] /\
  told (busy ++ [WStatus 2 1; WExit 2; MJoin]) <> None.
Proof. split; [apply ran; reflexivity |]. split; [apply C74_no_dangling_applies |]. split; [vm_compute; reflexivity |]. vm_compute. discriminate. Qed.

Print Assumptions C74_no_deadlock_partial.

(** When the destructor of a reply or stream has returned, its threads are over, their objects are destroyed, and no event for
    them is left. *)
Theorem C74_released : forall evs n i, execution evs n -> idle n = true -> (i < length (n_works n))%nat ->
  owner_exists n (w_owner (work_at n i)) = false ->
  w_gone (work_at n i) = true /\ w_place (work_at n i) = Over /\ forall p, In p (n_queue n) -> p <> PFinished i /\ forall data, p <> PData i data.
Proof.
  intros evs n i X Id L O. pose proof (inv_execution _ _ X) as I. unfold idle in Id.
  assert (G : w_gone (work_at n i) = true).
  { destruct (i_dead _ _ I i L O) as [G | J]; [exact G |]. destruct (n_joining n); [destruct J | discriminate]. }
  pose proof (i_views _ _ I i L) as V. unfold view in V. cbv zeta in V. rewrite O in V.
  destruct (g_gone _ _ _ _ _ _ _ _ _ _ _ _ V G) as (P & _ & N & _). split; [exact G |]. split; [exact P |].
  assert (Em : somes (proj i (n_queue n)) = []).
  { destruct (somes (proj i (n_queue n))) eqn:E; [reflexivity |]. pose proof (g_alive _ _ _ _ _ _ _ _ _ _ _ _ V) as A. rewrite E in A. specialize (A ltac:(discriminate)). discriminate. }
  intros p Ip. split.
  - intros ->. apply N. unfold proj. apply in_flat_map. exists (PFinished i). split; [exact Ip |]. rewrite Nat.eqb_refl. now left.
  - intros data ->. rewrite <- queued_proj in Em. assert (Y : In data (queued i (n_queue n))).
    { unfold queued. apply in_flat_map. exists (PData i data). split; [exact Ip |]. rewrite Nat.eqb_refl. now left. }
    rewrite Em in Y. destruct Y.
Qed.

Example C74_released_applies : let evs := busy ++ [WStatus 2 1; WExit 2; MJoin] in
  execution evs (after evs) /\ idle (after evs) = true /\ owner_exists (after evs) (w_owner (work_at (after evs) 2)) = false.
Proof. cbv zeta. split; [apply ran; reflexivity | split; reflexivity]. Qed.

Print Assumptions C74_released.

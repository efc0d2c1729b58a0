(** Properties C37, C38, C39, C55: server streams of a client. *)

From Coq Require Import ZArith List Bool Arith Lia.
From Verif Require Import Base StreamModel StreamProofs.
Import ListNotations.
Open Scope nat_scope.

(** ** Specification

    Everything is said about what can be observed: the calls and signals recorded in the log of a
    client, and the open connections. *)

(** The client after a history of events. *)
Definition history (evs : list event) (c : client) : Prop := run new_client evs = Ok c.

(** The stream was handed out by stream() and did not end since. *)
Definition active (c : client) (sid : nat) : Prop :=
  (exists h, In (OReturned sid h) (k_log c)) /\ ~ In (OFinished sid) (k_log c).

(** Method and argument of a stream. *)
Definition subscribed (c : client) (sid : nat) (method arg : list Z) : Prop :=
  s_method (stream_at c sid) = method /\ s_arg (stream_at c sid) = arg.

(** The handlers given to the calls of stream() that returned this stream, in this order. *)
Fixpoint registered (log : list output) (sid : nat) : list nat :=
  match log with
  | [] => []
  | OReturned s (Some h) :: log' => if Nat.eqb s sid then h :: registered log' sid else registered log' sid
  | _ :: log' => registered log' sid
  end.

(** Connection [cid] is open and belongs to the stream. *)
Definition connected (c : client) (cid sid : nat) : Prop :=
  exists ch, In (mkConn cid sid ch) (k_conns c).

(** Nothing of this kind happens between the states. *)
Definition never (p : output -> Prop) (c c' : client) : Prop :=
  exists o, k_log c' = k_log c ++ o /\ Forall (fun x => ~ p x) o.

(** A connection is opened for the stream, or a message of it is delivered, or an error of it reported. *)
Definition works (sid : nat) (o : output) : Prop :=
  (exists cid ch, o = OOpen cid sid ch) \/ (exists h d, o = OMessage sid h d) \/ (exists d, o = OReceived sid d) \/
  (exists code, o = OError sid code).

Definition opens (o : output) : Prop := exists cid sid ch, o = OOpen cid sid ch.

(** ** Auxiliary *)

Lemma history_Inv evs c : history evs c -> Inv c.
Proof. intro H. eapply Inv_run; [exact Inv_new | exact H]. Qed.
Lemma history_InvL evs c : history evs c -> InvL c.
Proof. intro H. eapply InvL_run; [exact Inv_new | exact InvL_new | exact H]. Qed.

Lemma registered_eq log sid : registered log sid = handlers_of log sid.
Proof.
  induction log as [|o log IH]; [reflexivity|]. rewrite handlers_cons, <- IH.
  destruct o; try reflexivity. rewrite handlers_one. cbn.
  destruct h; rewrite ?(Nat.eqb_sym sid0 sid); destruct (Nat.eqb sid sid0); reflexivity.
Qed.

Lemma works_life sid o : works sid o <-> life_of sid o.
Proof.
  split.
  - intros [(cid & ch & ->)|[(h & d & ->)|[(d & ->)|(code & ->)]]]; reflexivity.
  - unfold works. destruct o; cbn; try contradiction; intros <-; eauto 8.
Qed.

Lemma never_life sid c c' : no_life sid c c' -> never (works sid) c c'.
Proof.
  intros (o & E & F). exists o. split; [exact E|]. eapply Forall_impl; [|exact F]. intros x N W. apply N. now apply works_life.
Qed.

Lemma active_in c sid : InvL c -> active c sid <-> In sid (k_active c).
Proof. intro L. symmetry. apply (L_active c L). Qed.

Lemma connected_count c cid sid : connected c cid sid -> 0 < count_conns sid c.
Proof. intros [ch H]. now apply (conn_counts c (mkConn cid sid ch)). Qed.

Lemma conn_unique c cid n : Inv c -> In n (k_conns c) -> n_id n = cid -> conn_of cid c = Some n.
Proof.
  intros I H E. unfold conn_of. pose proof (I_ids c I) as N. induction (k_conns c) as [|y l IH]; [contradiction|].
  cbn in N. inversion N as [|? ? N1 N2]; subst. cbn. destruct H as [->|H]; [now rewrite Nat.eqb_refl|].
  destruct (Nat.eqb_spec (n_id y) (n_id n)) as [E|E]; [|auto].
  exfalso. apply N1. rewrite E. now apply in_map.
Qed.

Lemma finished_timers c s : k_timers (emit_finished s c) = k_timers c.
Proof. unfold emit_finished, close_conns, client_finished. cbn. destruct (s_client _); reflexivity. Qed.
Lemma finished_channel c s : k_channel (emit_finished s c) = k_channel c.
Proof. unfold emit_finished, close_conns, client_finished. cbn. destruct (s_client _); reflexivity. Qed.
Lemma error_stream c s code x : stream_at (emit_error s code c) x = stream_at c x.
Proof. unfold emit_error. destruct (s_client _); reflexivity. Qed.

(** ** C37 Equal subscriptions share a stream *)

(** A request for the method and argument of an active stream returns this stream and opens nothing. *)
Theorem C37_shared : forall evs c sid method arg h, history evs c -> active c sid -> subscribed c sid method arg ->
  exists c', step c (Subscribe method arg h) = Ok c' /\ k_log c' = k_log c ++ [OReturned sid h] /\
    k_conns c' = k_conns c.
Proof.
  intros evs c sid m a h H A [M Ar]. pose proof (history_Inv _ _ H) as I. apply active_in in A; [|eapply history_InvL; exact H].
  cbn [step]. unfold client_stream.
  destruct (k_channel c) as [ch|] eqn:C.
  2:{ exfalso. apply (I_channel c I); [|exact C]. pose proof (active_below c I sid A) as L. intro E. rewrite E in L. cbn in L. lia. }
  destruct (find (equal_to c m a) (k_active c)) as [s|] eqn:F.
  - apply find_some in F as [Hs K]. apply equal_to_key in K.
    assert (s = sid) as -> by (apply (I_keys c I); auto; unfold same_key; intuition congruence).
    eexists. split; [reflexivity|]. split; reflexivity.
  - exfalso. eapply find_none in F; [|exact A].
    assert (equal_to c m a sid = true) by (apply equal_to_key; auto). congruence.
Qed.

(** Otherwise it returns a new stream for which one connection is opened over the current channel. *)
Theorem C37_separate : forall evs c ch method arg h, history evs c -> k_channel c = Some ch ->
  (forall sid, active c sid -> ~ subscribed c sid method arg) ->
  exists c' sid cid, step c (Subscribe method arg h) = Ok c' /\
    k_log c' = k_log c ++ [OOpen cid sid ch; OReturned sid h] /\
    active c' sid /\ subscribed c' sid method arg /\ connected c' cid sid /\
    (forall h', ~ In (OReturned sid h') (k_log c)).
Proof.
  intros evs c ch m a h H C N. pose proof (history_Inv _ _ H) as I. pose proof (history_InvL _ _ H) as IL.
  cbn [step]. unfold client_stream. rewrite C.
  destruct (find (equal_to c m a) (k_active c)) as [s|] eqn:F.
  - exfalso. apply find_some in F as [Hs K]. apply equal_to_key in K. apply (N s); [now apply active_in | exact K].
  - eexists _, (length (k_streams c)), (k_next c). split; [reflexivity|].
    cbn -[stream_at]. rewrite <- app_assoc. split; [reflexivity|].
    assert (Fr : forall h', ~ In (OReturned (length (k_streams c)) h') (k_log c)).
    { intros h' X. pose proof (I_returned c I) as R. rewrite Forall_forall in R. apply R in X. cbn in X. lia. }
    split; [|split; [|split; [|exact Fr]]].
    + split; cbn.
      * exists h. rewrite !in_app_iff. cbn. tauto.
      * rewrite !in_app_iff. cbn. intros [[X|[X|[]]]|[X|[]]]; try discriminate.
        apply (L_finished c IL) in X. lia.
    + unfold subscribed, stream_at. cbn. rewrite app_nth2, Nat.sub_diag by lia. auto.
    + exists ch. cbn. apply in_app_iff. right. now left.
Qed.

(** A message of a connection is given to every handler registered for its stream, once and in the order
    of registration, and then announced. *)
Theorem C37_all_handlers : forall evs c cid sid data, history evs c -> connected c cid sid ->
  (active c sid \/ s_refs (stream_at c sid) <> 0) ->
  exists c', step c (Data cid data) = Ok c' /\
    k_log c' = k_log c ++ map (fun h => OMessage sid h data) (registered (k_log c) sid) ++ [OReceived sid data].
Proof.
  intros evs c cid sid d H [ch Hn] Al. pose proof (history_Inv _ _ H) as I. cbn [step]. eexists. split; [reflexivity|].
  unfold conn_data. rewrite (conn_unique c cid _ I Hn eq_refl). cbn [n_stream].
  assert (A : alive (stream_at c sid) = true).
  { unfold alive. destruct Al as [A|A].
    - apply active_in in A; [|eapply history_InvL; exact H]. apply (I_client c I) in A. now rewrite A.
    - apply Nat.eqb_neq in A. rewrite A. apply orb_true_r. }
  rewrite (I_alive c I sid A). cbn [handle say k_log]. rewrite registered_eq.
  pose proof (I_conns c I) as F. rewrite Forall_forall in F. specialize (F _ Hn). cbn in F.
  now rewrite (I_handlers c I sid F).
Qed.

(** A stream never has two connections. *)
Theorem C37_one_connection : forall evs c cid cid' sid, history evs c ->
  connected c cid sid -> connected c cid' sid -> cid = cid'.
Proof.
  intros evs c cid cid' sid H [ch A] [ch' B]. pose proof (history_Inv _ _ H) as I.
  pose proof (I_one c I sid) as O. unfold count_conns in O.
  assert (FA : In (mkConn cid sid ch) (filter (of_stream sid) (k_conns c)))
    by (apply filter_In; split; [exact A | apply Nat.eqb_refl]).
  assert (FB : In (mkConn cid' sid ch') (filter (of_stream sid) (k_conns c)))
    by (apply filter_In; split; [exact B | apply Nat.eqb_refl]).
  destruct (filter (of_stream sid) (k_conns c)) as [|x [|y l]]; [contradiction | | cbn in O; lia].
  destruct FA as [->|[]]. destruct FB as [E|[]]. now injection E.
Qed.

(** ** C38 Ended streams *)

(** A stream the server has ended stays ended. *)
Theorem C38_server_end : forall evs c cid sid n c1 evs2 c2, history evs c ->
  In (mkConn cid sid (n, Http2)) (k_conns c) -> (active c sid \/ s_refs (stream_at c sid) <> 0) ->
  step c (End cid Done) = Ok c1 -> run c1 evs2 = Ok c2 ->
  In (OFinished sid) (k_log c1) /\ never (works sid) c1 c2.
Proof.
  intros evs c cid sid k c1 evs2 c2 H Hn Al E R. pose proof (history_Inv _ _ H) as I.
  assert (A : alive (stream_at c sid) = true).
  { unfold alive. destruct Al as [A|A].
    - apply active_in in A; [|eapply history_InvL; exact H]. apply (I_client c I) in A. now rewrite A.
    - apply Nat.eqb_neq in A. rewrite A. apply orb_true_r. }
  cbn [step] in E. injection E as E. unfold conn_end in E.
  rewrite (conn_unique c cid _ I Hn eq_refl) in E. cbn [n_stream n_channel snd] in E. rewrite (I_alive c I sid A) in E.
  set (c0 := with_conns _ c) in E.
  assert (I0 : Inv c0) by now apply Inv_filter_conns.
  pose proof (count_removed c _ I Hn) as Z. cbn [n_id n_stream] in Z. fold c0 in Z.
  split.
  - rewrite <- E, finished_log. apply in_app_iff. right. now left.
  - apply never_life. eapply dead_run; [ | |exact R]; rewrite <- E; [now apply Inv_finished|].
    left. destruct (finished_stream c0 sid sid) as [S1 _]. destruct (finished_counts c0 sid sid) as [G1 G2].
    rewrite Nat.eqb_refl in *. repeat split.
    + rewrite finished_length. pose proof (I_conns c I) as F. rewrite Forall_forall in F. now apply (F _ Hn).
    + exact G1.
    + rewrite G2. change (count_timers sid c0) with (count_timers sid c). lia.
    + exact S1.
Qed.

(** Neither does a stream work again that the user has aborted while it was connected. Missing: streams that are
    aborted while they wait for a retry (see below). *)
Theorem C38_abort_partial : forall evs c cid sid c1 evs2 c2, history evs c ->
  connected c cid sid -> s_refs (stream_at c sid) <> 0 ->
  step c (AbortStream sid) = Ok c1 -> run c1 evs2 = Ok c2 ->
  In (OFinished sid) (k_log c1) /\ ~ (exists cid', connected c1 cid' sid) /\ never (works sid) c1 c2.
Proof.
  intros evs c cid sid c1 evs2 c2 H Cn Rf E R. pose proof (history_Inv _ _ H) as I.
  pose proof (connected_count _ _ _ Cn) as P. pose proof (I_one c I sid) as O.
  cbn [step] in E. apply Nat.eqb_neq in Rf. rewrite Rf in E. injection E as E.
  destruct (finished_stream c sid sid) as [S1 _]. destruct (finished_counts c sid sid) as [G1 G2]. rewrite Nat.eqb_refl in *.
  split; [rewrite <- E, finished_log; apply in_app_iff; right; now left|].
  split.
  - intros [cid' X]. apply connected_count in X. rewrite <- E, G1 in X. lia.
  - apply never_life. eapply dead_run; [ | |exact R]; rewrite <- E; [now apply Inv_finished|].
    left. repeat split.
    + rewrite finished_length. apply stream_refs_below. now apply Nat.eqb_neq.
    + exact G1.
    + rewrite G2. lia.
    + exact S1.
Qed.

(** And so for a stream that has ended and is not connected, once the user has given up all references. *)
Theorem C38_released_partial : forall evs c sid evs2 c2, history evs c ->
  In (OFinished sid) (k_log c) -> ~ (exists cid, connected c cid sid) -> s_refs (stream_at c sid) = 0 ->
  run c evs2 = Ok c2 -> never (works sid) c c2.
Proof.
  intros evs c sid evs2 c2 H F N Rf R. pose proof (history_Inv _ _ H) as I. pose proof (history_InvL _ _ H) as IL.
  apply never_life. eapply dead_run; [exact I | | exact R]. right. split; [now apply (L_finished c IL)|]. split.
  - unfold count_conns. destruct (filter (of_stream sid) (k_conns c)) as [|n l] eqn:E; [reflexivity|].
    exfalso. apply N. assert (X : In n (filter (of_stream sid) (k_conns c))) by (rewrite E; now left).
    apply filter_In in X as [X Y]. apply Nat.eqb_eq in Y. exists (n_id n), (n_channel n). rewrite <- Y. now destruct n.
  - unfold alive. rewrite Rf. cbn. rewrite orb_false_r. apply not_true_is_false. intro S.
    apply (I_client c I) in S. apply (L_active c IL) in S. tauto.
Qed.

(** Missing: a stream aborted while the client waits to retry a failed connection.  Any active stream the user
    holds can be brought to start again after its end. *)
Theorem C38_abort_during_retry_refuted : forall evs c cid sid code, history evs c ->
  connected c cid sid -> active c sid -> s_refs (stream_at c sid) <> 0 ->
  exists t c1 c2 c3 c4 cid' ch,
    step c (End cid (Failed code)) = Ok c1 /\ step c1 (AbortStream sid) = Ok c2 /\
    In (OFinished sid) (k_log c2) /\
    step c2 (Timer t) = Ok c3 /\ k_log c3 = k_log c2 ++ [OOpen cid' sid ch] /\
    step c3 (Data cid' []) = Ok c4 /\ In (OReceived sid []) (skipn (length (k_log c2)) (k_log c4)).
Proof.
  intros evs c cid sid code H [ch Hn] A Rf. pose proof (history_Inv _ _ H) as I. pose proof (history_InvL _ _ H) as IL.
  apply active_in in A; [|exact IL]. assert (Cl : s_client (stream_at c sid) = true) by now apply (I_client c I).
  pose proof (active_below c I sid A) as L.
  assert (D : s_deleted (stream_at c sid) = false) by (apply (I_alive c I); unfold alive; now rewrite Cl).
  set (c0 := with_conns (filter (fun n' => negb (Nat.eqb (n_id n') cid)) (k_conns c)) c).
  set (c1 := emit_error sid code c0).
  assert (E1 : step c (End cid (Failed code)) = Ok c1).
  { cbn [step]. unfold conn_end. rewrite (conn_unique c cid _ I Hn eq_refl). cbn [n_stream n_channel]. rewrite D. reflexivity. }
  assert (I1 : Inv c1) by (eapply Inv_step; eauto).
  assert (Q1 : stream_at c1 sid = stream_at c sid) by (unfold c1; now rewrite error_stream).
  assert (T1 : k_timers c1 = k_timers c ++ [sid]).
  { unfold c1, emit_error. change (s_client (stream_at (say [OError sid code] c0) sid)) with (s_client (stream_at c sid)). now rewrite Cl. }
  set (c2 := emit_finished sid c1).
  assert (E2 : step c1 (AbortStream sid) = Ok c2).
  { cbn [step]. rewrite Q1. apply Nat.eqb_neq in Rf. now rewrite Rf. }
  assert (I2 : Inv c2) by (eapply Inv_step; eauto).
  destruct (finished_stream c1 sid sid) as [_ R2]. fold c2 in R2. rewrite Q1 in R2.
  assert (T2 : k_timers c2 = k_timers c ++ [sid]).
  { rewrite <- T1. apply finished_timers. }
  assert (Ch2 : k_channel c2 <> None).
  { apply (I_channel c2 I2). intro Z. assert (X : length (k_streams c2) = 0) by now rewrite Z.
    unfold c2 in X. rewrite finished_length in X. unfold c1 in X.
    destruct (emit_error_frame sid code c0) as (_ & _ & _ & _ & S1 & _). rewrite S1 in X. cbn in X. lia. }
  set (t := length (k_timers c)).
  assert (Nt : nth_error (k_timers c2) t = Some sid) by (rewrite T2; unfold t; rewrite nth_error_app2, Nat.sub_diag by lia; reflexivity).
  destruct (k_channel c2) as [ch2|] eqn:Ec; [|congruence].
  set (c2' := with_timers (remove_nth t (k_timers c2)) c2).
  set (c3 := open_conn ch2 sid c2').
  assert (E3 : step c2 (Timer t) = Ok c3).
  { cbn [step]. unfold timer_fires. rewrite Nt. fold c2'.
    assert (Al : alive (stream_at c2' sid) = true).
    { change (stream_at c2' sid) with (stream_at c2 sid). unfold alive. rewrite R2. apply Nat.eqb_neq in Rf. rewrite Rf. apply orb_true_r. }
    rewrite Al. change (k_channel c2') with (k_channel c2). rewrite Ec. reflexivity. }
  assert (I3 : Inv c3) by (eapply Inv_step; eauto).
  assert (Q3 : stream_at c3 sid = stream_at c2 sid) by reflexivity.
  exists t, c1, c2, c3. eexists _, (k_next c2), ch2.
  split; [exact E1|]. split; [exact E2|]. split; [unfold c2; rewrite finished_log; apply in_app_iff; right; now left|].
  split; [exact E3|]. split; [reflexivity|]. split; [reflexivity|].
  unfold conn_data. rewrite (conn_unique c3 (k_next c2) (mkConn (k_next c2) sid ch2) I3); [|cbn; apply in_app_iff; right; now left|reflexivity].
  cbn [n_stream]. assert (D3 : s_deleted (stream_at c3 sid) = false).
  { apply (I_alive c3 I3). rewrite Q3. unfold alive. rewrite R2. apply Nat.eqb_neq in Rf. rewrite Rf. apply orb_true_r. }
  rewrite D3. cbn [handle say k_log]. unfold c3 at 1. cbn [open_conn say k_log]. change (k_log c2') with (k_log c2).
  rewrite <- app_assoc, skipn_app, skipn_all, Nat.sub_diag. cbn. right. apply in_app_iff. right. now left.
Qed.

(** ** C39 Attaching a channel *)

(** From another thread. *)
Theorem C39_wrong_thread : forall c ch evs, step c (Attach false ch) = Throw RuntimeError /\
  run c (Attach false ch :: evs) = run c evs.
Proof. auto. Qed.

Definition finishes (o : list output) : list nat :=
  flat_map (fun x => match x with OFinished sid => [sid] | _ => [] end) o.

(** With at most one active stream: it ends exactly once, loses its connection and the new channel is current.
    Missing: two and more active streams, where iterators are used after they became invalid (see below). *)
Theorem C39_attach_partial : forall evs c ch, history evs c -> length (k_active c) <= 1 ->
  exists c' o, step c (Attach true ch) = Ok c' /\ k_channel c' = Some ch /\ k_log c' = k_log c ++ o /\
    (forall sid, active c sid <-> In sid (finishes o)) /\ NoDup (finishes o) /\
    (forall sid, ~ active c' sid) /\
    (forall sid cid, active c sid -> ~ connected c' cid sid) /\ (forall x, In x o -> ~ opens x).
Proof.
  intros evs c ch H L. pose proof (history_Inv _ _ H) as I. pose proof (history_InvL _ _ H) as IL.
  cbn [step]. unfold attachChannel. cbn [negb].
  destruct (k_active c) as [|s [|? ?]] eqn:A; [| |cbn in L; lia].
  - cbn [length abort_loop bind with_channel k_active]. rewrite A. cbn [length abort_loop].
    assert (Na : forall sid, ~ active c sid) by (intros sid X; apply active_in in X; [|exact IL]; now rewrite A in X).
    eexists _, []. split; [reflexivity|]. cbn. rewrite app_nil_r. split; [reflexivity|]. split; [reflexivity|].
    split; [intro sid; split; [intro X; now apply Na in X | contradiction]|]. split; [constructor|].
    split; [exact Na|]. split; [intros sid cid X; now apply Na in X | contradiction].
  - cbn [length abort_loop]. rewrite A. cbn [nth_error]. cbn [bind].
    assert (E : k_active (emit_finished s c) = []).
    { destruct (k_active (emit_finished s c)) as [|x l] eqn:X; [reflexivity|]. exfalso.
      assert (Y : In x (k_active (emit_finished s c))) by (rewrite X; now left).
      apply finished_active in Y; [|exact I]. rewrite A in Y. destruct Y as [[->|[]] Y]. now apply Y. }
    cbn [with_channel k_active]. rewrite E. cbn [length abort_loop].
    eexists _, _. split; [reflexivity|]. cbn [k_channel]. split; [reflexivity|]. cbn [k_log].
    split; [apply finished_log|].
    assert (Fe : finishes (OFinished s :: map (fun n => OClose (n_id n)) (filter (of_stream s) (k_conns c))) = [s]).
    { cbn. f_equal. induction (filter (of_stream s) (k_conns c)) as [|n l IH]; [reflexivity | exact IH]. }
    split; [|split; [|split; [|split]]].
    + intro sid. rewrite Fe, active_in, A by exact IL. reflexivity.
    + rewrite Fe. repeat constructor. intros [].
    + intros sid X.
      assert (IL' : InvL (emit_finished s c)).
      { apply InvL_emit_finished; auto. apply (active_below c I). rewrite A. now left. }
      apply (L_active _ IL') in X. now rewrite E in X.
    + intros sid cid X Y. apply active_in in X; [|exact IL]. rewrite A in X. destruct X as [<-|[]].
      apply connected_count in Y. change (0 < count_conns s (emit_finished s c)) in Y.
      rewrite (proj1 (finished_counts c s s)), Nat.eqb_refl in Y. lia.
    + intros x [<-|X] (cid & sid & ch' & Y); [discriminate|]. apply in_map_iff in X as (n & <- & _). discriminate.
Qed.

Lemma abort_loop_S n i c : abort_loop (S n) i c =
  match nth_error (k_active c) i with Some sid => abort_loop n (S i) (emit_finished sid c) | None => UB DanglingRef end.
Proof. reflexivity. Qed.

(** Missing: two and more.  Then the loop of attachChannel always uses destroyed elements of the vector. *)
Theorem C39_several_streams_refuted : forall evs c ch a b, history evs c -> active c a -> active c b -> a <> b ->
  step c (Attach true ch) = UB DanglingRef.
Proof.
  intros evs c ch a b H A B N. pose proof (history_Inv _ _ H) as I. pose proof (history_InvL _ _ H) as IL.
  apply active_in in A; [|exact IL]. apply active_in in B; [|exact IL].
  cbn [step]. unfold attachChannel. cbn [negb].
  enough (X : forall n i d, Inv d -> length (k_active d) < i + n -> 0 < n -> i <= length (k_active d) ->
              abort_loop n i d = UB DanglingRef).
  { destruct (k_active c) as [|s [|s' l]] eqn:E; [contradiction | destruct A as [<-|[]], B as [<-|[]]; congruence|].
    cbn [length]. rewrite abort_loop_S, E. cbn [nth_error].
    assert (Le : length (k_active (emit_finished s c)) < length (k_active c)).
    { apply (NoDup_incl_length (l := s :: k_active (emit_finished s c))).
      - constructor; [intro Y; apply finished_active in Y; [tauto | exact I] | apply I_nodup; now apply Inv_finished].
      - intros x [<-|Y]; [rewrite E; now left|]. apply finished_active in Y; [tauto | exact I]. }
    assert (Ge : S (length l) <= length (k_active (emit_finished s c))).
    { change (S (length l)) with (length (s' :: l)). apply NoDup_incl_length.
      - pose proof (I_nodup c I) as Nd. rewrite E in Nd. now inversion Nd.
      - intros x Y. apply finished_active; [exact I|]. rewrite E. split; [now right|]. intros ->.
        pose proof (I_nodup c I) as Nd. rewrite E in Nd. inversion Nd; subst. contradiction. }
    rewrite E in Le. cbn [length] in Le.
    rewrite X; [reflexivity | now apply Inv_finished | lia | lia | lia]. }
  induction n as [|n IH]; intros i d Id L P Li; [lia|]. cbn [abort_loop].
  destruct (nth_error (k_active d) i) as [s|] eqn:E; [|reflexivity].
  assert (Hs : In s (k_active d)) by now apply nth_error_In in E.
  assert (Li' : i < length (k_active d)) by (apply nth_error_Some; congruence).
  assert (Le : length (k_active (emit_finished s d)) < length (k_active d)).
  { apply (NoDup_incl_length (l := s :: k_active (emit_finished s d))).
    - constructor; [intro Y; apply finished_active in Y; [tauto | exact Id] | apply I_nodup; now apply Inv_finished].
    - intros x [<-|Y]; [exact Hs|]. apply finished_active in Y; [tauto | exact Id]. }
  destruct n as [|n]; [exfalso; lia|].
  destruct (le_lt_dec (S i) (length (k_active (emit_finished s d)))) as [Q|Q].
  - apply IH; [now apply Inv_finished | lia | lia | exact Q].
  - cbn [abort_loop]. destruct (nth_error (k_active (emit_finished s d)) (S i)) eqn:Y; [|reflexivity].
    assert (S i < length (k_active (emit_finished s d))) by (apply nth_error_Some; congruence). lia.
Qed.

(** ** C55 Active streams are kept alive *)

(** All attached channels use HTTP/2. *)
Definition http2_only (evs : list event) : Prop :=
  Forall (fun e => match e with Attach _ (_, k) => k = Http2 | _ => True end) evs.

(** Kept invariant: channels are Http2, active streams have a connection or a timer. *)
Record InvH (c : client) : Prop := {
  H_channel : forall n k, k_channel c = Some (n, k) -> k = Http2;
  H_conns : Forall (fun n => snd (n_channel n) = Http2) (k_conns c);
  H_kept : forall sid, In sid (k_active c) -> 0 < count_conns sid c + count_timers sid c
}.

Lemma InvH_finished c sid : Inv c -> InvH c -> InvH (emit_finished sid c).
Proof.
  intros I [A B C].
  assert (Ek : k_channel (emit_finished sid c) = k_channel c)
    by apply finished_channel.
  split.
  - rewrite Ek. exact A.
  - unfold emit_finished, close_conns. cbn. apply Forall_filter.
    unfold client_finished. destruct (s_client _); exact B.
  - intros x H. apply finished_active in H as [H N]; [|exact I]. destruct (finished_counts c sid x) as [-> ->].
    apply Nat.eqb_neq in N. rewrite N. now apply C.
Qed.

Lemma InvH_loop : forall n i c c', Inv c -> InvH c -> abort_loop n i c = Ok c' -> InvH c'.
Proof.
  induction n as [|n IH]; intros i c c' I IH' H; cbn in H; [now injection H as <-|].
  destruct (nth_error _ _) as [s|]; [|discriminate]. eapply IH; [| |exact H]; [now apply Inv_finished | now apply InvH_finished].
Qed.

Lemma filter_keeps c cid sid x : Inv c -> In (mkConn cid sid x) (k_conns c) -> forall s, s <> sid ->
  count_conns s (with_conns (filter (fun n' => negb (Nat.eqb (n_id n') cid)) (k_conns c)) c) = count_conns s c.
Proof.
  intros I H s N. unfold count_conns. cbn.
  assert (U : forall n, In n (k_conns c) -> n_id n = cid -> n_stream n = sid).
  { intros n Hn E. pose proof (conn_unique c cid _ I Hn E) as A. pose proof (conn_unique c cid _ I H eq_refl) as B.
    rewrite A in B. injection B as ->. reflexivity. }
  clear H. induction (k_conns c) as [|n l IH]; [reflexivity|]. cbn.
  destruct (Nat.eqb_spec (n_id n) cid) as [E|E]; cbn.
  - rewrite IH by (intros; apply U; [now right | assumption]). unfold of_stream at 2.
    rewrite (U n (or_introl eq_refl) E). apply not_eq_sym, Nat.eqb_neq in N. now rewrite N.
  - destruct (of_stream s n); cbn; rewrite IH by (intros; apply U; [now right | assumption]); reflexivity.
Qed.

Lemma InvH_step c e c' : Inv c -> InvH c -> (match e with Attach _ (_, k) => k = Http2 | _ => True end) ->
  step c e = Ok c' -> InvH c'.
Proof.
  intros I Hh K E. destruct e; cbn [step] in E.
  - unfold attachChannel in E. destruct same_thread; cbn [negb] in E; [|discriminate].
    destruct (abort_loop (length (k_active c)) 0 c) as [c1| | |] eqn:E1; try discriminate. cbn [bind] in E.
    assert (I1 : Inv c1) by (eapply Inv_abort_loop; [exact I | exact E1]).
    assert (H1 : InvH c1) by (eapply InvH_loop; [exact I | exact Hh | exact E1]).
    eapply InvH_loop; [| |exact E]; [now apply Inv_channel|]. destruct H1 as [A B C]. split; auto.
    destruct ch as [n0 k0]. cbn. intros n k X. injection X as <- <-. exact K.
  - injection E as <-. unfold client_stream. destruct (k_channel c) as [ch|] eqn:Ec; [|destruct Hh; split; auto; cbn; congruence].
    destruct (find _ _) as [s|]; destruct Hh as [A B C]; split; auto; cbn; try congruence.
    + intros n k X. apply (A n k). congruence.
    + apply Forall_app. split; [exact B|]. repeat constructor. cbn. destruct ch as [n0 k0]. cbn. now apply (A n0 k0).
    + intros x X. unfold count_conns, count_timers in *. cbn. rewrite filter_app, app_length. cbn. unfold of_stream in *. cbn.
      apply in_app_iff in X as [X|[<-|[]]]; [apply C in X; lia|]. rewrite Nat.eqb_refl. cbn. lia.
  - injection E as <-. unfold conn_data. destruct (conn_of _ _); [|exact Hh]. destruct (s_deleted _); [exact Hh|].
    destruct Hh; split; auto.
  - injection E as <-. unfold conn_end. destruct (conn_of cid c) as [n|] eqn:En; [|exact Hh].
    apply conn_of_in in En as [Hn <-]. destruct n as [cid s ch]. cbn [n_id n_stream n_channel] in *.
    set (c1 := with_conns _ c). destruct Hh as [A B C].
    assert (K2 : snd ch = Http2) by (rewrite Forall_forall in B; now apply (B _ Hn)).
    assert (B1 : Forall (fun n => snd (n_channel n) = Http2) (k_conns c1)) by (cbn; now apply Forall_filter).
    assert (I1 : Inv c1) by now apply Inv_filter_conns.
    assert (C1 : forall x, In x (k_active c) -> x <> s -> 0 < count_conns x c1 + count_timers x c1).
    { intros x X N. unfold c1. rewrite (filter_keeps c cid s ch I Hn x N). now apply C. }
    destruct (s_deleted (stream_at c s)) eqn:D.
    + split; auto. intros x X. apply C1; [exact X|]. intros ->. apply (I_client c I) in X.
      assert (Al : alive (stream_at c s) = true) by (unfold alive; now rewrite X). apply (I_alive c I) in Al. congruence.
    + assert (Er : forall code, InvH (emit_error s code c1)).
      { intro code. destruct (emit_error_frame s code c1) as (_ & _ & _ & A1 & S1 & N1).
        split.
        - unfold emit_error. destruct (s_client (stream_at (say [OError s code] c1) s)); exact A.
        - now rewrite N1.
        - rewrite A1. intros x X. destruct (Nat.eq_dec x s) as [->|N].
          + unfold emit_error. rewrite stream_at_say. change (stream_at c1 s) with (stream_at c s).
            apply (I_client c I) in X. rewrite X. unfold count_timers. cbn. rewrite count_app, Nat.eqb_refl. lia.
          + specialize (C1 x X N). unfold count_conns in *. rewrite N1.
            unfold emit_error, count_timers in *.
            destruct (s_client (stream_at (say [OError s code] c1) s)); cbn in *; rewrite ?count_app; lia. }
      destruct ch as [nch kch]. cbn [snd] in K2. subst kch. cbn [n_channel snd]. destruct e; try apply Er.
      * split; auto.
        -- cbn. apply Forall_app. split; [exact B1|]. now repeat constructor.
        -- intros x X. cbn in X. destruct (Nat.eq_dec x s) as [->|N].
           ++ unfold count_conns. cbn. rewrite filter_app, app_length. cbn. unfold of_stream in *. cbn. rewrite Nat.eqb_refl. cbn. lia.
           ++ specialize (C1 x X N). unfold count_conns, count_timers in *. cbn in *. rewrite filter_app, app_length. lia.
      * destruct (emit_error_frame s 0 c1) as (_ & _ & _ & _ & _ & _).
        assert (X : InvH (emit_finished s c1)).
        { split.
          - rewrite finished_channel. exact A.
          - unfold emit_finished, close_conns. cbn [say with_conns k_conns]. apply Forall_filter.
            unfold client_finished. destruct (s_client _); exact B1.
          - intros x X. apply finished_active in X as [X N]; [|exact I1]. destruct (finished_counts c1 s x) as [-> ->].
            specialize (C1 x X N). apply Nat.eqb_neq in N. rewrite N. exact C1. }
        exact X.
  - injection E as <-. destruct (Nat.eqb _ _); [exact Hh | now apply InvH_finished].
  - injection E as <-. destruct Hh; split; auto.
  - unfold timer_fires in E. destruct (nth_error (k_timers c) i) as [s|] eqn:Et; [|now injection E as <-].
    set (c1 := with_timers _ c) in *. destruct Hh as [A B C].
    assert (C1 : forall x, In x (k_active c) -> x <> s -> 0 < count_conns x c1 + count_timers x c1).
    { intros x X N. apply C in X. unfold count_conns, count_timers in *. cbn. rewrite (count_remove _ _ _ x Et) in X.
      apply not_eq_sym, Nat.eqb_neq in N. rewrite N in X. lia. }
    destruct (alive (stream_at c1 s)) eqn:Al.
    + change (k_channel c1) with (k_channel c) in E. destruct (k_channel c) as [[n k]|] eqn:Ec; [|discriminate]. injection E as <-.
      split.
      * cbn. intros n' k' X. apply (A n' k'). congruence.
      * cbn. apply Forall_app. split; [exact B|]. repeat constructor. cbn. now apply (A n k).
      * intros x X. cbn in X. destruct (Nat.eq_dec x s) as [->|N].
        -- unfold count_conns. cbn. rewrite filter_app, app_length. cbn. unfold of_stream in *. cbn. rewrite Nat.eqb_refl. cbn. lia.
        -- specialize (C1 x X N). unfold count_conns, count_timers in *. cbn in *. rewrite filter_app, app_length. lia.
    + injection E as <-. split; auto. intros x X. apply C1; [exact X|]. intros ->. apply (I_client c I) in X.
      change (stream_at c1 s) with (stream_at c s) in Al. unfold alive in Al. rewrite X in Al. discriminate.
  - injection E as <-. destruct (alive _); [exact Hh|]. destruct Hh; split; auto.
Qed.

Lemma InvH_run : forall evs c c', Inv c -> InvH c -> http2_only evs -> run c evs = Ok c' -> InvH c'.
Proof.
  induction evs as [|e evs IH]; intros c c' I Hh K H; cbn [run] in H; [now injection H as <-|].
  inversion K; subst. destruct (step c e) as [c1| | |] eqn:E; cbn [bind] in H; try discriminate.
  - eapply IH; [| | |exact H]; [eapply Inv_step; eauto | eapply InvH_step; eauto | assumption].
  - eapply IH; [| | |exact H]; assumption.
Qed.

(** Over HTTP/2 an active stream is at every time either connected or waiting for exactly one retry. Missing: other
    channels, which do not retry. *)
Theorem C55_kept_alive_partial : forall evs c sid, history evs c -> http2_only evs -> active c sid ->
  (exists cid, connected c cid sid) \/ count_occ Nat.eq_dec (k_timers c) sid = 1.
Proof.
  intros evs c sid H K A. pose proof (history_Inv _ _ H) as I. apply active_in in A; [|eapply history_InvL; exact H].
  assert (Hh : InvH c).
  { eapply InvH_run; [exact Inv_new | | exact K | exact H]. split; cbn; [discriminate | constructor | contradiction]. }
  pose proof (H_kept c Hh sid A) as P. pose proof (I_one c I sid) as O. unfold count_timers in *.
  destruct (count_occ Nat.eq_dec (k_timers c) sid) as [|[|t]]; [left | now right | lia].
  unfold count_conns in P. destruct (filter (of_stream sid) (k_conns c)) as [|n l] eqn:E; [cbn in P; lia|].
  assert (X : In n (filter (of_stream sid) (k_conns c))) by (rewrite E; now left).
  apply filter_In in X as [X Y]. apply Nat.eqb_eq in Y. exists (n_id n), (n_channel n). rewrite <- Y. now destruct n.
Qed.

(** A failed connection of an active stream is reported once by the stream and once by the client, and the
    retry opens one new connection for it over the current channel. *)
Theorem C55_failure_reported : forall evs c cid sid code, history evs c -> connected c cid sid -> active c sid ->
  exists c', step c (End cid (Failed code)) = Ok c' /\
    k_log c' = k_log c ++ [OError sid code; OClientError code] /\ active c' sid /\
    k_timers c' = k_timers c ++ [sid].
Proof.
  intros evs c cid sid code H [ch Hn] A. pose proof (history_Inv _ _ H) as I.
  assert (A' : In sid (k_active c)) by (apply active_in; [eapply history_InvL; exact H | exact A]).
  assert (Cl : s_client (stream_at c sid) = true) by now apply (I_client c I).
  assert (D : s_deleted (stream_at c sid) = false) by (apply (I_alive c I); unfold alive; now rewrite Cl).
  eexists. split; [reflexivity|]. unfold conn_end. rewrite (conn_unique c cid _ I Hn eq_refl). cbn [n_stream n_channel].
  rewrite D. unfold emit_error. rewrite stream_at_say. change (stream_at (with_conns ?l c) sid) with (stream_at c sid).
  rewrite Cl. cbn. rewrite <- app_assoc. split; [reflexivity|]. split; [|reflexivity].
  destruct A as [[h Hr] Nf]. split; cbn; [exists h; rewrite !in_app_iff; tauto|]. rewrite !in_app_iff. cbn.
  intros [[X|[X|[]]]|[X|[]]]; [tauto | discriminate | discriminate].
Qed.

Theorem C55_retry : forall evs c i sid, history evs c -> active c sid -> nth_error (k_timers c) i = Some sid ->
  exists c' ch cid, k_channel c = Some ch /\ step c (Timer i) = Ok c' /\ k_log c' = k_log c ++ [OOpen cid sid ch] /\
    connected c' cid sid.
Proof.
  intros evs c i sid H A Nt. pose proof (history_Inv _ _ H) as I. apply active_in in A; [|eapply history_InvL; exact H].
  assert (Cl : s_client (stream_at c sid) = true) by now apply (I_client c I).
  pose proof (active_below c I sid A) as L.
  destruct (k_channel c) as [ch|] eqn:Ec.
  2:{ exfalso. apply (I_channel c I); [|exact Ec]. intro Z. rewrite Z in L. cbn in L. lia. }
  exists (open_conn ch sid (with_timers (remove_nth i (k_timers c)) c)), ch, (k_next c). split; [reflexivity|].
  split; [|split; [reflexivity|]].
  - cbn [step]. unfold timer_fires. rewrite Nt. change (stream_at (with_timers ?l c) sid) with (stream_at c sid).
    unfold alive. rewrite Cl. cbn [orb]. change (k_channel (with_timers ?l c)) with (k_channel c). now rewrite Ec.
  - exists ch. cbn. apply in_app_iff. right. now left.
Qed.

(** Missing: over the other channel a stream the server has ended stays active without connection and
    retry, and without any signal; later requests for it return the dead stream. *)
Theorem C55_native_end_refuted : forall evs c cid sid n method arg h, history evs c ->
  In (mkConn cid sid (n, Native)) (k_conns c) -> active c sid -> subscribed c sid method arg ->
  exists c1 c2, step c (End cid Done) = Ok c1 /\ k_log c1 = k_log c /\ active c1 sid /\
    ~ (exists cid', connected c1 cid' sid) /\ ~ In sid (k_timers c1) /\
    step c1 (Subscribe method arg h) = Ok c2 /\ k_log c2 = k_log c1 ++ [OReturned sid h] /\
    ~ (exists cid', connected c2 cid' sid).
Proof.
  intros evs c cid sid n m a h H Hn A Sb. pose proof (history_Inv _ _ H) as I. pose proof (history_InvL _ _ H) as IL.
  assert (A' : In sid (k_active c)) by (apply active_in; assumption).
  assert (Cl : s_client (stream_at c sid) = true) by now apply (I_client c I).
  assert (D : s_deleted (stream_at c sid) = false) by (apply (I_alive c I); unfold alive; now rewrite Cl).
  set (c1 := with_conns (filter (fun n' => negb (Nat.eqb (n_id n') cid)) (k_conns c)) c).
  assert (E1 : step c (End cid Done) = Ok c1).
  { cbn [step]. unfold conn_end. rewrite (conn_unique c cid _ I Hn eq_refl). cbn [n_stream n_channel snd]. now rewrite D. }
  pose proof (count_removed c _ I Hn) as Z. cbn [n_id n_stream] in Z. fold c1 in Z.
  assert (Nc : ~ exists cid', connected c1 cid' sid) by (intros [cid' X]; apply connected_count in X; lia).
  assert (H1 : history (evs ++ [End cid Done]) c1).
  { unfold history. rewrite run_app. unfold history in H. rewrite H. cbn [bind run]. rewrite E1. reflexivity. }
  assert (A1 : active c1 sid) by exact A.
  destruct (C37_shared _ _ _ m a h H1 A1 Sb) as (c2 & E2 & L2 & K2).
  exists c1, c2. split; [exact E1|]. split; [reflexivity|]. split; [exact A1|]. split; [exact Nc|]. split.
  - intro X. apply (count_occ_In Nat.eq_dec) in X. unfold count_timers in Z. cbn in X. lia.
  - split; [exact E2|]. split; [exact L2|]. intros [cid' [ch X]]. apply Nc. exists cid', ch. now rewrite <- K2.
Qed.

(** ** Cases *)

(** Two requests for one stream, one for another, a message, a failure and its retry. *)
Definition st_evs : list event :=
  [Attach true (0, Http2); Subscribe [1%Z] [2%Z] (Some 7); Subscribe [1%Z] [2%Z] (Some 8); Subscribe [3%Z] [] None; Data 0 [5%Z]].

(** Where a history leads. *)
Definition final (c : client) (evs : list event) : client := match run c evs with Ok c' => c' | _ => c end.

Example C37_case : exists c, history st_evs c /\
  k_log c = [OOpen 0 0 (0, Http2); OReturned 0 (Some 7); OReturned 0 (Some 8); OOpen 1 1 (0, Http2); OReturned 1 None;
             OMessage 0 7 [5%Z]; OMessage 0 8 [5%Z]; OReceived 0 [5%Z]] /\
  active c 0 /\ active c 1 /\ subscribed c 0 [1%Z] [2%Z] /\ connected c 0 0 /\ connected c 1 1.
Proof.
  eexists. split; [reflexivity|]. split; [reflexivity|].
  split; [split; [exists (Some 7); cbn; tauto | cbn; intuition discriminate]|].
  split; [split; [exists None; cbn; tauto | cbn; intuition discriminate]|].
  split; [split; reflexivity|]. split; exists (0, Http2); cbn; tauto.
Qed.

Example C38_case : exists c c1 c2, history st_evs c /\ s_refs (stream_at c 0) <> 0 /\
  step c (AbortStream 0) = Ok c1 /\ run c1 [Data 0 [6%Z]; Timer 0; Data 1 [6%Z]; End 0 Closed; Subscribe [1%Z] [2%Z] (Some 9)] = Ok c2 /\
  k_log c2 = k_log c ++ [OFinished 0; OClose 0; OReceived 1 [6%Z]; OOpen 2 2 (0, Http2); OReturned 2 (Some 9)].
Proof.
  exists (final new_client st_evs), (final new_client (st_evs ++ [AbortStream 0])),
    (final new_client (st_evs ++ [AbortStream 0; Data 0 [6%Z]; Timer 0; Data 1 [6%Z]; End 0 Closed; Subscribe [1%Z] [2%Z] (Some 9)])).
  vm_compute. repeat split. discriminate.
Qed.

Example C38_restart_case : exists c, history (st_evs ++ [End 0 (Failed 14); AbortStream 0; Timer 0; Data 2 [6%Z]]) c /\
  skipn 8 (k_log c) = [OError 0 14; OClientError 14; OFinished 0; OOpen 2 0 (0, Http2); OMessage 0 7 [6%Z]; OMessage 0 8 [6%Z]; OReceived 0 [6%Z]].
Proof.
  exists (final new_client (st_evs ++ [End 0 (Failed 14); AbortStream 0; Timer 0; Data 2 [6%Z]])). vm_compute. split; reflexivity.
Qed.

Example C38_released_case : exists c, history (st_evs ++ [End 0 (Failed 14); AbortStream 0; Drop 0; Drop 0]) c /\
  In (OFinished 0) (k_log c) /\ s_refs (stream_at c 0) = 0 /\ k_timers c = [0] /\ k_conns c = [mkConn 1 1 (0, Http2)].
Proof. exists (final new_client (st_evs ++ [End 0 (Failed 14); AbortStream 0; Drop 0; Drop 0])). vm_compute. intuition. Qed.

Example C39_case : (exists c, history [Attach true (0, Http2); Subscribe [1%Z] [2%Z] (Some 7)] c /\ length (k_active c) <= 1 /\
    exists c', step c (Attach true (1, Native)) = Ok c' /\ k_log c' = k_log c ++ [OFinished 0; OClose 0]) /\
  run new_client (st_evs ++ [Attach true (1, Http2)]) = UB DanglingRef.
Proof.
  split; [|vm_compute; reflexivity]. exists (final new_client [Attach true (0, Http2); Subscribe [1%Z] [2%Z] (Some 7)]).
  split; [vm_compute; reflexivity|]. split; [vm_compute; lia|].
  exists (final new_client [Attach true (0, Http2); Subscribe [1%Z] [2%Z] (Some 7); Attach true (1, Native)]). vm_compute. split; reflexivity.
Qed.

Example C55_case : http2_only st_evs /\
  exists c, history [Attach true (0, Native); Subscribe [1%Z] [2%Z] (Some 7)] c /\ active c 0 /\ subscribed c 0 [1%Z] [2%Z] /\
    In (mkConn 0 0 (0, Native)) (k_conns c).
Proof.
  split; [repeat constructor|]. eexists. split; [reflexivity|].
  split; [split; [exists (Some 7); cbn; tauto | cbn; intuition discriminate]|]. split; [split; reflexivity | cbn; tauto].
Qed.

Print Assumptions C37_shared.
Print Assumptions C37_separate.
Print Assumptions C37_all_handlers.
Print Assumptions C37_one_connection.
Print Assumptions C38_server_end.
Print Assumptions C38_abort_partial.
Print Assumptions C38_released_partial.
Print Assumptions C38_abort_during_retry_refuted.
Print Assumptions C39_wrong_thread.
Print Assumptions C39_attach_partial.
Print Assumptions C39_several_streams_refuted.
Print Assumptions C55_kept_alive_partial.
Print Assumptions C55_failure_reported.
Print Assumptions C55_retry.
Print Assumptions C55_native_end_refuted.

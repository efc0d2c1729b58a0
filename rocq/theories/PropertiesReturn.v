(** C89: the property returnValue of the QML element GrpcStream, and the messages it announces. *)

From Coq Require Import ZArith List Bool Arith Lia.
From Verif Require Import Base StreamModel StreamProofs PropertiesStream QuickModel QuickProofs PropertiesQuick QuickReturn.
Import ListNotations.
Open Scope nat_scope.

(** How often an element has said that its returnValue changed. *)
Definition return_signals (i : nat) (l : list (nat * qoutput)) : nat :=
  length (filter (fun x => match snd x with QReturnValueChanged => Nat.eqb (fst x) i | _ => false end) l).

(** returnValue is an object exactly while the element has an open stream. *)
Theorem C89_with_stream : forall resolve evs w i, quick resolve evs w ->
  (q_return (w_item w i) = true <-> open w i).
Proof.
  intros resolve evs w i H. pose proof (quick_Good resolve evs w H) as G.
  destruct (qrun_keeps resolve evs new_world w H new_kept) as [K _]. destruct (K i) as [R _]. rewrite R. unfold has_stream. split.
  - destruct (q_stream (w_item w i)) as [[k sid] |] eqn:Q; [intros _ | discriminate].
    destruct (opened_open resolve w i k sid G Q) as (A & _). now exists k, sid.
  - intros (k & sid & Q & _). now rewrite Q.
Qed.

(** Each change between an object and null is signalled: as long as the element lives it has an object exactly after an odd number of
    signals. *)
Theorem C89_signals : forall resolve evs w i, quick resolve evs w -> ~ In (Destroy i) evs ->
  q_return (w_item w i) = Nat.odd (return_signals i (w_log w)).
Proof.
  intros resolve evs w i H D. destruct (qrun_keeps resolve evs new_world w H new_kept) as [_ T].
  destruct (T i) as (o & L & R); [intros e I E; subst e; now apply D |]. cbn in L, R. rewrite L. rewrite R. now destruct (Nat.odd _).
Qed.

Lemma each_signal : forall o l w, each (fun i w => Ok (signal i o w)) l w
  = Ok (mkWorld (w_client w) (w_item w) (w_slots w) (w_log w ++ map (fun j => (j, o)) l)).
Proof.
  intros o. induction l as [| i l IH]; intro w; cbn [each map].
  - rewrite app_nil_r. now destruct w.
  - cbn [bind]. rewrite IH. cbn. now rewrite <- app_assoc.
Qed.

Lemma deliver_messages : forall resolve k sid hs data w,
  deliver resolve k (map (fun h => OMessage sid h data) hs ++ [OReceived sid data]) w
  = Ok (mkWorld (w_client w) (w_item w) (w_slots w) (w_log w ++ map (fun j => (j, QMessage data)) (listeners w (k, sid)))).
Proof.
  intros resolve k sid hs data w. induction hs as [| h hs IH]; [| exact IH]. cbn [map app deliver]. rewrite each_signal. reflexivity.
Qed.

(** Each message that comes for the stream of an element is announced by it, while there is an object in returnValue. *)
Theorem C89_messages : forall resolve evs w i k sid cid data, quick resolve evs w ->
  q_stream (w_item w i) = Some (k, sid) -> connected (w_client w k) cid sid ->
  exists w', qstep resolve w (ClientEvent k (Data cid data)) = Ok w'
    /\ In (i, QMessage data) (skipn (length (w_log w)) (w_log w')) /\ q_return (w_item w' i) = true /\ open w' i.
Proof.
  intros resolve evs w i k sid cid data H Q [ch Hn]. pose proof (quick_Good resolve evs w H) as G.
  destruct (opened_open resolve w i k sid G Q) as (A & Sl & _ & _).
  assert (R : q_return (w_item w i) = true) by (apply (C89_with_stream resolve evs w i H); now exists k, sid).
  assert (S : exists w', qstep resolve w (ClientEvent k (Data cid data)) = Ok w' /\ w_item w' = w_item w
      /\ skipn (length (w_log w)) (w_log w') = map (fun j => (j, QMessage data)) (listeners w (k, sid))).
  { destruct G as [C I]. destruct (C k) as [Ik ILk]. cbn [qstep step]. unfold conn_data. rewrite (conn_unique _ cid _ Ik Hn eq_refl). cbn [n_stream].
    assert (Al : alive (stream_at (w_client w k) sid) = true).
    { unfold alive. apply active_in in A; [| exact ILk]. apply (I_client _ Ik) in A. now rewrite A. }
    rewrite (I_alive _ Ik sid Al). cbn [bind handle say k_log]. rewrite skipn_app, skipn_all, Nat.sub_diag. cbn [skipn app].
    rewrite deliver_messages. eexists. split; [reflexivity |]. cbn. split; [reflexivity |].
    rewrite skipn_app, skipn_all, Nat.sub_diag. reflexivity. }
  destruct S as (w' & E & It & L). exists w'. split; [exact E |]. split; [| split].
  - rewrite L. apply (in_map (fun j => (j, QMessage data))). unfold listeners. apply in_map_iff. exists (i, (k, sid)). split; [reflexivity |]. apply filter_In.
    split; [exact Sl |]. unfold pair_eqb. cbn. now rewrite !Nat.eqb_refl.
  - now rewrite It.
  - assert (H' : quick resolve (evs ++ [ClientEvent k (Data cid data)]) w').
    { unfold quick in *. clear -H E. revert H. generalize new_world. induction evs as [| e evs IH]; intros w0 H.
      - injection H as ->. cbn [app qrun]. rewrite E. reflexivity.
      - cbn [app qrun] in *. destruct (qstep resolve w0 e) as [w1 | | |]; try discriminate H; [cbn in *; now apply IH | now apply IH]. }
    apply (C89_with_stream resolve _ w' i H'). now rewrite It.
Qed.

(** After the end of an old stream that made the element forget its present one (C40_stale_end_refuted), enabling it again
    connects it twice: each message is announced twice.  And before that, messages are announced although returnValue is null. *)
Theorem C89_announced_twice_refuted : forall data, exists evs w w', quick ex_resolve evs w /\ open w 0 /\
  qstep ex_resolve w (ClientEvent 0 (Data 1 data)) = Ok w' /\ w_log w' = w_log w ++ [(0, QMessage data); (0, QMessage data)].
Proof.
  intro data.
  exists (ex_orphan ++ [SetEnabled 0 true]), (qfinal (ex_orphan ++ [SetEnabled 0 true])), (qfinal (ex_orphan ++ [SetEnabled 0 true; ClientEvent 0 (Data 1 data)])).
  split; [vm_compute; reflexivity |]. split; [| split; [vm_compute; reflexivity | vm_compute; reflexivity]].
  exists 0, 1. split; [vm_compute; reflexivity |]. split; [exists None; vm_compute; tauto | vm_compute; intuition discriminate].
Qed.

Theorem C89_null_refuted : forall data, exists evs w w', quick ex_resolve evs w /\ q_return (w_item w 0) = false /\
  qstep ex_resolve w (ClientEvent 0 (Data 1 data)) = Ok w' /\ q_return (w_item w' 0) = false /\ w_log w' = w_log w ++ [(0, QMessage data)].
Proof.
  intro data. exists ex_orphan, (qfinal ex_orphan), (qfinal (ex_orphan ++ [ClientEvent 0 (Data 1 data)])).
  split; [vm_compute; reflexivity |]. split; [vm_compute; reflexivity |]. split; [vm_compute; reflexivity |].
  split; vm_compute; reflexivity.
Qed.

(** Two elements of one stream: both have their object, said so once, and announce a message; after the end of the stream they have said it
    twice. *)
Example C89_case :
  quick ex_resolve ex_quick (qfinal ex_quick)
  /\ q_return (w_item (qfinal ex_quick) 0) = true /\ return_signals 0 (w_log (qfinal ex_quick)) = 1
  /\ connected (w_client (qfinal ex_quick) 0) 0 0 /\ q_stream (w_item (qfinal ex_quick) 1) = Some (0, 0)
  /\ return_signals 0 (w_log (qfinal (ex_quick ++ [ClientEvent 0 (End 0 Done)]))) = 2
  /\ q_return (w_item (qfinal (ex_quick ++ [ClientEvent 0 (End 0 Done)])) 0) = false.
Proof.
  split; [vm_compute; reflexivity |]. split; [vm_compute; reflexivity |]. split; [vm_compute; reflexivity |].
  split; [exists (0, Http2); vm_compute; auto |]. split; [vm_compute; reflexivity |]. split; vm_compute; reflexivity.
Qed.

Print Assumptions C89_with_stream.
Print Assumptions C89_signals.
Print Assumptions C89_messages.
Print Assumptions C89_announced_twice_refuted.
Print Assumptions C89_null_refuted.

(** C79: replies and streams can be used from handlers, slots and other threads. *)

From Coq Require Import ZArith List Bool Arith Lia.
From Verif Require Import Base AsyncModel AsyncSpec AsyncProofs AsyncLog AsyncMore AsyncProgress.
Import ListNotations.
Local Close Scope Z_scope.

Lemma outcome {A} (r : res A) (P : A -> Prop) : match r with Ok x => P x | _ => False end -> exists x, r = Ok x /\ P x.
Proof. destruct r; try tauto. intros H. eauto. Qed.

(** ** Reading *)

(** Whatever threads, handlers and slots do: a call of read uses the data that were set last, and no data are set and no other
    read begins or ends while it deserializes. *)
Theorem C79_read_latest home stream decode listens hs evs s l1 t d ok l2 :
  run home stream decode listens (start hs) evs = Ok s -> a_log s = l1 ++ GotRead t d ok :: l2 ->
  d = latest l1 /\ ok = decode d /\ exists a b, l1 = a ++ ReadBegins t :: b /\ nothing_set b /\ nothing_read b.
Proof.
  intros R E. destruct (start_inv _ _ _ _ _ _ _ R) as [_ V]. exact (l_fine _ _ _ _ _ _ _ V _ _ _ E).
Qed.

(** Code that a handler of a message calls reads this message (if no other thread reads now). *)
Theorem C79_handler_reads home decode listens hs evs s n last d r :
  run home true decode listens (start hs) evs = Ok s -> a_stacks s home = Handling n last d :: r -> a_lock s = None ->
  exists s', run home true decode listens s [Read home; Proceed home] = Ok s' /\
    a_log s' = a_log s ++ [ReadBegins home; GotRead home d (decode d)].
Proof.
  intros R E L. destruct (start_inv _ _ _ _ _ _ _ R) as [_ V].
  assert (D : a_data s = d).
  { rewrite <- (l_latest _ _ _ _ _ _ _ V). destruct (l_open _ _ _ _ _ _ _ V eq_refl n last d) as (a & b & Q & N & _); [rewrite E; now left|].
    rewrite Q. unfold latest. rewrite latest_from_app. cbn. now apply latest_quiet. }
  apply outcome. cbn -[put]. unfold runs. rewrite E. unfold ask. rewrite L. cbn -[put]. rewrite put_same. cbn -[put]. rewrite D.
  destruct (decode d) eqn:DE; cbn -[put]; now rewrite <- app_assoc.
Qed.

(** Code in any thread reads the message that was received last, as long as no other data are set: for example code that is called
    by messageReceived in the thread of the stream. *)
Theorem C79_received_reads home decode listens hs evs s t l1 d l2 :
  run home true decode listens (start hs) evs = Ok s -> a_log s = l1 ++ Received d :: l2 -> nothing_set l2 ->
  runs s t = true -> a_lock s = None ->
  exists s', run home true decode listens s [Read t; Proceed t] = Ok s' /\ a_log s' = a_log s ++ [ReadBegins t; GotRead t d (decode d)].
Proof.
  intros R E N RN L. destruct (start_inv _ _ _ _ _ _ _ R) as [_ V].
  assert (D : a_data s = d).
  { rewrite <- (l_latest _ _ _ _ _ _ _ V). destruct (l_fine _ _ _ _ _ _ _ V _ _ _ E eq_refl) as (a & b & Q1 & N1 & _).
    rewrite E, Q1. unfold latest. rewrite !latest_from_app. cbn. rewrite (latest_quiet d b N1). now apply latest_quiet. }
  apply outcome. cbn -[put]. rewrite RN. unfold ask. rewrite L. cbn -[put]. rewrite put_same. cbn -[put]. rewrite D.
  destruct (decode d) eqn:DE; cbn -[put]; now rewrite <- app_assoc.
Qed.

(** ** Handlers *)

(** When messageReceived is emitted for a message, exactly the handlers that had been added when it arrived have been called with it,
    each of them once and in the order in which they were added, since its data were set; no other data were set since. *)
Theorem C79_handlers home decode listens hs evs s l1 d l2 :
  run home true decode listens (start hs) evs = Ok s -> a_log s = l1 ++ Received d :: l2 ->
  exists a b, l1 = a ++ Sets d :: b /\ nothing_set b /\ nothing_added b /\ called b = map (fun k => (k, d)) (hs ++ added a).
Proof.
  intros R E. destruct (start_inv _ _ _ _ _ _ _ R) as [_ V]. destruct (l_fine _ _ _ _ _ _ _ V _ _ _ E eq_refl) as (a & b & A & B & C & D).
  exists a, b. auto.
Qed.

(** A handler is called with a message only after its data were set and the handlers before it were called with it, as long as
    these are the data of the stream. *)
Theorem C79_handler_order home decode listens hs evs s l1 k d l2 :
  run home true decode listens (start hs) evs = Ok s -> a_log s = l1 ++ Handled k d :: l2 ->
  exists a b pre post, l1 = a ++ Sets d :: b /\ nothing_set b /\ nothing_added b /\
    hs ++ added a = pre ++ k :: post /\ called b = map (fun k => (k, d)) pre.
Proof.
  intros R E. destruct (start_inv _ _ _ _ _ _ _ R) as [_ V]. destruct (l_fine _ _ _ _ _ _ _ V _ _ _ E eq_refl) as (a & b & pre & post & A & B & C & D & F).
  exists a, b, pre, post. auto.
Qed.

(** Messages are received one after the other and in the order in which they arrived: those that have arrived and have not been
    received are at most one, whose handlers are being called. *)
Theorem C79_all_received home decode listens hs evs s :
  run home true decode listens (start hs) evs = Ok s ->
  (handling home s -> exists d, sets (a_log s) = received (a_log s) ++ [d]) /\
  (~ handling home s -> sets (a_log s) = received (a_log s)).
Proof.
  intros R. destruct (start_inv _ _ _ _ _ _ _ R) as [G V]. pose proof (l_all _ _ _ _ _ _ _ V eq_refl) as A. split.
  - intros (n & last & d & I). exists d. rewrite A. f_equal. apply in_split in I. destruct I as (x & y & I).
    assert (Y : y = []) by (apply (v_bottom _ _ _ _ G _ _ _ I); exact Logic.I). subst y. rewrite I. unfold inhand. rewrite flat_map_app. cbn.
    replace (flat_map _ x) with (@nil data); auto. symmetry. clear A.
    assert (X : forall z, In z x -> ~ outermost z).
    { intros z Z O. apply in_split in Z. destruct Z as (p & q & ->). rewrite <- app_assoc in I. cbn in I.
      apply (v_bottom _ _ _ _ G) in I; auto. now destruct q. }
    clear I. induction x as [|z x IH]; auto. cbn. rewrite IH by (intros; apply X; now right).
    destruct z; auto. exfalso. apply (X _ (or_introl eq_refl)). exact Logic.I.
  - intros N. rewrite A. replace (inhand (a_stacks s home)) with (@nil data); [now rewrite app_nil_r|]. symmetry.
    unfold inhand. clear A. assert (X : forall z, In z (a_stacks s home) -> forall n last d, z <> Handling n last d).
    { intros z Z n last d ->. apply N. now exists n, last, d. }
    induction (a_stacks s home) as [|z x IH]; auto. cbn. rewrite IH by (intros; apply X; now right).
    destruct z; auto. exfalso. now apply (X _ (or_introl eq_refl) next last d).
Qed.

(** The slot of another thread is called for the messages that were received, in their order, none of them twice and none left out:
    the calls that remain are waiting in its event loop. *)
Theorem C79_notices home stream decode listens hs evs s t :
  run home stream decode listens (start hs) evs = Ok s -> t <> home -> listens t = true ->
  received (a_log s) = noticed t (a_log s) ++ a_notes s t.
Proof. intros R N L. destruct (start_inv _ _ _ _ _ _ _ R) as [_ V]. now apply (l_notes _ _ _ _ _ _ _ V). Qed.

(** A message is delivered in a state where nobody uses the stream. *)
Lemma returns home decode listens d n : forall s, a_lock s = None -> forall k last, last = length (a_handlers s) -> n = last - k -> k <= last ->
  a_stacks s home = [Handling k last d] ->
  exists s', run home true decode listens s (repeat (Return home) (S (S n))) = Ok s' /\ a_lock s' = None /\ a_handlers s' = a_handlers s /\
    a_data s' = a_data s /\ a_stacks s' home = [] /\ (forall t, t <> home -> a_stacks s' t = a_stacks s t) /\ a_posted s' = a_posted s /\
    (forall t, t <> home -> listens t = true -> a_notes s' t = a_notes s t ++ [d]).
Proof.
  induction n as [|n IH]; intros s L k last E N K Q.
  - assert (X : nth_error (a_handlers s) k = None) by (apply nth_error_None; lia).
    cbn [repeat run]. cbn -[put turn]. rewrite Q. unfold turn at 1. cbn -[put]. rewrite <- E, Nat.eqb_refl, X. cbn -[put]. rewrite put_same. cbn -[put].
    eexists. split; [reflexivity|]. cbn -[put]. repeat apply conj; auto.
    + rewrite !put_same. now rewrite Q.
    + intros t NT. now rewrite !put_other.
    + intros t NT LT. apply Nat.eqb_neq in NT. now rewrite LT, NT.
  - assert (LT : k < length (a_handlers s)) by lia. apply nth_error_Some in LT. destruct (nth_error (a_handlers s) k) as [h|] eqn:X; [clear LT|congruence].
    set (s1 := tell [Handled h d] (push home (Handling (S k) last d) (pop home s))).
    destruct (IH s1) with (k := S k) (last := last) as (s' & R & A); auto; try lia.
    + cbn -[put]. now rewrite !put_same, Q.
    + exists s'. split.
      * cbn [repeat run]. assert (ST : step home true decode listens s (Return home) = Ok s1).
        { cbn -[put turn]. rewrite Q. unfold turn. cbn -[put]. now rewrite <- E, Nat.eqb_refl, X. }
        rewrite ST. cbn [bind]. exact R.
      * destruct A as (A1 & A2 & A3 & A4 & A5 & A6 & A7). repeat apply conj; auto.
        intros t NT. rewrite A5 by auto. subst s1. cbn -[put]. now rewrite !put_other.
Qed.
Definition delivery (home : nat) (hs : list nat) (d : data) : list event := Message d :: repeat (Return home) (S (length hs)).
Lemma delivered home decode listens d s : a_lock s = None -> a_stacks s home = [] ->
  exists s', run home true decode listens s (delivery home (a_handlers s) d) = Ok s' /\ a_lock s' = None /\ a_handlers s' = a_handlers s /\
    a_data s' = d /\ a_stacks s' home = [] /\ (forall t, t <> home -> a_stacks s' t = a_stacks s t) /\ a_posted s' = a_posted s /\
    (forall t, t <> home -> listens t = true -> a_notes s' t = a_notes s t ++ [d]).
Proof.
  intros L E. unfold delivery. cbn [run]. cbn -[put turn repeat]. rewrite E. unfold ask. rewrite L. cbn -[put turn repeat]. unfold deliver, turn at 1. cbn -[put repeat].
  rewrite Nat.eqb_refl. destruct (a_handlers s) as [|h hs] eqn:H.
  - cbn -[put]. rewrite put_same. cbn -[put]. eexists. split; [reflexivity|]. cbn -[put]. repeat apply conj; auto.
    + rewrite !put_same. exact E.
    + intros t NT. now rewrite !put_other.
    + intros t NT LT. apply Nat.eqb_neq in NT. now rewrite LT, NT.
  - cbn -[put repeat]. set (s1 := tell [Handled h d] (push home (Handling 1 (S (length hs)) d) (set_data d s))).
    destruct (returns home decode listens d (length hs) s1) with (k := 1) (last := S (length hs)) as (s' & R & A); auto; try lia.
    + cbn. now rewrite H.
    + cbn -[put]. now rewrite put_same, E.
    + exists s'. split; [exact R|]. destruct A as (A1 & A2 & A3 & A4 & A5 & A6 & A7). repeat apply conj; auto.
      * rewrite A2. cbn. exact H.
      * intros t NT. rewrite A5 by auto. subst s1. cbn -[put]. now rewrite !put_other.
Qed.

(** Code that is called by messageReceived in another thread does not read the message that it is called for: in every state in which the
    stream is not used and no slot call is waiting, if two messages arrive before the event loop of that thread calls its slot, the slot
    for the first reads the second. *)
Theorem C79_queued_reader_refuted home decode listens hs evs s t d1 d2 :
  run home true decode listens (start hs) evs = Ok s -> idle s -> t <> home -> listens t = true -> a_notes s t = [] ->
  exists s', run home true decode listens s (delivery home (a_handlers s) d1 ++ delivery home (a_handlers s) d2 ++ [Take t; Read t; Proceed t]) = Ok s' /\
    exists l, a_log s' = l ++ [Noticed t d1; ReadBegins t; GotRead t d2 (decode d2)].
Proof.
  intros R [I _] N LT NT. destruct (start_inv _ _ _ _ _ _ _ R) as [G _].
  assert (L : a_lock s = None).
  { pose proof (v_hold _ _ _ _ G) as H. destruct (a_lock s) as [u|]; auto. specialize (H u). rewrite I in H. cbn in H. now rewrite Nat.eqb_refl in H. }
  destruct (delivered home decode listens d1 s L (I home)) as (s1 & R1 & L1 & H1 & D1 & S1 & O1 & P1 & Q1).
  destruct (delivered home decode listens d2 s1 L1 S1) as (s2 & R2 & L2 & H2 & D2 & S2 & O2 & P2 & Q2).
  rewrite run_app, R1. cbn [bind]. rewrite run_app, <- H1, R2. cbn [bind].
  assert (Z : a_stacks s2 t = []) by (rewrite O2, O1; auto).
  assert (W : a_notes s2 t = [d1; d2]) by (rewrite Q2, Q1, NT; auto).
  apply outcome. cbn -[put]. rewrite Z, W. cbn -[put]. unfold runs. cbn -[put]. rewrite put_same. unfold ask. cbn -[put]. rewrite L2. cbn -[put]. rewrite put_same.
  cbn -[put]. rewrite D2. destruct (decode d2) eqn:DE; cbn -[put]; exists (a_log s2); rewrite <- !app_assoc; reflexivity.
Qed.

(** ** Undefined behaviour *)

(** If no handler is added while handlers are called, no use of the stream by handlers, slots and other threads is undefined.
    Missing: handlers that subscribe to the same method (see C79_subscribe_refuted). *)
Theorem C79_no_ub_partial home stream decode listens hs evs :
  throughout (step home stream decode listens) (careful_event home) (start hs) evs ->
  exists s, run home stream decode listens (start hs) evs = Ok s.
Proof.
  intros T. destruct (run_fresh home stream decode listens evs (start hs)) as (s & R & _); auto; [apply inv_start|apply start_fresh|now exists s].
Qed.

(** If a handler subscribes to the method that it is called for, the loop over the handlers is undefined when it returns, in every state. *)
Theorem C79_subscribe_refuted home decode listens hs evs s n last d r k :
  run home true decode listens (start hs) evs = Ok s -> a_stacks s home = Handling n last d :: r ->
  run home true decode listens s [Subscribe k; Return home] = UB DanglingRef.
Proof. apply (subscribe_ub home true decode listens hs evs s n last d r k eq_refl). Qed.

(** ** Deadlocks *)

(** Code that is called by the error that the client emits, because data cannot be deserialized, reads again: its thread waits forever,
    and no data are set and no read begins or ends ever after, in any thread. *)
Theorem C79_self_deadlock_refuted home stream decode listens hs evs s t r :
  run home stream decode listens (start hs) evs = Ok s -> a_stacks s t = Failing :: r ->
  exists s1, step home stream decode listens s (Read t) = Ok s1 /\
    forall more s2, run home stream decode listens s1 more = Ok s2 ->
      a_stacks s2 t = a_stacks s1 t /\ exists l, a_log s2 = a_log s1 ++ l /\ nothing_set l /\ nothing_read l.
Proof.
  intros R E. destruct (start_inv _ _ _ _ _ _ _ R) as [G _].
  assert (L : a_lock s = Some t).
  { pose proof (v_hold _ _ _ _ G t) as H. rewrite E in H. unfold mine in H. cbn in H. destruct (a_lock s) as [u|] eqn:LK; [|lia].
    destruct (Nat.eqb_spec u t) as [Z|Z]; [now rewrite Z|lia]. }
  assert (S : step home stream decode listens s (Read t) = Ok (push t (Want WRead) s)) by (cbn -[put]; unfold runs; rewrite E; unfold ask; now rewrite L).
  eexists. split; [exact S|]. intros more s2 R2.
  destruct (run_dead home stream decode listens t more _ s2 (step_good _ _ _ _ _ _ _ G S)) as (_ & A & B); auto.
  split; [exact L|]. left. cbn -[put]. rewrite put_same. eauto.
Qed.

(** The same if it aborts the reply, in the thread of the reply. *)
Theorem C79_abort_deadlock_refuted home decode listens hs evs s r :
  run home false decode listens (start hs) evs = Ok s -> a_stacks s home = Failing :: r ->
  exists s1, step home false decode listens s (Abort home) = Ok s1 /\
    forall more s2, run home false decode listens s1 more = Ok s2 ->
      a_stacks s2 home = a_stacks s1 home /\ exists l, a_log s2 = a_log s1 ++ l /\ nothing_set l /\ nothing_read l.
Proof.
  intros R E. destruct (start_inv _ _ _ _ _ _ _ R) as [G _].
  assert (L : a_lock s = Some home).
  { pose proof (v_hold _ _ _ _ G home) as H. rewrite E in H. unfold mine in H. cbn in H. destruct (a_lock s) as [u|] eqn:LK; [|lia].
    destruct (Nat.eqb_spec u home) as [Z|Z]; [now rewrite Z|lia]. }
  assert (S : step home false decode listens s (Abort home) = Ok (push home (Want (WAbort None)) s)).
  { cbn -[put]. unfold runs. rewrite E, Nat.eqb_refl. unfold do_abort, ask. now rewrite L. }
  eexists. split; [exact S|]. intros more s2 R2.
  destruct (run_dead home false decode listens home more _ s2 (step_good _ _ _ _ _ _ _ G S)) as (_ & A & B); auto.
  split; [exact L|]. left. cbn -[put]. rewrite put_same. eauto.
Qed.

(** Two threads wait for each other forever: code that is called by this error in another thread aborts the operation, which the thread of the operation is to do, and
    that thread needs the mutex: for the abort of a reply, for the next message of a stream. *)
Theorem C79_cross_deadlock_refuted home stream decode listens hs evs s t r d :
  run home stream decode listens (start hs) evs = Ok s -> t <> home -> a_stacks s t = Failing :: r -> a_stacks s home = [] ->
  exists s1, run home stream decode listens s [Abort t; if stream then Message d else Serve] = Ok s1 /\
    forall more s2, run home stream decode listens s1 more = Ok s2 ->
      a_stacks s2 t = a_stacks s1 t /\ exists l, a_log s2 = a_log s1 ++ l /\ nothing_set l /\ nothing_read l.
Proof.
  intros R N E H. destruct (start_inv _ _ _ _ _ _ _ R) as [G _].
  assert (L : a_lock s = Some t).
  { pose proof (v_hold _ _ _ _ G t) as X. rewrite E in X. unfold mine in X. cbn in X. destruct (a_lock s) as [u|] eqn:LK; [|lia].
    destruct (Nat.eqb_spec u t) as [Z|Z]; [now rewrite Z|lia]. }
  assert (S : exists w q, run home stream decode listens s [Abort t; if stream then Message d else Serve] =
    Ok (push home (Want w) (with_posted q (push t Remote (with_posted (a_posted s ++ [t]) s))))).
  { apply not_eq_sym in N as N'. pose proof (proj2 (Nat.eqb_neq t home) N) as NE.
    cbn [run]. cbn -[put step]. cbn [step]. unfold runs. rewrite E, NE. cbn [bind]. destruct stream; cbn -[put]; rewrite put_other, H by auto.
    - unfold ask. cbn -[put]. rewrite L. exists (WMessage d), (a_posted s ++ [t]). cbn -[put]. reflexivity.
    - destruct (a_posted s ++ [t]) as [|u q] eqn:P; [now destruct (a_posted s)|]. unfold ask. cbn -[put]. rewrite L. exists (WAbort (Some u)), q. cbn -[put]. reflexivity. }
  destruct S as (w & q & S). eexists. split; [exact S|]. intros more s2 R2.
  assert (R3 : run home stream decode listens (start hs) (evs ++ [Abort t; if stream then Message d else Serve]) =
    Ok (push home (Want w) (with_posted q (push t Remote (with_posted (a_posted s ++ [t]) s))))) by (rewrite run_app, R; exact S).
  destruct (start_inv _ _ _ _ _ _ _ R3) as [G3 _].
  destruct (run_dead home stream decode listens t more _ s2 G3) as (_ & A & B); auto.
  split; [exact L|]. right. split; auto. cbn -[put]. split.
  - rewrite put_other, put_same by auto. eauto.
  - rewrite put_same. eauto.
Qed.

(** If all data can be deserialized (also no data at all) and no handler is added while handlers are called, then whatever handlers, slots
    and other threads have begun can end: in every state, the threads can go on until no call of read or abort and no handler runs and no
    thread waits.  Missing: data that cannot be deserialized (see the deadlocks above). *)
Theorem C79_completes_partial home stream decode listens hs evs s :
  decode [] = true -> Forall (clean_event decode) evs -> throughout (step home stream decode listens) (careful_event home) (start hs) evs ->
  run home stream decode listens (start hs) evs = Ok s ->
  exists more s', Forall service more /\ run home stream decode listens s more = Ok s' /\ forall t, a_stacks s' t = [].
Proof.
  intros D C T R. destruct (settle_run home stream decode listens D hs evs s C T R) as (l & s' & A & B & X & _). now exists l, s'.
Qed.

(** ** Cases *)

Definition even_length (d : data) : bool := Nat.even (length d).
Definition one_two : list nat := [7; 8].

(** Two handlers; the first reads; a slot in thread 1; thread 2 reads while the message arrives and delays it. *)
Example C79_stream_case :
  exists s, run 0 true even_length (fun t => Nat.eqb t 1) (start one_two)
    [Read 2; Message [5%Z; 6%Z]; Proceed 2; Proceed 0; Read 0; Proceed 0; Return 0; Abort 1; Return 0; Return 0; Serve; Return 0; Take 1; Read 1; Proceed 1] = Ok s /\
    a_log s = [ReadBegins 2; GotRead 2 [] true; Sets [5%Z; 6%Z]; Handled 7 [5%Z; 6%Z]; ReadBegins 0; GotRead 0 [5%Z; 6%Z] true; Handled 8 [5%Z; 6%Z];
      Received [5%Z; 6%Z]; Ended; Noticed 1 [5%Z; 6%Z]; ReadBegins 1; GotRead 1 [5%Z; 6%Z] true].
Proof. apply outcome. vm_compute. reflexivity. Qed.
(** Code of a handler runs, nobody has the mutex; a handler can be added and the loop is undefined. *)
Example C79_handler_case :
  exists s, run 0 true even_length (fun _ => false) (start one_two) [Message [5%Z]] = Ok s /\
    a_stacks s 0 = [Handling 1 2 [5%Z]] /\ a_lock s = None.
Proof. apply outcome. vm_compute. auto. Qed.
(** States with data that cannot be deserialized: in the thread of the operation and in another one. *)
Example C79_failing_case :
  exists s, run 0 true even_length (fun _ => false) (start one_two) [Message [5%Z]; Return 0; Return 0; Return 0; Read 3; Proceed 3] = Ok s /\
    a_stacks s 3 = [Failing] /\ a_stacks s 0 = [].
Proof. apply outcome. vm_compute. auto. Qed.
Example C79_failing_reply_case :
  exists s, run 0 false even_length (fun _ => false) (start []) [Message [5%Z]; Return 0; Read 0; Proceed 0] = Ok s /\ a_stacks s 0 = [Failing].
Proof. apply outcome. vm_compute. auto. Qed.
(** A careful history without failures. *)
Example C79_careful_case :
  even_length [] = true /\ Forall (clean_event even_length) [Subscribe 9; Message [5%Z; 6%Z]; Read 0; Abort 2; Read 2] /\
  throughout (step 0 true even_length (fun _ => false)) (careful_event 0) (start one_two) [Subscribe 9; Message [5%Z; 6%Z]; Read 0; Abort 2; Read 2].
Proof.
  split; [reflexivity|]. split; [repeat constructor|]. cbn. repeat split; auto. intros (n & last & d & []).
Qed.

Print Assumptions C79_read_latest.
Print Assumptions C79_handlers.
Print Assumptions C79_all_received.
Print Assumptions C79_queued_reader_refuted.
Print Assumptions C79_cross_deadlock_refuted.
Print Assumptions C79_completes_partial.

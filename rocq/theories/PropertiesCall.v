(** Properties C36, C41, C54: unary calls. *)

From Coq Require Import ZArith List Bool Lia.
From Verif Require Import Base WireModel Values MessageModel WireSpec MessageSpec MessageProofs SerializeProofs
  RunFacts Examples FrameSpec FrameModel FrameProofs PropertiesFrame CallModel.
Import ListNotations.
Open Scope Z_scope.

(** ** C36 An asynchronous call ends exactly once *)

(** How the end of the network operation shows: like the result of a synchronous call. *)
Definition ends_as (err : Z) (status body : list Z) (s : signal) : Prop :=
  (exists data, http2_call err status body = Ok (0, data) /\ s = Finished data) \/
  (exists code, http2_call err status body = Ok (code, []) /\ code <> 0 /\ s = Error code).

(** The signal the first event leads to.  14: Unavailable. *)
Definition first_signal (e : call_event) (s : signal) : Prop :=
  match e with
  | NetworkDone err status body => ends_as err status body s
  | Timeout | SslErrors => s = Error 14
  | UserAbort => s = Error 10
  end.

Definition error_code (s : signal) : list Z := match s with Finished _ => [] | Error c => [c] end.
Definition aborts (evs : list call_event) : nat :=
  length (filter (fun e => match e with UserAbort => true | _ => false end) evs).

Lemma ended_events : forall evs c, c_connected c = false -> c_client c = false -> c_abort c = false ->
  exists c', http2_events c evs = Ok c' /\
    c_signals c' = c_signals c ++ repeat (Error 10) (aborts evs) /\ c_errors c' = c_errors c /\
    c_data c' = (if Nat.eqb (aborts evs) 0 then c_data c else []).
Proof.
  induction evs as [|e evs IH]; intros c Cn Cl Ca.
  - exists c. cbn. now rewrite app_nil_r.
  - cbn [http2_events].
    assert (N : forall err st bd, exists c1, network_done err st bd c = Ok c1 /\ c_connected c1 = false /\
              c_client c1 = false /\ c_abort c1 = false /\ c_signals c1 = c_signals c /\
              c_errors c1 = c_errors c /\ c_data c1 = c_data c).
    { intros err st bd. unfold network_done. destruct (c_running c); cbn [negb].
      - rewrite Cn. cbn [negb]. eexists. split; [reflexivity|]. cbn. auto 10.
      - exists c. auto 10. }
    assert (G : forall c1, c_connected c1 = false -> c_client c1 = false -> c_abort c1 = false ->
              c_signals c1 = c_signals c -> c_errors c1 = c_errors c -> c_data c1 = c_data c ->
              exists c', http2_events c1 evs = Ok c' /\
              c_signals c' = c_signals c ++ repeat (Error 10) (aborts evs) /\ c_errors c' = c_errors c /\
              c_data c' = (if Nat.eqb (aborts evs) 0 then c_data c else [])).
    { intros c1 A1 A2 A3 A4 A5 A6. destruct (IH c1 A1 A2 A3) as (c' & R & S1 & S2 & S3).
      exists c'. rewrite A4, A5, A6 in *. auto 10. }
    destruct e as [err st bd| | |]; cbn [http2_event]; change (aborts (UserAbort :: evs)) with (S (aborts evs)).
    + destruct (N err st bd) as (c1 & -> & A1 & A2 & A3 & A4 & A5 & A6). cbn [bind]. now apply G.
    + destruct (N 5 [] []) as (c1 & -> & A1 & A2 & A3 & A4 & A5 & A6). cbn [bind]. now apply G.
    + destruct (N 5 [] []) as (c1 & -> & A1 & A2 & A3 & A4 & A5 & A6). cbn [bind]. now apply G.
    + cbn [bind]. destruct (IH (abort_call c)) as (c' & R & S1 & S2 & S3);
        try (unfold abort_call, emit_error; cbn; rewrite ?Ca; cbn; auto; fail).
      exists c'. split; [exact R|]. unfold abort_call, emit_error in *. cbn in *. rewrite Cl in S2.
      split; [rewrite S1, <- app_assoc; reflexivity|]. split; [exact S2|]. now destruct (aborts evs).
Qed.

(** Whatever happens in whatever order: the first event alone decides about the end of the call,
    which is signalled once by the reply and, if it is an error, once by the client; further
    signals come only from further calls of abort(). *)
Theorem C36_first_event_decides : forall e evs,
  (forall err status body, e = NetworkDone err status body -> err = 0 \/ In err qt_network_errors) ->
  exists c s, http2_events new_call (e :: evs) = Ok c /\ first_signal e s /\
    c_signals c = s :: repeat (Error 10) (aborts evs) /\ c_errors c = error_code s.
Proof.
  intros e evs Qt.
  assert (Nd : forall err st bd, err = 0 \/ In err qt_network_errors -> exists c1 s, network_done err st bd new_call = Ok c1 /\
     ends_as err st bd s /\ c_signals c1 = [s] /\ c_errors c1 = error_code s /\
     c_connected c1 = false /\ c_client c1 = false /\ c_abort c1 = false).
  { intros err st bd He. unfold network_done. cbn [new_call c_running c_connected negb].
    assert (X : exists code data, processReply err st bd = Ok (code, data) /\ (code <> 0 -> data = [])).
    { destruct He as [->|He].
      - unfold processReply. cbn [Z.eqb negb]. destruct (Z.eqb_spec (toInt st) 0); cbn [negb].
        + eexists _, _. split; [reflexivity|]. congruence.
        + eexists _, _. split; [reflexivity|]. auto.
      - destruct (C35_network_error err st bd He) as (code & R & _). exists code, []. auto. }
    destruct X as (code & data & R & D). unfold ends_as, http2_call. rewrite R. cbn [bind].
    destruct (Z.eqb_spec code 0) as [->|Nz].
    - eexists _, (Finished data). split; [reflexivity|]. split; [left; eauto|]. cbn. auto 10.
    - eexists _, (Error code). split; [reflexivity|].
      split; [right; exists code; rewrite (D Nz); auto|]. unfold emit_error. cbn. auto 10. }
  assert (G : forall r s, r = Ok s -> forall s', first_signal e s' -> c_signals s = [s'] -> c_errors s = error_code s' ->
     c_connected s = false -> c_client s = false -> c_abort s = false ->
     exists c s', (c' <- r ;; http2_events c' evs) = Ok c /\ first_signal e s' /\
       c_signals c = s' :: repeat (Error 10) (aborts evs) /\ c_errors c = error_code s').
  { intros r s -> s' F S1 S2 A1 A2 A3. cbn [bind].
    destruct (ended_events evs s A1 A2 A3) as (c & R & T1 & T2 & _). exists c, s'. rewrite T1, T2, S1. auto. }
  cbn [http2_events]. destruct e as [err st bd| | |]; cbn [http2_event].
  - destruct (Nd err st bd (Qt _ _ _ eq_refl)) as (c1 & s & R & E & S1 & S2 & A1 & A2 & A3). eapply G; eauto.
  - destruct (Nd 5 [] []) as (c1 & s & R & E & S1 & S2 & A1 & A2 & A3); [right; cbn; tauto|]. eapply G; eauto.
    destruct E as [(d & H & _)|(code & H & _ & ->)]; vm_compute in H; [discriminate|]. injection H as <-. reflexivity.
  - destruct (Nd 5 [] []) as (c1 & s & R & E & S1 & S2 & A1 & A2 & A3); [right; cbn; tauto|]. eapply G; eauto.
    destruct E as [(d & H & _)|(code & H & _ & ->)]; vm_compute in H; [discriminate|]. injection H as <-. reflexivity.
  - eapply G; [reflexivity | reflexivity | | | | |]; reflexivity.
Qed.

(** So a call ends exactly once if it is not aborted after its end, and never with success after an
    abort. *)
Theorem C36_ends_once : forall e evs c,
  (forall err status body, e = NetworkDone err status body -> err = 0 \/ In err qt_network_errors) ->
  ~ In UserAbort evs -> http2_events new_call (e :: evs) = Ok c ->
  exists s, c_signals c = [s] /\ first_signal e s.
Proof.
  intros e evs c Qt N H. destruct (C36_first_event_decides e evs Qt) as (c' & s & R & F & S & _).
  rewrite H in R. injection R as <-. exists s. split; [|exact F]. rewrite S.
  replace (aborts evs) with 0%nat; [reflexivity|]. unfold aborts. clear - N.
  induction evs as [|x evs IH]; [reflexivity|]. cbn. destruct x; try (apply IH; intro; apply N; now right).
  exfalso. apply N. now left.
Qed.

(** After an abort the reply holds no data. *)
Theorem C36_abort_clears_data : forall evs c, http2_events new_call (UserAbort :: evs) = Ok c ->
  c_data c = [] /\ ~ (exists d, In (Finished d) (c_signals c)).
Proof.
  intros evs c H. cbn [http2_events http2_event bind] in H.
  destruct (ended_events evs (abort_call new_call) eq_refl eq_refl eq_refl) as (c' & R & S & _ & D).
  rewrite H in R. injection R as <-. split; [rewrite D; now destruct (Nat.eqb _ _)|].
  intros [d I]. rewrite S in I. cbn in I. destruct I as [I|I]; [discriminate|]. apply repeat_spec in I. discriminate.
Qed.

(** The channel based on the gRPC library behaves the same. *)
Definition native_aborts (evs : list native_event) : nat :=
  length (filter (fun e => match e with NativeAbort => true | _ => false end) evs).
Definition native_signal (e : native_event) : signal :=
  match e with
  | NativeDone code response => if code =? 0 then Finished response else Error code
  | NativeAbort => Error 10
  end.

Lemma native_ended : forall evs c, c_connected c = false -> c_client c = false -> c_abort c = false ->
  c_signals (fold_left native_step evs c) = c_signals c ++ repeat (Error 10) (native_aborts evs) /\
  c_errors (fold_left native_step evs c) = c_errors c.
Proof.
  induction evs as [|e evs IH]; intros c Cn Cl Ca; cbn [fold_left].
  - cbn. now rewrite app_nil_r.
  - destruct e as [code rsp|]; cbn [native_step].
    + assert (X : native_done code rsp c = c \/ native_done code rsp c = stop c)
        by (unfold native_done; rewrite Cn; destruct (c_running c); auto).
      change (native_aborts (NativeDone code rsp :: evs)) with (native_aborts evs).
      destruct X as [-> | ->]; [now apply IH|]. now apply (IH (stop c)).
    + change (native_aborts (NativeAbort :: evs)) with (S (native_aborts evs)).
      destruct (IH (abort_call c)) as [S1 S2]; try (unfold abort_call, emit_error; cbn; rewrite ?Ca; cbn; auto; fail).
      rewrite S1, S2. unfold abort_call, emit_error. cbn. rewrite Cl. now rewrite <- app_assoc.
Qed.

Theorem C36_native_channel : forall e evs,
  c_signals (fold_left native_step (e :: evs) new_call) = native_signal e :: repeat (Error 10) (native_aborts evs) /\
  c_errors (fold_left native_step (e :: evs) new_call) = error_code (native_signal e).
Proof.
  intros e evs. cbn [fold_left]. destruct e as [code rsp|].
  - destruct (native_ended evs (native_step new_call (NativeDone code rsp))) as [S1 S2].
    1-3: cbn; destruct (code =? 0); reflexivity.
    rewrite S1, S2. cbn [native_signal]. cbn. destruct (code =? 0) eqn:E; cbn; auto.
  - destruct (native_ended evs (native_step new_call NativeAbort)) as [S1 S2]; try reflexivity.
    rewrite S1, S2. auto.
Qed.

Example C36_case :
  (exists c, http2_events new_call [Timeout; NetworkDone 0 [48] [0; 0; 0; 0; 1; 9]; SslErrors] = Ok c /\
     c_signals c = [Error 14] /\ c_errors c = [14]) /\
  (exists c, http2_events new_call [NetworkDone 0 [48] [0; 0; 0; 0; 1; 9]; Timeout] = Ok c /\
     c_signals c = [Finished [9]] /\ c_errors c = []) /\
  (exists c, http2_events new_call [UserAbort; NetworkDone 0 [48] [0; 0; 0; 0; 1; 9]; UserAbort] = Ok c /\
     c_signals c = [Error 10; Error 10] /\ c_errors c = [10]).
Proof. repeat split; eexists; repeat split; reflexivity. Qed.

(** ** C41 Synchronous calls *)

(** The call was successful: target and serializer are there, the channel reported success and the
    response could be read. *)
Definition succeeds (channel : option (list Z -> res (Z * list Z))) (has_serializer null_before : bool)
  (arg : list Z) (des : list Z -> res unit) : Prop :=
  null_before = false /\ has_serializer = true /\
  exists ch data, channel = Some ch /\ ch arg = Ok (0, data) /\ des data = Ok tt.

(** The call returns; Ok without any error signal if it was successful, otherwise an error code and the client has
    emitted exactly one error signal, with this code. Missing: calls whose target is deleted while they wait (see
    below), channels that never answer, and deserializers that run into undefined behaviour or do not end. *)
Theorem C41_failures_reported_once_partial : forall channel has_serializer null_before arg des,
  (forall ch a, channel = Some ch -> exists code data, ch a = Ok (code, data)) ->
  (forall d, exists o, des d = o /\ (o = Ok tt \/ exists e, o = Throw e)) ->
  exists code errs, sync_call channel has_serializer null_before false (Ok arg) des = Ok (code, errs) /\
    (code = 0 <-> succeeds channel has_serializer null_before arg des) /\
    errs = if code =? 0 then [] else [code].
Proof.
  intros channel hs nb arg des Hc Hd. unfold sync_call, succeeds.
  destruct nb; [exists 3, [3]; split; [reflexivity|]; split; [|reflexivity];
    split; [discriminate | intros [X _]; discriminate]|].
  destruct channel as [ch|]; [|exists 2, [2]; split; [reflexivity|]; split; [|reflexivity];
    split; [discriminate | intros (_ & _ & ch & d & X & _); discriminate]].
  destruct hs; cbn [negb]; [|exists 2, [2]; split; [reflexivity|]; split; [|reflexivity];
    split; [discriminate | intros (_ & X & _); discriminate]].
  cbn [bind raw_call]. destruct (Hc ch arg eq_refl) as (code & data & R). unfold raw_call. rewrite R. cbn [bind].
  destruct (Z.eqb_spec code 0) as [->|N].
  - destruct (Hd data) as (o & E & Ho). rewrite E. unfold tryDeserialize. destruct Ho as [-> | [e ->]].
    + exists 0, []. cbn. split; [reflexivity|]. split; [|reflexivity]. split; [|reflexivity]. intros _.
      split; [reflexivity|]. split; [reflexivity|]. exists ch, data. auto.
    + assert (X : forall c, c <> 0 -> c = 0 <-> false = false /\ true = true /\ exists ch0 data0,
                Some ch = Some ch0 /\ ch0 arg = Ok (0, data0) /\ des data0 = Ok tt).
      { intros c Nc. split; [congruence|]. intros (_ & _ & ch0 & d0 & Q1 & Q2 & Q3). exfalso. injection Q1 as <-.
        rewrite R in Q2. injection Q2 as <-. congruence. }
      destruct e; cbn; eexists _, _; (split; [reflexivity|]); (split; [apply X; discriminate | reflexivity]).
  - exists code, [code]. split; [reflexivity|].
    split; [|now replace (code =? 0) with false by (symmetry; apply Z.eqb_neq; lia)].
    split; [congruence|]. intros (_ & _ & ch0 & d0 & Q1 & Q2 & _). injection Q1 as <-. congruence.
Qed.

(** Exceptions of the deserializer are mapped to status codes. *)
Theorem C41_exceptions_mapped : forall ch arg data des e, ch arg = Ok (0, data) -> des data = Throw e ->
  sync_call (Some ch) true false false (Ok arg) des =
    let code := match e with InvalidArgument => 3 | OutOfRange => 11 | _ => 13 end in Ok (code, [code]).
Proof.
  intros ch arg data des e R D. unfold sync_call, raw_call. cbn. rewrite R. cbn. rewrite D. now destruct e.
Qed.

(** Missing: the target is deleted while the call waits in its event loop. *)
Theorem C41_target_deleted_refuted : forall ch arg data des, ch arg = Ok (0, data) ->
  sync_call (Some ch) true false true (Ok arg) des = UB NullDeref.
Proof. intros ch arg data des R. unfold sync_call, raw_call. cbn. rewrite R. reflexivity. Qed.

Example C41_case : let ch := fun _ => Ok (0, [8; 1]) in
  sync_call (Some ch) true false false (Ok [1]) (fun _ => Ok tt) = Ok (0, []) /\
  sync_call (Some ch) true false false (Ok [1]) (fun _ => Throw OutOfRange) = Ok (11, [11]) /\
  sync_call (Some (fun _ => Ok (14, []))) true false false (Ok [1]) (fun _ => Ok tt) = Ok (14, [14]) /\
  sync_call None true false false (Ok [1]) (fun _ => Ok tt) = Ok (2, [2]) /\
  succeeds (Some ch) true false [1] (fun _ => Ok tt).
Proof. cbn. repeat split. exists (fun _ => Ok (0, [8; 1])), [8; 1]. auto. Qed.

(** ** C54 Unary calls from end to end *)

(** A call of a method over HTTP/2 with the binary serializer.  [server]: from the body of the request to
    network error, grpc-status and body of the response.  [des]: outcome and result of
    deserializing. *)
Theorem C54_end_to_end : forall sch marg mret arg argbytes response rspbytes (server : list Z -> Z * list Z * list Z) body flag,
  schema_ok sch -> object_ok sch mret response ->
  serializes sch marg arg argbytes -> fits argbytes ->
  serializes sch mret response rspbytes -> Zlen rspbytes <= INT_MAX ->
  (* the server answers the request, which is the frame of the argument *)
  (forall req, framed 0 argbytes req -> server req = (0, [48], body)) -> framed flag rspbytes body ->
  exists r, deserializes sch mret rspbytes r (Ok tt) /\ same sch mret r (map drop_nulls response) /\
    forall des, (forall d r' o, deserializes sch mret d r' o -> des d = o) ->
    sync_call (Some (fun a => let '(err, status, b) := server (request_body a) in http2_call err status b))
      true false false (Ok argbytes) des = Ok (0, []).
Proof.
  intros sch marg mret arg ab rsp rb server body flag S O Sa Fa Sr Lr Sv Fb.
  destruct (run_round_trip sch S mret rsp rb O Sr Lr) as (r & D & _ & Sm).
  exists r. split; [exact D|]. split; [exact Sm|]. intros des Hd.
  unfold sync_call, raw_call. cbn [negb bind]. rewrite (Sv _ (request_framed ab Fa)).
  rewrite (C35_response_data_partial flag rb body Fb). cbn. rewrite (Hd _ _ _ D). reflexivity.
Qed.

Example C54_case : schema_ok ex_sch /\ object_ok ex_sch 0 ex_obj /\ serializes ex_sch 0 ex_obj ex_bytes /\
  fits ex_bytes /\ exists body, framed 0 ex_bytes body.
Proof.
  split; [exact ex_sch_ok|]. split; [exact ex_obj_ok|]. split; [exists 20%nat; vm_compute; reflexivity|].
  assert (F : fits ex_bytes) by (unfold fits, INT_MAX; vm_compute; discriminate).
  split; [exact F|]. exists (request_body ex_bytes). now apply request_framed.
Qed.

Print Assumptions C36_first_event_decides.
Print Assumptions C36_ends_once.
Print Assumptions C36_abort_clears_data.
Print Assumptions C36_native_channel.
Print Assumptions C41_failures_reported_once_partial.
Print Assumptions C41_exceptions_mapped.
Print Assumptions C41_target_deleted_refuted.
Print Assumptions C54_end_to_end.

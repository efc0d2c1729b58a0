(** Property C96: calls to a server that answers whatever it likes. *)

From Coq Require Import ZArith String List Bool Arith Lia.
From Verif Require Values.
From Verif Require Import Base WireModel MessageModel WireSpec WireProofs MessageSpec MessageProofs MessageFacts RunFacts ReaderSpec ReaderCalm
  TypedProofs PropFacts PropertiesReader.
From Verif Require Import FrameModel FrameSpec FrameProofs PropertiesFrame CallModel.
From Verif Require Import GenModel GenTypesModel GenTypesSpec LinkModel LinkSpec RequestModel WholeModel PropertiesLink PropertiesWhole.
Import ListNotations.
Open Scope Z_scope.
Open Scope list_scope.

(** Results of a network operation: the errors of Qt, or none. *)
Definition network_result (err : Z) : Prop := err = 0 \/ In err qt_network_errors.

(** What a call tells about its end: a status, and an error signal if it is not Ok. *)
Definition reports (code : Z) (errors : list Z) : Prop := code = 0 /\ errors = [] \/ code <> 0 /\ errors = [code].

Lemma http2_result err status answer : network_result err ->
  http2_call err status answer = Ok (0, skipn 5 answer) \/ exists code, code <> 0 /\ http2_call err status answer = Ok (code, []).
Proof.
  intros [-> | I].
  - unfold http2_call, processReply. cbn [Z.eqb negb]. destruct (Z.eqb_spec (toInt status) 0); cbn [negb]; eauto.
  - destruct (C35_network_error err status answer I) as (code & E & L). right. exists code. split; [lia | exact E].
Qed.

Lemma try_reports o : (forall u, o <> UB u) -> o <> OutOfFuel -> exists code errors, tryDeserialize true o = Ok (code, errors) /\ reports code errors.
Proof.
  intros NU NF. unfold tryDeserialize. destruct o as [[] | e | u |]; [| | now destruct (NU u) | congruence].
  - exists 0, []. split; [reflexivity | now left].
  - destruct e; eexists; eexists; (split; [reflexivity | right; split; [lia | reflexivity]]).
Qed.

Section Calls.
  Context {ssl : Type} (net : network ssl) (c : client ssl) (b : body) (kin kout : nat) (arg : list Values.value) (sent : list Z).
  Context (err : Z) (status answer : list Z).

  (** The argument can be serialized, and the request that is made with it ends with this error, status and body. *)
  Definition answered : Prop :=
    serializes (cl_schema c) kin arg sent /\ net (sends_request c b sent) = (err, status, answer) /\ network_result err.

  Lemma call_after target : answered ->
    (exists code, code <> 0 /\ http2_call err status answer = Ok (code, [])
       /\ exists n, forall fuel, (n <= fuel)%nat -> blocking_call fuel net c b kin kout arg target = (Ok (code, [code]), target))
    \/ http2_call err status answer = Ok (0, skipn 5 answer)
       /\ exists n, forall fuel, (n <= fuel)%nat -> blocking_call fuel net c b kin kout arg target
            = (tryDeserialize true (outcome fuel c kout (skipn 5 answer)), target_after fuel c kout (skipn 5 answer)).
  Proof.
    intros ((f & S) & N & R). destruct (http2_result err status answer R) as [H | (code & Z & H)].
    - right. split; [exact H |]. exists f. intros fuel Le. apply (serialize_mono _ _ fuel) in S; [| exact Le]. unfold blocking_call.
      rewrite S. cbn [bind]. unfold sync_call, raw_call. cbn [bind negb]. rewrite N, H. cbn [bind Z.eqb].
      destruct (tryDeserialize true (outcome fuel c kout (skipn 5 answer))) as [[code errors] | | |]; reflexivity.
    - left. exists code. split; [exact Z |]. split; [exact H |]. exists f. intros fuel Le. apply (serialize_mono _ _ fuel) in S; [| exact Le].
      apply Z.eqb_neq in Z. unfold blocking_call. rewrite S. cbn [bind]. unfold sync_call, raw_call. cbn [bind negb]. rewrite N, H. cbn [bind].
      rewrite Z. reflexivity.
  Qed.

  Lemma reply_after : answered -> exists n reply, forall fuel, (n <= fuel)%nat -> reply_of_call fuel net c b kin arg = Ok reply
    /\ (exists code, code <> 0 /\ c_signals reply = [Error code] /\ c_errors reply = [code] /\ c_data reply = []
        \/ c_signals reply = [Finished (skipn 5 answer)] /\ c_errors reply = [] /\ c_data reply = skipn 5 answer).
  Proof.
    intros ((f & S) & N & R). destruct (http2_result err status answer R) as [H | (code & Z & H)].
    - exists f. eexists. intros fuel Le. apply (serialize_mono _ _ fuel) in S; [| exact Le]. unfold reply_of_call. rewrite S. cbn [bind].
      rewrite N. unfold http2_call in H. cbn [http2_events http2_event]. unfold network_done.
      cbn [c_running c_connected new_call negb]. rewrite H. cbn [bind Z.eqb]. split; [reflexivity |]. exists 0. right. repeat split.
    - exists f. eexists. intros fuel Le. apply (serialize_mono _ _ fuel) in S; [| exact Le]. unfold reply_of_call. rewrite S. cbn [bind].
      rewrite N. unfold http2_call in H. cbn [http2_events http2_event]. unfold network_done.
      cbn [c_running c_connected new_call negb]. rewrite H. cbn [bind]. apply Z.eqb_neq in Z as Z'. rewrite Z'. split; [reflexivity |].
      exists code. left. repeat split; auto.
  Qed.
End Calls.

(** What comes out of reading [data] with any amount of fuel, if it comes out with some. *)
Lemma read_all_fuel {ssl : Type} (c : client ssl) k data r o : deserializes (cl_schema c) k data r o ->
  exists n, forall fuel, (n <= fuel)%nat -> outcome fuel c k data = o /\ target_after fuel c k data = r.
Proof.
  intros (No & f & D). exists f. intros fuel Le. unfold outcome, target_after.
  apply (deserialize_ext _ _ _ fuel) in D; [| exact Le | exact No]. rewrite D. auto.
Qed.

Lemma bytes_after5 answer : bytes answer -> bytes (skipn 5 answer).
Proof. intro B. rewrite <- (firstn_skipn 5 answer) in B. apply Forall_app in B. apply B. Qed.

Lemma length_after5 (answer : list Z) : Zlen answer <= INT_MAX -> Zlen (skipn 5 answer) <= INT_MAX.
Proof. unfold Zlen. rewrite skipn_length. lia. Qed.

Lemma run_after5 n answer : ~ has_run n answer -> ~ has_run n (skipn 5 answer).
Proof.
  intros H (x & (p & q & E) & L & F). apply H. exists x. split; [| auto]. exists (firstn 5 answer ++ p), q.
  rewrite <- app_assoc, <- E. now rewrite firstn_skipn.
Qed.

(** Whatever the server answers, no exception leaves a call that blocks, and it tells of its end with one status and the error signal
    that belongs to it.  The target keeps its value or has values of the types of its fields, unless the call does not end or
    its behaviour is undefined in one of four ways. *)
Theorem C96_no_exception : forall (ssl : Type) (net : network ssl) c b kin kout arg sent target err status answer,
  answered net c b kin arg sent err status answer -> bytes answer -> object_ok (cl_schema c) kout target ->
  exists enough, forall fuel, (enough <= fuel)%nat -> forall result value,
    blocking_call fuel net c b kin kout arg target = (result, value) ->
    (exists code errors, result = Ok (code, errors) /\ reports code errors /\ object_ok (cl_schema c) kout value)
    \/ result = OutOfFuel \/ exists u, result = UB u /\ In u [OverRead; ShiftOverflow; SignedOverflow; PtrOutOfArray].
Proof.
  intros ssl net c b kin kout arg sent target err status answer A B Ok'.
  destruct (call_after net c b kin kout arg sent err status answer target A) as [(code & Z & H & n & R) | (H & n & R)];
    exists n; intros fuel Le result value E; rewrite R in E by exact Le; apply pair_equal_spec in E; destruct E as [<- <-].
  - left. exists code, [code]. split; [reflexivity |]. split; [now right | exact Ok'].
  - unfold outcome, target_after.
    destruct (deserializeMessage fuel false (cl_schema c) kout (skipn 5 answer)) as [r o] eqn:D. cbn [fst snd].
    assert (X : o = OutOfFuel \/ o <> OutOfFuel) by (destruct o; auto; right; discriminate). destruct X as [-> | No]; [right; now left |].
    assert (Ds : deserializes (cl_schema c) kout (skipn 5 answer) r o) by (split; [exact No | exists fuel; exact D]).
    destruct (deserialize_typed _ _ _ _ _ (bytes_after5 _ B) Ds) as [Or _].
    destruct (C21_kinds _ _ _ _ _ Ds) as [-> | [-> | [-> | (u & -> & I)]]].
    + left. exists 0, []. split; [reflexivity |]. split; [now left | exact Or].
    + left. exists 11, [11]. split; [reflexivity |]. split; [right; split; [lia | reflexivity] | exact Or].
    + left. exists 3, [3]. split; [reflexivity |]. split; [right; split; [lia | reflexivity] | exact Or].
    + right. right. exists u. split; [reflexivity | exact I].
Qed.

(** It ends, and only reading beyond the end of the answer is left, if the answer does not have four bytes with the top bit set in a row.
    Missing: such answers, and those that announce more bytes than they have. *)
Theorem C96_returns_partial : forall (ssl : Type) (net : network ssl) c b kin kout arg sent target err status answer,
  answered net c b kin arg sent err status answer -> bytes answer -> Zlen answer <= INT_MAX -> ~ has_run 4 answer ->
  object_ok (cl_schema c) kout target ->
  exists enough result value, (forall fuel, (enough <= fuel)%nat -> blocking_call fuel net c b kin kout arg target = (result, value))
    /\ object_ok (cl_schema c) kout value
    /\ ((exists code errors, result = Ok (code, errors) /\ reports code errors) \/ result = UB OverRead).
Proof.
  intros ssl net c b kin kout arg sent target err status answer A B L N Ok'.
  destruct (call_after net c b kin kout arg sent err status answer target A) as [(code & Z & H & n & R) | (H & n & R)].
  - exists n, (Ok (code, [code])), target. split; [exact R |]. split; [exact Ok' |]. left. exists code, [code]. split; [reflexivity | now right].
  - destruct (C21_no_run_partial (cl_schema c) kout (skipn 5 answer) (length_after5 _ L) (bytes_after5 _ B) (run_after5 _ _ N)) as (r & o & D & O).
    destruct (read_all_fuel c kout _ _ _ D) as (n' & F). destruct (deserialize_typed _ _ _ _ _ (bytes_after5 _ B) D) as [Or _].
    exists (Nat.max n n'), (tryDeserialize true o), r. split; [| split; [exact Or |]].
    + intros fuel Le. rewrite R by lia. destruct (F fuel) as [-> ->]; [lia | reflexivity].
    + destruct O as [-> | [(e & ->) | ->]]; [left | left | now right]; destruct D as [No _].
      * destruct (try_reports (Ok tt)) as (code & errors & E & Q); [discriminate | discriminate | eauto].
      * destruct (try_reports (Throw e)) as (code & errors & E & Q); [discriminate | discriminate | eauto].
Qed.

(** A call with a reply ends with exactly one signal, and if that is an error, with the error signal of the client.  Reading the reply
    reports like a call that blocks.  Missing: as above. *)
Theorem C96_reply_partial : forall (ssl : Type) (net : network ssl) c b kin kout arg sent err status answer,
  answered net c b kin arg sent err status answer -> bytes answer -> Zlen answer <= INT_MAX -> ~ has_run 4 answer ->
  exists enough reply, forall fuel, (enough <= fuel)%nat -> reply_of_call fuel net c b kin arg = Ok reply
    /\ ((exists code, code <> 0 /\ c_signals reply = [Error code] /\ c_errors reply = [code])
        \/ exists data, c_signals reply = [Finished data] /\ c_errors reply = [] /\ c_data reply = data)
    /\ exists result value, read_from fuel c kout reply = (result, value) /\ object_ok (cl_schema c) kout value
         /\ ((exists code errors, result = Ok (code, errors) /\ reports code errors) \/ result = UB OverRead).
Proof.
  intros ssl net c b kin kout arg sent err status answer A B L N.
  destruct (reply_after net c b kin arg sent err status answer A) as (n & reply & R).
  assert (D0 : bytes (c_data reply) /\ Zlen (c_data reply) <= INT_MAX /\ ~ has_run 4 (c_data reply)).
  { destruct (R n) as (_ & code & [(_ & _ & _ & ->) | (_ & _ & ->)]); [lia | |].
    - split; [constructor |]. split; [vm_compute; discriminate |]. intros (x & (p & q & E) & Lx & _). destruct p, x; try discriminate.
    - split; [now apply bytes_after5 |]. split; [now apply length_after5 | now apply run_after5]. }
  destruct D0 as (B0 & L0 & N0).
  destruct (C21_no_run_partial (cl_schema c) kout (c_data reply) L0 B0 N0) as (r & o & D & O).
  destruct (read_all_fuel c kout _ _ _ D) as (n' & F). destruct (deserialize_typed _ _ _ _ _ B0 D) as [Or _].
  exists (Nat.max n n'), reply. intros fuel Le. destruct (R fuel) as (Rep & code & Sg); [lia |]. split; [exact Rep |].
  split; [destruct Sg as [(Z & S1 & S2 & _) | (S1 & S2 & S3)]; [left; eauto | right; eauto] |].
  exists (tryDeserialize true o), r. destruct (F fuel) as [Fo Ft]; [lia |]. split; [unfold read_from, read_reply; now rewrite Fo, Ft |].
  split; [exact Or |]. destruct O as [-> | [(e & ->) | ->]]; [left | left | now right].
  - destruct (try_reports (Ok tt)) as (co & errors & E & Q); [discriminate | discriminate | eauto].
  - destruct (try_reports (Throw e)) as (co & errors & E & Q); [discriminate | discriminate | eauto].
Qed.

(** ** Streams *)

Lemma occurs_whole x y z : occurs x y -> occurs y z -> occurs x z.
Proof.
  intros (a & b & ->) (p & q & ->). exists (p ++ a), (b ++ q). now rewrite <- !app_assoc.
Qed.

Lemma occurs_mid5 c n : occurs (mid5 c n) c.
Proof.
  unfold mid5. destruct (n <? 0).
  - exists (firstn 5 c), []. now rewrite app_nil_r, firstn_skipn.
  - exists (firstn 5 c), (skipn (Z.to_nat n) (skipn 5 c)). now rewrite firstn_skipn, firstn_skipn.
Qed.

Lemma remove0_end c n : exists a, c = a ++ remove0 c n.
Proof. unfold remove0. destruct (n <=? 0); [now exists [] |]. exists (firstn (Z.to_nat n) c). now rewrite firstn_skipn. Qed.

Lemma deliver_occurs fin fuel : forall k e c, Forall (fun d => occurs d c) (fst (deliver fuel fin k e c))
  /\ forall e' c' k', snd (deliver fuel fin k e c) = Ok (e', c', k') -> exists a, c = a ++ c'.
Proof.
  induction fuel as [| fuel IH]; intros k e c; cbn [deliver]; [split; [constructor | discriminate] |].
  destruct ((e <=? Zlen c) && negb (fin k)); [| split; [constructor | cbn; intros ? ? ? E; injection E as <- <- <-; now exists []]].
  destruct (remove0_end c e) as (a & Ea).
  assert (X : forall d, occurs d (remove0 c e) -> occurs d c).
  { intros d O. apply (occurs_whole _ _ _ O). exists a, []. now rewrite app_nil_r. }
  destruct (if 5 <? Zlen (remove0 c e) then getExpectedDataSize (remove0 c e) else Ok e) as [e1 | | |];
    try (split; [constructor; [apply occurs_mid5 | constructor] | discriminate]).
  specialize (IH (S k) e1 (remove0 c e)). destruct (deliver fuel fin (S k) e1 (remove0 c e)) as [out r]. cbn [fst snd] in *.
  destruct IH as [I1 I2]. split.
  - constructor; [apply occurs_mid5 |]. eapply Forall_impl; [| exact I1]. cbn. auto.
  - intros e' c' k' E. destruct (I2 _ _ _ E) as (a' & E'). exists (a ++ a'). now rewrite <- app_assoc, <- E'.
Qed.

Definition entry_of (received : list Z) (en : entry) : Prop :=
  match en with None => True | Some (_, c) => exists a, received = a ++ c end.

Lemma ready_occurs fin fuel received en data : entry_of received en ->
  Forall (fun d => occurs d (received ++ data)) (fst (ready_read fuel fin en data))
  /\ forall en', snd (ready_read fuel fin en data) = Ok en' -> entry_of (received ++ data) en'.
Proof.
  intro I. unfold ready_read.
  assert (G : forall e c, (exists a, received ++ data = a ++ c) ->
    let '(out, r) := deliver fuel fin 0 e c in
    Forall (fun d => occurs d (received ++ data)) out
    /\ forall en', ('(e', c', k) <- r ;; if (Zlen c' <? 5) || fin k then Ok None else Ok (Some (e', c'))) = Ok en' -> entry_of (received ++ data) en').
  { intros e c (a & E). pose proof (deliver_occurs fin fuel 0 e c) as [F R]. destruct (deliver fuel fin 0 e c) as [out r]. cbn [fst snd] in *. split.
    - eapply Forall_impl; [| exact F]. intros d O. apply (occurs_whole _ _ _ O). exists a, []. rewrite app_nil_r. exact E.
    - intros en' Q. destruct r as [[[e' c'] k'] | | |]; try discriminate. cbn [bind] in Q. destruct ((Zlen c' <? 5) || fin k'); injection Q as <-; [exact Logic.I |].
      destruct (R _ _ _ eq_refl) as (a' & ->). exists (a ++ a'). now rewrite <- app_assoc. }
  destruct en as [[e c] |].
  - destruct I as (a & ->). specialize (G e (c ++ data)). destruct (deliver fuel fin 0 e (c ++ data)) as [out r]. cbn [fst snd].
    apply G. exists a. now rewrite <- app_assoc.
  - destruct (getExpectedDataSize data) as [e | | |]; try (split; [constructor | discriminate]).
    destruct (e =? 0).
    + cbn [fst snd]. split; [constructor; [exists [], (received ++ data); reflexivity | constructor] |]. intros en' E. injection E as <-. exact Logic.I.
    + specialize (G e data). destruct (deliver fuel fin 0 e data) as [out r]. cbn [fst snd]. apply G. exists received. reflexivity.
Qed.

Lemma stream_occurs fin fuel : forall chunks received en, entry_of received en ->
  Forall (fun d => occurs d (received ++ concat chunks)) (fst (read_stream fuel fin en chunks)).
Proof.
  induction chunks as [| d chunks IH]; intros received en I; cbn [read_stream concat]; [constructor |].
  destruct (ready_occurs fin fuel received en d I) as [F R].
  assert (X : Forall (fun x => occurs x (received ++ d ++ concat chunks)) (fst (ready_read fuel fin en d))).
  { eapply Forall_impl; [| exact F]. intros x (p & q & E). exists p, (q ++ concat chunks). rewrite app_assoc, E, <- !app_assoc. reflexivity. }
  destruct (ready_read fuel fin en d) as [out [en' | | |]]; cbn [fst snd] in *; try exact X.
  specialize (IH (received ++ d) en' (R _ eq_refl)). destruct (read_stream fuel fin en' chunks) as [out' r]. cbn [fst] in *.
  apply Forall_app. split; [exact X |]. now rewrite <- app_assoc in IH.
Qed.

Lemma no_huge_no_run data : bytes data -> ~ huge_length data -> ~ has_run 4 data.
Proof.
  intros B H (x & (p & q & E) & L & F). apply H. exists p, x, q. split; [exact E |]. split; [exact L |].
  assert (Bx : bytes x) by (rewrite E in B; apply Forall_app in B; destruct B as [_ B]; apply Forall_app in B; apply B).
  destruct x as [| a [| b [| c [| d [|]]]]]; try discriminate.
  inversion F as [| ? ? Fa F1]; subst. inversion Bx as [| ? ? Ba B1]; subst.
  inversion B1 as [| ? ? Bb B2]; subst. inversion B2 as [| ? ? Bc B3]; subst. inversion B3 as [| ? ? Bd _]; subst.
  unfold is_byte in *. unfold be_number, INT_MAX. cbn [fold_left]. lia.
Qed.

(** A stream: the target has values of the types of its fields after every message, and the client goes on reading.
    Missing: as above, chunks of less than five bytes, and lengths of nearly 2^31 and more (C34). *)
Theorem C96_stream_partial : forall (ssl : Type) (c : client ssl) kout chunks,
  bytes (concat chunks) -> Zlen (concat chunks) <= INT_MAX -> Forall (fun d => 5 <= Zlen d) chunks -> ~ huge_length (concat chunks) ->
  exists enough en results, (forall fuel, (enough <= fuel)%nat -> stream_of fuel c kout chunks = (results, Ok en))
    /\ forall value o, In (value, o) results -> object_ok (cl_schema c) kout value /\ (o = Ok tt \/ (exists e, o = Throw e) \/ o = UB OverRead).
Proof.
  intros ssl c kout chunks B L F H.
  destruct (read_stream_safe (fun _ => false) chunks [] None B H F I) as (out & en & n & R).
  assert (O : Forall (fun d => occurs d (concat chunks)) out).
  { pose proof (stream_occurs (fun _ => false) n chunks [] None I) as O. rewrite R in O by lia. exact O. }
  clear F. assert (Q : exists n' results, (forall fuel, (n' <= fuel)%nat ->
      map (fun d => (target_after fuel c kout d, outcome fuel c kout d)) out = results)
    /\ forall value o, In (value, o) results -> object_ok (cl_schema c) kout value /\ (o = Ok tt \/ (exists e, o = Throw e) \/ o = UB OverRead)).
  { clear R. induction out as [| d out IH]; [exists 0%nat, []; split; [reflexivity | intros ? ? []] |].
    inversion O as [| ? ? (p & q & E) O']; subst. destruct (IH O') as (n1 & rs & R1 & T1).
    pose proof (no_huge_no_run _ B H) as N. rewrite E in B, L, N. apply Forall_app in B. destruct B as [_ B]. apply Forall_app in B. destruct B as [Bd _].
    assert (Ld : Zlen d <= INT_MAX) by (unfold Zlen in *; rewrite !app_length in L; lia).
    assert (Nd : ~ has_run 4 d).
    { intros (x & (a & b & ->) & Lx & Fx). apply N. exists x. split; [| auto]. exists (p ++ a), (b ++ q). now rewrite <- !app_assoc. }
    destruct (C21_no_run_partial (cl_schema c) kout d Ld Bd Nd) as (r & o & D & Od).
    destruct (read_all_fuel c kout _ _ _ D) as (n2 & R2). destruct (deserialize_typed _ _ _ _ _ Bd D) as [Or _].
    exists (Nat.max n1 n2), ((r, o) :: rs). split.
    - intros fuel Le. cbn [map]. destruct (R2 fuel) as [-> ->]; [lia |]. now rewrite R1 by lia.
    - intros value o' [E' | I']; [injection E' as <- <-; auto | now apply T1]. }
  destruct Q as (n' & results & M & T). exists (Nat.max n n'), en, results. split; [| exact T].
  intros fuel Le. unfold stream_of. rewrite R by lia. now rewrite M by lia.
Qed.

(** ** What is missing *)

Lemma skipn_head5 (head data : list Z) : length head = 5%nat -> skipn 5 (head ++ data) = data.
Proof. intro L. destruct head as [| h1 [| h2 [| h3 [| h4 [| h5 [|]]]]]]; try discriminate. reflexivity. Qed.

(** Whatever the service, the method and the messages are: an answer with a field that the target does not have can be such that the
    call never returns.  It is a frame with at most fifteen bytes in it. *)
Theorem C96_hang_refuted : forall (ssl : Type) (c : client ssl) kout num, schema_ok (cl_schema c) ->
  field_number num -> no_field (cl_schema c) kout num ->
  exists data answer, bytes data /\ Zlen data <= 15 /\ framed 0 data answer /\
  forall (net : network ssl) b kin arg sent target, answered net c b kin arg sent 0 [48] answer ->
  exists enough, forall fuel, (enough <= fuel)%nat -> fst (blocking_call fuel net c b kin kout arg target) = OutOfFuel.
Proof.
  intros ssl c kout num Sok Num No.
  assert (U : in_u 64 (8 * num + 2)) by (unfold field_number, in_u in *; lia).
  pose proof (serializeVarint_wire _ U) as T. set (tag := serializeVarintCommon (8 * num + 2)) in *.
  assert (Lt : 0 <= Zlen tag <= 10) by (destruct T as [_ L]; unfold Zlen; lia).
  set (v := 2 ^ 32 - (Zlen tag + 5)). assert (Uv : in_u 64 v) by (unfold in_u, v; lia).
  pose proof (serializeVarint_wire _ Uv) as V. set (len := serializeVarintCommon v) in *.
  assert (Ll : Zlen len = 5).
  { assert (C : Zlen tag = 0 \/ Zlen tag = 1 \/ Zlen tag = 2 \/ Zlen tag = 3 \/ Zlen tag = 4 \/ Zlen tag = 5 \/ Zlen tag = 6 \/ Zlen tag = 7
      \/ Zlen tag = 8 \/ Zlen tag = 9 \/ Zlen tag = 10) by lia.
    unfold len, v. repeat (destruct C as [-> | C]; [vm_compute; reflexivity |]). rewrite C. vm_compute. reflexivity. }
  assert (Lb : Zlen (tag ++ len) <= 15) by (rewrite Zlen_app; lia).
  exists (tag ++ len), (request_body (tag ++ len)). split; [| split; [exact Lb | split]].
  - assert (X : forall v, in_u 64 v -> bytes (serializeVarintCommon v)) by (intros w W; destruct (serializeVarint_wire w W) as [X _]; eapply is_varint_bytes; exact X).
    apply Forall_app. split; now apply X.
  - apply C32_request_framed. unfold FrameSpec.fits, INT_MAX. lia.
  - intros net b kin arg sent target A.
    destruct (call_after net c b kin kout arg sent 0 [48] _ target A) as [(code & Z & H & _) | (_ & n & R)]; [injection H as X; congruence |].
    exists n. intros fuel Le. rewrite R by exact Le. cbn [fst]. change (skipn 5 (request_body (tag ++ len))) with (tag ++ len).
    assert (Nd : ~ exists r o, deserializes (cl_schema c) kout (tag ++ len) r o).
    { pose proof (C20_negative_length_refuted (cl_schema c) kout num tag len [] [] [] [] []) as H. rewrite app_nil_r in H. cbn [app] in H.
      apply H; [exact Sok | apply enc_recs_nil | constructor | apply enc_recs_nil | constructor | exact Num | exact No | exact T | |].
      - replace (2 ^ 32 - Zlen (tag ++ len)) with v; [exact V |]. unfold v. rewrite Zlen_app. lia.
      - rewrite Zlen_app. unfold INT_MAX. lia. }
    unfold outcome. destruct (deserializeMessage fuel false (cl_schema c) kout (tag ++ len)) as [r o] eqn:D. cbn [snd].
    destruct o as [u | e | u |]; [| | | reflexivity]; exfalso; apply Nd; exists r; eexists; (split; [| exists fuel; exact D]); discriminate.
Qed.

(** One answer, the same for all services, methods and messages, makes the client shift a number too far, which has no defined behaviour. *)
Theorem C96_shift_refuted : forall (ssl : Type) (net : network ssl) c b kin kout arg sent target head x rest,
  schema_ok (cl_schema c) -> length head = 5%nat -> length x = 10%nat -> Forall (fun b => 128 <= b < 256) x -> Zlen (x ++ rest) <= INT_MAX ->
  answered net c b kin arg sent 0 [48] (head ++ x ++ rest) ->
  exists enough, forall fuel, (enough <= fuel)%nat -> fst (blocking_call fuel net c b kin kout arg target) = UB ShiftOverflow.
Proof.
  intros ssl net c b kin kout arg sent target head x rest Sok Lh Lx F L A.
  destruct (call_after net c b kin kout arg sent 0 [48] _ target A) as [(code & Z & H & _) | (_ & n & R)]; [injection H as X; congruence |].
  rewrite skipn_head5 in R by exact Lh.
  destruct (C21_shift_refuted (cl_schema c) kout [] [] x rest Sok enc_recs_nil ltac:(constructor) Lx F L) as (r & D). cbn [app] in D.
  destruct (read_all_fuel c kout _ _ _ D) as (n' & E). exists (Nat.max n n'). intros fuel Le. rewrite R by lia. cbn [fst].
  destruct (E fuel) as [-> _]; [lia | reflexivity].
Qed.

(** If the target has a field with a text, bytes or a message, an answer that announces more bytes than it has is read beyond its end. *)
Theorem C96_over_read_refuted : forall (ssl : Type) (net : network ssl) c b kin kout arg sent target head num i tag v len content,
  schema_ok (cl_schema c) -> length head = 5%nat -> field_number num -> field_is (cl_schema c) kout num i ->
  holds_bytes (Values.f_ty (Values.field_at (cl_schema c) kout i)) -> is_tag num 2 tag -> wire_varint v len -> Zlen content + 1 < v < 2 ^ 31 ->
  Zlen (tag ++ len ++ content) <= INT_MAX -> answered net c b kin arg sent 0 [48] (head ++ tag ++ len ++ content) ->
  exists enough, forall fuel, (enough <= fuel)%nat -> fst (blocking_call fuel net c b kin kout arg target) = UB OverRead.
Proof.
  intros ssl net c b kin kout arg sent target head num i tag v len content Sok Lh Num Fi Hb T V Lv L A.
  destruct (call_after net c b kin kout arg sent 0 [48] _ target A) as [(code & Z & H & _) | (_ & n & R)]; [injection H as X; congruence |].
  rewrite skipn_head5 in R by exact Lh.
  destruct (C21_over_read_refuted (cl_schema c) kout [] [] i num tag v len content Sok enc_recs_nil ltac:(constructor) Num Fi T Hb V Lv L) as (r & D).
  cbn [app] in D. destruct (read_all_fuel c kout _ _ _ D) as (n' & E). exists (Nat.max n n'). intros fuel Le. rewrite R by lia. cbn [fst].
  destruct (E fuel) as [-> _]; [lia | reflexivity].
Qed.

(** A stream that starts with a length from 2^31 to 2^32 - 6 keeps the client in its loop for ever. *)
Theorem C96_stream_hang_refuted : forall (ssl : Type) (c : client ssl) kout flag len rest chunks fuel, bytes len -> length len = 4%nat ->
  2 ^ 31 <= be_number len <= 2 ^ 32 - 6 -> rest <> [] ->
  snd (stream_of fuel c kout ((flag :: len ++ rest) :: chunks)) = OutOfFuel.
Proof.
  intros ssl c kout flag len rest chunks fuel B L N R. unfold stream_of. cbn [read_stream].
  pose proof (C34_hostile_length_refuted flag len rest fuel B L N R) as H. unfold running in H.
  destruct (ready_read fuel (fun _ => false) None (flag :: len ++ rest)) as [out r]. cbn [snd] in H. subst r. reflexivity.
Qed.

(** ** Case *)

(** A program with the shop's client, and servers that answer anything with [answer]. *)
Definition says_only (answer : list Z) : network unit := fun _ => (0, [48], answer).
(* nothing, not even a header; a field with the wrong type; a known field, an unknown one, and a text; two bytes of a tag *)
Definition odd_answers : list (list Z) :=
  [ []; [7; 7]; [0; 0; 0; 0; 5; 13; 1; 2; 3; 4]; [0; 0; 0; 0; 9; 8; 10; 122; 1; 55; 18; 2; 104; 105]; [0; 0; 0; 0; 2; 200; 129] ].
Definition shop_method : body := BlockingCall "first"%string.
Definition first_answer (net : network unit) : res (Z * list Z) * list Values.value :=
  blocking_call 100 net shop_client shop_method 1 0 an_order other_line.
Definition order_sent : list Z := match serializeMessage 20 (cl_schema shop_client) 1 an_order with Ok bs => bs | _ => [] end.

Lemma shop_says answer : answered (says_only answer) shop_client shop_method 1 an_order order_sent 0 [48] answer.
Proof. split; [exists 20%nat; vm_compute; reflexivity |]. split; [reflexivity | now left]. Qed.

Lemma shop_client_ok : schema_ok (cl_schema shop_client).
Proof.
  destruct C92_case as (C1 & C2 & C3 & C4 & C5 & C6 & C7 & _). now apply (C92_as_declared_partial [order_file] ["QUrl"%string] client_program).
Qed.

Lemma other_line_client : object_ok (cl_schema shop_client) 0 other_line.
Proof.
  assert (E : cl_schema shop_client = [ Values.mkMsg (Values.md_fields (Values.msg_at shop_schema 0)) [1; 0]%nat;
    Values.mkMsg (Values.md_fields (Values.msg_at shop_schema 1)) (rev (seq 0 7)) ]) by (vm_compute; reflexivity).
  rewrite E. unfold object_ok, other_line, shop_schema. cbn -[Z.pow in_s in_u bytes Z.opp].
  repeat split; try (intro; discriminate); try (unfold in_s, in_u; lia); repeat constructor; unfold is_byte; lia.
Qed.

Lemma few_no_run data : (length (filter (fun b : Z => (128 <=? b)%Z) data) < 4)%nat -> ~ has_run 4 data.
Proof.
  intros H (x & (p & q & ->) & L & F). rewrite !filter_app, !app_length in H.
  assert (E : filter (fun b => 128 <=? b) x = x).
  { clear L H. induction F as [| a x G F IH]; [reflexivity |]. cbn [filter]. rewrite IH. apply Z.leb_le in G. now rewrite G. }
  rewrite E, L in H. lia.
Qed.

Example C96_case :
  schema_ok (cl_schema shop_client) /\ object_ok (cl_schema shop_client) 0 other_line
  /\ (forall answer, answered (says_only answer) shop_client shop_method 1 an_order order_sent 0 [48] answer)
  /\ Forall (fun answer => bytes answer /\ ~ has_run 4 answer /\ Zlen answer <= INT_MAX) odd_answers
  /\ map (fun answer => fst (first_answer (says_only answer))) odd_answers = [Ok (0, []); Ok (0, []); Ok (3, [3]); Ok (0, []); Ok (11, [11])]
  /\ snd (first_answer (says_only (nth 3 odd_answers []))) = [Values.VScalar (Values.SNum 5); Values.VScalar (Values.SStr false [104; 105])].
Proof.
  split; [exact shop_client_ok |]. split; [exact other_line_client |]. split; [exact shop_says |]. split.
  - repeat (constructor; [split; [repeat constructor; unfold is_byte; lia |]; split; [apply few_no_run; vm_compute; lia | vm_compute; discriminate] |]).
    constructor.
  - split; vm_compute; reflexivity.
Qed.

(** The chunks of a stream with two messages of which the second cannot be read. *)
Example C96_stream_case :
  let chunks := [[0; 0; 0; 0; 4; 18; 2]; [104; 105; 0; 0; 0; 0; 2]; [13; 1; 0; 0; 0]] in
  bytes (concat chunks) /\ Zlen (concat chunks) <= INT_MAX /\ Forall (fun d => 5 <= Zlen d) chunks /\ ~ huge_length (concat chunks)
  /\ fst (stream_of 100 shop_client 0 chunks)
     = [([Values.VScalar (Values.SNum 0); Values.VScalar (Values.SStr false [104; 105])], Ok tt);
        ([Values.VScalar (Values.SNum (-1)); Values.VScalar (Values.SStr true [])], Throw InvalidArgument)].
Proof.
  cbv zeta. split; [repeat constructor; unfold is_byte; lia |]. split; [vm_compute; discriminate |].
  split; [repeat (apply Forall_cons; [vm_compute; discriminate |]); apply Forall_nil |]. split; [| vm_compute; reflexivity].
  intros (a & w & b & E & L & H).
  assert (B : Forall (fun x => 0 <= x < 106) w).
  { assert (X : Forall (fun x => 0 <= x < 106) (a ++ w ++ b)) by (rewrite <- E; repeat constructor; lia).
    apply Forall_app in X. destruct X as [_ X]. apply Forall_app in X. apply X. }
  destruct w as [| p [| q [| r [| s [|]]]]]; cbn in L; try discriminate.
  inversion B as [| ? ? P B1]; subst. inversion B1 as [| ? ? Q B2]; subst. inversion B2 as [| ? ? R B3]; subst.
  inversion B3 as [| ? ? S' _]; subst. unfold be_number, INT_MAX in H. cbn [fold_left] in H. lia.
Qed.

(** Answers of these kinds: an unknown field with the length -6, ten bytes with the top bit set, a text of 100 bytes without the bytes. *)
Example C96_refuted_case :
  no_field (cl_schema shop_client) 0 3 /\ field_is (cl_schema shop_client) 0 2 1 /\ holds_bytes (Values.f_ty (Values.field_at (cl_schema shop_client) 0 1))
  /\ is_tag 2 2 [18] /\ wire_varint 100 [100]
  /\ fst (first_answer (says_only [0; 0; 0; 0; 6; 26; 250; 255; 255; 255; 15])) = OutOfFuel
  /\ fst (first_answer (says_only ([0; 0; 0; 0; 10] ++ repeat 128 10))) = UB ShiftOverflow
  /\ fst (first_answer (says_only [0; 0; 0; 0; 2; 18; 100; 104])) = UB OverRead
  /\ 2 ^ 31 <= be_number [128; 0; 0; 0] <= 2 ^ 32 - 6.
Proof.
  split; [repeat constructor; discriminate |]. split; [eexists; split; reflexivity |]. split; [left; reflexivity |].
  split; [split; [constructor; lia | cbn; lia] |]. split; [split; [constructor; lia | cbn; lia] |].
  repeat (split; [vm_compute; reflexivity |]). vm_compute. split; discriminate.
Qed.

Print Assumptions C96_no_exception.
Print Assumptions C96_returns_partial.
Print Assumptions C96_reply_partial.
Print Assumptions C96_stream_partial.
Print Assumptions C96_hang_refuted.
Print Assumptions C96_shift_refuted.
Print Assumptions C96_over_read_refuted.
Print Assumptions C96_stream_hang_refuted.

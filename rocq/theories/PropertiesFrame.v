(** Properties C32 - C35: message framing of the HTTP/2 channel and outcome of unary calls. *)

From Coq Require Import ZArith List Bool Lia.
From Verif Require Import Base FrameSpec FrameModel FrameProofs FrameCuts.
Import ListNotations.
Open Scope Z_scope.

(** The reply is not finished while data is being processed. *)
Definition running : nat -> bool := fun _ => false.

(** The slots return normally having passed [out] to the handlers. *)
Definition receives (fin : nat -> bool) (chunks out : list (list Z)) : Prop :=
  exists en n, forall fuel, (n <= fuel)%nat -> read_stream fuel fin None chunks = (out, Ok en).

(** ** C32 Requests *)

Theorem C32_request_framed : forall args, fits args -> framed 0 args (request_body args).
Proof. exact request_framed. Qed.

(** A server that follows the protocol gets the payload back: the body is the frame of one payload only. *)
Theorem C32_request_unambiguous : forall a b, fits a -> fits b -> request_body a = request_body b -> a = b.
Proof. intros a b A B E. apply (framed_inj 0 a b (request_body a) (request_body b)); auto using request_framed. Qed.

Example C32_case : request_body [1; 2; 3] = [0; 0; 0; 0; 3; 1; 2; 3] /\ fits [1; 2; 3] /\
  request_body (repeat 7 300) = [0; 0; 0; 1; 44] ++ repeat 7 300.
Proof. repeat split. unfold fits, INT_MAX, Zlen. cbn. lia. Qed.

(** ** C33 Server streams *)

(** All chunks end at acceptable positions (see [well_cut]): each message is delivered once, in
    order, unchanged.  Missing: other positions, refuted below. *)
Theorem C33_messages_delivered_partial : forall payloads frames chunks,
  frames_of payloads frames -> Forall fits payloads -> concat chunks = concat frames ->
  well_cut frames chunks -> receives running chunks payloads.
Proof.
  intros ps fs chunks Fr Ft E W.
  destruct (read_stream_frames chunks ps fs [] None [] Fr Ft eq_refl) as
    (out & ps' & del & fs' & c' & en' & Ep & Ef & Frd & Fr' & Ec & P & n & R).
  { cbn. now rewrite app_nil_r. }
  { exact W. }
  assert (X : fs' = []).
  { rewrite app_nil_r in Ec. destruct en' as [[e c]|]; cbn in P.
    - destruct P as [-> (f & fs0 & -> & _ & _ & L)]. cbn in Ec. subst c. rewrite Zlen_app in L.
      pose proof (Zlen_nonneg (concat fs0)). lia.
    - rewrite P in Ec. apply concat_zero; [eapply frames_nonempty; eauto|]. now rewrite <- Ec. }
  subst fs'. inversion Fr'; subst ps'. rewrite app_nil_r in Ep. subst out. exists en', n. exact R.
Qed.

(** At any time, also in the middle of a message, exactly the messages received completely have been
    delivered.  Missing: as before. *)
Theorem C33_prompt_delivery_partial : forall payloads frames chunks rest,
  frames_of payloads frames -> Forall fits payloads -> concat chunks ++ rest = concat frames ->
  well_cut frames chunks ->
  exists received missing received_frames missing_frames,
    payloads = received ++ missing /\ frames = received_frames ++ missing_frames /\
    frames_of received received_frames /\ frames_of missing missing_frames /\
    receives running chunks received /\
    Zlen (concat received_frames) <= Zlen (concat chunks) /\
    (missing_frames = [] \/ Zlen (concat chunks) < Zlen (concat received_frames) + Zlen (hd [] missing_frames)).
Proof.
  intros ps fs chunks rest Fr Ft E W.
  destruct (read_stream_frames chunks ps fs [] None rest Fr Ft eq_refl) as
    (out & ps' & del & fs' & c' & en' & Ep & Ef & Frd & Fr' & Ec & P & n & R); [exact E | exact W|].
  assert (L : Zlen (concat chunks) = Zlen (concat del) + Zlen c').
  { rewrite Ef, concat_app, <- Ec, app_assoc in E. apply app_inv_tail in E. rewrite E. apply Zlen_app. }
  exists out, ps', del, fs'. split; [exact Ep|]. split; [exact Ef|]. split; [exact Frd|]. split; [exact Fr'|].
  split; [exists en', n; exact R|]. pose proof (Zlen_nonneg c').
  split; [lia|]. destruct en' as [[e c]|]; cbn in P.
  - destruct P as [-> (f & fs0 & -> & _ & _ & X)]. right. cbn. lia.
  - subst c'. destruct fs' as [|f fs']; [now left|]. right. cbn.
    pose proof (frames_nonempty _ _ Fr') as NE. inversion NE; subst. change (Zlen ([] : list Z)) with 0 in L. lia.
Qed.

(** A condition that is easier to check: no message is empty, and every chunk ends after a complete
    message or at least six bytes into a message. *)
Example C33_case : exists frames chunks,
  frames_of [[65; 66]; [67]; [68; 69; 70]] frames /\ concat chunks = concat frames /\ length chunks = 3%nat /\
  well_cut frames chunks /\ receives running chunks [[65; 66]; [67]; [68; 69; 70]].
Proof.
  exists [[0; 0; 0; 0; 2; 65; 66]; [0; 0; 0; 0; 1; 67]; [1; 0; 0; 0; 3; 68; 69; 70]],
    [[0; 0; 0; 0; 2; 65]; [66; 0; 0; 0; 0; 1; 67; 1; 0; 0; 0; 3; 68]; [69; 70]].
  assert (F : forall fl a b c d p, bytes [a; b; c; d] -> be_number [a; b; c; d] = Zlen p ->
             exists flag, framed flag p (fl :: a :: b :: c :: d :: p)).
  { intros fl a b c d p B N. exists fl, [a; b; c; d]. repeat split; auto. }
  assert (By : forall n, 0 <= n < 256 -> bytes [0; 0; 0; n]) by (intros; repeat constructor; unfold is_byte; lia).
  assert (Fr : frames_of [[65; 66]; [67]; [68; 69; 70]]
    [[0; 0; 0; 0; 2; 65; 66]; [0; 0; 0; 0; 1; 67]; [1; 0; 0; 0; 3; 68; 69; 70]]).
  { repeat (constructor; [apply F; [apply By; lia | reflexivity]|]). constructor. }
  split; [exact Fr|]. split; [reflexivity|]. split; [reflexivity|].
  assert (W : well_cut [[0; 0; 0; 0; 2; 65; 66]; [0; 0; 0; 0; 1; 67]; [1; 0; 0; 0; 3; 68; 69; 70]]
    [[0; 0; 0; 0; 2; 65]; [66; 0; 0; 0; 0; 1; 67; 1; 0; 0; 0; 3; 68]; [69; 70]]).
  { intros before chunk after E.
    destruct before as [|b0 [|b1 [|b2 before]]]; cbn in E; injection E; intros; subst.
    - exists [], [0; 0; 0; 0; 2; 65; 66], [[0; 0; 0; 0; 1; 67]; [1; 0; 0; 0; 3; 68; 69; 70]].
      split; [reflexivity|]. cbn. split; [discriminate|]. unfold Zlen. cbn. lia.
    - exists [[0; 0; 0; 0; 2; 65; 66]; [0; 0; 0; 0; 1; 67]], [1; 0; 0; 0; 3; 68; 69; 70], [].
      split; [reflexivity|]. cbn. split; [discriminate|]. unfold Zlen. cbn. lia.
    - exists [[0; 0; 0; 0; 2; 65; 66]; [0; 0; 0; 0; 1; 67]], [1; 0; 0; 0; 3; 68; 69; 70], [].
      split; [reflexivity|]. cbn. split; [discriminate|]. unfold Zlen. cbn. lia.
    - destruct before; discriminate. }
  split; [exact W|].
  apply (C33_messages_delivered_partial _ _ _ Fr); [|reflexivity | exact W].
  repeat constructor; unfold fits, INT_MAX, Zlen; cbn; lia.
Qed.

(** Missing: other cuts.  A chunk that ends one to four bytes into the header of a message, after others: this
    part of the header is dropped.  Whatever is received then is read as if it had not been sent, ... *)
Theorem C33_header_dropped_refuted : forall payloads frames frame flag payload j rest fuel,
  frames_of payloads frames -> Forall fits payloads -> payloads <> [] -> framed flag payload frame ->
  (1 <= j <= 4)%nat -> (length payloads < fuel)%nat ->
  read_stream fuel running None ((concat frames ++ firstn j frame) :: rest)
  = (payloads ++ fst (read_stream fuel running None rest), snd (read_stream fuel running None rest)).
Proof.
  intros payloads frames frame flag payload j rest fuel F Fit N Ff Lj L. cbn [read_stream].
  pose proof (frame_length _ _ _ Ff) as Lf. pose proof (Zlen_nonneg payload).
  assert (Lt : Zlen (firstn j frame) = Z.of_nat j) by (unfold Zlen in *; rewrite firstn_length; lia).
  pose proof (last_frame payloads frames F N) as Ll. pose proof (Zlen_nonneg (last payloads [])).
  unfold running at 1. rewrite (chunk_tail payloads frames) by (auto; lia).
  destruct (Z.ltb_spec (Zlen (firstn j frame)) 5); [|lia].
  now destruct (read_stream fuel running None rest) as [out r].
Qed.

(** ... so the message is not delivered. *)
Theorem C33_split_header_refuted : forall payloads frames frame flag payload j fuel,
  frames_of payloads frames -> Forall fits payloads -> payloads <> [] -> framed flag payload frame -> fits payload ->
  (1 <= j <= 4)%nat -> (length payloads < fuel)%nat ->
  fst (read_stream fuel running None [concat frames ++ firstn j frame; skipn j frame]) <> payloads ++ [payload].
Proof.
  intros payloads frames frame flag payload j fuel F Fit N Ff Fp Lj L E.
  rewrite (C33_header_dropped_refuted payloads frames frame flag payload) in E by auto. cbn [fst] in E.
  apply app_inv_head in E. cbn [read_stream] in E. apply (dropped_rest flag payload frame j fuel Ff Fp Lj).
  destruct (ready_read fuel running None (skipn j frame)) as [out [en| | |]] eqn:R; unfold running in R; rewrite R; cbn [fst] in *; auto.
  now rewrite app_nil_r in E.
Qed.

(** A chunk that ends after the header of a message, after another one that is not empty: the message is delivered
    only if it has the size of that other message.  In particular if it is empty, which means that it was received
    completely. *)
Theorem C33_empty_message_refuted : forall payloads frames frame flag payload fuel,
  frames_of payloads frames -> Forall fits payloads -> last payloads [] <> [] -> framed flag payload frame ->
  Zlen payload <> Zlen (last payloads []) -> (length payloads < fuel)%nat ->
  fst (read_stream fuel running None [concat frames ++ firstn 5 frame]) = payloads /\
  fst (read_stream fuel running None [concat frames ++ firstn 5 frame; skipn 5 frame]) <> payloads ++ [payload].
Proof.
  intros payloads frames frame flag payload fuel F Fit N Ff D L.
  assert (Np : payloads <> []) by (intros ->; now apply N).
  pose proof (frame_length _ _ _ Ff) as Lf. pose proof (Zlen_nonneg payload).
  assert (Lt : Zlen (firstn 5 frame) = 5) by (unfold Zlen in *; rewrite firstn_length; lia).
  pose proof (last_frame payloads frames F Np) as Ll.
  assert (Lp : 0 < Zlen (last payloads [])).
  { destruct (last payloads []); [congruence|]. rewrite Zlen_cons. pose proof (Zlen_nonneg l). lia. }
  cbn [read_stream]. unfold running. rewrite (chunk_tail payloads frames) by (auto; lia).
  rewrite Lt. cbn [Z.ltb Z.compare Pos.compare Pos.compare_cont fst]. rewrite app_nil_r. split; [reflexivity|].
  intro E. apply (wrong_size flag payload frame (Zlen (last frames [])) fuel Ff); [lia|lia|].
  destruct (ready_read fuel (fun _ => false) (Some (Zlen (last frames []), firstn 5 frame)) (skipn 5 frame))
    as [out [en| | |]]; cbn [fst] in *; rewrite ?app_nil_r in E; now apply app_inv_head in E.
Qed.

Example C33_cuts_case : frames_of [[65; 66]] [[0; 0; 0; 0; 2; 65; 66]] /\ framed 0 [67] [0; 0; 0; 0; 1; 67] /\
  framed 0 [] [0; 0; 0; 0; 0] /\ last [[65; 66]] [] <> ([] : list Z) /\ fits [65; 66] /\ fits [67] /\
  read_stream 10 running None [[0; 0; 0; 0; 2; 65; 66; 0; 0; 0; 0; 0]] = ([[65; 66]], Ok (Some (7, [0; 0; 0; 0; 0]))).
Proof.
  split; [constructor; [|constructor]; exists 0, [0; 0; 0; 2]; split; [|reflexivity]; repeat split; repeat constructor; lia|].
  split; [exists [0; 0; 0; 1]; split; [|reflexivity]; repeat split; repeat constructor; lia|].
  split; [exists [0; 0; 0; 0]; split; [|reflexivity]; repeat split; repeat constructor; lia|].
  split; [discriminate|]. split; [vm_compute; discriminate|]. split; [vm_compute; discriminate | reflexivity].
Qed.

(** Messages received when the reply is finished are dropped, whatever they are. *)
Theorem C33_finished_reply_refuted : forall payloads frames,
  frames_of payloads frames -> Forall fits payloads -> payloads <> [] ->
  receives (fun _ => true) [concat frames] [].
Proof.
  intros ps fs Fr Ft N. exists None, 1%nat. intros [|fuel] L; [lia|]. cbn [read_stream].
  destruct Fr as [|p f ps fs [flag F] Fr]; [congruence|]. inversion Ft; subst. cbn [concat ready_read].
  rewrite (expected_frame _ _ _ _ _ F H1 eq_refl). pose proof (frame_length _ _ _ F). pose proof (Zlen_nonneg p).
  replace (Zlen f =? 0) with false by (symmetry; apply Z.eqb_neq; lia).
  cbn [deliver negb]. rewrite andb_false_r. cbn [bind]. rewrite orb_true_r. reflexivity.
Qed.

(** ** C34 Arbitrary bytes from the server *)

(** No hang, no access outside of the data if no chunk is shorter than a header and no four consecutive
    bytes make a length near or above 2^31; whatever the handlers do to the reply.  Missing: other bytes, refuted
    below. *)
Theorem C34_reader_safe_partial : forall fin chunks,
  bytes (concat chunks) -> Forall (fun d => 5 <= Zlen d) chunks -> ~ huge_length (concat chunks) ->
  exists out, receives fin chunks out.
Proof.
  intros fin chunks B L H.
  destruct (read_stream_safe fin chunks [] None B H L I) as (out & en & n & R). exists out, en, n. exact R.
Qed.

Example C34_case : bytes (concat [[9; 1; 0; 0; 0; 7]; [1; 2; 3; 4; 5]]) /\
  Forall (fun d => 5 <= Zlen d) [[9; 1; 0; 0; 0; 7]; [1; 2; 3; 4; 5]] /\
  ~ huge_length (concat [[9; 1; 0; 0; 0; 7]; [1; 2; 3; 4; 5]]).
Proof.
  split; [repeat constructor; unfold is_byte; lia|].
  split; [repeat (apply Forall_cons; [vm_compute; discriminate|]); apply Forall_nil|].
  intros (a & w & b & E & L & H).
  assert (B : Forall (fun x => 0 <= x < 10) w).
  { assert (X : Forall (fun x => 0 <= x < 10) (a ++ w ++ b)) by (rewrite <- E; repeat constructor; lia).
    apply Forall_app in X. destruct X as [_ X]. apply Forall_app in X. apply X. }
  destruct w as [|p [|q [|r [|s [|? ?]]]]]; cbn in L; try discriminate.
  inversion B as [|? ? P B1]; subst. inversion B1 as [|? ? Q B2]; subst. inversion B2 as [|? ? R B3]; subst.
  inversion B3 as [|? ? S _]; subst. unfold be_number, INT_MAX in H. cbn [fold_left] in H. lia.
Qed.

(** Missing: every chunk that starts with a length from 2^31 to 2^32 - 6 hangs the client,
    which calls the handlers for ever. *)
Theorem C34_hostile_length_refuted : forall flag len rest fuel, bytes len -> length len = 4%nat ->
  2 ^ 31 <= be_number len <= 2 ^ 32 - 6 -> rest <> [] ->
  snd (ready_read fuel running None (flag :: len ++ rest)) = OutOfFuel.
Proof.
  intros flag len rest fuel B L N R. unfold ready_read. rewrite negative_length by (auto; lia).
  destruct (Z.eqb_spec (be_number len - 2 ^ 32 + 5) 0); [lia|].
  pose proof (deliver_hangs fuel 0 (be_number len - 2 ^ 32 + 5) (flag :: len ++ rest)) as X.
  destruct (deliver fuel running 0 (be_number len - 2 ^ 32 + 5) (flag :: len ++ rest)) as [o r] eqn:Q.
  change (fun _ : nat => false) with running in X. rewrite Q in X. cbn [snd] in X |- *. rewrite X; [reflexivity | lia | |].
  - rewrite Zlen_cons, Zlen_app. destruct rest; [congruence|]. rewrite Zlen_cons. pose proof (Zlen_nonneg rest).
    unfold Zlen in *. lia.
  - rewrite negative_length by (auto; lia). reflexivity.
Qed.

Example C34_hostile_case : bytes [255; 255; 0; 0] /\ 2 ^ 31 <= be_number [255; 255; 0; 0] <= 2 ^ 32 - 6.
Proof. split; [repeat constructor; unfold is_byte; lia | vm_compute; split; discriminate]. Qed.

(** A first chunk of less than four bytes is read beyond its end. *)
Theorem C34_short_chunk_refuted : forall data fuel, Zlen data < 4 ->
  ready_read fuel running None data = ([], UB OverRead).
Proof.
  intros data fuel L. unfold ready_read, getExpectedDataSize. destruct (Z.ltb_spec (Zlen data) 4); [reflexivity | lia].
Qed.

(** ** C35 Outcome of unary calls *)

(** The error codes of Qt 5 (QNetworkReply::NetworkError). *)
Definition qt_network_errors : list Z :=
  [1; 2; 3; 4; 5; 6; 7; 8; 9; 10; 11; 99; 101; 102; 103; 104; 105; 199; 201; 202; 203; 204; 205; 206; 207;
   299; 301; 302; 399; 401; 402; 403; 499].

(** Every network error is reported as an error of gRPC, with empty data. *)
Theorem C35_network_error : forall err status body, In err qt_network_errors ->
  exists code, http2_call err status body = Ok (code, []) /\ 1 <= code <= 16.
Proof.
  intros err status body H. cbn in H.
  repeat (destruct H as [<-|H]; [eexists; split; [reflexivity | lia]|]). contradiction.
Qed.

(** It is reported with the status that the mapping of gRPC gives it. *)
Theorem C35_network_error_status : forall err status body, In err qt_network_errors ->
  exists code, http2_call err status body = Ok (code, []) /\ network_status err code.
Proof.
  intros err status body H. cbn in H.
  repeat (destruct H as [<-|H];
    [eexists; split; [reflexivity |];
     first [left; eexists; split; [unfold reported_as; cbn [In]; repeat (first [left; reflexivity | right]) | cbn [In]; lia]
           | right; split; [reflexivity |]; intros c errs I; cbn [In reported_as] in I;
             repeat (destruct I as [I|I]; [injection I as <- <-; cbn [In]; lia|]); contradiction] |]).
  contradiction.
Qed.

(** Decimal representation of a status code. *)
Inductive decimal : Z -> list Z -> Prop :=
| decimal_digit d : 0 <= d <= 9 -> decimal d [48 + d]
| decimal_more n bs d : 0 < n -> 0 <= d <= 9 -> decimal n bs -> decimal (10 * n + d) (bs ++ [48 + d]).

Lemma digits_app bs : forall acc b acc', digits acc bs = Some acc' ->
  digits acc (bs ++ [b]) = if (48 <=? b) && (b <=? 57) then Some (10 * acc' + (b - 48)) else None.
Proof.
  induction bs as [|x bs IH]; intros acc b acc' H; cbn in *.
  - injection H as <-. reflexivity.
  - destruct ((48 <=? x) && (x <=? 57)); [|discriminate]. now apply IH.
Qed.

Lemma decimal_digits n bs : decimal n bs ->
  digits 0 bs = Some n /\ Forall (fun b => 48 <= b <= 57) bs /\ bs <> [] /\ 0 <= n.
Proof.
  intro H. induction H as [d D | n bs d P D H (IH1 & IH2 & IH3 & IH4)].
  - repeat split; try discriminate; try lia; [|constructor; [lia | constructor]].
    cbn [digits]. replace ((48 <=? 48 + d) && (48 + d <=? 57)) with true by
      (symmetry; apply andb_true_intro; split; apply Z.leb_le; lia). f_equal. lia.
  - repeat split; try lia.
    + rewrite (digits_app _ _ _ _ IH1).
      replace ((48 <=? 48 + d) && (48 + d <=? 57)) with true by
        (symmetry; apply andb_true_intro; split; apply Z.leb_le; lia). f_equal. lia.
    + apply Forall_app. split; [exact IH2 | constructor; [lia | constructor]].
    + destruct bs; discriminate.
Qed.

Lemma skip_space_digits bs : Forall (fun b => 48 <= b <= 57) bs -> skip_space bs = bs.
Proof.
  intro F. destruct F as [|b bs B F]; [reflexivity|]. cbn. unfold is_space.
  replace (b =? 32) with false by (symmetry; apply Z.eqb_neq; lia).
  replace (b <=? 13) with false by (symmetry; apply Z.leb_gt; lia). now rewrite andb_false_r.
Qed.

Lemma toInt_decimal n bs : decimal n bs -> n <= INT_MAX -> toInt bs = n.
Proof.
  intros H L. destruct (decimal_digits n bs H) as (D & F & N & P). unfold toInt.
  rewrite (skip_space_digits bs F), (skip_space_digits (rev bs)) by (now apply Forall_rev).
  rewrite rev_involutive. destruct bs as [|b bs]; [congruence|]. inversion F; subst.
  assert (X : split_sign (b :: bs) = (1, b :: bs)).
  { cbn. destruct (Z.eqb_spec b 45); [lia|]. destruct (Z.eqb_spec b 43); [lia | reflexivity]. }
  rewrite X, D. unfold INT_MAX in *. rewrite Z.mul_1_l.
  destruct (Z.ltb_spec n (- (2147483647) - 1)); [lia|].
  replace (2147483647 <? n) with false by (symmetry; apply Z.ltb_ge; lia). reflexivity.
Qed.

(** An error status of the server is reported as is, with empty data. *)
Theorem C35_server_error : forall code text body, decimal code text -> 0 < code <= INT_MAX ->
  http2_call 0 text body = Ok (code, []).
Proof.
  intros code text body D C. unfold http2_call, processReply. cbn [Z.eqb negb].
  rewrite (toInt_decimal code text D) by lia. now replace (code =? 0) with false by (symmetry; apply Z.eqb_neq; lia).
Qed.

(** With status 0 the data is the response message, if the body is the frame of a message.  Missing: incomplete
    bodies and responses without status, refuted below. *)
Theorem C35_response_data_partial : forall flag payload body, framed flag payload body ->
  http2_call 0 [48] body = Ok (0, payload).
Proof.
  intros flag p body (len & (L & _) & ->). unfold http2_call, processReply. cbn.
  destruct len as [|a [|b [|c [|d [|? ?]]]]]; cbn in L; try discriminate. reflexivity.
Qed.

(** Success is reported only without network error. *)
Theorem C35_ok_means_no_error : forall err status body data,
  http2_call err status body = Ok (0, data) -> err = 0 /\ toInt status = 0 /\ data = skipn 5 body.
Proof.
  intros err status body data. unfold http2_call, processReply. destruct (Z.eqb_spec err 0) as [->|N]; cbn [negb].
  - destruct (Z.eqb_spec (toInt status) 0); cbn [negb]; intro H; injection H; intros; subst; auto; congruence.
  - destruct (map_at err StatusCodeMap) as [c| | |] eqn:E; cbn; try discriminate. intro H. injection H as -> <-.
    exfalso. assert (X : forall l, Forall (fun p => snd p <> 0) l -> map_at err l = Ok 0 -> False).
    { induction l as [|[a v] l IH]; intros F M; cbn in M; [discriminate|]. inversion F; subst.
      destruct (a =? err); [injection M as ->; cbn in *; congruence | auto]. }
    apply (X StatusCodeMap); [|exact E]. unfold StatusCodeMap. repeat (constructor; [cbn; lia|]). constructor.
Qed.

(** Missing: a response without grpc-status, or with one that is no number, is taken for a success. *)
Theorem C35_missing_status_refuted : forall body,
  http2_call 0 [] body = Ok (0, skipn 5 body) /\ http2_call 0 [120] body = Ok (0, skipn 5 body).
Proof. split; reflexivity. Qed.

(** A response that is cut off, wherever, is reported as a success with the data received. *)
Theorem C35_truncated_response_refuted : forall flag payload body body',
  framed flag payload (body ++ body') -> payload <> [] -> body' <> [] ->
  exists data, http2_call 0 [48] body = Ok (0, data) /\ data <> payload /\ Zlen data < Zlen payload.
Proof.
  intros flag payload body body' F Np Nb. pose proof (frame_length _ _ _ F) as L. rewrite Zlen_app in L.
  assert (0 < Zlen body') by (destruct body'; [congruence|]; rewrite Zlen_cons; pose proof (Zlen_nonneg body'); lia).
  assert (0 < Zlen payload) by (destruct payload; [congruence|]; rewrite Zlen_cons; pose proof (Zlen_nonneg payload); lia).
  exists (skipn 5 body). split; [reflexivity|].
  assert (Ls : Zlen (skipn 5 body) < Zlen payload) by (unfold Zlen in *; rewrite skipn_length; lia).
  split; [intro E; rewrite E in Ls; lia | exact Ls].
Qed.

Example C35_case : decimal 14 [49; 52] /\ http2_call 0 [49; 52] [1; 2] = Ok (14, []) /\
  http2_call 5 [48] [0; 0; 0; 0; 0] = Ok (14, []) /\ http2_call 0 [48] [0; 0; 0; 0; 2; 8; 1] = Ok (0, [8; 1]) /\
  framed 0 [8; 1] ([0; 0; 0; 0; 2; 8] ++ [1]) /\ In 5 qt_network_errors.
Proof.
  split.
  { change 14 with (10 * 1 + 4). change [49; 52] with ([48 + 1] ++ [48 + 4]). apply decimal_more; try lia.
    apply decimal_digit. lia. }
  repeat (split; [reflexivity|]). split; [|cbn; tauto].
  exists [0; 0; 0; 2]. repeat split. repeat constructor; unfold is_byte; lia.
Qed.

Print Assumptions C32_request_framed.
Print Assumptions C32_request_unambiguous.
Print Assumptions C33_messages_delivered_partial.
Print Assumptions C33_prompt_delivery_partial.
Print Assumptions C33_header_dropped_refuted.
Print Assumptions C33_split_header_refuted.
Print Assumptions C33_empty_message_refuted.
Print Assumptions C33_finished_reply_refuted.
Print Assumptions C34_reader_safe_partial.
Print Assumptions C34_hostile_length_refuted.
Print Assumptions C34_short_chunk_refuted.
Print Assumptions C35_network_error.
Print Assumptions C35_network_error_status.
Print Assumptions C35_server_error.
Print Assumptions C35_response_data_partial.
Print Assumptions C35_ok_means_no_error.
Print Assumptions C35_missing_status_refuted.
Print Assumptions C35_truncated_response_refuted.

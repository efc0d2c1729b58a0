(** Properties C68, C69, C70: callbacks and replies of asynchronous calls. *)

From Coq Require Import ZArith List Bool Lia.
From Verif Require Import Base WireModel Values MessageModel WireSpec MessageSpec MessageProofs SerializeProofs RunFacts Examples
  FrameSpec FrameModel FrameProofs PropertiesFrame CallModel PropertiesCall ReplyModel ReplySpec ReplyProofs.
Import ListNotations.
Open Scope Z_scope.

Lemma first_signal_of ce c s : ce <> UserAbort -> http2_event new_call ce = Ok c -> c_signals c = [s] -> first_signal ce s.
Proof.
  intros Na H S.
  assert (X : forall err st bd, network_done err st bd new_call = Ok c -> ends_as err st bd s).
  { intros err st bd E. unfold network_done in E. cbn [new_call c_running c_connected negb] in E. unfold ends_as, http2_call.
    destruct (processReply err st bd) as [[code data]| | |] eqn:P; cbn [bind] in E; try discriminate. injection E as <-.
    destruct (Z.eqb_spec code 0) as [->|Nz]; cbn in S; injection S as <-; [left; eauto|]. right. exists code.
    split; [|auto]. f_equal. f_equal. unfold processReply in P. destruct (negb (err =? 0)).
    - destruct (map_at err StatusCodeMap) as [z| | |]; cbn [bind] in P; try discriminate. now injection P as <- <-.
    - destruct (negb (toInt st =? 0)) eqn:Z0; injection P as <- <-; [reflexivity|]. apply negb_false_iff, Z.eqb_eq in Z0. contradiction. }
  destruct ce; cbn [http2_event first_signal] in *; [now apply X| | |contradiction].
  - cbn in H. injection H as <-. cbn in S. now injection S as <-.
  - cbn in H. injection H as <-. cbn in S. now injection S as <-.
Qed.

(** Call [i] is started in [w1] and the events [evs] follow. *)
Lemma started decode evs1 w1 ch s evs w : run decode new_world evs1 = Ok w1 -> w_channel w1 = Some ch ->
  run decode w1 (Start s true :: evs) = Ok w -> client_lives w1 -> engine_lives w1 ->
  exists w2, step decode w1 (Start s true) = Ok w2 /\ run decode w2 evs = Ok w /\ learnt (length (w_replies w1)) w2 = [] /\
    w_gone w2 = w_gone w1 /\ nth_error (w_replies w2) (length (w_replies w1)) = Some (first_reply s ch (first_slots s w1)).
Proof.
  intros R1 Wc R Cl En. cbn [run] in R. destruct (step decode w1 (Start s true)) as [w2| | |] eqn:S; cbn [bind] in R; try discriminate.
  exists w2. split; [reflexivity|]. split; [exact R|]. assert (T : tame w1) by (apply (tame_run decode evs1 new_world); [intros i l [] | exact R1]).
  cbn [step] in S. unfold client_lives, engine_lives in *. rewrite Cl in S. unfold start in S. rewrite En, Wc in S.
  replace ((match s with AsScript _ | AsScriptInto _ _ => true | _ => false end) && negb (true && true)) with false in S by (now destruct s).
  injection S as <-. split; [exact (nothing_learnt w1 T)|]. split; [reflexivity|]. cbn. rewrite nth_error_app2, Nat.sub_diag by auto. reflexivity.
Qed.

(** Call [i] waits, and the first network event ends it. *)
Lemma callbacks decode evs1 w1 ch s evs w : run decode new_world evs1 = Ok w1 -> w_channel w1 = Some ch -> s <> AsHandle ->
  run decode w1 (Start s true :: evs) = Ok w ->
  (forall w, needs (first_reply s ch true) w -> first_slots s w = true) ->
  engine_lives w1 -> throughout decode (needs (first_reply s ch true)) w1 (Start s true :: evs) ->
  (silent (length (w_replies w1)) evs -> learnt (length (w_replies w1)) w = []) /\
  (forall a e ce b, evs = a ++ e :: b -> silent (length (w_replies w1)) a -> network_event (length (w_replies w1)) e = Some ce ->
     exists sg gone, first_signal ce sg /\ (exists w3, run decode w1 (Start s true :: a) = Ok w3 /\ gone = w_gone w3 /\ needs (first_reply s ch true) w3) /\
       learnt (length (w_replies w1)) w = slot_tells decode gone (first_reply s ch true) sg).
Proof.
  intros R1 Wc Ns R Fs En T. pose proof T as [T1 T2]. destruct (started decode evs1 w1 ch s evs w R1 Wc R (proj1 T1) En) as (w2 & S & R2 & L2 & G2 & N2).
  rewrite (Fs _ T1) in N2. specialize (T2 _ S). set (i := length (w_replies w1)) in *.
  assert (W2 : waiting (first_reply s ch true)) by (split; [reflexivity|]; left; now destruct s).
  split.
  - intro Si. destruct (waiting_run decode i evs w2 w _ R2 N2 W2 T2 Si (fun X => False_ind _ (Ns X))) as [L _]. congruence.
  - intros a e ce b -> Si Ne. destruct (run_split decode a w2 (e :: b) w R2) as (w3 & R3 & R4).
    destruct (throughout_app decode _ a w2 (e :: b) T2) as [T3 T4]. specialize (T4 _ R3).
    destruct (waiting_run decode i a w2 w3 _ R3 N2 W2 T3 Si (fun X => False_ind _ (Ns X))) as (L3 & r3 & N3 & W3 & E1 & E2 & E3). cbn in E1, E2, E3.
    cbn [run] in R4. destruct (step decode w3 e) as [w4| | |] eqn:S4; cbn [bind] in R4; try discriminate. destruct T4 as [T4 _].
    destruct (step_evolves decode i w3 e w4 r3 S4 N3) as (r4 & l & N4 & L4 & V).
    destruct (end_evolves decode i w3 e ce w4 r3 r4 l W3 (proj1 T4) Ne S4 V) as (sg & c & Hc & Sg & Ec & Rc & -> & Hh & F1 & F2 & F3).
    assert (O4 : over r4).
    { split; [now rewrite Rc|]. rewrite F1, E1. destruct s as [|x|y|t y]; auto; rewrite Hh; destruct W3 as [_ [W3|W3]]; try congruence;
        rewrite W3; unfold slot_hands; rewrite E1; reflexivity. }
    destruct (over_run decode i b w4 w r4 R4 N4 O4) as [L5 _]. exists sg, (w_gone w3).
    split; [now apply (first_signal_of ce c); [apply (network_not_abort _ _ _ Ne)| |]|]. split.
    + exists w3. split; [cbn [run]; now rewrite S|]. split; [reflexivity | exact T4].
    + rewrite L5, L4, L3, L2. cbn [app]. unfold slot_tells. rewrite E1, E3. reflexivity.
Qed.

(** ** C68 Callbacks of asynchronous calls *)

(** What JavaScript code should learn from the end of a call. *)
Definition script_says (decode : list Z -> list value * res unit) (s : signal) : told :=
  match s with Finished d => GotObject (fst (decode d)) | Error c => GotError c end.

(** A call with callback and errorCallback: nothing happens before its end, and the end is told exactly once, by
    callback with the object read from the response or by errorCallback with the status, whatever else happens
    before and after, as long as client, engine and channel exist.
    Missing: responses that cannot be decoded, no channel, invalid arguments, see below. *)
Theorem C68_script_partial : forall decode evs1 w1 ch evs w,
  run decode new_world evs1 = Ok w1 -> w_channel w1 = Some ch ->
  run decode w1 (Start (AsScript true) true :: evs) = Ok w ->
  throughout decode (fun w => client_lives w /\ engine_lives w /\ channel_lives ch w) w1 (Start (AsScript true) true :: evs) ->
  let i := length (w_replies w1) in
  (silent i evs -> learnt i w = []) /\
  (forall a e ce b, evs = a ++ e :: b -> silent i a -> network_event i e = Some ce ->
     exists s, first_signal ce s /\ learnt i w = [script_says decode s]).
Proof.
  intros decode evs1 w1 ch evs w R1 Wc R T i.
  assert (T' : throughout decode (needs (first_reply (AsScript true) ch true)) w1 (Start (AsScript true) true :: evs)).
  { revert T. apply throughout_impl. intros x (A & B & C). unfold needs. cbn. auto. }
  destruct (callbacks decode evs1 w1 ch (AsScript true) evs w R1 Wc ltac:(discriminate) R (fun _ _ => eq_refl) (proj1 (proj2 (proj1 T))) T') as [X Y].
  split; [exact X|]. intros a e ce b E Si Ne. destruct (Y a e ce b E Si Ne) as (s & gone & F & _ & L). exists s. split; [exact F|].
  unfold i. rewrite L. now destruct s.
Qed.

(** The same for a call into a target that exists. Missing: targets that are deleted before the reply comes, and
    clients, engines or channels that do not live on. *)
Definition into_says (decode : list Z -> list value * res unit) (target : nat) (s : signal) : told :=
  match s with Finished d => Stored target (fst (decode d)) | Error c => GotError c end.

Theorem C68_script_into_partial : forall decode evs1 w1 ch t evs w,
  run decode new_world evs1 = Ok w1 -> w_channel w1 = Some ch ->
  run decode w1 (Start (AsScriptInto t true) true :: evs) = Ok w ->
  throughout decode (fun w => client_lives w /\ engine_lives w /\ channel_lives ch w) w1 (Start (AsScriptInto t true) true :: evs) ->
  let i := length (w_replies w1) in
  (silent i evs -> learnt i w = []) /\
  (forall a e ce b w3, evs = a ++ e :: b -> silent i a -> network_event i e = Some ce ->
     run decode w1 (Start (AsScriptInto t true) true :: a) = Ok w3 -> object_lives t w3 ->
     exists s, first_signal ce s /\ learnt i w = [into_says decode t s]).
Proof.
  intros decode evs1 w1 ch t evs w R1 Wc R T i.
  assert (T' : throughout decode (needs (first_reply (AsScriptInto t true) ch true)) w1 (Start (AsScriptInto t true) true :: evs)).
  { revert T. apply throughout_impl. intros x (A & B & C). unfold needs. cbn. auto. }
  destruct (callbacks decode evs1 w1 ch (AsScriptInto t true) evs w R1 Wc ltac:(discriminate) R (fun _ _ => eq_refl) (proj1 (proj2 (proj1 T))) T') as [X Y].
  split; [exact X|]. intros a e ce b w3 E Si Ne R3 O. destruct (Y a e ce b E Si Ne) as (s & gone & F & (w3' & R3' & -> & _) & L).
  rewrite R3 in R3'. injection R3' as <-. exists s. split; [exact F|]. unfold i. rewrite L. unfold slot_tells. cbn.
  apply has_false in O. rewrite O. now destruct s.
Qed.

(** A call with a C++ callback: it is called exactly once, with the reply, if the call succeeds. Missing: failed
    calls, of which the callback learns nothing. *)
Theorem C68_callback_partial : forall decode evs1 w1 ch x evs w,
  run decode new_world evs1 = Ok w1 -> w_channel w1 = Some ch -> engine_lives w1 ->
  run decode w1 (Start (AsCallback x) true :: evs) = Ok w ->
  throughout decode (fun w => client_lives w /\ object_lives x w /\ channel_lives ch w) w1 (Start (AsCallback x) true :: evs) ->
  let i := length (w_replies w1) in
  (silent i evs -> learnt i w = []) /\
  (forall a e ce b, evs = a ++ e :: b -> silent i a -> network_event i e = Some ce ->
     (exists d, first_signal ce (Finished d) /\ learnt i w = [GotReply d]) \/
     (exists c, first_signal ce (Error c) /\ learnt i w = [])).
Proof.
  intros decode evs1 w1 ch x evs w R1 Wc En R T i.
  assert (T' : throughout decode (needs (first_reply (AsCallback x) ch true)) w1 (Start (AsCallback x) true :: evs)).
  { revert T. apply throughout_impl. intros y (A & B & C). unfold needs. cbn. auto. }
  destruct (callbacks decode evs1 w1 ch (AsCallback x) evs w R1 Wc ltac:(discriminate) R) as [X Y]; auto.
  - intros y (_ & _ & O). cbn in *. apply has_false in O. now rewrite O.
  - split; [exact X|]. intros a e ce b E Si Ne. destruct (Y a e ce b E Si Ne) as (s & gone & F & _ & L). unfold i. rewrite L.
    destruct s as [d|c]; [left; exists d | right; exists c]; auto.
Qed.

(** From end to end: the server answers with the framed serialization of a message, and callback gets that message. *)
Theorem C68_end_to_end : forall sch m response rspbytes body flag decode evs1 w1 ch a b w,
  schema_ok sch -> object_ok sch m response -> serializes sch m response rspbytes -> Zlen rspbytes <= INT_MAX ->
  framed flag rspbytes body -> (forall d r o, deserializes sch m d r o -> decode d = (r, o)) ->
  run decode new_world evs1 = Ok w1 -> w_channel w1 = Some ch ->
  let i := length (w_replies w1) in
  let evs := Start (AsScript true) true :: a ++ Network i 0 [48] body :: b in
  run decode w1 evs = Ok w -> silent i a ->
  throughout decode (fun w => client_lives w /\ engine_lives w /\ channel_lives ch w) w1 evs ->
  exists r, learnt i w = [GotObject r] /\ same sch m r (map drop_nulls response).
Proof.
  intros sch m rsp rb body flag decode evs1 w1 ch a b w S O Sr Lr Fb De R1 Wc i evs R Si T.
  destruct (run_round_trip sch S m rsp rb O Sr Lr) as (r & D & _ & Sm).
  destruct (C68_script_partial decode evs1 w1 ch _ w R1 Wc R T) as [_ Y].
  destruct (Y a (Network i 0 [48] body) (NetworkDone 0 [48] body) b eq_refl Si) as (s & F & L).
  { cbn. unfold i. now rewrite Nat.eqb_refl. }
  exists r. split; [|exact Sm]. fold i in L. rewrite L. destruct F as [(d & E & ->)|(c & E & Nz & ->)].
  - rewrite (C35_response_data_partial flag rb body Fb) in E. injection E as <-. cbn. now rewrite (De _ _ _ D).
  - rewrite (C35_response_data_partial flag rb body Fb) in E. injection E as <- _. contradiction.
Qed.

(** A response that cannot be decoded: callback is called as if it were a proper one, errorCallback is not. *)
Theorem C68_undecodable_refuted : forall decode evs1 w1 ch a b w status body d x,
  http2_call 0 status body = Ok (0, d) -> snd (decode d) = Throw x ->
  run decode new_world evs1 = Ok w1 -> w_channel w1 = Some ch ->
  let i := length (w_replies w1) in
  let evs := Start (AsScript true) true :: a ++ Network i 0 status body :: b in
  run decode w1 evs = Ok w -> silent i a ->
  throughout decode (fun w => client_lives w /\ engine_lives w /\ channel_lives ch w) w1 evs ->
  learnt i w = [GotObject (fst (decode d))].
Proof.
  intros decode evs1 w1 ch a b w status body d x Hd Hx R1 Wc i evs R Si T.
  destruct (C68_script_partial decode evs1 w1 ch _ w R1 Wc R T) as [_ Y].
  destruct (Y a (Network i 0 status body) (NetworkDone 0 status body) b eq_refl Si) as (s & F & L).
  { cbn. unfold i. now rewrite Nat.eqb_refl. }
  fold i in L. rewrite L. destruct F as [(d' & E & ->)|(c & E & Nz & ->)]; rewrite Hd in E; injection E as <-; [reflexivity | contradiction].
Qed.

(** Without channel a call from JavaScript is undefined. *)
Theorem C68_no_channel_refuted : forall decode w s, client_lives w -> engine_lives w -> w_channel w = None ->
  (exists b, s = AsScript b) \/ (exists t b, s = AsScriptInto t b) -> step decode w (Start s true) = UB NullDeref.
Proof.
  intros decode w s C E N H. cbn [step]. unfold client_lives, engine_lives in *. rewrite C. unfold start. rewrite E, N.
  destruct H as [[b ->]|(t & b & ->)]; reflexivity.
Qed.

(** A callback that is no function or a missing argument: neither a callback nor the client tells anything. *)
Theorem C68_invalid_refuted : forall decode w s, (exists b, s = AsScript b) \/ (exists t b, s = AsScriptInto t b) ->
  step decode w (Start s false) = Ok w.
Proof.
  intros decode w s H. cbn [step]. destruct (w_client w); [|reflexivity]. destruct H as [[b ->]|(t & b & ->)]; reflexivity.
Qed.

(** The C++ callback is never called if the call fails. *)
Theorem C68_callback_error_refuted : forall decode evs1 w1 ch x a e ce b w c,
  run decode new_world evs1 = Ok w1 -> w_channel w1 = Some ch -> engine_lives w1 ->
  let i := length (w_replies w1) in
  let evs := Start (AsCallback x) true :: a ++ e :: b in
  run decode w1 evs = Ok w -> silent i a -> network_event i e = Some ce -> first_signal ce (Error c) ->
  throughout decode (fun w => client_lives w /\ object_lives x w /\ channel_lives ch w) w1 evs ->
  learnt i w = [].
Proof.
  intros decode evs1 w1 ch x a e ce b w c R1 Wc En i evs R Si Ne F T.
  destruct (C68_callback_partial decode evs1 w1 ch x _ w R1 Wc En R T) as [_ Y].
  destruct (Y a e ce b eq_refl Si Ne) as [(d & F' & _)|(c' & _ & L)]; [|exact L].
  exfalso. destruct ce as [err st bd| | |]; cbn [first_signal] in *; try discriminate.
  destruct F as [(d1 & _ & E)|(c1 & E1 & Nz & _)]; [discriminate|]. destruct F' as [(d2 & E2 & _)|(c2 & _ & _ & E)]; [|discriminate].
  rewrite E1 in E2. injection E2 as -> _. contradiction.
Qed.

Definition ex_decode (d : list Z) : list value * res unit :=
  match d with [x] => ([VScalar (SNum x)], Ok tt) | _ => ([VScalar (SNum 0)], Throw OutOfRange) end.

Example C68_case :
  let evs := [Attach 1; Start (AsScript true) true; Start (AsScriptInto 7 true) true; Start (AsCallback 8) true; Start (AsScript true) true; Start (AsCallback 8) true;
              Network 1 0 [48] [0; 0; 0; 0; 1; 9]; Expire 3; Network 0 0 [48] [0; 0; 0; 0; 1; 5]; Network 2 0 [48] [0; 0; 0; 0; 1; 6]; Network 4 0 [49] [];
              Network 0 0 [48] [0; 0; 0; 0; 0]; Start (AsScript true) true; Network 5 0 [48] [0; 0; 0; 0; 0]] in
  match run ex_decode new_world evs with
  | Ok w => map (fun i => learnt i w) [0; 1; 2; 3; 4; 5]%nat =
              [[GotObject [VScalar (SNum 5)]]; [Stored 7 [VScalar (SNum 9)]]; [GotReply [6]]; [GotError 14]; []; [GotObject [VScalar (SNum 0)]]] /\
            w_errors w = [14; 1; 11]
  | _ => False
  end.
Proof. vm_compute. auto. Qed.

Example C68_hypotheses_case :
  let evs := [Expire 0; Start AsHandle true; Network 0 0 [48] [0; 0; 0; 0; 1; 5]] in
  exists w1 w, run ex_decode new_world [Attach 1] = Ok w1 /\ w_channel w1 = Some 1%nat /\
    run ex_decode w1 (Start (AsScript true) true :: evs) = Ok w /\
    throughout ex_decode (fun w => client_lives w /\ engine_lives w /\ channel_lives 1 w) w1 (Start (AsScript true) true :: evs) /\
    learnt 0 w = [GotError 14].
Proof.
  eexists _, _. split; [vm_compute; reflexivity|]. split; [reflexivity|]. split; [vm_compute; reflexivity|]. split; [|vm_compute; reflexivity].
  unfold client_lives, engine_lives, channel_lives. cbn [throughout].
  repeat (match goal with
          | |- _ /\ _ => split
          | |- forall w', _ = Ok w' -> _ => let H := fresh in intros ? H; vm_compute in H; injection H as <-
          | |- True => exact Logic.I
          | |- _ \/ _ => left
          | |- _ = _ => reflexivity
          end).
Qed.

(** ** C69 Replies exist as long as they are needed *)

(** As long as the client exists: a reply is not destroyed before its call has ended, even if user code keeps no handle to
    it, nor while there is a handle. *)
Theorem C69_kept : forall decode evs w i r, run decode new_world evs = Ok w -> client_lives w ->
  nth_error (w_replies w) i = Some r -> c_signals (r_call r) = [] \/ (0 < r_handles r)%nat -> referenced r = true.
Proof.
  intros decode evs w i r R C N H. destruct (good_run decode evs new_world w good_new R C i r N) as [P _]. unfold referenced.
  destruct H as [H|H].
  - destruct P as [[->| ->]|[_ P]]; [reflexivity | reflexivity | contradiction].
  - destruct (Nat.eqb_spec (r_handles r) 0); [lia|]. now rewrite orb_true_r.
Qed.

(** A reply returned to user code is destroyed when its call has ended and there is no handle any more.
    Missing: calls with callbacks, see below. *)
Theorem C69_released_partial : forall decode evs w i r, run decode new_world evs = Ok w -> client_lives w ->
  nth_error (w_replies w) i = Some r -> r_style r = AsHandle -> c_signals (r_call r) <> [] -> r_handles r = 0%nat -> referenced r = false.
Proof.
  intros decode evs w i r R C N St Sg H. destruct (good_run decode evs new_world w good_new R C i r N) as [P K]. rewrite St in K.
  unfold referenced. rewrite K, H. destruct P as [[P|P]|[(_ & P & _) _]].
  - rewrite P in Sg. now destruct Sg.
  - rewrite P in Sg. now destruct Sg.
  - now rewrite P.
Qed.

(** The reply of a call with callbacks stays, whether its call has ended or not, as long as the client and the context object
    or the engine exist: it holds a pointer to itself. *)
Theorem C69_callbacks_refuted : forall decode evs w i r, run decode new_world evs = Ok w -> client_lives w ->
  nth_error (w_replies w) i = Some r ->
  match r_style r with AsHandle => False | AsCallback x => object_lives x w | _ => engine_lives w end ->
  referenced r = true.
Proof.
  intros decode evs w i r R C N St. destruct (good_run decode evs new_world w good_new R C i r N) as [_ K]. unfold referenced.
  destruct (r_style r); [contradiction | rewrite (K St) | destruct K as [_ K]; rewrite (K St) | destruct K as [_ K]; rewrite (K St)];
    now rewrite orb_true_r.
Qed.

(** After the destruction of the client every handle is dangling, even to drop it is undefined. *)
Theorem C69_dangling_refuted : forall decode w i r, w_client w = false -> nth_error (w_replies w) i = Some r -> r_handles r = 1%nat ->
  step decode w (Read i) = UB DanglingRef /\ step decode w (Abort i) = UB DanglingRef /\ step decode w (Drop i) = UB DanglingRef.
Proof. intros decode w i r C N H. cbn [step]. unfold through. rewrite N, H, C. auto. Qed.

Example C69_case :
  let evs := [Attach 1; Start AsHandle true; Start AsHandle true; Start (AsCallback 8) true; Start (AsScript true) true; Drop 0; Copy 1; Drop 1;
              Network 0 0 [48] [0; 0; 0; 0; 1; 9]; Expire 1; Expire 2; Expire 3; Start AsHandle true; Drop 4] in
  match run ex_decode new_world evs with
  | Ok w => w_client w = true /\ map referenced (w_replies w) = [false; true; true; true; true] /\ map r_handles (w_replies w) = [0; 1; 0; 0; 0]%nat /\
            match run ex_decode w [ClientGone] with
            | Ok w' => w_client w' = false /\ map r_handles (w_replies w') = [0; 1; 0; 0; 0]%nat
            | _ => False
            end
  | _ => False
  end.
Proof. vm_compute. auto 10. Qed.

(** ** C70 Calls and the channel they were started on *)

(** As long as there is a pointer to its channel, a call is ended by its first network event, also if the client has got another
    channel since, and also if user code has dropped the handle.
    Missing: the channel is destroyed, see below. *)
Theorem C70_kept_partial : forall decode evs1 w1 ch evs w, run decode new_world evs1 = Ok w1 -> w_channel w1 = Some ch ->
  client_lives w1 -> engine_lives w1 ->
  run decode w1 (Start AsHandle true :: evs) = Ok w ->
  throughout decode (fun w => client_lives w /\ channel_lives ch w) w1 (Start AsHandle true :: evs) ->
  let i := length (w_replies w1) in
  forall a e ce b, evs = a ++ e :: b -> silent i a -> ~ In (Abort i) a -> network_event i e = Some ce ->
  exists w2 r s, run decode w1 (Start AsHandle true :: a ++ [e]) = Ok w2 /\ nth_error (w_replies w2) i = Some r /\
    first_signal ce s /\ c_signals (r_call r) = [s].
Proof.
  intros decode evs1 w1 ch evs w R1 Wc Cl En R T i a e ce b -> Si Na Ne. pose proof T as [T1 T2].
  destruct (started decode evs1 w1 ch AsHandle _ w R1 Wc R Cl En) as (w2 & S & R2 & L2 & G2 & N2). specialize (T2 _ S). cbn in N2.
  destruct (run_split decode a w2 (e :: b) w R2) as (w3 & R3 & R4).
  destruct (throughout_app decode _ a w2 (e :: b) T2) as [T3 T4]. specialize (T4 _ R3).
  destruct (waiting_run decode i a w2 w3 _ R3 N2) as (L3 & r3 & N3 & W3 & E1 & E2 & E3); auto.
  { split; [reflexivity | now right]. }
  { revert T3. apply throughout_impl. intros x [A B]. unfold needs. cbn. auto. }
  cbn [run] in R4. destruct (step decode w3 e) as [w4| | |] eqn:S4; cbn [bind] in R4; try discriminate. destruct T4 as [[T4 _] _].
  destruct (step_evolves decode i w3 e w4 r3 S4 N3) as (r4 & l & N4 & L4 & V).
  destruct (end_evolves decode i w3 e ce w4 r3 r4 l W3 T4 Ne S4 V) as (sg & c & Hc & Sg & _ & Rc & _).
  exists w4, r4, sg. split; [|split; [exact N4|split]].
  - cbn [run]. rewrite S. cbn [bind]. rewrite run_app, R3. cbn [bind run]. now rewrite S4.
  - apply (first_signal_of ce c); auto. apply (network_not_abort _ _ _ Ne).
  - now rewrite Rc.
Qed.

(** If the channel is destroyed while the call is running, for instance because the client got another one, the call never ends: no
    event but an abort by the user leads to a signal or callback. *)
Theorem C70_replaced_refuted : forall decode evs1 w1 ch i r, run decode new_world evs1 = Ok w1 -> client_lives w1 ->
  nth_error (w_replies w1) i = Some r -> c_signals (r_call r) = [] -> r_channel r = ch -> ~ channel_lives ch w1 ->
  forall evs w, run decode w1 evs = Ok w -> ~ In (Abort i) evs -> client_lives w ->
  learnt i w = learnt i w1 /\ exists r', nth_error (w_replies w) i = Some r' /\ c_signals (r_call r') = [] /\ referenced r' = true.
Proof.
  intros decode evs1 w1 ch i r R1 C1 N1 Sg Ec Dead evs w R Na C.
  assert (St : r_call r = stop new_call).
  { destruct (good_run decode evs1 new_world w1 good_new R1 C1 i r N1) as [[[P|P]|[_ P]] _]; [|exact P|contradiction].
    exfalso. apply Dead. rewrite <- Ec. apply (served_run decode evs1 new_world w1 served_new R1 i r N1). now rewrite P. }
  clear R1 Sg Ec Dead. revert w1 r C1 N1 St R. induction evs as [|e evs IH]; intros w1 r C1 N1 St R; cbn [run] in R.
  - injection R as <-. split; [reflexivity|]. exists r. split; [exact N1|]. unfold referenced. rewrite St. auto.
  - destruct (step decode w1 e) as [w2| | |] eqn:S; cbn [bind] in R; try discriminate.
    destruct (step_evolves decode i w1 e w2 r S N1) as (r2 & l & N2 & L2 & V).
    assert (C2 : client_lives w2).
    { clear - R C. revert w2 R. induction evs as [|x evs IH]; intros w2 R; cbn [run] in R; [injection R as <-; exact C|].
      destruct (step decode w2 x) as [w3| | |] eqn:S; cbn [bind] in R; try discriminate.
      destruct (step_mono _ _ _ _ S) as (M & _ & _). apply M. now apply IH. }
    assert (X : r_call r2 = stop new_call /\ l = []).
    { destruct V as [|_ X Nd|b Ee St'|t b Ee St'|x Ee St'|r' Ee A B D F G H I|ce c Ne Cl Hc|Ee Hh Cl|Ee Hh|n Ee Hh]; auto.
      - cbn. now rewrite St.
      - subst e. cbn [step] in S. injection S as <-. exfalso. unfold client_lives, client_gone in C2. destruct (w_channel w1) as [y|]; [|discriminate].
        destruct (has y (w_held w1)); discriminate.
      - assert (c = stop new_call).
        { rewrite St in Hc. pose proof (network_not_abort _ _ _ Ne). destruct ce; cbn in Hc; try (injection Hc as <-; reflexivity). contradiction. }
        subst c. unfold after_call, tells, hands. rewrite St. cbn. auto.
      - exfalso. apply Na. left. exact Ee. }
    destruct X as [St2 ->]. rewrite app_nil_r in L2. destruct (IH (fun I => Na (or_intror I)) w2 r2 C2 N2 St2 R) as [L X].
    split; [congruence | exact X].
Qed.

Example C70_case :
  match run ex_decode new_world [Attach 1; Start AsHandle true; Start (AsScript true) true; Attach 2; Network 0 0 [48] [0; 0; 0; 0; 1; 9]; Release 1] with
  | Ok w => w_client w = true /\ map (fun r => c_signals (r_call r)) (w_replies w) = [[Finished [9]]; []] /\ ~ channel_lives 1 w /\
            match run ex_decode w [Expire 1; Network 1 0 [48] [0; 0; 0; 0; 1; 9]] with
            | Ok w' => learnt 1 w' = [] /\ w_errors w' = []
            | _ => False
            end
  | _ => False
  end.
Proof.
  vm_compute. repeat split; auto. intros [[_ H]|[H|H]]; [discriminate | discriminate | contradiction].
Qed.

Print Assumptions C68_script_partial.
Print Assumptions C68_script_into_partial.
Print Assumptions C68_callback_partial.
Print Assumptions C68_end_to_end.
Print Assumptions C68_undecodable_refuted.
Print Assumptions C68_no_channel_refuted.
Print Assumptions C68_invalid_refuted.
Print Assumptions C68_callback_error_refuted.
Print Assumptions C69_kept.
Print Assumptions C69_released_partial.
Print Assumptions C69_callbacks_refuted.
Print Assumptions C69_dangling_refuted.
Print Assumptions C70_kept_partial.
Print Assumptions C70_replaced_refuted.

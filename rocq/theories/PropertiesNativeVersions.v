(** Property C102: clients and servers of different versions, over the channel that is based on the gRPC library. *)

From Coq Require Import ZArith Ascii String List Bool Arith Lia.
From Verif Require Values.
From Verif Require Import Base MessageModel MessageSpec MessageProofs MessageFacts RunFacts EvolveSpec CallModel.
From Verif Require Import GenModel GenSpec GenTypesModel GenTypesSpec GenTypesNames GenClassSpec LinkModel LinkSpec LinkProofs PropertiesLink
  WholeSpec PropertiesWhole UpgradeSpec PropertiesUpgrade NativeModel NativeSpec NativeProofs PropertiesNative PropertiesQmlTypes
  NativeCallModel NativeCallSpec PropertiesNativeCall.
Import ListNotations.
Open Scope nat_scope.
Open Scope string_scope.

(** The client is a program from the files [ps], the server one from the files [ps'], which are another version: older, newer, or neither.  The
    client is generated for its version of the service; names are identifiers. *)
Definition native_versions (newer : nat -> nat -> Prop) (ps ps' : list proto) (qt qt' : list string) (p q : program) (sch' : Values.schema)
  (parts : list string) (v v' : service) (c : native_client) : Prop :=
  files_valid ps /\ files_valid ps' /\ files_versions newer ps ps' /\ files_versions (fun i i' => newer i' i) ps' ps
  /\ service_versions newer ps ps' v v'
  /\ program_of ps qt p /\ usable ps qt (pr_qml p) /\ runs_as p (nc_schema c)
  /\ program_of ps' qt' q /\ usable ps' qt' (pr_qml q) /\ runs_as q sch'
  /\ nc_service c = v /\ v_package v = package_of parts /\ Forall identifier (parts ++ [v_name v])%list.

(** A message of the client is received by the server, and the other way round. *)
Lemma at_server : forall newer ps ps' qt qt' p q sch' parts v v' c full full' k k' arg bytes,
  native_versions newer ps ps' qt qt' p q sch' parts v v' c ->
  (forall i i', full_name_of ps full i -> full_name_of ps' full' i' -> newer i i') -> class_of ps full k -> class_of ps' full' k' ->
  object_ok (nc_schema c) k arg -> serializes (nc_schema c) k arg bytes -> (Zlen bytes <= INT_MAX)%Z ->
  exists a, deserializes sch' k' bytes a (Ok tt) /\ received_as (nc_schema c) sch' k k' arg a.
Proof.
  intros newer ps ps' qt qt' p q sch' parts v v' c full full' k k' arg bytes
    (FV & FV' & Vf & Vb & SV & PO & PU & PR & QO & QU & QR & _) Rel (cl & K & Na) (cl' & K' & Na') Ok1 Ser L.
  destruct (C92_versions_partial ps ps' qt qt' newer p q (nc_schema c) sch' k k' cl cl' arg bytes FV FV' Vf PO PU PR QO QU QR K K'
    (Rel _ _ Na Na') Ok1 Ser L) as (r & r' & D & S & B). exists r. split; [exact D | now exists r'].
Qed.
Lemma at_client : forall newer ps ps' qt qt' p q sch' parts v v' c full full' k k' arg bytes,
  native_versions newer ps ps' qt qt' p q sch' parts v v' c ->
  (forall i i', full_name_of ps full i -> full_name_of ps' full' i' -> newer i i') -> class_of ps full k -> class_of ps' full' k' ->
  object_ok sch' k' arg -> serializes sch' k' arg bytes -> (Zlen bytes <= INT_MAX)%Z ->
  exists a, deserializes (nc_schema c) k bytes a (Ok tt) /\ received_as sch' (nc_schema c) k' k arg a.
Proof.
  intros newer ps ps' qt qt' p q sch' parts v v' c full full' k k' arg bytes
    (FV & FV' & Vf & Vb & SV & PO & PU & PR & QO & QU & QR & _) Rel (cl & K & Na) (cl' & K' & Na') Ok1 Ser L.
  destruct (C92_versions_partial ps' ps qt' qt (fun i i' => newer i' i) q p sch' (nc_schema c) k' k cl' cl arg bytes FV' FV Vb QO QU QR PO PU PR K' K
    (Rel _ _ Na Na') Ok1 Ser L) as (r & r' & D & S & B). exists r. split; [exact D | now exists r'].
Qed.

(** The procedure of the client's name has the same path at the server. *)
Lemma same_path newer ps ps' qt qt' p q sch' parts v v' c b x x' : native_versions newer ps ps' qt qt' p q sch' parts v v' c ->
  same_procedure newer ps ps' x x' -> passed_name b = x_name x -> procedure_of c b = rpc_path parts v' x'.
Proof.
  intros (_ & _ & _ & _ & (_ & Ev & _) & _ & _ & _ & _ & _ & _ & S & V & I) (En & _) N.
  rewrite (procedure_named c parts v b x S V I N). unfold rpc_path. now rewrite Ev, En.
Qed.

Lemma exchanged_native : forall newer ps ps' qt qt' p q sch' parts v v' c answer lib m x x' kin kin' kout kout' arg bytes,
  native_versions newer ps ps' qt qt' p q sch' parts v v' c -> library_calls ps' parts v' sch' answer lib ->
  passed_name (c_body m) = x_name x -> x_server_streams x = false ->
  In x' (v_rpcs v') -> same_procedure newer ps ps' x x' ->
  class_of ps (x_input x) kin -> class_of ps' (x_input x') kin' -> class_of ps (x_output x) kout -> class_of ps' (x_output x') kout' ->
  object_ok (nc_schema c) kin arg -> serializes (nc_schema c) kin arg bytes -> (Zlen bytes <= INT_MAX)%Z ->
  (forall a, received_as (nc_schema c) sch' kin kin' arg a -> object_ok sch' kout' (answer x' a)) ->
  exists a r bs enough, received_as (nc_schema c) sch' kin kin' arg a /\ received_as sch' (nc_schema c) kout' kout (answer x' a) r
    /\ call_thread lib (procedure_of c (c_body m)) bytes = (0%Z, bs)
    /\ forall fuel, enough <= fuel -> serializeMessage fuel (nc_schema c) kin arg = Ok bytes /\ received fuel c kout bs = (r, Ok tt).
Proof.
  intros newer ps ps' qt qt' p q sch' parts v v' c answer lib m x x' kin kin' kout kout' arg bytes
    NV Srv N U X' Sp Kin Kin' Kout Kout' Oka Ser L Ans.
  pose proof (same_path _ _ _ _ _ _ _ _ _ _ _ _ _ x x' NV Sp N) as Pr. destruct Sp as (En & Eu & Ri & Ro).
  destruct (at_server newer ps ps' qt qt' p q sch' parts v v' c _ _ kin kin' arg bytes NV Ri Kin Kin' Oka Ser L) as (a & Da & Aa).
  destruct (Srv x' (parseQByteArray bytes) a kin' kout' X' (eq_trans Eu U)) as (bs & b & Sb & Lb & Hb & Net); try assumption.
  { cbn. now rewrite app_nil_r. }
  destruct (at_client newer ps ps' qt qt' p q sch' parts v v' c _ _ kout kout' (answer x' a) bs NV Ro Kout Kout' (Ans a Aa) Sb Lb) as (r & Dr & Ar).
  destruct Ser as (f1 & Ser). destruct Dr as (_ & f2 & Dr).
  exists a, r, bs, (Nat.max f1 f2). split; [exact Aa |]. split; [exact Ar |].
  split; [unfold call_thread; rewrite Pr, Net; cbn [Z.eqb]; now apply whole_buffer |]. intros fuel Le. split.
  - apply (serialize_mono _ _ fuel) in Ser; [exact Ser | lia].
  - unfold received. apply (deserialize_ext _ _ _ fuel) in Dr; [exact Dr | lia | discriminate].
Qed.

(** C102.  A call that blocks reaches the procedure of its name also if client and server are built from different versions of the files.  The
    procedure gets what the message becomes in the version of the server, and the target has afterwards what the procedure's answer becomes in the
    version of the client; the status is Ok, and the client emits no error.
    Missing: as C92_versions_partial (changes of types, see C84), and as C101_blocking_partial. *)
Theorem C102_blocking_partial : forall newer ps ps' qt qt' p q sch' parts v v' c answer lib m n,
  native_versions newer ps ps' qt qt' p q sch' parts v v' c -> library_calls ps' parts v' sch' answer lib ->
  In m (client_methods (pr_qml p) v) -> c_body m = BlockingCall n ->
  exists x x', In x (v_rpcs v) /\ x_name x = n /\ x_server_streams x = false /\ In x' (v_rpcs v') /\ same_procedure newer ps ps' x x' /\
  forall kin kin' kout kout' arg bytes target,
   class_of ps (x_input x) kin -> class_of ps' (x_input x') kin' -> class_of ps (x_output x) kout -> class_of ps' (x_output x') kout' ->
   object_ok (nc_schema c) kin arg -> serializes (nc_schema c) kin arg bytes -> (Zlen bytes <= INT_MAX)%Z ->
   (forall a, received_as (nc_schema c) sch' kin kin' arg a -> object_ok sch' kout' (answer x' a)) ->
   exists a r enough, received_as (nc_schema c) sch' kin kin' arg a /\ received_as sch' (nc_schema c) kout' kout (answer x' a) r
     /\ forall fuel, enough <= fuel -> native_blocking fuel lib c (c_body m) kin kout arg target = (Ok (0%Z, []), r).
Proof.
  intros newer ps ps' qt qt' p q sch' parts v v' c answer lib m n NV Srv I B.
  destruct (method_of _ _ _ I) as (x & X & N & O). pose proof NV as (_ & _ & _ & _ & (_ & _ & SVs) & _). destruct (SVs x X) as (x' & X' & Sp).
  exists x, x'. split; [exact X |]. split; [rewrite B in N; now symmetry |].
  assert (U : x_server_streams x = false).
  { destruct (x_server_streams x); [| reflexivity]. exfalso. assert (H : opens_stream m) by (apply O; reflexivity). unfold opens_stream in H. rewrite B in H. exact H. }
  split; [exact U |]. split; [exact X'|]. split; [exact Sp|]. intros kin kin' kout kout' arg bytes target Kin Kin' Kout Kout' Oka Ser L Ans.
  destruct (exchanged_native newer ps ps' qt qt' p q sch' parts v v' c answer lib m x x' kin kin' kout kout' arg bytes)
    as (a & r & bs & enough & Aa & Ar & Net & En); try assumption.
  exists a, r, enough. split; [exact Aa |]. split; [exact Ar |]. intros fuel Le. destruct (En fuel Le) as (Se & De).
  unfold native_blocking. rewrite Se. cbn [bind]. unfold sync_call, raw_call. cbn [bind negb]. rewrite Net. cbn. rewrite De. reflexivity.
Qed.

(** The same for the methods that return a reply or take callbacks, for every interleaving of the threads of the client, if the user does not abort
    or destroy the reply.  If they do, and at any time before the end, the reply has emitted nothing, or "finished" with that answer.
    Missing: as above. *)
Theorem C102_reply_partial : forall newer ps ps' qt qt' p q sch' parts v v' c answer lib m,
  native_versions newer ps ps' qt qt' p q sch' parts v v' c -> library_calls ps' parts v' sch' answer lib ->
  In m (client_methods (pr_qml p) v) -> ~ opens_stream m ->
  exists x x', In x (v_rpcs v) /\ x_name x = passed_name (c_body m) /\ x_server_streams x = false
  /\ In x' (v_rpcs v') /\ same_procedure newer ps ps' x x' /\
  forall kin kin' kout kout' arg bytes,
   class_of ps (x_input x) kin -> class_of ps' (x_input x') kin' -> class_of ps (x_output x) kout -> class_of ps' (x_output x') kout' ->
   object_ok (nc_schema c) kin arg -> serializes (nc_schema c) kin arg bytes -> (Zlen bytes <= INT_MAX)%Z ->
   (forall a, received_as (nc_schema c) sch' kin kin' arg a -> object_ok sch' kout' (answer x' a)) ->
   exists a r data reply enough, received_as (nc_schema c) sch' kin kin' arg a /\ received_as sch' (nc_schema c) kout' kout (answer x' a) r
     /\ c_signals reply = [Finished data] /\ c_errors reply = [] /\ c_data reply = data
     /\ (forall fuel, enough <= fuel -> native_reply fuel lib c (c_body m) kin arg = Ok reply /\ received fuel c kout data = (r, Ok tt))
     /\ (forall evs n i, work_done evs n i -> task_of n i = Unary -> results i evs = [call_thread lib (procedure_of c (c_body m)) bytes] ->
          ends i (n_log n) = [RDone (w_owner (work_at n i)) i data])
     /\ (forall evs n i, execution evs n -> i < length (n_works n) -> task_of n i = Unary ->
          results i evs = [] \/ results i evs = [call_thread lib (procedure_of c (c_body m)) bytes] ->
          NativeSpec.messages i (n_log n) = [] /\ (ends i (n_log n) = [] \/ ends i (n_log n) = [RDone (w_owner (work_at n i)) i data])).
Proof.
  intros newer ps ps' qt qt' p q sch' parts v v' c answer lib m NV Srv I B.
  destruct (method_of _ _ _ I) as (x & X & N & O). pose proof NV as (_ & _ & _ & _ & (_ & _ & SVs) & _). destruct (SVs x X) as (x' & X' & Sp).
  exists x, x'. split; [exact X |]. split; [now symmetry |].
  assert (U : x_server_streams x = false) by (destruct (x_server_streams x); [exfalso; apply B, O |]; reflexivity).
  split; [exact U |]. split; [exact X'|]. split; [exact Sp|]. intros kin kin' kout kout' arg bytes Kin Kin' Kout Kout' Oka Ser L Ans.
  destruct (exchanged_native newer ps ps' qt qt' p q sch' parts v v' c answer lib m x x' kin kin' kout kout' arg bytes)
    as (a & r & bs & enough & Aa & Ar & Net & En); try assumption.
  exists a, r, bs, (native_step new_call (NativeDone 0 bs)), enough. split; [exact Aa |]. split; [exact Ar |].
  split; [reflexivity |]. split; [reflexivity |]. split; [reflexivity |]. split; [| split].
  - intros fuel Le. destruct (En fuel Le) as (Se & De). split; [| exact De]. unfold native_reply. rewrite Se. cbn [bind]. now rewrite Net.
  - intros evs n i (Ex & Wx & Un & Q) T R. destruct (C73_complete evs n i _ Ex Wx eq_refl Un Q) as (_ & code & data & R' & E).
    rewrite R, Net in R'. injection R' as <- <-. rewrite E, T. reflexivity.
  - intros evs n i Ex Li T R. rewrite Net in R. exact (reply_always evs n i bs Ex Li T R).
Qed.

(** A stream: for every interleaving of the threads, the handlers get messages from which the target takes what the procedure sent, as it becomes in the
    version of the client, one after the other and without errors.  At any time, and if the user aborts or destroys the stream, these are the first
    messages that the procedure sent.  Missing: as above. *)
Theorem C102_stream_partial : forall newer ps ps' qt qt' p q sch' parts v v' c answers lib m,
  native_versions newer ps ps' qt qt' p q sch' parts v v' c -> library_streams ps' parts v' sch' answers lib ->
  In m (client_methods (pr_qml p) v) -> opens_stream m ->
  exists x x', In x (v_rpcs v) /\ x_name x = passed_name (c_body m) /\ x_server_streams x = true
  /\ In x' (v_rpcs v') /\ same_procedure newer ps ps' x x' /\
  forall kin kin' kout kout' arg bytes,
   class_of ps (x_input x) kin -> class_of ps' (x_input x') kin' -> class_of ps (x_output x) kout -> class_of ps' (x_output x') kout' ->
   object_ok (nc_schema c) kin arg -> serializes (nc_schema c) kin arg bytes -> (Zlen bytes <= INT_MAX)%Z ->
   (forall a, received_as (nc_schema c) sch' kin kin' arg a -> Forall (object_ok sch' kout') (answers x' a)) ->
   exists a rs enough, received_as (nc_schema c) sch' kin kin' arg a
     /\ Forall2 (received_as sch' (nc_schema c) kout' kout) (answers x' a) rs
     /\ (forall fuel evs n i messages code, enough <= fuel ->
          stream_thread lib (procedure_of c (c_body m)) bytes = (messages, code) ->
          work_done evs n i -> task_of n i = Streaming -> reads i evs = messages -> results i evs = [(code, [])] ->
          map (received fuel c kout) (NativeSpec.messages i (n_log n)) = map (fun r => (r, Ok tt)) rs /\ ends i (n_log n) = [])
     /\ (forall fuel evs n i, enough <= fuel -> execution evs n -> task_of n i = Streaming ->
          prefix (reads i evs) (fst (stream_thread lib (procedure_of c (c_body m)) bytes)) ->
          (exists k, map (received fuel c kout) (NativeSpec.messages i (n_log n)) = map (fun r => (r, Ok tt)) (firstn k rs)) /\
          (results i evs = [] \/ results i evs = [(snd (stream_thread lib (procedure_of c (c_body m)) bytes), [])] -> ends i (n_log n) = [])).
Proof.
  intros newer ps ps' qt qt' p q sch' parts v v' c answers lib m NV Srv I B.
  destruct (method_of _ _ _ I) as (x & X & N & O). pose proof NV as (_ & _ & _ & _ & (_ & _ & SVs) & _). destruct (SVs x X) as (x' & X' & Sp).
  exists x, x'. split; [exact X |]. split; [now symmetry |].
  assert (U : x_server_streams x = true) by (apply O, B). split; [exact U |]. split; [exact X'|]. split; [exact Sp|].
  intros kin kin' kout kout' arg bytes Kin Kin' Kout Kout' Oka Ser L Ans.
  pose proof (same_path _ _ _ _ _ _ _ _ _ _ _ _ _ x x' NV Sp N) as Pr. destruct Sp as (En & Eu & Ri & Ro).
  destruct (at_server newer ps ps' qt qt' p q sch' parts v v' c _ _ kin kin' arg bytes NV Ri Kin Kin' Oka Ser L) as (a & Da & Aa).
  destruct (Srv x' (parseQByteArray bytes) a kin' kout' X' (eq_trans Eu U)) as (messages & bs & Sm & Lm & Hm & Net); try assumption.
  { cbn. now rewrite app_nil_r. }
  specialize (Ans a Aa). rewrite Forall_forall in Ans, Lm.
  assert (Rcv : exists rs enough, Forall2 (received_as sch' (nc_schema c) kout' kout) (answers x' a) rs
            /\ forall fuel, enough <= fuel -> map (received fuel c kout) messages = map (fun r => (r, Ok tt)) rs).
  { assert (H : forall o d, In o (answers x' a) -> serializes sch' kout' o d -> In d messages ->
              exists r, deserializes (nc_schema c) kout d r (Ok tt) /\ received_as sch' (nc_schema c) kout' kout o r).
    { intros o d Io So Id. exact (at_client newer ps ps' qt qt' p q sch' parts v v' c _ _ kout kout' o d NV Ro Kout Kout' (Ans o Io) So (Lm d Id)). }
    clear - Sm H. induction Sm as [| o d l l' S F IH]; [exists [], 0; split; [constructor | reflexivity] |].
    destruct IH as (rs & k & A & R); [intros o' d' I' S' I''; apply (H o' d'); cbn; tauto |].
    destruct (H o d) as (r & (_ & f & D) & Ar); [cbn; tauto | exact S | cbn; tauto |].
    exists (r :: rs), (Nat.max k f). split; [constructor; assumption |]. intros fuel Le. cbn [map]. rewrite R by lia.
    apply (deserialize_ext _ _ _ fuel) in D; [| lia | discriminate]. unfold received. now rewrite D. }
  destruct Rcv as (rs & enough & A & R). exists a, rs, enough. split; [exact Aa |]. split; [exact A |].
  assert (St : stream_thread lib (procedure_of c (c_body m)) bytes = (messages, 0%Z)) by (unfold stream_thread; rewrite Pr, Net, (all_read _ _ Hm); reflexivity).
  rewrite St. split.
  - intros fuel evs n i ms code Le St' (Ex & Wx & Un & Q) T Rd Rs. injection St' as <- <-.
    destruct (C73_complete evs n i _ Ex Wx eq_refl Un Q) as (M & code & data & R' & E). rewrite M, Rd. split; [now apply R |].
    rewrite Rs in R'. injection R' as <- <-. rewrite E, T. reflexivity.
  - intros fuel evs n i Le Ex T P. destruct (stream_always (received fuel c kout) evs n i messages _ Ex T P (R fuel Le)) as ((k & M) & E').
    split; [exists k | exact E']. now rewrite M, firstn_map.
Qed.

(** A procedure that the server's version does not have, or an older server: the library reports an error (UNIMPLEMENTED), and C101_failed says
    what the client does.  This is the only way in which a call notices the versions. *)

(** * An example: the client of [PropertiesNativeCall], and a server from the next version of the files, whose service has another procedure *)

Definition newer_library : library :=
  mkLibrary (fun name _ => if String.eqb name "/shop.Shop/first" then (0%Z, in_slices (newer_bytes newer_line))
                           else if String.eqb name "/shop.Shop/last" then (0%Z, in_slices (newer_bytes newer_line')) else (12%Z, Slices []))
    (fun name _ => if String.eqb name "/shop.Shop/lines" then (map (fun o => in_slices (newer_bytes o)) [newer_line; newer_line'], 0%Z) else ([], 12%Z)).

Lemma newer_library_calls : library_calls [newer_order_file] ["shop"] newer_shop (program_schema newer_program) newer_answer newer_library.
Proof.
  intros x slices a kin kout [<- | [<- | [<- | []]]] U Kin Kout D; [| discriminate U |]; apply newer_class in Kout; subst kout.
  - destruct (newer_serialized newer_line' ltac:(right; now left)) as (S & F & L & _).
    exists (newer_bytes newer_line'), (in_slices (newer_bytes newer_line')). split; [exact S |]. split; [exact L |]. split; [apply slices_hold | reflexivity].
  - destruct (newer_serialized newer_line ltac:(now left)) as (S & F & L & _).
    exists (newer_bytes newer_line), (in_slices (newer_bytes newer_line)). split; [exact S |]. split; [exact L |]. split; [apply slices_hold | reflexivity].
Qed.

Lemma newer_library_streams : library_streams [newer_order_file] ["shop"] newer_shop (program_schema newer_program) newer_answers newer_library.
Proof.
  intros x slices a kin kout [<- | [<- | [<- | []]]] U Kin Kout D; [discriminate U | | discriminate U].
  apply newer_class in Kout. subst kout. destruct (newer_serialized newer_line ltac:(now left)) as (S & F & L & _).
  destruct (newer_serialized newer_line' ltac:(right; now left)) as (S' & F' & L' & _).
  exists (map newer_bytes [newer_line; newer_line']), (map (fun o => in_slices (newer_bytes o)) [newer_line; newer_line']).
  split; [repeat constructor; assumption |]. split; [repeat constructor; assumption |].
  split; [repeat constructor; apply slices_hold | reflexivity].
Qed.

(** A stream (0) and a call (1), interleaved. *)
Definition newer_story : list event :=
  [MChannel; MNew Streaming; MNew Unary; MStart 0 0; MStart 1 0;
   WRead 0 (newer_bytes newer_line); WBegin 1; WReply 1 0 (newer_bytes newer_line); MDispatch; WRead 0 (newer_bytes newer_line'); WExit 1;
   WEnd 0; WStatus 0 0; WExit 0; MDispatch; MDispatch; MDispatch].

(** The client gets the lines without the count, which it does not know. *)
Example C102_case :
  native_versions newer_id [order_file] [newer_order_file] ["QUrl"] [] client_program newer_program (program_schema newer_program) ["shop"]
    shop newer_shop native_shop
  /\ library_calls [newer_order_file] ["shop"] newer_shop (program_schema newer_program) newer_answer newer_library
  /\ library_streams [newer_order_file] ["shop"] newer_shop (program_schema newer_program) newer_answers newer_library
  /\ class_of [newer_order_file] "shop.Order" 1 /\ class_of [newer_order_file] "shop.Order.Line" 0
  /\ object_ok (program_schema client_program) 1 an_order
  /\ (exists bytes, serializes (program_schema client_program) 1 an_order bytes /\ (Zlen bytes <= INT_MAX)%Z)
  /\ object_ok (program_schema newer_program) 0 newer_line /\ object_ok (program_schema newer_program) 0 newer_line'
  /\ native_blocking 100 newer_library native_shop (BlockingCall "first") 1 0 an_order other_line = (Ok (0%Z, []), a_line).
Proof.
  destruct C99_case as ((V1 & V2 & V3 & V4 & V5 & V6 & V7 & V8 & V9 & V10 & V11 & _) & _ & _ & K & K' & O & _ & N & N' & _).
  split.
  { unfold native_versions. repeat (split; [assumption |]). split; [reflexivity |]. split; [reflexivity |].
    repeat constructor; apply identifier_check_ok; reflexivity. }
  split; [exact newer_library_calls |]. split; [exact newer_library_streams |]. split; [exact K |]. split; [exact K' |]. split; [exact O |].
  split; [eexists; split; [exists 20; vm_compute; reflexivity | vm_compute; discriminate] |].
  split; [exact N |]. split; [exact N' |]. vm_compute. reflexivity.
Qed.

Example C102_story_case : let n := after newer_story in
  work_done newer_story n 0 /\ task_of n 0 = Streaming
  /\ stream_thread newer_library (procedure_of native_shop (OpenStream "lines")) an_order_bytes = (reads 0 newer_story, 0%Z)
  /\ results 0 newer_story = [(0%Z, [])]
  /\ map (received 100 native_shop 0) (messages 0 (n_log n)) = map (fun r => (r, Ok tt)) [a_line; other_line]
  /\ work_done newer_story n 1 /\ task_of n 1 = Unary
  /\ results 1 newer_story = [call_thread newer_library (procedure_of native_shop (AsyncCall "first")) an_order_bytes]
  /\ ends 1 (n_log n) = [RDone 1 1 (newer_bytes newer_line)].
Proof.
  cbv zeta. assert (U : forall i o, ~ disturbed i o newer_story).
  { intros i o (a & e & b & E & _ & D). assert (I : In e newer_story) by (rewrite E; apply in_or_app; right; now left).
    unfold newer_story in I. cbn [In] in I. destruct D as [-> | ->]; intuition discriminate. }
  assert (X : execution newer_story (after newer_story)) by (apply ran; vm_compute; reflexivity).
  split; [split; [exact X |]; split; [unfold newer_story; cbn [In]; auto 20 |]; split; [apply U | vm_compute; reflexivity] |].
  split; [vm_compute; reflexivity |]. split; [vm_compute; reflexivity |]. split; [vm_compute; reflexivity |]. split; [vm_compute; reflexivity |].
  split; [split; [exact X |]; split; [unfold newer_story; cbn [In]; auto 20 |]; split; [apply U | vm_compute; reflexivity] |].
  split; [vm_compute; reflexivity |]. split; vm_compute; reflexivity.
Qed.

Print Assumptions C102_blocking_partial.
Print Assumptions C102_reply_partial.
Print Assumptions C102_stream_partial.

(** Property C95: a method of a generated client, from the arguments to the result. *)

From Coq Require Import ZArith Ascii String List Bool Arith Permutation Lia.
From Verif Require Values.
From Verif Require Import Base WireModel MessageModel WireSpec MessageSpec MessageProofs MessageFacts RunFacts ExactSpec.
From Verif Require Import FrameModel FrameSpec FrameProofs PropertiesFrame CallModel.
From Verif Require Import GenModel GenSpec GenTypesModel GenTypesSpec GenTypesNames LinkModel LinkSpec LinkProofs RequestModel
  PropertiesLink PropertiesRequest PropertiesGenClasses WholeModel WholeSpec.
Import ListNotations.
Open Scope nat_scope.
Open Scope string_scope.

(** No call credential takes the place of the headers that gRPC requires (see C71). *)
Definition headers_kept {ssl : Type} (ch : channel ssl) : Prop :=
  forall e, In e (callCredentials (ch_credentials ch)) -> in_small (fst e) <> "content-type" /\ in_small (fst e) <> "te".

Lemma carries_is hs name value : in_small name = name -> carries hs name value -> header_is hs name value.
Proof. intros N ((n & I & E) & U). split; [exists n; split; [exact I | congruence] | intros n' v' I' E'; apply (U n' v' I'); congruence]. Qed.

Lemma request_made {ssl : Type} (c : client ssl) parts v qml m x args :
  cl_service c = v -> package_parts parts -> v_package v = package_of parts -> headers_kept (cl_channel c) -> In m (client_methods qml v) ->
  passed_name (c_body m) = x_name x -> FrameSpec.fits args -> requests parts v x (sends_request c (c_body m) args) args.
Proof.
  intros S P V H I N F. unfold requests, sends_request. rewrite S.
  split; [| split; [| split]].
  - cbn. unfold service_name, rpc_path. rewrite N, V, full_name_join by exact P. reflexivity.
  - apply carries_is; [reflexivity |]. apply C71_protocol_partial; [intros e E; apply (H e E) | cbn; tauto].
  - apply carries_is; [reflexivity |]. apply C71_protocol_partial; [intros e E; apply (H e E) | cbn; tauto].
  - cbn [rq_body post]. apply C32_request_framed. exact F.
Qed.

Lemma method_of qml v m : In m (client_methods qml v) -> exists x, In x (v_rpcs v) /\ passed_name (c_body m) = x_name x
  /\ (opens_stream m <-> x_server_streams x = true).
Proof.
  intro I. unfold client_methods in I. apply in_flat_map in I. destruct I as (x & X & I). exists x. split; [exact X |].
  unfold rpc_methods in I. destruct (x_server_streams x), qml; cbn in I;
    repeat (destruct I as [<- | I]; [cbn; intuition discriminate |]); destruct I.
Qed.

Section Programs.
  Context {ssl : Type} (ps : list proto) (qt qt' : list string) (p q : program) (sch' : Values.schema).
  Context (parts : list string) (v : service) (c : client ssl).

  (** The client and the server are programs from the same files, the client is generated for the service, and its requests are gRPC requests. *)
  Definition client_and_server : Prop :=
    files_valid ps
    /\ program_of ps qt p /\ usable ps qt (pr_qml p) /\ runs_as p (cl_schema c)
    /\ program_of ps qt' q /\ usable ps qt' (pr_qml q) /\ runs_as q sch'
    /\ cl_service c = v /\ package_parts parts /\ v_package v = package_of parts /\ headers_kept (cl_channel c).
End Programs.

Lemma answer_taken flag bs body : framed flag bs body -> http2_call 0 [48%Z] body = Ok (0%Z, bs).
Proof.
  intros (len & (Ln & _) & ->). unfold http2_call, processReply. cbn - [skipn].
  destruct len as [| b1 [| b2 [| b3 [| b4 [|]]]]]; try discriminate Ln. reflexivity.
Qed.

(** The exchange of messages, whatever the client does with the answer. *)
Lemma exchanged : forall (ssl : Type) ps qt qt' p q sch' parts v (c : client ssl) answer net m x kin kout arg bytes,
  client_and_server ps qt qt' p q sch' parts v c -> serves_calls ps parts v sch' answer net ->
  In m (client_methods (pr_qml p) v) -> In x (v_rpcs v) -> passed_name (c_body m) = x_name x -> x_server_streams x = false ->
  class_of ps (x_input x) kin -> class_of ps (x_output x) kout ->
  object_ok (cl_schema c) kin arg -> serializes (cl_schema c) kin arg bytes -> FrameSpec.fits bytes ->
  (forall a, arrives (cl_schema c) kin arg a -> object_ok sch' kout (answer x a)) ->
  exists a r bs body enough, arrives (cl_schema c) kin arg a /\ arrives sch' kout (answer x a) r
    /\ net (sends_request c (c_body m) bytes) = (0%Z, [48%Z], body) /\ http2_call 0 [48%Z] body = Ok (0%Z, bs)
    /\ forall fuel, enough <= fuel -> serializeMessage fuel (cl_schema c) kin arg = Ok bytes
         /\ deserializeMessage fuel false (cl_schema c) kout bs = (r, Ok tt).
Proof.
  intros ssl ps qt qt' p q sch' parts v c answer net m x kin kout arg bytes
    (FV & PO & PU & PR & QO & QU & QR & SV & PP & PV & HK) Srv I X N U Kin Kout Oka Ser Fit Ans.
  assert (L : (Zlen bytes <= INT_MAX)%Z) by (unfold FrameSpec.fits in Fit; lia).
  destruct (C92_exchange_partial ps qt qt' p q (cl_schema c) sch' kin arg bytes FV PO PU PR QO QU QR Oka Ser L) as (a & Da & Aa & _).
  destruct (Srv x (sends_request c (c_body m) bytes) bytes a kin kout X U) as (bs & flag & body & Sb & Lb & Fb & Net); try assumption.
  { apply (request_made c parts v (pr_qml p)); assumption. }
  destruct (C92_exchange_partial ps qt' qt q p sch' (cl_schema c) kout (answer x a) bs FV QO QU QR PO PU PR (Ans a Aa) Sb Lb)
    as (r & Dr & Ar & _).
  destruct Ser as (f1 & Ser). destruct Dr as (_ & f2 & Dr).
  exists a, r, bs, body, (Nat.max f1 f2). split; [exact Aa |]. split; [exact Ar |]. split; [exact Net |].
  split; [eapply answer_taken; exact Fb |]. intros fuel Le. split.
  - apply (serialize_mono _ _ fuel) in Ser; [exact Ser | lia].
  - apply (deserialize_ext _ _ _ fuel) in Dr; [exact Dr | lia | discriminate].
Qed.

(** A call that blocks reaches the procedure of its name, which gets the message that the caller passed.  The target has the
    procedure's answer afterwards, the status is Ok, and the client emits no error.
    Missing: as C92_exchange_partial, credentials with the names of headers (C71), targets that are deleted while the call waits (C41). *)
Theorem C95_blocking_partial : forall (ssl : Type) ps qt qt' p q sch' parts v (c : client ssl) answer net m n,
  client_and_server ps qt qt' p q sch' parts v c -> serves_calls ps parts v sch' answer net ->
  In m (client_methods (pr_qml p) v) -> c_body m = BlockingCall n ->
  exists x, In x (v_rpcs v) /\ x_name x = n /\ x_server_streams x = false /\
  forall kin kout arg bytes target,
   class_of ps (x_input x) kin -> class_of ps (x_output x) kout ->
   object_ok (cl_schema c) kin arg -> serializes (cl_schema c) kin arg bytes -> FrameSpec.fits bytes ->
   (forall a, arrives (cl_schema c) kin arg a -> object_ok sch' kout (answer x a)) ->
   exists a r enough, arrives (cl_schema c) kin arg a /\ arrives sch' kout (answer x a) r
     /\ forall fuel, enough <= fuel -> blocking_call fuel net c (c_body m) kin kout arg target = (Ok (0%Z, []), r).
Proof.
  intros ssl ps qt qt' p q sch' parts v c answer net m n CS Srv I B.
  destruct (method_of _ _ _ I) as (x & X & N & O). exists x. split; [exact X |]. split; [rewrite B in N; now symmetry |].
  assert (U : x_server_streams x = false).
  { destruct (x_server_streams x); [| reflexivity]. exfalso. assert (H : opens_stream m) by (apply O; reflexivity). unfold opens_stream in H. rewrite B in H. exact H. }
  split; [exact U |]. intros kin kout arg bytes target Kin Kout Oka Ser Fit Ans.
  destruct (exchanged ssl ps qt qt' p q sch' parts v c answer net m x kin kout arg bytes) as (a & r & bs & body & enough & Aa & Ar & Net & H & En); try assumption.
  exists a, r, enough. split; [exact Aa |]. split; [exact Ar |]. intros fuel Le. destruct (En fuel Le) as (Se & De).
  unfold blocking_call. rewrite Se. cbn [bind]. unfold sync_call, raw_call. cbn [bind negb]. rewrite Net, H. cbn.
  unfold outcome, target_after. rewrite De. reflexivity.
Qed.

(** The same for the methods that return a reply or take callbacks: when the network operation has ended, the reply has emitted "finished" and
    nothing else, the client has emitted no error, and read() gives the procedure's answer.  Missing: as above. *)
Theorem C95_reply_partial : forall (ssl : Type) ps qt qt' p q sch' parts v (c : client ssl) answer net m,
  client_and_server ps qt qt' p q sch' parts v c -> serves_calls ps parts v sch' answer net ->
  In m (client_methods (pr_qml p) v) -> ~ opens_stream m ->
  exists x, In x (v_rpcs v) /\ x_name x = passed_name (c_body m) /\ x_server_streams x = false /\
  forall kin kout arg bytes,
   class_of ps (x_input x) kin -> class_of ps (x_output x) kout ->
   object_ok (cl_schema c) kin arg -> serializes (cl_schema c) kin arg bytes -> FrameSpec.fits bytes ->
   (forall a, arrives (cl_schema c) kin arg a -> object_ok sch' kout (answer x a)) ->
   exists a r data reply enough, arrives (cl_schema c) kin arg a /\ arrives sch' kout (answer x a) r
     /\ c_signals reply = [Finished data] /\ c_errors reply = []
     /\ forall fuel, enough <= fuel -> reply_of_call fuel net c (c_body m) kin arg = Ok reply
          /\ read_from fuel c kout reply = (Ok (0%Z, []), r).
Proof.
  intros ssl ps qt qt' p q sch' parts v c answer net m CS Srv I B.
  destruct (method_of _ _ _ I) as (x & X & N & O). exists x. split; [exact X |]. split; [now symmetry |].
  assert (U : x_server_streams x = false) by (destruct (x_server_streams x); [exfalso; apply B, O |]; reflexivity).
  split; [exact U |]. intros kin kout arg bytes Kin Kout Oka Ser Fit Ans.
  destruct (exchanged ssl ps qt qt' p q sch' parts v c answer net m x kin kout arg bytes) as (a & r & bs & body & enough & Aa & Ar & Net & H & En); try assumption.
  exists a, r, bs, (mkCall false false false false bs [Finished bs] []), enough. split; [exact Aa |]. split; [exact Ar |].
  split; [reflexivity |]. split; [reflexivity |]. intros fuel Le. destruct (En fuel Le) as (Se & De). split.
  - unfold reply_of_call. rewrite Se. cbn [bind]. rewrite Net. unfold http2_call in H. cbn [http2_events http2_event network_done]. unfold network_done. cbn [c_running c_connected new_call negb].
    rewrite H. reflexivity.
  - unfold read_from, read_reply. cbn [c_data]. unfold outcome, target_after. rewrite De. reflexivity.
Qed.

Lemma all_received {ssl : Type} (c : client ssl) sch' kout answers messages :
  Forall2 (serializes sch' kout) answers messages ->
  (forall o bs, In o answers -> serializes sch' kout o bs -> In bs messages -> exists r, deserializes (cl_schema c) kout bs r (Ok tt) /\ arrives sch' kout o r) ->
  exists rs enough, Forall2 (arrives sch' kout) answers rs
    /\ forall fuel, enough <= fuel -> map (fun d => (target_after fuel c kout d, outcome fuel c kout d)) messages = map (fun r => (r, Ok tt)) rs.
Proof.
  induction 1 as [| o bs l l' S F IH]; intro H; [exists [], 0; split; [constructor | reflexivity] |].
  destruct IH as (rs & n & A & R); [intros o' bs' I S' I'; apply (H o' bs'); cbn; tauto |].
  destruct (H o bs) as (r & (_ & f & D) & Ar); [cbn; tauto | exact S | cbn; tauto |].
  exists (r :: rs), (Nat.max n f). split; [constructor; assumption |]. intros fuel Le. cbn [map]. rewrite R by lia.
  apply (deserialize_ext _ _ _ fuel) in D; [| lia | discriminate]. unfold target_after, outcome. rewrite D. reflexivity.
Qed.

(** A stream: the target takes the values of all messages that the procedure sends, one after the other and without errors.
    Missing: as above, and pieces of data that end in a header, see C33. *)
Theorem C95_stream_partial : forall (ssl : Type) ps qt qt' p q sch' parts v (c : client ssl) answers net m,
  client_and_server ps qt qt' p q sch' parts v c -> serves_streams ps parts v sch' answers net ->
  In m (client_methods (pr_qml p) v) -> opens_stream m ->
  exists x, In x (v_rpcs v) /\ x_name x = passed_name (c_body m) /\ x_server_streams x = true /\
  forall kin kout arg bytes,
   class_of ps (x_input x) kin -> class_of ps (x_output x) kout ->
   object_ok (cl_schema c) kin arg -> serializes (cl_schema c) kin arg bytes -> FrameSpec.fits bytes ->
   (forall a, arrives (cl_schema c) kin arg a -> Forall (object_ok sch' kout) (answers x a)) ->
   exists a rs en enough, arrives (cl_schema c) kin arg a /\ Forall2 (arrives sch' kout) (answers x a) rs
     /\ forall fuel, enough <= fuel ->
          stream_of fuel c kout (net (sends_request c (c_body m) bytes)) = (map (fun r => (r, Ok tt)) rs, Ok en).
Proof.
  intros ssl ps qt qt' p q sch' parts v c answers net m CS Srv I B.
  destruct (method_of _ _ _ I) as (x & X & N & O). exists x. split; [exact X |]. split; [now symmetry |].
  assert (U : x_server_streams x = true) by (apply O, B). split; [exact U |].
  intros kin kout arg bytes Kin Kout Oka Ser Fit Ans.
  destruct CS as (FV & PO & PU & PR & QO & QU & QR & SV & PP & PV & HK).
  assert (L : (Zlen bytes <= INT_MAX)%Z) by (unfold FrameSpec.fits in Fit; lia).
  destruct (C92_exchange_partial ps qt qt' p q (cl_schema c) sch' kin arg bytes FV PO PU PR QO QU QR Oka Ser L) as (a & Da & Aa & _).
  destruct (Srv x (sends_request c (c_body m) bytes) bytes a kin kout X U) as (messages & frames & Sm & Fm & Fr & Cc & Wc); try assumption.
  { apply (request_made c parts v (pr_qml p)); assumption. }
  destruct (C33_messages_delivered_partial messages frames _ Fr Fm Cc Wc) as (en & n & Rd). unfold running in Rd.
  specialize (Ans a Aa). rewrite Forall_forall in Ans, Fm.
  destruct (all_received c sch' kout (answers x a) messages Sm) as (rs & n' & A & R).
  { intros o bs Io So Ib.
    destruct (C92_exchange_partial ps qt' qt q p sch' (cl_schema c) kout o bs FV QO QU QR PO PU PR (Ans o Io) So) as (r & Dr & Ar & _);
      [specialize (Fm bs Ib); unfold FrameSpec.fits in Fm; lia | eauto]. }
  exists a, rs, en, (Nat.max n n'). split; [exact Aa |]. split; [exact A |]. intros fuel Le.
  unfold stream_of. rewrite (Rd fuel) by lia. rewrite (R fuel) by lia. reflexivity.
Qed.

(** If the network fails or the server reports an error, the call returns that error, the client emits it once, and the target keeps its
    value: whatever the service and the messages are. *)
Theorem C95_failed : forall (ssl : Type) (net : network ssl) c b kin kout arg bytes target err status answer code,
  serializes (cl_schema c) kin arg bytes -> net (sends_request c b bytes) = (err, status, answer) ->
  http2_call err status answer = Ok (code, []) -> code <> 0%Z ->
  exists enough, forall fuel, enough <= fuel ->
    blocking_call fuel net c b kin kout arg target = (Ok (code, [code]), target)
    /\ exists reply, reply_of_call fuel net c b kin arg = Ok reply /\ c_signals reply = [Error code] /\ c_errors reply = [code] /\ c_data reply = [].
Proof.
  intros ssl net c b kin kout arg bytes target err status answer code (f & S) N H Z. exists f. intros fuel Le.
  apply (serialize_mono _ _ fuel) in S; [| exact Le]. apply Z.eqb_neq in Z. split.
  - unfold blocking_call. rewrite S. cbn [bind]. unfold sync_call, raw_call. cbn [bind negb]. rewrite N, H. cbn [bind]. rewrite Z. reflexivity.
  - unfold reply_of_call. rewrite S. cbn [bind]. rewrite N. unfold http2_call in H. cbn [http2_events http2_event]. unfold network_done.
    cbn [c_running c_connected new_call negb]. rewrite H. cbn [bind]. rewrite Z. eexists. split; [reflexivity |]. repeat split.
Qed.

(** * An example: a shop with a call and a stream, on both of which [PropertiesLink.order_file] has the messages *)

Definition shop : service :=
  mkService "shop" "Shop" [ mkRpc "first" "shop.Order" "shop.Order.Line" false false; mkRpc "lines" "shop.Order" "shop.Order.Line" false true ].
Definition shop_channel : channel unit := mkChannel (mkUrl "http" "example.org" "" "") (mkCredentials [("user-name", Some "me")] []) tt.
Definition shop_client : client unit := mkClient shop shop_channel (program_schema client_program).

Definition a_line : list Values.value := [Values.VScalar (Values.SNum 995); Values.VScalar (Values.SStr false [98; 111; 111; 107]%Z)].
Definition other_line : list Values.value := [Values.VScalar (Values.SNum (-3)); Values.VScalar (Values.SStr true [])].
Definition shop_answer (x : rpc) (a : list Values.value) : list Values.value := a_line.
Definition shop_answers (x : rpc) (a : list Values.value) : list (list Values.value) := [a_line; other_line; a_line].
Definition bytes_of (o : list Values.value) : list Z :=
  match serializeMessage 20 (program_schema shop_program) 0 o with Ok bs => bs | _ => [] end.
Definition shop_net (rq : request unit) : Z * list Z * list Z :=
  if String.eqb (u_path (rq_url rq)) "/shop.Shop/first" then (0, [48], request_body (bytes_of a_line))%Z else (203, [], [])%Z.
Definition shop_frames : list (list Z) := map (fun o => request_body (bytes_of o)) [a_line; other_line; a_line].
Definition shop_stream (rq : request unit) : list (list Z) :=
  if String.eqb (u_path (rq_url rq)) "/shop.Shop/lines" then [concat shop_frames] else [].

Lemma order_path path i : message_at (o_messages order_file) path i -> (path = ["Order"] /\ i = 0) \/ (path = ["Order"; "Line"] /\ i = 1).
Proof.
  intro M. inversion M as [ms m I E1 E2 E3 | ms m path' i' I M' E1 E2 E3]; subst; cbn in I; destruct I as [<- | []]; [left; split; reflexivity |].
  right. cbn in M'. inversion M' as [ms m I F1 F2 F3 | ms m path'' i'' I M'' F1 F2 F3]; subst; cbn in I; destruct I as [<- | []]; [split; reflexivity |].
  cbn in M''. inversion M'' as [ms m I F1 F2 F3 | ms m p j I F0 F1 F2 F3]; subst; destruct I.
Qed.
Lemma shop_parts parts : package_parts parts -> package_of parts = "shop" -> forall n, join "." (parts ++ [n])%list = "shop." ++ n.
Proof. intros P E n. rewrite <- full_name_join by exact P. rewrite E. reflexivity. Qed.

Lemma class_line k : class_of [order_file] "shop.Order.Line" k -> k = 0.
Proof.
  intros (c & N & f & parts & path & [<- | []] & P & E & M & F). destruct k as [| [| k]]; [reflexivity | | destruct k; discriminate N].
  cbn in N. injection N as <-. destruct (order_path _ _ M) as [[-> _] | [_ X]]; [| discriminate X].
  rewrite (shop_parts parts P (eq_sym E)) in F. discriminate F.
Qed.
Lemma shop_part : package_parts ["shop"].
Proof. constructor; [split; [discriminate | intro I; cbn in I; intuition discriminate] | constructor]. Qed.
Lemma class_line' : class_of [order_file] "shop.Order.Line" 0.
Proof.
  eexists. split; [reflexivity |]. exists order_file, ["shop"], ["Order"; "Line"]. split; [now left |]. split; [exact shop_part |]. split; [reflexivity |].
  split; [| reflexivity]. apply (at_inner _ (hd (Message 0 "" [] [] []) (o_messages order_file)) ["Line"]); [now left |].
  apply (at_top _ (hd (Message 0 "" [] [] []) (g_nested (hd (Message 0 "" [] [] []) (o_messages order_file))))); now left.
Qed.
Lemma class_order' : class_of [order_file] "shop.Order" 1.
Proof.
  eexists. split; [reflexivity |]. exists order_file, ["shop"], ["Order"]. split; [now left |]. split; [exact shop_part |]. split; [reflexivity |].
  split; [| reflexivity]. apply (at_top _ (hd (Message 0 "" [] [] []) (o_messages order_file))); now left.
Qed.

Lemma line_serialized o : In o [a_line; other_line] ->
  serializes (program_schema shop_program) 0 o (bytes_of o) /\ FrameSpec.fits (bytes_of o) /\ (Zlen (bytes_of o) <= INT_MAX)%Z
  /\ object_ok (program_schema shop_program) 0 o.
Proof.
  intros [<- | [<- | []]]; (split; [exists 20; vm_compute; reflexivity |]; split; [vm_compute; discriminate |]; split; [vm_compute; discriminate |]);
    rewrite shop_schema_is; unfold object_ok, a_line, other_line, shop_schema; cbn -[Z.pow in_s in_u bytes Z.opp];
    repeat split; try (intro; discriminate); try (unfold in_s, in_u; lia); repeat constructor; unfold is_byte; lia.
Qed.

Lemma an_order_client : object_ok (program_schema client_program) 1 an_order.
Proof.
  assert (E : program_schema client_program = [ Values.mkMsg (Values.md_fields (Values.msg_at shop_schema 0)) [1; 0]; Values.mkMsg (Values.md_fields (Values.msg_at shop_schema 1)) (rev (seq 0 7)) ])
    by (vm_compute; reflexivity).
  rewrite E. unfold object_ok, an_order, shop_schema. cbn -[Z.pow in_s in_u bytes Z.opp].
  repeat split; try (intro; discriminate); try (unfold in_s, in_u; lia); repeat constructor; unfold is_byte; lia.
Qed.

Lemma shop_serves : serves_calls [order_file] ["shop"] shop (program_schema shop_program) shop_answer shop_net.
Proof.
  intros x rq arg a kin kout [<- | [<- | []]] U (P & _) Kin Kout D; [| discriminate U].
  apply class_line in Kout. subst kout. destruct (line_serialized a_line ltac:(now left)) as (S & F & L & _).
  exists (bytes_of a_line), 0%Z, (request_body (bytes_of a_line)). split; [exact S |]. split; [exact L |]. split; [apply C32_request_framed; exact F |].
  unfold shop_net. rewrite P. reflexivity.
Qed.

Lemma shop_streams : serves_streams [order_file] ["shop"] shop (program_schema shop_program) shop_answers shop_stream.
Proof.
  intros x rq arg a kin kout [<- | [<- | []]] U (P & _) Kin Kout D; [discriminate U |].
  apply class_line in Kout. subst kout. destruct (line_serialized a_line ltac:(now left)) as (S & F & L & _).
  destruct (line_serialized other_line ltac:(right; now left)) as (S' & F' & L' & _).
  exists (map bytes_of [a_line; other_line; a_line]), shop_frames.
  assert (E : shop_stream rq = [List.concat shop_frames]) by (unfold shop_stream; rewrite P; reflexivity). rewrite E.
  split; [repeat constructor; assumption |]. split; [repeat constructor; assumption |].
  split; [repeat constructor; exists 0%Z; apply C32_request_framed; assumption |].
  split; [cbn [List.concat]; apply app_nil_r |].
  intros before chunk after Cut. destruct before as [| b before]; [| destruct before; discriminate Cut].
  injection Cut as <- <-. exists (firstn 2 shop_frames), (request_body (bytes_of a_line)), []. split; [reflexivity |].
  vm_compute. split; [discriminate |]. split; [split; [reflexivity | discriminate] |]. left. reflexivity.
Qed.

Example C95_case :
  client_and_server [order_file] ["QUrl"] [] client_program shop_program (program_schema shop_program) ["shop"] shop shop_client
  /\ serves_calls [order_file] ["shop"] shop (program_schema shop_program) shop_answer shop_net
  /\ serves_streams [order_file] ["shop"] shop (program_schema shop_program) shop_answers shop_stream
  /\ class_of [order_file] "shop.Order" 1 /\ class_of [order_file] "shop.Order.Line" 0
  /\ map c_body (client_methods false shop) = [BlockingCall "first"; AsyncCall "first"; CallbackCall "first"; OpenStream "lines"; OpenStreamTo "lines"]
  /\ object_ok (program_schema client_program) 1 an_order
  /\ (exists bytes, serializes (program_schema client_program) 1 an_order bytes /\ FrameSpec.fits bytes)
  /\ object_ok (program_schema shop_program) 0 a_line /\ object_ok (program_schema shop_program) 0 other_line
  /\ blocking_call 100 shop_net shop_client (BlockingCall "first") 1 0 an_order other_line = (Ok (0%Z, []), a_line)
  /\ stream_of 100 shop_client 0 (shop_stream (sends_request shop_client (OpenStreamTo "lines") an_order_bytes))
     = (map (fun r => (r, Ok tt)) [a_line; other_line; a_line], Ok None)
  /\ blocking_call 100 shop_net shop_client (BlockingCall "second") 1 0 an_order other_line = (Ok (5%Z, [5%Z]), other_line).
Proof.
  destruct C92_case as (C1 & C2 & C3 & C4 & C5 & C6 & C7 & C8 & _).
  split; [| split; [exact shop_serves |]; split; [exact shop_streams |]].
  { unfold client_and_server. repeat (split; [assumption |]). split; [reflexivity |]. split; [exact shop_part |]. split; [reflexivity |].
    intros e [<- | []]. split; discriminate. }
  split; [exact class_order' |]. split; [exact class_line' |]. split; [reflexivity |].
  split; [exact an_order_client |].
  split; [eexists; split; [exists 20; vm_compute; reflexivity | vm_compute; discriminate] |].
  split; [apply line_serialized; now left |]. split; [apply line_serialized; right; now left |].
  split; [vm_compute; reflexivity |]. split; vm_compute; reflexivity.
Qed.

Print Assumptions C95_blocking_partial.
Print Assumptions C95_reply_partial.
Print Assumptions C95_stream_partial.
Print Assumptions C95_failed.

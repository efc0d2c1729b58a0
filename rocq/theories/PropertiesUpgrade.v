(** Property C99: clients and servers of different versions. *)

From Coq Require Import ZArith Ascii String List Bool Arith Permutation Lia.
From Verif Require Values.
From Verif Require Import Base WireModel MessageModel WireSpec MessageSpec MessageProofs MessageFacts RunFacts EvolveSpec.
From Verif Require Import FrameModel FrameSpec FrameProofs PropertiesFrame CallModel.
From Verif Require Import GenModel GenSpec GenTypesModel GenTypesSpec GenTypesNames LinkModel LinkSpec LinkProofs RequestModel
  PropertiesLink PropertiesRequest PropertiesGenClasses WholeModel WholeSpec PropertiesWhole UpgradeSpec.
Import ListNotations.
Open Scope nat_scope.
Open Scope string_scope.

Section Programs.
  Context {ssl : Type} (newer : nat -> nat -> Prop) (ps ps' : list proto) (qt qt' : list string) (p q : program) (sch' : Values.schema).
  Context (parts : list string) (v v' : service) (c : client ssl).

  (** The client is a program from the files [ps], the server one from the files [ps'], which are another version: older, newer, or neither.  The
      client is generated for its version of the service, and its requests are gRPC requests. *)
  Definition different_versions : Prop :=
    files_valid ps /\ files_valid ps' /\ files_versions newer ps ps' /\ files_versions (fun i i' => newer i' i) ps' ps
    /\ service_versions newer ps ps' v v'
    /\ program_of ps qt p /\ usable ps qt (pr_qml p) /\ runs_as p (cl_schema c)
    /\ program_of ps' qt' q /\ usable ps' qt' (pr_qml q) /\ runs_as q sch'
    /\ cl_service c = v /\ package_parts parts /\ v_package v = package_of parts /\ headers_kept (cl_channel c).
End Programs.

(** A message of the client is received by the server, and the other way round. *)
Lemma to_server : forall (ssl : Type) newer ps ps' qt qt' p q sch' parts v v' (c : client ssl) full full' k k' arg bytes,
  different_versions newer ps ps' qt qt' p q sch' parts v v' c ->
  (forall i i', full_name_of ps full i -> full_name_of ps' full' i' -> newer i i') -> class_of ps full k -> class_of ps' full' k' ->
  object_ok (cl_schema c) k arg -> serializes (cl_schema c) k arg bytes -> (Zlen bytes <= INT_MAX)%Z ->
  exists a, deserializes sch' k' bytes a (Ok tt) /\ received_as (cl_schema c) sch' k k' arg a.
Proof.
  intros ssl newer ps ps' qt qt' p q sch' parts v v' c full full' k k' arg bytes
    (FV & FV' & Vf & Vb & SV & PO & PU & PR & QO & QU & QR & _) Rel (cl & K & Na) (cl' & K' & Na') Ok1 Ser L.
  destruct (C92_versions_partial ps ps' qt qt' newer p q (cl_schema c) sch' k k' cl cl' arg bytes FV FV' Vf PO PU PR QO QU QR K K'
    (Rel _ _ Na Na') Ok1 Ser L) as (r & r' & D & S & B). exists r. split; [exact D | now exists r'].
Qed.
Lemma to_client : forall (ssl : Type) newer ps ps' qt qt' p q sch' parts v v' (c : client ssl) full full' k k' arg bytes,
  different_versions newer ps ps' qt qt' p q sch' parts v v' c ->
  (forall i i', full_name_of ps full i -> full_name_of ps' full' i' -> newer i i') -> class_of ps full k -> class_of ps' full' k' ->
  object_ok sch' k' arg -> serializes sch' k' arg bytes -> (Zlen bytes <= INT_MAX)%Z ->
  exists a, deserializes (cl_schema c) k bytes a (Ok tt) /\ received_as sch' (cl_schema c) k' k arg a.
Proof.
  intros ssl newer ps ps' qt qt' p q sch' parts v v' c full full' k k' arg bytes
    (FV & FV' & Vf & Vb & SV & PO & PU & PR & QO & QU & QR & _) Rel (cl & K & Na) (cl' & K' & Na') Ok1 Ser L.
  destruct (C92_versions_partial ps' ps qt' qt (fun i i' => newer i' i) q p sch' (cl_schema c) k' k cl' cl arg bytes FV' FV Vb QO QU QR PO PU PR K' K
    (Rel _ _ Na Na') Ok1 Ser L) as (r & r' & D & S & B). exists r. split; [exact D | now exists r'].
Qed.

Lemma requests_other {ssl : Type} parts v v' x x' (rq : request ssl) arg :
  v_name v' = v_name v -> x_name x' = x_name x -> requests parts v x rq arg -> requests parts v' x' rq arg.
Proof. intros Ev Ex (P & R). split; [|exact R]. rewrite P. unfold rpc_path. now rewrite Ev, Ex. Qed.

(** The exchange of messages, whatever the client does with the answer. *)
Lemma exchanged_versions : forall (ssl : Type) newer ps ps' qt qt' p q sch' parts v v' (c : client ssl) answer net m x x' kin kin' kout kout' arg bytes,
  different_versions newer ps ps' qt qt' p q sch' parts v v' c -> serves_calls ps' parts v' sch' answer net ->
  In m (client_methods (pr_qml p) v) -> In x (v_rpcs v) -> passed_name (c_body m) = x_name x -> x_server_streams x = false ->
  In x' (v_rpcs v') -> same_procedure newer ps ps' x x' ->
  class_of ps (x_input x) kin -> class_of ps' (x_input x') kin' -> class_of ps (x_output x) kout -> class_of ps' (x_output x') kout' ->
  object_ok (cl_schema c) kin arg -> serializes (cl_schema c) kin arg bytes -> FrameSpec.fits bytes ->
  (forall a, received_as (cl_schema c) sch' kin kin' arg a -> object_ok sch' kout' (answer x' a)) ->
  exists a r bs body enough, received_as (cl_schema c) sch' kin kin' arg a /\ received_as sch' (cl_schema c) kout' kout (answer x' a) r
    /\ net (sends_request c (c_body m) bytes) = (0%Z, [48%Z], body) /\ http2_call 0 [48%Z] body = Ok (0%Z, bs)
    /\ forall fuel, enough <= fuel -> serializeMessage fuel (cl_schema c) kin arg = Ok bytes
         /\ deserializeMessage fuel false (cl_schema c) kout bs = (r, Ok tt).
Proof.
  intros ssl newer ps ps' qt qt' p q sch' parts v v' c answer net m x x' kin kin' kout kout' arg bytes
    DV Srv I X N U X' (En & Eu & Ri & Ro) Kin Kin' Kout Kout' Oka Ser Fit Ans.
  assert (L : (Zlen bytes <= INT_MAX)%Z) by (unfold FrameSpec.fits in Fit; lia).
  destruct (to_server ssl newer ps ps' qt qt' p q sch' parts v v' c _ _ kin kin' arg bytes DV Ri Kin Kin' Oka Ser L) as (a & Da & Aa).
  destruct (Srv x' (sends_request c (c_body m) bytes) bytes a kin' kout' X' (eq_trans Eu U)) as (bs & flag & body & Sb & Lb & Fb & Net); try assumption.
  { destruct DV as (_ & _ & _ & _ & (_ & Ev & _) & _ & _ & _ & _ & _ & _ & SV & PP & PV & HK).
    apply (requests_other parts v v' x x'); [exact Ev | exact En|]. apply (request_made c parts v (pr_qml p)); assumption. }
  destruct (to_client ssl newer ps ps' qt qt' p q sch' parts v v' c _ _ kout kout' (answer x' a) bs DV Ro Kout Kout' (Ans a Aa) Sb Lb) as (r & Dr & Ar).
  destruct Ser as (f1 & Ser). destruct Dr as (_ & f2 & Dr).
  exists a, r, bs, body, (Nat.max f1 f2). split; [exact Aa |]. split; [exact Ar |]. split; [exact Net |].
  split; [eapply answer_taken; exact Fb |]. intros fuel Le. split.
  - apply (serialize_mono _ _ fuel) in Ser; [exact Ser | lia].
  - apply (deserialize_ext _ _ _ fuel) in Dr; [exact Dr | lia | discriminate].
Qed.

(** C99.  A call that blocks reaches the procedure of its name also if client and server are built from different versions of the files.  The
    procedure gets what the message becomes in the version of the server, and the target has afterwards what the procedure's answer becomes in the
    version of the client: fields that both versions have keep their values, at any depth, and the status is Ok.
    Missing: as C92_versions_partial (changes of types, see C84), and as C95_blocking_partial. *)
Theorem C99_blocking_partial : forall (ssl : Type) newer ps ps' qt qt' p q sch' parts v v' (c : client ssl) answer net m n,
  different_versions newer ps ps' qt qt' p q sch' parts v v' c -> serves_calls ps' parts v' sch' answer net ->
  In m (client_methods (pr_qml p) v) -> c_body m = BlockingCall n ->
  exists x x', In x (v_rpcs v) /\ x_name x = n /\ x_server_streams x = false /\ In x' (v_rpcs v') /\ same_procedure newer ps ps' x x' /\
  forall kin kin' kout kout' arg bytes target,
   class_of ps (x_input x) kin -> class_of ps' (x_input x') kin' -> class_of ps (x_output x) kout -> class_of ps' (x_output x') kout' ->
   object_ok (cl_schema c) kin arg -> serializes (cl_schema c) kin arg bytes -> FrameSpec.fits bytes ->
   (forall a, received_as (cl_schema c) sch' kin kin' arg a -> object_ok sch' kout' (answer x' a)) ->
   exists a r enough, received_as (cl_schema c) sch' kin kin' arg a /\ received_as sch' (cl_schema c) kout' kout (answer x' a) r
     /\ forall fuel, enough <= fuel -> blocking_call fuel net c (c_body m) kin kout arg target = (Ok (0%Z, []), r).
Proof.
  intros ssl newer ps ps' qt qt' p q sch' parts v v' c answer net m n DV Srv I B.
  destruct (method_of _ _ _ I) as (x & X & N & O). pose proof DV as (_ & _ & _ & _ & (_ & _ & SVs) & _). destruct (SVs x X) as (x' & X' & Sp).
  exists x, x'. split; [exact X |]. split; [rewrite B in N; now symmetry |].
  assert (U : x_server_streams x = false).
  { destruct (x_server_streams x); [| reflexivity]. exfalso. assert (H : opens_stream m) by (apply O; reflexivity). unfold opens_stream in H. rewrite B in H. exact H. }
  split; [exact U |]. split; [exact X'|]. split; [exact Sp|]. intros kin kin' kout kout' arg bytes target Kin Kin' Kout Kout' Oka Ser Fit Ans.
  destruct (exchanged_versions ssl newer ps ps' qt qt' p q sch' parts v v' c answer net m x x' kin kin' kout kout' arg bytes)
    as (a & r & bs & body & enough & Aa & Ar & Net & H & En); try assumption.
  exists a, r, enough. split; [exact Aa |]. split; [exact Ar |]. intros fuel Le. destruct (En fuel Le) as (Se & De).
  unfold blocking_call. rewrite Se. cbn [bind]. unfold sync_call, raw_call. cbn [bind negb]. rewrite Net, H. cbn.
  unfold outcome, target_after. rewrite De. reflexivity.
Qed.

(** The same for the methods that return a reply or take callbacks.  Missing: as above. *)
Theorem C99_reply_partial : forall (ssl : Type) newer ps ps' qt qt' p q sch' parts v v' (c : client ssl) answer net m,
  different_versions newer ps ps' qt qt' p q sch' parts v v' c -> serves_calls ps' parts v' sch' answer net ->
  In m (client_methods (pr_qml p) v) -> ~ opens_stream m ->
  exists x x', In x (v_rpcs v) /\ x_name x = passed_name (c_body m) /\ x_server_streams x = false
  /\ In x' (v_rpcs v') /\ same_procedure newer ps ps' x x' /\
  forall kin kin' kout kout' arg bytes,
   class_of ps (x_input x) kin -> class_of ps' (x_input x') kin' -> class_of ps (x_output x) kout -> class_of ps' (x_output x') kout' ->
   object_ok (cl_schema c) kin arg -> serializes (cl_schema c) kin arg bytes -> FrameSpec.fits bytes ->
   (forall a, received_as (cl_schema c) sch' kin kin' arg a -> object_ok sch' kout' (answer x' a)) ->
   exists a r data reply enough, received_as (cl_schema c) sch' kin kin' arg a /\ received_as sch' (cl_schema c) kout' kout (answer x' a) r
     /\ c_signals reply = [Finished data] /\ c_errors reply = []
     /\ forall fuel, enough <= fuel -> reply_of_call fuel net c (c_body m) kin arg = Ok reply
          /\ read_from fuel c kout reply = (Ok (0%Z, []), r).
Proof.
  intros ssl newer ps ps' qt qt' p q sch' parts v v' c answer net m DV Srv I B.
  destruct (method_of _ _ _ I) as (x & X & N & O). pose proof DV as (_ & _ & _ & _ & (_ & _ & SVs) & _). destruct (SVs x X) as (x' & X' & Sp).
  exists x, x'. split; [exact X |]. split; [now symmetry |].
  assert (U : x_server_streams x = false) by (destruct (x_server_streams x); [exfalso; apply B, O |]; reflexivity).
  split; [exact U |]. split; [exact X'|]. split; [exact Sp|]. intros kin kin' kout kout' arg bytes Kin Kin' Kout Kout' Oka Ser Fit Ans.
  destruct (exchanged_versions ssl newer ps ps' qt qt' p q sch' parts v v' c answer net m x x' kin kin' kout kout' arg bytes)
    as (a & r & bs & body & enough & Aa & Ar & Net & H & En); try assumption.
  exists a, r, bs, (mkCall false false false false bs [Finished bs] []), enough. split; [exact Aa |]. split; [exact Ar |].
  split; [reflexivity |]. split; [reflexivity |]. intros fuel Le. destruct (En fuel Le) as (Se & De). split.
  - unfold reply_of_call. rewrite Se. cbn [bind]. rewrite Net. unfold http2_call in H. cbn [http2_events http2_event network_done]. unfold network_done. cbn [c_running c_connected new_call negb].
    rewrite H. reflexivity.
  - unfold read_from, read_reply. cbn [c_data]. unfold outcome, target_after. rewrite De. reflexivity.
Qed.

Lemma all_received_by {ssl : Type} (c : client ssl) sch' kout kout' (P : list Values.value -> list Values.value -> Prop) answers messages :
  Forall2 (serializes sch' kout') answers messages ->
  (forall o bs, In o answers -> serializes sch' kout' o bs -> In bs messages -> exists r, deserializes (cl_schema c) kout bs r (Ok tt) /\ P o r) ->
  exists rs enough, Forall2 P answers rs
    /\ forall fuel, enough <= fuel -> map (fun d => (target_after fuel c kout d, outcome fuel c kout d)) messages = map (fun r => (r, Ok tt)) rs.
Proof.
  induction 1 as [| o bs l l' S F IH]; intro H; [exists [], 0; split; [constructor | reflexivity] |].
  destruct IH as (rs & n & A & R); [intros o' bs' I S' I'; apply (H o' bs'); cbn; tauto |].
  destruct (H o bs) as (r & (_ & f & D) & Ar); [cbn; tauto | exact S | cbn; tauto |].
  exists (r :: rs), (Nat.max n f). split; [constructor; assumption |]. intros fuel Le. cbn [map]. rewrite R by lia.
  apply (deserialize_ext _ _ _ fuel) in D; [| lia | discriminate]. unfold target_after, outcome. rewrite D. reflexivity.
Qed.

(** A stream: the target takes what the messages that the procedure sends become in the version of the client, one after the other and without
    errors.  Missing: as above, and pieces of data that end in a header, see C33. *)
Theorem C99_stream_partial : forall (ssl : Type) newer ps ps' qt qt' p q sch' parts v v' (c : client ssl) answers net m,
  different_versions newer ps ps' qt qt' p q sch' parts v v' c -> serves_streams ps' parts v' sch' answers net ->
  In m (client_methods (pr_qml p) v) -> opens_stream m ->
  exists x x', In x (v_rpcs v) /\ x_name x = passed_name (c_body m) /\ x_server_streams x = true
  /\ In x' (v_rpcs v') /\ same_procedure newer ps ps' x x' /\
  forall kin kin' kout kout' arg bytes,
   class_of ps (x_input x) kin -> class_of ps' (x_input x') kin' -> class_of ps (x_output x) kout -> class_of ps' (x_output x') kout' ->
   object_ok (cl_schema c) kin arg -> serializes (cl_schema c) kin arg bytes -> FrameSpec.fits bytes ->
   (forall a, received_as (cl_schema c) sch' kin kin' arg a -> Forall (object_ok sch' kout') (answers x' a)) ->
   exists a rs en enough, received_as (cl_schema c) sch' kin kin' arg a
     /\ Forall2 (received_as sch' (cl_schema c) kout' kout) (answers x' a) rs
     /\ forall fuel, enough <= fuel ->
          stream_of fuel c kout (net (sends_request c (c_body m) bytes)) = (map (fun r => (r, Ok tt)) rs, Ok en).
Proof.
  intros ssl newer ps ps' qt qt' p q sch' parts v v' c answers net m DV Srv I B.
  destruct (method_of _ _ _ I) as (x & X & N & O). pose proof DV as (_ & _ & _ & _ & (_ & Ev & SVs) & _ & _ & _ & _ & _ & _ & SV & PP & PV & HK).
  destruct (SVs x X) as (x' & X' & Sp). exists x, x'. split; [exact X |]. split; [now symmetry |].
  assert (U : x_server_streams x = true) by (apply O, B). split; [exact U |]. split; [exact X'|]. split; [exact Sp|].
  intros kin kin' kout kout' arg bytes Kin Kin' Kout Kout' Oka Ser Fit Ans. destruct Sp as (En & Eu & Ri & Ro).
  assert (L : (Zlen bytes <= INT_MAX)%Z) by (unfold FrameSpec.fits in Fit; lia).
  destruct (to_server ssl newer ps ps' qt qt' p q sch' parts v v' c _ _ kin kin' arg bytes DV Ri Kin Kin' Oka Ser L) as (a & Da & Aa).
  destruct (Srv x' (sends_request c (c_body m) bytes) bytes a kin' kout' X' (eq_trans Eu U)) as (messages & frames & Sm & Fm & Fr & Cc & Wc); try assumption.
  { apply (requests_other parts v v' x x'); [exact Ev | exact En|]. apply (request_made c parts v (pr_qml p)); assumption. }
  destruct (C33_messages_delivered_partial messages frames _ Fr Fm Cc Wc) as (en & n & Rd). unfold running in Rd.
  specialize (Ans a Aa). rewrite Forall_forall in Ans, Fm.
  destruct (all_received_by c sch' kout kout' (received_as sch' (cl_schema c) kout' kout) (answers x' a) messages Sm) as (rs & n' & A & R).
  { intros o bs Io So Ib.
    apply (to_client ssl newer ps ps' qt qt' p q sch' parts v v' c _ _ kout kout' o bs DV Ro Kout Kout' (Ans o Io) So).
    specialize (Fm bs Ib). unfold FrameSpec.fits in Fm. lia. }
  exists a, rs, en, (Nat.max n n'). split; [exact Aa |]. split; [exact A |]. intros fuel Le.
  unfold stream_of. rewrite (Rd fuel) by lia. rewrite (R fuel) by lia. reflexivity.
Qed.

(** * An example: the client of [PropertiesWhole], and a server from the next version of the files, whose service has another procedure *)

Definition newer_shop : service :=
  mkService "shop" "Shop" [ mkRpc "last" "shop.Order" "shop.Order.Line" false false; mkRpc "lines" "shop.Order" "shop.Order.Line" false true;
                            mkRpc "first" "shop.Order" "shop.Order.Line" false false ].
Definition newer_id (m m' : nat) : Prop := (m = 0 /\ m' = 5) \/ (m = 1 /\ m' = 6).
Definition newer_line : list Values.value := (a_line ++ [Values.VScalar (Values.SNum 12)])%list.
Definition newer_line' : list Values.value := (other_line ++ [Values.VScalar (Values.SNum 0)])%list.
Definition newer_answer (x : rpc) (a : list Values.value) : list Values.value :=
  if String.eqb (x_name x) "last" then newer_line' else newer_line.
Definition newer_answers (x : rpc) (a : list Values.value) : list (list Values.value) := [newer_line; newer_line'].
Definition newer_bytes (o : list Values.value) : list Z :=
  match serializeMessage 20 (program_schema newer_program) 0 o with Ok bs => bs | _ => [] end.
Definition newer_net (rq : request unit) : Z * list Z * list Z :=
  if String.eqb (u_path (rq_url rq)) "/shop.Shop/first" then (0, [48], request_body (newer_bytes newer_line))%Z
  else if String.eqb (u_path (rq_url rq)) "/shop.Shop/last" then (0, [48], request_body (newer_bytes newer_line'))%Z else (203, [], [])%Z.
Definition newer_frames : list (list Z) := map (fun o => request_body (newer_bytes o)) [newer_line; newer_line'].
Definition newer_stream (rq : request unit) : list (list Z) :=
  if String.eqb (u_path (rq_url rq)) "/shop.Shop/lines" then [concat newer_frames] else [].

Lemma newer_path path i : message_at (o_messages newer_order_file) path i -> (path = ["Order"] /\ i = 5) \/ (path = ["Order"; "Line"] /\ i = 6).
Proof.
  intro M. inversion M as [ms m I E1 E2 E3 | ms m path' i' I M' E1 E2 E3]; subst; cbn in I; destruct I as [<- | []]; [left; split; reflexivity |].
  right. cbn in M'. inversion M' as [ms m I F1 F2 F3 | ms m path'' i'' I M'' F1 F2 F3]; subst; cbn in I; destruct I as [<- | []]; [split; reflexivity |].
  cbn in M''. inversion M'' as [ms m I F1 F2 F3 | ms m p j I F0 F1 F2 F3]; subst; destruct I.
Qed.

Lemma only_shop parts : package_parts parts -> package_of parts = "shop" -> parts = ["shop"].
Proof.
  intros P E. destruct parts as [| a [| b parts]]; [discriminate E | cbn in E; now subst a |].
  exfalso. change (a ++ "." ++ join "." (b :: parts) = "shop") in E.
  assert (H : In "."%char (list_ascii_of_string (a ++ "." ++ join "." (b :: parts)))).
  { clear. induction a as [| x a IH]; [now left | right; exact IH]. }
  rewrite E in H. cbn in H. intuition discriminate.
Qed.
Lemma named_order full i : full_name_of [order_file] full i -> (full = "shop.Order" /\ i = 0) \/ (full = "shop.Order.Line" /\ i = 1).
Proof.
  intros (f & parts & path & [<- | []] & P & E & M & ->). rewrite (only_shop parts P (eq_sym E)).
  destruct (order_path _ _ M) as [[-> ->] | [-> ->]]; [left | right]; split; reflexivity.
Qed.
Lemma named_newer full i : full_name_of [newer_order_file] full i -> (full = "shop.Order" /\ i = 5) \/ (full = "shop.Order.Line" /\ i = 6).
Proof.
  intros (f & parts & path & [<- | []] & P & E & M & ->). rewrite (only_shop parts P (eq_sym E)).
  destruct (newer_path _ _ M) as [[-> ->] | [-> ->]]; [left | right]; split; reflexivity.
Qed.
Lemma newer_class k : class_of [newer_order_file] "shop.Order.Line" k -> k = 0.
Proof.
  intros (c & N & F). destruct (named_newer _ _ F) as [[X _] | [_ X]]; [discriminate X |].
  destruct k as [| [| k]]; [reflexivity | injection N as <-; discriminate X | destruct k; discriminate N].
Qed.
Lemma newer_classes : class_of [newer_order_file] "shop.Order" 1 /\ class_of [newer_order_file] "shop.Order.Line" 0.
Proof.
  split; (eexists; split; [reflexivity |]).
  - exists newer_order_file, ["shop"], ["Order"]. split; [now left |]. split; [exact shop_part |]. split; [reflexivity |].
    split; [| reflexivity]. apply (at_top _ (hd (Message 0 "" [] [] []) (o_messages newer_order_file))); now left.
  - exists newer_order_file, ["shop"], ["Order"; "Line"]. split; [now left |]. split; [exact shop_part |]. split; [reflexivity |].
    split; [| reflexivity]. apply (at_inner _ (hd (Message 0 "" [] [] []) (o_messages newer_order_file)) ["Line"]); [now left |].
    apply (at_top _ (hd (Message 0 "" [] [] []) (g_nested (hd (Message 0 "" [] [] []) (o_messages newer_order_file))))); now left.
Qed.
Lemma newer_procedures : service_versions newer_id [order_file] [newer_order_file] shop newer_shop.
Proof.
  split; [reflexivity |]. split; [reflexivity |]. intros x X.
  assert (R : forall full i i', full_name_of [order_file] full i -> full_name_of [newer_order_file] full i' -> newer_id i i').
  { intros full i i' A B. destruct (named_order _ _ A) as [[-> ->] | [-> ->]], (named_newer _ _ B) as [[E ->] | [E ->]];
      try discriminate E; [left | right]; split; reflexivity. }
  destruct X as [<- | [<- | []]].
  - exists (mkRpc "first" "shop.Order" "shop.Order.Line" false false). split; [right; right; now left |]. repeat split; intros i i'; apply R.
  - exists (mkRpc "lines" "shop.Order" "shop.Order.Line" false true). split; [right; now left |]. repeat split; intros i i'; apply R.
Qed.

Lemma newer_serialized o : In o [newer_line; newer_line'] ->
  serializes (program_schema newer_program) 0 o (newer_bytes o) /\ FrameSpec.fits (newer_bytes o) /\ (Zlen (newer_bytes o) <= INT_MAX)%Z
  /\ object_ok (program_schema newer_program) 0 o.
Proof.
  assert (E : nth_error (program_schema newer_program) 0 = Some (Values.mkMsg
    [ Values.mkField 1 (Values.FSing (Values.ES Values.TSInt64)); Values.mkField 2 (Values.FSing (Values.ES Values.TString));
      Values.mkField 3 (Values.FSing (Values.ES Values.TUInt32)) ] [2; 0; 1])) by (vm_compute; reflexivity).
  intros [<- | [<- | []]]; (split; [exists 20; vm_compute; reflexivity |]; split; [vm_compute; discriminate |]; split; [vm_compute; discriminate |]);
    destruct (program_schema newer_program) as [| m0 rest]; try discriminate E; injection E as ->;
    unfold object_ok, newer_line, newer_line', a_line, other_line; cbn -[Z.pow in_s in_u bytes Z.opp];
    repeat split; try (intro; discriminate); try (unfold in_s, in_u; lia); repeat constructor; unfold is_byte; lia.
Qed.

Lemma newer_serves : serves_calls [newer_order_file] ["shop"] newer_shop (program_schema newer_program) newer_answer newer_net.
Proof.
  intros x rq arg a kin kout [<- | [<- | [<- | []]]] U (P & _) Kin Kout D; [| discriminate U |]; apply newer_class in Kout; subst kout.
  - destruct (newer_serialized newer_line' ltac:(right; now left)) as (S & F & L & _).
    exists (newer_bytes newer_line'), 0%Z, (request_body (newer_bytes newer_line')). split; [exact S |]. split; [exact L |].
    split; [apply C32_request_framed; exact F |]. unfold newer_net. rewrite P. reflexivity.
  - destruct (newer_serialized newer_line ltac:(now left)) as (S & F & L & _).
    exists (newer_bytes newer_line), 0%Z, (request_body (newer_bytes newer_line)). split; [exact S |]. split; [exact L |].
    split; [apply C32_request_framed; exact F |]. unfold newer_net. rewrite P. reflexivity.
Qed.

Lemma newer_streams : serves_streams [newer_order_file] ["shop"] newer_shop (program_schema newer_program) newer_answers newer_stream.
Proof.
  intros x rq arg a kin kout [<- | [<- | [<- | []]]] U (P & _) Kin Kout D; [discriminate U | | discriminate U].
  apply newer_class in Kout. subst kout. destruct (newer_serialized newer_line ltac:(now left)) as (S & F & L & _).
  destruct (newer_serialized newer_line' ltac:(right; now left)) as (S' & F' & L' & _).
  exists (map newer_bytes [newer_line; newer_line']), newer_frames.
  assert (E : newer_stream rq = [List.concat newer_frames]) by (unfold newer_stream; rewrite P; reflexivity). rewrite E.
  split; [repeat constructor; assumption |]. split; [repeat constructor; assumption |].
  split; [repeat constructor; exists 0%Z; apply C32_request_framed; assumption |].
  split; [cbn [List.concat]; apply app_nil_r |].
  intros before chunk after Cut. destruct before as [| b before]; [| destruct before; discriminate Cut].
  injection Cut as <- <-. exists (firstn 1 newer_frames), (request_body (newer_bytes newer_line')), []. split; [reflexivity |].
  vm_compute. split; [discriminate |]. split; [split; [reflexivity | discriminate] |]. left. reflexivity.
Qed.

(** The client gets the lines without the count, which it does not know. *)
Example C99_case :
  different_versions newer_id [order_file] [newer_order_file] ["QUrl"] [] client_program newer_program (program_schema newer_program) ["shop"]
    shop newer_shop shop_client
  /\ serves_calls [newer_order_file] ["shop"] newer_shop (program_schema newer_program) newer_answer newer_net
  /\ serves_streams [newer_order_file] ["shop"] newer_shop (program_schema newer_program) newer_answers newer_stream
  /\ class_of [newer_order_file] "shop.Order" 1 /\ class_of [newer_order_file] "shop.Order.Line" 0
  /\ object_ok (program_schema client_program) 1 an_order
  /\ (exists bytes, serializes (program_schema client_program) 1 an_order bytes /\ FrameSpec.fits bytes)
  /\ object_ok (program_schema newer_program) 0 newer_line /\ object_ok (program_schema newer_program) 0 newer_line'
  /\ blocking_call 100 newer_net shop_client (BlockingCall "first") 1 0 an_order other_line = (Ok (0%Z, []), a_line)
  /\ stream_of 100 shop_client 0 (newer_stream (sends_request shop_client (OpenStreamTo "lines") an_order_bytes))
     = (map (fun r => (r, Ok tt)) [a_line; other_line], Ok None).
Proof.
  destruct C92_case as (C1 & C2 & C3 & C4 & C5 & C6 & C7 & C8 & _). destruct C92_versions_case as (V1 & V2 & V3 & V4 & V5 & _).
  split.
  { unfold different_versions. split; [assumption|]. split; [assumption|]. split; [exact V2|]. split.
    { intros c c' f f' Ic Ic' N If If' Nu. cbn in Ic, Ic'. destruct Ic as [<- | [<- | []]]; destruct Ic' as [<- | [<- | []]]; unfold newer_id in N; cbn in N; try lia;
        cbn in If, If'; repeat destruct If as [<- | If]; try destruct If; repeat destruct If' as [<- | If']; try destruct If'; try discriminate Nu;
        constructor; constructor; (left; now split) || (right; now split). }
    split; [exact newer_procedures |]. repeat (split; [assumption |]). split; [reflexivity |]. split; [exact shop_part |]. split; [reflexivity |].
    intros e [<- | []]. split; discriminate. }
  split; [exact newer_serves |]. split; [exact newer_streams |]. split; [apply newer_classes |]. split; [apply newer_classes |].
  split; [exact an_order_client |].
  split; [eexists; split; [exists 20; vm_compute; reflexivity | vm_compute; discriminate] |].
  split; [apply newer_serialized; now left |]. split; [apply newer_serialized; right; now left |].
  split; vm_compute; reflexivity.
Qed.

Print Assumptions C99_blocking_partial.
Print Assumptions C99_reply_partial.
Print Assumptions C99_stream_partial.

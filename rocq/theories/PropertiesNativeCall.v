(** Property C101: a method of a generated client over the channel that is based on the gRPC library, from the arguments to the result. *)

From Coq Require Import ZArith Ascii String List Bool Arith Lia.
From Verif Require Values.
From Verif Require Import Base MessageModel MessageSpec MessageProofs MessageFacts RunFacts ExactSpec CallModel.
From Verif Require Import GenModel GenSpec GenTypesModel GenTypesSpec GenTypesNames GenStrings GenClassSpec LinkModel LinkSpec LinkProofs PropertiesLink
  WholeSpec PropertiesWhole NativeModel NativeSpec NativeProofs PropertiesNative PropertiesQmlTypes NativeCallModel NativeCallSpec.
Import ListNotations.
Open Scope nat_scope.
Open Scope string_scope.

(** * The name of the procedure *)

Lemma pieces_free : forall s t fuel, free_of "%" s -> pieces (String.length s + fuel) (s ++ t) = (map Plain (list_ascii_of_string s) ++ pieces fuel t)%list.
Proof.
  induction s as [| c s IH]; intros t fuel F; [reflexivity |]. cbn [String.length Nat.add pieces append list_ascii_of_string map List.app].
  destruct (Ascii.eqb_spec c "%") as [-> | N]; [exfalso; apply F; now left |]. f_equal. apply IH. intro I. apply F. now right.
Qed.

Lemma lowest_plain l ps : lowest (map Plain l ++ ps)%list = lowest ps.
Proof. unfold lowest. rewrite fold_right_app. now induction l. Qed.

Lemma filled_plain : forall s n x ps,
  fold_right (fun p s => filled n x p ++ s) "" (map Plain (list_ascii_of_string s) ++ ps)%list = s ++ fold_right (fun p s => filled n x p ++ s) "" ps.
Proof. induction s as [| c s IH]; intros n x ps; [reflexivity |]. cbn. now rewrite IH. Qed.

Lemma length_append : forall a b, String.length (a ++ b) = String.length a + String.length b.
Proof. induction a as [| c a IH]; intro b; [reflexivity |]. cbn. now rewrite IH. Qed.
Lemma append_empty : forall a, a ++ "" = a.
Proof. induction a as [| c a IH]; [reflexivity |]. cbn. now rewrite IH. Qed.
Lemma append_assoc : forall a b c, (a ++ b) ++ c = a ++ b ++ c.
Proof. induction a as [| x a IH]; intros b c; [reflexivity |]. cbn. now rewrite IH. Qed.

Lemma first_arg service : arg "/%1/%2" service = "/" ++ service ++ "/%2".
Proof. reflexivity. Qed.

(** C101: the name of the procedure that is called is that of gRPC, for any service that has no percent sign in its name. *)
Theorem C101_name : forall service method, free_of "%" service -> rpc_name service method = "/" ++ service ++ "/" ++ method.
Proof.
  intros s m F. unfold rpc_name. rewrite first_arg. unfold arg.
  assert (P : pieces (String.length ("/" ++ s ++ "/%2")) ("/" ++ s ++ "/%2")
              = (map Plain (list_ascii_of_string ("/" ++ s ++ "/")) ++ [Place 2 "%2"])%list).
  { replace ("/" ++ s ++ "/%2") with (("/" ++ s ++ "/") ++ "%2") by (rewrite append_assoc; cbn; rewrite append_assoc; reflexivity).
    rewrite length_append, pieces_free; [reflexivity |]. unfold free_of in *. cbn. rewrite ascii_app. intros [E | I]; [discriminate |].
    apply in_app_iff in I. cbn in I. destruct I as [I | [E | []]]; [auto | discriminate]. }
  rewrite P, lowest_plain. change (lowest [Place 2 "%2"]) with (Some 2). cbv iota. rewrite filled_plain. cbn. rewrite append_assoc. cbn. now rewrite append_empty.
Qed.

(** A service with a place in its name: the method takes that place, and its own stays open. *)
Theorem C101_name_refuted : forall a b method, free_of "%" a -> free_of "%" b -> (forall c s, b = String c s -> digit_value c = None) ->
  rpc_name (a ++ "%1" ++ b) method = "/" ++ a ++ method ++ b ++ "/%2".
Proof.
  intros a b m A B D. unfold rpc_name. rewrite first_arg. unfold arg.
  assert (Fa : free_of "%" ("/" ++ a)) by (intros [E | I]; [discriminate | exact (A I)]).
  assert (Fb : free_of "%" (b ++ "/")).
  { unfold free_of in *. rewrite ascii_app, in_app_iff. cbn. intros [I | [E | []]]; [auto | discriminate]. }
  assert (P : pieces (String.length ("/" ++ (a ++ "%1" ++ b) ++ "/%2")) ("/" ++ (a ++ "%1" ++ b) ++ "/%2")
              = (map Plain (list_ascii_of_string ("/" ++ a)) ++ Place 1 "%1" :: map Plain (list_ascii_of_string (b ++ "/")) ++ [Place 2 "%2"])%list).
  { replace ("/" ++ (a ++ "%1" ++ b) ++ "/%2") with (("/" ++ a) ++ "%1" ++ ((b ++ "/") ++ "%2")) by (rewrite !append_assoc; reflexivity).
    rewrite length_append, pieces_free by exact Fa. f_equal.
    set (t := (b ++ "/") ++ "%2"). change (String.length ("%1" ++ t)) with (S (S (String.length t))).
    assert (Fu : S (String.length t) = String.length (b ++ "/") + 3) by (subst t; rewrite !length_append; cbn; lia). rewrite Fu.
    set (fu := String.length (b ++ "/") + 3) in *.
    cbn [pieces append]. change (Ascii.eqb "%" "%") with true. cbv iota.
    assert (Pl : place (String "1" t) = Some (1, "1", t)).
    { unfold place. cbn [Ascii.eqb Bool.eqb andb]. unfold numbered. change (digit_value "1") with (Some 1). subst t.
      destruct b as [| c b']; [reflexivity |]. cbn [append]. now rewrite (D c b' eq_refl). }
    rewrite Pl. f_equal.
    subst t fu. rewrite pieces_free by exact Fb. reflexivity. }
  rewrite P, lowest_plain.
  replace (lowest (Place 1 "%1" :: map Plain (list_ascii_of_string (b ++ "/")) ++ [Place 2 "%2"])) with (Some 1)
    by (unfold lowest; cbn [fold_right]; fold (lowest (map Plain (list_ascii_of_string (b ++ "/")) ++ [Place 2 "%2"])%list); now rewrite lowest_plain).
  cbv iota. rewrite filled_plain. cbn [fold_right filled Nat.eqb]. rewrite filled_plain. cbn. rewrite !append_assoc. reflexivity.
Qed.

(** * Programs *)

(** The client and the server are programs from the same files, the client is generated for the service; names are identifiers. *)
Definition native_pair (ps : list proto) (qt qt' : list string) (p q : program) (sch' : Values.schema) (parts : list string) (v : service)
  (c : native_client) : Prop :=
  files_valid ps
  /\ program_of ps qt p /\ usable ps qt (pr_qml p) /\ runs_as p (nc_schema c)
  /\ program_of ps qt' q /\ usable ps qt' (pr_qml q) /\ runs_as q sch'
  /\ nc_service c = v /\ v_package v = package_of parts /\ Forall identifier (parts ++ [v_name v])%list.

Lemma identifier_free s d : identifier s -> ~ name_char d -> free_of d s.
Proof. intros (c & t & _ & _ & F) N I. rewrite Forall_forall in F. exact (N (F d I)). Qed.

Lemma no_name_char d : In d ["%"%char; "."%char] -> ~ name_char d.
Proof.
  intros I [N | [N | [N | N]]]; destruct I as [<- | [<- | []]]; try discriminate N; cbn in N;
    repeat (destruct N as [N | N]; [discriminate N |]); destruct N.
Qed.

Lemma join_free d l : d <> "."%char -> Forall (free_of d) l -> free_of d (GenSpec.join "." l).
Proof.
  intro N. induction 1 as [| x l F Fs IH]; [intros [] |]. cbn [GenSpec.join]. destruct l as [| y l]; [exact F |].
  unfold free_of in *. rewrite !ascii_app, !in_app_iff. cbn [list_ascii_of_string In]. intuition.
Qed.

Lemma procedure_named c parts v b x : nc_service c = v -> v_package v = package_of parts -> Forall identifier (parts ++ [v_name v])%list ->
  passed_name b = x_name x -> procedure_of c b = rpc_path parts v x.
Proof.
  intros S V I N. unfold procedure_of, service_name, rpc_path. rewrite S, V, N.
  rewrite full_name_join.
  - apply C101_name, join_free; [discriminate |]. apply Forall_forall. intros y Y. rewrite Forall_forall in I.
    apply identifier_free; [now apply I | apply no_name_char; now left].
  - apply Forall_app in I. destruct I as (I & _). apply Forall_forall. intros y Y. rewrite Forall_forall in I. split.
    + destruct (I y Y) as (h & t & -> & _). discriminate.
    + apply identifier_free; [now apply I | apply no_name_char; right; now left].
Qed.

Lemma procedure_reached ps qt qt' p q sch' parts v c m x : native_pair ps qt qt' p q sch' parts v c -> passed_name (c_body m) = x_name x ->
  procedure_of c (c_body m) = rpc_path parts v x.
Proof. intros (_ & _ & _ & _ & _ & _ & _ & S & V & I). now apply procedure_named. Qed.

Lemma whole_buffer b bs : holds b bs -> parseByteBuffer b [] = (0%Z, bs).
Proof.
  intros (l & -> & <-). cbn. f_equal.
  assert (G : forall l d, fold_left (fun d s : list Z => d ++ s)%list l d = (d ++ concat l)%list).
  { clear. induction l as [| x l IH]; intro d; cbn; [now rewrite app_nil_r |]. now rewrite IH, app_assoc. }
  apply G.
Qed.

Lemma all_read bs messages : Forall2 holds bs messages -> reading bs 0 = (messages, 0%Z).
Proof. induction 1 as [| b m bs ms H F IH]; [reflexivity |]. cbn [reading]. rewrite (whole_buffer _ _ H). cbn. now rewrite IH. Qed.

(** The exchange of messages, whatever the client does with the answer. *)
Lemma native_exchanged : forall ps qt qt' p q sch' parts v c answer lib m x kin kout arg bytes,
  native_pair ps qt qt' p q sch' parts v c -> library_calls ps parts v sch' answer lib ->
  In x (v_rpcs v) -> passed_name (c_body m) = x_name x -> x_server_streams x = false ->
  class_of ps (x_input x) kin -> class_of ps (x_output x) kout ->
  object_ok (nc_schema c) kin arg -> serializes (nc_schema c) kin arg bytes -> (Zlen bytes <= INT_MAX)%Z ->
  (forall a, arrives (nc_schema c) kin arg a -> object_ok sch' kout (answer x a)) ->
  exists a r bs enough, arrives (nc_schema c) kin arg a /\ arrives sch' kout (answer x a) r
    /\ call_thread lib (procedure_of c (c_body m)) bytes = (0%Z, bs)
    /\ forall fuel, enough <= fuel -> serializeMessage fuel (nc_schema c) kin arg = Ok bytes /\ received fuel c kout bs = (r, Ok tt).
Proof.
  intros ps qt qt' p q sch' parts v c answer lib m x kin kout arg bytes NP Srv X N U Kin Kout Oka Ser L Ans.
  pose proof (procedure_reached _ _ _ _ _ _ _ _ _ m x NP N) as Pr.
  destruct NP as (FV & PO & PU & PR & QO & QU & QR & _).
  destruct (C92_exchange_partial ps qt qt' p q (nc_schema c) sch' kin arg bytes FV PO PU PR QO QU QR Oka Ser L) as (a & Da & Aa & _).
  destruct (Srv x (parseQByteArray bytes) a kin kout X U) as (bs & b & Sb & Lb & Hb & Net); try assumption.
  { cbn. now rewrite app_nil_r. }
  destruct (C92_exchange_partial ps qt' qt q p sch' (nc_schema c) kout (answer x a) bs FV QO QU QR PO PU PR (Ans a Aa) Sb Lb) as (r & Dr & Ar & _).
  destruct Ser as (f1 & Ser). destruct Dr as (_ & f2 & Dr).
  exists a, r, bs, (Nat.max f1 f2). split; [exact Aa |]. split; [exact Ar |].
  split; [unfold call_thread; rewrite Pr, Net; cbn [Z.eqb]; now apply whole_buffer |]. intros fuel Le. split.
  - apply (serialize_mono _ _ fuel) in Ser; [exact Ser | lia].
  - unfold received. apply (deserialize_ext _ _ _ fuel) in Dr; [exact Dr | lia | discriminate].
Qed.

(** A call that blocks reaches the procedure of its name, which gets the message that the caller passed.  The target has the
    procedure's answer afterwards, the status is Ok, and the client emits no error.
    Missing: as C92_exchange_partial, targets that are deleted while the call waits (C41). *)
Theorem C101_blocking_partial : forall ps qt qt' p q sch' parts v c answer lib m n,
  native_pair ps qt qt' p q sch' parts v c -> library_calls ps parts v sch' answer lib ->
  In m (client_methods (pr_qml p) v) -> c_body m = BlockingCall n ->
  exists x, In x (v_rpcs v) /\ x_name x = n /\ x_server_streams x = false /\
  forall kin kout arg bytes target,
   class_of ps (x_input x) kin -> class_of ps (x_output x) kout ->
   object_ok (nc_schema c) kin arg -> serializes (nc_schema c) kin arg bytes -> (Zlen bytes <= INT_MAX)%Z ->
   (forall a, arrives (nc_schema c) kin arg a -> object_ok sch' kout (answer x a)) ->
   exists a r enough, arrives (nc_schema c) kin arg a /\ arrives sch' kout (answer x a) r
     /\ forall fuel, enough <= fuel -> native_blocking fuel lib c (c_body m) kin kout arg target = (Ok (0%Z, []), r).
Proof.
  intros ps qt qt' p q sch' parts v c answer lib m n NP Srv I B.
  destruct (method_of _ _ _ I) as (x & X & N & O). exists x. split; [exact X |]. split; [rewrite B in N; now symmetry |].
  assert (U : x_server_streams x = false).
  { destruct (x_server_streams x); [| reflexivity]. exfalso. assert (H : opens_stream m) by (apply O; reflexivity). unfold opens_stream in H. rewrite B in H. exact H. }
  split; [exact U |]. intros kin kout arg bytes target Kin Kout Oka Ser L Ans.
  destruct (native_exchanged ps qt qt' p q sch' parts v c answer lib m x kin kout arg bytes) as (a & r & bs & enough & Aa & Ar & Net & En); try assumption.
  exists a, r, enough. split; [exact Aa |]. split; [exact Ar |]. intros fuel Le. destruct (En fuel Le) as (Se & De).
  unfold native_blocking. rewrite Se. cbn [bind]. unfold sync_call, raw_call. cbn [bind negb]. rewrite Net. cbn. rewrite De. reflexivity.
Qed.

(** At any time of any execution: a call that has a response so far, or nothing, has reported that response or nothing. *)
Lemma reply_always evs n i bs : execution evs n -> i < length (n_works n) -> task_of n i = Unary -> results i evs = [] \/ results i evs = [(0%Z, bs)] ->
  NativeSpec.messages i (n_log n) = [] /\ (ends i (n_log n) = [] \/ ends i (n_log n) = [RDone (w_owner (work_at n i)) i bs]).
Proof.
  intros Ex Li T R. destruct (C36_threads evs n i Ex T Li) as (M & [E | (code & data & R' & E)]); (split; [exact M |]); [now left |]. right.
  destruct R as [R | R]; rewrite R in R'; [discriminate R' |]. injection R' as <- <-. exact E.
Qed.

(** The same for the messages of a stream that has ended without error, or not yet. *)
Lemma stream_always {A : Type} (f : list Z -> A) evs n i messages rs : execution evs n -> task_of n i = Streaming ->
  prefix (reads i evs) messages -> map f messages = rs ->
  (exists k, map f (NativeSpec.messages i (n_log n)) = firstn k rs) /\
  (results i evs = [] \/ results i evs = [(0%Z, [])] -> ends i (n_log n) = []).
Proof.
  intros Ex T (more & P) <-. split.
  - destruct (C73_in_order evs n i Ex) as (rest & Q). exists (length (NativeSpec.messages i (n_log n))). rewrite P, Q, <- app_assoc, map_app.
    rewrite firstn_app, map_length, Nat.sub_diag, app_nil_r, firstn_all2; [reflexivity |]. now rewrite map_length.
  - intros R. destruct (ends i (n_log n)) as [| r l] eqn:E; [reflexivity | exfalso].
    assert (I : In r (ends i (n_log n))) by (rewrite E; now left). unfold ends in I. apply filter_In in I as (I & Y). apply in_split in I as (l1 & l2 & L).
    destruct (end_last evs n l1 r l2 i Ex L) as (_ & _ & _ & code & data & R' & O).
    + unfold is_end, ends. cbn [filter]. now rewrite Y.
    + destruct R as [R | R]; rewrite R in R'; [discriminate R' |]. injection R' as <- <-. rewrite T in O. discriminate O.
Qed.

(** The same for the methods that return a reply or take callbacks.  The reply emits "finished" and nothing else, the client emits no error, and read()
    gives the procedure's answer; and so for every interleaving of the threads of the client, if the user does not abort or destroy the reply.  If
    they do, and at any time before the end, the reply has emitted nothing, or "finished" with that answer.
    Missing: as above. *)
Theorem C101_reply_partial : forall ps qt qt' p q sch' parts v c answer lib m,
  native_pair ps qt qt' p q sch' parts v c -> library_calls ps parts v sch' answer lib ->
  In m (client_methods (pr_qml p) v) -> ~ opens_stream m ->
  exists x, In x (v_rpcs v) /\ x_name x = passed_name (c_body m) /\ x_server_streams x = false /\
  forall kin kout arg bytes,
   class_of ps (x_input x) kin -> class_of ps (x_output x) kout ->
   object_ok (nc_schema c) kin arg -> serializes (nc_schema c) kin arg bytes -> (Zlen bytes <= INT_MAX)%Z ->
   (forall a, arrives (nc_schema c) kin arg a -> object_ok sch' kout (answer x a)) ->
   exists a r data reply enough, arrives (nc_schema c) kin arg a /\ arrives sch' kout (answer x a) r
     /\ c_signals reply = [Finished data] /\ c_errors reply = [] /\ c_data reply = data
     /\ (forall fuel, enough <= fuel -> native_reply fuel lib c (c_body m) kin arg = Ok reply /\ received fuel c kout data = (r, Ok tt))
     /\ (forall evs n i, work_done evs n i -> task_of n i = Unary -> results i evs = [call_thread lib (procedure_of c (c_body m)) bytes] ->
          ends i (n_log n) = [RDone (w_owner (work_at n i)) i data])
     /\ (forall evs n i, execution evs n -> i < length (n_works n) -> task_of n i = Unary ->
          results i evs = [] \/ results i evs = [call_thread lib (procedure_of c (c_body m)) bytes] ->
          NativeSpec.messages i (n_log n) = [] /\ (ends i (n_log n) = [] \/ ends i (n_log n) = [RDone (w_owner (work_at n i)) i data])).
Proof.
  intros ps qt qt' p q sch' parts v c answer lib m NP Srv I B.
  destruct (method_of _ _ _ I) as (x & X & N & O). exists x. split; [exact X |]. split; [now symmetry |].
  assert (U : x_server_streams x = false) by (destruct (x_server_streams x); [exfalso; apply B, O |]; reflexivity).
  split; [exact U |]. intros kin kout arg bytes Kin Kout Oka Ser L Ans.
  destruct (native_exchanged ps qt qt' p q sch' parts v c answer lib m x kin kout arg bytes) as (a & r & bs & enough & Aa & Ar & Net & En); try assumption.
  exists a, r, bs, (native_step new_call (NativeDone 0 bs)), enough. split; [exact Aa |]. split; [exact Ar |].
  split; [reflexivity |]. split; [reflexivity |]. split; [reflexivity |]. split; [| split].
  - intros fuel Le. destruct (En fuel Le) as (Se & De). split; [| exact De]. unfold native_reply. rewrite Se. cbn [bind]. now rewrite Net.
  - intros evs n i (Ex & Wx & Un & Q) T R. destruct (C73_complete evs n i _ Ex Wx eq_refl Un Q) as (_ & code & data & R' & E).
    rewrite R, Net in R'. injection R' as <- <-. rewrite E, T. reflexivity.
  - intros evs n i Ex Li T R. rewrite Net in R. exact (reply_always evs n i bs Ex Li T R).
Qed.

(** A stream: for every interleaving of the threads, the handlers get messages that the target takes the values of, one after the other and without
    errors, as the procedure sent them; no error is reported.  At any time, and if the user aborts or destroys the stream, these are the first messages
    that the procedure sent.
    Missing: as above. *)
Theorem C101_stream_partial : forall ps qt qt' p q sch' parts v c answers lib m,
  native_pair ps qt qt' p q sch' parts v c -> library_streams ps parts v sch' answers lib ->
  In m (client_methods (pr_qml p) v) -> opens_stream m ->
  exists x, In x (v_rpcs v) /\ x_name x = passed_name (c_body m) /\ x_server_streams x = true /\
  forall kin kout arg bytes,
   class_of ps (x_input x) kin -> class_of ps (x_output x) kout ->
   object_ok (nc_schema c) kin arg -> serializes (nc_schema c) kin arg bytes -> (Zlen bytes <= INT_MAX)%Z ->
   (forall a, arrives (nc_schema c) kin arg a -> Forall (object_ok sch' kout) (answers x a)) ->
   exists a rs enough, arrives (nc_schema c) kin arg a /\ Forall2 (arrives sch' kout) (answers x a) rs
     /\ (forall fuel evs n i messages code, enough <= fuel ->
          stream_thread lib (procedure_of c (c_body m)) bytes = (messages, code) ->
          work_done evs n i -> task_of n i = Streaming -> reads i evs = messages -> results i evs = [(code, [])] ->
          map (received fuel c kout) (NativeSpec.messages i (n_log n)) = map (fun r => (r, Ok tt)) rs /\ ends i (n_log n) = [])
     /\ (forall fuel evs n i, enough <= fuel -> execution evs n -> task_of n i = Streaming ->
          prefix (reads i evs) (fst (stream_thread lib (procedure_of c (c_body m)) bytes)) ->
          (exists k, map (received fuel c kout) (NativeSpec.messages i (n_log n)) = map (fun r => (r, Ok tt)) (firstn k rs)) /\
          (results i evs = [] \/ results i evs = [(snd (stream_thread lib (procedure_of c (c_body m)) bytes), [])] -> ends i (n_log n) = [])).
Proof.
  intros ps qt qt' p q sch' parts v c answers lib m NP Srv I B.
  destruct (method_of _ _ _ I) as (x & X & N & O). exists x. split; [exact X |]. split; [now symmetry |].
  assert (U : x_server_streams x = true) by (apply O, B). split; [exact U |].
  intros kin kout arg bytes Kin Kout Oka Ser L Ans.
  pose proof (procedure_reached _ _ _ _ _ _ _ _ _ m x NP (eq_sym (eq_sym N))) as Pr.
  destruct NP as (FV & PO & PU & PR & QO & QU & QR & _).
  destruct (C92_exchange_partial ps qt qt' p q (nc_schema c) sch' kin arg bytes FV PO PU PR QO QU QR Oka Ser L) as (a & Da & Aa & _).
  destruct (Srv x (parseQByteArray bytes) a kin kout X U) as (messages & bs & Sm & Lm & Hm & Net); try assumption.
  { cbn. now rewrite app_nil_r. }
  specialize (Ans a Aa). rewrite Forall_forall in Ans, Lm.
  assert (Rcv : exists rs enough, Forall2 (arrives sch' kout) (answers x a) rs
            /\ forall fuel, enough <= fuel -> map (received fuel c kout) messages = map (fun r => (r, Ok tt)) rs).
  { assert (H : forall o d, In o (answers x a) -> serializes sch' kout o d -> In d messages -> exists r, deserializes (nc_schema c) kout d r (Ok tt) /\ arrives sch' kout o r).
    { intros o d Io So Id.
      destruct (C92_exchange_partial ps qt' qt q p sch' (nc_schema c) kout o d FV QO QU QR PO PU PR (Ans o Io) So (Lm d Id)) as (r & Dr & Ar & _). eauto. }
    clear - Sm H. induction Sm as [| o d l l' S F IH]; [exists [], 0; split; [constructor | reflexivity] |].
    destruct IH as (rs & k & A & R); [intros o' d' I' S' I''; apply (H o' d'); cbn; tauto |].
    destruct (H o d) as (r & (_ & f & D) & Ar); [cbn; tauto | exact S | cbn; tauto |].
    exists (r :: rs), (Nat.max k f). split; [constructor; assumption |]. intros fuel Le. cbn [map]. rewrite R by lia.
    apply (deserialize_ext _ _ _ fuel) in D; [| lia | discriminate]. unfold received. now rewrite D. }
  destruct Rcv as (rs & enough & A & R). exists a, rs, enough. split; [exact Aa |]. split; [exact A |].
  assert (St : stream_thread lib (procedure_of c (c_body m)) bytes = (messages, 0%Z)) by (unfold stream_thread; rewrite Pr, Net, (all_read _ _ Hm); reflexivity).
  rewrite St. split.
  - intros fuel evs n i ms code Le St' (Ex & Wx & Un & Q) T Rd Rs. injection St' as <- <-.
    destruct (C73_complete evs n i _ Ex Wx eq_refl Un Q) as (M & code & data & R' & E). rewrite M, Rd. split; [now apply R |].
    rewrite Rs in R'. injection R' as <- <-. rewrite E, T. reflexivity.
  - intros fuel evs n i Le Ex T P. destruct (stream_always (received fuel c kout) evs n i messages _ Ex T P (R fuel Le)) as ((k & M) & E).
    split; [exists k | exact E]. now rewrite M, firstn_map.
Qed.

(** If the gRPC library reports an error or gives a response whose bytes cannot be had, the call returns that error, the client emits it
    once, and the target keeps its value: whatever the service and the messages are. *)
Theorem C101_failed : forall lib c b kin kout arg bytes target code,
  serializes (nc_schema c) kin arg bytes -> code <> 0%Z ->
  (exists response, l_call lib (procedure_of c b) [bytes] = (code, response)) \/ l_call lib (procedure_of c b) [bytes] = (0%Z, Broken code) ->
  exists enough, forall fuel, enough <= fuel ->
    native_blocking fuel lib c b kin kout arg target = (Ok (code, [code]), target)
    /\ exists reply, native_reply fuel lib c b kin arg = Ok reply /\ c_signals reply = [Error code] /\ c_errors reply = [code] /\ c_data reply = [].
Proof.
  intros lib c b kin kout arg bytes target code (f & S) Z N. exists f. intros fuel Le.
  apply (serialize_mono _ _ fuel) in S; [| exact Le]. apply Z.eqb_neq in Z.
  assert (T : call_thread lib (procedure_of c b) bytes = (code, [])).
  { unfold call_thread, parseQByteArray. destruct N as [(response & N) | N]; rewrite N; [now rewrite Z | reflexivity]. }
  split.
  - unfold native_blocking. rewrite S. cbn [bind]. unfold sync_call, raw_call. cbn [bind negb]. rewrite T. cbn [bind]. rewrite Z. reflexivity.
  - unfold native_reply. rewrite S. cbn [bind]. rewrite T. eexists. split; [reflexivity |]. cbn. unfold native_done. cbn. rewrite Z. repeat split.
Qed.

(** A stream that the library ends with an error, or that has a message whose bytes cannot be had: the handlers get the messages before it, and the
    error is reported once, for every interleaving of the threads. *)
Theorem C101_stream_failed : forall lib c b bytes good messages rest last code evs n i,
  l_stream lib (procedure_of c b) [bytes] = ((good ++ rest)%list, last) -> Forall2 holds good messages -> code <> 0%Z ->
  rest = [] /\ last = code \/ (exists others, rest = Broken code :: others) ->
  work_done evs n i -> task_of n i = Streaming ->
  reads i evs = fst (stream_thread lib (procedure_of c b) bytes) -> results i evs = [(snd (stream_thread lib (procedure_of c b) bytes), [])] ->
  NativeSpec.messages i (n_log n) = messages /\ ends i (n_log n) = [RError (w_owner (work_at n i)) i code].
Proof.
  intros lib c b bytes good messages rest last code evs n i L F Z E (Ex & Wx & Un & Q) T Rd Rs.
  assert (St : stream_thread lib (procedure_of c b) bytes = (messages, code)).
  { unfold stream_thread, parseQByteArray. rewrite L. clear - F E Z. induction F as [| x m good messages H F IH].
    - destruct E as [(-> & ->) | (others & ->)]; [reflexivity |]. cbn. apply Z.eqb_neq in Z. now rewrite Z.
    - cbn [List.app reading]. rewrite (whole_buffer _ _ H). cbn [Z.eqb]. now rewrite IH. }
  rewrite St in Rd, Rs. cbn [fst snd] in Rd, Rs.
  destruct (C73_complete evs n i _ Ex Wx eq_refl Un Q) as (M & code' & data & R & En). rewrite M, Rd. split; [reflexivity |].
  rewrite Rs in R. injection R as <- <-. rewrite En, T. unfold NativeSpec.outcome. apply Z.eqb_neq in Z. now rewrite Z.
Qed.

(** * The shop of [PropertiesWhole] behind the gRPC library, with answers in slices *)

Definition in_slices (bs : list Z) : buffer := Slices [firstn 2 bs; []; skipn 2 bs].
Definition shop_library : library :=
  mkLibrary (fun name _ => if String.eqb name "/shop.Shop/first" then (0%Z, in_slices (bytes_of a_line)) else (12%Z, Slices []))
    (fun name _ => if String.eqb name "/shop.Shop/lines" then (map (fun o => in_slices (bytes_of o)) [a_line; other_line; a_line], 0%Z) else ([], 12%Z)).
Definition native_shop : native_client := mkNativeClient shop (program_schema client_program).

Lemma slices_hold bs : holds (in_slices bs) bs.
Proof. eexists. split; [reflexivity |]. cbn [concat List.app]. rewrite app_nil_r. apply firstn_skipn. Qed.

Lemma shop_library_calls : library_calls [order_file] ["shop"] shop (program_schema shop_program) shop_answer shop_library.
Proof.
  intros x slices a kin kout [<- | [<- | []]] U Kin Kout D; [| discriminate U].
  apply class_line in Kout. subst kout. destruct (line_serialized a_line ltac:(now left)) as (S & F & L & _).
  exists (bytes_of a_line), (in_slices (bytes_of a_line)). split; [exact S |]. split; [exact L |]. split; [apply slices_hold | reflexivity].
Qed.

Lemma shop_library_streams : library_streams [order_file] ["shop"] shop (program_schema shop_program) shop_answers shop_library.
Proof.
  intros x slices a kin kout [<- | [<- | []]] U Kin Kout D; [discriminate U |].
  apply class_line in Kout. subst kout. destruct (line_serialized a_line ltac:(now left)) as (S & F & L & _).
  destruct (line_serialized other_line ltac:(right; now left)) as (S' & F' & L' & _).
  exists (map bytes_of [a_line; other_line; a_line]), (map (fun o => in_slices (bytes_of o)) [a_line; other_line; a_line]).
  split; [repeat constructor; assumption |]. split; [repeat constructor; assumption |].
  split; [repeat constructor; apply slices_hold | reflexivity].
Qed.

(** A stream (0) and a call (1), interleaved. *)
Definition shop_story : list event :=
  [MChannel; MNew Streaming; MNew Unary; MStart 0 0; MStart 1 0;
   WRead 0 (bytes_of a_line); WBegin 1; WRead 0 (bytes_of other_line); MDispatch; WReply 1 0 (bytes_of a_line); WRead 0 (bytes_of a_line);
   WEnd 0; WExit 1; WStatus 0 0; WExit 0; MDispatch; MDispatch; MDispatch; MDispatch].

Example C101_case :
  native_pair [order_file] ["QUrl"] [] client_program shop_program (program_schema shop_program) ["shop"] shop native_shop
  /\ library_calls [order_file] ["shop"] shop (program_schema shop_program) shop_answer shop_library
  /\ library_streams [order_file] ["shop"] shop (program_schema shop_program) shop_answers shop_library
  /\ class_of [order_file] "shop.Order" 1 /\ class_of [order_file] "shop.Order.Line" 0
  /\ map c_body (client_methods false shop) = [BlockingCall "first"; AsyncCall "first"; CallbackCall "first"; OpenStream "lines"; OpenStreamTo "lines"]
  /\ object_ok (program_schema client_program) 1 an_order
  /\ (exists bytes, serializes (program_schema client_program) 1 an_order bytes /\ (Zlen bytes <= INT_MAX)%Z)
  /\ object_ok (program_schema shop_program) 0 a_line /\ object_ok (program_schema shop_program) 0 other_line
  /\ native_blocking 100 shop_library native_shop (BlockingCall "first") 1 0 an_order other_line = (Ok (0%Z, []), a_line)
  /\ native_blocking 100 shop_library native_shop (BlockingCall "second") 1 0 an_order other_line = (Ok (12%Z, [12%Z]), other_line).
Proof.
  destruct C92_case as (C1 & C2 & C3 & C4 & C5 & C6 & C7 & C8 & _).
  split; [| split; [exact shop_library_calls |]; split; [exact shop_library_streams |]].
  { unfold native_pair. repeat (split; [assumption |]). split; [reflexivity |]. split; [reflexivity |].
    repeat constructor; apply identifier_check_ok; reflexivity. }
  split; [exact class_order' |]. split; [exact class_line' |]. split; [reflexivity |].
  split; [exact an_order_client |].
  split; [eexists; split; [exists 20; vm_compute; reflexivity | vm_compute; discriminate] |].
  split; [apply line_serialized; now left |]. split; [apply line_serialized; right; now left |].
  split; vm_compute; reflexivity.
Qed.

Example C101_story_case : let n := after shop_story in
  work_done shop_story n 0 /\ task_of n 0 = Streaming
  /\ stream_thread shop_library (procedure_of native_shop (OpenStream "lines")) an_order_bytes = (reads 0 shop_story, 0%Z)
  /\ results 0 shop_story = [(0%Z, [])]
  /\ map (received 100 native_shop 0) (messages 0 (n_log n)) = map (fun r => (r, Ok tt)) [a_line; other_line; a_line]
  /\ work_done shop_story n 1 /\ task_of n 1 = Unary
  /\ results 1 shop_story = [call_thread shop_library (procedure_of native_shop (AsyncCall "first")) an_order_bytes]
  /\ ends 1 (n_log n) = [RDone 1 1 (bytes_of a_line)].
Proof.
  cbv zeta. assert (U : forall i o, ~ disturbed i o shop_story).
  { intros i o (a & e & b & E & _ & D). assert (I : In e shop_story) by (rewrite E; apply in_or_app; right; now left).
    unfold shop_story in I. cbn [In] in I. destruct D as [-> | ->]; intuition discriminate. }
  assert (X : execution shop_story (after shop_story)) by (apply ran; vm_compute; reflexivity).
  split; [split; [exact X |]; split; [unfold shop_story; cbn [In]; auto 20 |]; split; [apply U | vm_compute; reflexivity] |].
  split; [vm_compute; reflexivity |]. split; [vm_compute; reflexivity |]. split; [vm_compute; reflexivity |]. split; [vm_compute; reflexivity |].
  split; [split; [exact X |]; split; [unfold shop_story; cbn [In]; auto 20 |]; split; [apply U | vm_compute; reflexivity] |].
  split; [vm_compute; reflexivity |]. split; vm_compute; reflexivity.
Qed.

(** The user aborts the stream when one of its messages has been passed on and another one has arrived. *)
Definition cut_story : list event :=
  [MChannel; MNew Streaming; MStart 0 0; WRead 0 (bytes_of a_line); MDispatch; WRead 0 (bytes_of other_line); MAbort 0].
Example C101_always_case : let n := after cut_story in
  execution cut_story n /\ task_of n 0 = Streaming
  /\ prefix (reads 0 cut_story) (fst (stream_thread shop_library (procedure_of native_shop (OpenStream "lines")) an_order_bytes))
  /\ results 0 cut_story = [] /\ map (received 100 native_shop 0) (messages 0 (n_log n)) = map (fun r => (r, Ok tt)) [a_line].
Proof.
  cbv zeta. split; [apply ran; vm_compute; reflexivity |]. split; [vm_compute; reflexivity |].
  split; [exists [bytes_of a_line]; vm_compute; reflexivity |]. split; vm_compute; reflexivity.
Qed.

(** A stream with a message that cannot be read, and one that ends with an error. *)
Definition poor_library (bs : list buffer) (last : Z) : library := mkLibrary (fun _ _ => (0%Z, Broken 13)) (fun _ _ => (bs, last)).
Definition poor_story : list event :=
  [MChannel; MNew Streaming; MStart 0 0; WRead 0 (bytes_of a_line); WBad 0 13; WExit 0; MDispatch; MDispatch].
Example C101_failed_case : let n := after poor_story in
  work_done poor_story n 0 /\ task_of n 0 = Streaming
  /\ (forall b, stream_thread (poor_library [in_slices (bytes_of a_line); Broken 13; in_slices []] 0) (procedure_of native_shop b) an_order_bytes
       = (reads 0 poor_story, 13%Z))
  /\ (forall b, stream_thread (poor_library [in_slices (bytes_of a_line)] 13) (procedure_of native_shop b) an_order_bytes = (reads 0 poor_story, 13%Z))
  /\ results 0 poor_story = [(13%Z, [])] /\ ends 0 (n_log n) = [RError 0 0 13]
  /\ native_blocking 100 (poor_library [] 0) native_shop (BlockingCall "first") 1 0 an_order other_line = (Ok (13%Z, [13%Z]), other_line).
Proof.
  cbv zeta. assert (U : forall i o, ~ disturbed i o poor_story).
  { intros i o (a & e & b & E & _ & D). assert (I : In e poor_story) by (rewrite E; apply in_or_app; right; now left).
    unfold poor_story in I. cbn [In] in I. destruct D as [-> | ->]; intuition discriminate. }
  split; [split; [apply ran; vm_compute; reflexivity |]; split; [unfold poor_story; cbn [In]; auto 20 |]; split; [apply U | vm_compute; reflexivity] |].
  repeat (split; [try intro; vm_compute; reflexivity |]). vm_compute. reflexivity.
Qed.

Example C101_name_case : free_of "%" "shop.Shop" /\ rpc_name "shop.Shop" "50%1" = "/shop.Shop/50%1"
  /\ rpc_name "a%1b" "m" = "/amb/%2" /\ digit_value "b" = None.
Proof.
  split; [intro I; cbn in I; repeat (destruct I as [I | I]; [discriminate I |]); destruct I |]. split; [vm_compute; reflexivity |]. split; vm_compute; reflexivity.
Qed.

Print Assumptions C101_name.
Print Assumptions C101_name_refuted.
Print Assumptions C101_blocking_partial.
Print Assumptions C101_reply_partial.
Print Assumptions C101_stream_partial.
Print Assumptions C101_failed.
Print Assumptions C101_stream_failed.

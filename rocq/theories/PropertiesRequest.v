(** C71: requests and credentials. *)

From Coq Require Import ZArith Ascii String List Bool Lia.
From Verif Require Import Base FrameModel FrameSpec FrameProofs PropertiesFrame GenModel GenSpec GenStrings RequestModel.
Import ListNotations.
Open Scope string_scope.

(** Specification: names of headers are compared without case.  [carries]: the request has a header with that name and no
    other value for it. *)
Definition carries (hs : list header) (name value : string) : Prop :=
  (exists n, In (n, value) hs /\ in_small n = in_small name) /\
  (forall n v, In (n, v) hs -> in_small n = in_small name -> v = value).
Definition lacks (hs : list header) (name : string) : Prop := forall n v, In (n, v) hs -> in_small n <> in_small name.

(** Headers that gRPC over HTTP/2 prescribes or allows. *)
Definition protocol_headers : list header :=
  [("content-type", "application/grpc"); ("te", "trailers"); ("grpc-accept-encoding", "identity,deflate,gzip");
   ("accept-encoding", "identity,gzip")].

Lemma same_name_spec a b : same_name a b = true <-> in_small a = in_small b.
Proof. unfold same_name. rewrite String.eqb_eq, !in_small_eq. reflexivity. Qed.
Lemma same_name_false a b : same_name a b = false <-> in_small a <> in_small b.
Proof. rewrite <- same_name_spec. destruct (same_name a b); split; congruence. Qed.

Lemma in_small_empty n : in_small n = "" -> n = "".
Proof. destruct n; [reflexivity | discriminate]. Qed.

Lemma set_other name value hs n v : in_small n <> in_small name ->
  In (n, v) (set_raw_header name value hs) <-> In (n, v) hs.
Proof.
  intro D. unfold set_raw_header. destruct (String.eqb name ""); [reflexivity|].
  assert (F : In (n, v) (filter (fun h : string * string => negb (same_name name (fst h))) hs) <-> In (n, v) hs).
  { rewrite filter_In. cbn. split; [tauto|]. intro H. split; [exact H|]. apply negb_true_iff, same_name_false. congruence. }
  destruct value as [x|]; [|exact F]. rewrite in_app_iff, F. cbn. split; [|auto].
  intros [H|[H|[]]]; [exact H|]. injection H as <- <-. contradiction.
Qed.

Lemma set_same name value hs n v : name <> "" -> in_small n = in_small name -> In (n, v) (set_raw_header name value hs) ->
  n = name /\ value = Some v.
Proof.
  intros Ne E. unfold set_raw_header. apply String.eqb_neq in Ne. rewrite Ne.
  assert (F : ~ In (n, v) (filter (fun h : string * string => negb (same_name name (fst h))) hs)).
  { rewrite filter_In. cbn. intros [_ H]. apply negb_true_iff, same_name_false in H. congruence. }
  destruct value as [x|]; [|contradiction]. rewrite in_app_iff. intros [H|[H|[]]]; [contradiction|]. injection H as <- <-. auto.
Qed.

Lemma set_carries name v hs : name <> "" -> carries (set_raw_header name (Some v) hs) name v.
Proof.
  intro Ne. split.
  - exists name. split; [|reflexivity]. unfold set_raw_header. apply String.eqb_neq in Ne. rewrite Ne. apply in_or_app. right. now left.
  - intros n v' I E. destruct (set_same _ _ _ _ _ Ne E I) as [_ H]. now injection H.
Qed.

Lemma set_lacks name hs : name <> "" -> lacks (set_raw_header name None hs) name.
Proof. intros Ne n v I E. destruct (set_same _ _ _ _ _ Ne E I) as [_ H]. discriminate. Qed.

Lemma set_keeps name value hs other v : in_small other <> in_small name -> carries hs other v -> carries (set_raw_header name value hs) other v.
Proof.
  intros D [(n & I & E) U]. split.
  - exists n. split; [|exact E]. apply set_other; congruence.
  - intros n' v' I' E'. apply set_other in I'; [eauto | congruence].
Qed.

Lemma set_keeps_lack name value hs other : in_small other <> in_small name -> lacks hs other -> lacks (set_raw_header name value hs) other.
Proof. intros D L n v I E. apply set_other in I; [|congruence]. exact (L _ _ I E). Qed.

Notation set_all l hs := (fold_left (fun hs (e : string * option string) => set_raw_header (fst e) (snd e) hs) l hs).

Lemma set_all_keeps l : forall hs other v, (forall e, In e l -> in_small other <> in_small (fst e)) -> carries hs other v -> carries (set_all l hs) other v.
Proof.
  induction l as [|e l IH]; intros hs other v D C; [exact C|]. cbn. apply IH; [intros x I; apply D; now right|]. apply set_keeps; [apply D; now left | exact C].
Qed.
Lemma set_all_keeps_lack l : forall hs other, (forall e, In e l -> in_small other <> in_small (fst e)) -> lacks hs other -> lacks (set_all l hs) other.
Proof.
  induction l as [|e l IH]; intros hs other D C; [exact C|]. cbn. apply IH; [intros x I; apply D; now right|]. apply set_keeps_lack; [apply D; now left | exact C].
Qed.

(** The names of the credentials are different, without regard to case. *)
Definition different_names (l : call_credentials) : Prop := NoDup (map (fun e => in_small (fst e)) l).

Lemma set_all_last l1 e l2 hs : fst e <> "" -> (forall x, In x l2 -> in_small (fst e) <> in_small (fst x)) ->
  match snd e with Some v => carries (set_all (l1 ++ e :: l2)%list hs) (fst e) v | None => lacks (set_all (l1 ++ e :: l2)%list hs) (fst e) end.
Proof.
  intros Ne D. rewrite fold_left_app. cbn [fold_left]. destruct e as [name [v|]]; cbn [fst snd] in *.
  - apply set_all_keeps; [exact D | now apply set_carries].
  - apply set_all_keeps_lack; [exact D | now apply set_lacks].
Qed.

Lemma different_later l1 e l2 : different_names (l1 ++ e :: l2)%list -> forall x, In x l2 -> in_small (fst e) <> in_small (fst x).
Proof.
  unfold different_names. rewrite map_app. cbn. intros N x I E. apply NoDup_remove_2 in N. apply N, in_or_app. right. rewrite E. now apply (in_map (fun e => in_small (fst e))).
Qed.

Lemma new_channel_spec (ssl : Type) (no_ssl : ssl) u c ch : new_channel no_ssl u c = Ok ch ->
  ch_credentials ch = c /\ u_authority (ch_url ch) = u_authority u /\
  u_scheme (ch_url ch) = (if String.eqb (u_scheme u) "" then "http" else u_scheme u).
Proof.
  unfold new_channel. destruct (String.eqb_spec (u_scheme u) "https") as [E|_].
  - destruct (lookup_channel _ _) as [s|]; intro H; [|discriminate]. injection H as <-. cbn. rewrite E. auto.
  - destruct (String.eqb_spec (u_scheme u) ""); intro H; injection H as <-; cbn; auto.
Qed.

(** Every request goes to the server of the channel, to the path of the procedure, and carries the message in the frame
    of gRPC. *)
Theorem C71_address : forall (ssl : Type) (no_ssl : ssl) u c ch method service args, new_channel no_ssl u c = Ok ch ->
  let r := post ch method service args in
  u_authority (rq_url r) = u_authority u /\
  u_scheme (rq_url r) = (if String.eqb (u_scheme u) "" then "http" else u_scheme u) /\
  u_path (rq_url r) = "/" ++ service ++ "/" ++ method /\
  (fits args -> framed 0 args (rq_body r)).
Proof.
  intros ssl no_ssl u c ch method service args H r. destruct (new_channel_spec _ _ _ _ _ H) as (_ & A & S).
  repeat split; [exact A | exact S | apply C32_request_framed].
Qed.

(** Two procedures have different paths, if names of services have no slash. *)
Theorem C71_address_unambiguous : forall (ssl : Type) (ch : channel ssl) method service args method' service' args',
  free_of "/"%char service -> free_of "/"%char service' ->
  u_path (rq_url (post ch method service args)) = u_path (rq_url (post ch method' service' args')) ->
  service = service' /\ method = method'.
Proof.
  intros ssl ch method service args method' service' args' F F' H. cbn in H. injection H as H. revert service' F F' H.
  induction service as [|c s IH]; intros [|c' s'] F F' H; cbn in H.
  - injection H as H. auto.
  - injection H as <- _. exfalso. apply F'. now left.
  - injection H as -> _. exfalso. apply F. now left.
  - injection H as <- H. destruct (IH s') as [-> ->]; auto; intro I; [apply F | apply F']; now right.
Qed.

(** Requests are gRPC requests.
    Missing: credentials with the names of these headers, see below. *)
Theorem C71_protocol_partial : forall (ssl : Type) (ch : channel ssl) method service args name value,
  (forall e, In e (callCredentials (ch_credentials ch)) -> in_small (fst e) <> name) ->
  In (name, value) protocol_headers ->
  carries (rq_headers (post ch method service args)) name value.
Proof.
  intros ssl ch method service args name value D I. unfold post. cbn [rq_headers].
  assert (S : in_small name = name) by (destruct I as [I|[I|[I|[I|[]]]]]; injection I as <- <-; reflexivity).
  apply set_all_keeps; [intros e Ie; rewrite S; intro E; apply (D e Ie); now symmetry|].
  destruct I as [I|[I|[I|[I|[]]]]]; injection I as <- <-;
    repeat first [now apply set_carries | apply set_keeps; [cbn; discriminate|]].
Qed.

(** Every request carries all call credentials of the channel.
    Missing: empty names, names that differ in case only, null values, see below. *)
Theorem C71_credentials_partial : forall (ssl : Type) (no_ssl : ssl) u c ch method service args name value, new_channel no_ssl u c = Ok ch ->
  different_names (callCredentials c) -> name <> "" -> In (name, Some value) (callCredentials c) ->
  carries (rq_headers (post ch method service args)) name value.
Proof.
  intros ssl no_ssl u c ch method service args name value H N Ne I. destruct (new_channel_spec _ _ _ _ _ H) as (E & _ & _).
  unfold post. cbn [rq_headers]. rewrite E. destruct (in_split _ _ I) as (l1 & l2 & Es). rewrite Es in *.
  apply (set_all_last l1 (name, Some value) l2); [exact Ne|]. apply (different_later l1 (name, Some value) l2 N).
Qed.

(** Nothing else is sent as header: not for instance the channel credentials. *)
Theorem C71_nothing_else : forall (ssl : Type) (no_ssl : ssl) u c ch method service args name value, new_channel no_ssl u c = Ok ch ->
  In (name, value) (rq_headers (post ch method service args)) ->
  In (name, value) protocol_headers \/ In (name, Some value) (callCredentials c).
Proof.
  intros ssl no_ssl u c ch method service args name value H. destruct (new_channel_spec _ _ _ _ _ H) as (E & _ & _).
  unfold post. cbn [rq_headers]. rewrite E.
  assert (G : forall n v hs, In (name, value) (set_raw_header n v hs) -> In (name, value) hs \/ (n = name /\ v = Some value)).
  { intros n v hs I. unfold set_raw_header in I. destruct (String.eqb n ""); [now left|].
    destruct v as [v|]; [apply in_app_or in I; destruct I as [I|[I|[]]]; [|right; injection I as -> ->; auto]|];
      apply filter_In in I; left; tauto. }
  assert (A : forall l hs, In (name, value) (set_all l hs) -> In (name, value) hs \/ In (name, Some value) l).
  { induction l as [|[n v] l IH]; intros hs I; [now left|]. cbn in I. destruct (IH _ I) as [J|J]; [|right; now right].
    destruct (G _ _ _ J) as [K|[-> ->]]; [now left | right; now left]. }
  intro I. destruct (A _ _ I) as [J|J]; [left|now right]. vm_compute in J. unfold protocol_headers. destruct J as [J|[J|[J|[J|[]]]]]; rewrite <- J; cbn [In]; auto.
Qed.

(** With user and password, in both orders of the operands and of the table, every request carries both and is a gRPC request. *)
Theorem C71_user_password : forall (ssl : Type) (no_ssl : ssl) u swap user password channel c ch method service args,
  c = combine_call_channel (user_password swap (Some user) (Some password)) channel \/
  c = combine_channel_call channel (user_password swap (Some user) (Some password)) ->
  new_channel no_ssl u c = Ok ch ->
  let hs := rq_headers (post ch method service args) in
  carries hs "user-name" user /\ carries hs "user-password" password /\
  (forall name value, In (name, value) protocol_headers -> carries hs name value).
Proof.
  intros ssl no_ssl u swap user password channel c ch method service args Hc H hs.
  assert (Ec : callCredentials c = user_password swap (Some user) (Some password)) by (destruct Hc as [-> | ->]; reflexivity).
  assert (N : different_names (callCredentials c)).
  { rewrite Ec. unfold different_names. destruct swap; cbn; repeat constructor; cbn; intuition discriminate. }
  destruct (new_channel_spec _ _ _ _ _ H) as (E & _ & _).
  split; [|split].
  - apply (C71_credentials_partial ssl no_ssl u c); auto; [discriminate|]. rewrite Ec. destruct swap; cbn; auto.
  - apply (C71_credentials_partial ssl no_ssl u c); auto; [discriminate|]. rewrite Ec. destruct swap; cbn; auto.
  - intros name value I. apply C71_protocol_partial; [|exact I]. rewrite E, Ec. intros e Ie D.
    assert (X : in_small (fst e) = "user-name" \/ in_small (fst e) = "user-password").
    { destruct swap; destruct Ie as [<-|[<-|[]]]; cbn; auto. }
    destruct I as [I|[I|[I|[I|[]]]]]; injection I as <- <-; rewrite D in X; destruct X; discriminate.
Qed.

(** A https channel uses the SSL configuration of the user for all requests; without one it cannot be made. *)
Theorem C71_https : forall (ssl : Type) (no_ssl : ssl) u c, u_scheme u = "https" ->
  (channelCredentials c = insecure_channel -> new_channel no_ssl u c = Throw InvalidArgument) /\
  (forall s, channelCredentials c = ssl_channel s ->
     exists ch, new_channel no_ssl u c = Ok ch /\ forall method service args, rq_ssl (post ch method service args) = s).
Proof.
  intros ssl no_ssl u c E. unfold new_channel. rewrite E. cbn [String.eqb]. split.
  - intros ->. reflexivity.
  - intros s ->. cbn. eexists. split; reflexivity.
Qed.

(** With another scheme, or without scheme, the SSL configuration is silently ignored: requests are sent in clear text. *)
Theorem C71_clear_text_refuted : forall (ssl : Type) (no_ssl : ssl) u c s, u_scheme u = "" \/ u_scheme u = "http" ->
  channelCredentials c = ssl_channel s ->
  exists ch, new_channel no_ssl u c = Ok ch /\ forall method service args,
    u_scheme (rq_url (post ch method service args)) = "http" /\ rq_ssl (post ch method service args) = no_ssl.
Proof.
  intros ssl no_ssl u c s E _. unfold new_channel. destruct E as [E|E]; rewrite E; cbn [String.eqb]; eexists; (split; [reflexivity|]); cbn; auto.
Qed.

(** The path of the URL given for the channel is lost. *)
Theorem C71_base_path_refuted : forall (ssl : Type) (no_ssl : ssl) u c ch method service args, new_channel no_ssl u c = Ok ch ->
  u_path u <> "" -> u_path (rq_url (post ch method service args)) <> u_path u ++ "/" ++ service ++ "/" ++ method.
Proof.
  intros ssl no_ssl u c ch method service args _ N E. cbn [post rq_url u_path] in E. apply (f_equal String.length) in E.
  rewrite (length_app_s (u_path u)) in E. destruct (u_path u); [now apply N|]. cbn [String.length] in E. lia.
Qed.

(** A credential with the name of a protocol header replaces it. *)
Theorem C71_protocol_refuted : forall (ssl : Type) (no_ssl : ssl) u c ch method service args name value wrong, new_channel no_ssl u c = Ok ch ->
  In (name, value) protocol_headers -> different_names (callCredentials c) -> In (name, Some wrong) (callCredentials c) -> wrong <> value ->
  carries (rq_headers (post ch method service args)) name wrong.
Proof.
  intros ssl no_ssl u c ch method service args name value wrong H I N J _. apply (C71_credentials_partial ssl no_ssl u c); auto.
  destruct I as [I|[I|[I|[I|[]]]]]; injection I as <- <-; discriminate.
Qed.

(** A null value is not sent at all, and removes a protocol header. *)
Theorem C71_null_refuted : forall (ssl : Type) (no_ssl : ssl) u c ch method service args name, new_channel no_ssl u c = Ok ch ->
  different_names (callCredentials c) -> name <> "" -> In (name, None) (callCredentials c) ->
  lacks (rq_headers (post ch method service args)) name.
Proof.
  intros ssl no_ssl u c ch method service args name H N Ne I. destruct (new_channel_spec _ _ _ _ _ H) as (E & _ & _).
  unfold post. cbn [rq_headers]. rewrite E. destruct (in_split _ _ I) as (l1 & l2 & Es). rewrite Es in *.
  apply (set_all_last l1 (name, None) l2); [exact Ne|]. apply (different_later l1 (name, None) l2 N).
Qed.

(** Of two credentials whose names differ in case only, one is lost. *)
Theorem C71_case_refuted : forall (ssl : Type) (no_ssl : ssl) u c ch method service args a b va vb, new_channel no_ssl u c = Ok ch ->
  callCredentials c = [(a, Some va); (b, Some vb)] -> a <> b -> in_small a = in_small b -> va <> vb ->
  carries (rq_headers (post ch method service args)) b vb /\ ~ carries (rq_headers (post ch method service args)) a va.
Proof.
  intros ssl no_ssl u c ch method service args a b va vb H Ec D S V. destruct (new_channel_spec _ _ _ _ _ H) as (E & _ & _).
  assert (Nb : b <> "") by (intros ->; cbn in S; apply in_small_empty in S; contradiction).
  assert (Cb : carries (rq_headers (post ch method service args)) b vb).
  { unfold post. cbn [rq_headers]. rewrite E, Ec. apply (set_all_last [(a, Some va)] (b, Some vb) []); [exact Nb | intros x []]. }
  split; [exact Cb|]. intros [_ U]. destruct Cb as [(n & I & En) _]. apply V. symmetry. apply (U n); [exact I|]. congruence.
Qed.

(** Every request allows the server to compress the response, but the response is never decompressed: what the server compressed is
    taken for the message. *)
Theorem C71_compression_refuted : forall (ssl : Type) (ch : channel ssl) method service args (gzip : list Z -> list Z) response body,
  (forall e, In e (callCredentials (ch_credentials ch)) -> in_small (fst e) <> "grpc-accept-encoding") ->
  framed 1 (gzip response) body -> gzip response <> response ->
  carries (rq_headers (post ch method service args)) "grpc-accept-encoding" "identity,deflate,gzip" /\
  exists data, http2_call 0 [48%Z] body = Ok (0%Z, data) /\ data <> response.
Proof.
  intros ssl ch method service args gzip response body D F Ne. split.
  - apply C71_protocol_partial; [exact D | cbn; auto].
  - exists (gzip response). split; [apply (C35_response_data_partial 1 _ _ F) | exact Ne].
Qed.

Example C71_case :
  let u := mkUrl "" "localhost:50051" "" "" in
  let c := combine_channel_call (ssl_channel 7%nat) (user_password true (Some "tester") (Some "secret")) in
  match new_channel 0%nat u c, new_channel 0%nat (mkUrl "https" "localhost" "" "") c,
        new_channel 0%nat (mkUrl "https" "localhost" "" "") (combine_call_channel insecure_call insecure_channel) with
  | Ok ch, Ok ch', Throw InvalidArgument =>
      let r := post ch "testMethod" "pkg.TestService" [8; 1]%Z in
      rq_url r = mkUrl "http" "localhost:50051" "/pkg.TestService/testMethod" "" /\
      rq_headers r = [("content-type", "application/grpc"); ("grpc-accept-encoding", "identity,deflate,gzip"); ("accept-encoding", "identity,gzip");
                        ("te", "trailers"); ("user-password", "secret"); ("user-name", "tester")] /\
      rq_body r = [0; 0; 0; 0; 2; 8; 1]%Z /\ rq_ssl r = 0%nat /\ rq_ssl (post ch' "m" "s" []) = 7%nat /\
      different_names (callCredentials (ch_credentials ch))
  | _, _, _ => False
  end.
Proof.
  cbn. repeat split; try reflexivity. unfold different_names. cbn. repeat constructor; cbn; intuition discriminate.
Qed.

Example C71_refuted_case :
  let c l := mkCredentials (ssl := nat) l [] in
  let hs l := match new_channel 0%nat (mkUrl "http" "host" "/api" "") (c l) with
              | Ok ch => (u_path (rq_url (post ch "m" "s" [])), rq_headers (post ch "m" "s" []))
              | _ => ("", [])
              end in
  hs [("TE", None); ("Content-Type", Some "text/plain")] =
    ("/s/m", [("grpc-accept-encoding", "identity,deflate,gzip"); ("accept-encoding", "identity,gzip"); ("Content-Type", "text/plain")]) /\
  snd (hs [("Token", Some "a"); ("token", Some "b")]) = (snd (hs []) ++ [("token", "b")])%list /\
  framed 1 [31; 139]%Z [1; 0; 0; 0; 2; 31; 139]%Z /\ http2_call 0 [48%Z] [1; 0; 0; 0; 2; 31; 139]%Z = Ok (0, [31; 139])%Z.
Proof.
  split; [reflexivity|]. split; [reflexivity|]. split; [|reflexivity].
  exists [0; 0; 0; 2]%Z. split; [|reflexivity]. split; [reflexivity|]. split; [|reflexivity]. repeat constructor; lia.
Qed.

Print Assumptions C71_address.
Print Assumptions C71_address_unambiguous.
Print Assumptions C71_protocol_partial.
Print Assumptions C71_credentials_partial.
Print Assumptions C71_nothing_else.
Print Assumptions C71_user_password.
Print Assumptions C71_https.
Print Assumptions C71_clear_text_refuted.
Print Assumptions C71_base_path_refuted.
Print Assumptions C71_protocol_refuted.
Print Assumptions C71_null_refuted.
Print Assumptions C71_case_refuted.
Print Assumptions C71_compression_refuted.

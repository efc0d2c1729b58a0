(** Model of the requests a channel sends and of the credentials given to it.
    src/grpc/qgrpchttp2channel.cpp, qgrpccredentials.h, qgrpcinsecurecredentials.h, qgrpcsslcredentials.h and
    qgrpcuserpasswordcredentials.h. *)

From Coq Require Import ZArith String List Bool.
From Verif Require Import Base FrameModel GenModel.
Import ListNotations.
Open Scope string_scope.

(** QUrl; [u_rest]: query and fragment.  QUrl keeps schemes in small letters. *)
Record url : Type := mkUrl { u_scheme : string; u_authority : string; u_path : string; u_rest : string }.

(** Headers of a QNetworkRequest in the order in which they were set; names are compared without case.  setRawHeader: an empty name
    does nothing, a null value removes the header. *)
Definition header : Type := (string * string)%type.
Definition same_name (a b : string) : bool := String.eqb (tolower a) (tolower b).
Definition set_raw_header (name : string) (value : option string) (hs : list header) : list header :=
  if String.eqb name "" then hs
  else
    let hs' := filter (fun h => negb (same_name name (fst h))) hs in
    match value with Some v => (hs' ++ [(name, v)])%list | None => hs' end.

Section Requests.
  (** QSslConfiguration, and the default constructed one. *)
  Variable ssl : Type.
  Variable no_ssl : ssl.

  (** The two parts of QGrpcCredentials.  Call credentials (QGrpcCallCredentials): names and values as text, QVariant::toString, a null QString is
      None.  Channel credentials: simplified to entries that hold an SSL configuration.  QHash: the lists are in the order of
      iteration, which may be any. *)
  Definition call_credentials : Type := list (string * option string).
  Definition channel_credentials : Type := list (string * ssl).
  Record credentials : Type := mkCredentials { callCredentials : call_credentials; channelCredentials : channel_credentials }.

  (** qgrpcinsecurecredentials.h 41, 55. *)
  Definition insecure_call : call_credentials := [].
  Definition insecure_channel : channel_credentials := [].
  (** qgrpcsslcredentials.h 42-45, qgrpccredentials.cpp 30. *)
  Definition SslConfigCredential : string := "sslConfig".
  Definition ssl_channel (c : ssl) : channel_credentials := [(SslConfigCredential, c)].
  (** qgrpcuserpasswordcredentials.h, with the default field names; [swap]: order of iteration. *)
  Definition user_password (swap : bool) (user password : option string) : call_credentials :=
    let u := ("user-name", user) in
    let p := ("user-password", password) in
    if swap then [p; u] else [u; p].
  (** operator |, qgrpccredentials.h 110-126, both orders of arguments. *)
  Definition combine_call_channel (c : call_credentials) (h : channel_credentials) : credentials := mkCredentials c h.
  Definition combine_channel_call (h : channel_credentials) (c : call_credentials) : credentials := mkCredentials c h.

  Definition lookup_channel (name : string) (l : channel_credentials) : option ssl :=
    option_map snd (find (fun e => String.eqb name (fst e)) l).

  Record channel : Type := mkChannel { ch_url : url; ch_credentials : credentials; ch_ssl : ssl }.

  (** QGrpcHttp2ChannelPrivate, qgrpchttp2channel.cpp 180-193. *)
  Definition new_channel (u : url) (c : credentials) : res channel :=
    if String.eqb (u_scheme u) "https" then
      match lookup_channel SslConfigCredential (channelCredentials c) with
      | None => Throw InvalidArgument
      | Some s => Ok (mkChannel u c s)
      end
    else if String.eqb (u_scheme u) "" then Ok (mkChannel (mkUrl "http" (u_authority u) (u_path u) (u_rest u)) c no_ssl)
    else Ok (mkChannel u c no_ssl).

  (** What is given to the QNetworkAccessManager. *)
  Record request : Type := mkRequest { rq_url : url; rq_headers : list header; rq_ssl : ssl; rq_body : list Z }.

  (** post, qgrpchttp2channel.cpp 115-137.  A later setRawHeader of the same name replaces the header. *)
  Definition post (ch : channel) (method service : string) (args : list Z) : request :=
    let callUrl := mkUrl (u_scheme (ch_url ch)) (u_authority (ch_url ch)) ("/" ++ service ++ "/" ++ method) (u_rest (ch_url ch)) in
    let h0 := set_raw_header "content-type" (Some "application/grpc") [] in
    let h1 := set_raw_header "grpc-accept-encoding" (Some "identity,deflate,gzip") h0 in
    let h2 := set_raw_header "accept-encoding" (Some "identity,gzip") h1 in
    let h3 := set_raw_header "te" (Some "trailers") h2 in
    let h4 := fold_left (fun hs e => set_raw_header (fst e) (snd e) hs) (callCredentials (ch_credentials ch)) h3 in
    mkRequest callUrl h4 (ch_ssl ch) (request_body args).
End Requests.

Arguments mkCredentials {ssl}.
Arguments callCredentials {ssl}.
Arguments channelCredentials {ssl}.
Arguments insecure_channel {ssl}.
Arguments ssl_channel {ssl}.
Arguments combine_call_channel {ssl}.
Arguments combine_channel_call {ssl}.
Arguments lookup_channel {ssl}.
Arguments mkChannel {ssl}.
Arguments ch_url {ssl}.
Arguments ch_credentials {ssl}.
Arguments ch_ssl {ssl}.
Arguments new_channel {ssl}.
Arguments mkRequest {ssl}.
Arguments rq_url {ssl}.
Arguments rq_headers {ssl}.
Arguments rq_ssl {ssl}.
Arguments rq_body {ssl}.
Arguments post {ssl}.

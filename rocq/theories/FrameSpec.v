(** Specification of gRPC message framing over HTTP/2, independent of the model
    (https://github.com/grpc/grpc/blob/master/doc/PROTOCOL-HTTP2.md, "Length-Prefixed-Message"). *)

From Coq Require Import ZArith List.
From Verif Require Import Base.
Import ListNotations.
Open Scope Z_scope.

(** Big-endian number. *)
Definition be_number (bs : list Z) : Z := fold_left (fun n b => 256 * n + b) bs 0.

(** [is_be n v bs]: [bs] is the n-byte big-endian form of [v]. *)
Definition is_be (n : nat) (v : Z) (bs : list Z) : Prop :=
  length bs = n /\ bytes bs /\ be_number bs = v.

(** A framed message: flag byte, length of the message in four bytes, message. *)
Definition framed (flag : Z) (payload bs : list Z) : Prop :=
  exists len, is_be 4 (Zlen payload) len /\ bs = flag :: len ++ payload.

(** The largest message the client can handle: with its header its size is an int. *)
Definition fits (payload : list Z) : Prop := Zlen payload <= INT_MAX - 5.

(** [frames] are the frames of the messages [payloads]. *)
Definition frames_of (payloads frames : list (list Z)) : Prop :=
  Forall2 (fun p f => exists flag, framed flag p f) payloads frames.

(** The stream of [frames] is received in [chunks], none of them empty.  Every chunk ends at a position inside or at the
    end of a frame that is more than five bytes after the start of that frame, or exactly
    five bytes after it if the frame begins with the chunk. *)
Definition well_cut (frames chunks : list (list Z)) : Prop :=
  forall before chunk after, chunks = before ++ chunk :: after ->
  exists done frame todo, frames = done ++ frame :: todo /\
    let start := Zlen (concat done) in
    let chunk_start := Zlen (concat before) in
    let chunk_end := Zlen (concat before) + Zlen chunk in
    chunk <> [] /\ start < chunk_end <= start + Zlen frame /\
    (start + 5 < chunk_end \/ start + 5 = chunk_end /\ start = chunk_start).

(** Four consecutive bytes of the stream could be taken for a length that is negative as an
    int or overflows if five is added. *)
Definition huge_length (stream : list Z) : Prop :=
  exists a w b, stream = a ++ w ++ b /\ length w = 4%nat /\ INT_MAX - 5 < be_number w.

(** How network failures are reported: the status codes of gRPC and the errors of QNetworkReply (Qt 5) that stand
    for them.  Errors in none of these groups are Unknown. *)
Definition reported_as : list (Z * list Z) :=
  [ (14 (* Unavailable *),
      [ 1 (* ConnectionRefused *); 2 (* RemoteHostClosed *); 3 (* HostNotFound *); 5 (* OperationCanceled *);
        8 (* NetworkSessionFailed *); 10 (* TooManyRedirects *); 101 (* ProxyConnectionRefused *);
        102 (* ProxyConnectionClosed *); 103 (* ProxyNotFound *); 403 (* ServiceUnavailable *) ]);
    (4 (* DeadlineExceeded *), [ 4 (* Timeout *); 104 (* ProxyTimeout *) ]);
    (7 (* PermissionDenied *),
      [ 6 (* SslHandshakeFailed *); 11 (* InsecureRedirect *); 201 (* ContentAccessDenied *);
        202 (* ContentOperationNotPermitted *); 204 (* AuthenticationRequired *) ]);
    (16 (* Unauthenticated *), [ 105 (* ProxyAuthenticationRequired *) ]);
    (5 (* NotFound *), [ 203 (* ContentNotFound *) ]);
    (15 (* DataLoss *), [ 205 (* ContentReSend *); 207 (* ContentGone *) ]);
    (3 (* InvalidArgument *), [ 206 (* ContentConflict *) ]);
    (13 (* Internal *), [ 401 (* InternalServerError *) ]);
    (12 (* Unimplemented *), [ 302 (* ProtocolInvalidOperation *); 402 (* OperationNotImplemented *) ]) ].

(** [code] is the status for the network error [err]. *)
Definition network_status (err code : Z) : Prop :=
  (exists errs, In (code, errs) reported_as /\ In err errs)
  \/ (code = 2 (* Unknown *) /\ forall c errs, In (c, errs) reported_as -> ~ In err errs).

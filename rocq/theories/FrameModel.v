(** Model of message framing in src/grpc/qgrpchttp2channel.cpp. *)

From Coq Require Import ZArith List Bool.
From Verif Require Import Base.
Import ListNotations.
Open Scope Z_scope.

(** qToBigEndian(int), as written to memory on a little-endian host. *)
Definition big_endian (n : Z) : list Z :=
  [Z.land (Z.shiftr n 24) 255; Z.land (Z.shiftr n 16) 255; Z.land (Z.shiftr n 8) 255; Z.land n 255].

(** qgrpchttp2channel.cpp 133-135, body of the request: five zero bytes, the last four are
    overwritten with the size. *)
Definition request_body (args : list Z) : list Z := 0 :: big_endian (toS 32 (Zlen args)) ++ args.

(** qFromBigEndian(int) of the four bytes at offset 1. *)
Definition int_at_1 (c : list Z) : Z :=
  match c with
  | _ :: a :: b :: d :: e :: _ =>
      toS 32 (Z.lor (Z.shiftl a 24) (Z.lor (Z.shiftl b 16) (Z.lor (Z.shiftl d 8) e)))
  | _ => 0
  end.

(** qgrpchttp2channel.cpp 195-197 getExpectedDataSize: bytes 1 to 4 are read without looking
    at the size.  QByteArray data is followed by a NUL byte, so this is defined from size 4 on. *)
Definition getExpectedDataSize (c : list Z) : res Z :=
  if Zlen c <? 4 then UB OverRead
  else let v := int_at_1 (c ++ [0]) in
       if INT_MAX <? v + 5 then UB SignedOverflow else Ok (v + 5).

(** QByteArray::mid(5, len): everything from byte 5 on if [len] is negative. *)
Definition mid5 (c : list Z) (len : Z) : list Z :=
  if len <? 0 then skipn 5 c else firstn (Z.to_nat len) (skipn 5 c).

(** QByteArray::remove(0, len): nothing if [len] is not positive. *)
Definition remove0 (c : list Z) (len : Z) : list Z :=
  if len <=? 0 then c else skipn (Z.to_nat len) c.

(** qgrpchttp2channel.cpp 304-313, the loop.  [e]: expectedSize, [c]: container, [fin k]: result of
    networkReply->isFinished() in iteration [k] (handlers are user code and may end the reply).
    Result: the messages passed to the handlers and expectedSize, container and iteration when
    the loop is left.  Not modelled: handlers that destroy the client. *)
Fixpoint deliver (fuel : nat) (fin : nat -> bool) (k : nat) (e : Z) (c : list Z)
  : list (list Z) * res (Z * list Z * nat) :=
  match fuel with
  | O => ([], OutOfFuel)
  | S fuel' =>
      if (e <=? Zlen c) && negb (fin k) then
        let msg := mid5 c (e - 5) in
        let c' := remove0 c e in
        match (if 5 <? Zlen c' then getExpectedDataSize c' else Ok e) with
        | Ok e' => let '(out, r) := deliver fuel' fin (S k) e' c' in (msg :: out, r)
        | Throw x => ([msg], Throw x)
        | UB u => ([msg], UB u)
        | OutOfFuel => ([msg], OutOfFuel)
        end
      else ([], Ok (e, c, k))
  end.

(** Entry of the reply in activeStreamReplies: expectedSize and container. *)
Definition entry : Type := option (Z * list Z).

(** qgrpchttp2channel.cpp 280-318, the slot connected to readyRead; [data]: what readAll() returns.
    Not modelled: containers of more than INT_MAX bytes. *)
Definition ready_read (fuel : nat) (fin : nat -> bool) (en : entry) (data : list Z)
  : list (list Z) * res entry :=
  let go (e : Z) (c : list Z) :=
    let '(out, r) := deliver fuel fin 0 e c in
    (out, '(e', c', k) <- r ;;
          if (Zlen c' <? 5) || fin k then Ok None else Ok (Some (e', c'))) in
  match en with
  | Some (e, c) => go e (c ++ data)
  | None =>
      match getExpectedDataSize data with
      | Ok e => if e =? 0 then ([[]], Ok None) else go e data
      | Throw x => ([], Throw x)
      | UB u => ([], UB u)
      | OutOfFuel => ([], OutOfFuel)
      end
  end.

(** The chunks of a stream one after the other. *)
Fixpoint read_stream (fuel : nat) (fin : nat -> bool) (en : entry) (chunks : list (list Z))
  : list (list Z) * res entry :=
  match chunks with
  | [] => ([], Ok en)
  | d :: chunks' =>
      match ready_read fuel fin en d with
      | (out, Ok en') => let '(out', r) := read_stream fuel fin en' chunks' in (out ++ out', r)
      | (out, r) => (out, r)
      end
  end.

(** ** Unary calls *)

(** QNetworkReply::NetworkError as numbers, qnetworkreply.h of Qt 5; NoError is 0.
    QGrpcStatus::StatusCode as numbers, qgrpcstatus.h.
    qgrpchttp2channel.cpp 56-89. *)
Definition StatusCodeMap : list (Z * Z) :=
  [ (1, 14); (2, 14); (3, 14); (4, 4); (5, 14); (6, 7); (7, 2); (8, 14); (9, 2); (10, 14); (11, 7);
    (99, 2); (101, 14); (102, 14); (103, 14); (104, 4); (105, 16); (199, 2); (201, 7); (202, 7);
    (203, 5); (204, 7); (205, 15); (206, 3); (207, 15); (299, 2); (301, 2); (302, 12); (399, 2);
    (401, 13); (402, 12); (403, 14); (499, 2) ].

(** std::unordered_map::at. *)
Fixpoint map_at (k : Z) (l : list (Z * Z)) : res Z :=
  match l with
  | [] => Throw OutOfRange
  | (a, v) :: l' => if a =? k then Ok v else map_at k l'
  end.

(** QByteArray::toInt in base 10: 0 if the text is not a number or does not fit; white space
    around the number is allowed. *)
Definition is_space (b : Z) : bool := (b =? 32) || ((9 <=? b) && (b <=? 13)).
Fixpoint skip_space (l : list Z) : list Z :=
  match l with b :: l' => if is_space b then skip_space l' else l | [] => [] end.
Fixpoint digits (acc : Z) (l : list Z) : option Z :=
  match l with
  | [] => Some acc
  | b :: l' => if (48 <=? b) && (b <=? 57) then digits (10 * acc + (b - 48)) l' else None
  end.
Definition split_sign (t : list Z) : Z * list Z :=
  match t with
  | b :: ds => if b =? 45 then (-1, ds) else if b =? 43 then (1, ds) else (1, t)
  | [] => (1, [])
  end.
Definition toInt (text : list Z) : Z :=
  let '(sign, ds) := split_sign (rev (skip_space (rev (skip_space text)))) in
  match ds with
  | [] => 0
  | _ => match digits 0 ds with
         | Some n => let v := sign * n in if (v <? - INT_MAX - 1) || (INT_MAX <? v) then 0 else v
         | None => 0
         end
  end.

(** qgrpchttp2channel.cpp 164-179 processReply.  [err]: networkReply->error(); [status]: value of the
    grpc-status header, empty if there is none; [body]: readAll().  Result: status code and
    data. *)
Definition processReply (err : Z) (status body : list Z) : res (Z * list Z) :=
  if negb (err =? 0) then c <- map_at err StatusCodeMap ;; Ok (c, [])
  else let c := toInt status in
       if negb (c =? 0) then Ok (c, []) else Ok (0, skipn 5 body).

(** qgrpchttp2channel.cpp 211-229: the synchronous call waits for the end of the reply and
    returns status and data. *)
Definition http2_call (err : Z) (status body : list Z) : res (Z * list Z) := processReply err status body.

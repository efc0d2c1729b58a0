(** A method of a generated client from the arguments to the result, over the channel that is based on the gRPC library: src/grpc/qgrpcchannel.cpp, with
    the binary serializer.  How the threads are interleaved is in NativeModel; this is what the thread of one work computes, and from
    what. *)

From Coq Require Import ZArith Ascii String List Bool Arith.
From Verif Require Values.
From Verif Require Import Base CallModel MessageModel GenModel GenTypesModel.
Import ListNotations.
Open Scope nat_scope.
Open Scope string_scope.

(** * The name of the procedure *)

(** QString::arg (Qt, not part of the repository): a place is "%", possibly an "L", and one or two digits; all places with the lowest number are
    replaced.  Simplified to the digits of ASCII. *)
Definition digit_value (c : ascii) : option nat :=
  let n := nat_of_ascii c in if Nat.leb 48 n && Nat.leb n 57 then Some (n - 48) else None.

(** What stands behind "%": number, text and rest if it is a place. *)
Definition numbered (s : string) : option (nat * string * string) :=
  match s with
  | String c s' =>
      match digit_value c with
      | Some n =>
          match s' with
          | String d s'' => match digit_value d with Some k => Some (10 * n + k, String c (String d ""), s'') | None => Some (n, String c "", s') end
          | EmptyString => Some (n, String c "", s')
          end
      | None => None
      end
  | EmptyString => None
  end.
Definition place (s : string) : option (nat * string * string) :=
  match s with
  | String c s' => if Ascii.eqb c "L" then option_map (fun '(n, t, r) => (n, String c t, r)) (numbered s') else numbered s
  | EmptyString => None
  end.

Inductive piece : Type := Plain (c : ascii) | Place (n : nat) (text : string).
Fixpoint pieces (fuel : nat) (s : string) : list piece :=
  match fuel, s with
  | S f, String c s' =>
      if Ascii.eqb c "%" then
        match place s' with Some (n, t, rest) => Place n (String c t) :: pieces f rest | None => Plain c :: pieces f s' end
      else Plain c :: pieces f s'
  | _, _ => []
  end.
Definition lowest (ps : list piece) : option nat :=
  fold_right (fun p o => match p, o with Place n _, Some m => Some (Nat.min n m) | Place n _, None => Some n | Plain _, _ => o end) None ps.
Definition filled (n : nat) (x : string) (p : piece) : string :=
  match p with Plain c => String c "" | Place m t => if Nat.eqb m n then x else t end.
Definition arg (format x : string) : string :=
  let ps := pieces (String.length format) format in
  match lowest ps with None => format | Some n => fold_right (fun p s => filled n x p ++ s) "" ps end.

(** qgrpcchannel.cpp 209, 247, 263. *)
Definition rpc_name (service method : string) : string := arg (arg "/%1/%2" service) method.

(** * Buffers *)

Open Scope Z_scope.

(** A grpc::ByteBuffer: the slices that Dump gives, or the code with which it fails. *)
Inductive buffer : Type := Slices (l : list (list Z)) | Broken (code : Z).

(** parseByteBuffer, qgrpcchannel.cpp 59-72: status, and the data behind what was there before. *)
Definition parseByteBuffer (b : buffer) (data : list Z) : Z * list Z :=
  match b with Slices l => (0, fold_left (fun d s => d ++ s)%list l data) | Broken code => (code, data) end.

(** parseQByteArray, 74-79. *)
Definition parseQByteArray (data : list Z) : list (list Z) := [data].

(** * Threads *)

(** What the gRPC library does (not part of the repository): BlockingUnaryCall gives a status and the response; a reader gives what Read
    returns one after the other, and then the status of Finish. *)
Record library : Type := mkLibrary {
  l_call : string -> list (list Z) -> Z * buffer;
  l_stream : string -> list (list Z) -> list buffer * Z }.

(** The thread of a call, 145-174: the members status and response. *)
Definition call_thread (lib : library) (name : string) (data : list Z) : Z * list Z :=
  let '(code, response) := l_call lib name (parseQByteArray data) in
  if code =? 0 then parseByteBuffer response [] else (code, []).

(** The thread of a stream, 81-118: the messages it emits and the member status. *)
Fixpoint reading (bs : list buffer) (last : Z) : list (list Z) * Z :=
  match bs with
  | [] => ([], last)
  | b :: bs' =>
      let '(code, data) := parseByteBuffer b [] in
      if code =? 0 then let '(l, c) := reading bs' last in (data :: l, c) else ([], code)
  end.
Definition stream_thread (lib : library) (name : string) (data : list Z) : list (list Z) * Z :=
  let '(bs, last) := l_stream lib name (parseQByteArray data) in reading bs last.

(** * Methods of a client *)

(** The service that the client is generated for, and the schema that its program runs with (see LinkModel). *)
Record native_client : Type := mkNativeClient { nc_service : service; nc_schema : Values.schema }.

(** qabstractgrpcclient.cpp 75-158 with the name of the service from the constructor, templates.cpp 303. *)
Definition procedure_of (c : native_client) (b : body) : string := rpc_name (service_name (nc_service c)) (passed_name b).

Definition received (fuel : nat) (c : native_client) (k : nat) (data : list Z) : list Values.value * res unit :=
  deserializeMessage fuel false (nc_schema c) k data.

(** A method that blocks, templates.cpp 306-310, qgrpcchannel.cpp 243-257: status, error signals of the client, and the target after the call;
    simplified to targets that are there from beginning to end. *)
Definition native_blocking (fuel : nat) (lib : library) (c : native_client) (b : body) (kin kout : nat) (a target : list Values.value)
  : res (Z * list Z) * list Values.value :=
  let over d := Ok (call_thread lib (procedure_of c b) d) in
  let sent := serializeMessage fuel (nc_schema c) kin a in
  (sync_call (Some over) true false false sent (fun d => snd (received fuel c kout d)),
   match (d <- sent ;; over d) with
   | Ok (code, data) => if code =? 0 then fst (received fuel c kout data) else target
   | _ => target
   end).

(** One that returns a reply, templates.cpp 311-371: the state of the reply when the thread has ended, qgrpcchannel.cpp 207-241. *)
Definition native_reply (fuel : nat) (lib : library) (c : native_client) (b : body) (kin : nat) (a : list Values.value) : res call_state :=
  d <- serializeMessage fuel (nc_schema c) kin a ;;
  let '(code, data) := call_thread lib (procedure_of c b) d in
  Ok (native_step new_call (NativeDone code data)).

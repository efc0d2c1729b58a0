(** What is demanded of the threads of the channel of the gRPC library, said in terms of the events of an execution
    (what the gRPC library has returned in the threads, what the user has done) and of the reports to the user. *)

From Coq Require Import ZArith List Bool Arith.
From Verif Require Import Base NativeModel.
Import ListNotations.
Open Scope Z_scope.

(** The messages that Read has returned for work [i], in order. *)
Definition reads (i : nat) (evs : list event) : list (list Z) :=
  flat_map (fun e => match e with WRead j data => if Nat.eqb j i then [data] else [] | _ => [] end) evs.

(** The status and the response that the gRPC library has returned for work [i]. *)
Definition results (i : nat) (evs : list event) : list (Z * list Z) :=
  flat_map (fun e => match e with
    | WBad j code | WStatus j code => if Nat.eqb j i then [(code, [])] else []
    | WReply j code data => if Nat.eqb j i then [(code, if code =? 0 then data else [])] else []
    | _ => []
    end) evs.

(** The messages of work [i] the handlers of its stream were called with. *)
Definition messages (i : nat) (log : list report) : list (list Z) :=
  flat_map (fun r => match r with RMessage _ j data => if Nat.eqb j i then [data] else [] | _ => [] end) log.

(** The reports of the end of work [i]. *)
Definition ends (i : nat) (log : list report) : list report :=
  filter (fun r => match r with RDone _ j _ | RError _ j _ => Nat.eqb j i | _ => false end) log.

(** How the end is to be reported: a response, or an error.  The regular end of a stream is not reported. *)
Definition outcome (t : task) (o i : nat) (code : Z) (data : list Z) : list report :=
  if code =? 0 then match t with Unary => [RDone o i data] | Streaming => [] end else [RError o i code].

Definition prefix {A : Type} (a b : list A) : Prop := exists c, b = a ++ c.

(** The number of works that have been started. *)
Definition starts (evs : list event) : nat :=
  length (filter (fun e => match e with MStart _ _ => true | _ => false end) evs).

(** The user has aborted or destroyed the reply or stream [o] of work [i] after the start of the work. *)
Definition disturbed (i o : nat) (evs : list event) : Prop :=
  exists evs1 e evs2, evs = evs1 ++ e :: evs2 /\ (i < starts evs1)%nat /\ (e = MAbort o \/ e = MDestroy o).

(** Messages that wait in the queue. *)
Definition queued (i : nat) (q : list posted) : list (list Z) :=
  flat_map (fun p => match p with PData j data => if Nat.eqb j i then [data] else [] | _ => [] end) q.

(** The execution goes on with these steps. *)
Inductive continues : world -> list event -> world -> Prop :=
| CDone : forall n, continues n [] n
| CStep : forall n e n1 evs n2, enabled n e = true -> step n e = Ok n1 -> continues n1 evs n2 -> continues n (e :: evs) n2.

(** Channels are only destroyed when the threads of the calls on them have made their calls. *)
Definition careful (evs : list event) : Prop := forall a ch b n i, evs = a ++ MDropChannel ch :: b -> execution a n ->
  (i < length (n_works n))%nat -> w_channel (work_at n i) = ch -> w_place (work_at n i) <> Begin.

(** Steps of the threads that are waited for, without any further message. *)
Definition only_ending (waited : list nat) (e : event) : Prop :=
  match e with
  | MJoin => True
  | WBegin i | WEnd i | WStatus i _ | WReply i _ _ | WExit i => In i waited
  | _ => False
  end.

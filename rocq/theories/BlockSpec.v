(** What blocking calls promise, in terms of what is observed. *)

From Coq Require Import ZArith List Bool Arith.
From Verif Require Import Base FrameModel BlockModel.
Import ListNotations.
Open Scope Z_scope.

(** Reports about a call. *)
Definition was_called (l : list report) (i : nat) : Prop := exists t c, In (Called i t c) l.
Definition was_sent (l : list report) (i : nat) : Prop := exists c ch, In (Sent i c ch) l.
Definition was_answered (l : list report) (i : nat) : Prop := exists a, In (Answered i a) l.
Definition has_returned (l : list report) (i : nat) : Prop := exists c code data, In (Returned i c code data) l.

(** [x] was reported before [y]. *)
Definition before (x y : report) (l : list report) : Prop := exists l1 l2 l3, l = l1 ++ x :: l2 ++ y :: l3.

(** What the client has told about errors, and the codes that its calls returned. *)
Definition errors (c : nat) (l : list report) : list Z :=
  flat_map (fun r => match r with ClientError d code => if Nat.eqb d c then [code] else [] | _ => [] end) l.
Definition failures (c : nat) (l : list report) : list Z :=
  flat_map (fun r => match r with
                     | Returned _ d code _ => if Nat.eqb d c && negb (code =? 0) then [code] else []
                     | _ => []
                     end) l.

(** A call waits in its event loop, and a call inside of that event loop has no answer yet. *)
Definition overtaken (home : nat -> nat) (s : state) (i : nat) : Prop :=
  exists above below j, s_stacks s (home (k_client (call_at s i))) = above ++ Loop i :: below
    /\ In (Loop j) above /\ k_net (call_at s j) = None.

(** Histories in which no client and no channel in use is destroyed and the timer of no call that has its answer
    fires while calls inside of it still wait. *)
Definition careful_event (home : nat -> nat) (s : state) (e : event) : Prop :=
  match e with
  | Destroy _ _ => False
  | Attach _ _ kept => kept = true
  | Expire i => k_net (call_at s i) = None \/ ~ overtaken home s i
  | _ => True
  end.
(** Histories in which no thread makes a call for a client of its own, or executes one for another thread, while it
    waits for the reply of another. *)
Definition flat_event (home : nat -> nat) (s : state) (e : event) : Prop :=
  match e with
  | Destroy _ _ => False
  | Attach _ _ kept => kept = true
  | Call t c _ => t = home c -> s_stacks s t = []
  | Dispatch t _ => s_stacks s t = []
  | _ => True
  end.
(** The condition holds for each event in the state that it meets. *)
Fixpoint throughout (step : state -> event -> res state) (P : state -> event -> Prop) (s : state) (l : list event) : Prop :=
  match l with
  | [] => True
  | e :: l' => P s e /\ match step s e with Ok s' => throughout step P s' l' | _ => True end
  end.

(** Events with which the library, the network and the timers serve the calls that have been made. *)
Definition service (e : event) : Prop :=
  match e with Dispatch _ _ | Answer _ _ | Expire _ | Exit _ => True | _ => False end.
(** Answers that the channel can process. *)
Definition known (a : answer) : Prop := let '(err, status, body) := a in exists r, processReply err status body = Ok r.
Definition known_event (e : event) : Prop :=
  match e with Call _ _ (Some a) | Dispatch _ (Some a) | Answer _ a => known a | _ => True end.
(** Calls of clients in other threads follow a ranking of the threads. *)
Definition ranked_event (home rank : nat -> nat) (e : event) : Prop :=
  match e with Call t c _ => t <> home c -> (rank (home c) < rank t)%nat | _ => True end.

(** Some call has not returned. *)
Definition pending (s : state) (i : nat) : Prop := (i < length (s_calls s))%nat /\ k_phase (call_at s i) <> Over.

(** The thread in which what is reported after [l] happens. *)
Definition comes_from (home : nat -> nat) (l : list report) (r : report) (t : nat) : Prop :=
  match r with
  | Called _ u _ => u = t
  | Sent _ c _ | ClientError c _ | Returned _ c _ _ => home c = t
  | Answered i _ => exists u c, In (Called i u c) l /\ home c = t
  end.
(** The time that passes in a history. *)
Definition elapsed (l : list event) : Z :=
  fold_right (fun e z => (match e with Tick d => if 0 <=? d then d else 0 | _ => 0 end) + z) 0 l.

(** What replies and streams promise to handlers, slots and other threads, in terms of what is observed. *)

From Coq Require Import ZArith List Bool Arith.
From Verif Require Import Base AsyncModel.
Import ListNotations.
Local Close Scope Z_scope.

(** The data that were set last; at first there are none. *)
Fixpoint latest_from (d : data) (l : list report) : data :=
  match l with [] => d | Sets d' :: l' => latest_from d' l' | _ :: l' => latest_from d l' end.
Definition latest (l : list report) : data := latest_from [] l.

(** Handlers that were added, handlers that were called with their messages, data that were set, messages that were signalled, messages whose slot was called in a thread. *)
Definition added (l : list report) : list nat := flat_map (fun r => match r with Subscribed k => [k] | _ => [] end) l.
Definition called (l : list report) : list (nat * data) := flat_map (fun r => match r with Handled k d => [(k, d)] | _ => [] end) l.
Definition sets (l : list report) : list data := flat_map (fun r => match r with Sets d => [d] | _ => [] end) l.
Definition received (l : list report) : list data := flat_map (fun r => match r with Received d => [d] | _ => [] end) l.
Definition noticed (t : nat) (l : list report) : list data :=
  flat_map (fun r => match r with Noticed u d => if Nat.eqb u t then [d] else [] | _ => [] end) l.

(** No data are set, no handlers are added, no read begins or ends in these reports. *)
Definition nothing_set (l : list report) : Prop := forall d, ~ In (Sets d) l.
Definition nothing_added (l : list report) : Prop := forall k, ~ In (Subscribed k) l.
Definition nothing_read (l : list report) : Prop := forall t d ok, ~ In (ReadBegins t) l /\ ~ In (GotRead t d ok) l.

(** The handlers of a message are being called. *)
Definition handling (home : nat) (s : state) : Prop := exists n last d, In (Handling n last d) (a_stacks s home).
(** Histories in which no handler is added while handlers are called. *)
Definition careful_event (home : nat) (s : state) (e : event) : Prop :=
  match e with Subscribe _ => ~ handling home s | _ => True end.
Fixpoint throughout (step : state -> event -> res state) (P : state -> event -> Prop) (s : state) (l : list event) : Prop :=
  match l with
  | [] => True
  | e :: l' => P s e /\ match step s e with Ok s' => throughout step P s' l' | _ => True end
  end.
(** Messages that can be deserialized. *)
Definition clean_event (decode : data -> bool) (e : event) : Prop := match e with Message d => decode d = true | _ => True end.
(** Events with which library, handlers and slots bring to an end what has begun. *)
Definition service (e : event) : Prop := match e with Return _ | Proceed _ | Serve => True | _ => False end.

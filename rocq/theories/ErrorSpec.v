(** Specification of the error signals of clients for asynchronous calls. *)

From Coq Require Import ZArith List Bool.
From Verif Require Import Base Values CallModel ReplyModel ReplySpec.
Import ListNotations.
Open Scope Z_scope.

(** The status code of a failure to read a message: InvalidArgument, OutOfRange, Internal. *)
Definition failure_code (o : res unit) : list Z :=
  match o with Throw InvalidArgument => [3] | Throw OutOfRange => [11] | Throw _ => [13] | _ => [] end.

(** The code with which a call has failed: that of the first signal of its reply. *)
Definition call_failed (r : reply) : list Z := match c_signals (r_call r) with Error c :: _ => [c] | _ => [] end.

(** The failure to read the object that JavaScript code got (see C68_undecodable_refuted) from the response of a call. *)
Definition unreadable (decode : list Z -> list value * res unit) (w : world) (t : nat * told) : list Z :=
  match snd t, nth_error (w_replies w) (fst t) with
  | (GotObject _ | Stored _ _), Some r => match c_signals (r_call r) with Finished d :: _ => failure_code (snd (decode d)) | _ => [] end
  | _, _ => []
  end.

(** Calls that are started before the client has a channel, other than from JavaScript (see C68_no_channel_refuted). *)
Fixpoint refused (evs : list event) : nat :=
  match evs with
  | [] => 0
  | (Attach _ | ClientGone) :: _ => 0
  | Start (AsHandle | AsCallback _) _ :: evs' => S (refused evs')
  | _ :: evs' => refused evs'
  end.

(** Failures to read a message through a handle to a reply. *)
Definition read_fails (decode : list Z -> list value * res unit) (w : world) (e : event) : list Z :=
  match e with
  | Read i => match nth_error (w_replies w) i with
              | Some r => if Nat.eqb (r_handles r) 0 then [] else failure_code (snd (decode (c_data (r_call r))))
              | None => []
              end
  | _ => []
  end.
Fixpoint reads_failed (decode : list Z -> list value * res unit) (w : world) (evs : list event) : list Z :=
  match evs with
  | [] => []
  | e :: evs' => read_fails decode w e ++ match step decode w e with Ok w' => reads_failed decode w' evs' | _ => [] end
  end.

(** The call [i] ends between two states, with this signal of its reply. *)
Definition ends_with (i : nat) (w w' : world) (s : signal) : Prop :=
  exists r r', nth_error (w_replies w) i = Some r /\ nth_error (w_replies w') i = Some r'
    /\ c_signals (r_call r) = [] /\ c_signals (r_call r') = [s].

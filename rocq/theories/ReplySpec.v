(** Specification of the replies of asynchronous calls. *)

From Coq Require Import ZArith List Bool.
From Verif Require Import Base Values CallModel ReplyModel.
Import ListNotations.
Open Scope Z_scope.

(** What user code has learnt from call [i], oldest first. *)
Definition learnt (i : nat) (w : world) : list told := map snd (filter (fun p => Nat.eqb (fst p) i) (w_told w)).

(** The network events of call [i]. *)
Definition network_event (i : nat) (e : event) : option call_event :=
  match e with
  | Network j err status body => if Nat.eqb j i then Some (NetworkDone err status body) else None
  | Expire j => if Nat.eqb j i then Some Timeout else None
  | Refuse j => if Nat.eqb j i then Some SslErrors else None
  | _ => None
  end.

(** No network event of call [i] is among the events. *)
Definition silent (i : nat) (evs : list event) : Prop := forall e, In e evs -> network_event i e = None.

(** [P] holds in all states of the execution. *)
Fixpoint throughout (decode : list Z -> list value * res unit) (P : world -> Prop) (w : world) (evs : list event) : Prop :=
  P w /\ match evs with
         | [] => True
         | e :: evs' => forall w', step decode w e = Ok w' -> throughout decode P w' evs'
         end.

(** A shared pointer to the channel exists, in the client or in user code. *)
Definition channel_lives (ch : nat) (w : world) : Prop :=
  (w_client w = true /\ w_channel w = Some ch) \/ In ch (w_held w).

Definition client_lives (w : world) : Prop := w_client w = true.
Definition engine_lives (w : world) : Prop := w_engine w = true.
Definition object_lives (x : nat) (w : world) : Prop := ~ In x (w_gone w).

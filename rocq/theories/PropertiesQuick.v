(** Property C40: the QML element GrpcStream. *)

From Coq Require Import ZArith List Bool Arith Lia.
From Verif Require Import Base StreamModel StreamProofs PropertiesStream QuickModel QuickProofs.
Import ListNotations.
Open Scope nat_scope.

(** ** Specification *)

Section Spec.
(** For a method name and an argument: the error the client class has for them, or the remote method. *)
Variable resolve : list Z -> list Z -> Z + list Z.

(** Elements and clients after a history of property changes, stream events and other uses of the clients. *)
Definition quick (evs : list qevent) (w : world) : Prop := qrun resolve new_world evs = Ok w.

(** Client, method and argument are set and enabled is true. *)
Definition all_set (q : item) : Prop :=
  q_client q <> None /\ q_method q <> [] /\ q_arg q <> None /\ q_enabled q = true.

(** The element has an open stream of its client. *)
Definition open (w : world) (i : nat) : Prop :=
  exists k sid, q_stream (w_item w i) = Some (k, sid) /\ active (w_client w k) sid.

(** ... and it was opened for the present values of the properties. *)
Definition open_as_set (w : world) (i : nat) : Prop :=
  exists k sid p arg method, q_stream (w_item w i) = Some (k, sid) /\
    q_client (w_item w i) = Some k /\ q_arg (w_item w i) = Some (p, arg) /\
    resolve (q_method (w_item w i)) arg = inr method /\
    active (w_client w k) sid /\ subscribed (w_client w k) sid method arg.

(** [e] sets a property of element [i] to a value different from the present one; [q'] are the new properties. *)
Definition changes (e : qevent) (i : nat) (q q' : item) : Prop :=
  match e with
  | SetClient j k => j = i /\ k <> q_client q /\
      q' = mkItem k (q_enabled q) (q_method q) (q_arg q) (q_stream q) (q_return q)
  | SetEnabled j b => j = i /\ b <> q_enabled q /\
      q' = mkItem (q_client q) b (q_method q) (q_arg q) (q_stream q) (q_return q)
  | SetMethod j m => j = i /\ m <> q_method q /\
      q' = mkItem (q_client q) (q_enabled q) m (q_arg q) (q_stream q) (q_return q)
  | SetArgument j a => j = i /\ option_map fst a <> option_map fst (q_arg q) /\
      q' = mkItem (q_client q) (q_enabled q) (q_method q) a (q_stream q) (q_return q)
  | _ => False
  end.

(** What a client has done between two states. *)
Definition news (c c' : client) : list output := skipn (length (k_log c)) (k_log c').

End Spec.

(** ** Auxiliary *)

Section Aux.
Variable resolve : list Z -> list Z -> Z + list Z.

Lemma quick_Good evs w : quick resolve evs w -> Good resolve w.
Proof. intro H. eapply Good_run; [apply Good_new | exact H]. Qed.

Lemma in_skipn_add {A} (x : A) : forall n m l, In x (skipn (n + m) l) -> In x (skipn n l).
Proof.
  induction n as [|n IH]; intros m l H; cbn in *.
  - rewrite <- (firstn_skipn m l). apply in_app_iff. now right.
  - destruct l as [|y l]; [contradiction|]. now apply (IH m).
Qed.

Lemma option_eqb_eq a b : option_eqb a b = true <-> a = b.
Proof.
  destruct a, b; cbn; try (split; [discriminate | discriminate]); [|split; reflexivity].
  rewrite Nat.eqb_eq. split; congruence.
Qed.

Lemma changes_step w e i q' : Good resolve w -> changes e i (w_item w i) q' ->
  exists w0, qstep resolve w e = update resolve i w0 /\ before resolve w0 i /\ w_item w0 i = q' /\
    (forall j, j <> i -> w_item w0 j = w_item w j) /\ w_client w0 = w_client w /\ w_slots w0 = w_slots w /\
    (exists o, w_log w0 = w_log w ++ o).
Proof.
  intros G C.
  assert (K : forall q o, q_stream q = q_stream (w_item w i) ->
    let w0 := signal i o (with_item i q w) in
    before resolve w0 i /\ w_item w0 i = q /\ (forall j, j <> i -> w_item w0 j = w_item w j) /\ w_client w0 = w_client w /\
    w_slots w0 = w_slots w /\ exists o', w_log w0 = w_log w ++ o').
  { intros q o Q w0. split; [now apply before_set|]. unfold w0. cbn. rewrite upd_same. split; [reflexivity|].
    split; [intros j N; now apply upd_other|]. repeat split. eexists. reflexivity. }
  destruct e; cbn [changes] in C; try contradiction; destruct C as (<- & N & ->); cbn [qstep].
  - unfold setClient. destruct (option_eqb _ _) eqn:E; [apply option_eqb_eq in E; congruence|]. eexists. split; [reflexivity | now apply K].
  - unfold setEnabled, setEnabled_with. destruct (Bool.eqb _ _) eqn:E; [apply eqb_prop in E; congruence|].
    eexists. split; [reflexivity | now apply K].
  - unfold setMethod. destruct (bytes_eqb _ _) eqn:E; [apply bytes_eqb_eq in E; congruence|]. eexists. split; [reflexivity | now apply K].
  - unfold setArgument. destruct (option_eqb _ _) eqn:E; [apply option_eqb_eq in E; congruence|]. eexists. split; [reflexivity | now apply K].
Qed.

Lemma changes_stream e i q q' : changes e i q q' -> q_stream q' = q_stream q.
Proof. destruct e; cbn; try contradiction; intros (_ & _ & ->); reflexivity. Qed.

Lemma opened_open w i k sid : Good resolve w -> q_stream (w_item w i) = Some (k, sid) ->
  active (w_client w k) sid /\ In (i, (k, sid)) (w_slots w) /\ open_as_set resolve w i /\ all_set (w_item w i).
Proof.
  intros [C I] Q. specialize (I i). unfold item_ok in I. rewrite Q in I.
  destruct I as (A & B & D & p & a & m & F & G & H & M & Ar & L).
  assert (X : active (w_client w k) sid) by (apply active_in; [apply C | exact H]).
  split; [exact X|]. split; [exact L|]. split; [|unfold all_set; rewrite A, F; repeat split; congruence].
  exists k, sid, p, a, m. unfold subscribed. repeat split; auto; apply X.
Qed.

(** Closing: effect of updateStream on an element with a stream. *)
Lemma close_effect w e i q' k sid : Good resolve w -> changes e i (w_item w i) q' -> q_stream (w_item w i) = Some (k, sid) ->
  exists w', qstep resolve w e = Ok w' /\ Good resolve w' /\
    off (w_item w' i) /\ same_props q' (w_item w' i) /\
    news (w_client w k) (w_client w' k) = OFinished sid :: map (fun n => OClose (n_id n)) (filter (of_stream sid) (k_conns (w_client w k))) /\
    (forall k', k' <> k -> news (w_client w k') (w_client w' k') = []) /\
    (forall cid, ~ connected (w_client w' k) cid sid) /\
    (forall j, q_stream (w_item w j) = Some (k, sid) -> off (w_item w' j)).
Proof.
  intros G Ch Q. destruct (changes_step w e i q' G Ch) as (w0 & E & B & I0 & Ot & C0 & S0 & _).
  assert (Q0 : q_stream (w_item w0 i) = Some (k, sid)) by (rewrite I0, (changes_stream _ _ _ _ Ch); exact Q).
  destruct (update_open resolve 1 i w0 k sid B Q0) as (w' & U & G' & S' & Si & P & O & K).
  exists w'. rewrite E. split; [exact U|]. split; [exact G'|].
  assert (Si' : forall k', sim (w_client (with_client k (emit_finished sid (w_client w k)) w) k') (w_client w' k')).
  { intro k'. specialize (Si k'). cbn in *. now rewrite C0 in Si. }
  assert (Sl : In (i, (k, sid)) (w_slots w)) by (destruct (opened_open w i k sid G Q) as (_ & X & _); exact X).
  split; [apply O; now rewrite S0|]. split; [specialize (P i); now rewrite I0 in P|].
  assert (Ck := Si' k). cbn in Ck. rewrite upd_same in Ck.
  split; [|split; [|split]].
  - unfold news. rewrite (S_log _ _ Ck), finished_log, skipn_app, skipn_all, Nat.sub_diag. reflexivity.
  - intros k' N. specialize (Si' k'). cbn in Si'. rewrite upd_other in Si' by exact N. unfold news.
    rewrite (S_log _ _ Si'). apply skipn_all.
  - intros cid X. apply connected_count in X. unfold count_conns in X. rewrite (S_conns _ _ Ck) in X.
    destruct (finished_counts (w_client w k) sid sid) as [F _]. rewrite Nat.eqb_refl in F. unfold count_conns in F. lia.
  - intros j Qj. apply O. rewrite S0. destruct (opened_open w j k sid G Qj) as (_ & X & _). exact X.
Qed.

End Aux.

(** ** C40 *)

(** At any time, an element has an open stream exactly if all its properties are set and it is enabled; and
    that stream is for the present values of the properties. *)
Theorem C40_open_iff_set : forall resolve evs w i, quick resolve evs w ->
  (open w i <-> all_set (w_item w i)) /\ (open w i -> open_as_set resolve w i).
Proof.
  intros resolve evs w i H. apply quick_Good in H as G. split; [split|].
  - intros (k & sid & Q & _). now destruct (opened_open resolve w i k sid G Q) as (_ & _ & _ & X).
  - intro S. destruct (q_stream (w_item w i)) as [[k sid]|] eqn:Q.
    + exists k, sid. split; [exact Q|]. now destruct (opened_open resolve w i k sid G Q) as (X & _).
    + exfalso. destruct G as [_ I]. specialize (I i). unfold item_ok in I. rewrite Q in I. now apply I.
  - intros (k & sid & Q & _). now destruct (opened_open resolve w i k sid G Q) as (_ & _ & X & _).
Qed.

(** A change that makes the set of properties complete opens a stream, if the client has such a method and a
    channel; otherwise an error is reported and the element disables itself. *)
Theorem C40_completing_change : forall resolve evs w e i q' k p arg, quick resolve evs w ->
  ~ open w i -> changes e i (w_item w i) q' -> all_set q' -> q_client q' = Some k -> q_arg q' = Some (p, arg) ->
  exists w', qstep resolve w e = Ok w' /\
    match resolve (q_method q') arg, k_channel (w_client w k) with
    | inr method, Some _ =>
        open w' i /\ open_as_set resolve w' i /\ same_props q' (w_item w' i) /\
        exists sid, q_stream (w_item w' i) = Some (k, sid) /\ In (OReturned sid None) (news (w_client w k) (w_client w' k))
    | _, _ =>
        ~ open w' i /\ q_enabled (w_item w' i) = false /\ same_props q' (w_item w' i) /\
        exists code, In (i, QError code) (skipn (length (w_log w)) (w_log w'))
    end.
Proof.
  intros resolve evs w e i q' k p a H No Ch St Hk Ha. apply quick_Good in H as G.
  assert (Q : q_stream (w_item w i) = None).
  { destruct (q_stream (w_item w i)) as [[k' sid]|] eqn:Q; [|reflexivity]. exfalso. apply No. exists k', sid. split; [exact Q|].
    now destruct (opened_open resolve w i k' sid G Q) as (X & _). }
  destruct (changes_step resolve w e i q' G Ch) as (w0 & E & B & I0 & Ot & C0 & S0 & o & L0).
  rewrite <- I0 in Hk, Ha, St.
  assert (Q0 : q_stream (w_item w0 i) = None) by (rewrite I0, (changes_stream _ _ _ _ Ch); exact Q).
  destruct (update_ready resolve 1 i w0 k p a B Q0 St Hk Ha) as (w' & U & X). rewrite I0, C0 in X.
  exists w'. rewrite E. split; [exact U|].
  assert (Fl : fails resolve i w0 w' -> ~ open w' i /\ q_enabled (w_item w' i) = false /\ same_props q' (w_item w' i) /\
        exists code, In (i, QError code) (skipn (length (w_log w)) (w_log w'))).
  { intros (_ & [O1 O2] & (code & Lc) & P & _). split; [intros (k' & sid & Y & _); congruence|]. split; [exact O2|].
    split; [specialize (P i); now rewrite I0 in P|]. exists code. rewrite L0, app_length in Lc.
    now apply in_skipn_add in Lc. }
  destruct (resolve (q_method q') a) as [c|m]; [now apply Fl|]. destruct (k_channel (w_client w k)); [|now apply Fl].
  destruct X as (G' & En & P & _ & Cc & sid & Qs & Op & R). rewrite C0 in R.
  destruct (opened_open resolve w' i k sid G' Qs) as (A1 & _ & A2 & _).
  split; [exists k, sid; auto|]. split; [exact A2|]. split; [specialize (P i); now rewrite I0 in P|]. eauto.
Qed.

(** Setting enabled to false cancels the stream. *)
Theorem C40_disabling_cancels : forall resolve evs w i k sid, quick resolve evs w -> q_stream (w_item w i) = Some (k, sid) ->
  exists w', qstep resolve w (SetEnabled i false) = Ok w' /\ ~ open w' i /\
    In (OFinished sid) (news (w_client w k) (w_client w' k)) /\ (forall cid, ~ connected (w_client w' k) cid sid).
Proof.
  intros resolve evs w i k sid H Q. apply quick_Good in H as G.
  destruct (opened_open resolve w i k sid G Q) as (_ & _ & _ & St).
  assert (Ch : changes (SetEnabled i false) i (w_item w i) (set_enabled false (w_item w i))).
  { split; [reflexivity|]. split; [|reflexivity]. destruct St as (_ & _ & _ & Y). congruence. }
  destruct (close_effect resolve w (SetEnabled i false) i _ k sid G Ch Q)
    as (w' & E & _ & [O1 _] & _ & N & _ & Cn & _).
  exists w'. split; [exact E|]. split; [intros (k' & s & Y & _); congruence|]. split; [rewrite N; now left | exact Cn].
Qed.

(** But so does a change of client, method or argument: the old stream is cancelled, no new one is opened, and the
    element disables itself; for every element with an open stream and every such change. *)
Theorem C40_change_while_open_refuted : forall resolve evs w e i q' k sid, quick resolve evs w ->
  q_stream (w_item w i) = Some (k, sid) -> changes e i (w_item w i) q' -> (forall b, e <> SetEnabled i b) ->
  exists w', qstep resolve w e = Ok w' /\ In (OFinished sid) (news (w_client w k) (w_client w' k)) /\
    q_enabled (w_item w' i) = false /\ ~ open w' i /\ same_props q' (w_item w' i) /\
    (forall k' x, In x (news (w_client w k') (w_client w' k')) -> ~ opens x /\ (forall s h, x <> OReturned s h)).
Proof.
  intros resolve evs w e i q' k sid H Q Ch _. apply quick_Good in H as G.
  destruct (close_effect resolve w e i q' k sid G Ch Q) as (w' & E & _ & [O1 O2] & P & N & Nk & _ & _).
  exists w'. split; [exact E|]. split; [rewrite N; now left|]. split; [exact O2|]. split; [intros (k' & s & Y & _); congruence|].
  split; [exact P|]. intros k' x Hx. destruct (Nat.eq_dec k' k) as [->|D]; [|rewrite Nk in Hx by exact D; contradiction].
  rewrite N in Hx. destruct Hx as [<-|Hx]; [split; [intros (a & b & c & Y) | intros s h]; discriminate|].
  apply in_map_iff in Hx as (n & <- & _). split; [intros (a & b & c & Y) | intros s h]; discriminate.
Qed.

(** The way that works: set the new value and then enabled again. Missing: a change alone: it closes the stream
    instead of opening the new one (see above). *)
Theorem C40_change_and_enable_partial : forall resolve evs w e i q' k sid k' p arg method, quick resolve evs w ->
  q_stream (w_item w i) = Some (k, sid) -> changes e i (w_item w i) q' -> (forall b, e <> SetEnabled i b) ->
  q_client q' = Some k' -> q_arg q' = Some (p, arg) -> q_method q' <> [] -> resolve (q_method q') arg = inr method ->
  k_channel (w_client w k') <> None ->
  exists w1 w2, qstep resolve w e = Ok w1 /\ qstep resolve w1 (SetEnabled i true) = Ok w2 /\
    open w2 i /\ open_as_set resolve w2 i /\ same_props q' (w_item w2 i).
Proof.
  intros resolve evs w e i q' k sid k' p arg m H Q Ch _ Hk Ha Hm Hr Hc. apply quick_Good in H as G.
  destruct (changes_step resolve w e i q' G Ch) as (w0 & E0 & _).
  destruct (close_effect resolve w e i q' k sid G Ch Q) as (w1 & E & G1 & [O1 O2] & P & N & Nk & _ & _).
  assert (St : forall r, quick resolve evs w -> qstep resolve w e = Ok r -> quick resolve (evs ++ [e]) r).
  { clear. intros r Hq Hs. unfold quick in *. revert Hq. generalize new_world as u. induction evs as [|x evs IH]; intros u Hq; cbn in *.
    - injection Hq as ->. now rewrite Hs.
    - destruct (qstep resolve u x) as [u1| | |]; cbn in *; try discriminate; auto. }
  pose proof (St w1 H E) as H1. destruct P as (P1 & P2 & P3).
  set (q2 := mkItem (q_client (w_item w1 i)) true (q_method (w_item w1 i)) (q_arg (w_item w1 i)) (q_stream (w_item w1 i)) (q_return (w_item w1 i))).
  destruct (C40_completing_change resolve _ w1 (SetEnabled i true) i q2 k' p arg H1) as (w2 & E2 & X).
  - intros (a & b & Y & _). congruence.
  - split; [reflexivity|]. split; [congruence | reflexivity].
  - unfold all_set, q2. cbn. rewrite P1, P2, P3, Hk, Ha. repeat split; congruence.
  - unfold q2. cbn. congruence.
  - unfold q2. cbn. congruence.
  - assert (Hc1 : k_channel (w_client w1 k') <> None).
    { assert (Sc : k_channel (w_client w1 k') = k_channel (w_client w k')); [|congruence].
      destruct (changes_step resolve w e i q' G Ch) as (w0' & E' & B & I0 & Ot & C0 & S0 & _).
      assert (Q0 : q_stream (w_item w0' i) = Some (k, sid)) by (rewrite I0, (changes_stream _ _ _ _ Ch); exact Q).
      destruct (update_open resolve 1 i w0' k sid B Q0) as (w1' & U & _ & _ & Si & _).
      unfold update in E'. rewrite E', U in E. injection E as ->. specialize (Si k'). rewrite (S_channel _ _ Si). cbn. unfold upd.
      destruct (Nat.eqb_spec k' k) as [->|]; rewrite C0; [apply finished_channel | reflexivity]. }
    exists w1, w2. split; [exact E|]. split; [exact E2|].
    change (q_method q2) with (q_method (w_item w1 i)) in X. rewrite P2, Hr in X.
    destruct (k_channel (w_client w1 k')) as [ch|]; [|congruence]. destruct X as (X1 & X2 & X3 & _).
    split; [exact X1|]. split; [exact X2|]. unfold same_props in *. cbn in X3. destruct X3 as (X3 & X4 & X5). repeat split; congruence.
Qed.

(** Elements with equal properties share a stream: a change of one of them closes the stream of the other, whose
    properties nobody has touched, and disables it. *)
Theorem C40_independent_elements_refuted : forall resolve evs w e i j q' s, quick resolve evs w -> i <> j ->
  q_stream (w_item w i) = Some s -> q_stream (w_item w j) = Some s -> changes e i (w_item w i) q' ->
  exists w', qstep resolve w e = Ok w' /\ q_enabled (w_item w j) = true /\ open w j /\
    q_enabled (w_item w' j) = false /\ ~ open w' j.
Proof.
  intros resolve evs w e i j q' [k sid] H D Qi Qj Ch. apply quick_Good in H as G.
  destruct (close_effect resolve w e i q' k sid G Ch Qi) as (w' & E & _ & _ & _ & _ & _ & _ & O).
  destruct (O j Qj) as [O1 O2]. destruct (opened_open resolve w j k sid G Qj) as (A & _ & _ & (_ & _ & _ & En)).
  exists w'. split; [exact E|]. split; [exact En|]. split; [exists k, sid; auto|]. split; [exact O2|].
  intros (a & b & Y & _). congruence.
Qed.

(** When the server ends the stream, the element is disabled. *)
Theorem C40_server_end : forall resolve evs w i k sid cid n w', quick resolve evs w ->
  q_stream (w_item w i) = Some (k, sid) -> In (mkConn cid sid (n, Http2)) (k_conns (w_client w k)) ->
  qstep resolve w (ClientEvent k (End cid Done)) = Ok w' ->
  ~ open w' i /\ q_enabled (w_item w' i) = false /\ same_props (w_item w i) (w_item w' i).
Proof.
  intros resolve evs w i k sid cid n w' H Q Hn E. apply quick_Good in H as G. cbn [qstep] in E.
  destruct (step (w_client w k) (End cid Done)) as [c| | |] eqn:Ec; try discriminate. cbn [bind] in E.
  destruct (deliver_Good resolve k _ _ (client_waiting resolve w k _ c G Ec)) as (w1 & E1 & G1).
  rewrite E1 in E. injection E as ->. apply deliver_frame in E1 as [Si It].
  destruct (opened_open resolve w i k sid G Q) as (Ac & _ & _ & _).
  destruct G as [C I]. destruct (C k) as [Ik ILk].
  assert (F : In (OFinished sid) (k_log c)).
  { cbn [step] in Ec. injection Ec as <-. unfold conn_end. rewrite (conn_unique _ cid _ Ik Hn eq_refl). cbn [n_stream n_channel snd].
    assert (Dl : s_deleted (stream_at (w_client w k) sid) = false).
    { apply (I_alive _ Ik). unfold alive. apply active_in in Ac; [|exact ILk]. apply (I_client _ Ik) in Ac. now rewrite Ac. }
    rewrite Dl, finished_log. apply in_app_iff. right. now left. }
  destruct (It i) as [Y|[[O1 O2] P]].
  - exfalso. cbn in Y. rewrite <- Y in Q. destruct (opened_open resolve w' i k sid G1 Q) as (Ac' & _).
    apply (proj2 Ac'). specialize (Si k). cbn in Si. rewrite upd_same in Si. now rewrite (S_log _ _ Si).
  - split; [intros (a & b & Z & _); congruence|]. split; [exact O2 | exact P].
Qed.

(** Destruction of an element ends its stream. *)
Theorem C40_destruction : forall resolve evs w i k sid, quick resolve evs w -> q_stream (w_item w i) = Some (k, sid) ->
  exists w', qstep resolve w (Destroy i) = Ok w' /\ In (OFinished sid) (k_log (w_client w' k)) /\
    ~ active (w_client w' k) sid /\ forall cid, ~ connected (w_client w' k) cid sid.
Proof.
  intros resolve evs w i k sid H Q. apply quick_Good in H as G. destruct (opened_open resolve w i k sid G Q) as (Ac & Sl & _ & _).
  destruct G as [C I]. destruct (C k) as [Ik ILk]. apply active_in in Ac; [|exact ILk].
  cbn [qstep]. unfold destroy. rewrite Q. unfold update.
  destruct (abort_spec resolve 2 w k sid C (active_below _ Ik sid Ac)) as (w1 & E & C1 & S1 & Si & _ & O & _ & _).
  rewrite E. cbn [bind]. assert (R : reset i w1 = w1) by (unfold reset; now rewrite (proj1 (O i Sl))). rewrite R.
  eexists. split; [reflexivity|]. cbn [w_client]. specialize (Si k). cbn in Si. rewrite upd_same in Si.
  assert (F : In (OFinished sid) (k_log (w_client w1 k))).
  { rewrite (S_log _ _ Si), finished_log. apply in_app_iff. right. now left. }
  split; [exact F|]. split; [intros [_ X]; now apply X|].
  intros cid X. apply connected_count in X. unfold count_conns in X. rewrite (S_conns _ _ Si) in X.
  destruct (finished_counts (w_client w k) sid sid) as [Z _]. rewrite Nat.eqb_refl in Z. unfold count_conns in Z. lia.
Qed.

(** ** A concrete case, and an end of an old stream that makes the element forget its new one *)

Definition ex_resolve (m a : list Z) : Z + list Z := match m with [1%Z] | [2%Z] => inr m | _ => inl 12%Z end.

Definition qfinal (evs : list qevent) : world :=
  match qrun ex_resolve new_world evs with Ok w => w | _ => new_world end.

Definition ex_open (i : nat) : list qevent :=
  [SetClient i (Some 0); SetMethod i [1%Z]; SetArgument i (Some (7, [5%Z])); SetEnabled i true].

Definition ex_quick : list qevent := ClientEvent 0 (Attach true (0, Http2)) :: ex_open 0 ++ ex_open 1.

(** Two elements share stream 0; the hypotheses of all theorems above are met. *)
Example C40_case :
  quick ex_resolve ex_quick (qfinal ex_quick) /\
  map (fun i => q_stream (w_item (qfinal ex_quick) i)) [0; 1; 2] = [Some (0, 0); Some (0, 0); None] /\
  In (mkConn 0 0 (0, Http2)) (k_conns (w_client (qfinal ex_quick) 0)) /\
  changes (SetMethod 0 [2%Z]) 0 (w_item (qfinal ex_quick) 0)
    (mkItem (Some 0) true [2%Z] (Some (7, [5%Z])) (Some (0, 0)) true) /\
  map (fun i => q_stream (w_item (qfinal (ex_quick ++ [SetMethod 0 [2%Z]])) i)) [0; 1] = [None; None] /\
  map (fun i => q_stream (w_item (qfinal (ex_quick ++ [SetMethod 0 [2%Z]; SetEnabled 0 true])) i)) [0; 1] = [Some (0, 1); None] /\
  map (fun i => q_stream (w_item (qfinal (ex_quick ++ [SetMethod 0 [3%Z]; SetEnabled 0 true])) i)) [0; 1] = [None; None] /\
  In (0, QError 12%Z) (w_log (qfinal (ex_quick ++ [SetMethod 0 [3%Z]; SetEnabled 0 true]))).
Proof.
  split; [vm_compute; reflexivity|]. split; [vm_compute; reflexivity|]. split; [vm_compute; auto|].
  split; [split; [reflexivity|split; [vm_compute; discriminate | vm_compute; reflexivity]]|].
  split; [vm_compute; reflexivity|]. split; [vm_compute; reflexivity|]. split; [vm_compute; reflexivity|]. vm_compute. tauto.
Qed.

(** Another user of the client holds stream 0 too and aborts it a second time, after the element has gone on to
    stream 1: the element forgets stream 1 without cancelling it.  It is disabled, and its stream stays active and
    connected, and its messages are still announced by the element. *)
Definition ex_orphan : list qevent :=
  ClientEvent 0 (Attach true (0, Http2)) :: ex_open 0 ++
  [ClientEvent 0 (Subscribe [1%Z] [5%Z] None); SetMethod 0 [2%Z]; SetEnabled 0 true; ClientEvent 0 (AbortStream 0)].

Theorem C40_stale_end_refuted :
  exists evs w w', quick ex_resolve evs w /\ qstep ex_resolve w (ClientEvent 0 (Data 1 [9%Z])) = Ok w' /\
    q_enabled (w_item w 0) = false /\ ~ open w 0 /\
    active (w_client w 0) 1 /\ connected (w_client w 0) 1 1 /\ w_log w' = w_log w ++ [(0, QMessage [9%Z])].
Proof.
  exists ex_orphan, (qfinal ex_orphan), (qfinal (ex_orphan ++ [ClientEvent 0 (Data 1 [9%Z])])).
  split; [vm_compute; reflexivity|]. split; [vm_compute; reflexivity|]. split; [vm_compute; reflexivity|].
  split; [intros (k & sid & X & _); vm_compute in X; discriminate|].
  split; [split; [exists None; vm_compute; tauto | vm_compute; intuition discriminate]|].
  split; [exists (0, Http2); vm_compute; auto|]. vm_compute. reflexivity.
Qed.

Print Assumptions C40_open_iff_set.
Print Assumptions C40_completing_change.
Print Assumptions C40_disabling_cancels.
Print Assumptions C40_change_while_open_refuted.
Print Assumptions C40_change_and_enable_partial.
Print Assumptions C40_independent_elements_refuted.
Print Assumptions C40_server_end.
Print Assumptions C40_destruction.
Print Assumptions C40_stale_end_refuted.

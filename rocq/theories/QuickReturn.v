(** Proofs about the property returnValue of GrpcStream. *)

From Coq Require Import ZArith List Bool Arith Lia.
From Verif Require Import Base StreamModel StreamProofs QuickModel QuickProofs.
Import ListNotations.
Open Scope nat_scope.

Definition has_stream (q : item) : bool := match q_stream q with Some _ => true | None => false end.

(** returnValue is there with the stream, and an element with a stream is enabled. *)
Definition kept (q : item) : Prop := q_return q = has_stream q /\ (has_stream q = true -> q_enabled q = true).

(** The signals of returnValue of an element. *)
Definition is_change (i : nat) (x : nat * qoutput) : bool :=
  match snd x with QReturnValueChanged => Nat.eqb (fst x) i | _ => false end.
Definition told (i : nat) (l : list (nat * qoutput)) : nat := length (filter (is_change i) l).

Lemma told_app : forall i a b, told i (a ++ b) = told i a + told i b.
Proof. intros i a b. unfold told. now rewrite filter_app, app_length. Qed.

(** Between two states: returnValue of i has changed as often as was told. *)
Definition follows (i : nat) (w w' : world) : Prop :=
  exists o, w_log w' = w_log w ++ o /\ q_return (w_item w' i) = xorb (q_return (w_item w i)) (Nat.odd (told i o)).

Lemma follows_same : forall i w w', w_log w' = w_log w -> q_return (w_item w' i) = q_return (w_item w i) -> follows i w w'.
Proof. intros i w w' L Q. exists []. rewrite app_nil_r. split; [exact L |]. rewrite Q. now destruct (q_return (w_item w i)). Qed.

Lemma follows_refl : forall i w, follows i w w.
Proof. intros. now apply follows_same. Qed.

Lemma follows_trans : forall i a b c, follows i a b -> follows i b c -> follows i a c.
Proof.
  intros i a b c (o & L & Q) (o' & L' & Q'). exists (o ++ o'). split; [now rewrite L', L, app_assoc |].
  rewrite Q', Q, told_app, Nat.odd_add. now rewrite xorb_assoc.
Qed.

Lemma follows_log : forall i w w' x, w_log w' = w_log w ++ [x] -> is_change i x = false -> q_return (w_item w' i) = q_return (w_item w i) -> follows i w w'.
Proof.
  intros i w w' x L C Q. exists [x]. split; [exact L |]. unfold told. cbn. rewrite C. cbn. rewrite Q. now destruct (q_return (w_item w i)).
Qed.

Lemma item_upd : forall f k (x : item) j, upd f k x j = if Nat.eqb j k then x else f j.
Proof. reflexivity. Qed.

Lemma follows_reset : forall i j w, follows i w (reset j w).
Proof.
  intros i j w. apply follows_same; [apply reset_log |]. rewrite reset_item. destruct (Nat.eqb_spec i j) as [-> | _]; reflexivity.
Qed.

Lemma follows_clear : forall i j w, follows i w (clear_return j w).
Proof.
  intros i j w. destruct (q_return (w_item w j)) eqn:Q; [| unfold clear_return; rewrite Q; apply follows_refl].
  unfold clear_return. rewrite Q. exists [(j, QReturnValueChanged)]. split; [reflexivity |]. cbn. rewrite item_upd.
  unfold told, is_change. cbn. destruct (Nat.eqb_spec i j) as [-> | N].
  - rewrite Nat.eqb_refl. cbn. now rewrite Q.
  - destruct (Nat.eqb_spec j i) as [E | _]; [now destruct N |]. cbn. now destruct (q_return (w_item w i)).
Qed.

Section Resolve.
Variable resolve : list Z -> list Z -> Z + list Z.
Local Notation updateStream := (updateStream resolve).
Local Notation update := (update resolve).

(** ** Opening *)

Lemma stream_of_item : forall i k arg w b w', stream_of resolve i k arg w = (b, w') ->
  (forall j, j <> i -> w_item w' j = w_item w j)
  /\ (b = true -> q_return (w_item w' i) = true /\ has_stream (w_item w' i) = true /\ q_enabled (w_item w' i) = q_enabled (w_item w i))
  /\ (b = false -> q_stream (w_item w' i) = q_stream (w_item w i) /\ q_enabled (w_item w' i) = q_enabled (w_item w i)).
Proof.
  intros i k arg w b w' H. unfold stream_of in H. destruct (resolve _ arg) as [code | method].
  - injection H as <- <-. split; [reflexivity |]. split; [discriminate | split; reflexivity].
  - cbn [with_item signal w_client] in H. destruct (k_channel (w_client w k)) as [ch |]; injection H as <- <-; cbn.
    + split; [intros j N; rewrite !item_upd; now destruct (Nat.eqb_spec j i) |]. split; [| discriminate]. intros _. rewrite !item_upd, Nat.eqb_refl.
      cbn. auto.
    + split; [intros j N; rewrite !item_upd; now destruct (Nat.eqb_spec j i) |]. split; [discriminate |]. intros _. rewrite !item_upd, Nat.eqb_refl. cbn. auto.
Qed.

Lemma stream_of_follows : forall x i k arg w b w', stream_of resolve i k arg w = (b, w') -> q_return (w_item w i) = false -> follows x w w'.
Proof.
  intros x i k arg w b w' H R. unfold stream_of in H. destruct (resolve _ arg) as [code | method].
  - injection H as <- <-. eapply follows_log; reflexivity.
  - assert (S1 : forall w1, w1 = signal i QReturnValueChanged (with_item i (set_return true (w_item w i)) w) -> follows x w w1).
    { intros w1 ->. exists [(i, QReturnValueChanged)]. split; [reflexivity |]. cbn. rewrite item_upd. unfold told, is_change. cbn.
      destruct (Nat.eqb_spec x i) as [-> | N]; [rewrite Nat.eqb_refl; cbn; now rewrite R |].
      destruct (Nat.eqb_spec i x) as [E | _]; [now destruct N |]. cbn. now destruct (q_return (w_item w x)). }
    cbn [with_item signal w_client] in H.
    apply (follows_trans x w _ w' (S1 _ eq_refl)). destruct (k_channel (w_client w k)) as [ch |]; injection H as <- <-.
    + apply follows_same; [reflexivity |]. cbn. rewrite !item_upd. destruct (Nat.eqb_spec x i) as [-> | N]; [| reflexivity].
      now rewrite Nat.eqb_refl.
    + eapply follows_log; reflexivity.
Qed.

(** ** updateStream *)

Definition keeps (f : nat -> world -> res world) : Prop :=
  forall i w w', f i w = Ok w' -> (forall j, j <> i -> kept (w_item w j) -> kept (w_item w' j)) /\ kept (w_item w' i).
Definition keeps_all (f : nat -> world -> res world) : Prop :=
  forall i w w', f i w = Ok w' -> forall j, kept (w_item w j) -> kept (w_item w' j).
Definition tells (f : nat -> world -> res world) : Prop := forall i w w', f i w = Ok w' -> forall x, follows x w w'.

Lemma finished_keeps : forall f, keeps f -> keeps_all (finished_slot f).
Proof.
  intros f K i w w' H j J. unfold finished_slot, setEnabled_with in H. rewrite reset_item, Nat.eqb_refl in H. cbn [set_stream q_enabled] in H.
  destruct (Bool.eqb (q_enabled (w_item w i)) false) eqn:E.
  - injection H as <-. rewrite reset_item. destruct (Nat.eqb_spec j i) as [-> | _]; [| exact J].
    destruct J as [R S]. apply Bool.eqb_prop in E. destruct (has_stream (w_item w i)) eqn:Hs; [rewrite S in E by reflexivity; discriminate E |].
    split; [cbn; exact R | discriminate].
  - destruct (K _ _ _ H) as [K1 K2]. destruct (Nat.eq_dec j i) as [-> | N]; [exact K2 |]. apply K1; [exact N |]. cbn.
    rewrite item_upd, reset_item. destruct (Nat.eqb_spec j i); [contradiction | exact J].
Qed.

Lemma finished_tells : forall f, tells f -> tells (finished_slot f).
Proof.
  intros f T i w w' H x. unfold finished_slot, setEnabled_with in H.
  apply (follows_trans x w (reset i w)); [apply follows_reset |]. destruct (Bool.eqb _ false).
  - injection H as <-. apply follows_refl.
  - refine (follows_trans x _ _ w' _ (T _ _ _ H x)). eapply follows_log; [reflexivity | reflexivity |]. cbn. rewrite item_upd.
    destruct (Nat.eqb_spec x i) as [-> | _]; reflexivity.
Qed.

Lemma each_keeps : forall f, keeps_all f -> forall l w w', each f l w = Ok w' -> forall j, kept (w_item w j) -> kept (w_item w' j).
Proof.
  intros f K. induction l as [| i l IH]; intros w w' H j J; [injection H as <-; exact J |]. cbn [each] in H.
  destruct (f i w) as [w1 | | |] eqn:F; try discriminate H. cbn in H. exact (IH w1 w' H j (K i w w1 F j J)).
Qed.

Lemma each_tells : forall f, tells f -> forall l w w', each f l w = Ok w' -> forall x, follows x w w'.
Proof.
  intros f T. induction l as [| i l IH]; intros w w' H x; [injection H as <-; apply follows_refl |]. cbn [each] in H.
  destruct (f i w) as [w1 | | |] eqn:F; try discriminate H. cbn in H. exact (follows_trans x w w1 w' (T i w w1 F x) (IH w1 w' H x)).
Qed.

Lemma follows_client : forall x k c w, follows x w (with_client k c w).
Proof. intros. apply follows_same; reflexivity. Qed.

Lemma update_keeps : forall n, keeps (updateStream n) /\ tells (updateStream n).
Proof.
  induction n as [| n (IK & IT)]; [split; intros i w w' H; discriminate H |].
  pose proof (finished_keeps _ IK) as FK. pose proof (finished_tells _ IT) as FT.
  assert (M : forall i w w', updateStream (S n) i w = Ok w' ->
    ((forall j, j <> i -> kept (w_item w j) -> kept (w_item w' j)) /\ kept (w_item w' i)) /\ forall x, follows x w w').
  { intros i w w' H. rewrite update_S in H.
    set (first := match q_stream (w_item w i) with
                  | None => Ok w
                  | Some (k, sid) => w1 <- abort_stream (updateStream n) k sid w ;; Ok (reset i w1)
                  end) in H.
    assert (F1 : forall w1, first = Ok w1 -> (forall j, j <> i -> kept (w_item w j) -> kept (w_item w1 j)) /\ q_stream (w_item w1 i) = None
        /\ forall x, follows x w w1).
    { intros w1 E. unfold first in E. destruct (q_stream (w_item w i)) as [[k sid] |] eqn:Q.
      - unfold abort_stream in E. destruct (each _ _ _) as [w0 | | |] eqn:Ea in E; try discriminate E. cbn in E. injection E as <-.
        split; [| split].
        + intros j N J. rewrite reset_item. destruct (Nat.eqb_spec j i); [contradiction |]. exact (each_keeps _ FK _ _ _ Ea j J).
        + now rewrite reset_item, Nat.eqb_refl.
        + intro x. refine (follows_trans x w _ _ (follows_client x k _ w) _).
          refine (follows_trans x _ _ _ (each_tells _ FT _ _ _ Ea x) _). apply follows_reset.
      - injection E as <-. split; [auto |]. split; [exact Q | intro x; apply follows_refl]. }
    destruct first as [w1 | | |]; try discriminate H. destruct (F1 w1 eq_refl) as (J1 & Q1 & T1). clear F1. cbn [bind] in H.
    set (w2 := clear_return i w1) in *.
    assert (J2 : forall j, j <> i -> kept (w_item w j) -> kept (w_item w2 j)).
    { intros j N J. unfold w2. rewrite clear_item. destruct (Nat.eqb_spec j i); [contradiction | now apply J1]. }
    assert (Q2 : w_item w2 i = set_return false (w_item w1 i)) by (unfold w2; now rewrite clear_item, Nat.eqb_refl).
    assert (K2 : kept (w_item w2 i)).
    { rewrite Q2. unfold kept, has_stream. cbn. rewrite Q1. split; [reflexivity | discriminate]. }
    assert (T2 : forall x, follows x w w2) by (intro x; exact (follows_trans x _ _ _ (T1 x) (follows_clear x i w1))).
    clearbody w2. cbv zeta in H.
    destruct (q_client (w_item w2 i)) as [k |]; [| injection H as <-; auto].
    destruct (q_arg (w_item w2 i)) as [[p arg] |]; [| injection H as <-; auto].
    destruct (_ || negb (q_enabled (w_item w2 i))) eqn:En; [injection H as <-; auto |]. apply orb_false_elim in En. destruct En as [_ En].
    apply negb_false_iff in En.
    assert (R2 : q_return (w_item w2 i) = false) by (rewrite Q2; reflexivity).
    destruct (stream_of resolve i k arg w2) as [[] w3] eqn:So; pose proof (stream_of_item _ _ _ _ _ _ So) as (I1 & I2 & I3).
    - injection H as <-. destruct (I2 eq_refl) as (I4 & I5 & I6). split; [split |].
      + intros j N J. rewrite I1 by exact N. now apply J2.
      + split; [now rewrite I4, I5 | intros _; now rewrite I6].
      + intro x. exact (follows_trans x _ _ _ (T2 x) (stream_of_follows x _ _ _ _ _ _ So R2)).
    - unfold setEnabled_with in H. destruct (I3 eq_refl) as (I4 & I5). rewrite I5, En in H. cbn [Bool.eqb] in H.
      destruct (IK _ _ _ H) as [K3 K4]. split; [split; [| exact K4] |].
      + intros j N J. apply K3; [exact N |]. cbn. rewrite item_upd. destruct (Nat.eqb_spec j i); [contradiction |]. rewrite I1 by exact N. now apply J2.
      + intro x. refine (follows_trans x _ _ _ (T2 x) _). refine (follows_trans x _ _ _ (stream_of_follows x _ _ _ _ _ _ So R2) _).
        refine (follows_trans x _ _ _ _ (IT _ _ _ H x)). eapply follows_log; [reflexivity | reflexivity |]. cbn. rewrite item_upd.
        destruct (Nat.eqb_spec x i) as [-> | _]; reflexivity. }
  split; intros i w w' H; apply (M i w w' H).
Qed.

Definition is_destroy (x : nat) (e : qevent) : Prop := e = Destroy x.

Lemma signal_tells : forall o, o <> QReturnValueChanged -> tells (fun i w => Ok (signal i o w)).
Proof.
  intros o N i w w' H x. injection H as <-. eapply follows_log; [reflexivity | | reflexivity]. unfold is_change. cbn. now destruct o.
Qed.

Lemma deliver_keeps : forall k o w w', deliver resolve k o w = Ok w' ->
  (forall j, kept (w_item w j) -> kept (w_item w' j)) /\ forall x, follows x w w'.
Proof.
  intros k. destruct (update_keeps 3) as [UK UT]. pose proof (finished_keeps _ UK) as FK. pose proof (finished_tells _ UT) as FT.
  induction o as [| a o IH]; intros w w' H; [injection H as <-; split; [auto | intro; apply follows_refl] |].
  assert (S : forall f l, keeps_all f -> tells f -> (w1 <- each f l w ;; deliver resolve k o w1) = Ok w' ->
    (forall j, kept (w_item w j) -> kept (w_item w' j)) /\ forall x, follows x w w').
  { intros f l Kf Tf E. destruct (each f l w) as [w1 | | |] eqn:Ea; try discriminate E. cbn in E. destruct (IH w1 w' E) as [A B]. split.
    - intros j J. apply A. exact (each_keeps f Kf l w w1 Ea j J).
    - intro x. exact (follows_trans x _ _ _ (each_tells f Tf l w w1 Ea x) (B x)). }
  assert (Sk : forall c, keeps_all (fun i w => Ok (signal i c w))) by (intros c i u u' E j J; injection E as <-; exact J).
  destruct a; cbn [deliver] in H; try (now apply IH); revert H; apply S; try apply Sk; try (apply signal_tells; discriminate); assumption.
Qed.

Lemma qstep_keeps : forall w e w', qstep resolve w e = Ok w' ->
  (forall j, kept (w_item w j)) -> (forall j, kept (w_item w' j)) /\ forall x, e <> Destroy x -> follows x w w'.
Proof.
  intros w e w' H J. destruct (update_keeps 3) as [UK UT]. pose proof (finished_keeps _ UK) as FK. pose proof (finished_tells _ UT) as FT.
  assert (Set_ : forall i q' o, o <> QReturnValueChanged -> q_return q' = q_return (w_item w i) ->
     update i (signal i o (with_item i q' w)) = Ok w' -> (forall j, kept (w_item w' j)) /\ forall x, e <> Destroy x -> follows x w w').
  { intros i q' o No R E. destruct (UK _ _ _ E) as [A B]. split.
    - intro j. destruct (Nat.eq_dec j i) as [-> | N]; [exact B |]. apply A; [exact N |]. cbn. rewrite item_upd.
      destruct (Nat.eqb_spec j i); [contradiction | apply J].
    - intros x _. refine (follows_trans x _ _ _ _ (UT _ _ _ E x)). eapply follows_log; [reflexivity | | ].
      + unfold is_change. cbn. now destruct o.
      + cbn. rewrite item_upd. destruct (Nat.eqb_spec x i) as [-> | _]; [exact R | reflexivity]. }
  destruct e as [i k | i b | i m | i a | i | k e]; cbn [qstep] in H.
  - unfold setClient in H. destruct (option_eqb _ k); [injection H as <-; split; [exact J | intros; apply follows_refl] |].
    revert H. apply Set_; [discriminate | reflexivity].
  - unfold setEnabled, setEnabled_with in H. destruct (Bool.eqb _ b); [injection H as <-; split; [exact J | intros; apply follows_refl] |].
    revert H. apply Set_; [discriminate | reflexivity].
  - unfold setMethod in H. destruct (bytes_eqb _ m); [injection H as <-; split; [exact J | intros; apply follows_refl] |].
    revert H. apply Set_; [discriminate | reflexivity].
  - unfold setArgument in H. destruct (option_eqb _ _); [injection H as <-; split; [exact J | intros; apply follows_refl] |].
    revert H. apply Set_; [discriminate | reflexivity].
  - unfold destroy in H. set (first := match q_stream (w_item w i) with None => Ok w | Some (k, sid) => _ end) in H.
    assert (F1 : forall w1, first = Ok w1 -> (forall j, j <> i -> kept (w_item w1 j)) /\ forall x, follows x w w1).
    { intros w1 E. unfold first in E. destruct (q_stream (w_item w i)) as [[k sid] |] eqn:Q; [| injection E as <-; split; [auto | intro; apply follows_refl]].
      unfold abort_stream in E. destruct (each _ _ _) as [w0 | | |] eqn:Ea in E; try discriminate E. cbn in E. injection E as <-. split.
      - intros j N. rewrite reset_item. destruct (Nat.eqb_spec j i); [contradiction |]. exact (each_keeps _ FK _ _ _ Ea j (J j)).
      - intro x. refine (follows_trans x w _ _ (follows_client x k _ w) _).
        refine (follows_trans x _ _ _ (each_tells _ FT _ _ _ Ea x) _). apply follows_reset. }
    destruct first as [w1 | | |]; try discriminate H. destruct (F1 w1 eq_refl) as [J1 T1]. cbn in H. injection H as <-. split.
    + intro j. cbn. rewrite item_upd. destruct (Nat.eqb_spec j i) as [_ | N]; [split; [reflexivity | discriminate] | now apply J1].
    + intros x N. refine (follows_trans x _ _ _ (T1 x) _). apply follows_same; [reflexivity |]. cbn. rewrite item_upd.
      destruct (Nat.eqb_spec x i) as [-> | _]; [now destruct N | reflexivity].
  - destruct (step (w_client w k) e) as [c | | |]; try discriminate H. cbn [bind] in H. destruct (deliver_keeps _ _ _ _ H) as [A B]. split.
    + intro j. apply A. apply J.
    + intros x _. refine (follows_trans x _ _ _ (follows_client x k c w) (B x)).
Qed.

Lemma qrun_keeps : forall evs w w', qrun resolve w evs = Ok w' -> (forall j, kept (w_item w j)) ->
  (forall j, kept (w_item w' j)) /\ forall x, (forall e, In e evs -> e <> Destroy x) -> follows x w w'.
Proof.
  induction evs as [| e evs IH]; intros w w' H J; [injection H as <-; split; [exact J | intros; apply follows_refl] |].
  cbn [qrun] in H. destruct (qstep resolve w e) as [w1 | | |] eqn:E; try discriminate H.
  - cbn in H. destruct (qstep_keeps _ _ _ E J) as [J1 T1]. destruct (IH _ _ H J1) as [J2 T2]. split; [exact J2 |].
    intros x N. refine (follows_trans x _ _ _ (T1 x _) (T2 x _)); [apply N; now left | intros e' I; apply N; now right].
  - destruct (IH _ _ H J) as [J2 T2]. split; [exact J2 |]. intros x N. apply T2. intros e' I. apply N. now right.
Qed.

Lemma new_kept : forall j, kept (w_item new_world j).
Proof. intro j. split; [reflexivity | discriminate]. Qed.

End Resolve.

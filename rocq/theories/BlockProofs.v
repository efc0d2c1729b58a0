(** Invariants of the model of blocking calls. *)

From Coq Require Import ZArith List Bool Arith Lia Sorted.
From Verif Require Import Base FrameModel BlockModel BlockSpec.
Import ListNotations.
Open Scope Z_scope.
Local Close Scope Z_scope.

Lemma put_same {A} (f : nat -> A) k v : put f k v k = v.
Proof. unfold put. now rewrite Nat.eqb_refl. Qed.
Lemma put_other {A} (f : nat -> A) k v n : n <> k -> put f k v n = f n.
Proof. unfold put. intros H. apply Nat.eqb_neq in H. now rewrite H. Qed.
Lemma set_nth_length {A} i (x : A) l : length (set_nth i x l) = length l.
Proof. revert i. induction l as [|y l IH]; intros [|i]; cbn; auto. Qed.
Lemma set_nth_same {A} i (x d : A) l : i < length l -> nth i (set_nth i x l) d = x.
Proof. revert i. induction l as [|y l IH]; intros [|i] H; cbn in *; auto; try lia. apply IH. lia. Qed.
Lemma set_nth_other {A} i j (x d : A) l : j <> i -> nth j (set_nth i x l) d = nth j l d.
Proof. revert i j. induction l as [|y l IH]; intros [|i] [|j] H; cbn in *; auto; try lia. Qed.

Lemma pending_bound s i : k_phase (call_at s i) <> Over -> i < length (s_calls s).
Proof.
  intros H. destruct (Nat.lt_ge_cases i (length (s_calls s))) as [L|L]; auto.
  exfalso. apply H. unfold call_at. now rewrite nth_overflow.
Qed.

Lemma call_at_set s i k j : i < length (s_calls s) -> call_at (with_call i k s) j = if Nat.eqb j i then k else call_at s j.
Proof.
  intros L. unfold call_at, with_call, with_calls. cbn [s_calls]. destruct (Nat.eqb_spec j i) as [->|N].
  - now apply set_nth_same.
  - now apply set_nth_other.
Qed.

(** ** Orders in the log *)

Lemma before_snoc x y l r : before x y (l ++ [r]) <-> before x y l \/ (In x l /\ y = r).
Proof.
  unfold before. split.
  - intros (l1 & l2 & l3 & E). destruct (rev l3) as [|z l3'] eqn:R.
    + apply (f_equal (@rev report)) in R. rewrite rev_involutive in R. cbn in R. subst l3.
      right. replace (l1 ++ x :: l2 ++ [y]) with ((l1 ++ x :: l2) ++ [y]) in E by now rewrite <- app_assoc.
      apply app_inj_tail in E. destruct E as [-> ->]. split; auto. apply in_or_app. right. now left.
    + apply (f_equal (@rev report)) in R. rewrite rev_involutive in R. cbn in R. subst l3.
      left. exists l1, l2, (rev l3').
      replace (l1 ++ x :: l2 ++ y :: rev l3' ++ [z]) with ((l1 ++ x :: l2 ++ y :: rev l3') ++ [z]) in E
        by (rewrite <- app_assoc; cbn; now rewrite <- app_assoc).
      apply app_inj_tail in E. tauto.
  - intros [(l1 & l2 & l3 & ->) | [I ->]].
    + exists l1, l2, (l3 ++ [r]). rewrite <- app_assoc. cbn. now rewrite <- app_assoc.
    + apply in_split in I. destruct I as (l1 & l2 & ->). exists l1, l2, []. now rewrite <- app_assoc.
Qed.
Lemma before_in x y l : before x y l -> In x l /\ In y l.
Proof.
  intros (l1 & l2 & l3 & ->). split; apply in_or_app; right; [now left|]. right. apply in_or_app. right. now left.
Qed.

Definition always (P : list report -> report -> Prop) (l : list report) : Prop := forall l1 r l2, l = l1 ++ r :: l2 -> P l1 r.
Lemma always_nil P : always P [].
Proof. intros l1 r l2 E. now destruct l1. Qed.
Lemma always_snoc P l r : always P l -> P l r -> always P (l ++ [r]).
Proof.
  intros A H l1 r' l2 E. destruct (rev l2) as [|z l2'] eqn:R.
  - apply (f_equal (@rev report)) in R. rewrite rev_involutive in R. cbn in R. subst l2.
    apply app_inj_tail in E. destruct E as [-> ->]. exact H.
  - apply (f_equal (@rev report)) in R. rewrite rev_involutive in R. cbn in R. subst l2.
    replace (l1 ++ r' :: rev l2' ++ [z]) with ((l1 ++ r' :: rev l2') ++ [z]) in E by now rewrite <- app_assoc.
    apply app_inj_tail in E. destruct E as [-> _]. now apply (A l1 r' (rev l2')).
Qed.
Lemma always_weaken (P Q : list report -> report -> Prop) l : (forall a r, P a r -> Q a r) -> always P l -> always Q l.
Proof. intros H A l1 r l2 E. now apply H, (A l1 r l2). Qed.

(** If reports of a kind come at most once, their order is strict. *)
Lemma before_asym P x y l :
  always P l -> (forall l1, P l1 x -> ~ In x l1) -> (forall l1, P l1 y -> ~ In y l1) -> before x y l -> before y x l -> False.
Proof.
  intros A Ux Uy (l1 & l2 & l3 & E1) (m1 & m2 & m3 & E2).
  assert (U : forall z a b a' b', (forall c, P c z -> ~ In z c) -> l = a ++ z :: b -> l = a' ++ z :: b' -> length a = length a').
  { intros z a b a' b' Uz Ea Eb.
    assert (H : forall a b a' b', l = a ++ z :: b -> l = a' ++ z :: b' -> length a < length a' -> False).
    { clear - A Uz. intros a b a' b' Ea Eb L. apply (Uz a').
      - now apply (A a' z b').
      - assert (T : firstn (length a') l = a') by (rewrite Eb, firstn_app, Nat.sub_diag, firstn_all; cbn; apply app_nil_r).
        rewrite <- T, Ea, firstn_app. apply in_or_app. right.
        replace (length a' - length a) with (S (length a' - length a - 1)) by lia. now left. }
    destruct (Nat.lt_trichotomy (length a) (length a')) as [L|[L|L]]; auto; exfalso; eauto. }
  assert (F1 : l = (l1 ++ x :: l2) ++ y :: l3) by now rewrite <- app_assoc.
  assert (F2 : l = (m1 ++ y :: m2) ++ x :: m3) by now rewrite <- app_assoc.
  assert (H1 := U x l1 _ _ _ Ux E1 F2). assert (H2 := U y _ _ m1 _ Uy F1 E2).
  rewrite app_length in H1, H2. cbn in H1, H2. lia.
Qed.

Section Threads.
  Context (home : nat -> nat) (chs : nat -> option nat).

  Notation client s i := (k_client (call_at s i)).
  Notation from s i := (k_from (call_at s i)).
  Notation ph s i := (k_phase (call_at s i)).
  Notation at_home s i := (home (k_client (call_at s i))).

  (** Where calls are.  The calls in [X] are being worked on. *)
  Record Inv (X : list nat) (s : state) : Prop := {
    v_loop : forall t i, In (Loop i) (s_stacks s t) -> ph s i = Inside /\ at_home s i = t /\ ~ In i X;
    v_inside : forall i, ph s i = Inside -> In i X \/ In (Loop i) (s_stacks s (at_home s i));
    v_nodup : forall t, NoDup (s_stacks s t);
    v_post : forall t i, In i (s_posted s t) -> ph s i = Posted /\ at_home s i = t /\ from s i <> t /\ ~ In i X;
    v_posted : forall i, ph s i = Posted -> In i X \/ In i (s_posted s (at_home s i));
    v_sorted : forall t, StronglySorted lt (s_posted s t);
    v_shape : forall t f r, s_stacks s t = f :: r -> forall i, ~ In (Blocked i) r;
    v_block : forall t i, In (Blocked i) (s_stacks s t) -> from s i = t /\ from s i <> at_home s i /\ ph s i <> Over;
    v_blocked : forall i, ph s i <> Over -> from s i <> at_home s i -> In (Blocked i) (s_stacks s (from s i));
    v_x : forall i, In i X -> ph s i <> Over;
    v_xnodup : NoDup X
  }.

  (** What every report is preceded by. *)
  Definition fine (gone : nat -> bool) (l : list report) (r : report) : Prop :=
    match r with
    | Called i t c => ~ was_called l i /\ (forall j c', In (Called j t c') l -> t <> home c' -> has_returned l j)
    | Sent i c ch =>
        ~ was_sent l i /\ ~ has_returned l i /\ (exists t, In (Called i t c) l)
        /\ (forall j t t' c', before (Called j t' c') (Called i t c) l -> t <> home c -> t' <> home c' -> home c' = home c ->
              was_sent l j \/ has_returned l j)
    | Answered i a => was_sent l i /\ ~ was_answered l i /\ ~ has_returned l i
    | Returned i c code data =>
        ~ has_returned l i /\ (exists t, In (Called i t c) l)
        /\ ((exists err st body, In (Answered i (err, st, body)) l /\ processReply err st body = Ok (code, data))
            \/ (code = 2%Z /\ data = [] /\ ~ was_sent l i /\ (chs c = None \/ gone c = true)))
        /\ (forall ch j c' ch', before (Sent i c ch) (Sent j c' ch') l -> home c' = home c -> has_returned l j)
    | ClientError c code => True
    end.

  Record Log (s : state) : Prop := {
    l_called : forall i t c, In (Called i t c) (s_log s) <-> i < length (s_calls s) /\ from s i = t /\ client s i = c;
    l_corder : forall i t c j t' c', before (Called i t c) (Called j t' c') (s_log s) -> i < j;
    l_ret : forall i, has_returned (s_log s) i <-> i < length (s_calls s) /\ ph s i = Over;
    l_sent : forall i c ch, In (Sent i c ch) (s_log s) -> i < length (s_calls s) /\ client s i = c /\ ph s i <> Posted;
    l_inside : forall i, ph s i = Inside -> was_sent (s_log s) i;
    l_net : forall i a, k_net (call_at s i) = Some a -> In (Answered i a) (s_log s);
    l_answered : forall i, was_answered (s_log s) i -> i < length (s_calls s) /\ ph s i <> Posted /\ k_net (call_at s i) <> None;
    l_order : forall t above j mid i below, s_stacks s t = above ++ Loop j :: mid ++ Loop i :: below ->
      forall ci chi cj chj, In (Sent i ci chi) (s_log s) -> In (Sent j cj chj) (s_log s) -> before (Sent i ci chi) (Sent j cj chj) (s_log s);
    l_fine : always (fine (s_gone s)) (s_log s);
    l_chan : forall c, s_channels s c = None -> chs c = None \/ s_gone s c = true
  }.

  (** *** Operations that leave the phases as they are *)

  Local Ltac sameas EC i :=
    let E := fresh in pose proof (EC i) as E; repeat match goal with H : _ /\ _ |- _ => destruct H as [? H] end;
    repeat match goal with H : _ = _ |- _ => try rewrite !H; clear H end.

  Lemma Inv_ext X s s' :
    (forall t, s_stacks s' t = s_stacks s t) -> (forall t, s_posted s' t = s_posted s t) ->
    (forall i, ph s' i = ph s i /\ client s' i = client s i /\ from s' i = from s i) -> Inv X s -> Inv X s'.
  Proof.
    intros ES EP EC V. split; intros *; repeat rewrite ?ES, ?EP.
    - sameas EC i. apply (v_loop X s V).
    - sameas EC i. apply (v_inside X s V).
    - apply (v_nodup X s V).
    - sameas EC i. apply (v_post X s V).
    - sameas EC i. apply (v_posted X s V).
    - apply (v_sorted X s V).
    - apply (v_shape X s V).
    - sameas EC i. apply (v_block X s V).
    - sameas EC i. apply (v_blocked X s V).
    - sameas EC i. apply (v_x X s V).
    - apply (v_xnodup X s V).
  Qed.

  Lemma fine_gone g g' l r : (forall c, g c = true -> g' c = true) -> fine g l r -> fine g' l r.
  Proof.
    intros H. destruct r; cbn; auto. intros (A & B & [C|(C1 & C2 & C3 & C4)] & D); repeat split; auto.
    right. repeat split; auto. destruct C4; auto.
  Qed.

  Lemma Log_ext s s' :
    (forall t, s_stacks s' t = s_stacks s t) -> s_log s' = s_log s -> length (s_calls s') = length (s_calls s) ->
    (forall i, ph s' i = ph s i /\ client s' i = client s i /\ from s' i = from s i /\ k_net (call_at s' i) = k_net (call_at s i)) ->
    (forall c, s_gone s c = true -> s_gone s' c = true) ->
    (forall c, s_channels s' c = None -> s_channels s c = None \/ s_gone s' c = true) -> Log s -> Log s'.
  Proof.
    intros ES EL EN EC EG EH L. split; intros *; rewrite ?EL, ?EN, ?ES.
    - sameas EC i. apply (l_called s L).
    - apply (l_corder s L).
    - sameas EC i. apply (l_ret s L).
    - sameas EC i. apply (l_sent s L).
    - sameas EC i. apply (l_inside s L).
    - sameas EC i. apply (l_net s L).
    - sameas EC i. apply (l_answered s L).
    - apply (l_order s L).
    - eapply always_weaken; [|exact (l_fine s L)]. intros a r. now apply fine_gone.
    - intros N. destruct (EH c N) as [H|H]; auto. destruct (l_chan s L c H) as [H'|H']; auto.
  Qed.


  Lemma Log_error s c code : Log s -> Log (tell [ClientError c code] s).
  Proof.
    intros L.
    assert (I : forall r, (forall d e, r <> ClientError d e) -> In r (s_log s ++ [ClientError c code]) <-> In r (s_log s)).
    { intros r N. rewrite in_app_iff. split; [intros [H|[H|[]]]; auto; now destruct (N c code)|auto]. }
    assert (B : forall x y, (forall d e, y <> ClientError d e) -> before x y (s_log s ++ [ClientError c code]) <-> before x y (s_log s)).
    { intros x y N. rewrite before_snoc. split; [intros [H|[_ H]]; auto; now destruct (N c code)|auto]. }
    split; cbn [tell s_log s_calls s_stacks s_gone s_channels]; intros *; change (call_at (tell [ClientError c code] s)) with (call_at s).
    - rewrite I by discriminate. apply (l_called s L).
    - rewrite B by discriminate. apply (l_corder s L).
    - unfold has_returned. rewrite <- (l_ret s L). unfold has_returned.
      split; intros (x & y & z & H); exists x, y, z; apply I; auto; discriminate.
    - rewrite I by discriminate. apply (l_sent s L).
    - intros H. destruct (l_inside s L i H) as (x & y & H'). exists x, y. apply I; auto; discriminate.
    - rewrite I by discriminate. apply (l_net s L).
    - intros (a & H). apply (l_answered s L). exists a. apply I in H; auto; discriminate.
    - intros E * H1 H2. apply I in H1, H2; try discriminate. apply B; [discriminate|]. eapply (l_order s L); eauto.
    - apply always_snoc; [apply (l_fine s L)|exact Logic.I].
    - apply (l_chan s L).
  Qed.

  Lemma Log_return X s i code data :
    Inv (i :: X) s -> Log s ->
    ((exists err st body, k_net (call_at s i) = Some (err, st, body) /\ processReply err st body = Ok (code, data))
     \/ (code = 2%Z /\ data = [] /\ ph s i = Posted /\ (chs (client s i) = None \/ s_gone s (client s i) = true))) ->
    (forall ci chi j cj chj, ph s j = Inside -> at_home s j = at_home s i -> ~ before (Sent i ci chi) (Sent j cj chj) (s_log s)) ->
    Log (give_back home i code data s).
  Proof.
    intros V L R T. pose proof (v_x _ _ V i (or_introl eq_refl)) as P. pose proof (pending_bound s i P) as N.
    set (r := Returned i (client s i) code data).
    assert (EL : s_log (give_back home i code data s) = s_log s ++ [r]).
    { unfold give_back, with_stack. destruct (Nat.eqb _ _); reflexivity. }
    assert (EC : forall j, call_at (give_back home i code data s) j = if Nat.eqb j i then in_phase Over (call_at s i) else call_at s j).
    { intros j. rewrite <- call_at_set by auto. unfold give_back, with_stack. destruct (Nat.eqb _ _); reflexivity. }
    assert (EN : length (s_calls (give_back home i code data s)) = length (s_calls s)).
    { unfold give_back, with_stack. destruct (Nat.eqb _ _); cbn; apply set_nth_length. }
    assert (EK : forall j, client (give_back home i code data s) j = client s j /\ from (give_back home i code data s) j = from s j
                 /\ k_net (call_at (give_back home i code data s) j) = k_net (call_at s j)).
    { intros j. rewrite EC. destruct (Nat.eqb_spec j i) as [->|]; auto. }
    assert (EP : forall j, ph (give_back home i code data s) j = if Nat.eqb j i then Over else ph s j).
    { intros j. rewrite EC. destruct (Nat.eqb_spec j i) as [->|]; auto. }
    assert (EG : s_gone (give_back home i code data s) = s_gone s).
    { unfold give_back, with_stack. destruct (Nat.eqb _ _); reflexivity. }
    assert (EH : s_channels (give_back home i code data s) = s_channels s).
    { unfold give_back, with_stack. destruct (Nat.eqb _ _); reflexivity. }
    assert (ES : forall t, s_stacks (give_back home i code data s) t = s_stacks s t
                           \/ s_stacks (give_back home i code data s) t = tl (s_stacks s t)).
    { intros t. unfold give_back. destruct (Nat.eqb _ _); [now left|]. cbn [with_stack s_stacks tell with_call with_calls].
      unfold put. destruct (Nat.eqb_spec t (from s i)) as [->|]; auto. }
    assert (I : forall x, (forall c d e f, x <> Returned c d e f) -> In x (s_log s ++ [r]) <-> In x (s_log s)).
    { intros x Q. rewrite in_app_iff. split; [intros [H|[H|[]]]; auto; now destruct (Q i (client s i) code data)|auto]. }
    assert (B : forall x y, (forall c d e f, y <> Returned c d e f) -> before x y (s_log s ++ [r]) <-> before x y (s_log s)).
    { intros x y Q. rewrite before_snoc. split; [intros [H|[_ H]]; auto; now destruct (Q i (client s i) code data)|auto]. }
    split; intros *; rewrite ?EL, ?EN, ?EG, ?EH.
    - destruct (EK i0) as (-> & -> & _). rewrite I by discriminate. apply (l_called s L).
    - rewrite B by discriminate. apply (l_corder s L).
    - rewrite EP. split.
      + intros (x & y & z & H). apply in_app_or in H. destruct (Nat.eqb_spec i0 i) as [->|Q]; auto.
        destruct H as [H|[H|[]]]; [|unfold r in H; congruence]. apply (l_ret s L). now exists x, y, z.
      + destruct (Nat.eqb_spec i0 i) as [->|Q].
        * intros _. exists (client s i), code, data. apply in_or_app. right. now left.
        * intros H. apply (l_ret s L) in H. destruct H as (x & y & z & H). exists x, y, z. apply in_or_app. now left.
    - rewrite EP. destruct (EK i0) as (-> & _). rewrite I by discriminate. intros H. apply (l_sent s L) in H.
      destruct (Nat.eqb i0 i); intuition congruence.
    - rewrite EP. destruct (Nat.eqb i0 i); [discriminate|]. intros H. destruct (l_inside s L i0 H) as (x & y & H').
      exists x, y. apply I; [discriminate|auto].
    - destruct (EK i0) as (_ & _ & ->). rewrite I by discriminate. apply (l_net s L).
    - rewrite EP. destruct (EK i0) as (_ & _ & ->). intros (a & H). apply I in H; [|discriminate].
      assert (H' := l_answered s L i0 (ex_intro _ a H)). destruct (Nat.eqb i0 i); intuition congruence.
    - intros E * H1 H2. apply I in H1, H2; try discriminate. apply B; [discriminate|].
      destruct (ES t) as [E'|E']; rewrite E' in E.
      + eapply (l_order s L); eauto.
      + destruct (s_stacks s t) as [|f st] eqn:Q; cbn in E; [now destruct above|].
        apply (l_order s L t (f :: above) j mid i0 below); auto. rewrite Q. cbn. now rewrite E.
    - apply always_snoc; [apply (l_fine s L)|]. cbn.
      assert (C : In (Called i (from s i) (client s i)) (s_log s)) by now apply (l_called s L).
      repeat split.
      + intros H. apply (l_ret s L) in H. tauto.
      + eauto.
      + destruct R as [(err & st & body & H & R) | (-> & -> & Q & R)].
        * left. exists err, st, body. split; auto. now apply (l_net s L).
        * right. repeat split; auto. intros (x & y & H). apply (l_sent s L) in H. tauto.
      + intros * H E. pose proof (before_in _ _ _ H) as [_ H2]. pose proof (l_sent s L _ _ _ H2) as (Nj & Cj & Pj).
        apply (l_ret s L). split; auto. destruct (ph s j) eqn:Q; auto; [congruence|].
        exfalso. apply (T (client s i) ch j c' ch'); auto. now rewrite Cj.
    - apply (l_chan s L).
  Qed.

  Lemma Inv_return X s i code data : Inv (i :: X) s -> Inv X (give_back home i code data s).
  Proof.
    clear chs.
    intros V. pose proof (v_x _ _ V i (or_introl eq_refl)) as P. pose proof (pending_bound s i P) as N.
    assert (EC : forall j, call_at (give_back home i code data s) j = if Nat.eqb j i then in_phase Over (call_at s i) else call_at s j).
    { intros j. rewrite <- call_at_set by auto. unfold give_back, with_stack. destruct (Nat.eqb _ _); reflexivity. }
    assert (EQ : s_posted (give_back home i code data s) = s_posted s).
    { unfold give_back, with_stack. destruct (Nat.eqb _ _); reflexivity. }
    assert (EK : forall j, client (give_back home i code data s) j = client s j /\ from (give_back home i code data s) j = from s j).
    { intros j. rewrite EC. destruct (Nat.eqb_spec j i) as [->|]; auto. }
    assert (EP : forall j, ph (give_back home i code data s) j = if Nat.eqb j i then Over else ph s j).
    { intros j. rewrite EC. destruct (Nat.eqb_spec j i) as [->|]; auto. }
    (* the stacks lose the frame of the call in the thread that it came from *)
    assert (NL : forall t, ~ In (Loop i) (s_stacks s t)).
    { intros t H. apply (v_loop _ _ V) in H. apply H. now left. }
    assert (ES : forall t f, In f (s_stacks (give_back home i code data s) t) <-> In f (s_stacks s t) /\ f <> Blocked i).
    { intros t f. unfold give_back. destruct (Nat.eqb_spec (from s i) (at_home s i)) as [Q|Q].
      - cbn. split; [|tauto]. intros H. split; auto. intros ->. apply (v_block _ _ V) in H. tauto.
      - cbn [with_stack s_stacks tell with_call with_calls]. unfold put. destruct (Nat.eqb_spec t (from s i)) as [->|Q'].
        + pose proof (v_blocked _ _ V i P Q) as H. destruct (s_stacks s (from s i)) as [|g st] eqn:E; [destruct H|].
          destruct H as [->|H]; [|now destruct (v_shape _ _ V _ _ _ E i)]. cbn.
          pose proof (v_nodup _ _ V (from s i)) as ND. rewrite E in ND. inversion ND; subst.
          split; [intros H; split; auto; intros ->; contradiction | intros [[H|H] H']; congruence].
        + split; [|tauto]. intros H. split; auto. intros ->. apply (v_block _ _ V) in H. intuition congruence. }
    assert (ET : forall t, s_stacks (give_back home i code data s) t = s_stacks s t
                           \/ s_stacks (give_back home i code data s) t = tl (s_stacks s t)).
    { intros t. unfold give_back. destruct (Nat.eqb _ _); [now left|]. cbn [with_stack s_stacks tell with_call with_calls].
      unfold put. destruct (Nat.eqb_spec t (from s i)) as [->|]; auto. }
    pose proof (v_xnodup _ _ V) as NX. inversion NX as [|x y NX1 NX2]; subst.
    split; intros *; rewrite ?EQ.
    - rewrite ES, EP. destruct (EK i0) as (-> & _). intros [H _]. pose proof (v_loop _ _ V _ _ H) as (H1 & H2 & H3).
      destruct (Nat.eqb_spec i0 i) as [->|Q]; [now destruct (NL t)|]. repeat split; auto. intros H4. apply H3. now right.
    - rewrite EP. destruct (EK i0) as (-> & _). destruct (Nat.eqb_spec i0 i) as [->|Q]; [discriminate|]. intros H.
      rewrite ES. destruct (v_inside _ _ V i0 H) as [[H'|H']|H']; [congruence|now left|]. right. split; [auto|discriminate].
    - destruct (ET t) as [->| ->]; [apply (v_nodup _ _ V)|]. pose proof (v_nodup _ _ V t) as H.
      destruct (s_stacks s t); cbn; auto. now inversion H.
    - rewrite EP. destruct (EK i0) as (-> & ->). intros H. pose proof (v_post _ _ V _ _ H) as (H1 & H2 & H3 & H4).
      destruct (Nat.eqb_spec i0 i) as [->|Q]; [destruct H4; now left|]. repeat split; auto. intros H5. apply H4. now right.
    - rewrite EP. destruct (EK i0) as (-> & _). destruct (Nat.eqb_spec i0 i) as [->|Q]; [discriminate|]. intros H.
      destruct (v_posted _ _ V i0 H) as [[H'|H']|H']; [congruence|now left|now right].
    - apply (v_sorted _ _ V).
    - intros E j H. destruct (ET t) as [E'|E']; rewrite E' in E.
      + now apply (v_shape _ _ V _ _ _ E j).
      + destruct (s_stacks s t) as [|g st] eqn:Q; cbn in E; [discriminate|]. apply (v_shape _ _ V _ _ _ Q j). rewrite E. now right.
    - rewrite ES, EP. destruct (EK i0) as (-> & ->). intros [H H'].
      destruct (Nat.eqb_spec i0 i) as [->|Q]; [congruence|]. now apply (v_block _ _ V).
    - rewrite EP. destruct (EK i0) as (-> & ->). rewrite ES. destruct (Nat.eqb_spec i0 i) as [->|Q]; [congruence|].
      intros H1 H2. split; [now apply (v_blocked _ _ V)|congruence].
    - rewrite EP. destruct (Nat.eqb_spec i0 i) as [->|Q]; [contradiction|]. intros H. apply (v_x _ _ V). now right.
    - auto.
  Qed.
End Threads.

(** The invariants of blocking calls hold in all histories. *)

From Coq Require Import ZArith List Bool Arith Lia Sorted.
From Verif Require Import Base FrameModel BlockModel BlockSpec BlockProofs.
Import ListNotations.
Local Close Scope Z_scope.

Lemma sorted_filter (p : nat -> bool) l : StronglySorted lt l -> StronglySorted lt (filter p l).
Proof.
  induction l as [|x l IH]; cbn; intros S; [constructor|]. inversion S as [|? ? S1 S2]; subst. destruct (p x); auto.
  constructor; auto. rewrite Forall_forall in *. intros y H. apply filter_In in H. apply S2. tauto.
Qed.

Lemma sorted_nodup l : StronglySorted lt l -> NoDup l.
Proof.
  induction l as [|x l IH]; intros S; [constructor|]. inversion S as [|? ? S1 S2]; subst. constructor; auto.
  intros H. rewrite Forall_forall in S2. apply S2 in H. lia.
Qed.

Lemma sorted_snoc l x : StronglySorted lt l -> (forall y, In y l -> y < x) -> StronglySorted lt (l ++ [x]).
Proof.
  induction l as [|y l IH]; cbn; intros S H; [repeat constructor|]. inversion S as [|? ? S1 S2]; subst.
  constructor; auto. apply Forall_app. split; auto.
Qed.

Section Threads.
  Context (home : nat -> nat) (chs : nat -> option nat).

  Notation client s i := (k_client (call_at s i)).
  Notation from s i := (k_from (call_at s i)).
  Notation ph s i := (k_phase (call_at s i)).
  Notation at_home s i := (home (k_client (call_at s i))).
  Notation Inv := (Inv home).
  Notation Log := (Log home chs).

  (** *** A call is sent *)

  Definition sending (i ch : nat) (s : state) : state :=
    tell [Sent i (client s i) ch] (with_call i (sent ch (s_now s) (call_at s i)) s).

  Lemma call_at_sending s i ch j : i < length (s_calls s) ->
    call_at (sending i ch s) j = if Nat.eqb j i then sent ch (s_now s) (call_at s i) else call_at s j.
  Proof. intros N. rewrite <- call_at_set by auto. reflexivity. Qed.

  Lemma Inv_sending s i ch : Inv [i] s -> Inv [i] (sending i ch s).
  Proof.
    intros V. pose proof (v_x _ _ _ V i (or_introl eq_refl)) as P. pose proof (pending_bound s i P) as N.
    assert (EC := fun j => call_at_sending s i ch j N).
    assert (EK : forall j, client (sending i ch s) j = client s j /\ from (sending i ch s) j = from s j).
    { intros j. rewrite EC. destruct (Nat.eqb_spec j i) as [->|]; auto. }
    assert (EP : forall j, ph (sending i ch s) j = if Nat.eqb j i then Inside else ph s j).
    { intros j. rewrite EC. destruct (Nat.eqb_spec j i) as [->|]; auto. }
    split; intros *; change (s_stacks (sending i ch s)) with (s_stacks s); change (s_posted (sending i ch s)) with (s_posted s).
    - rewrite EP. destruct (EK i0) as (-> & _). intros H. pose proof (v_loop _ _ _ V _ _ H) as (H1 & H2 & H3).
      repeat split; auto. now destruct (Nat.eqb i0 i).
    - rewrite EP. destruct (EK i0) as (-> & _). destruct (Nat.eqb_spec i0 i) as [->|]; [left; now left|]. apply (v_inside _ _ _ V).
    - apply (v_nodup _ _ _ V).
    - rewrite EP. destruct (EK i0) as (-> & ->). intros H. pose proof (v_post _ _ _ V _ _ H) as (H1 & H2 & H3 & H4).
      repeat split; auto. destruct (Nat.eqb_spec i0 i) as [->|]; auto. destruct H4. now left.
    - rewrite EP. destruct (EK i0) as (-> & _). destruct (Nat.eqb_spec i0 i) as [->|]; [discriminate|]. apply (v_posted _ _ _ V).
    - apply (v_sorted _ _ _ V).
    - apply (v_shape _ _ _ V).
    - rewrite EP. destruct (EK i0) as (-> & ->). intros H. pose proof (v_block _ _ _ V _ _ H) as (H1 & H2 & H3).
      repeat split; auto. now destruct (Nat.eqb i0 i).
    - rewrite EP. destruct (EK i0) as (-> & ->). intros Q H. apply (v_blocked _ _ _ V); auto.
      revert Q. destruct (Nat.eqb_spec i0 i) as [E|]; [now rewrite E|auto].
    - rewrite EP. intros [<-|[]]. rewrite Nat.eqb_refl. discriminate.
    - apply (v_xnodup _ _ _ V).
  Qed.

  (** Calls from other threads that came before it are sent or over. *)
  Definition first_of (s : state) (i : nat) : Prop :=
    from s i <> at_home s i -> forall j, In j (s_posted s (at_home s i)) -> i < j.

  Lemma Log_sending s i ch : Inv [i] s -> Log s -> ph s i = Posted -> first_of s i -> Log (sending i ch s).
  Proof.
    intros V L PP F. pose proof (v_x _ _ _ V i (or_introl eq_refl)) as P. pose proof (pending_bound s i P) as N.
    assert (EC := fun j => call_at_sending s i ch j N).
    assert (EK : forall j, client (sending i ch s) j = client s j /\ from (sending i ch s) j = from s j).
    { intros j. rewrite EC. destruct (Nat.eqb_spec j i) as [->|]; auto. }
    assert (EP : forall j, ph (sending i ch s) j = if Nat.eqb j i then Inside else ph s j).
    { intros j. rewrite EC. destruct (Nat.eqb_spec j i) as [->|]; auto. }
    assert (EN : forall j, k_net (call_at (sending i ch s) j) = if Nat.eqb j i then None else k_net (call_at s j)).
    { intros j. rewrite EC. destruct (Nat.eqb_spec j i) as [->|]; auto. }
    assert (EL : length (s_calls (sending i ch s)) = length (s_calls s)) by apply set_nth_length.
    set (r := Sent i (client s i) ch).
    change (s_log (sending i ch s)) with (s_log s ++ [r]).
    assert (I : forall x, (forall c d e, x <> Sent c d e) -> In x (s_log s ++ [r]) <-> In x (s_log s)).
    { intros x Q. rewrite in_app_iff. split; [intros [H|[H|[]]]; auto; now destruct (Q i (client s i) ch)|auto]. }
    assert (B : forall x y, (forall c d e, y <> Sent c d e) -> before x y (s_log s ++ [r]) <-> before x y (s_log s)).
    { intros x y Q. rewrite before_snoc. split; [intros [H|[_ H]]; auto; now destruct (Q i (client s i) ch)|auto]. }
    assert (NS : ~ was_sent (s_log s) i).
    { intros (x & y & H). apply (l_sent _ _ _ L) in H. tauto. }
    split; intros *; change (s_log (sending i ch s)) with (s_log s ++ [r]); change (s_stacks (sending i ch s)) with (s_stacks s);
      change (s_gone (sending i ch s)) with (s_gone s); change (s_channels (sending i ch s)) with (s_channels s); rewrite ?EL.
    - destruct (EK i0) as (-> & ->). rewrite I by discriminate. apply (l_called _ _ _ L).
    - rewrite B by discriminate. apply (l_corder _ _ _ L).
    - rewrite EP. transitivity (has_returned (s_log s) i0).
      + split; intros (x & y & z & H); exists x, y, z; apply I; auto; discriminate.
      + rewrite (l_ret _ _ _ L). destruct (Nat.eqb_spec i0 i) as [->|]; [|tauto]. split; intros [H1 H2]; congruence.
    - rewrite EP. destruct (EK i0) as (-> & _). intros H. apply in_app_or in H. destruct H as [H|[H|[]]].
      + pose proof (l_sent _ _ _ L _ _ _ H) as (H1 & H2 & H3). repeat split; auto. now destruct (Nat.eqb i0 i).
      + injection H as <- <- <-. rewrite Nat.eqb_refl. repeat split; auto. discriminate.
    - rewrite EP. destruct (Nat.eqb_spec i0 i) as [->|].
      + intros _. exists (client s i), ch. apply in_or_app. right. now left.
      + intros H. destruct (l_inside _ _ _ L i0 H) as (x & y & H'). exists x, y. apply in_or_app. now left.
    - rewrite EN. destruct (Nat.eqb i0 i); [discriminate|]. rewrite I by discriminate. apply (l_net _ _ _ L).
    - rewrite EP, EN. intros (a & H). apply I in H; [|discriminate].
      assert (H' := l_answered _ _ _ L i0 (ex_intro _ a H)). destruct (Nat.eqb_spec i0 i) as [->|]; [tauto|auto].
    - intros E * H1 H2.
      assert (Ni : i0 <> i).
      { intros ->. assert (H : In (Loop i) (s_stacks s t)) by (rewrite E; apply in_or_app; right; right; apply in_or_app; right; now left).
        apply (v_loop _ _ _ V) in H. apply H. now left. }
      assert (Nj : j <> i).
      { intros ->. assert (H : In (Loop i) (s_stacks s t)) by (rewrite E; apply in_or_app; right; now left).
        apply (v_loop _ _ _ V) in H. apply H. now left. }
      apply in_app_or in H1, H2. destruct H1 as [H1|[H1|[]]]; [|unfold r in H1; congruence]. destruct H2 as [H2|[H2|[]]]; [|unfold r in H2; congruence].
      apply before_snoc. left. eapply (l_order _ _ _ L); eauto.
    - apply always_snoc; [apply (l_fine _ _ _ L)|]. cbn.
      assert (C : In (Called i (from s i) (client s i)) (s_log s)) by now apply (l_called _ _ _ L).
      repeat split; auto.
      + intros H. apply (l_ret _ _ _ L) in H. destruct H. congruence.
      + eauto.
      + intros * H H1 H2 H3. pose proof (l_corder _ _ _ L _ _ _ _ _ _ H) as LT.
        apply before_in in H. destruct H as [Hj Hi]. apply (l_called _ _ _ L) in Hj, Hi.
        destruct Hj as (Nj & Fj & Cj), Hi as (_ & Fi & _). destruct (ph s j) eqn:Q.
        * destruct (v_posted _ _ _ V j Q) as [[->|[]]|H]; [lia|]. exfalso.
          rewrite Cj, H3 in H. apply F in H; [lia|]. congruence.
        * left. now apply (l_inside _ _ _ L).
        * right. now apply (l_ret _ _ _ L).
    - apply (l_chan _ _ _ L).
  Qed.

  (** *** Its event loop starts and ends *)

  Lemma Inv_push s i :
    Inv [i] s -> ph s i = Inside -> (forall j r, s_stacks s (at_home s i) <> Blocked j :: r) ->
    Inv [] (with_stack (at_home s i) (Loop i :: s_stacks s (at_home s i)) s).
  Proof.
    clear chs.
    intros V P T. set (h := at_home s i). set (s' := with_stack h (Loop i :: s_stacks s h) s).
    change (call_at s') with (call_at s) in *.
    assert (ES : forall t f, In f (s_stacks s' t) <-> (t = h /\ f = Loop i) \/ In f (s_stacks s t)).
    { intros t f. unfold s', with_stack, put. cbn [s_stacks]. destruct (Nat.eqb_spec t h) as [->|]; cbn; intuition congruence. }
    assert (NL : forall t, ~ In (Loop i) (s_stacks s t)).
    { intros t H. apply (v_loop _ _ _ V) in H. apply H. now left. }
    split; intros *; change (call_at s') with (call_at s); change (s_posted s') with (s_posted s).
    - rewrite ES. intros [[-> E]|H]; [injection E as ->; auto|]. pose proof (v_loop _ _ _ V _ _ H). cbn. tauto.
    - intros H. right. apply ES. destruct (v_inside _ _ _ V _ H) as [[<-|[]]|H']; auto.
    - unfold s', with_stack, put. cbn [s_stacks]. destruct (Nat.eqb_spec t h) as [->|]; [|apply (v_nodup _ _ _ V)].
      constructor; [apply NL|apply (v_nodup _ _ _ V)].
    - intros H. pose proof (v_post _ _ _ V _ _ H). cbn. tauto.
    - intros H. destruct (v_posted _ _ _ V _ H) as [[<-|[]]|H']; auto. congruence.
    - apply (v_sorted _ _ _ V).
    - unfold s', with_stack, put. cbn [s_stacks]. destruct (Nat.eqb_spec t h) as [->|]; [|apply (v_shape _ _ _ V)].
      intros E j. injection E as <- <-. intros H. destruct (s_stacks s h) as [|g st] eqn:Q; [destruct H|].
      destruct H as [->|H]; [now apply (T j st)|]. now apply (v_shape _ _ _ V _ _ _ Q j).
    - rewrite ES. intros [[_ E]|H]; [discriminate|]. now apply (v_block _ _ _ V).
    - intros H H'. apply ES. right. now apply (v_blocked _ _ _ V).
    - intros [].
    - constructor.
  Qed.

  Lemma Log_push s i :
    Log s -> (forall j cj chj ci chi, In (Loop j) (s_stacks s (at_home s i)) -> In (Sent j cj chj) (s_log s) -> In (Sent i ci chi) (s_log s) ->
                before (Sent j cj chj) (Sent i ci chi) (s_log s)) ->
    Log (with_stack (at_home s i) (Loop i :: s_stacks s (at_home s i)) s).
  Proof.
    intros L T. set (h := at_home s i) in *.
    assert (H := l_order _ _ _ L). split; try apply L.
    cbn [with_stack s_stacks s_log]. intros *. unfold put. destruct (Nat.eqb_spec t h) as [->|]; [|apply H].
    intros E * H1 H2. destruct above as [|f above]; injection E as E1 E2.
    - subst j. apply T; auto. rewrite E2. apply in_or_app. right. now left.
    - eapply H; eauto.
  Qed.

  Lemma Inv_pop s t i rest : Inv [] s -> s_stacks s t = Loop i :: rest -> Inv [i] (with_stack t rest s).
  Proof.
    clear chs.
    intros V E. set (s' := with_stack t rest s).
    assert (IL : In (Loop i) (s_stacks s t)) by (rewrite E; now left).
    pose proof (v_loop _ _ _ V _ _ IL) as (P & Hi & _).
    pose proof (v_nodup _ _ _ V t) as ND. rewrite E in ND. inversion ND as [|x y N1 N2]; subst x y.
    assert (ES : forall u f, In f (s_stacks s' u) <-> In f (s_stacks s u) /\ f <> Loop i).
    { intros u f. unfold s', with_stack, put. cbn [s_stacks]. destruct (Nat.eqb_spec u t) as [->|Q].
      - rewrite E. cbn. split; [intros H; split; auto; congruence|intros [[H|H] H']; congruence].
      - split; [|tauto]. intros H. split; auto. intros ->. apply (v_loop _ _ _ V) in H. intuition congruence. }
    split; intros *; change (call_at s') with (call_at s); change (s_posted s') with (s_posted s).
    - rewrite ES. intros [H H']. pose proof (v_loop _ _ _ V _ _ H) as (H1 & H2 & _). repeat split; auto.
      intros [<-|[]]. congruence.
    - intros H. destruct (Nat.eq_dec i0 i) as [->|Q]; [left; now left|]. right. apply ES.
      destruct (v_inside _ _ _ V _ H) as [[]|H']. split; [auto|congruence].
    - unfold s', with_stack, put. cbn [s_stacks]. destruct (Nat.eqb_spec t0 t) as [->|]; [auto|apply (v_nodup _ _ _ V)].
    - intros H. pose proof (v_post _ _ _ V _ _ H) as (H1 & H2 & H3 & _). repeat split; auto. intros [<-|[]]. congruence.
    - intros H. destruct (v_posted _ _ _ V _ H) as [[]|H']; auto.
    - apply (v_sorted _ _ _ V).
    - unfold s', with_stack, put. cbn [s_stacks]. destruct (Nat.eqb_spec t0 t) as [->|]; [|apply (v_shape _ _ _ V)].
      intros E' j H. apply (v_shape _ _ _ V _ _ _ E j). rewrite E'. now right.
    - rewrite ES. intros [H _]. now apply (v_block _ _ _ V).
    - intros H H'. apply ES. split; [now apply (v_blocked _ _ _ V)|discriminate].
    - intros [<-|[]]. congruence.
    - constructor; [intros []|constructor].
  Qed.
  Lemma Log_pop s t f rest : Log s -> s_stacks s t = f :: rest -> Log (with_stack t rest s).
  Proof.
    intros L E. assert (H := l_order _ _ _ L). split; try apply L.
    cbn [with_stack s_stacks s_log]. intros *. unfold put. destruct (Nat.eqb_spec t0 t) as [->|]; [|apply H].
    intros E' * H1 H2. apply (H t (f :: above) j mid i below); auto. now rewrite E, E'.
  Qed.

  (** *** Its reply is finished *)

  Lemma Log_answered s i a k :
    Log s -> ph s i = Inside -> k_net (call_at s i) = None ->
    k_client k = client s i -> k_from k = from s i -> k_phase k = Inside -> k_net k = Some a ->
    Log (tell [Answered i a] (with_call i k s)).
  Proof.
    intros L P PN K1 K2 K3 K4.
    assert (N : i < length (s_calls s)) by (apply pending_bound; congruence).
    set (s' := tell [Answered i a] (with_call i k s)).
    assert (EC : forall j, call_at s' j = if Nat.eqb j i then k else call_at s j) by (intros j; now apply (call_at_set s i k j)).
    assert (EK : forall j, client s' j = client s j /\ from s' j = from s j /\ ph s' j = ph s j).
    { intros j. rewrite EC. destruct (Nat.eqb_spec j i) as [->|]; auto. repeat split; congruence. }
    assert (EN : forall j, k_net (call_at s' j) = if Nat.eqb j i then Some a else k_net (call_at s j)).
    { intros j. rewrite EC. destruct (Nat.eqb_spec j i) as [->|]; auto. }
    assert (EL : length (s_calls s') = length (s_calls s)) by apply set_nth_length.
    set (r := Answered i a).
    assert (I : forall x, (forall c d, x <> Answered c d) -> In x (s_log s ++ [r]) <-> In x (s_log s)).
    { intros x Q. rewrite in_app_iff. split; [intros [H|[H|[]]]; auto; now destruct (Q i a)|auto]. }
    assert (B : forall x y, (forall c d, y <> Answered c d) -> before x y (s_log s ++ [r]) <-> before x y (s_log s)).
    { intros x y Q. rewrite before_snoc. split; [intros [H|[_ H]]; auto; now destruct (Q i a)|auto]. }
    split; intros *; change (s_log s') with (s_log s ++ [r]); change (s_stacks s') with (s_stacks s);
      change (s_gone s') with (s_gone s); change (s_channels s') with (s_channels s); rewrite ?EL.
    - destruct (EK i0) as (-> & -> & _). rewrite I by discriminate. apply (l_called _ _ _ L).
    - rewrite B by discriminate. apply (l_corder _ _ _ L).
    - destruct (EK i0) as (_ & _ & ->). rewrite <- (l_ret _ _ _ L).
      split; intros (x & y & z & H); exists x, y, z; apply I; auto; discriminate.
    - destruct (EK i0) as (-> & _ & ->). rewrite I by discriminate. apply (l_sent _ _ _ L).
    - destruct (EK i0) as (_ & _ & ->). intros H. destruct (l_inside _ _ _ L i0 H) as (x & y & H'). exists x, y. apply in_or_app. now left.
    - rewrite EN. destruct (Nat.eqb_spec i0 i) as [->|].
      + intros H. injection H as <-. apply in_or_app. right. now left.
      + intros H. apply in_or_app. left. now apply (l_net _ _ _ L).
    - rewrite EN. destruct (EK i0) as (_ & _ & ->). intros (b & H). apply in_app_or in H.
      destruct (Nat.eqb_spec i0 i) as [->|].
      + repeat split; auto; congruence.
      + destruct H as [H|[H|[]]]; [|unfold r in H; congruence]. apply (l_answered _ _ _ L). now exists b.
    - intros E * H1 H2. apply I in H1, H2; try discriminate. apply B; [discriminate|]. eapply (l_order _ _ _ L); eauto.
    - apply always_snoc; [apply (l_fine _ _ _ L)|]. cbn. repeat split.
      + now apply (l_inside _ _ _ L).
      + intros H. apply (l_answered _ _ _ L) in H. tauto.
      + intros H. apply (l_ret _ _ _ L) in H. destruct H. congruence.
    - apply (l_chan _ _ _ L).
  Qed.

  (** *** A call is made *)

  Definition new_call (t c : nat) : call := mkCall c t Posted 0 0%Z None false false.
  Definition calling (t c : nat) (s : state) : state :=
    tell [Called (length (s_calls s)) t c] (with_calls (s_calls s ++ [new_call t c]) s).

  Lemma call_at_calling t c s j :
    call_at (calling t c s) j = if Nat.eqb j (length (s_calls s)) then new_call t c else call_at s j.
  Proof.
    unfold call_at, calling. cbn [tell with_calls s_calls]. destruct (Nat.eqb_spec j (length (s_calls s))) as [->|Q].
    - now rewrite app_nth2, Nat.sub_diag by lia.
    - destruct (Nat.lt_ge_cases j (length (s_calls s))) as [H|H].
      + now rewrite app_nth1.
      + rewrite !nth_overflow; auto. rewrite app_length. cbn. lia.
  Qed.

  Lemma Log_calling t c s : Inv [] s -> Log s -> runs s t = true -> Log (calling t c s).
  Proof.
    intros V L R. set (n := length (s_calls s)). set (s' := calling t c s).
    assert (EC : forall j, call_at s' j = if Nat.eqb j n then new_call t c else call_at s j) by (intros j; apply call_at_calling).
    assert (EL : length (s_calls s') = S n) by (unfold s', calling; cbn; rewrite app_length; cbn; unfold n; lia).
    assert (OV : ph s n = Over) by (unfold call_at; rewrite nth_overflow; auto).
    assert (ON : k_net (call_at s n) = None) by (unfold call_at; rewrite nth_overflow; auto).
    set (r := Called n t c).
    assert (I : forall x, (forall c d e, x <> Called c d e) -> In x (s_log s ++ [r]) <-> In x (s_log s)).
    { intros x Q. rewrite in_app_iff. split; [intros [H|[H|[]]]; auto; now destruct (Q n t c)|auto]. }
    assert (B : forall x y, (forall c d e, y <> Called c d e) -> before x y (s_log s ++ [r]) <-> before x y (s_log s)).
    { intros x y Q. rewrite before_snoc. split; [intros [H|[_ H]]; auto; now destruct (Q n t c)|auto]. }
    assert (RR : forall i, has_returned (s_log s ++ [r]) i <-> has_returned (s_log s) i).
    { intros i. split; intros (x & y & z & H); exists x, y, z; apply I; auto; discriminate. }
    split; intros *; change (s_log s') with (s_log s ++ [r]); change (s_stacks s') with (s_stacks s);
      change (s_gone s') with (s_gone s); change (s_channels s') with (s_channels s); rewrite ?EL, ?EC.
    - rewrite in_app_iff, (l_called _ _ _ L). fold n. destruct (Nat.eqb_spec i n) as [->|Q]; cbn.
      + split; [intros [H|[H|[]]]; [lia|injection H as <- <-; auto]|]. intros (_ & <- & <-). right. now left.
      + split; [intros [H|[H|[]]]; [intuition lia|unfold r in H; congruence]|]. intros (H1 & H2 & H3). left. repeat split; auto. lia.
    - rewrite before_snoc. intros [H|[H E]]; [now apply (l_corder _ _ _ L) in H|].
      apply (l_called _ _ _ L) in H. injection E as -> _ _. tauto.
    - rewrite RR, (l_ret _ _ _ L). fold n. destruct (Nat.eqb_spec i n) as [->|Q]; cbn; intuition (try lia; try discriminate).
    - rewrite I by discriminate. intros H. apply (l_sent _ _ _ L) in H. fold n in H.
      destruct (Nat.eqb_spec i n) as [->|Q]; cbn; intuition lia.
    - destruct (Nat.eqb_spec i n) as [->|Q]; [discriminate|]. intros H. destruct (l_inside _ _ _ L i H) as (x & y & H').
      exists x, y. apply in_or_app. now left.
    - destruct (Nat.eqb_spec i n) as [->|Q]; [discriminate|]. intros H. apply in_or_app. left. now apply (l_net _ _ _ L).
    - intros (a & H). apply I in H; [|discriminate]. assert (H' := l_answered _ _ _ L i (ex_intro _ a H)). fold n in H'.
      destruct (Nat.eqb_spec i n) as [->|Q]; cbn; [lia|]. intuition lia.
    - intros E * H1 H2. apply I in H1, H2; try discriminate. apply B; [discriminate|]. eapply (l_order _ _ _ L); eauto.
    - apply always_snoc; [apply (l_fine _ _ _ L)|]. cbn. split.
      + intros (x & y & H). apply (l_called _ _ _ L) in H. fold n in H. lia.
      + intros j c' H Q. apply (l_called _ _ _ L) in H. destruct H as (H1 & H2 & H3). apply (l_ret _ _ _ L). split; auto.
        assert (D : ph s j <> Over -> False).
        { intros D. pose proof (v_blocked _ _ _ V j D) as H. rewrite H2, H3 in H. specialize (H Q). unfold runs in R.
          destruct (s_stacks s t) as [|f st] eqn:E; [destruct H|]. destruct H as [->|H]; [discriminate|].
          now apply (v_shape _ _ _ V _ _ _ E j). }
        destruct (ph s j); auto; exfalso; apply D; discriminate.
    - apply (l_chan _ _ _ L).
  Qed.

  Lemma Inv_calling c s : Inv [] s -> Inv [length (s_calls s)] (calling (home c) c s).
  Proof.
    intros V. set (n := length (s_calls s)). set (s' := calling (home c) c s).
    assert (EC : forall j, call_at s' j = if Nat.eqb j n then new_call (home c) c else call_at s j) by (intros j; apply call_at_calling).
    assert (OV : ph s n = Over) by (unfold call_at; rewrite nth_overflow; auto).
    split; intros *; change (s_stacks s') with (s_stacks s); change (s_posted s') with (s_posted s); rewrite ?EC.
    - intros H. pose proof (v_loop _ _ _ V _ _ H) as (H1 & H2 & _). destruct (Nat.eqb_spec i n) as [->|Q]; [congruence|].
      repeat split; auto. intros [<-|[]]. congruence.
    - destruct (Nat.eqb_spec i n) as [->|Q]; [left; now left|]. intros H. destruct (v_inside _ _ _ V _ H) as [[]|H']; auto.
    - apply (v_nodup _ _ _ V).
    - intros H. pose proof (v_post _ _ _ V _ _ H) as (H1 & H2 & H3 & _). destruct (Nat.eqb_spec i n) as [->|Q]; [congruence|].
      repeat split; auto. intros [<-|[]]. congruence.
    - destruct (Nat.eqb_spec i n) as [->|Q]; [left; now left|]. intros H. destruct (v_posted _ _ _ V _ H) as [[]|H']; auto.
    - apply (v_sorted _ _ _ V).
    - apply (v_shape _ _ _ V).
    - intros H. pose proof (v_block _ _ _ V _ _ H) as (H1 & H2 & H3). destruct (Nat.eqb_spec i n) as [->|Q]; [congruence|]. auto.
    - destruct (Nat.eqb_spec i n) as [->|Q]; [cbn; congruence|]. apply (v_blocked _ _ _ V).
    - intros [<-|[]]. rewrite Nat.eqb_refl. discriminate.
    - constructor; [intros []|constructor].
  Qed.


  Lemma Inv_posting t c s :
    Inv [] s -> runs s t = true -> t <> home c ->
    let n := length (s_calls s) in
    Inv [] (with_stack t (Blocked n :: s_stacks s t) (with_posted (home c) (s_posted s (home c) ++ [n]) (calling t c s))).
  Proof.
    clear chs.
    intros V R D n. set (s' := with_stack _ _ _).
    assert (EC : forall j, call_at s' j = if Nat.eqb j n then new_call t c else call_at s j) by (intros j; apply call_at_calling).
    assert (OV : ph s n = Over) by (unfold call_at; rewrite nth_overflow; auto).
    assert (ES : forall u f, In f (s_stacks s' u) <-> (u = t /\ f = Blocked n) \/ In f (s_stacks s u)).
    { intros u f. unfold s', with_stack, put. cbn [s_stacks with_posted calling tell with_calls].
      destruct (Nat.eqb_spec u t) as [->|]; cbn; intuition congruence. }
    assert (EQ : forall u i, In i (s_posted s' u) <-> (u = home c /\ i = n) \/ In i (s_posted s u)).
    { intros u i. unfold s', with_stack, with_posted, put. cbn [s_posted calling tell with_calls].
      destruct (Nat.eqb_spec u (home c)) as [->|]; [rewrite in_app_iff; cbn|]; intuition congruence. }
    split; intros *; rewrite ?EC.
    - rewrite ES. intros [[_ H]|H]; [discriminate|]. pose proof (v_loop _ _ _ V _ _ H) as (H1 & H2 & _).
      destruct (Nat.eqb_spec i n) as [->|Q]; [congruence|]. auto.
    - destruct (Nat.eqb_spec i n) as [->|Q]; [discriminate|]. intros H. right. apply ES.
      destruct (v_inside _ _ _ V _ H) as [[]|H']; auto.
    - unfold s', with_stack, put. cbn [s_stacks with_posted calling tell with_calls].
      destruct (Nat.eqb_spec t0 t) as [->|]; [|apply (v_nodup _ _ _ V)]. constructor; [|apply (v_nodup _ _ _ V)].
      intros H. apply (v_block _ _ _ V) in H. destruct H as (_ & _ & H). congruence.
    - rewrite EQ. intros [[-> ->]|H]; [rewrite Nat.eqb_refl; cbn; auto|]. pose proof (v_post _ _ _ V _ _ H) as (H1 & H2 & H3 & _).
      destruct (Nat.eqb_spec i n) as [->|Q]; [congruence|]. auto.
    - destruct (Nat.eqb_spec i n) as [->|Q]; [intros _; right; apply EQ; now left|]. intros H. right. apply EQ.
      destruct (v_posted _ _ _ V _ H) as [[]|H']; auto.
    - unfold s', with_stack, with_posted, put. cbn [s_posted calling tell with_calls].
      destruct (Nat.eqb_spec t0 (home c)) as [->|]; [|apply (v_sorted _ _ _ V)]. apply sorted_snoc; [apply (v_sorted _ _ _ V)|].
      intros y H. apply (v_post _ _ _ V) in H. destruct H as (H & _). apply pending_bound. congruence.
    - unfold s', with_stack, put. cbn [s_stacks with_posted calling tell with_calls].
      destruct (Nat.eqb_spec t0 t) as [->|]; [|apply (v_shape _ _ _ V)]. intros E j. injection E as <- <-. intros H.
      unfold runs in R. destruct (s_stacks s t) as [|g st] eqn:E; [destruct H|]. destruct H as [->|H]; [discriminate|].
      now apply (v_shape _ _ _ V _ _ _ E j).
    - rewrite ES. intros [[-> H]|H]; [injection H as ->; rewrite Nat.eqb_refl; cbn; repeat split; auto; discriminate|].
      pose proof (v_block _ _ _ V _ _ H) as (H1 & H2 & H3). destruct (Nat.eqb_spec i n) as [->|Q]; [congruence|]. auto.
    - rewrite ES. destruct (Nat.eqb_spec i n) as [->|Q]; [cbn; auto|]. intros H H'. right. now apply (v_blocked _ _ _ V).
    - intros [].
    - constructor.
  Qed.

  Lemma Log_posting t c s q st : Inv [] s -> Log s -> runs s t = true -> 
    Log (with_stack t (Blocked (length (s_calls s)) :: s_stacks s t) (with_posted q st (calling t c s))).
  Proof.
    intros V L R. assert (L' := Log_calling t c s V L R).
    assert (H := l_order _ _ _ L'). split; try apply L'.
    cbn [with_stack with_posted s_stacks s_log]. intros *. unfold put. destruct (Nat.eqb_spec t0 t) as [->|]; [|apply H].
    intros E * H1 H2. destruct above as [|f above]; [discriminate|]. injection E as _ E. eapply H; eauto.
  Qed.

  (** *** Calls leave the queue *)


  Lemma Inv_take s t X q :
    Inv [] s -> (forall i, In i (s_posted s t) <-> In i X \/ In i q) -> NoDup X -> (forall i, In i X -> ~ In i q) ->
    StronglySorted lt q -> Inv X (with_posted t q s).
  Proof.
    clear chs.
    intros V E NX D SQ. set (s' := with_posted t q s).
    assert (PX : forall i, In i X -> ph s i = Posted /\ at_home s i = t).
    { intros i H. assert (H' : In i (s_posted s t)) by (apply E; auto). apply (v_post _ _ _ V) in H'. tauto. }
    split; intros *; change (call_at s') with (call_at s); change (s_stacks s') with (s_stacks s).
    - intros H. pose proof (v_loop _ _ _ V _ _ H) as (H1 & H2 & _). repeat split; auto. intros H3. apply PX in H3. destruct H3. congruence.
    - intros H. destruct (v_inside _ _ _ V _ H) as [[]|H']; auto.
    - apply (v_nodup _ _ _ V).
    - unfold s', with_posted, put. cbn [s_posted]. destruct (Nat.eqb_spec t0 t) as [->|Q].
      + intros H. assert (H' : In i (s_posted s t)) by (apply E; auto). apply (v_post _ _ _ V) in H'. repeat split; try tauto.
        intros H2. now apply (D i).
      + intros H. pose proof (v_post _ _ _ V _ _ H) as (H1 & H2 & H3 & _). repeat split; auto. intros H4. apply PX in H4. destruct H4. congruence.
    - intros H. destruct (v_posted _ _ _ V _ H) as [[]|H']. unfold s', with_posted, put. cbn [s_posted].
      destruct (Nat.eqb_spec (at_home s i) t) as [Q|Q]; auto. rewrite Q in H'. now apply E in H'.
    - unfold s', with_posted, put. cbn [s_posted]. destruct (Nat.eqb_spec t0 t) as [->|Q]; [auto|apply (v_sorted _ _ _ V)].
    - apply (v_shape _ _ _ V).
    - apply (v_block _ _ _ V).
    - apply (v_blocked _ _ _ V).
    - intros H. apply PX in H. destruct H. congruence.
    - auto.
  Qed.
End Threads.

(** Blocking calls: when they are safe and when they end. *)

From Coq Require Import ZArith List Bool Arith Lia Sorted.
From Verif Require Import Base FrameModel BlockModel BlockSpec BlockProofs BlockRun BlockSafe.
Import ListNotations.
Local Close Scope Z_scope.

Lemma canceled_known : known canceled.
Proof. eexists. reflexivity. Qed.

Lemma held_overtaken calls i l : In (Loop i) l -> held calls i l = true ->
  exists above below j, l = above ++ Loop i :: below /\ In (Loop j) above /\ k_net (nth j calls no_call) = None.
Proof.
  induction l as [|f l IH]; intros I H; [destruct I|]. destruct f as [j|j]; cbn in H.
  - destruct (Nat.eqb_spec j i) as [->|D]; [discriminate|]. destruct I as [I|I]; [congruence|].
    destruct (k_net (nth j calls no_call)) as [ans|] eqn:N.
    + destruct (IH I H) as (a & b & k & -> & K & M). exists (Loop j :: a), b, k. repeat split; auto. now right.
    + apply in_split in I. destruct I as (a & b & ->). exists (Loop j :: a), b, j. repeat split; auto. now left.
  - destruct I as [I|I]; [discriminate|]. destruct (IH I H) as (a & b & k & -> & K & M).
    exists (Blocked j :: a), b, k. repeat split; auto. now right.
Qed.

Section Threads.
  Context (home : nat -> nat) (loops : nat -> bool) (http2 : nat -> bool).

  Notation client s i := (k_client (call_at s i)).
  Notation from s i := (k_from (call_at s i)).
  Notation ph s i := (k_phase (call_at s i)).
  Notation at_home s i := (home (k_client (call_at s i))).
  Notation Inv := (Inv home).
  Notation step := (step home loops http2).
  Notation run := (run home loops http2).

  (** *** What [give_back] changes *)

  Lemma give_back_call s i code data j : i < length (s_calls s) ->
    call_at (give_back home i code data s) j = if Nat.eqb j i then in_phase Over (call_at s i) else call_at s j.
  Proof. intros N. rewrite <- call_at_set by auto. unfold give_back, with_stack. destruct (Nat.eqb _ _); reflexivity. Qed.
  Lemma give_back_stack s i code data t :
    s_stacks (give_back home i code data s) t
    = if Nat.eqb t (from s i) && negb (Nat.eqb (from s i) (at_home s i)) then tl (s_stacks s t) else s_stacks s t.
  Proof.
    unfold give_back. destruct (Nat.eqb (from s i) (at_home s i)); cbn; [now rewrite andb_false_r|]. unfold put.
    rewrite andb_true_r. destruct (Nat.eqb_spec t (from s i)) as [->|]; reflexivity.
  Qed.
  Lemma give_back_rest s i code data :
    s_posted (give_back home i code data s) = s_posted s /\ s_gone (give_back home i code data s) = s_gone s
    /\ length (s_calls (give_back home i code data s)) = length (s_calls s) /\ s_channels (give_back home i code data s) = s_channels s.
  Proof. unfold give_back, with_stack. destruct (Nat.eqb _ _); cbn; rewrite set_nth_length; auto. Qed.

  (** [finish] is [give_back] up to the log. *)
  Lemma finish_shape s i code data s' : finish home i code data s = Ok s' ->
    exists m, s' = give_back home i code data (tell m s) /\ (forall d e, In (ClientError d e) m -> d = client s i)
              /\ (forall r, In r m -> exists d e, r = ClientError d e).
  Proof.
    unfold finish. destruct (code =? 0)%Z; [|destruct (s_gone s (client s i)); [discriminate|]]; intros H; injection H as <-.
    - exists []. repeat split; [|intros ? ? []|intros ? []].
      unfold tell. rewrite app_nil_r. now destruct s.
    - exists [ClientError (client s i) code]. repeat split.
      + intros d e [H|[]]. now injection H as ->.
      + intros r [<-|[]]. eauto.
  Qed.

  (** *** Safety *)

  Section Answers.
    Context (Q : answer -> Prop) (QC : Q canceled).

    Definition okc (k : call) : Prop :=
      k_phase k = Inside -> k_alive k = true /\ (k_net k = None -> k_timer k = true) /\ forall a, k_net k = Some a -> Q a.
    Definition Live (s : state) : Prop := (forall i, okc (call_at s i)) /\ (forall c, s_gone s c = false).
    Definition q_event (e : event) : Prop :=
      match e with Call _ _ (Some a) | Dispatch _ (Some a) | Answer _ a => Q a | _ => True end.

    Lemma Live_ext s s' : (forall i, call_at s' i = call_at s i) -> s_gone s' = s_gone s -> Live s -> Live s'.
    Proof. intros E G [L1 L2]. split; [intros i; rewrite E; auto|]. now rewrite G. Qed.
    Lemma Live_set s i k : i < length (s_calls s) -> okc k -> Live s -> Live (with_call i k s).
    Proof.
      intros N K [L1 L2]. split; [|auto]. intros j. rewrite call_at_set by auto. destruct (Nat.eqb j i); auto.
    Qed.

    (** Outcomes that are allowed: an answer that cannot be processed may throw, if there is one. *)
    Definition safe (r : res state) : Prop :=
      (forall u, r <> UB u) /\ (forall s', r = Ok s' -> Live s') /\ ((forall a, Q a -> known a) -> exists s', r = Ok s').
    Lemma safe_ok s : Live s -> safe (Ok s).
    Proof. intros L. repeat apply conj; [discriminate|intros s' H; now injection H as <-|eauto]. Qed.

    Lemma give_back_live s i code data : i < length (s_calls s) -> Live s -> Live (give_back home i code data s).
    Proof.
      intros N L. destruct (give_back_rest s i code data) as (_ & G & _). split.
      - intros j. rewrite give_back_call by auto. destruct (Nat.eqb j i); [intros H; discriminate|apply L].
      - rewrite G. apply L.
    Qed.
    Lemma finish_safe s i code data : i < length (s_calls s) -> Live s -> safe (finish home i code data s).
    Proof.
      intros N L. unfold finish. destruct (code =? 0)%Z; [now apply safe_ok, give_back_live|].
      destruct L as [L1 L2]. rewrite L2. apply safe_ok, give_back_live; auto. split; auto.
    Qed.
    Lemma conclude_safe s i a : i < length (s_calls s) -> Live s -> Q a -> safe (conclude home i a s).
    Proof.
      intros N L A. unfold conclude. destruct a as [[err st] body].
      destruct (processReply err st body) as [[code data]| | |] eqn:P; cbn [bind].
      - now apply finish_safe.
      - repeat apply conj; try discriminate. intros K. destruct (K _ A) as (r & R). congruence.
      - exfalso. unfold processReply in P. destruct (negb _); [|destruct (negb _); discriminate].
        assert (M : forall l, map_at err l <> UB r) by (induction l as [|[x y] l IH]; cbn; [discriminate|destruct (_ =? _)%Z; auto; discriminate]).
        specialize (M StatusCodeMap). destruct (map_at err StatusCodeMap); cbn in P; congruence.
      - exfalso. unfold processReply in P. destruct (negb _); [|destruct (negb _); discriminate].
        assert (M : forall l, map_at err l <> OutOfFuel) by (induction l as [|[x y] l IH]; cbn; [discriminate|destruct (_ =? _)%Z; auto; discriminate]).
        specialize (M StatusCodeMap). destruct (map_at err StatusCodeMap); cbn in P; congruence.
    Qed.
    Lemma begin_safe s i at_once : i < length (s_calls s) -> Live s -> (forall a, at_once = Some a -> Q a) -> safe (begin home at_once i s).
    Proof.
      intros N L A. unfold begin. destruct (s_channels s (client s i)) as [ch|]; [|now apply finish_safe].
      destruct at_once as [a|].
      - apply conclude_safe; [cbn; now rewrite set_nth_length| |auto].
        eapply Live_ext with (s := with_call i (answered a (sent ch (s_now s) (call_at s i))) s); auto.
        apply Live_set; auto. intros _. cbn. repeat split; auto.
      - apply safe_ok. eapply Live_ext with (s := with_call i (sent ch (s_now s) (call_at s i)) s); auto.
        apply Live_set; auto. intros _. cbn. repeat split; [discriminate].
    Qed.

    Lemma step_safe s e : Inv [] s -> Live s -> careful_event home s e -> q_event e -> safe (step s e).
    Proof.
      intros V L C A. destruct e as [t c at_once|t at_once|i a|i|t|c ch kept|c kept|d]; cbn [BlockModel.step].
      - destruct (_ && _); [|now apply safe_ok].
        set (s1 := tell _ (with_calls _ s)).
        assert (L1 : Live s1).
        { split; [|apply L]. intros j. change (call_at s1 j) with (call_at (calling t c s) j). rewrite call_at_calling.
          destruct (Nat.eqb _ _); [intros H; discriminate|apply L]. }
        destruct (Nat.eqb _ _); [|apply safe_ok; eapply Live_ext; [..|exact L1]; auto].
        apply begin_safe; auto; [cbn; rewrite app_length; cbn; lia|]. intros a ->. exact A.
      - destruct (ready loops s t); [|now apply safe_ok]. destruct (s_posted s t) as [|i q] eqn:P; [now apply safe_ok|].
        apply begin_safe; [|eapply Live_ext; [..|exact L]; auto|intros a ->; exact A].
        apply pending_bound. assert (I : In i (s_posted s t)) by (rewrite P; now left). apply (v_post _ _ _ V) in I.
        destruct I as [I _]. change (ph s i <> Over). congruence.
      - unfold waiting. destruct (ph s i) eqn:P; try (now apply safe_ok). destruct (_ && _); [|now apply safe_ok].
        destruct (k_net (call_at s i)) eqn:N; apply safe_ok; auto.
        eapply Live_ext; [reflexivity|reflexivity|]. apply Live_set; auto; [apply pending_bound; congruence|].
        intros _. cbn. split; [apply L; auto|]. split; [discriminate|]. intros b B. now injection B as <-.
      - unfold waiting. destruct (ph s i) eqn:P; try (now apply safe_ok). destruct (_ && _); [|now apply safe_ok].
        assert (B : i < length (s_calls s)) by (apply pending_bound; congruence).
        destruct (k_net (call_at s i)) as [b|] eqn:N.
        + destruct (held _ _ _) eqn:H.
          * exfalso. cbn in C. destruct C as [C|C]; [congruence|]. apply C.
            destruct (v_inside _ _ _ V i P) as [[]|I]. destruct (held_overtaken _ _ _ I H) as (x & y & j & X1 & X2 & X3).
            exists x, y, j. auto.
          * apply safe_ok, Live_set; auto. intros _. cbn. destruct L as [L _]. destruct (L i P) as (L1 & L2 & L3). repeat split; auto. congruence.
        + apply safe_ok. eapply Live_ext; [reflexivity|reflexivity|]. apply Live_set; auto. intros _. cbn.
          split; [apply L; auto|]. split; [discriminate|]. intros b E. injection E as <-. exact QC.
      - destruct (s_stacks s t) as [|[i|i] rest] eqn:S; try (now apply safe_ok).
        assert (I : In (Loop i) (s_stacks s t)) by (rewrite S; now left). apply (v_loop _ _ _ V) in I. destruct I as [I _].
        destruct L as [L G]. destruct (L i I) as (L1 & _ & L2).
        destruct (k_net (call_at s i)) as [a|] eqn:N; [|apply safe_ok; now split]. rewrite L1.
        apply conclude_safe; auto; [|split; auto]. apply (pending_bound s). congruence.
      - cbn in C. subst kept. destruct (_ && _); [|now apply safe_ok]. apply safe_ok.
        unfold leave_channel. cbn [orb]. destruct (s_channels s c); (eapply Live_ext; [..|exact L]; auto).
      - destruct C.
      - destruct (0 <=? d)%Z; apply safe_ok; auto.
    Qed.

    Lemma run_safe l : forall s chs, Inv [] s -> Log home chs s -> Errs s -> Live s -> throughout step (careful_event home) s l ->
      Forall q_event l -> safe (run s l).
    Proof.
      induction l as [|e l IH]; intros s chs V L E LV T F; [now apply safe_ok|]. cbn [BlockModel.run throughout] in *.
      destruct T as [C T]. inversion F as [|x y F1 F2]; subst x y. pose proof (step_safe s e V LV C F1) as S.
      destruct (step s e) as [s1|x|u|] eqn:Q'; cbn [bind].
      - destruct (step_good home loops http2 chs s e s1 V L E Q') as (V1 & L1 & E1). apply (IH s1 chs); auto. apply S. reflexivity.
      - repeat apply conj; try discriminate. intros K. destruct S as (_ & _ & S). destruct (S K). discriminate.
      - exfalso. apply (proj1 S u). reflexivity.
      - repeat apply conj; try discriminate. intros K. destruct S as (_ & _ & S). destruct (S K). discriminate.
    Qed.
  End Answers.

  (** *** Stacks *)

  (** Stacks lose frames, or gain one: for a call that was made or is executed. *)
  Definition grows (e : event) (t : nat) (st st' : list frame) : Prop :=
    (exists k, st' = skipn k st) \/ (exists i, st' = Blocked i :: st)
    \/ (exists i, st' = Loop i :: st
          /\ ((exists c a, e = Call t c a /\ t = home c) \/ (exists a, e = Dispatch t a))).

  Lemma finish_stacks s i code data s' : finish home i code data s = Ok s' -> forall t, exists k, s_stacks s' t = skipn k (s_stacks s t).
  Proof.
    intros H t. destruct (finish_shape _ _ _ _ _ H) as (m & -> & _). rewrite give_back_stack.
    change (s_stacks (tell m s)) with (s_stacks s). destruct (_ && _); [exists 1; now destruct (s_stacks s t)|now exists 0].
  Qed.
  Lemma conclude_stacks s i a s' : conclude home i a s = Ok s' -> forall t, exists k, s_stacks s' t = skipn k (s_stacks s t).
  Proof.
    unfold conclude. destruct a as [[err st] body]. destruct (processReply err st body) as [[code data]| | |]; cbn; try discriminate.
    apply finish_stacks.
  Qed.
  Lemma begin_stacks s i at_once s' : begin home at_once i s = Ok s' -> forall t,
    (exists k, s_stacks s' t = skipn k (s_stacks s t)) \/ (t = at_home s i /\ s_stacks s' t = Loop i :: s_stacks s t).
  Proof.
    unfold begin. destruct (s_channels s (client s i)) as [ch|].
    - destruct at_once as [a|]; intros H t.
      + left. now apply (conclude_stacks _ _ _ _ H).
      + injection H as <-. cbn. unfold put. destruct (Nat.eqb_spec t (at_home s i)) as [->|]; [now right|left; now exists 0].
    - intros H t. left. now apply (finish_stacks _ _ _ _ _ H).
  Qed.
  Lemma cancel_stacks l : forall s t, exists k, s_stacks (cancel home l s) t = skipn k (s_stacks s t).
  Proof.
    induction l as [|i l IH]; intros s t; cbn [cancel]; [now exists 0|].
    destruct (IH (give_back home i 2%Z [] s) t) as [k ->]. rewrite give_back_stack. destruct (_ && _); [|now exists k].
    exists (k + 1). destruct (s_stacks s t) as [|f st]; cbn [tl]; [now rewrite !skipn_nil|]. now rewrite Nat.add_1_r.
  Qed.

  Lemma step_stacks s e s' : Inv [] s -> step s e = Ok s' -> forall t, grows e t (s_stacks s t) (s_stacks s' t).
  Proof.
    intros V H t. assert (SAME : forall l, grows e t l l) by (intros l; left; now exists 0).
    destruct e as [u c at_once|u at_once|i a|i|u|c ch kept|c kept|d]; cbn [BlockModel.step] in H.
    - destruct (_ && _); [|injection H as <-; auto]. destruct (Nat.eqb_spec u (home c)) as [->|D].
      + destruct (begin_stacks _ _ _ _ H t) as [[k E]|[E1 E2]]; [left; now exists k|]. right. right. rewrite E2.
        eexists. split; [reflexivity|]. left. exists c, at_once.
        fold (new_call (home c) c) in E1. fold (calling (home c) c s) in E1.
        rewrite call_at_calling, Nat.eqb_refl in E1. cbn in E1. subst t. auto.
      + injection H as <-. cbn. unfold put. destruct (Nat.eqb_spec t u) as [->|]; [|auto]. right. left. eexists. reflexivity.
    - destruct (ready loops s u); [|injection H as <-; auto]. destruct (s_posted s u) as [|i q] eqn:P; [injection H as <-; auto|].
      destruct (begin_stacks _ _ _ _ H t) as [[k E]|[E1 E2]]; [left; now exists k|]. right. right. rewrite E2.
      eexists. split; [reflexivity|]. right. exists at_once. f_equal.
      assert (I : In i (s_posted s u)) by (rewrite P; now left). apply (v_post _ _ _ V) in I.
      change (t = at_home s i) in E1. destruct I as (_ & I & _). congruence.
    - destruct (waiting _ _ _ _); [|injection H as <-; auto]. destruct (k_net (call_at s i)); injection H as <-; apply SAME.
    - destruct (_ && _); [|injection H as <-; auto].
      destruct (k_net (call_at s i)); [destruct (held _ _ _)|]; injection H as <-; apply SAME.
    - destruct (s_stacks s u) as [|[i|i] rest] eqn:S; try (injection H as <-; apply SAME).
      destruct (k_net (call_at s i)) as [a|]; [|injection H as <-; apply SAME].
      destruct (k_alive (call_at s i)); [|discriminate].
      destruct (conclude_stacks _ _ _ _ H t) as [k E]. rewrite E. cbn. unfold put. left.
      destruct (Nat.eqb_spec t u) as [->|]; [|now exists k]. rewrite S. exists (Datatypes.S k). reflexivity.
    - destruct (runs _ _ && _); injection H as <-; [|auto].
      destruct (leave_same http2 c (kept || match s_channels s c with Some old => old =? ch | None => true end) s) as (A1 & _).
      cbn. rewrite A1. auto.
    - destruct (runs _ _ && _); [|injection H as <-; auto]. injection H as <-.
      destruct (leave_same http2 c kept s) as (A1 & _).
      destruct (cancel_stacks (filter (fun i => client s i =? c) (s_posted s (home c)))
        (with_posted (home c) (filter (fun i => negb (client s i =? c)) (s_posted s (home c)))
           (with_channel c None (with_gone c (leave_channel http2 c kept s)))) t) as [k E].
      rewrite E. cbn. rewrite A1. left. now exists k.
    - destruct (0 <=? d)%Z; injection H as <-; auto.
  Qed.

  Lemma run_Flat l : forall s chs, Inv [] s -> Log home chs s -> Errs s ->
    (forall t a j b i c, s_stacks s t <> a ++ Loop j :: b ++ Loop i :: c) ->
    throughout step (flat_event home) s l -> throughout step (careful_event home) s l.
  Proof.
    induction l as [|e l IH]; cbn [throughout]; intros s chs V L E F T; auto. destruct T as [T1 T2]. split.
    - destruct e; cbn in *; auto. right. intros (x & y & j & X1 & X2 & X3). apply in_split in X2. destruct X2 as (x1 & x2 & ->).
      rewrite <- app_assoc in X1. now apply F in X1.
    - destruct (step s e) as [s'| | |] eqn:S; auto. destruct (step_good home loops http2 chs s e s' V L E S) as (V1 & L1 & E1).
      apply (IH s' chs); auto. intros * G.
      destruct (step_stacks s e s' V S t) as [[k K]|[[k K]|[k [K W]]]]; rewrite K in G.
      + apply (F t (firstn k (s_stacks s t) ++ a) j b i c).
        rewrite <- (firstn_skipn k (s_stacks s t)) at 1. now rewrite G, <- app_assoc.
      + destruct a as [|f a]; [discriminate|]. injection G as _ G. now apply F in G.
      + assert (N : s_stacks s t = []).
        { destruct W as [(d & a' & -> & ->)|(a' & ->)]; cbn in T1; auto. }
        rewrite N in G. destruct a as [|f a]; injection G as _ G; [destruct b|destruct a]; discriminate.
  Qed.
End Threads.

(** Undefined behaviour, deadlocks and progress when handlers, slots and other threads use a reply or stream. *)

From Coq Require Import ZArith List Bool Arith Lia.
From Verif Require Import Base AsyncModel AsyncSpec AsyncProofs AsyncLog.
Import ListNotations.
Local Close Scope Z_scope.

Section Operation.
  Context (home : nat) (stream : bool) (decode : data -> bool) (listens : nat -> bool).
  Notation step := (step home stream decode listens).
  Notation run := (run home stream decode listens).
  Notation turn := (turn home listens).
  Notation good := (good home).

  Lemma run_app a b s : run s (a ++ b) = (s' <- run s a ;; run s' b).
  Proof. revert s; induction a as [|e a IH]; intros s; auto. cbn. destruct (step s e); cbn; auto. Qed.

  (** No handler has been added since the handlers of the message began to be called. *)
  Definition fresh (s : state) : Prop := forall n last d, In (Handling n last d) (a_stacks s home) -> last = length (a_handlers s).

  Lemma fresh_frames s s' : fresh s -> a_handlers s' = a_handlers s ->
    (forall n last d, In (Handling n last d) (a_stacks s' home) -> In (Handling n last d) (a_stacks s home)) -> fresh s'.
  Proof. intros F E X n last d I. rewrite E. apply (F n last d). now apply X. Qed.
  Lemma fresh_push s t f : fresh s -> (forall n last d, f <> Handling n last d) -> fresh (push t f s).
  Proof.
    intros F N. apply (fresh_frames s); auto. cbn -[put]. intros n last d I.
    destruct (Nat.eq_dec home t) as [->|X]; [rewrite put_same in I; destruct I as [I|I]; [now destruct (N n last d)|auto]|now rewrite put_other in I].
  Qed.
  Lemma fresh_pop s t : fresh s -> fresh (pop t s).
  Proof.
    intros F. apply (fresh_frames s); auto. cbn -[put]. intros n last d I.
    destruct (Nat.eq_dec home t) as [->|X]; [rewrite put_same in I; destruct (a_stacks s t); [destruct I|now right]|now rewrite put_other in I].
  Qed.
  Lemma fresh_turn s n last d : fresh s -> last = length (a_handlers s) -> exists s', turn n last d s = Ok s' /\ fresh s'.
  Proof.
    intros F ->. unfold AsyncModel.turn. rewrite Nat.eqb_refl. destruct (nth_error _ _) as [k|]; (eexists; split; [reflexivity|]).
    - intros m x e. cbn -[put]. rewrite put_same. intros [Q|I]; [now injection Q|]. now apply (F m x e).
    - intros m x e. cbn -[put]. rewrite put_same. intros [Q|I]; [discriminate|]. now apply (F m x e).
  Qed.
  Lemma fresh_granted s t w : fresh s -> exists s', granted home stream listens t w s = Ok s' /\ fresh s'.
  Proof.
    intros F. destruct w as [|d|who]; cbn [granted].
    - eexists. split; [reflexivity|]. apply (fresh_push (with_lock (Some t) s)); auto. discriminate.
    - unfold deliver. apply fresh_turn; auto.
    - eexists. split; [reflexivity|]. unfold abort_now. apply fresh_push; [now destruct stream|discriminate].
  Qed.
  Lemma fresh_ask s t w : fresh s -> exists s', ask home stream listens t w s = Ok s' /\ fresh s'.
  Proof.
    intros F. unfold ask. destruct (a_lock s); [|now apply fresh_granted]. eexists. split; [reflexivity|]. apply fresh_push; auto. discriminate.
  Qed.
  Lemma fresh_do_abort s who : fresh s -> exists s', do_abort home stream listens who s = Ok s' /\ fresh s'.
  Proof.
    intros F. unfold do_abort. destruct stream eqn:ST; [|rewrite <- ST; now apply fresh_ask]. eexists. split; [reflexivity|]. unfold abort_now.
    apply fresh_push; auto. discriminate.
  Qed.

  Lemma step_fresh s e : good s -> fresh s -> careful_event home s e -> exists s', step s e = Ok s' /\ fresh s'.
  Proof.
    intros G F C. destruct e as [d|t|t|k|t|t| |t]; cbn [AsyncModel.step].
    - destruct (a_stacks s home); [now apply fresh_ask|eauto].
    - destruct (runs s t); [now apply fresh_ask|eauto].
    - destruct (runs s t); [|eauto]. destruct (Nat.eqb t home); [now apply fresh_do_abort|]. eexists. split; [reflexivity|].
      apply (fresh_push (with_posted (a_posted s ++ [t]) s)); auto. discriminate.
    - destruct (runs s home); [|eauto]. eexists. split; [reflexivity|]. intros n last d I. destruct C. now exists n, last, d.
    - destruct (a_stacks s t) as [|f r] eqn:E; [eauto|]. destruct f as [n last d|[u|]| | |w| |d]; eauto.
      + assert (T : t = home) by (apply (v_place _ _ _ _ G t (Handling n last d)); rewrite E; now left). subst t.
        apply fresh_turn; [now apply fresh_pop|]. apply (F n last d). rewrite E. now left.
      + eexists. split; [reflexivity|]. now do 2 apply fresh_pop.
      + eexists. split; [reflexivity|]. now apply fresh_pop.
      + eexists. split; [reflexivity|]. exact (fresh_pop s t F).
      + eexists. split; [reflexivity|]. now apply fresh_pop.
    - destruct (a_stacks s t) as [|f r] eqn:E; [eauto|]. destruct f as [n last d|who| | |w| |d]; eauto.
      + destruct (decode (a_data s)); (eexists; split; [reflexivity|]).
        * exact (fresh_pop s t F).
        * apply (fresh_push (pop t s)); [now apply fresh_pop|discriminate].
      + destruct (a_lock s); [eauto|]. apply fresh_granted. now apply fresh_pop.
    - destruct (a_stacks s home); [|eauto]. destruct (a_posted s) as [|t q]; [eauto|]. now apply fresh_do_abort.
    - destruct (a_stacks s t); [|eauto]. destruct (a_notes s t); [eauto|]. eexists. split; [reflexivity|].
      apply (fresh_push (with_notes (put (a_notes s) t l) s)); auto. discriminate.
  Qed.
  Lemma run_fresh evs : forall s, good s -> fresh s -> throughout step (careful_event home) s evs -> exists s', run s evs = Ok s' /\ fresh s'.
  Proof.
    induction evs as [|e evs IH]; intros s G F; cbn [throughout AsyncModel.run]; [intros _; now exists s|]. intros [C T].
    destruct (step_fresh s e G F C) as (s1 & E & F1). rewrite E in T |- *. cbn [bind]. apply IH; auto. now apply (step_good home stream decode listens s e).
  Qed.
  Lemma start_fresh hs : fresh (start hs).
  Proof. intros n last d []. Qed.

  (** A handler is added by a handler. *)
  Lemma subscribe_ub hs evs s n last d r k : stream = true -> run (start hs) evs = Ok s -> a_stacks s home = Handling n last d :: r ->
    run s [Subscribe k; Return home] = UB DanglingRef.
  Proof.
    intros ST R E. destruct (start_inv home stream decode listens hs evs s R) as [G V].
    assert (O : opened hs (a_log s) n last d) by (apply (l_open _ _ _ _ _ _ _ V ST); rewrite E; now left).
    destruct O as (a & b & Q & _ & _ & L & _).
    cbn -[AsyncModel.turn]. unfold runs. rewrite E. cbn [bind]. cbn -[AsyncModel.turn]. rewrite E. unfold AsyncModel.turn. cbn.
    destruct (Nat.eqb_spec (length (a_handlers s ++ [k])) last) as [X|X]; auto. exfalso.
    pose proof (l_handlers _ _ _ _ _ _ _ V) as H. rewrite H, Q in X. unfold added in *. rewrite flat_map_app in X. rewrite L in X.
    rewrite !app_length in X. cbn in X. lia.
  Qed.

  (** ** Deadlocks *)
  (** A thread that has the mutex waits for the mutex, or for the thread of the operation, which waits for the mutex. *)
  Definition stuck (t : nat) (s : state) : Prop :=
    a_lock s = Some t /\
    ((exists w r, a_stacks s t = Want w :: r) \/
     (t <> home /\ (exists r, a_stacks s t = Remote :: r) /\ exists w r, a_stacks s home = Want w :: r)).
  Definition dead (t : nat) (s s' : state) : Prop :=
    stuck t s' /\ a_stacks s' t = a_stacks s t /\ exists l, a_log s' = a_log s ++ l /\ nothing_set l /\ nothing_read l.

  Lemma dead_none t s s' : stuck t s -> a_lock s' = a_lock s -> (forall u f r, a_stacks s u = f :: r -> ~ user f -> a_stacks s' u = f :: r) ->
    (exists l, a_log s' = a_log s ++ l /\ nothing_set l /\ nothing_read l) -> dead t s s'.
  Proof.
    intros [L W] E X Y. destruct W as [(w & r & W)|(N & (r & W) & w & q & H)].
    - pose proof (X _ _ _ W (fun Z => Z)) as W'. split; [split; [congruence|left; eauto]|]. split; [congruence|auto].
    - pose proof (X _ _ _ W (fun Z => Z)) as W'. pose proof (X _ _ _ H (fun Z => Z)) as H'.
      split; [split; [congruence|right; eauto 6]|]. split; [congruence|auto].
  Qed.
  Lemma no_log (l : list report) : exists m, l = l ++ m /\ nothing_set m /\ nothing_read m.
  Proof. exists []. split; [now rewrite app_nil_r|]. split; [intros d []|intros t d ok; split; intros []]. Qed.
  Lemma one_log (l : list report) r : match r with Sets _ | ReadBegins _ | GotRead _ _ _ => False | _ => True end ->
    exists m, l ++ [r] = l ++ m /\ nothing_set m /\ nothing_read m.
  Proof.
    intros R. exists [r]. split; auto. split.
    - intros d [->|[]]. exact R.
    - intros t d ok. split; intros [->|[]]; exact R.
  Qed.
  Lemma other_put (st : nat -> list frame) t l : Forall user (st t) -> forall u f r, st u = f :: r -> ~ user f -> put st t l u = f :: r.
  Proof.
    intros U u f r E N. destruct (Nat.eq_dec u t) as [->|X]; [|now rewrite put_other]. rewrite E in U. inversion U. contradiction.
  Qed.
  Lemma tip_put (st : nat -> list frame) t g q l : st t = g :: q -> user g -> forall u f r, st u = f :: r -> ~ user f -> put st t l u = f :: r.
  Proof.
    intros E U u f r E' N. destruct (Nat.eq_dec u t) as [->|X]; [congruence|now rewrite put_other].
  Qed.

  Lemma turn_dead s s0 t n last d s' : turn n last d s0 = Ok s' -> stuck t s -> a_lock s0 = a_lock s -> a_log s0 = a_log s ->
    (forall l u f r, a_stacks s u = f :: r -> ~ user f -> put (a_stacks s0) home l u = f :: r) -> dead t s s'.
  Proof.
    intros T K EL EG X. unfold AsyncModel.turn in T. destruct (Nat.eqb _ _); [|discriminate]. destruct (nth_error _ _); injection T as <-.
    - apply dead_none; auto; cbn -[put]; [now apply X|rewrite EG; now apply one_log].
    - apply dead_none; auto; cbn -[put]; [now apply X|rewrite EG; now apply one_log].
  Qed.
  Lemma ask_dead s t u w s' : stuck t s -> Forall user (a_stacks s u) -> ask home stream listens u w s = Ok s' -> dead t s s'.
  Proof.
    intros K U. pose proof K as [L _]. unfold ask. rewrite L. intros Q. injection Q as <-. apply dead_none; auto; cbn -[put]; [now apply other_put|apply no_log].
  Qed.
  Lemma do_abort_dead s t who s' : stuck t s -> Forall user (a_stacks s home) -> do_abort home stream listens who s = Ok s' -> dead t s s'.
  Proof.
    intros K U. unfold do_abort. destruct stream eqn:ST; [|rewrite <- ST; now apply ask_dead]. intros Q. injection Q as <-. unfold abort_now.
    apply dead_none; auto; cbn -[put]; [now apply other_put|now apply one_log].
  Qed.
  Lemma dead_refl s t : stuck t s -> dead t s s.
  Proof. intros K. split; auto. split; auto. apply no_log. Qed.

  Lemma step_dead s t e s' : good s -> stuck t s -> step s e = Ok s' -> dead t s s'.
  Proof.
    intros G K. pose proof K as [L W].
    assert (ALONE : forall u, (In Decoding (a_stacks s u) \/ In Failing (a_stacks s u)) -> u = t).
    { intros u I. apply held_in in I. rewrite (v_hold _ _ _ _ G), L in I. cbn in I. destruct (Nat.eqb_spec t u); auto. lia. }
    assert (TIP : forall f r, a_stacks s t = f :: r -> ~ user f /\ f <> Decoding).
    { intros f r E. destruct W as [(w & q & W)|(_ & (q & W) & _)]; rewrite W in E; injection E as <- <-; split; try discriminate; intros []. }
    destruct e as [d|u|u|k|u|u| |u]; cbn [AsyncModel.step].
    - destruct (a_stacks s home) eqn:E; [|intros Q; injection Q as <-; now apply dead_refl]. apply ask_dead; auto. rewrite E. constructor.
    - destruct (runs s u) eqn:R; [|intros Q; injection Q as <-; now apply dead_refl]. apply ask_dead; auto. now apply (runs_user home).
    - destruct (runs s u) eqn:R; [|intros Q; injection Q as <-; now apply dead_refl]. pose proof (runs_user home _ _ G R) as U.
      destruct (Nat.eqb_spec u home) as [->|N]; [now apply do_abort_dead|]. intros Q. injection Q as <-.
      apply dead_none; auto; cbn -[put]; [now apply other_put|apply no_log].
    - destruct (runs s home); intros Q; injection Q as <-; [|now apply dead_refl]. apply dead_none; auto; cbn; now apply one_log.
    - destruct (a_stacks s u) as [|f r] eqn:E; [intros Q; injection Q as <-; now apply dead_refl|].
      destruct f as [n last d|[v|]| | |w| |d]; try (intros Q; injection Q as <-; now apply dead_refl).
      + assert (T : u = home) by (apply (v_place _ _ _ _ G u (Handling n last d)); rewrite E; now left). subst u.
        intros Q. apply (turn_dead s _ t _ _ _ _ Q); auto. cbn -[put]. intros l x g q E' N. rewrite put_put. now apply (tip_put _ _ _ _ _ E Logic.I).
      + assert (T : u = home) by (apply (v_place _ _ _ _ G u (Emitting (Some v))); rewrite E; now left). subst u.
        destruct (inv_done _ _ _ _ _ _ G E) as (q & RU & NU & _). intros Q. injection Q as <-.
        assert (NV : v <> t).
        { intros ->. destruct W as [(w & z & W)|(_ & _ & w & z & H)]; congruence. }
        (* the thread that goes on is neither this thread nor the one of the operation *)
        destruct W as [(w & z & W)|(_ & _ & w & z & H)]; [|congruence].
        assert (NH : t <> home) by congruence.
        split; [|split].
        * split; [exact L|]. left. exists w, z. cbn -[put]. rewrite (put_other _ v _ t), (put_other _ home _ t) by auto; auto.
        * cbn -[put]. rewrite (put_other _ v _ t), (put_other _ home _ t) by auto; auto.
        * apply no_log.
      + intros Q. injection Q as <-. apply dead_none; auto; cbn -[put]; [now apply (tip_put _ _ _ _ _ E Logic.I)|apply no_log].
      + exfalso. assert (u = t) by (apply ALONE; right; rewrite E; now left). subst u. apply (proj1 (TIP _ _ E)). exact Logic.I.
      + intros Q. injection Q as <-. apply dead_none; auto; cbn -[put]; [now apply (tip_put _ _ _ _ _ E Logic.I)|apply no_log].
    - destruct (a_stacks s u) as [|f r] eqn:E; [intros Q; injection Q as <-; now apply dead_refl|].
      destruct f as [n last d|who| | |w| |d]; try (intros Q; injection Q as <-; now apply dead_refl).
      + exfalso. assert (u = t) by (apply ALONE; left; rewrite E; now left). subst u. now apply (TIP _ _ E).
      + rewrite L. intros Q; injection Q as <-; now apply dead_refl.
    - destruct (a_stacks s home) eqn:E; [|intros Q; injection Q as <-; now apply dead_refl].
      destruct (a_posted s) as [|v q]; [intros Q; injection Q as <-; now apply dead_refl|].
      intros Q. apply (do_abort_dead (with_posted q s) t (Some v)); auto. cbn. rewrite E. constructor.
    - destruct (a_stacks s u) eqn:E; [|intros Q; injection Q as <-; now apply dead_refl]. destruct (a_notes s u); intros Q; injection Q as <-; [now apply dead_refl|].
      apply dead_none; auto; cbn -[put]; [apply other_put; rewrite E; constructor|now apply one_log].
  Qed.
  Lemma run_dead t evs : forall s s', good s -> stuck t s -> run s evs = Ok s' -> dead t s s'.
  Proof.
    induction evs as [|e evs IH]; intros s s' G K; cbn [AsyncModel.run]; [intros Q; injection Q as <-; now apply dead_refl|].
    destruct (step s e) as [s1| | |] eqn:E; try discriminate. cbn [bind]. intros R. pose proof (step_dead s t e s1 G K E) as (K1 & S1 & l & L1 & N1 & M1).
    destruct (IH s1 s') as (K2 & S2 & m & L2 & N2 & M2); auto; [now apply (step_good home stream decode listens s e)|].
    split; auto. split; [congruence|]. exists (l ++ m). split; [now rewrite L2, L1, app_assoc|]. split.
    - intros d I. apply in_app_or in I. destruct I as [I|I]; [now apply (N1 d)|now apply (N2 d)].
    - intros u d ok. split; intros I; apply in_app_or in I; destruct I as [I|I]; try (now apply (M1 u d ok) in I); now apply (M2 u d ok) in I.
  Qed.
End Operation.

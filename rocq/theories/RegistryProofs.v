(** Invariants of the registries. *)

From Coq Require Import ZArith List Bool Arith Lia.
From Verif Require Import Base RegistryModel.
Import ListNotations.
Open Scope nat_scope.

(** ** Lists *)

Lemma put_length {A} : forall i (x : A) l, length (put i x l) = length l.
Proof. induction i as [|i IH]; intros x [|y l]; cbn; auto. Qed.

Lemma put_same {A} : forall i (x y : A) l, nth_error l i = Some y -> nth_error (put i x l) i = Some x.
Proof. induction i as [|i IH]; intros x y [|z l] H; cbn in *; try discriminate; eauto. Qed.

Lemma put_other {A} : forall i j (x : A) l, j <> i -> nth_error (put i x l) j = nth_error l j.
Proof.
  induction i as [|i IH]; intros [|j] x [|z l] N; cbn; try reflexivity; try congruence. apply IH. congruence.
Qed.

Fixpoint total {A} (f : A -> nat) (l : list A) : nat := match l with [] => 0 | x :: l' => f x + total f l' end.

Lemma total_put {A} (f : A -> nat) : forall i x y l, nth_error l i = Some y -> total f (put i x l) + f y = total f l + f x.
Proof.
  induction i as [|i IH]; intros x y [|z l] H; cbn in *; try discriminate.
  - injection H as ->. lia.
  - specialize (IH x y l H). lia.
Qed.

Lemma total_nth {A} (f : A -> nat) : forall l i x, nth_error l i = Some x -> f x <= total f l.
Proof.
  induction l as [|y l IH]; intros [|i] x H; cbn in *; try discriminate; [injection H as ->; lia|].
  specialize (IH i x H). lia.
Qed.

Lemma total_two {A} (f : A -> nat) : forall l i j x y, i <> j -> nth_error l i = Some x -> nth_error l j = Some y ->
  f x + f y <= total f l.
Proof.
  induction l as [|z l IH]; intros [|i] [|j] x y N H K; cbn in *; try discriminate; try congruence.
  - injection H as ->. pose proof (total_nth f l j y K). lia.
  - injection K as ->. pose proof (total_nth f l i x H). lia.
  - assert (i <> j) by congruence. specialize (IH i j x y H0 H K). lia.
Qed.

Lemma total_pos {A} (f : A -> nat) : forall l, 0 < total f l -> exists i x, nth_error l i = Some x /\ 0 < f x.
Proof.
  induction l as [|y l IH]; intro H; cbn in H; [lia|].
  destruct (f y) eqn:E; [|exists 0, y; split; [reflexivity | lia]].
  destruct (IH H) as (i & x & H1 & H2). exists (S i), x. auto.
Qed.

(** ** Resources held by a thread *)

Definition held (th : thread) : nat :=
  match t_pc th with
  | RBegin _ _ | RWriting _ _ | RRelease _ _ => max_threads
  | FUnlock _ | FBegin _ | FReading _ | FRelease _ _ => 1
  | _ => 0
  end.

Definition owns (th : thread) : bool :=
  match t_pc th with
  | RAcquire _ _ | RBegin _ _ | RWriting _ _ | RRelease _ _ | RUnlock _ _ | FAcquire _ | FUnlock _ => true
  | _ => false
  end.

(** Steps still to be taken. *)
Definition left_steps (th : thread) : nat :=
  match t_pc th with
  | Idle => 0
  | RLock _ _ | FLock _ => 6
  | RAcquire _ _ | FAcquire _ => 5
  | RBegin _ _ | FUnlock _ => 4
  | RWriting _ _ | FBegin _ => 3
  | RRelease _ _ | FReading _ => 2
  | RUnlock _ _ | FRelease _ _ => 1
  end + 7 * length (t_ops th).

(** ** Histories *)

Definition who (a : act) : nat := match a with Call i _ | Written i _ _ | Got i _ _ | Return i _ _ => i end.
Definition quiet (j : nat) (l : list act) : Prop := Forall (fun a => who a <> j) l.

Fixpoint last_written (t : nat) (l : list act) (d : nat) : nat :=
  match l with
  | [] => d
  | Written _ t' h :: l' => last_written t l' (if t =? t' then h else d)
  | _ :: l' => last_written t l' d
  end.

Lemma last_written_app t : forall l l' d, last_written t (l ++ l') d = last_written t l' (last_written t l d).
Proof. induction l as [|a l IH]; intros l' d; [reflexivity|]. destruct a; cbn; apply IH. Qed.

(** The call of a thread that has not returned yet, as the history shows it. *)
Definition called (j : nat) (o : op) (tr : list act) : Prop :=
  exists a b, tr = a ++ Call j o :: b /\ quiet j b.
Definition wrote (j t h : nat) (tr : list act) : Prop :=
  exists a b d, tr = a ++ Call j (Register t h) :: b ++ Written j t h :: d /\ quiet j b /\ quiet j d.
Definition got (j t r : nat) (tr : list act) : Prop :=
  exists a b d, tr = a ++ Call j (Find t) :: b ++ Got j t r :: d /\ quiet j b /\ quiet j d /\
    r = last_written t (a ++ Call j (Find t) :: b) 0.

Definition pending (j : nat) (p : pc) (tr : list act) : Prop :=
  match p with
  | Idle => True
  | RLock t h | RAcquire t h | RBegin t h | RWriting t h => called j (Register t h) tr
  | RRelease t h | RUnlock t h => wrote j t h tr
  | FLock t | FAcquire t | FUnlock t | FBegin t | FReading t => called j (Find t) tr
  | FRelease t r => got j t r tr
  end.

Definition returned_well (tr : list act) : Prop :=
  forall pre j o r post, tr = pre ++ Return j o r :: post ->
    match o with Register t h => wrote j t h pre /\ r = 0 | Find t => got j t r pre end.

(** The calls and returns of a thread. *)
Definition calls (i : nat) (tr : list act) : list op :=
  flat_map (fun a => match a with Call j o => if j =? i then [o] else [] | _ => [] end) tr.
Definition returns (i : nat) (tr : list act) : list op :=
  flat_map (fun a => match a with Return j o _ => if j =? i then [o] else [] | _ => [] end) tr.
Definition current (p : pc) : list op :=
  match p with
  | Idle => []
  | RLock t h | RAcquire t h | RBegin t h | RWriting t h | RRelease t h | RUnlock t h => [Register t h]
  | FLock t | FAcquire t | FUnlock t | FBegin t | FReading t | FRelease t _ => [Find t]
  end.

Lemma quiet_app j a b : quiet j a -> quiet j b -> quiet j (a ++ b).
Proof. intros. now apply Forall_app. Qed.

Lemma pending_app j p tr l : quiet j l -> pending j p tr -> pending j p (tr ++ l).
Proof.
  intros Q H. assert (C : forall o, called j o tr -> called j o (tr ++ l)).
  { intros o (a & b & -> & Qb). exists a, (b ++ l). rewrite <- app_assoc. split; [reflexivity | now apply quiet_app]. }
  assert (W : forall t h, wrote j t h tr -> wrote j t h (tr ++ l)).
  { intros t h (a & b & d & -> & Qb & Qd). exists a, b, (d ++ l).
    split; [rewrite <- app_assoc; cbn; rewrite <- app_assoc; reflexivity|]. split; [exact Qb | now apply quiet_app]. }
  destruct p; cbn in *; auto. destruct H as (a & b & d & -> & Qb & Qd & E).
  exists a, b, (d ++ l). split; [rewrite <- app_assoc; cbn; rewrite <- app_assoc; reflexivity|].
  split; [exact Qb|]. split; [now apply quiet_app | exact E].
Qed.

Lemma returned_snoc tr l : returned_well tr -> (forall j o r, ~ In (Return j o r) l) -> returned_well (tr ++ l).
Proof.
  intros H N pre j o r post E.
  assert (X : exists post', tr = pre ++ Return j o r :: post').
  { revert pre post E. clear H. induction tr as [|x tr IH]; intros pre post E.
    - exfalso. cbn in E. apply (N j o r). rewrite E. apply in_app_iff. right. now left.
    - destruct pre as [|y pre]; cbn in E; injection E as <- E; [now exists tr|].
      destruct (IH pre post E) as [post' ->]. now exists post'. }
  destruct X as [post' X]. exact (H pre j o r post' X).
Qed.

Lemma returned_last tr j o r : returned_well tr ->
  match o with Register t h => wrote j t h tr /\ r = 0 | Find t => got j t r tr end -> returned_well (tr ++ [Return j o r]).
Proof.
  intros H L pre j' o' r' post E.
  destruct post as [|y post] using rev_ind.
  - apply app_inj_tail in E as [<- E]. injection E as <- <- <-. exact L.
  - clear IHpost. change (pre ++ Return j' o' r' :: post ++ [y]) with (pre ++ (Return j' o' r' :: post) ++ [y]) in E.
    rewrite app_assoc in E. apply app_inj_tail in E as [E _]. now apply (H pre j' o' r' post).
Qed.

(** ** The invariant *)

Record CInv (progs : list (list op)) (c : config) : Prop := {
  V_sem : c_sem c + total held (c_threads c) = max_threads;
  V_owner : forall i, c_mutex c = Some i -> exists th, nth_error (c_threads c) i = Some th /\ owns th = true;
  V_owns : forall i th, nth_error (c_threads c) i = Some th -> owns th = true -> c_mutex c = Some i;
  V_map : forall t, c_map c t = last_written t (c_trace c) 0;
  V_pending : forall i th, nth_error (c_threads c) i = Some th -> pending i (t_pc th) (c_trace c);
  V_returned : returned_well (c_trace c);
  V_length : length (c_threads c) = length progs;
  V_calls : forall i th, nth_error (c_threads c) i = Some th ->
    nth_error progs i = Some (calls i (c_trace c) ++ t_ops th);
  V_returns : forall i th, nth_error (c_threads c) i = Some th ->
    calls i (c_trace c) = returns i (c_trace c) ++ current (t_pc th)
}.

Lemma total_start progs : total held (map (mkThread Idle) progs) = 0.
Proof. induction progs as [|p progs IH]; [reflexivity | exact IH]. Qed.

Lemma CInv_start progs : CInv progs (start progs).
Proof.
  assert (N : forall i th, nth_error (map (mkThread Idle) progs) i = Some th -> exists p, nth_error progs i = Some p /\ th = mkThread Idle p).
  { intros i th H. rewrite nth_error_map in H. destruct (nth_error progs i) as [p|]; [|discriminate]. injection H as <-. eauto. }
  split; cbn.
  - now rewrite total_start.
  - discriminate.
  - intros i th H O. apply N in H as (p & _ & ->). discriminate.
  - reflexivity.
  - intros i th H. apply N in H as (p & _ & ->). exact I.
  - intros pre j o r post E. destruct pre; discriminate.
  - apply map_length.
  - intros i th H. apply N in H as (p & H & ->). exact H.
  - intros i th H. apply N in H as (p & H & ->). reflexivity.
Qed.

Lemma max_pos : max_threads <> 0. Proof. discriminate. Qed.

(** The general step: thread [i] goes from [th] to [th'] and appends [tr]. *)
Lemma CInv_go progs c i th th' m s f tr : CInv progs c -> nth_error (c_threads c) i = Some th ->
  s + held th' = c_sem c + held th ->
  (owns th' = true -> m = Some i) ->
  (forall j, m = Some j -> j = i /\ owns th' = true \/ j <> i /\ c_mutex c = Some j) ->
  (forall j, c_mutex c = Some j -> j <> i -> m = Some j) ->
  (forall t, f t = last_written t tr (c_map c t)) ->
  Forall (fun a => who a = i) tr ->
  pending i (t_pc th') (c_trace c ++ tr) ->
  returned_well (c_trace c ++ tr) ->
  calls i tr ++ t_ops th' = t_ops th ->
  (current (t_pc th) ++ calls i tr = returns i tr ++ current (t_pc th')) ->
  (returns i tr = [] \/ calls i tr = []) -> (current (t_pc th) = [] \/ calls i tr = []) ->
  CInv progs (mkConfig m s f (put i th' (c_threads c)) (c_trace c ++ tr)).
Proof.
  intros V Hi Hs Ho Hm Hk Hf Hw Hp Hr Hc Hq Hx Hy. destruct V.
  assert (Qt : forall j, j <> i -> quiet j tr).
  { intros j N. unfold quiet. eapply Forall_impl; [|exact Hw]. cbn. congruence. }
  assert (Qc : forall j, j <> i -> calls j tr = [] /\ returns j tr = []).
  { intros j N. specialize (Qt j N). unfold calls, returns. clear - Qt. induction Qt as [|x l Hx Hl IH]; [auto|].
    destruct IH as [IH1 IH2]. cbn. rewrite IH1, IH2. destruct x; cbn in *; apply Nat.eqb_neq in Hx; rewrite ?Hx; auto. }
  assert (Ca : forall j l l', calls j (l ++ l') = calls j l ++ calls j l') by (intros; apply flat_map_app).
  assert (Ra : forall j l l', returns j (l ++ l') = returns j l ++ returns j l') by (intros; apply flat_map_app).
  split; cbn [c_mutex c_sem c_map c_threads c_trace].
  - pose proof (total_put held i th' th _ Hi). lia.
  - intros j Hj. destruct (Hm j Hj) as [[-> O]|[N Cj]].
    + exists th'. split; [eapply put_same; exact Hi | exact O].
    + rewrite put_other by exact N. now apply V_owner0.
  - intros j th0 Hj O. destruct (Nat.eq_dec j i) as [->|N].
    + rewrite (put_same i th' th _ Hi) in Hj. injection Hj as <-. now apply Ho.
    + rewrite put_other in Hj by exact N. apply Hk; [now apply (V_owns0 j th0) | exact N].
  - intro t. rewrite Hf, V_map0, last_written_app. reflexivity.
  - intros j th0 Hj. destruct (Nat.eq_dec j i) as [->|N].
    + rewrite (put_same i th' th _ Hi) in Hj. injection Hj as <-. exact Hp.
    + rewrite put_other in Hj by exact N. apply pending_app; [now apply Qt | now apply V_pending0].
  - exact Hr.
  - now rewrite put_length.
  - intros j th0 Hj. rewrite Ca. destruct (Nat.eq_dec j i) as [->|N].
    + rewrite (put_same i th' th _ Hi) in Hj. injection Hj as <-. rewrite <- app_assoc, Hc. now apply V_calls0.
    + rewrite put_other in Hj by exact N. destruct (Qc j N) as [-> _]. rewrite app_nil_r. now apply V_calls0.
  - intros j th0 Hj. rewrite Ca, Ra. destruct (Nat.eq_dec j i) as [->|N].
    + rewrite (put_same i th' th _ Hi) in Hj. injection Hj as <-. rewrite (V_returns0 i th Hi), <- !app_assoc. f_equal. exact Hq.
    + rewrite put_other in Hj by exact N. destruct (Qc j N) as [-> ->]. rewrite !app_nil_r. now apply V_returns0.
Qed.

Lemma called_end j o tr : called j o (tr ++ [Call j o]).
Proof. exists tr, []. split; [reflexivity | constructor]. Qed.

Lemma wrote_end j t h tr : called j (Register t h) tr -> wrote j t h (tr ++ [Written j t h]).
Proof.
  intros (a & b & -> & Q). exists a, b, []. split; [rewrite <- app_assoc; reflexivity|]. split; [exact Q | constructor].
Qed.

Lemma got_end j t tr : called j (Find t) tr -> got j t (last_written t tr 0) (tr ++ [Got j t (last_written t tr 0)]).
Proof.
  intros (a & b & -> & Q). exists a, b, []. split; [rewrite <- app_assoc; reflexivity|]. split; [exact Q|]. split; [constructor | reflexivity].
Qed.

Lemma own_step progs c i th : CInv progs c -> nth_error (c_threads c) i = Some th -> owns th = false -> c_mutex c <> Some i.
Proof. intros V H O E. destruct (V_owner _ _ V i E) as (th' & H' & O'). congruence. Qed.

Lemma CInv_advance progs c i c' : CInv progs c -> advance i c = Some c' -> CInv progs c'.
Proof.
  intros V H. unfold advance in H. destruct (nth_error (c_threads c) i) as [[p ops]|] eqn:Hi; [|discriminate].
  pose proof (V_pending _ _ V i _ Hi) as P. cbn [t_pc t_ops] in H, P.
  pose proof (own_step progs c i _ V Hi) as NO.
  pose proof (V_owns _ _ V i _ Hi) as YO.
  assert (Keep : forall l, (forall j o r, ~ In (Return j o r) l) -> returned_well (c_trace c ++ l))
    by (intros; apply returned_snoc; [apply V | assumption]).
  assert (K1 : forall x, (forall j o r, x <> Return j o r) -> forall j o r, ~ In (Return j o r) [x])
    by (intros x X j o r [Y|[]]; now apply (X j o r)).
  assert (Ow : forall j, owns (mkThread p ops) = true -> c_mutex c = Some j -> j = i) by (intros j O E; rewrite (YO O) in E; congruence).
  Ltac cases NO Ow M V :=
    first
    [ solve [auto]
    | discriminate
    | lia
    | exact (V_returned _ _ V)
    | now intros j [= <-]; left
    | intros j E; right; split; [intros ->; now apply NO | exact E]
    | intros j E; left; split; [now apply Ow | reflexivity]
    | intros j E N; exfalso; apply N; now apply Ow
    | intros j E; congruence ].
  destruct p; cbn [current] in *.
  - destruct ops as [|[t h|t] ops]; [discriminate| |]; injection H as <-.
    + eapply CInv_go; try exact Hi; cbn; rewrite ?Nat.eqb_refl; try (cases NO Ow M V); [apply called_end | apply Keep, K1; discriminate].
    + eapply CInv_go; try exact Hi; cbn; rewrite ?Nat.eqb_refl; try (cases NO Ow M V); [apply called_end | apply Keep, K1; discriminate].
  - destruct (c_mutex c) as [o|] eqn:M; [discriminate|]. injection H as <-.
    eapply CInv_go; try exact Hi; cbn; rewrite ?app_nil_r; cases NO Ow M V.
  - destruct (max_threads <=? c_sem c) eqn:S; [|discriminate]. injection H as <-. apply Nat.leb_le in S.
    eapply CInv_go; try exact Hi; cbn; rewrite ?app_nil_r; cases NO Ow M V.
  - injection H as <-. eapply CInv_go; try exact Hi; cbn; rewrite ?app_nil_r; cases NO Ow M V.
  - injection H as <-. eapply CInv_go; try exact Hi; cbn; try (cases NO Ow M V); [now apply wrote_end | apply Keep, K1; discriminate].
  - injection H as <-. eapply CInv_go; try exact Hi; cbn; rewrite ?app_nil_r; cases NO Ow M V.
  - injection H as <-. eapply CInv_go; try exact Hi; cbn; rewrite ?Nat.eqb_refl; try (cases NO Ow M V).
    apply returned_last; [apply V | auto].
  - destruct (c_mutex c) as [o|] eqn:M; [discriminate|]. injection H as <-.
    eapply CInv_go; try exact Hi; cbn; rewrite ?app_nil_r; cases NO Ow M V.
  - destruct (1 <=? c_sem c) eqn:S; [|discriminate]. injection H as <-. apply Nat.leb_le in S.
    eapply CInv_go; try exact Hi; cbn; rewrite ?app_nil_r; cases NO Ow M V.
  - injection H as <-. eapply CInv_go; try exact Hi; cbn; rewrite ?app_nil_r; cases NO Ow M V.
  - injection H as <-. eapply CInv_go; try exact Hi; cbn; rewrite ?app_nil_r; cases NO Ow M V.
  - injection H as <-. eapply CInv_go; try exact Hi; cbn; try (cases NO Ow M V).
    + rewrite (V_map _ _ V t). now apply got_end.
    + apply Keep, K1. discriminate.
  - injection H as <-. eapply CInv_go; try exact Hi; cbn; rewrite ?Nat.eqb_refl; try (cases NO Ow M V).
    apply returned_last; [apply V | exact P].
Qed.

Lemma CInv_execute progs : forall sched c c', CInv progs c -> execute c sched = Some c' -> CInv progs c'.
Proof.
  induction sched as [|i sched IH]; intros c c' V H; cbn in H; [now injection H as <-|].
  destruct (advance i c) as [c1|] eqn:E; [|discriminate]. eapply IH; [|exact H]. eapply CInv_advance; eauto.
Qed.

(** ** Progress *)

Lemma advance_left i c c' : advance i c = Some c' ->
  S (total left_steps (c_threads c')) = total left_steps (c_threads c).
Proof.
  intro H. unfold advance in H. destruct (nth_error (c_threads c) i) as [[p ops]|] eqn:Hi; [|discriminate].
  cbn [t_pc t_ops] in H.
  assert (G : forall p' ops', left_steps (mkThread p ops) = S (left_steps (mkThread p' ops')) ->
     S (total left_steps (put i (mkThread p' ops') (c_threads c))) = total left_steps (c_threads c)).
  { intros p' ops' E. pose proof (total_put left_steps i (mkThread p' ops') _ _ Hi). lia. }
  destruct p; [destruct ops as [|[t h|t] ops]; [discriminate| |] | | | | | | | | | | | |];
    repeat match goal with
    | H : match ?x with _ => _ end = Some _ |- _ => destruct x; try discriminate
    end; injection H as <-; cbn [c_threads]; apply G; unfold left_steps; cbn; lia.
Qed.

Lemma execute_left : forall sched c c', execute c sched = Some c' ->
  length sched + total left_steps (c_threads c') = total left_steps (c_threads c).
Proof.
  induction sched as [|i sched IH]; intros c c' H; cbn in *; [now injection H as <-|].
  destruct (advance i c) as [c1|] eqn:E; [|discriminate]. apply IH in H. apply advance_left in E. lia.
Qed.

Lemma left_zero c : total left_steps (c_threads c) = 0 <->
  forall i th, nth_error (c_threads c) i = Some th -> t_pc th = Idle /\ t_ops th = [].
Proof.
  split.
  - intros Z i th H. pose proof (total_nth left_steps _ _ _ H) as L. rewrite Z in L. unfold left_steps in L.
    destruct (t_ops th); cbn in L; [|destruct (t_pc th); lia]. destruct (t_pc th); cbn in L; try lia. auto.
  - intro F. destruct (total left_steps (c_threads c)) eqn:E; [reflexivity|].
    destruct (total_pos left_steps (c_threads c)) as (i & th & H & P); [lia|].
    destruct (F i th H) as [A B]. unfold left_steps in P. rewrite A, B in P. cbn in P. lia.
Qed.

Lemma progress progs c : CInv progs c -> total left_steps (c_threads c) <> 0 -> exists i c', advance i c = Some c'.
Proof.
  intros V N.
  (* a thread that holds resources without the mutex can go on *)
  assert (Free : forall i th, nth_error (c_threads c) i = Some th -> 0 < held th -> owns th = false -> exists c', advance i c = Some c').
  { intros i [p ops] H P O. unfold held, owns in *. cbn in *. unfold advance. rewrite H. cbn.
    destruct p; cbn in *; try lia; try discriminate; eexists; reflexivity. }
  destruct (c_mutex c) as [o|] eqn:M.
  - destruct (V_owner _ _ V o M) as ([p ops] & H & O).
    (* resources missing: somebody else holds them *)
    assert (Miss : held (mkThread p ops) = 0 -> c_sem c < max_threads -> exists i c', advance i c = Some c').
    { intros Z L. pose proof (V_sem _ _ V) as S. destruct (total_pos held (c_threads c)) as (j & th & Hj & P); [lia|].
      exists j. apply (Free j th Hj P). destruct (owns th) eqn:Oj; [|reflexivity].
      pose proof (V_owns _ _ V j th Hj Oj) as Mj. rewrite M in Mj. injection Mj as <-. rewrite H in Hj. injection Hj as <-. lia. }
    unfold owns in O. cbn in O.
    destruct p; try discriminate; try (exists o; unfold advance; rewrite H; cbn; eexists; reflexivity).
    + destruct (le_lt_dec max_threads (c_sem c)) as [L|L].
      * exists o. unfold advance. rewrite H. cbn [t_pc]. apply Nat.leb_le in L. rewrite L. eexists. reflexivity.
      * apply Miss; [reflexivity | exact L].
    + destruct (le_lt_dec 1 (c_sem c)) as [L|L].
      * exists o. unfold advance. rewrite H. cbn [t_pc]. apply Nat.leb_le in L. rewrite L. eexists. reflexivity.
      * apply Miss; [reflexivity|]. unfold max_threads. lia.
  - destruct (total_pos left_steps (c_threads c)) as (i & [p ops] & H & P); [lia|]. exists i.
    unfold left_steps in P. cbn in P. unfold advance. rewrite H. cbn [t_pc t_ops]. rewrite M.
    assert (NoOwn : owns (mkThread p ops) = false).
    { destruct (owns (mkThread p ops)) eqn:O; [|reflexivity]. pose proof (V_owns _ _ V i _ H O). congruence. }
    destruct p; cbn in NoOwn; try discriminate; try (eexists; reflexivity).
    destruct ops as [|[t h|t] ops]; [cbn in P; lia | eexists; reflexivity | eexists; reflexivity].
Qed.

(** ** qRegisterProtobufTypes *)

Section Functions.
Variable body : nat -> list action.

Lemma register_types_S n s : register_types body (S n) s =
  if y_done s then Some s else register_loop body n 0 (mkTypes true (y_list s) (y_ran s)).
Proof. reflexivity. Qed.
Lemma register_loop_S n i s : register_loop body (S n) i s =
  match nth_error (y_list s) i with
  | None => Some s
  | Some f => match run_body body n (body f) (mkTypes (y_done s) (y_list s) (y_ran s ++ [f])) with
              | None => None
              | Some s' => register_loop body n (S i) s'
              end
  end.
Proof. reflexivity. Qed.
Lemma run_body_S n l s : run_body body (S n) l s =
  match l with
  | [] => Some s
  | Add f :: l' => run_body body n l' (mkTypes (y_done s) (y_list s ++ [f]) (y_ran s))
  | Reenter :: l' => match register_types body n s with None => None | Some s' => run_body body n l' s' end
  end.
Proof. reflexivity. Qed.

(** Between calls: before the first call nothing has run, afterwards a beginning of the list. *)
Definition started (s : types) : Prop := y_done s = true /\ exists l, y_list s = y_ran s ++ l.

Lemma register_started : forall n,
  (forall s s', y_done s = true -> register_types body n s = Some s' -> s' = s) /\
  (forall l s s', y_done s = true -> run_body body n l s = Some s' ->
     y_done s' = true /\ y_ran s' = y_ran s /\ y_list s' = y_list s ++ flat_map (fun a => match a with Add f => [f] | Reenter => [] end) l).
Proof.
  induction n as [|n [IH1 IH2]]; (split; [intros s s' D H|intros l s s' D H]); try discriminate H.
  - rewrite register_types_S, D in H. now injection H as <-.
  - rewrite run_body_S in H. destruct l as [|[f|] l].
    + injection H as <-. cbn. rewrite app_nil_r. auto.
    + apply IH2 in H as (A & B & C); [|exact D]. cbn in *. rewrite <- app_assoc in C. auto.
    + destruct (register_types body n s) as [s1|] eqn:E; [|discriminate]. apply IH1 in E; [|exact D]. subst. apply IH2 in H; [exact H | exact D].
Qed.

Lemma loop_spec : forall n i s s', y_done s = true -> length (y_ran s) = i -> (exists l, y_list s = y_ran s ++ l) ->
  register_loop body n i s = Some s' ->
  y_done s' = true /\ y_ran s' = y_list s' /\ exists l, y_list s' = y_list s ++ l.
Proof.
  induction n as [|n IH]; intros i s s' D L [t T] H; [discriminate H|]. rewrite register_loop_S in H.
  destruct (nth_error (y_list s) i) as [f|] eqn:E.
  - destruct (run_body body n (body f) _) as [s1|] eqn:R; [|discriminate].
    apply (proj2 (register_started n)) in R as (A & B & C); [|exact D]. cbn in B, C.
    destruct t as [|f' t]; [exfalso; rewrite T, app_nil_r in E; assert (i < length (y_ran s)) by (apply nth_error_Some; congruence); lia|].
    assert (f' = f) as -> by (rewrite T, nth_error_app2, <- L, Nat.sub_diag in E by lia; cbn in E; congruence).
    destruct (IH (S i) s1 s' A) as (X & Y & l & Z); auto.
    + rewrite B, app_length. cbn. lia.
    + eexists. rewrite C, B, T, <- !app_assoc. cbn. reflexivity.
    + split; [exact X|]. split; [exact Y|]. rewrite C in Z. eexists. rewrite Z, <- app_assoc. reflexivity.
  - injection H as <-. apply nth_error_None in E. rewrite T, app_length in E. assert (t = []) as -> by (destruct t; [reflexivity | cbn in E; lia]).
    rewrite app_nil_r in T. split; [exact D|]. split; [now symmetry|]. exists []. now rewrite app_nil_r.
Qed.

Lemma program_started : forall n l s s', started s -> program body n l s = Some s' ->
  y_ran s' = y_ran s /\ y_list s' = y_list s ++ flat_map (fun x => match x with Library f => [f] | CallTypes => [] end) l.
Proof.
  induction l as [|[f|] l IH]; intros s s' [D [t T]] H; cbn in H.
  - injection H as <-. cbn. rewrite app_nil_r. auto.
  - apply IH in H as [A B]; [|split; [exact D|]; eexists; cbn; rewrite T, <- app_assoc; reflexivity].
    cbn in *. rewrite <- app_assoc in B. auto.
  - destruct (register_types body n s) as [s1|] eqn:E; [|discriminate]. apply (proj1 (register_started n)) in E; [|exact D]. subst.
    apply IH in H; [exact H|]. split; [exact D | eauto].
Qed.

Lemma first_call : forall n s s', y_done s = false -> y_ran s = [] -> register_types body n s = Some s' ->
  y_done s' = true /\ y_ran s' = y_list s' /\ exists l, y_list s' = y_list s ++ l.
Proof.
  intros n s s' D R H. destruct n as [|n]; [discriminate H|]. rewrite register_types_S, D in H.
  apply loop_spec in H as (A & B & C); auto; cbn; rewrite R; [reflexivity | now exists (y_list s)].
Qed.

End Functions.

(** ** Plugins *)

Lemma load_lookup f r n x : lookup n r = Some x -> lookup n (snd (loadPlugin f r)) = Some x.
Proof.
  intro H. unfold loadPlugin. set (name := match f_meta f with Some m => m_name m | None => empty_name end).
  destruct (lookup name r) as [y|] eqn:E; cbn; [exact H|]. destruct (Nat.eqb_spec n name) as [->|]; [congruence | exact H].
Qed.

Lemma load_all_lookup : forall l r n x, lookup n r = Some x ->
  lookup n (fold_left (fun r f => snd (loadPlugin f r)) l r) = Some x.
Proof. induction l as [|f l IH]; intros r n x H; cbn; [exact H|]. apply IH. now apply load_lookup. Qed.

Lemma load_all_default l : lookup default_name (load_all l) = Some (Some default_record).
Proof. apply load_all_lookup. reflexivity. Qed.

Lemma load_some : forall l r, (forall n, lookup n r <> Some None) ->
  forall n, lookup n (fold_left (fun r f => snd (loadPlugin f r)) l r) <> Some None.
Proof.
  induction l as [|f l IH]; intros r H n; cbn; [apply H|]. apply IH. intro m. unfold loadPlugin.
  set (name := match f_meta f with Some m => m_name m | None => empty_name end).
  destruct (lookup name r) eqn:E; cbn; [apply H|]. destruct (m =? name); [discriminate | apply H].
Qed.

(** Invariants of the client with its streams. *)

From Coq Require Import ZArith List Bool Arith Lia.
From Verif Require Import Base StreamModel.
Import ListNotations.
Open Scope nat_scope.

(** ** Lists *)

Lemma bytes_eqb_eq : forall a b, bytes_eqb a b = true <-> a = b.
Proof.
  induction a as [|x a IH]; intros [|y b]; cbn; split; intro H; try discriminate; try reflexivity.
  - apply andb_prop in H as [E H]. apply Z.eqb_eq in E. apply IH in H. congruence.
  - injection H as <- <-. rewrite Z.eqb_refl. cbn. now apply IH.
Qed.

Lemma nth_set_nth {A} : forall l i j (x d : A),
  nth j (set_nth i x l) d = if Nat.eqb j i && Nat.ltb i (length l) then x else nth j l d.
Proof.
  induction l as [|y l IH]; intros i j x d.
  - cbn. destruct i, j; cbn; rewrite ?andb_false_r; reflexivity.
  - destruct i as [|i], j as [|j]; cbn [set_nth nth length]; try reflexivity.
    rewrite IH. reflexivity.
Qed.

Lemma length_set_nth {A} : forall l i (x : A), length (set_nth i x l) = length l.
Proof. induction l as [|y l IH]; intros [|i] x; cbn; auto. Qed.

Lemma find_key : forall (p : nat -> bool) l x, find p l = Some x -> In x l /\ p x = true.
Proof. intros p l x H. split; [eapply find_some | eapply find_some]; exact H. Qed.

Lemma erase_other : forall p l x, p x = false -> (In x (erase_first p l) <-> In x l).
Proof.
  induction l as [|y l IH]; intros x P; cbn; [reflexivity|].
  destruct (p y) eqn:E; cbn.
  - split; [now right|]. intros [->|H]; [congruence|exact H].
  - now rewrite IH.
Qed.

Lemma erase_in : forall p l x, In x (erase_first p l) -> In x l.
Proof.
  induction l as [|y l IH]; intros x H; cbn in *; [exact H|].
  destruct (p y); [now right|]. destruct H as [->|H]; [now left|right; now apply IH].
Qed.

Lemma erase_nodup : forall p l, NoDup l -> NoDup (erase_first p l).
Proof.
  induction l as [|y l IH]; intro N; cbn; [exact N|]. inversion N as [|? ? N1 N2]; subst.
  destruct (p y); [exact N2|]. constructor; [|now apply IH]. intro H. apply N1. now apply erase_in in H.
Qed.

Lemma erase_gone : forall p l x, NoDup l -> (forall y, In y l -> p y = true -> y = x) -> p x = true ->
  ~ In x (erase_first p l).
Proof.
  induction l as [|y l IH]; intros x N U P H; cbn in *; [exact H|]. inversion N as [|? ? N1 N2]; subst.
  destruct (p y) eqn:E.
  - assert (y = x) by (apply U; auto). congruence.
  - destruct H as [->|H]; [congruence|]. apply (IH x N2); auto.
Qed.

(** ** Counting connections and timers of a stream *)

Definition count_conns (sid : nat) (c : client) : nat := length (filter (of_stream sid) (k_conns c)).
Definition count_timers (sid : nat) (c : client) : nat := count_occ Nat.eq_dec (k_timers c) sid.

Lemma count_app : forall l x y, count_occ Nat.eq_dec (l ++ [x]) y = count_occ Nat.eq_dec l y + (if Nat.eqb x y then 1 else 0).
Proof.
  intros. rewrite count_occ_app. cbn. destruct (Nat.eq_dec x y), (Nat.eqb_spec x y); congruence.
Qed.

Lemma count_remove : forall l i x y, nth_error l i = Some x ->
  count_occ Nat.eq_dec l y = count_occ Nat.eq_dec (remove_nth i l) y + (if Nat.eqb x y then 1 else 0).
Proof.
  induction l as [|z l IH]; intros [|i] x y H; cbn in *; try discriminate.
  - injection H as ->. destruct (Nat.eq_dec x y), (Nat.eqb_spec x y); try congruence; lia.
  - rewrite (IH i x y H). destruct (Nat.eq_dec z y); lia.
Qed.

Lemma in_remove : forall A (l : list A) i x, In x (remove_nth i l) -> In x l.
Proof.
  induction l as [|z l IH]; intros [|i] x H; cbn in *; auto. destruct H as [->|H]; [now left | right; eauto].
Qed.

Lemma filter_filter_length {A} : forall (p q : A -> bool) l,
  length (filter p (filter q l)) <= length (filter p l).
Proof.
  induction l as [|x l IH]; cbn; [lia|]. destruct (q x); cbn; destruct (p x); cbn; lia.
Qed.

(** ** Registered handlers, by the history *)

Definition handlers_of (log : list output) (sid : nat) : list nat :=
  flat_map (fun o => match o with OReturned s (Some h) => if Nat.eqb s sid then [h] else [] | _ => [] end) log.

Lemma handlers_one : forall s h sid, handlers_of [OReturned s h] sid =
  if Nat.eqb sid s then match h with Some x => [x] | None => [] end else [].
Proof. intros s [h|] sid; cbn; rewrite ?(Nat.eqb_sym s sid); destruct (Nat.eqb sid s); reflexivity. Qed.

Definition returned_below (n : nat) (o : output) : Prop := match o with OReturned s _ => s < n | _ => True end.
Definition not_returned (o : output) : Prop := match o with OReturned _ _ => False | _ => True end.

Lemma handlers_app : forall a b sid, handlers_of (a ++ b) sid = handlers_of a sid ++ handlers_of b sid.
Proof. intros. unfold handlers_of. apply flat_map_app. Qed.

Lemma handlers_cons : forall o b sid, handlers_of (o :: b) sid = handlers_of [o] sid ++ handlers_of b sid.
Proof. intros. now rewrite <- handlers_app. Qed.

Lemma handlers_none : forall l sid, Forall not_returned l -> handlers_of l sid = [].
Proof.
  induction l as [|o l IH]; intros sid H; [reflexivity|]. inversion H; subst. rewrite handlers_cons, (IH sid), app_nil_r by assumption. cbn.
  destruct o; try reflexivity. contradiction.
Qed.

Lemma handlers_beyond : forall l sid, Forall (returned_below sid) l -> handlers_of l sid = [].
Proof.
  induction l as [|o l IH]; intros sid H; [reflexivity|]. inversion H; subst. rewrite handlers_cons, (IH sid), app_nil_r by assumption. cbn.
  destruct o; try reflexivity. cbn in H2. destruct h; try reflexivity.
  replace (Nat.eqb sid0 sid) with false by (symmetry; apply Nat.eqb_neq; lia). reflexivity.
Qed.

Arguments handlers_of : simpl never.

(** ** The invariant *)

Definition same_key (a b : stream) : Prop := s_method a = s_method b /\ s_arg a = s_arg b.

Record Inv (c : client) : Prop := {
  I_nodup : NoDup (k_active c);
  I_client : forall sid, s_client (stream_at c sid) = true <-> In sid (k_active c);
  I_keys : forall a b, In a (k_active c) -> In b (k_active c) -> same_key (stream_at c a) (stream_at c b) -> a = b;
  I_one : forall sid, count_conns sid c + count_timers sid c <= 1;
  I_conns : Forall (fun n => n_stream n < length (k_streams c)) (k_conns c);
  I_timers : Forall (fun s => s < length (k_streams c)) (k_timers c);
  I_ids : NoDup (map n_id (k_conns c));
  I_next : Forall (fun n => n_id n < k_next c) (k_conns c);
  I_alive : forall sid, alive (stream_at c sid) = true -> s_deleted (stream_at c sid) = false;
  I_handlers : forall sid, sid < length (k_streams c) -> s_handlers (stream_at c sid) = handlers_of (k_log c) sid;
  I_returned : Forall (returned_below (length (k_streams c))) (k_log c);
  I_channel : k_streams c <> [] -> k_channel c <> None
}.

Lemma stream_at_beyond c sid : length (k_streams c) <= sid -> stream_at c sid = no_stream.
Proof. intro H. unfold stream_at. now apply nth_overflow. Qed.

Lemma active_below c : Inv c -> forall sid, In sid (k_active c) -> sid < length (k_streams c).
Proof.
  intros I sid H. apply (I_client c I) in H. destruct (le_lt_dec (length (k_streams c)) sid) as [L|L]; [|exact L].
  rewrite stream_at_beyond in H by exact L. discriminate.
Qed.

Lemma Inv_new : Inv new_client.
Proof.
  assert (Q : forall sid, stream_at new_client sid = no_stream) by (intros [|sid]; reflexivity).
  split; try (cbn; constructor; fail).
  - intro sid. rewrite Q. cbn. split; [discriminate | contradiction].
  - cbn. contradiction.
  - cbn. unfold count_conns, count_timers. cbn. lia.
  - intros sid. rewrite Q. discriminate.
  - cbn. lia.
  - cbn. congruence.
Qed.

(** *** Output *)
Lemma Inv_say c o : Inv c -> Forall not_returned o -> Inv (say o c).
Proof.
  intros [] N. split; try assumption.
  - cbn. intros sid L. rewrite handlers_app, (handlers_none o) by exact N. rewrite app_nil_r. now apply I_handlers0.
  - cbn. apply Forall_app. split; [exact I_returned0|]. eapply Forall_impl; [|exact N]. intros []; cbn; tauto.
Qed.

(** *** Connections *)
Lemma Inv_open c ch sid : Inv c -> sid < length (k_streams c) -> count_conns sid c + count_timers sid c = 0 ->
  Inv (open_conn ch sid c).
Proof.
  intros I L Z. unfold open_conn. apply Inv_say; [|repeat constructor]. destruct I.
  split; try assumption.
  - intro x. specialize (I_one0 x). unfold count_conns, count_timers in *. cbn. rewrite filter_app, app_length. cbn.
    unfold of_stream in *. cbn. destruct (Nat.eqb_spec sid x) as [->|]; cbn; lia.
  - cbn. apply Forall_app. split; [exact I_conns0|]. constructor; [exact L|constructor].
  - cbn. rewrite map_app. cbn. apply NoDup_Add with (a := k_next c) (l := map n_id (k_conns c)).
    + rewrite <- (app_nil_r (map n_id (k_conns c))) at 1. apply Add_app.
    + split; [exact I_ids0|]. intro H. apply in_map_iff in H as (n & E & H). rewrite Forall_forall in I_next0.
      specialize (I_next0 n H). lia.
  - cbn. apply Forall_app. split; [eapply Forall_impl; [|exact I_next0]; cbn; lia|]. constructor; [cbn; lia|constructor].
Qed.

Lemma NoDup_map_filter {A B} (f : A -> B) p l : NoDup (map f l) -> NoDup (map f (filter p l)).
Proof.
  induction l as [|x l IH]; cbn; intro N; [constructor|]. inversion N as [|? ? N1 N2]; subst.
  destruct (p x); cbn; [|auto]. constructor; [|auto]. intro H. apply N1. apply in_map_iff in H as (y & E & H).
  apply in_map_iff. exists y. split; [exact E|]. now apply filter_In in H.
Qed.

Lemma Forall_filter {A} (P : A -> Prop) p l : Forall P l -> Forall P (filter p l).
Proof. rewrite !Forall_forall. intros H x X. apply filter_In in X. now apply H. Qed.

Lemma Inv_filter_conns c p : Inv c -> Inv (with_conns (filter p (k_conns c)) c).
Proof.
  intros []. split; try assumption; cbn.
  - intro x. specialize (I_one0 x). unfold count_conns, count_timers in *. cbn.
    pose proof (filter_filter_length (of_stream x) p (k_conns c)). lia.
  - now apply Forall_filter.
  - now apply NoDup_map_filter.
  - now apply Forall_filter.
Qed.

Lemma Inv_close c sid : Inv c -> Inv (close_conns sid c).
Proof.
  intro I. unfold close_conns. apply Inv_say; [now apply Inv_filter_conns|].
  apply Forall_forall. intros o H. apply in_map_iff in H as (n & <- & _). exact Logic.I.
Qed.

Lemma count_conns_close c sid x : count_conns x (close_conns sid c) = if Nat.eqb x sid then 0 else count_conns x c.
Proof.
  unfold count_conns, close_conns. cbn. induction (k_conns c) as [|n l IH]; cbn; [now destruct (Nat.eqb x sid)|].
  unfold of_stream in *. destruct (Nat.eqb_spec (n_stream n) sid) as [E|E]; cbn.
  - rewrite IH. destruct (Nat.eqb_spec x sid); [reflexivity|]. destruct (Nat.eqb_spec (n_stream n) x); [lia|reflexivity].
  - destruct (Nat.eqb_spec (n_stream n) x) as [E2|E2]; cbn; rewrite IH; [|reflexivity].
    destruct (Nat.eqb_spec x sid); [lia|reflexivity].
Qed.

(** *** Streams *)
Lemma stream_at_with c sid s x : sid < length (k_streams c) ->
  stream_at (with_stream sid s c) x = if Nat.eqb x sid then s else stream_at c x.
Proof.
  intro L. unfold stream_at, with_stream. cbn. rewrite nth_set_nth.
  replace (Nat.ltb sid (length (k_streams c))) with true by (symmetry; now apply Nat.ltb_lt).
  now rewrite andb_true_r.
Qed.

Lemma with_stream_beyond c sid s : length (k_streams c) <= sid -> with_stream sid s c = c.
Proof.
  intro L. unfold with_stream. destruct c as [a b l d e f g]. cbn in *. f_equal. revert sid L.
  induction l as [|y l IH]; intros [|sid] L; cbn in *; try reflexivity; try lia. f_equal. apply IH. lia.
Qed.

(** A change of the reference count and deletion flag that keeps the rest. *)
Lemma Inv_refs c sid s' : Inv c -> s_method s' = s_method (stream_at c sid) -> s_arg s' = s_arg (stream_at c sid) ->
  s_handlers s' = s_handlers (stream_at c sid) -> s_client s' = s_client (stream_at c sid) ->
  (alive s' = true -> s_deleted s' = false) -> Inv (with_stream sid s' c).
Proof.
  intros I M A H C D. destruct (le_lt_dec (length (k_streams c)) sid) as [L|L].
  { now rewrite with_stream_beyond. }
  assert (Q : forall x, stream_at (with_stream sid s' c) x = if Nat.eqb x sid then s' else stream_at c x)
    by (intro x; now apply stream_at_with).
  destruct I. split; try assumption.
  - intro x. rewrite Q. destruct (Nat.eqb_spec x sid) as [->|]; [rewrite C|]; apply I_client0.
  - intros a b Ha Hb. unfold same_key. rewrite !Q. intro K. apply I_keys0; try assumption.
    unfold same_key. destruct (Nat.eqb_spec a sid) as [->|], (Nat.eqb_spec b sid) as [->|]; rewrite ?M, ?A in K; exact K.
  - cbn. now rewrite length_set_nth.
  - cbn. now rewrite length_set_nth.
  - intro x. rewrite Q. destruct (Nat.eqb_spec x sid) as [->|]; [exact D | apply I_alive0].
  - intros x Lx. cbn in Lx. rewrite length_set_nth in Lx. rewrite Q. cbn.
    destruct (Nat.eqb_spec x sid) as [->|]; [rewrite H|]; now apply I_handlers0.
  - cbn. now rewrite length_set_nth.
  - cbn. intro N. apply I_channel0. intro E. rewrite E in N. destruct sid; now apply N.
Qed.

Lemma Inv_hold c sid h : Inv c -> In sid (k_active c) -> Inv (hold sid h c).
Proof.
  intros I H. pose proof (active_below c I sid H) as L.
  assert (Q : forall s' x, stream_at (with_stream sid s' c) x = if Nat.eqb x sid then s' else stream_at c x)
    by (intros s' x; now apply stream_at_with).
  unfold hold. set (s' := mkStream _ _ _ _ _ _). specialize (Q s').
  destruct I. split; try assumption.
  - intro x. change (s_client (stream_at (with_stream sid s' c) x) = true <-> In x (k_active c)). rewrite Q.
    destruct (Nat.eqb_spec x sid) as [->|]; apply I_client0.
  - intros a b Ha Hb. change (same_key (stream_at (with_stream sid s' c) a) (stream_at (with_stream sid s' c) b) -> a = b).
    unfold same_key. rewrite !Q. intro K. apply I_keys0; try assumption. unfold same_key.
    destruct (Nat.eqb_spec a sid) as [->|], (Nat.eqb_spec b sid) as [->|]; exact K.
  - cbn. now rewrite length_set_nth.
  - cbn. now rewrite length_set_nth.
  - intros x. change (alive (stream_at (with_stream sid s' c) x) = true -> s_deleted (stream_at (with_stream sid s' c) x) = false).
    rewrite Q. destruct (Nat.eqb_spec x sid) as [->|]; [|apply I_alive0]. intros _. cbn. apply I_alive0.
    unfold alive. apply I_client0 in H. now rewrite H.
  - intros x Lx. change (s_handlers (stream_at (with_stream sid s' c) x) = handlers_of (k_log c ++ [OReturned sid h]) x).
    rewrite Q, handlers_app. cbn in Lx. rewrite length_set_nth in Lx. rewrite handlers_one.
    destruct (Nat.eqb_spec x sid) as [->|].
    + subst s'. cbn [s_handlers]. rewrite (I_handlers0 sid Lx). reflexivity.
    + rewrite I_handlers0 by exact Lx. now rewrite app_nil_r.
  - cbn. rewrite length_set_nth. apply Forall_app. split; [exact I_returned0|]. repeat constructor. exact L.
  - cbn. intro N. apply I_channel0. intro E. rewrite E in L. cbn in L. lia.
Qed.

Lemma equal_to_key c m a sid : equal_to c m a sid = true <-> s_method (stream_at c sid) = m /\ s_arg (stream_at c sid) = a.
Proof.
  unfold equal_to. rewrite andb_true_iff, !bytes_eqb_eq. reflexivity.
Qed.

Lemma no_conns_beyond c : Inv c -> count_conns (length (k_streams c)) c = 0 /\ count_timers (length (k_streams c)) c = 0.
Proof.
  intro I. split.
  - unfold count_conns. pose proof (I_conns c I) as F. induction (k_conns c) as [|n l IH]; [reflexivity|].
    inversion F; subst. cbn. unfold of_stream at 1. replace (Nat.eqb _ _) with false by (symmetry; apply Nat.eqb_neq; lia). auto.
  - unfold count_timers. apply count_occ_not_In. pose proof (I_timers c I) as F. rewrite Forall_forall in F.
    intro H. apply F in H. lia.
Qed.

Lemma Inv_subscribe c m a h : Inv c -> Inv (client_stream m a h c).
Proof.
  intro I. unfold client_stream. destruct (k_channel c) as [ch|] eqn:Ec; [|apply Inv_say; [exact I | repeat constructor]].
  destruct (find (equal_to c m a) (k_active c)) as [sid|] eqn:F.
  - apply find_some in F as [H _]. now apply Inv_hold.
  - destruct (no_conns_beyond c I) as [Z1 Z2].
    set (s := mkStream _ _ _ _ _ _). set (sid := length (k_streams c)) in *.
    assert (Q : forall x, nth x (k_streams c ++ [s]) no_stream = if Nat.eqb x sid then s else stream_at c x).
    { intro x. unfold stream_at. destruct (Nat.eqb_spec x sid) as [->|N].
      - rewrite app_nth2 by (unfold sid; lia). unfold sid. now rewrite Nat.sub_diag.
      - destruct (le_lt_dec sid x) as [Lx|Lx].
        + rewrite !nth_overflow; [reflexivity | exact Lx | rewrite app_length; cbn; unfold sid in *; lia].
        + now rewrite app_nth1. }
    assert (Fr : ~ In sid (k_active c)) by (intro H; apply (active_below c I) in H; unfold sid in H; lia).
    assert (Nk : forall x, In x (k_active c) -> ~ (s_method (stream_at c x) = m /\ s_arg (stream_at c x) = a)).
    { intros x Hx K. apply equal_to_key in K. eapply find_none in F; [|exact Hx]. congruence. }
    destruct I. split; cbn -[stream_at handlers_of].
    + apply NoDup_Add with (a := sid) (l := k_active c); [|auto].
      rewrite <- (app_nil_r (k_active c)) at 1. apply Add_app.
    + intro x. unfold stream_at. cbn. rewrite Q, in_app_iff. destruct (Nat.eqb_spec x sid) as [->|N].
      * cbn. split; [right; now left | reflexivity].
      * rewrite I_client0. cbn. split; [now left|]. intros [H|[H|[]]]; [exact H | congruence].
    + intros x y Hx Hy. unfold same_key, stream_at. cbn. rewrite !Q. rewrite in_app_iff in Hx, Hy.
      destruct (Nat.eqb_spec x sid) as [->|Nx], (Nat.eqb_spec y sid) as [->|Ny]; intro K; [reflexivity| | |].
      * destruct Hy as [Hy|[Hy|[]]]; [|congruence]. exfalso. apply (Nk y Hy). cbn in K. intuition congruence.
      * destruct Hx as [Hx|[Hx|[]]]; [|congruence]. exfalso. apply (Nk x Hx). cbn in K. intuition congruence.
      * destruct Hx as [Hx|[Hx|[]]]; [|congruence]. destruct Hy as [Hy|[Hy|[]]]; [|congruence]. now apply I_keys0.
    + intro x. specialize (I_one0 x). unfold count_conns, count_timers in *. cbn. rewrite filter_app, app_length. cbn.
      unfold of_stream in *. cbn. destruct (Nat.eqb_spec sid x) as [<-|]; cbn; lia.
    + rewrite app_length. cbn. apply Forall_app. split; [eapply Forall_impl; [|exact I_conns0]; cbn; intros; lia|].
      constructor; [cbn; unfold sid; lia | constructor].
    + rewrite app_length. cbn. eapply Forall_impl; [|exact I_timers0]; cbn; intros; lia.
    + rewrite map_app. cbn. apply NoDup_Add with (a := k_next c) (l := map n_id (k_conns c)).
      * rewrite <- (app_nil_r (map n_id (k_conns c))) at 1. apply Add_app.
      * split; [exact I_ids0|]. intro H. apply in_map_iff in H as (n & E & H). rewrite Forall_forall in I_next0.
        specialize (I_next0 n H). lia.
    + apply Forall_app. split; [eapply Forall_impl; [|exact I_next0]; cbn; lia|]. constructor; [cbn; lia|constructor].
    + intro x. unfold stream_at. cbn. rewrite Q. destruct (Nat.eqb_spec x sid) as [->|]; [reflexivity | apply I_alive0].
    + intros x Lx. rewrite app_length in Lx. cbn in Lx. unfold stream_at. cbn -[handlers_of].
      rewrite Q, !handlers_app, handlers_one, (handlers_none [OOpen _ _ _]) by repeat constructor.
      cbn [app]. rewrite app_nil_r. destruct (Nat.eqb_spec x sid) as [->|N].
      * rewrite (handlers_beyond (k_log c)) by exact I_returned0. reflexivity.
      * rewrite I_handlers0 by (unfold sid in *; lia). now rewrite !app_nil_r.
    + rewrite app_length. cbn. apply Forall_app. split; [apply Forall_app; split|].
      * eapply Forall_impl; [|exact I_returned0]. intros []; cbn; lia.
      * repeat constructor.
      * repeat constructor. cbn. unfold sid. lia.
    + intros _. discriminate.
Qed.

(** *** Signals *)
Lemma Inv_client_finished c sid : Inv c -> Inv (client_finished sid c).
Proof.
  intro I. unfold client_finished. destruct (s_client (stream_at c sid)) eqn:C; [|exact I].
  assert (Ha : In sid (k_active c)) by now apply (I_client c I).
  pose proof (active_below c I sid Ha) as L.
  set (s' := mkStream _ _ _ _ _ _).
  set (l := erase_first _ _).
  assert (Q : forall x, stream_at (with_stream sid s' (with_active l c)) x = if Nat.eqb x sid then s' else stream_at c x)
    by (intros x; now rewrite stream_at_with).
  assert (Li : forall x, In x l <-> In x (k_active c) /\ x <> sid).
  { intro x. unfold l. split.
    - intro H. split; [now apply erase_in in H|]. intros ->. revert H. apply erase_gone.
      + apply (I_nodup c I).
      + intros y Hy K. apply equal_to_key in K. apply (I_keys c I); auto.
      + now apply equal_to_key.
    - intros [H N]. apply erase_other; [|exact H]. apply not_true_is_false. intro K. apply equal_to_key in K.
      apply N. now apply (I_keys c I). }
  destruct I. split; try assumption.
  - cbn. now apply erase_nodup.
  - intro x. rewrite Q. cbn. rewrite Li. destruct (Nat.eqb_spec x sid) as [->|N]; cbn.
    + split; [discriminate | tauto].
    + rewrite I_client0. tauto.
  - intros a b Ha' Hb'. cbn in Ha', Hb'. apply Li in Ha' as [Ha' Na], Hb' as [Hb' Nb]. unfold same_key. rewrite !Q.
    apply Nat.eqb_neq in Na, Nb. rewrite Na, Nb. now apply I_keys0.
  - cbn. now rewrite length_set_nth.
  - cbn. now rewrite length_set_nth.
  - intros x. rewrite Q. destruct (Nat.eqb_spec x sid) as [->|]; [|apply I_alive0]. intros _. cbn. apply I_alive0.
    unfold alive. now rewrite C.
  - intros x Lx. cbn in Lx. rewrite length_set_nth in Lx. rewrite Q. cbn.
    destruct (Nat.eqb_spec x sid) as [->|]; cbn; now apply I_handlers0.
  - cbn. now rewrite length_set_nth.
  - cbn. intro N. apply I_channel0. intro E. rewrite E in L. cbn in L. lia.
Qed.

Lemma Inv_finished c sid : Inv c -> Inv (emit_finished sid c).
Proof.
  intro I. unfold emit_finished. apply Inv_close, Inv_client_finished, Inv_say; [exact I | repeat constructor].
Qed.

Lemma Inv_add_timer c sid : Inv c -> sid < length (k_streams c) -> count_conns sid c + count_timers sid c = 0 ->
  Inv (with_timers (k_timers c ++ [sid]) c).
Proof.
  intros I L Z. destruct I. split; try assumption.
  - intro x. specialize (I_one0 x). unfold count_conns, count_timers in *. cbn. rewrite count_app.
    destruct (Nat.eqb_spec sid x) as [<-|]; lia.
  - cbn. apply Forall_app. split; [exact I_timers0|]. now repeat constructor.
Qed.

Lemma Inv_error c sid code : Inv c -> sid < length (k_streams c) -> count_conns sid c + count_timers sid c = 0 ->
  Inv (emit_error sid code c).
Proof.
  intros I L Z. unfold emit_error. assert (I1 : Inv (say [OError sid code] c)) by (apply Inv_say; [exact I | repeat constructor]).
  destruct (s_client _); [|exact I1].
  apply (Inv_add_timer (say [OClientError code] (say [OError sid code] c))).
  - apply Inv_say; [exact I1 | repeat constructor].
  - exact L.
  - exact Z.
Qed.

Lemma conn_of_in cid c n : conn_of cid c = Some n -> In n (k_conns c) /\ n_id n = cid.
Proof. intro H. apply find_some in H as [H E]. apply Nat.eqb_eq in E. auto. Qed.

(** Removing the only connection of a stream. *)
Lemma count_removed c n : Inv c -> In n (k_conns c) ->
  count_conns (n_stream n) (with_conns (filter (fun n' => negb (Nat.eqb (n_id n') (n_id n))) (k_conns c)) c)
  + count_timers (n_stream n) c = 0.
Proof.
  intros I H. pose proof (I_one c I (n_stream n)) as O. unfold count_conns, count_timers in *. cbn.
  enough (X : length (filter (of_stream (n_stream n)) (filter (fun n' => negb (Nat.eqb (n_id n') (n_id n))) (k_conns c)))
            < length (filter (of_stream (n_stream n)) (k_conns c))) by lia.
  clear O. induction (k_conns c) as [|y l IH]; [destruct H|].
  pose proof (filter_filter_length (of_stream (n_stream n)) (fun n' => negb (Nat.eqb (n_id n') (n_id n))) l) as Le.
  destruct H as [->|H].
  - cbn. rewrite Nat.eqb_refl. cbn. unfold of_stream at 2. rewrite Nat.eqb_refl. cbn. lia.
  - specialize (IH H). cbn. destruct (Nat.eqb (n_id y) (n_id n)); cbn; destruct (of_stream (n_stream n) y); cbn; lia.
Qed.

Lemma Inv_end c cid e : Inv c -> Inv (conn_end cid e c).
Proof.
  intro I. unfold conn_end. destruct (conn_of cid c) as [n|] eqn:E; [|exact I].
  apply conn_of_in in E as [H <-].
  pose proof (Inv_filter_conns c (fun n' => negb (Nat.eqb (n_id n') (n_id n))) I) as I1.
  pose proof (count_removed c n I H) as Z.
  assert (L : n_stream n < length (k_streams c)) by (pose proof (I_conns c I) as F; rewrite Forall_forall in F; now apply F).
  destruct (s_deleted _); [exact I1|]. destruct e, (snd (n_channel n)); try exact I1;
    try (now apply Inv_open); try (now apply Inv_finished); now apply Inv_error.
Qed.

Lemma Inv_data c cid d : Inv c -> Inv (conn_data cid d c).
Proof.
  intro I. unfold conn_data. destruct (conn_of cid c) as [n|]; [|exact I]. destruct (s_deleted _); [exact I|].
  unfold handle. apply Inv_say; [exact I|]. apply Forall_app. split; [|repeat constructor].
  apply Forall_forall. intros o H. apply in_map_iff in H as (x & <- & _). exact Logic.I.
Qed.

Lemma Inv_timer c i : Inv c -> exists c', timer_fires i c = Ok c' /\ Inv c'.
Proof.
  intro I. unfold timer_fires. destruct (nth_error (k_timers c) i) as [sid|] eqn:E; [|eauto].
  assert (H : In sid (k_timers c)) by now apply nth_error_In in E.
  assert (L : sid < length (k_streams c)) by (pose proof (I_timers c I) as F; rewrite Forall_forall in F; now apply F).
  assert (I1 : Inv (with_timers (remove_nth i (k_timers c)) c)).
  { destruct I. split; try assumption.
    - intro x. specialize (I_one0 x). unfold count_conns, count_timers in *. cbn. rewrite (count_remove _ _ _ x E) in I_one0. lia.
    - cbn. rewrite Forall_forall in *. intros x X. apply in_remove in X. auto. }
  destruct (alive _); [|eauto].
  change (k_channel (with_timers (remove_nth i (k_timers c)) c)) with (k_channel c).
  destruct (k_channel c) as [ch|] eqn:C.
  - eexists. split; [reflexivity|]. apply Inv_open; [exact I1 | exact L |].
    pose proof (I_one c I sid) as O. unfold count_conns, count_timers in *. cbn.
    rewrite (count_remove _ _ _ sid E), Nat.eqb_refl in O. lia.
  - exfalso. apply (I_channel c I); [|exact C]. intro Z. rewrite Z in L. cbn in L. lia.
Qed.

Lemma Inv_channel c ch : Inv c -> Inv (with_channel ch c).
Proof. intros []. split; try assumption. cbn. discriminate. Qed.

Lemma Inv_abort_loop : forall n i c c', Inv c -> abort_loop n i c = Ok c' -> Inv c'.
Proof.
  induction n as [|n IH]; intros i c c' I H; cbn in H.
  - injection H as <-. exact I.
  - destruct (nth_error (k_active c) i) as [sid|]; [|discriminate]. eapply IH; [|exact H]. now apply Inv_finished.
Qed.

Lemma Inv_step c e c' : Inv c -> step c e = Ok c' -> Inv c'.
Proof.
  intros I H. destruct e; cbn [step] in H.
  - unfold attachChannel in H. destruct same_thread; cbn [negb] in H; [|discriminate].
    destruct (abort_loop (length (k_active c)) 0 c) as [c1| | |] eqn:E1; try discriminate. cbn [bind] in H.
    eapply Inv_abort_loop; [|exact H]. apply Inv_channel. eapply Inv_abort_loop; [exact I | exact E1].
  - injection H as <-. now apply Inv_subscribe.
  - injection H as <-. now apply Inv_data.
  - injection H as <-. now apply Inv_end.
  - injection H as <-. destruct (Nat.eqb _ _); [exact I | now apply Inv_finished].
  - injection H as <-. apply Inv_refs; try reflexivity; [exact I|]. intro A. apply (I_alive c I). unfold alive in *. cbn in A.
    destruct (s_client _); [reflexivity|]. cbn in *. destruct (s_refs (stream_at c sid)); [exact A | reflexivity].
  - destruct (Inv_timer c i I) as (c1 & E & I1). rewrite E in H. injection H as <-. exact I1.
  - injection H as <-. destruct (alive (stream_at c sid)) eqn:A; [exact I|]. apply Inv_refs; try reflexivity; [exact I|].
    unfold alive in *. cbn. congruence.
Qed.

Lemma Inv_run : forall evs c c', Inv c -> run c evs = Ok c' -> Inv c'.
Proof.
  induction evs as [|e evs IH]; intros c c' I H; cbn [run] in H; [now injection H as <-|].
  destruct (step c e) as [c1| | |] eqn:E; cbn [bind] in H; try discriminate.
  - eapply IH; [|exact H]. eapply Inv_step; eauto.
  - eapply IH; [|exact H]. exact I.
Qed.

Lemma run_app : forall evs1 evs2 c, run c (evs1 ++ evs2) = (c' <- run c evs1 ;; run c' evs2).
Proof.
  induction evs1 as [|e evs1 IH]; intros evs2 c; [reflexivity|]. cbn [run app].
  destruct (step c e) as [c1| | |]; cbn [bind]; auto.
Qed.

(** ** The history tells which streams are active *)

Definition was_returned (log : list output) (sid : nat) : Prop := exists h, In (OReturned sid h) log.

Record InvL (c : client) : Prop := {
  L_active : forall sid, In sid (k_active c) <-> was_returned (k_log c) sid /\ ~ In (OFinished sid) (k_log c);
  L_finished : forall sid, In (OFinished sid) (k_log c) -> sid < length (k_streams c)
}.

(** Output that is neither OReturned nor OFinished. *)
Definition neutral (o : output) : Prop := match o with OReturned _ _ | OFinished _ => False | _ => True end.

Lemma neutral_returned log o sid : Forall neutral o -> was_returned (log ++ o) sid <-> was_returned log sid.
Proof.
  intro N. rewrite Forall_forall in N. split; intros [h H]; exists h; [|apply in_app_iff; now left].
  apply in_app_iff in H as [H|H]; [exact H|]. now apply N in H.
Qed.

Lemma neutral_finished log o sid : Forall neutral o -> In (OFinished sid) (log ++ o) <-> In (OFinished sid) log.
Proof.
  intro N. rewrite Forall_forall in N. rewrite in_app_iff. split; [|now left].
  intros [H|H]; [exact H|]. now apply N in H.
Qed.

Lemma InvL_same c c' o : InvL c -> k_active c' = k_active c -> length (k_streams c') = length (k_streams c) ->
  k_log c' = k_log c ++ o -> Forall neutral o -> InvL c'.
Proof.
  intros [A F] E L G N. split; intro sid; rewrite G, ?E, ?L.
  - rewrite A, neutral_returned, neutral_finished by exact N. reflexivity.
  - rewrite neutral_finished by exact N. apply F.
Qed.

Lemma erase_exact c sid : Inv c -> In sid (k_active c) -> forall x,
  In x (erase_first (equal_to c (s_method (stream_at c sid)) (s_arg (stream_at c sid))) (k_active c)) <->
  In x (k_active c) /\ x <> sid.
Proof.
  intros I Ha x. split.
  - intro H. split; [now apply erase_in in H|]. intros ->. revert H. apply erase_gone.
    + apply (I_nodup c I).
    + intros y Hy K. apply equal_to_key in K. apply (I_keys c I); auto.
    + now apply equal_to_key.
  - intros [H N]. apply erase_other; [|exact H]. apply not_true_is_false. intro K. apply equal_to_key in K.
    apply N. now apply (I_keys c I).
Qed.

Lemma finished_active c sid x : Inv c -> In x (k_active (emit_finished sid c)) <-> In x (k_active c) /\ x <> sid.
Proof.
  intro I. change (In x (k_active (client_finished sid (say [OFinished sid] c))) <-> In x (k_active c) /\ x <> sid).
  unfold client_finished. change (stream_at (say [OFinished sid] c) sid) with (stream_at c sid).
  destruct (s_client (stream_at c sid)) eqn:C.
  - cbn [with_stream with_active k_active]. change (equal_to (say [OFinished sid] c)) with (equal_to c).
    change (k_active (say [OFinished sid] c)) with (k_active c).
    apply erase_exact; [exact I | now apply (I_client c I)].
  - change (k_active (say [OFinished sid] c)) with (k_active c). split; [|tauto]. intro H. split; [exact H|].
    intros ->. apply (I_client c I) in H. congruence.
Qed.

Lemma finished_log c sid : k_log (emit_finished sid c) =
  k_log c ++ OFinished sid :: map (fun n => OClose (n_id n)) (filter (of_stream sid) (k_conns c)).
Proof.
  unfold emit_finished, close_conns.
  assert (E : forall d, k_log (client_finished sid d) = k_log d /\ k_conns (client_finished sid d) = k_conns d)
    by (intro d; unfold client_finished; destruct (s_client _); auto).
  destruct (E (say [OFinished sid] c)) as [E1 E2]. unfold say at 1, with_conns. cbn [k_log].
  rewrite E1, E2. cbn [say k_log k_conns]. rewrite <- app_assoc. reflexivity.
Qed.

Lemma finished_length c sid : length (k_streams (emit_finished sid c)) = length (k_streams c).
Proof.
  unfold emit_finished, close_conns, client_finished. cbn. destruct (s_client _); cbn; [now rewrite length_set_nth | reflexivity].
Qed.

Lemma closes_neutral (l : list conn) : Forall neutral (map (fun n => OClose (n_id n)) l).
Proof. apply Forall_forall. intros o H. apply in_map_iff in H as (n & <- & _). exact Logic.I. Qed.

Lemma InvL_emit_finished c sid : Inv c -> sid < length (k_streams c) -> InvL c -> InvL (emit_finished sid c).
Proof.
  intros I L [A F]. pose proof (closes_neutral (filter (of_stream sid) (k_conns c))) as N.
  split; intro x; rewrite finished_log, ?finished_length.
  - rewrite finished_active by exact I. rewrite A.
    change (OFinished sid :: ?l) with ([OFinished sid] ++ l). rewrite app_assoc.
    rewrite neutral_returned, neutral_finished by exact N. rewrite in_app_iff.
    split.
    + intros [[[h H1] H2] H3]. split; [exists h; apply in_app_iff; now left|].
      intros [H|[H|[]]]; [now apply H2 | congruence].
    + intros [[h H1] H2]. split; [split; [|tauto]|intros ->; apply H2; right; now left].
      exists h. apply in_app_iff in H1 as [H1|[H1|[]]]; [exact H1 | discriminate].
  - change (OFinished sid :: ?l) with ([OFinished sid] ++ l). rewrite app_assoc, neutral_finished by exact N.
    intro H. apply in_app_iff in H as [H|[H|[]]]; [now apply F | congruence].
Qed.

Lemma stream_refs_below c sid : s_refs (stream_at c sid) <> 0 -> sid < length (k_streams c).
Proof.
  intro H. destruct (le_lt_dec (length (k_streams c)) sid) as [L|L]; [|exact L].
  rewrite stream_at_beyond in H by exact L. now cbn in H.
Qed.

Lemma emit_error_frame sid code c : exists o, k_log (emit_error sid code c) = k_log c ++ o /\ Forall neutral o /\
  k_active (emit_error sid code c) = k_active c /\ k_streams (emit_error sid code c) = k_streams c /\
  k_conns (emit_error sid code c) = k_conns c.
Proof.
  unfold emit_error. destruct (s_client _); cbn.
  - exists [OError sid code; OClientError code]. rewrite <- app_assoc. repeat constructor.
  - exists [OError sid code]. repeat constructor.
Qed.

Lemma InvL_abort_loop : forall n i c c', Inv c -> InvL c -> abort_loop n i c = Ok c' -> InvL c'.
Proof.
  induction n as [|n IH]; intros i c c' I IL H; cbn in H.
  - now injection H as <-.
  - destruct (nth_error (k_active c) i) as [sid|] eqn:E; [|discriminate].
    apply nth_error_In in E. eapply IH; [| |exact H]; [now apply Inv_finished|].
    apply InvL_emit_finished; auto. now apply active_below.
Qed.

Lemma InvL_step c e c' : Inv c -> InvL c -> step c e = Ok c' -> InvL c'.
Proof.
  intros I IL H. destruct e; cbn [step] in H.
  - unfold attachChannel in H. destruct same_thread; cbn [negb] in H; [|discriminate].
    destruct (abort_loop (length (k_active c)) 0 c) as [c1| | |] eqn:E1; try discriminate. cbn [bind] in H.
    assert (I1 : Inv c1) by (eapply Inv_abort_loop; [exact I | exact E1]).
    assert (IL1 : InvL c1) by (eapply InvL_abort_loop; [exact I | exact IL | exact E1]).
    eapply InvL_abort_loop; [|  |exact H]; [now apply Inv_channel|].
    eapply (InvL_same c1 _ []); auto. cbn. now rewrite app_nil_r.
  - injection H as <-. unfold client_stream. destruct (k_channel c) as [ch|] eqn:Ec.
    2:{ eapply (InvL_same c _ [OClientError 2]); auto. repeat constructor. }
    destruct (find _ _) as [sid|] eqn:F.
    + apply find_some in F as [Ha _]. destruct IL as [A Fn]. split; intro x; cbn.
      * rewrite A. split.
        -- intros [[h' H1] H2]. split; [exists h'; apply in_app_iff; now left|].
           intro H. apply in_app_iff in H as [H|[H|[]]]; [tauto | discriminate].
        -- intros [[h' H1] H2]. split.
           ++ apply in_app_iff in H1 as [H1|[H1|[]]]; [now exists h'|]. injection H1 as -> _. now apply A.
           ++ intro H. apply H2. apply in_app_iff. now left.
      * rewrite length_set_nth. intro H. apply in_app_iff in H as [H|[H|[]]]; [now apply Fn | discriminate].
    + destruct IL as [A Fn]. split; intro x; cbn.
      * rewrite !in_app_iff, A. split.
        -- intros [[[h' H1] H2]|[<-|[]]].
           ++ split; [exists h'; rewrite !in_app_iff; tauto|]. intros [[H|[H|[]]]|[H|[]]]; [tauto | discriminate | discriminate].
           ++ split; [exists h; rewrite !in_app_iff; cbn; tauto|].
              intros [[H|[H|[]]]|[H|[]]]; [|discriminate | discriminate]. apply Fn in H. lia.
        -- intros [[h' H1] H2]. rewrite !in_app_iff in H1. destruct H1 as [[H1|[H1|[]]]|[H1|[]]]; [|discriminate|].
           ++ left. split; [now exists h'|]. tauto.
           ++ injection H1 as <- _. right. now left.
      * rewrite !in_app_iff, app_length. cbn. intros [[H|[H|[]]]|[H|[]]]; [|discriminate | discriminate]. apply Fn in H. lia.
  - injection H as <-. unfold conn_data. destruct (conn_of cid c) as [n|]; [|exact IL]. destruct (s_deleted _); [exact IL|].
    eapply InvL_same; [exact IL | reflexivity | reflexivity | reflexivity |].
    apply Forall_app. split; [|repeat constructor]. apply Forall_forall. intros o H. apply in_map_iff in H as (x & <- & _).
    exact Logic.I.
  - injection H as <-. unfold conn_end. destruct (conn_of cid c) as [n|] eqn:E; [|exact IL]. apply conn_of_in in E as [Hn <-].
    set (c1 := with_conns _ c).
    assert (IL1 : InvL c1) by (eapply (InvL_same c _ []); auto; cbn; now rewrite app_nil_r).
    assert (L : n_stream n < length (k_streams c)) by (pose proof (I_conns c I) as F; rewrite Forall_forall in F; now apply F).
    assert (Er : forall code, InvL (emit_error (n_stream n) code c1)).
    { intro code. destruct (emit_error_frame (n_stream n) code c1) as (o & L1 & N1 & A1 & S1 & _).
      eapply InvL_same; [exact IL1 | exact A1 | now rewrite S1 | exact L1 | exact N1]. }
    destruct (s_deleted _); [exact IL1|]. destruct e, (snd (n_channel n)); try exact IL1; try apply Er.
    + eapply InvL_same; [exact IL1 | reflexivity | reflexivity | reflexivity | repeat constructor].
    + apply InvL_emit_finished; [now apply Inv_filter_conns | exact L | exact IL1].
  - injection H as <-. destruct (Nat.eqb_spec (s_refs (stream_at c sid)) 0) as [E|E]; [exact IL|].
    apply InvL_emit_finished; auto. now apply stream_refs_below.
  - injection H as <-. eapply (InvL_same c _ []); auto; cbn; [apply length_set_nth | now rewrite app_nil_r].
  - unfold timer_fires in H. destruct (nth_error (k_timers c) i) as [sid|]; [|now injection H as <-].
    destruct (alive _).
    + cbn [with_timers k_channel] in H. destruct (k_channel c); [|discriminate]. injection H as <-.
      eapply InvL_same; [exact IL | reflexivity | reflexivity | reflexivity | repeat constructor].
    + injection H as <-. eapply (InvL_same c _ []); auto; cbn; now rewrite app_nil_r.
  - injection H as <-. destruct (alive _); [exact IL|].
    eapply (InvL_same c _ []); auto; cbn; [apply length_set_nth | now rewrite app_nil_r].
Qed.

Lemma InvL_new : InvL new_client.
Proof. split; cbn; [|contradiction]. intro sid. split; [contradiction | intros [[h []] _]]. Qed.

Lemma InvL_run : forall evs c c', Inv c -> InvL c -> run c evs = Ok c' -> InvL c'.
Proof.
  induction evs as [|e evs IH]; intros c c' I IL H; cbn [run] in H; [now injection H as <-|].
  destruct (step c e) as [c1| | |] eqn:E; cbn [bind] in H; try discriminate.
  - eapply IH; [| |exact H]; [eapply Inv_step; eauto | eapply InvL_step; eauto].
  - eapply IH; eauto.
Qed.

(** ** Streams that will never do anything again *)

(** An output that shows life of the stream. *)
Definition life_of (sid : nat) (o : output) : Prop :=
  match o with
  | OOpen _ s _ | OMessage s _ _ | OReceived s _ | OError s _ => s = sid
  | _ => False
  end.

(** Neither connection nor timer, and the client is not interested any more. *)
Definition quiet (sid : nat) (c : client) : Prop :=
  sid < length (k_streams c) /\ count_conns sid c = 0 /\ count_timers sid c = 0 /\ s_client (stream_at c sid) = false.

(** Neither connection nor any reference. *)
Definition gone (sid : nat) (c : client) : Prop :=
  sid < length (k_streams c) /\ count_conns sid c = 0 /\ alive (stream_at c sid) = false.

Definition dead (sid : nat) (c : client) : Prop := quiet sid c \/ gone sid c.

Definition no_life (sid : nat) (c c' : client) : Prop :=
  exists o, k_log c' = k_log c ++ o /\ Forall (fun x => ~ life_of sid x) o.

Ltac nl := repeat (apply Forall_cons; [cbn; first [tauto | congruence | lia]|]); apply Forall_nil.

Lemma no_life_refl sid c : no_life sid c c.
Proof. exists []. rewrite app_nil_r. auto. Qed.
Lemma no_life_trans sid a b c : no_life sid a b -> no_life sid b c -> no_life sid a c.
Proof.
  intros (o & E & F) (o' & E' & F'). exists (o ++ o'). rewrite E', E, app_assoc. split; [reflexivity|]. now apply Forall_app.
Qed.

Lemma dead_frame sid c c' : dead sid c -> length (k_streams c) <= length (k_streams c') ->
  count_conns sid c' <= count_conns sid c ->
  count_timers sid c' <= count_timers sid c + (if s_client (stream_at c sid) then 1 else 0) ->
  (s_client (stream_at c' sid) = true -> s_client (stream_at c sid) = true) ->
  (s_refs (stream_at c' sid) <> 0 -> s_refs (stream_at c sid) <> 0) -> dead sid c'.
Proof.
  intros [(A & B & C & D)|(A & B & C)] L Nc Nt S R.
  - left. rewrite D in Nt. repeat split; try lia. destruct (s_client (stream_at c' sid)); [rewrite S in D by reflexivity; discriminate | reflexivity].
  - right. repeat split; try lia. unfold alive in *. apply orb_false_iff in C as [C1 C2].
    apply orb_false_iff. split; [destruct (s_client (stream_at c' sid)); [rewrite S in C1 by reflexivity; discriminate | reflexivity]|].
    destruct (Nat.eqb_spec (s_refs (stream_at c' sid)) 0) as [E|E]; [reflexivity|]. apply R in E.
    apply Nat.eqb_neq in E. rewrite E in C2. discriminate.
Qed.

Lemma dead_below sid c : dead sid c -> sid < length (k_streams c).
Proof. intros [H|H]; apply H. Qed.
Lemma dead_not_client sid c : dead sid c -> s_client (stream_at c sid) = false.
Proof. intros [H|(_ & _ & H)]; [apply H|]. unfold alive in H. now apply orb_false_iff in H. Qed.
Lemma dead_no_conns sid c : dead sid c -> count_conns sid c = 0.
Proof. intros [H|H]; apply H. Qed.

Lemma conn_counts c n : In n (k_conns c) -> 0 < count_conns (n_stream n) c.
Proof.
  unfold count_conns. induction (k_conns c) as [|y l IH]; [contradiction|]. intros [->|H]; cbn.
  - unfold of_stream at 1. rewrite Nat.eqb_refl. cbn. lia.
  - destruct (of_stream _ y); cbn; [lia | now apply IH].
Qed.

Lemma stream_at_say c o x : stream_at (say o c) x = stream_at c x. Proof. reflexivity. Qed.

Lemma finished_stream c s x : s_client (stream_at (emit_finished s c) x) = (if Nat.eqb x s then false else s_client (stream_at c x))
  /\ s_refs (stream_at (emit_finished s c) x) = s_refs (stream_at c x).
Proof.
  unfold emit_finished. change (stream_at (close_conns s ?d) x) with (stream_at d x).
  unfold client_finished. rewrite stream_at_say. destruct (s_client (stream_at c s)) eqn:C.
  - assert (L : s < length (k_streams c)).
    { destruct (le_lt_dec (length (k_streams c)) s) as [L|L]; [|exact L]. rewrite stream_at_beyond in C by exact L. discriminate. }
    rewrite stream_at_with by exact L. destruct (Nat.eqb_spec x s) as [->|]; auto.
  - rewrite stream_at_say. destruct (Nat.eqb_spec x s) as [->|]; auto.
Qed.

Lemma finished_counts c s x : count_conns x (emit_finished s c) = (if Nat.eqb x s then 0 else count_conns x c)
  /\ count_timers x (emit_finished s c) = count_timers x c.
Proof.
  unfold emit_finished. rewrite count_conns_close. split.
  - destruct (Nat.eqb x s); [reflexivity|]. unfold client_finished, count_conns. destruct (s_client _); reflexivity.
  - unfold client_finished, count_timers. cbn. destruct (s_client _); reflexivity.
Qed.

Lemma dead_finished sid s c : dead sid c -> dead sid (emit_finished s c) /\ no_life sid c (emit_finished s c).
Proof.
  intro D. split.
  - destruct (finished_stream c s sid) as [F1 F2]. destruct (finished_counts c s sid) as [G1 G2].
    eapply dead_frame; [exact D | now rewrite finished_length | | | |].
    + rewrite G1. destruct (Nat.eqb sid s); lia.
    + lia.
    + rewrite F1. destruct (Nat.eqb sid s); [discriminate | auto].
    + now rewrite F2.
  - eexists. split; [apply finished_log|]. constructor; [cbn; tauto|]. apply Forall_forall.
    intros o H. apply in_map_iff in H as (n & <- & _). cbn. tauto.
Qed.

Lemma dead_error sid s code c : s <> sid -> dead sid c -> dead sid (emit_error s code c) /\ no_life sid c (emit_error s code c).
Proof.
  intros N D. unfold emit_error. rewrite stream_at_say. destruct (s_client (stream_at c s)) eqn:C.
  - split.
    + eapply dead_frame; [exact D | cbn; lia | | | auto | auto].
      * unfold count_conns. cbn. lia.
      * unfold count_timers. cbn. rewrite count_app. apply Nat.eqb_neq in N. rewrite N. lia.
    + exists [OError s code; OClientError code]. cbn. rewrite <- app_assoc. split; [reflexivity|].
      nl.
  - split; [eapply dead_frame; [exact D | cbn; lia | unfold count_conns; cbn; lia | unfold count_timers; cbn; lia | auto | auto]|].
    exists [OError s code]. split; [reflexivity|]. nl.
Qed.

Lemma dead_open sid ch s c : s <> sid -> dead sid c -> dead sid (open_conn ch s c) /\ no_life sid c (open_conn ch s c).
Proof.
  intros N D. split.
  - eapply dead_frame; [exact D | cbn; lia | | unfold count_timers; cbn; lia | auto | auto].
    unfold count_conns. cbn. rewrite filter_app, app_length. cbn. unfold of_stream. cbn. apply Nat.eqb_neq in N. rewrite N. cbn. lia.
  - eexists. split; [reflexivity|]. nl.
Qed.

Lemma dead_filter sid p c : dead sid c -> dead sid (with_conns (filter p (k_conns c)) c).
Proof.
  intro D. eapply dead_frame; [exact D | cbn; lia | | unfold count_timers; cbn; lia | auto | auto].
  unfold count_conns. cbn. apply filter_filter_length.
Qed.

Lemma dead_abort_loop sid : forall n i c c', dead sid c -> abort_loop n i c = Ok c' -> dead sid c' /\ no_life sid c c'.
Proof.
  induction n as [|n IH]; intros i c c' D H; cbn in H.
  - injection H as <-. split; [exact D | apply no_life_refl].
  - destruct (nth_error (k_active c) i) as [s|]; [|discriminate]. destruct (dead_finished sid s c D) as [D1 N1].
    destruct (IH _ _ _ D1 H) as [D2 N2]. split; [exact D2 | eapply no_life_trans; eauto].
Qed.

Lemma dead_step sid c e c' : Inv c -> dead sid c -> step c e = Ok c' -> dead sid c' /\ no_life sid c c'.
Proof.
  intros I D H. pose proof (dead_below _ _ D) as L. pose proof (dead_not_client _ _ D) as Cl.
  destruct e; cbn [step] in H.
  - unfold attachChannel in H. destruct same_thread; cbn [negb] in H; [|discriminate].
    destruct (abort_loop (length (k_active c)) 0 c) as [c1| | |] eqn:E1; try discriminate. cbn [bind] in H.
    destruct (dead_abort_loop _ _ _ _ _ D E1) as [D1 N1].
    assert (D1' : dead sid (with_channel ch c1)) by exact D1.
    destruct (dead_abort_loop _ _ _ _ _ D1' H) as [D2 N2]. split; [exact D2|]. eapply no_life_trans; eauto.
  - injection H as <-. unfold client_stream. destruct (k_channel c) as [ch|] eqn:Ec.
    2:{ split; [exact D|]. eexists. split; [reflexivity|]. nl. }
    destruct (find _ _) as [s|] eqn:F.
    + apply find_some in F as [Ha _]. pose proof (active_below c I s Ha) as Ls.
      assert (N : s <> sid) by (intros ->; apply (I_client c I) in Ha; congruence).
      apply not_eq_sym, Nat.eqb_neq in N.
      split; [|eexists; split; [reflexivity|]; nl].
      unfold hold. set (s' := mkStream _ _ _ _ _ _).
      assert (Q : stream_at (say [OReturned s h] (with_stream s s' c)) sid = stream_at c sid)
        by (rewrite stream_at_say, stream_at_with by exact Ls; now rewrite N).
      eapply dead_frame; [exact D | cbn; rewrite length_set_nth; lia | unfold count_conns; cbn; lia | unfold count_timers; cbn; lia | |];
        rewrite Q; auto.
    + set (s' := mkStream _ _ _ _ _ _). split.
      * set (s0 := length (k_streams c)).
        set (c0 := mkClient _ _ (k_streams c ++ [s']) _ _ _ _).
        assert (Q : stream_at c0 sid = stream_at c sid) by (unfold stream_at, c0; cbn; now rewrite app_nth1).
        assert (D0 : dead sid c0).
        { eapply dead_frame; [exact D | unfold c0; cbn; rewrite app_length; lia | unfold count_conns; cbn; lia
                             | unfold count_timers; cbn; lia | |]; rewrite Q; auto. }
        assert (Ns : s0 <> sid) by (unfold s0; lia).
        exact (proj1 (dead_open sid ch s0 c0 Ns D0)).
      * eexists. cbn. rewrite <- app_assoc. split; [reflexivity|]. nl.
  - injection H as <-. unfold conn_data. destruct (conn_of cid c) as [n|] eqn:E; [|split; [exact D | apply no_life_refl]].
    apply conn_of_in in E as [Hn _]. assert (N : n_stream n <> sid).
    { intro Es. apply conn_counts in Hn. rewrite Es, (dead_no_conns _ _ D) in Hn. lia. }
    destruct (s_deleted _); [split; [exact D | apply no_life_refl]|]. split; [exact D|]. eexists. split; [reflexivity|].
    apply Forall_app. split; [|nl]. apply Forall_forall. intros o H.
    apply in_map_iff in H as (x & <- & _). cbn. auto.
  - injection H as <-. unfold conn_end. destruct (conn_of cid c) as [n|] eqn:E; [|split; [exact D | apply no_life_refl]].
    apply conn_of_in in E as [Hn _]. assert (N : n_stream n <> sid).
    { intro Es. apply conn_counts in Hn. rewrite Es, (dead_no_conns _ _ D) in Hn. lia. }
    set (c1 := with_conns _ c). assert (D1 : dead sid c1) by now apply dead_filter.
    assert (T : forall x, dead sid x /\ no_life sid c1 x -> dead sid x /\ no_life sid c x) by (intros x X; exact X).
    destruct (s_deleted _); [split; [exact D1 | apply (no_life_refl sid c)]|].
    destruct e, (snd (n_channel n)); apply T; try (now apply dead_error); try (now apply dead_open);
      try (now apply dead_finished). split; [exact D1 | apply no_life_refl].
  - injection H as <-. destruct (Nat.eqb _ _); [split; [exact D | apply no_life_refl] | now apply dead_finished].
  - injection H as <-. split; [|exists []; cbn; rewrite app_nil_r; auto].
    destruct (le_lt_dec (length (k_streams c)) sid0) as [L0|L0]; [now rewrite with_stream_beyond|].
    eapply dead_frame; [exact D | cbn; rewrite length_set_nth; lia | unfold count_conns; cbn; lia | unfold count_timers; cbn; lia | |];
      rewrite stream_at_with by exact L0; destruct (Nat.eqb_spec sid sid0) as [<-|]; auto. cbn. lia.
  - unfold timer_fires in H. destruct (nth_error (k_timers c) i) as [s|] eqn:E; [|injection H as <-; split; [exact D | apply no_life_refl]].
    set (c1 := with_timers _ c) in *.
    assert (D1 : dead sid c1).
    { eapply dead_frame; [exact D | cbn; lia | unfold count_conns; cbn; lia | | auto | auto].
      unfold count_timers. cbn. rewrite (count_remove _ _ _ sid E). lia. }
    destruct (alive (stream_at c1 s)) eqn:A.
    + assert (N : s <> sid).
      { intros ->. destruct D as [(_ & _ & T & _)|(_ & _ & G)].
        - apply nth_error_In in E. apply (count_occ_In Nat.eq_dec) in E. unfold count_timers in T. lia.
        - change (stream_at c1 sid) with (stream_at c sid) in A. congruence. }
      destruct (k_channel c1); [|discriminate]. injection H as <-.
      destruct (dead_open sid c0 s c1 N D1) as [D2 N2]. split; [exact D2 | exact N2].
    + injection H as <-. split; [exact D1|]. exists []. cbn. rewrite app_nil_r. auto.
  - injection H as <-. destruct (alive (stream_at c sid0)) eqn:A; [split; [exact D | apply no_life_refl]|].
    split; [|exists []; cbn; rewrite app_nil_r; auto].
    destruct (le_lt_dec (length (k_streams c)) sid0) as [L0|L0]; [now rewrite with_stream_beyond|].
    eapply dead_frame; [exact D | cbn; rewrite length_set_nth; lia | unfold count_conns; cbn; lia | unfold count_timers; cbn; lia | |];
      rewrite stream_at_with by exact L0; destruct (Nat.eqb_spec sid sid0) as [<-|]; auto.
Qed.

Lemma dead_run sid : forall evs c c', Inv c -> dead sid c -> run c evs = Ok c' -> no_life sid c c'.
Proof.
  induction evs as [|e evs IH]; intros c c' I D H; cbn [run] in H; [injection H as <-; apply no_life_refl|].
  destruct (step c e) as [c1| | |] eqn:E; cbn [bind] in H; try discriminate.
  - destruct (dead_step sid c e c1 I D E) as [D1 N1]. eapply no_life_trans; [exact N1|].
    eapply IH; [eapply Inv_step; eauto | exact D1 | exact H].
  - eapply IH; eauto.
Qed.

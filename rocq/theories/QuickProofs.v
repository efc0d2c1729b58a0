(** Invariants of QML stream elements. *)

From Coq Require Import ZArith List Bool Arith Lia.
From Verif Require Import Base StreamModel StreamProofs QuickModel.
Import ListNotations.
Open Scope nat_scope.

(** ** How a client changes in one step *)

(** The log grows and the streams keep their keys. *)
Definition ext (c c' : client) : Prop :=
  (exists o, k_log c' = k_log c ++ o) /\ length (k_streams c) <= length (k_streams c') /\
  (forall x, x < length (k_streams c) -> same_key (stream_at c' x) (stream_at c x)).

Lemma ext_refl c : ext c c.
Proof. split; [exists []; now rewrite app_nil_r|]. split; [lia|]. intros x _. now split. Qed.

Lemma ext_trans a b c : ext a b -> ext b c -> ext a c.
Proof.
  intros ((o & A1) & A2 & A3) ((p & B1) & B2 & B3). split; [exists (o ++ p); now rewrite app_assoc, <- A1|].
  split; [lia|]. intros x L. destruct (A3 x L), (B3 x (Nat.lt_le_trans _ _ _ L A2)). split; congruence.
Qed.

Lemma ext_same c c' o : k_streams c' = k_streams c -> k_log c' = k_log c ++ o -> ext c c'.
Proof.
  intros S L. split; [now exists o|]. unfold stream_at. rewrite S. split; [lia|]. intros x _. now split.
Qed.

Lemma ext_with_stream c sid s' : s_method s' = s_method (stream_at c sid) -> s_arg s' = s_arg (stream_at c sid) ->
  ext c (with_stream sid s' c).
Proof.
  intros M A. split; [exists []; cbn; now rewrite app_nil_r|]. split; [cbn; rewrite length_set_nth; lia|].
  intros x L. destruct (le_lt_dec (length (k_streams c)) sid) as [B|B].
  - rewrite with_stream_beyond by exact B. now split.
  - rewrite stream_at_with by exact B. destruct (Nat.eqb_spec x sid) as [->|]; split; auto.
Qed.

Lemma ext_finished c sid : ext c (emit_finished sid c).
Proof.
  unfold emit_finished. eapply ext_trans; [eapply (ext_same _ (say [OFinished sid] c)); reflexivity|].
  set (c1 := say [OFinished sid] c). apply ext_trans with (client_finished sid c1).
  2:{ unfold close_conns. eapply ext_same; reflexivity. }
  unfold client_finished. destruct (s_client _); [|apply ext_refl].
  eapply ext_trans; [eapply (ext_same _ (with_active _ _) []); [reflexivity | cbn; now rewrite app_nil_r]|].
  apply ext_with_stream; reflexivity.
Qed.

Lemma ext_error c sid code : ext c (emit_error sid code c).
Proof.
  destruct (emit_error_frame sid code c) as (o & L & _ & _ & S & _). eapply ext_same; [exact S | exact L].
Qed.

Lemma ext_open c ch sid : ext c (open_conn ch sid c).
Proof. eapply ext_same; reflexivity. Qed.

Lemma ext_subscribe c m a h : ext c (client_stream m a h c).
Proof.
  unfold client_stream. destruct (k_channel c) as [ch|]; [|eapply ext_same; reflexivity].
  destruct (find _ _) as [sid|].
  - unfold hold. set (s' := mkStream _ _ _ _ _ _). apply ext_trans with (with_stream sid s' c).
    + apply ext_with_stream; reflexivity.
    + eapply ext_same; reflexivity.
  - split; [cbn; eexists; rewrite <- !app_assoc; reflexivity|]. cbn. rewrite app_length. cbn. split; [lia|].
    intros x L. unfold stream_at. cbn. rewrite app_nth1 by exact L. now split.
Qed.

Lemma ext_abort_loop : forall n i c c', abort_loop n i c = Ok c' -> ext c c'.
Proof.
  induction n as [|n IH]; intros i c c' H; cbn in H; [injection H as <-; apply ext_refl|].
  destruct (nth_error (k_active c) i) as [sid|]; [|discriminate].
  eapply ext_trans; [apply ext_finished | eapply IH; exact H].
Qed.

Lemma ext_nil c c' : k_streams c' = k_streams c -> k_log c' = k_log c -> ext c c'.
Proof. intros S L. apply (ext_same c c' []); [exact S | now rewrite app_nil_r]. Qed.

Lemma ext_step c e c' : step c e = Ok c' -> ext c c'.
Proof.
  intro H. destruct e; cbn [step] in H.
  - unfold attachChannel in H. destruct same_thread; cbn [negb] in H; [|discriminate].
    destruct (abort_loop (length (k_active c)) 0 c) as [c1| | |] eqn:E1; try discriminate. cbn [bind] in H.
    eapply ext_trans; [eapply ext_abort_loop; exact E1|].
    eapply ext_trans; [|eapply ext_abort_loop; exact H]. now apply ext_nil.
  - injection H as <-. apply ext_subscribe.
  - injection H as <-. unfold conn_data. destruct (conn_of _ _); [|apply ext_refl]. destruct (s_deleted _); [apply ext_refl|].
    eapply ext_same; reflexivity.
  - injection H as <-. unfold conn_end. destruct (conn_of _ _) as [n|]; [|apply ext_refl].
    set (c1 := with_conns _ c). assert (X : ext c c1) by now apply ext_nil.
    destruct (s_deleted _); [exact X|]. eapply ext_trans; [exact X|].
    destruct e, (snd (n_channel n)); auto using ext_refl, ext_open, ext_error, ext_finished.
  - injection H as <-. destruct (Nat.eqb _ _); [apply ext_refl | apply ext_finished].
  - injection H as <-. apply ext_with_stream; reflexivity.
  - unfold timer_fires in H. destruct (nth_error _ _); [|injection H as <-; apply ext_refl].
    destruct (alive _); [|injection H as <-; now apply ext_nil].
    cbn [with_timers k_channel] in H. destruct (k_channel c); [|discriminate]. injection H as <-.
    eapply ext_trans; [|apply ext_open]. now apply ext_nil.
  - injection H as <-. destruct (alive _); [apply ext_refl|]. apply ext_with_stream; reflexivity.
Qed.

(** ** Giving up references *)

(** Nothing but reference counts differs. *)
Record sim (c c' : client) : Prop := {
  S_channel : k_channel c' = k_channel c;
  S_active : k_active c' = k_active c;
  S_conns : k_conns c' = k_conns c;
  S_log : k_log c' = k_log c;
  S_length : length (k_streams c') = length (k_streams c);
  S_keys : forall x, same_key (stream_at c' x) (stream_at c x);
  S_Inv : Inv c -> Inv c';
  S_InvL : InvL c -> InvL c'
}.

Lemma sim_refl c : sim c c.
Proof. split; auto. intro x. now split. Qed.

Lemma sim_trans a b c : sim a b -> sim b c -> sim a c.
Proof.
  intros A B. destruct A, B. split; try congruence; auto.
  intro x. destruct (S_keys0 x), (S_keys1 x). split; congruence.
Qed.

Lemma sim_drop c sid : sim c (drop_ref sid c).
Proof.
  unfold drop_ref. split; try reflexivity.
  - cbn. apply length_set_nth.
  - intro x. destruct (le_lt_dec (length (k_streams c)) sid) as [B|B].
    + rewrite with_stream_beyond by exact B. now split.
    + rewrite stream_at_with by exact B. destruct (Nat.eqb_spec x sid) as [->|]; split; reflexivity.
  - intro I. apply Inv_refs; try reflexivity; [exact I|]. cbn. intro Al. apply (I_alive c I). unfold alive in *. cbn in Al.
    apply orb_true_iff in Al as [->|Al]; [reflexivity|]. apply orb_true_iff. right.
    destruct (s_refs (stream_at c sid)); [discriminate | reflexivity].
  - intro L. eapply (InvL_same c _ []); auto; cbn; [apply length_set_nth | now rewrite app_nil_r].
Qed.

(** ** The slot for finished *)

Lemma upd_same {A} f k (x : A) : upd f k x k = x.
Proof. unfold upd. now rewrite Nat.eqb_refl. Qed.
Lemma upd_other {A} f k (x : A) j : j <> k -> upd f k x j = f j.
Proof. intro N. unfold upd. apply Nat.eqb_neq in N. now rewrite N. Qed.

Lemma reset_item w i j : w_item (reset i w) j = if Nat.eqb j i then set_stream None (w_item w i) else w_item w j.
Proof.
  unfold reset. destruct (q_stream (w_item w i)) as [[k sid]|] eqn:Q.
  - cbn. unfold upd. reflexivity.
  - destruct (Nat.eqb_spec j i) as [->|]; [|reflexivity]. destruct (w_item w i). cbn in Q. now subst.
Qed.
Lemma reset_slots w i : w_slots (reset i w) = w_slots w.
Proof. unfold reset. destruct (q_stream (w_item w i)) as [[k sid]|]; reflexivity. Qed.
Lemma reset_log w i : w_log (reset i w) = w_log w.
Proof. unfold reset. destruct (q_stream (w_item w i)) as [[k sid]|]; reflexivity. Qed.
Lemma reset_client w i k : sim (w_client w k) (w_client (reset i w) k).
Proof.
  unfold reset. destruct (q_stream (w_item w i)) as [[k' sid]|]; [|apply sim_refl].
  cbn. unfold upd. destruct (Nat.eqb_spec k k') as [->|]; [apply sim_drop | apply sim_refl].
Qed.

Lemma clear_item w i j : w_item (clear_return i w) j = if Nat.eqb j i then set_return false (w_item w i) else w_item w j.
Proof.
  unfold clear_return. destruct (q_return (w_item w i)) eqn:Q; [reflexivity|].
  destruct (Nat.eqb_spec j i) as [->|]; [|reflexivity]. destruct (w_item w i). cbn in Q. now subst.
Qed.
Lemma clear_slots w i : w_slots (clear_return i w) = w_slots w.
Proof. unfold clear_return. destruct (q_return (w_item w i)); reflexivity. Qed.
Lemma clear_client w i : w_client (clear_return i w) = w_client w.
Proof. unfold clear_return. destruct (q_return (w_item w i)); reflexivity. Qed.

Section Resolve.
Variable resolve : list Z -> list Z -> Z + list Z.

Local Notation updateStream := (updateStream resolve).
Local Notation update := (update resolve).

Lemma update_S n i w : updateStream (S n) i w =
  (w1 <- match q_stream (w_item w i) with
         | None => Ok w
         | Some (k, sid) => w' <- abort_stream (updateStream n) k sid w ;; Ok (reset i w')
         end ;;
   let w2 := clear_return i w1 in
   let q := w_item w2 i in
   match q_client q, q_arg q with
   | Some k, Some (_, arg) =>
       if match q_method q with [] => true | _ => false end || negb (q_enabled q) then Ok w2
       else match stream_of resolve i k arg w2 with
            | (true, w3) => Ok w3
            | (false, w3) => setEnabled_with (updateStream n) false i w3
            end
   | _, _ => Ok w2
   end).
Proof. reflexivity. Qed.

Lemma update_off n i w : q_stream (w_item w i) = None -> q_enabled (w_item w i) = false ->
  updateStream (S n) i w = Ok (clear_return i w).
Proof.
  intros Q E. rewrite update_S, Q. cbn [bind].
  rewrite clear_item, Nat.eqb_refl. cbn [set_return q_client q_arg q_method q_enabled]. rewrite E.
  destruct (q_client _); [|reflexivity]. destruct (q_arg _) as [[? ?]|]; [|reflexivity]. now rewrite orb_true_r.
Qed.

(** What the slot does. *)
Definition fin (i : nat) (w : world) : world :=
  let w1 := reset i w in
  if q_enabled (w_item w i) then
    clear_return i (signal i QEnabledChanged (with_item i (set_enabled false (w_item w1 i)) w1))
  else w1.

Lemma finished_slot_fin n i w : finished_slot (updateStream (S n)) i w = Ok (fin i w).
Proof.
  unfold finished_slot, setEnabled_with, fin. rewrite reset_item, Nat.eqb_refl. cbn [set_stream q_enabled].
  destruct (q_enabled (w_item w i)) eqn:E; cbn [Bool.eqb]; [|reflexivity].
  apply update_off; cbn; now rewrite upd_same.
Qed.

Definition off (q : item) : Prop := q_stream q = None /\ q_enabled q = false.
Definition same_props (q q' : item) : Prop :=
  q_client q' = q_client q /\ q_method q' = q_method q /\ q_arg q' = q_arg q.

Lemma fin_spec i w : w_slots (fin i w) = w_slots w /\ (forall k, sim (w_client w k) (w_client (fin i w) k)) /\
  off (w_item (fin i w) i) /\ same_props (w_item w i) (w_item (fin i w) i) /\ (forall j, j <> i -> w_item (fin i w) j = w_item w j).
Proof.
  unfold fin. destruct (q_enabled (w_item w i)) eqn:E.
  - rewrite clear_slots, clear_client. cbn [signal with_item w_slots w_client]. rewrite reset_slots. split; [reflexivity|].
    split; [intro k; apply reset_client|].
    rewrite clear_item, Nat.eqb_refl. cbn. rewrite upd_same, reset_item, Nat.eqb_refl. cbn.
    split; [now split|]. split; [now repeat split|].
    intros j N. rewrite clear_item. apply Nat.eqb_neq in N as N'. rewrite N'. cbn. now rewrite upd_other, reset_item, N' by exact N.
  - rewrite reset_slots. split; [reflexivity|]. split; [intro k; apply reset_client|].
    rewrite reset_item, Nat.eqb_refl. cbn. split; [now split|]. split; [now repeat split|].
    intros j N. rewrite reset_item. apply Nat.eqb_neq in N. now rewrite N.
Qed.

Lemma fins_spec n : forall l w, exists w', each (finished_slot (updateStream (S n))) l w = Ok w' /\
  w_slots w' = w_slots w /\ (forall k, sim (w_client w k) (w_client w' k)) /\
  (forall j, same_props (w_item w j) (w_item w' j)) /\ (forall j, In j l -> off (w_item w' j)) /\
  (forall j, ~ In j l -> w_item w' j = w_item w j).
Proof.
  induction l as [|i l IH]; intro w.
  - exists w. split; [reflexivity|]. split; [reflexivity|]. split; [intro; apply sim_refl|].
    split; [intro j; now repeat split|]. split; [contradiction | reflexivity].
  - cbn [each]. rewrite finished_slot_fin. cbn [bind].
    destruct (fin_spec i w) as (F1 & F2 & F3 & F4 & F5). destruct (IH (fin i w)) as (w' & E & G1 & G2 & G3 & G4 & G5).
    exists w'. split; [exact E|]. split; [congruence|]. split; [intro k; eapply sim_trans; [apply F2 | apply G2]|]. split; [|split].
    + intro j. specialize (G3 j). destruct (Nat.eq_dec j i) as [->|N]; [|now rewrite F5 in G3 by exact N].
      unfold same_props in *. destruct G3 as (A & B & C), F4 as (A' & B' & C'). repeat split; congruence.
    + intros j [<-|H]; [|now apply G4]. destruct (in_dec Nat.eq_dec i l) as [H|H]; [now apply G4|]. now rewrite G5.
    + intros j N. rewrite G5; [|intro H; apply N; now right]. apply F5. intros ->. apply N. now left.
Qed.

(** ** The invariant *)

Definition ready (q : item) : Prop :=
  q_client q <> None /\ q_method q <> [] /\ q_arg q <> None /\ q_enabled q = true.

Definition opened (w : world) (i k sid : nat) : Prop :=
  let q := w_item w i in
  q_client q = Some k /\ q_enabled q = true /\ q_method q <> [] /\
  exists p a m, q_arg q = Some (p, a) /\ resolve (q_method q) a = inr m /\
    In sid (k_active (w_client w k)) /\ s_method (stream_at (w_client w k) sid) = m /\
    s_arg (stream_at (w_client w k) sid) = a /\ In (i, (k, sid)) (w_slots w).

Definition item_ok (w : world) (i : nat) : Prop :=
  match q_stream (w_item w i) with
  | Some (k, sid) => opened w i k sid
  | None => ~ ready (w_item w i)
  end.

Definition clients_ok (w : world) : Prop := forall k, Inv (w_client w k) /\ InvL (w_client w k).
Definition Good (w : world) : Prop := clients_ok w /\ forall i, item_ok w i.

Lemma off_ok w i : off (w_item w i) -> item_ok w i.
Proof. intros [Q E]. unfold item_ok. rewrite Q. intros (_ & _ & _ & X). congruence. Qed.

(** An item that is as before stays right if its stream is still active and the slots are kept. *)
Lemma item_keep w w' i : w_item w' i = w_item w i -> incl (w_slots w) (w_slots w') ->
  (forall k sid, In sid (k_active (w_client w k)) -> q_stream (w_item w i) = Some (k, sid) ->
     In sid (k_active (w_client w' k)) /\ same_key (stream_at (w_client w' k) sid) (stream_at (w_client w k) sid)) ->
  item_ok w i -> item_ok w' i.
Proof.
  intros E S H K. unfold item_ok in *. rewrite E. destruct (q_stream (w_item w i)) as [[k sid]|] eqn:Q; [|exact K].
  destruct K as (A & B & C & p & a & m & D & F & G & M & Ar & L). unfold opened. rewrite E.
  destruct (H k sid G eq_refl) as [H1 [H2 H3]].
  repeat split; auto. exists p, a, m. repeat split; auto; congruence.
Qed.

Lemma item_sim w w' i : w_item w' i = w_item w i -> incl (w_slots w) (w_slots w') ->
  (forall k, sim (w_client w k) (w_client w' k)) -> item_ok w i -> item_ok w' i.
Proof.
  intros E S H. apply item_keep; auto. intros k sid A _. destruct (H k). rewrite S_active0. auto.
Qed.

Lemma sim_clients w w' : (forall k, sim (w_client w k) (w_client w' k)) -> clients_ok w -> clients_ok w'.
Proof. intros S C k. destruct (C k) as [A B], (S k). auto. Qed.

Lemma listeners_in w i k sid : In (i, (k, sid)) (w_slots w) <-> In i (listeners w (k, sid)).
Proof.
  unfold listeners. rewrite in_map_iff. split.
  - intro H. exists (i, (k, sid)). split; [reflexivity|]. apply filter_In. split; [exact H|]. unfold pair_eqb. cbn. now rewrite !Nat.eqb_refl.
  - intros ([j [k' s']] & <- & H). apply filter_In in H as [H E]. unfold pair_eqb in E. cbn in E.
    apply andb_prop in E as [E1 E2]. apply Nat.eqb_eq in E1, E2. cbn. now subst.
Qed.

(** The stream of an item is aborted. *)
Lemma abort_spec n w k sid : clients_ok w -> sid < length (k_streams (w_client w k)) ->
  exists w', abort_stream (updateStream (S n)) k sid w = Ok w' /\ clients_ok w' /\ w_slots w' = w_slots w /\
    (forall k', sim (w_client (with_client k (emit_finished sid (w_client w k)) w) k') (w_client w' k')) /\
    (forall j, same_props (w_item w j) (w_item w' j)) /\
    (forall j, In (j, (k, sid)) (w_slots w) -> off (w_item w' j)) /\
    (forall j, ~ In (j, (k, sid)) (w_slots w) -> w_item w' j = w_item w j) /\
    (forall j, item_ok w j -> item_ok w' j).
Proof.
  intros C L. unfold abort_stream. set (w0 := with_client k (emit_finished sid (w_client w k)) w).
  change (listeners w (k, sid)) with (listeners w0 (k, sid)).
  destruct (fins_spec n (listeners w0 (k, sid)) w0) as (w' & E & S & Si & P & O & K).
  exists w'. split; [exact E|].
  assert (C0 : clients_ok w0).
  { intro k'. cbn. unfold upd. destruct (Nat.eqb_spec k' k) as [->|]; [|apply C].
    destruct (C k) as [I IL]. split; [now apply Inv_finished | now apply InvL_emit_finished]. }
  split; [eapply sim_clients; eauto|]. split; [exact S|]. split; [exact Si|]. split; [exact P|].
  split; [intros j H; apply O; now apply listeners_in|].
  assert (K' : forall j, ~ In (j, (k, sid)) (w_slots w) -> w_item w' j = w_item w j).
  { intros j H. apply K. intro X. apply H. apply listeners_in in X. exact X. }
  split; [exact K'|]. intros j Ok.
  destruct (in_dec Nat.eq_dec j (listeners w0 (k, sid))) as [H|H]; [apply off_ok; now apply O|].
  eapply (item_sim w0 w'); [now apply K | rewrite S; apply incl_refl | exact Si |].
  eapply (item_keep w); [reflexivity | apply incl_refl | | exact Ok].
  intros k' s A Q. cbn. unfold upd. destruct (Nat.eqb_spec k' k) as [->|]; [|split; [exact A | now split]].
  destruct (C k) as [I IL]. rewrite finished_active by exact I. split; [split; [exact A|]|].
  - intros ->. apply H. apply listeners_in. change (In (j, (k, sid)) (w_slots w)).
    unfold item_ok in Ok. rewrite Q in Ok. destruct Ok as (_ & _ & _ & p & a & m & _ & _ & _ & _ & _ & X). exact X.
  - apply (ext_finished (w_client w k) sid). apply (active_below _ I s A).
Qed.

(** Before updateStream is called for an item: its stream, if any, has a slot; all other items are right. *)
Definition before (w : world) (i : nat) : Prop :=
  clients_ok w /\ (forall j, j <> i -> item_ok w j) /\
  forall k sid, q_stream (w_item w i) = Some (k, sid) ->
    In (i, (k, sid)) (w_slots w) /\ In sid (k_active (w_client w k)).

(** With a stream, updateStream closes it, disables the item and stops. *)
Lemma update_open n i w k sid : before w i -> q_stream (w_item w i) = Some (k, sid) ->
  exists w', updateStream (S (S n)) i w = Ok w' /\ Good w' /\ w_slots w' = w_slots w /\
    (forall k', sim (w_client (with_client k (emit_finished sid (w_client w k)) w) k') (w_client w' k')) /\
    (forall j, same_props (w_item w j) (w_item w' j)) /\
    (forall j, In (j, (k, sid)) (w_slots w) -> off (w_item w' j)) /\
    (forall j, ~ In (j, (k, sid)) (w_slots w) -> w_item w' j = w_item w j).
Proof.
  intros (C & Ot & B) Q. destruct (B k sid Q) as [Sl Ac].
  destruct (abort_spec n w k sid C (active_below _ (proj1 (C k)) sid Ac)) as (w1 & E & C1 & S1 & Si & P & O & K & Ok1).
  destruct (O i Sl) as [Q1 En].
  assert (R : reset i w1 = w1) by (unfold reset; now rewrite Q1).
  exists (clear_return i w1).
  assert (I1 : forall j, item_ok (clear_return i w1) j).
  { intro j. destruct (Nat.eq_dec j i) as [->|N].
    - apply off_ok. unfold off. rewrite clear_item, Nat.eqb_refl. cbn. auto.
    - eapply (item_sim w1); [|rewrite clear_slots; apply incl_refl | intro; rewrite clear_client; apply sim_refl | now apply Ok1, Ot].
      rewrite clear_item. apply Nat.eqb_neq in N. now rewrite N. }
  split; [|split; [|split; [|split; [|split; [|split]]]]].
  - rewrite update_S, Q, E. cbn [bind]. rewrite R.
    rewrite clear_item, Nat.eqb_refl. cbn [set_return q_client q_arg q_method q_enabled]. rewrite En.
    destruct (q_client _); [|reflexivity]. destruct (q_arg _) as [[? ?]|]; [|reflexivity]. now rewrite orb_true_r.
  - split; [intro; rewrite clear_client; apply C1 | exact I1].
  - now rewrite clear_slots.
  - intro k'. rewrite clear_client. apply Si.
  - intro j. rewrite clear_item. destruct (Nat.eqb_spec j i) as [->|]; [|apply P]. specialize (P i). unfold same_props in *. cbn. exact P.
  - intros j H. destruct (O j H) as [O1 O2]. unfold off. rewrite clear_item. destruct (Nat.eqb_spec j i) as [->|]; cbn; auto.
  - intros j H. rewrite clear_item. destruct (Nat.eqb_spec j i) as [->|]; [contradiction | now apply K].
Qed.

(** Without a stream and not ready, nothing happens. *)
Lemma update_idle n i w : before w i -> q_stream (w_item w i) = None -> ~ ready (w_item w i) ->
  updateStream (S n) i w = Ok (clear_return i w) /\ Good (clear_return i w).
Proof.
  intros (C & Ot & B) Q R. split.
  - rewrite update_S, Q. cbn [bind]. rewrite clear_item, Nat.eqb_refl. cbn [set_return q_client q_arg q_method q_enabled].
    unfold ready in R. destruct (q_client (w_item w i)); [|reflexivity]. destruct (q_arg (w_item w i)) as [[? ?]|]; [|reflexivity].
    destruct (q_method (w_item w i)); [reflexivity|]. destruct (q_enabled (w_item w i)); [|reflexivity].
    exfalso. apply R. repeat split; congruence.
  - split; [intro; rewrite clear_client; apply C|]. intro j. destruct (Nat.eq_dec j i) as [->|N].
    + unfold item_ok. rewrite clear_item, Nat.eqb_refl. cbn [set_return q_stream]. rewrite Q. exact R.
    + eapply (item_sim w); [|rewrite clear_slots; apply incl_refl | intro; rewrite clear_client; apply sim_refl | now apply Ot].
      rewrite clear_item. apply Nat.eqb_neq in N. now rewrite N.
Qed.

(** What happens when everything is set: either an error and the item is disabled, or a stream is opened. *)
Lemma subscribe_result c m a h : Inv c -> k_channel c <> None ->
  let sid := match find (equal_to c m a) (k_active c) with Some s => s | None => length (k_streams c) end in
  In sid (k_active (client_stream m a h c)) /\ s_method (stream_at (client_stream m a h c) sid) = m /\
  s_arg (stream_at (client_stream m a h c) sid) = a /\ incl (k_active c) (k_active (client_stream m a h c)) /\
  In (OReturned sid h) (skipn (length (k_log c)) (k_log (client_stream m a h c))).
Proof.
  intros I Ch sid. subst sid. unfold client_stream. destruct (k_channel c) as [ch|]; [|congruence].
  destruct (find _ _) as [s|] eqn:F.
  - apply find_some in F as [A K]. apply equal_to_key in K as [K1 K2].
    unfold hold. cbn [say k_active with_stream]. split; [exact A|].
    set (s' := mkStream _ _ _ _ _ _).
    assert (X : stream_at (say [OReturned s h] (with_stream s s' c)) s = s').
    { change (stream_at (with_stream s s' c) s = s'). rewrite stream_at_with by now apply active_below. now rewrite Nat.eqb_refl. }
    rewrite X. cbn. split; [exact K1|]. split; [exact K2|]. split; [apply incl_refl|].
    rewrite skipn_app, skipn_all, Nat.sub_diag. now left.
  - cbn. split; [apply in_app_iff; right; now left|]. unfold stream_at. cbn. rewrite app_nth2, Nat.sub_diag by lia. cbn.
    split; [reflexivity|]. split; [reflexivity|]. split; [intros x Hx; apply in_app_iff; now left|].
    rewrite <- app_assoc, skipn_app, skipn_all, Nat.sub_diag. cbn. right. now left.
Qed.

Definition fails (i : nat) (w w' : world) : Prop :=
  Good w' /\ off (w_item w' i) /\ (exists code, In (i, QError code) (skipn (length (w_log w)) (w_log w'))) /\
  (forall j, same_props (w_item w j) (w_item w' j)) /\ (forall j, j <> i -> w_item w' j = w_item w j) /\
  (forall k, k_active (w_client w' k) = k_active (w_client w k)).

Definition succeeds (i k : nat) (a m : list Z) (w w' : world) : Prop :=
  Good w' /\ q_enabled (w_item w' i) = true /\ (forall j, same_props (w_item w j) (w_item w' j)) /\
  (forall j, j <> i -> w_item w' j = w_item w j) /\
  w_client w' = upd (w_client w) k (client_stream m a None (w_client w k)) /\
  exists sid, q_stream (w_item w' i) = Some (k, sid) /\ opened w' i k sid /\
    In (OReturned sid None) (skipn (length (k_log (w_client w k))) (k_log (w_client w' k))).

Lemma log_grow (l : list (nat * qoutput)) a b : skipn (length l) ((l ++ a) ++ b) = a ++ b.
Proof. rewrite <- app_assoc, skipn_app, skipn_all, Nat.sub_diag. reflexivity. Qed.

Lemma clear_log w i : exists o, w_log (clear_return i w) = w_log w ++ o.
Proof.
  unfold clear_return. destruct (q_return (w_item w i)); [eexists; reflexivity | exists []; now rewrite app_nil_r].
Qed.

Lemma disable_after i w w3 code : before w i -> q_stream (w_item w i) = None ->
  w_slots w3 = w_slots w -> (forall j, j <> i -> w_item w3 j = w_item w j) ->
  q_stream (w_item w3 i) = None -> same_props (w_item w i) (w_item w3 i) ->
  (forall k, Inv (w_client w3 k) /\ InvL (w_client w3 k) /\ k_active (w_client w3 k) = k_active (w_client w k) /\
     k_streams (w_client w3 k) = k_streams (w_client w k)) ->
  In (i, QError code) (skipn (length (w_log w)) (w_log w3)) -> (exists o, w_log w3 = w_log w ++ o) -> q_enabled (w_item w3 i) = true ->
  forall n, exists w', setEnabled_with (updateStream (S n)) false i w3 = Ok w' /\ fails i w w'.
Proof.
  intros (C & Ot & _) Q S It Q3 P3 Cl Lg [o Lo] En n. unfold setEnabled_with. rewrite En. cbn [Bool.eqb].
  set (w4 := signal i QEnabledChanged (with_item i (set_enabled false (w_item w3 i)) w3)).
  exists (clear_return i w4). split; [apply update_off; unfold w4; cbn; now rewrite upd_same|].
  assert (It4 : forall j, j <> i -> w_item (clear_return i w4) j = w_item w j).
  { intros j N. rewrite clear_item. apply Nat.eqb_neq in N as N'. rewrite N'. unfold w4. cbn. rewrite upd_other by exact N. now apply It. }
  assert (I4 : w_item (clear_return i w4) i = set_return false (set_enabled false (w_item w3 i))).
  { rewrite clear_item, Nat.eqb_refl. unfold w4. cbn. now rewrite upd_same. }
  assert (Of : off (w_item (clear_return i w4) i)) by (rewrite I4; split; [exact Q3 | reflexivity]).
  unfold fails. split; [split|split; [exact Of|split; [|split; [|split; [exact It4|]]]]].
  - intro k. rewrite clear_client. unfold w4. cbn. destruct (Cl k) as (A & B & _). auto.
  - intro j. destruct (Nat.eq_dec j i) as [->|N]; [now apply off_ok|].
    eapply (item_keep w); [now apply It4 | rewrite clear_slots; unfold w4; cbn; rewrite S; apply incl_refl | | now apply Ot].
    intros k sid A _. rewrite clear_client. unfold w4. cbn. destruct (Cl k) as (_ & _ & B1 & B2). rewrite B1. split; [exact A|].
    unfold stream_at. rewrite B2. now split.
  - exists code. destruct (clear_log w4 i) as [o' ->]. unfold w4. cbn. rewrite Lo in *.
    rewrite skipn_app, skipn_all, Nat.sub_diag in Lg. cbn in Lg. rewrite <- !app_assoc, skipn_app, skipn_all, Nat.sub_diag. cbn.
    apply in_app_iff. now left.
  - intro j. destruct (Nat.eq_dec j i) as [->|N]; [|rewrite It4 by exact N; now repeat split].
    rewrite I4. unfold same_props in *. cbn. exact P3.
  - intro k. rewrite clear_client. unfold w4. cbn. now destruct (Cl k) as (_ & _ & B & _).
Qed.

Lemma update_ready n i w k p a : before w i -> q_stream (w_item w i) = None -> ready (w_item w i) ->
  q_client (w_item w i) = Some k -> q_arg (w_item w i) = Some (p, a) ->
  exists w', updateStream (S (S n)) i w = Ok w' /\
    match resolve (q_method (w_item w i)) a with
    | inl _ => fails i w w'
    | inr m => match k_channel (w_client w k) with
               | None => fails i w w'
               | Some _ => succeeds i k a m w w'
               end
    end.
Proof.
  intros B Q R Hk Ha. pose proof B as (C & Ot & _). destruct R as (_ & Rm & _ & Re).
  set (w2 := clear_return i w).
  assert (E2 : w_item w2 i = set_return false (w_item w i)) by (unfold w2; now rewrite clear_item, Nat.eqb_refl).
  assert (Lw : exists o, w_log w2 = w_log w ++ o) by apply clear_log. destruct Lw as [o Lo].
  assert (O2 : forall j, j <> i -> w_item w2 j = w_item w j)
    by (intros j N; unfold w2; rewrite clear_item; apply Nat.eqb_neq in N; now rewrite N).
  assert (Un : updateStream (S (S n)) i w = match stream_of resolve i k a w2 with
               | (true, w3) => Ok w3 | (false, w3) => setEnabled_with (updateStream (S n)) false i w3 end).
  { rewrite update_S, Q. cbn [bind]. fold w2. rewrite E2. cbn [set_return q_client q_arg q_method q_enabled].
    rewrite Hk, Ha, Re. destruct (q_method (w_item w i)); [congruence|]. reflexivity. }
  rewrite Un. clear Un. unfold stream_of. rewrite E2. cbn [set_return q_method].
  assert (S2 : w_slots w2 = w_slots w) by apply clear_slots.
  assert (Cl2 : w_client w2 = w_client w) by apply clear_client.
  destruct (resolve (q_method (w_item w i)) a) as [code|m] eqn:Rs.
  - apply (disable_after i w _ code); auto; cbn.
    + now rewrite E2.
    + rewrite E2. now repeat split.
    + intro k'. rewrite Cl2. destruct (C k'). auto.
    + rewrite Lo, log_grow. apply in_app_iff. right. now left.
    + rewrite Lo, <- app_assoc. eexists. reflexivity.
    + now rewrite E2.
  - cbn [signal with_item w_client]. rewrite Cl2.
    destruct (k_channel (w_client w k)) as [ch|] eqn:Ch.
    + set (sid := match find _ _ with Some s => s | None => _ end).
      destruct (C k) as [Ik ILk].
      assert (Nn : k_channel (w_client w k) <> None) by congruence.
      destruct (subscribe_result (w_client w k) m a None Ik Nn) as (X1 & X2 & X3 & X4 & X5). fold sid in X1, X2, X3, X5.
      eexists. split; [reflexivity|]. set (w' := mkWorld _ _ _ _).
      assert (Ei : w_item w' i = set_stream (Some (k, sid)) (set_return true (set_return false (w_item w i)))).
      { unfold w'. cbn. rewrite !upd_same. reflexivity. }
      assert (Ej : forall j, j <> i -> w_item w' j = w_item w j).
      { intros j N. unfold w'. cbn. rewrite !upd_other by exact N. now apply O2. }
      assert (Ec : w_client w' = upd (w_client w) k (client_stream m a None (w_client w k))) by (unfold w'; cbn; now rewrite Cl2).
      assert (Es : w_slots w' = w_slots w ++ [(i, (k, sid))]) by (unfold w'; cbn; now rewrite S2).
      assert (Op : opened w' i k sid).
      { unfold opened. rewrite Ei, Ec, Es, upd_same. cbn [set_stream set_return q_client q_enabled q_method q_arg].
        split; [exact Hk|]. split; [exact Re|]. split; [exact Rm|]. exists p, a, m. split; [exact Ha|]. split; [exact Rs|].
        split; [exact X1|]. split; [exact X2|]. split; [exact X3|]. apply in_app_iff. right. now left. }
      clearbody w'.
      unfold succeeds. split; [split|split; [|split; [|split; [|split]]]]; auto.
      * intro k'. rewrite Ec. unfold upd. destruct (Nat.eqb_spec k' k) as [->|]; [|apply C]. split; [now apply Inv_subscribe|].
        eapply (InvL_step (w_client w k) (Subscribe m a None)); auto.
      * intro j. destruct (Nat.eq_dec j i) as [->|N].
        -- unfold item_ok. rewrite Ei. cbn [set_stream q_stream]. exact Op.
        -- eapply (item_keep w); [now apply Ej | rewrite Es; apply incl_appl, incl_refl | | now apply Ot].
           intros k' s A _. rewrite Ec. unfold upd. destruct (Nat.eqb_spec k' k) as [->|]; [|split; [exact A | now split]].
           split; [now apply X4|]. apply (ext_subscribe (w_client w k)). now apply active_below.
      * rewrite Ei. exact Re.
      * intro j. destruct (Nat.eq_dec j i) as [->|N]; [rewrite Ei; now repeat split | rewrite Ej by exact N; now repeat split].
      * exists sid. split; [now rewrite Ei|]. split; [exact Op|]. rewrite Ec, upd_same. exact X5.
    + apply (disable_after i w _ 2%Z); auto; cbn.
      * intros j N. rewrite upd_other by exact N. now apply O2.
      * rewrite upd_same. exact Q.
      * rewrite upd_same. now repeat split.
      * intro k'. unfold upd. destruct (Nat.eqb_spec k' k) as [->|]; [|rewrite Cl2; destruct (C k'); auto].
        destruct (C k) as [Ik ILk]. split; [now apply Inv_subscribe|]. split; [eapply (InvL_step (w_client w k) (Subscribe m a None)); auto|].
        unfold client_stream. rewrite Ch. auto.
      * rewrite Lo, <- app_assoc, log_grow. apply in_app_iff. right. right. now left.
      * rewrite Lo, <- !app_assoc. eexists. reflexivity.
      * now rewrite upd_same.
Qed.

Lemma ready_dec q : ready q \/ ~ ready q.
Proof.
  unfold ready. destruct (q_client q), (q_method q), (q_arg q), (q_enabled q);
    try (left; repeat split; congruence); right; intros (A & B & C & D); congruence.
Qed.

Lemma update_Good i w : before w i -> exists w', update i w = Ok w' /\ Good w'.
Proof.
  intro B. unfold QuickModel.update. destruct (q_stream (w_item w i)) as [[k sid]|] eqn:Q.
  - destruct (update_open 1 i w k sid B Q) as (w' & E & G & _). eauto.
  - destruct (ready_dec (w_item w i)) as [R|R].
    + pose proof R as (Rk & _ & Ra & _). destruct (q_client (w_item w i)) as [k|] eqn:Hk; [|congruence].
      destruct (q_arg (w_item w i)) as [[p a]|] eqn:Ha; [|congruence].
      destruct (update_ready 1 i w k p a B Q R Hk Ha) as (w' & E & H). exists w'. split; [exact E|].
      destruct (resolve _ _); [apply H|]. destruct (k_channel _); apply H.
    + destruct (update_idle 2 i w B Q R) as [E G]. eauto.
Qed.

(** Setting a property leaves the stream of the item in place until updateStream is called. *)
Lemma before_set w i q o : Good w -> q_stream q = q_stream (w_item w i) -> before (signal i o (with_item i q w)) i.
Proof.
  intros [C I] Q. split; [exact C|]. split.
  - intros j N. eapply (item_sim w); [|apply incl_refl | intro; apply sim_refl | apply I]. cbn. now rewrite upd_other.
  - intros k sid H. cbn in H. rewrite upd_same, Q in H. specialize (I i). unfold item_ok in I. rewrite H in I.
    destruct I as (_ & _ & _ & p & a & m & _ & _ & A & _ & _ & S). auto.
Qed.

Lemma Good_signal w i o : Good w -> Good (signal i o w).
Proof.
  intros [C I]. split; [exact C|]. intro j. eapply (item_sim w); [reflexivity | apply incl_refl | intro; apply sim_refl | apply I].
Qed.

(** ** Signals of streams *)

(** Items whose stream has ended wait for the slot. *)
Definition waiting (k : nat) (o : list output) (w : world) : Prop :=
  clients_ok w /\ forall j, item_ok w j \/
    exists sid, q_stream (w_item w j) = Some (k, sid) /\ In (OFinished sid) o /\ In (j, (k, sid)) (w_slots w).

Lemma waiting_signals k o : forall l q w, waiting k o w ->
  exists w', each (fun i w => Ok (signal i q w)) l w = Ok w' /\ waiting k o w'.
Proof.
  induction l as [|i l IH]; intros q w H; [now exists w|]. cbn [each bind]. apply IH. destruct H as [C H]. split; [exact C|].
  intro j. destruct (H j) as [I|(sid & A)]; [left|right; exists sid; exact A].
  eapply (item_sim w); [reflexivity | apply incl_refl | intro; apply sim_refl | exact I].
Qed.

Lemma deliver_Good k : forall o w, waiting k o w -> exists w', deliver resolve k o w = Ok w' /\ Good w'.
Proof.
  assert (Sk : forall x o w, (forall sid, x <> OFinished sid) -> waiting k (x :: o) w -> waiting k o w).
  { intros x o w N [C H]. split; [exact C|]. intro j. destruct (H j) as [I|(sid & A & [B|B] & D)]; [now left | now apply N in B|].
    right. exists sid. auto. }
  induction o as [|x o IH]; intros w H.
  - exists w. split; [reflexivity|]. destruct H as [C H]. split; [exact C|]. intro j. destruct (H j) as [I|(sid & _ & [] & _)]; exact I.
  - destruct x; cbn [deliver]; try (apply IH; revert H; apply Sk; discriminate).
    + destruct (waiting_signals k o (listeners w (k, sid)) (QMessage data) w) as (w' & E & H').
      { revert H. apply Sk. discriminate. }
      rewrite E. cbn [bind]. now apply IH.
    + unfold QuickModel.update. destruct (fins_spec 2 (listeners w (k, sid)) w) as (w' & E & S & Si & P & O & K). rewrite E. cbn [bind]. apply IH.
      destruct H as [C H]. split; [eapply sim_clients; eauto|]. intro j.
      destruct (in_dec Nat.eq_dec j (listeners w (k, sid))) as [L|L]; [left; apply off_ok; now apply O|].
      destruct (H j) as [I|(s & A & B & D)].
      * left. eapply (item_sim w w'); [now apply K | rewrite S; apply incl_refl | exact Si | exact I].
      * right. exists s. rewrite K, S by exact L. split; [exact A|]. split; [|exact D].
        destruct B as [B|B]; [|exact B]. injection B as ->. exfalso. apply L. now apply listeners_in.
    + destruct (waiting_signals k o (listeners w (k, sid)) (QError code) w) as (w' & E & H').
      { revert H. apply Sk. discriminate. }
      rewrite E. cbn [bind]. now apply IH.
Qed.

Lemma client_waiting w k e c : Good w -> step (w_client w k) e = Ok c ->
  waiting k (skipn (length (k_log (w_client w k))) (k_log c)) (with_client k c w).
Proof.
  intros [C I] E. destruct (C k) as [Ik ILk]. pose proof (ext_step _ _ _ E) as ((o & L) & _ & Ks).
  assert (Ic : Inv c) by exact (Inv_step _ _ _ Ik E). assert (ILc : InvL c) by exact (InvL_step _ _ _ Ik ILk E).
  split.
  - intro k'. cbn. unfold upd. destruct (Nat.eqb_spec k' k) as [->|]; auto.
  - intro j. specialize (I j). destruct (q_stream (w_item w j)) as [[k' sid]|] eqn:Q.
    + destruct (Nat.eq_dec k' k) as [->|N].
      * assert (X : In (j, (k, sid)) (w_slots w) /\ In sid (k_active (w_client w k))).
        { unfold item_ok in I. rewrite Q in I. destruct I as (_ & _ & _ & p & a & m & _ & _ & A & _ & _ & S). auto. }
        destruct X as [X1 X2].
        assert (D : In (OFinished sid) (skipn (length (k_log (w_client w k))) (k_log c)) \/ In sid (k_active c)).
        { rewrite L, skipn_app, skipn_all, Nat.sub_diag. cbn.
          assert (Dec : In (OFinished sid) o \/ ~ In (OFinished sid) o).
          { clear. induction o as [|x o IH]; [right; intros []|]. destruct IH as [IH|IH]; [left; now right|].
            destruct x; try (right; intros [Y|Y]; [discriminate | contradiction]).
            destruct (Nat.eq_dec sid0 sid) as [->|N]; [left; now left|]. right. intros [Y|Y]; [congruence | contradiction]. }
          destruct Dec as [Y|Y]; [now left|]. right. apply (L_active c ILc). apply (L_active _ ILk) in X2 as [[h R] F].
          rewrite L. split; [exists h; apply in_app_iff; now left|]. rewrite in_app_iff. tauto. }
        destruct D as [D|D]; [right; exists sid; split; [exact Q|split; [exact D|exact X1]]|].
        left. eapply (item_keep w); [reflexivity | apply incl_refl | | exact I].
        intros k' s A Q'. rewrite Q in Q'. injection Q' as <- <-. cbn. rewrite upd_same. split; [exact D|].
        apply Ks. now apply active_below.
      * left. eapply (item_keep w); [reflexivity | apply incl_refl | | exact I].
        intros k'' s A Q'. rewrite Q in Q'. injection Q' as <- <-. cbn. rewrite upd_other by exact N. split; [exact A | now split].
    + left. unfold item_ok in *. cbn. rewrite Q in *. exact I.
Qed.

Lemma signals_frame q : forall l w w', each (fun i w => Ok (signal i q w)) l w = Ok w' ->
  w_client w' = w_client w /\ w_item w' = w_item w /\ w_slots w' = w_slots w.
Proof.
  induction l as [|i l IH]; intros w w' H; cbn [each bind] in H; [injection H as <-; auto|]. apply IH in H. exact H.
Qed.

Lemma deliver_frame k : forall o w w', deliver resolve k o w = Ok w' ->
  (forall k', sim (w_client w k') (w_client w' k')) /\
  (forall j, w_item w' j = w_item w j \/ off (w_item w' j) /\ same_props (w_item w j) (w_item w' j)).
Proof.
  induction o as [|x o IH]; intros w w' H.
  - injection H as <-. split; [intro; apply sim_refl | now left].
  - destruct x; cbn [deliver] in H; try (now apply IH).
    + destruct (each _ _ w) as [w1| | |] eqn:E; try discriminate. cbn [bind] in H. apply signals_frame in E as (E1 & E2 & _).
      apply IH in H. rewrite E1, E2 in H. exact H.
    + unfold QuickModel.update in H. destruct (fins_spec 2 (listeners w (k, sid)) w) as (w1 & E & S & Si & P & O & K). rewrite E in H. cbn [bind] in H.
      apply IH in H as [H1 H2]. split; [intro k'; eapply sim_trans; [apply Si | apply H1]|]. intro j.
      destruct (H2 j) as [Q|[Q1 Q2]].
      * destruct (in_dec Nat.eq_dec j (listeners w (k, sid))) as [L|L]; rewrite Q; [right; split; [now apply O | apply P] | left; now apply K].
      * right. split; [exact Q1|]. destruct (P j) as (A & B & C), Q2 as (A' & B' & C'). repeat split; congruence.
    + destruct (each _ _ w) as [w1| | |] eqn:E; try discriminate. cbn [bind] in H. apply signals_frame in E as (E1 & E2 & _).
      apply IH in H. rewrite E1, E2 in H. exact H.
Qed.

(** ** Histories *)

Lemma Good_new : Good new_world.
Proof.
  split; [intro k; split; [exact Inv_new | exact InvL_new]|]. intro i. unfold item_ok. cbn. intros (A & _). now apply A.
Qed.

Lemma destroy_Good i w : Good w -> exists w', destroy resolve i w = Ok w' /\ Good w'.
Proof.
  intros [C I]. unfold destroy.
  assert (K : forall w1, clients_ok w1 -> (forall j, item_ok w1 j) ->
    Good (mkWorld (w_client w1) (upd (w_item w1) i new_item) (filter (fun x => negb (Nat.eqb (fst x) i)) (w_slots w1)) (w_log w1))).
  { intros w1 C1 I1. split; [exact C1|]. intro j. destruct (Nat.eq_dec j i) as [->|N].
    - unfold item_ok. cbn. rewrite upd_same. cbn. intros (X & _). now apply X.
    - specialize (I1 j). unfold item_ok, opened in *. cbn. rewrite upd_other by exact N.
      destruct (q_stream (w_item w1 j)) as [[k sid]|]; [|exact I1].
      destruct I1 as (A & B & D & p & a & m & F & G & H & M & Ar & L). repeat split; auto. exists p, a, m. repeat split; auto.
      apply filter_In. split; [exact L|]. cbn. apply Nat.eqb_neq in N. now rewrite N. }
  destruct (q_stream (w_item w i)) as [[k sid]|] eqn:Q.
  - assert (X : In (i, (k, sid)) (w_slots w) /\ In sid (k_active (w_client w k))).
    { specialize (I i). unfold item_ok in I. rewrite Q in I. destruct I as (_ & _ & _ & p & a & m & _ & _ & A & _ & _ & S). auto. }
    destruct X as [X1 X2]. unfold QuickModel.update.
    destruct (abort_spec 2 w k sid C (active_below _ (proj1 (C k)) sid X2)) as (w1 & E & C1 & S1 & _ & _ & O & _ & Ok1).
    rewrite E. cbn [bind]. assert (R : reset i w1 = w1) by (unfold reset; now rewrite (proj1 (O i X1))). rewrite R.
    eexists. split; [reflexivity|]. apply K; auto.
  - cbn [bind]. eexists. split; [reflexivity|]. now apply K.
Qed.

Lemma Good_step w e w' : Good w -> qstep resolve w e = Ok w' -> Good w'.
Proof.
  intros G H. destruct e; cbn [qstep] in H.
  - unfold setClient in H. destruct (option_eqb _ _); [now injection H as <-|].
    destruct (update_Good i _ (before_set w i (mkItem k (q_enabled (w_item w i)) (q_method (w_item w i)) (q_arg (w_item w i)) (q_stream (w_item w i)) (q_return (w_item w i))) QClientChanged G eq_refl)) as (w1 & E & G1).
    rewrite E in H. now injection H as <-.
  - unfold setEnabled, setEnabled_with in H. destruct (Bool.eqb _ _); [now injection H as <-|].
    destruct (update_Good i _ (before_set w i (set_enabled b (w_item w i)) QEnabledChanged G eq_refl)) as (w1 & E & G1).
    rewrite E in H. now injection H as <-.
  - unfold setMethod in H. destruct (bytes_eqb _ _); [now injection H as <-|].
    destruct (update_Good i _ (before_set w i (mkItem (q_client (w_item w i)) (q_enabled (w_item w i)) m (q_arg (w_item w i)) (q_stream (w_item w i)) (q_return (w_item w i))) QMethodChanged G eq_refl)) as (w1 & E & G1).
    rewrite E in H. now injection H as <-.
  - unfold setArgument in H. destruct (option_eqb _ _); [now injection H as <-|].
    destruct (update_Good i _ (before_set w i (mkItem (q_client (w_item w i)) (q_enabled (w_item w i)) (q_method (w_item w i)) a (q_stream (w_item w i)) (q_return (w_item w i))) QArgumentChanged G eq_refl)) as (w1 & E & G1).
    rewrite E in H. now injection H as <-.
  - destruct (destroy_Good i w G) as (w1 & E & G1). rewrite E in H. now injection H as <-.
  - destruct (step (w_client w k) e) as [c| | |] eqn:E; cbn [bind] in H; try discriminate.
    destruct (deliver_Good k _ _ (client_waiting w k e c G E)) as (w1 & E1 & G1). rewrite E1 in H. now injection H as <-.
Qed.

Lemma Good_run : forall evs w w', Good w -> qrun resolve w evs = Ok w' -> Good w'.
Proof.
  induction evs as [|e evs IH]; intros w w' G H; cbn [qrun] in H; [now injection H as <-|].
  destruct (qstep resolve w e) as [w1| | |] eqn:E; cbn [bind] in H; try discriminate.
  - eapply IH; [|exact H]. eapply Good_step; eauto.
  - eapply IH; eauto.
Qed.

End Resolve.

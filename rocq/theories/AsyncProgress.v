(** Whatever handlers, slots and other threads began with a reply or stream can end, if no data fail to be deserialized. *)

From Coq Require Import ZArith List Bool Arith Lia.
From Verif Require Import Base AsyncModel AsyncSpec AsyncProofs AsyncLog AsyncMore.
Import ListNotations.
Local Close Scope Z_scope.

(** What remains to be done for a frame, with [h] handlers. *)
Definition weight (h : nat) (f : frame) : nat :=
  match f with
  | Handling n last _ => (last - n) + 2 | Emitting _ => 1 | Decoding => 1 | Failing => 1 | Want WRead => 2 | Want (WMessage _) => h + 3
  | Want (WAbort _) => 2 | Remote => 0 | Slot _ => 1
  end.
Fixpoint load (h : nat) (l : list frame) : nat := match l with [] => 0 | f :: l' => weight h f + load h l' end.
Fixpoint total (h : nat) (st : nat -> list frame) (ts : list nat) : nat := match ts with [] => 0 | t :: ts' => load h (st t) + total h st ts' end.

Lemma total_ext h st st' ts : (forall t, In t ts -> load h (st t) = load h (st' t)) -> total h st ts = total h st' ts.
Proof. induction ts as [|t ts IH]; intros X; [reflexivity|]. cbn. rewrite (X t), IH; [reflexivity|intros u U; apply X; now right|now left]. Qed.
Lemma total_put h st ts t l : In t ts -> NoDup ts -> total h (put st t l) ts + load h (st t) = total h st ts + load h l.
Proof.
  induction ts as [|u ts IH]; intros I ND; [destruct I|]. inversion ND as [|? ? N D]. subst. cbn -[put]. destruct I as [->|I].
  - rewrite put_same. rewrite (total_ext h (put st t l) st ts); [lia|]. intros x X. rewrite put_other; auto. intros ->. contradiction.
  - rewrite put_other by (intros ->; contradiction). specialize (IH I D). lia.
Qed.

Section Operation.
  Context (home : nat) (stream : bool) (decode : data -> bool) (listens : nat -> bool).
  Notation step := (step home stream decode listens).
  Notation run := (run home stream decode listens).
  Notation turn := (turn home listens).
  Notation good := (good home).
  Notation fresh := (fresh home).

  (** No data fail. *)
  Record Clean (now : data) (st : nat -> list frame) : Prop := {
    c_data : decode now = true;
    c_want : forall t d, In (Want (WMessage d)) (st t) -> decode d = true;
    c_fail : forall t, ~ In Failing (st t)
  }.
  Definition clean (s : state) : Prop := Clean (a_data s) (a_stacks s).
  Context (empty : decode [] = true).

  Lemma clean_push s t f : clean s -> f <> Failing -> (forall d, f = Want (WMessage d) -> decode d = true) -> clean (push t f s).
  Proof.
    intros [A B C] N M. constructor; auto; cbn -[put].
    - intros u d I. destruct (Nat.eq_dec u t) as [->|X]; [rewrite put_same in I|rewrite put_other in I by auto; now apply (B u)].
      destruct I as [I|I]; [now apply M|now apply (B t)].
    - intros u I. destruct (Nat.eq_dec u t) as [->|X]; [rewrite put_same in I|rewrite put_other in I by auto; now apply (C u)].
      destruct I as [I|I]; [contradiction|now apply (C t)].
  Qed.
  Lemma clean_pop s t : clean s -> clean (pop t s).
  Proof.
    intros [A B C]. constructor; auto; cbn -[put].
    - intros u d I. destruct (Nat.eq_dec u t) as [->|X]; [rewrite put_same in I|rewrite put_other in I by auto; now apply (B u)].
      apply (B t). destruct (a_stacks s t); [destruct I|now right].
    - intros u I. destruct (Nat.eq_dec u t) as [->|X]; [rewrite put_same in I|rewrite put_other in I by auto; now apply (C u)].
      apply (C t). destruct (a_stacks s t); [destruct I|now right].
  Qed.
  Lemma clean_set s d : clean s -> decode d = true -> clean (set_data d s).
  Proof. intros [A B C] D. now constructor. Qed.
  Lemma clean_turn s n last d s' : clean s -> turn n last d s = Ok s' -> clean s'.
  Proof.
    intros C. unfold AsyncModel.turn. destruct (Nat.eqb _ _); [|discriminate]. destruct (nth_error _ _); intros Q; injection Q as <-.
    - apply (clean_push s home (Handling (S n) last d) C); discriminate.
    - apply (clean_push s home (Emitting None) C); discriminate.
  Qed.
  Lemma clean_abort s who : clean s -> clean (abort_now home stream who s).
  Proof.
    intros C. unfold abort_now. apply (clean_push (if stream then s else set_data [] s) home (Emitting who)); try discriminate.
    destruct stream; auto. now apply clean_set.
  Qed.
  Lemma clean_granted s t w s' : clean s -> (forall d, w = WMessage d -> decode d = true) -> granted home stream listens t w s = Ok s' -> clean s'.
  Proof.
    intros C M. destruct w as [|d|who]; cbn [granted].
    - intros Q. injection Q as <-. apply (clean_push (with_lock (Some t) s) t Decoding); try discriminate. destruct C as [A B D]. now constructor.
    - unfold deliver. apply clean_turn. apply clean_set; auto.
    - intros Q. injection Q as <-. now apply clean_abort.
  Qed.
  Lemma clean_ask s t w s' : clean s -> (forall d, w = WMessage d -> decode d = true) -> ask home stream listens t w s = Ok s' -> clean s'.
  Proof.
    intros C M. unfold ask. destruct (a_lock s); [|now apply clean_granted]. intros Q. injection Q as <-. apply clean_push; auto; try discriminate.
    intros d E. injection E as ->. auto.
  Qed.
  Lemma clean_do_abort s who s' : clean s -> do_abort home stream listens who s = Ok s' -> clean s'.
  Proof.
    intros C. unfold do_abort. destruct stream eqn:ST; [|rewrite <- ST; apply clean_ask; auto; discriminate]. intros Q. injection Q as <-. rewrite <- ST. now apply clean_abort.
  Qed.
  Lemma step_clean s e s' : clean s -> clean_event decode e -> step s e = Ok s' -> clean s'.
  Proof.
    intros C M. destruct e as [d|t|t|k|t|t| |t]; cbn [AsyncModel.step].
    - destruct (a_stacks s home); [|intros Q; now injection Q as <-]. apply clean_ask; auto. intros e E. injection E as <-. exact M.
    - destruct (runs s t); [|intros Q; now injection Q as <-]. apply clean_ask; auto. discriminate.
    - destruct (runs s t); [|intros Q; now injection Q as <-]. destruct (Nat.eqb t home); [now apply clean_do_abort|]. intros Q. injection Q as <-.
      apply (clean_push (with_posted (a_posted s ++ [t]) s) t Remote); try discriminate. destruct C as [A B D]. now constructor.
    - destruct (runs s home); intros Q; injection Q as <-; auto.
    - destruct (a_stacks s t) as [|f r] eqn:E; [intros Q; now injection Q as <-|].
      destruct f as [n last d|[u|]| | |w| |d]; try (intros Q; injection Q as <-; auto).
      + apply clean_turn. now apply clean_pop.
      + now do 2 apply clean_pop.
      + now apply clean_pop.
      + destruct (c_fail _ _ C t). rewrite E. now left.
      + now apply clean_pop.
    - destruct (a_stacks s t) as [|f r] eqn:E; [intros Q; now injection Q as <-|].
      destruct f as [n last d|who| | |w| |d]; try (intros Q; injection Q as <-; auto).
      + rewrite (c_data _ _ C). intros Q. injection Q as <-. exact (clean_pop s t C).
      + destruct (a_lock s); [intros Q; now injection Q as <-|]. apply clean_granted; [now apply clean_pop|]. intros d ->. apply (c_want _ _ C t). rewrite E. now left.
    - destruct (a_stacks s home); [|intros Q; now injection Q as <-]. destruct (a_posted s) as [|t q]; [intros Q; now injection Q as <-|].
      apply clean_do_abort. destruct C as [A B D]. now constructor.
    - destruct (a_stacks s t); [|intros Q; now injection Q as <-]. destruct (a_notes s t); intros Q; injection Q as <-; auto.
      apply (clean_push (with_notes (put (a_notes s) t l) s) t (Slot d)); try discriminate. destruct C as [A B D]. now constructor.
  Qed.

  (** Threads that take part. *)
  Definition thread_of (e : event) : list nat := match e with Read t | Abort t | Return t | Proceed t | Take t => [t] | _ => [] end.
  Definition inside (ts : list nat) (s : state) : Prop := forall t, ~ In t ts -> a_stacks s t = [].
  Lemma inside_put ts s t l : inside ts s -> In t ts -> inside ts (with_stack t l s).
  Proof. intros I T u N. cbn -[put]. rewrite put_other; [now apply I|]. intros ->. contradiction. Qed.
  Lemma inside_pop ts s t : inside ts s -> inside ts (pop t s).
  Proof.
    intros I u N. unfold pop. cbn -[put]. destruct (Nat.eq_dec u t) as [->|X]; [rewrite put_same, (I t N); reflexivity|rewrite put_other; auto].
  Qed.
  Lemma inside_turn ts s n last d s' : inside ts s -> In home ts -> turn n last d s = Ok s' -> inside ts s'.
  Proof.
    intros I H. unfold AsyncModel.turn. destruct (Nat.eqb _ _); [|discriminate]. destruct (nth_error _ _); intros Q; injection Q as <-; exact (inside_put ts s home _ I H).
  Qed.
  Lemma inside_granted ts s t w s' : inside ts s -> In home ts -> In t ts -> granted home stream listens t w s = Ok s' -> inside ts s'.
  Proof.
    intros I H T. destruct w as [|d|who]; cbn [granted].
    - intros Q. injection Q as <-. exact (inside_put ts s t _ I T).
    - unfold deliver. now apply inside_turn.
    - intros Q. injection Q as <-. unfold abort_now. destruct stream; exact (inside_put ts s home _ I H).
  Qed.
  Lemma inside_ask ts s t w s' : inside ts s -> In home ts -> In t ts -> ask home stream listens t w s = Ok s' -> inside ts s'.
  Proof.
    intros I H T. unfold ask. destruct (a_lock s); [|now apply inside_granted]. intros Q. injection Q as <-. now apply inside_put.
  Qed.
  Lemma inside_do_abort ts s who s' : inside ts s -> In home ts -> do_abort home stream listens who s = Ok s' -> inside ts s'.
  Proof.
    intros I H. unfold do_abort. destruct stream eqn:ST; [|rewrite <- ST; now apply inside_ask]. intros Q. injection Q as <-. exact (inside_put ts s home _ I H).
  Qed.
  Lemma step_inside ts s e s' : inside ts s -> In home ts -> incl (thread_of e) ts -> step s e = Ok s' -> inside ts s'.
  Proof.
    intros I H T. assert (T' : forall t, thread_of e = [t] -> In t ts) by (intros t E; apply T; rewrite E; now left).
    destruct e as [d|t|t|k|t|t| |t]; cbn [AsyncModel.step]; cbn in T'.
    - destruct (a_stacks s home); [|intros Q; now injection Q as <-]. now apply inside_ask.
    - destruct (runs s t); [|intros Q; now injection Q as <-]. apply inside_ask; auto.
    - destruct (runs s t); [|intros Q; now injection Q as <-]. destruct (Nat.eqb t home); [now apply inside_do_abort|]. intros Q. injection Q as <-.
      exact (inside_put ts s t _ I (T' t eq_refl)).
    - destruct (runs s home); intros Q; injection Q as <-; auto.
    - destruct (a_stacks s t) as [|f r] eqn:E; [intros Q; now injection Q as <-|].
      destruct f as [n last d|[u|]| | |w| |d]; try (intros Q; injection Q as <-; auto).
      + apply inside_turn; auto. now apply inside_pop.
      + now do 2 apply inside_pop.
      + now apply inside_pop.
      + exact (inside_pop ts s t I).
      + now apply inside_pop.
    - destruct (a_stacks s t) as [|f r] eqn:E; [intros Q; now injection Q as <-|].
      destruct f as [n last d|who| | |w| |d]; try (intros Q; injection Q as <-; auto).
      + destruct (decode (a_data s)); intros Q; injection Q as <-; [exact (inside_pop ts s t I)|]. exact (inside_put ts (pop t s) t _ (inside_pop ts s t I) (T' t eq_refl)).
      + destruct (a_lock s); [intros Q; now injection Q as <-|]. apply inside_granted; auto. now apply inside_pop.
    - destruct (a_stacks s home); [|intros Q; now injection Q as <-]. destruct (a_posted s) as [|t q]; [intros Q; now injection Q as <-|].
      now apply inside_do_abort.
    - destruct (a_stacks s t); [|intros Q; now injection Q as <-]. destruct (a_notes s t); intros Q; injection Q as <-; auto.
      exact (inside_put ts s t _ I (T' t eq_refl)).
  Qed.

  (** ** One more step *)
  Definition work (ts : list nat) (s : state) : nat := total (length (a_handlers s)) (a_stacks s) ts + 3 * length (a_posted s).
  Definition idle (s : state) : Prop := (forall t, a_stacks s t = []) /\ a_posted s = [].

  Lemma work_put ts s t l l' q s' : In t ts -> NoDup ts -> a_stacks s t = l -> (forall u, load (length (a_handlers s)) (a_stacks s' u) = load (length (a_handlers s)) (put (a_stacks s) t l' u)) ->
    a_handlers s' = a_handlers s -> a_posted s' = q -> load (length (a_handlers s)) l' + 3 * length q < load (length (a_handlers s)) l + 3 * length (a_posted s) -> work ts s' < work ts s.
  Proof.
    intros T N E X H P L. unfold work. rewrite H, P. rewrite (total_ext _ (a_stacks s') (put (a_stacks s) t l')) by auto.
    pose proof (total_put (length (a_handlers s)) (a_stacks s) ts t l' T N) as Q. rewrite E in Q. lia.
  Qed.

  Definition advances (ts : list nat) (s : state) : Prop :=
    exists e s', service e /\ step s e = Ok s' /\ work ts s' < work ts s /\ incl (thread_of e) ts.

  Lemma granted_work ts s t w r : good s -> fresh s -> In t ts -> NoDup ts -> a_stacks s t = Want w :: r -> a_lock s = None -> advances ts s.
  Proof.
    intros G F T N E L. exists (Proceed t).
    destruct (step_fresh home stream decode listens s (Proceed t) G F Logic.I) as (s' & S & _). exists s'. split; [exact Logic.I|]. split; [exact S|].
    split; [|intros x [<-|[]]; exact T]. cbn [AsyncModel.step] in S. rewrite E, L in S. destruct w as [|d|who]; cbn [granted] in S.
    - injection S as <-. apply (work_put ts s t _ (Decoding :: r) (a_posted s) _ T N E); [|reflexivity|reflexivity|cbn; lia]. intros u. cbn -[put load]. rewrite E. cbn [tl]. rewrite put_put, put_same. reflexivity.
    - assert (P : t = home) by (apply (v_place _ _ _ _ G t (Want (WMessage d))); rewrite E; now left). subst t. revert S. unfold deliver, AsyncModel.turn. cbn -[put].
      rewrite Nat.eqb_refl. destruct (a_handlers s) as [|k hs] eqn:HS; cbn -[put]; intros Q; injection Q as <-.
      + apply (work_put ts s home _ (Emitting None :: r) (a_posted s) _ T N E); [|reflexivity|reflexivity|rewrite HS; cbn; lia]. intros u. cbn -[put load]. rewrite E. cbn [tl]. rewrite put_put, put_same. reflexivity.
      + apply (work_put ts s home _ (Handling 1 (S (length hs)) d :: r) (a_posted s) _ T N E); [|reflexivity|reflexivity|rewrite HS; cbn; lia].
        intros u. cbn -[put load]. rewrite E. cbn [tl]. rewrite put_put, put_same. reflexivity.
    - assert (P : t = home) by (apply (v_place _ _ _ _ G t (Want (WAbort who))); rewrite E; now left). subst t. injection S as <-.
      apply (work_put ts s home _ (Emitting who :: r) (a_posted s) _ T N E); [|unfold abort_now; now destruct stream|unfold abort_now; now destruct stream|cbn; lia].
      intros u. unfold abort_now. destruct stream; cbn -[put load]; rewrite E; cbn [tl]; rewrite put_put, put_same; reflexivity.
  Qed.
  Lemma return_work ts s t f r : good s -> fresh s -> In t ts -> NoDup ts -> a_stacks s t = f :: r -> user f -> advances ts s.
  Proof.
    intros G F T N E U. exists (Return t).
    destruct (step_fresh home stream decode listens s (Return t) G F Logic.I) as (s' & S & _). exists s'. split; [exact Logic.I|]. split; [exact S|].
    split; [|intros x [<-|[]]; exact T]. cbn [AsyncModel.step] in S. rewrite E in S.
    destruct f as [n last d|[u|]| | |w| |d]; try destruct U.
    - assert (P : t = home) by (apply (v_place _ _ _ _ G t (Handling n last d)); rewrite E; now left). subst t.
      assert (LL : last = length (a_handlers s)) by (apply (F n last d); rewrite E; now left).
      revert S. unfold AsyncModel.turn. cbn -[put]. destruct (Nat.eqb _ _); [|discriminate]. destruct (nth_error (a_handlers s) n) eqn:K; intros Q; injection Q as <-.
      + assert (n < length (a_handlers s)) by (apply nth_error_Some; congruence).
        apply (work_put ts s home _ (Handling (S n) last d :: r) (a_posted s) _ T N E); [|reflexivity|reflexivity|cbn -[Nat.sub]; lia]. intros u. cbn -[put load]. rewrite E. cbn [tl]. rewrite put_put, put_same. reflexivity.
      + apply (work_put ts s home _ (Emitting None :: r) (a_posted s) _ T N E); [|reflexivity|reflexivity|cbn; lia]. intros u. cbn -[put load]. rewrite E. cbn [tl]. rewrite put_put, put_same. reflexivity.
    - assert (P : t = home) by (apply (v_place _ _ _ _ G t (Emitting (Some u))); rewrite E; now left). subst t. injection S as <-.
      destruct (inv_done _ _ _ _ _ _ G E) as (q & RU & NU & _).
      apply (work_put ts s home _ r (a_posted s) _ T N E); [|reflexivity|reflexivity|cbn; lia]. intros v. cbn -[put load]. rewrite E. cbn [tl].
      destruct (Nat.eq_dec v u) as [->|X]; [rewrite put_same, !put_other by auto; now rewrite RU|now rewrite (put_other _ u)].
    - injection S as <-. apply (work_put ts s t _ r (a_posted s) _ T N E); [|reflexivity|reflexivity|cbn; lia]. intros v. cbn -[put load]. now rewrite E.
    - injection S as <-. apply (work_put ts s t _ r (a_posted s) _ T N E); [|reflexivity|reflexivity|cbn; lia]. intros v. cbn -[put load]. now rewrite E.
    - injection S as <-. apply (work_put ts s t _ r (a_posted s) _ T N E); [|reflexivity|reflexivity|cbn; lia]. intros v. cbn -[put load]. now rewrite E.
  Qed.

  Lemma advance ts s : good s -> fresh s -> clean s -> inside ts s -> In home ts -> NoDup ts -> ~ idle s -> advances ts s.
  Proof.
    intros G F C I H N NI.
    assert (INS : forall t f r, a_stacks s t = f :: r -> In t ts).
    { intros t f r E. destruct (in_dec Nat.eq_dec t ts) as [X|X]; auto. rewrite (I t X) in E. discriminate. }
    destruct (a_lock s) as [t|] eqn:L.
    - (* the thread that deserializes *)
      pose proof (v_hold _ _ _ _ G t) as K. rewrite L in K. cbn in K. rewrite Nat.eqb_refl in K.
      destruct (a_stacks s t) as [|f r] eqn:E; [discriminate|].
      assert (f = Decoding).
      { destruct f; auto; exfalso; cbn in K; try (destruct (c_fail _ _ C t); rewrite E; now left);
        (assert (Z : held r = 0); [|lia]); pose proof (v_shape _ _ _ _ G _ _ _ E) as U; pose proof (c_fail _ _ C t) as NF; rewrite E in NF; clear K E;
        induction r as [|g r IH]; auto; inversion U; subst; cbn;
        (rewrite IH; [|auto|intros [Q|Q]; [discriminate|apply NF; right; now right]]); destruct g; cbn in *; auto; try tauto; destruct NF; auto. }
      subst f. exists (Proceed t). eexists. split; [exact Logic.I|]. split; [cbn; rewrite E, (c_data _ _ C); reflexivity|].
      split; [|intros x [<-|[]]; now apply (INS t Decoding r)].
      apply (work_put ts s t _ r (a_posted s) _ (INS _ _ _ E) N E); [|reflexivity|reflexivity|cbn; lia]. intros v. cbn -[put load]. now rewrite E.
    - assert (STEP : forall t f r, a_stacks s t = f :: r -> f <> Remote -> advances ts s).
      { intros t f r E NR. pose proof (INS _ _ _ E) as T. destruct f as [n last d|who| | |w| |d]; try contradiction.
        - eapply return_work; eauto; exact Logic.I.
        - eapply return_work; eauto; exact Logic.I.
        - exfalso. apply (free_decoding home s G L t). rewrite E. now left.
        - eapply return_work; eauto; exact Logic.I.
        - eapply granted_work; eauto.
        - eapply return_work; eauto; exact Logic.I. }
      destruct (a_stacks s home) as [|f r] eqn:E.
      + destruct (a_posted s) as [|t q] eqn:P.
        * (* another thread *)
          assert (ALL : forall t, a_stacks s t = [] \/ advances ts s).
          { intros t. destruct (a_stacks s t) as [|f r] eqn:Q; auto. right. apply (STEP t f r Q). intros ->.
            assert (Z : In t (a_posted s ++ served (a_stacks s home))) by (apply (v_wait _ _ _ _ G); now exists r). rewrite P, E in Z. destruct Z. }
          assert (EX : forall l, (forall t, In t l -> a_stacks s t = []) \/ advances ts s).
          { induction l as [|t l IH]; [left; intros t []|]. destruct IH as [IH|]; auto. destruct (ALL t) as [A|]; auto. left. intros u [<-|X]; auto. }
          destruct (EX ts) as [A|]; auto. exfalso. apply NI. split; auto. intros t. destruct (in_dec Nat.eq_dec t ts); auto.
        * exists Serve. destruct (step_fresh home stream decode listens s Serve G F Logic.I) as (s' & S & _). exists s'. split; [exact Logic.I|]. split; [exact S|].
          split; [|intros x []]. cbn [AsyncModel.step] in S. rewrite E, P in S. unfold do_abort, ask in S. cbn [a_lock with_posted] in S. rewrite L in S.
          destruct stream eqn:ST; cbn [granted] in S; injection S as <-;
          [apply (work_put ts s home _ [Emitting (Some t)] q _ H N E)|apply (work_put ts s home _ [Emitting (Some t)] q _ H N E)]; try reflexivity; try (rewrite P; cbn; lia);
          intros u; cbn -[put load]; now rewrite E.
      + apply (STEP home f r E). intros ->. apply (v_place _ _ _ _ G home Remote); [rewrite E; now left|reflexivity].
  Qed.

  Lemma settle ts : In home ts -> NoDup ts -> forall n s, work ts s <= n -> good s -> fresh s -> clean s -> inside ts s ->
    exists l s', Forall service l /\ run s l = Ok s' /\ idle s'.
  Proof.
    intros H N. assert (DEC : forall s, inside ts s -> idle s \/ ~ idle s).
    { intros s I. assert (EX : forall l, (forall t, In t l -> a_stacks s t = []) \/ exists t, a_stacks s t <> []).
      { induction l as [|t l IH]; [left; intros t []|]. destruct IH as [IH|]; auto. destruct (a_stacks s t) eqn:E; [|right; exists t; congruence].
        left. intros u [<-|X]; auto. }
      destruct (EX ts) as [A|(t & A)]; [|right; intros [B _]; now apply A].
      destruct (a_posted s) eqn:P; [|right; intros [_ B]; congruence]. left. split; auto. intros t. destruct (in_dec Nat.eq_dec t ts); auto. }
    induction n as [|n IH]; intros s W G F C I; (destruct (DEC s I) as [D|D]; [exists [], s; split; [constructor|split; [reflexivity|exact D]]|]).
    - destruct (advance ts s G F C I H N D) as (e & s' & _ & _ & Q & _). lia.
    - destruct (advance ts s G F C I H N D) as (e & s' & SV & S & Q & TH).
      destruct (step_fresh home stream decode listens s e G F) as (s2 & S2 & F2); [destruct e; try destruct SV; exact Logic.I|]. rewrite S in S2. injection S2 as <-.
      destruct (IH s') as (l & s2 & A & B & D2); auto; try lia.
      + now apply (step_good home stream decode listens s e).
      + apply (step_clean s e); auto. destruct e; try destruct SV; exact Logic.I.
      + now apply (step_inside ts s e).
      + exists (e :: l), s2. split; [now constructor|]. split; auto. cbn. now rewrite S.
  Qed.

  Lemma run_all evs : forall s s' ts, good s -> fresh s -> clean s -> inside ts s -> In home ts -> incl (flat_map thread_of evs) ts -> Forall (clean_event decode) evs ->
    throughout step (careful_event home) s evs -> run s evs = Ok s' -> good s' /\ fresh s' /\ clean s' /\ inside ts s'.
  Proof.
    induction evs as [|e evs IH]; intros s s' ts G F C I H T E K R; cbn [AsyncModel.run] in R; [injection R as <-; auto|].
    destruct K as [K1 K2]. destruct (step_fresh home stream decode listens s e G F K1) as (s1 & S & F1). rewrite S in R, K2. cbn [bind] in R. inversion E. subst.
    cbn in T. apply incl_app_inv in T. destruct T as [T1 T2].
    apply (IH s1 s' ts); auto; [now apply (step_good home stream decode listens s e)|now apply (step_clean s e)|now apply (step_inside ts s e)].
  Qed.
  Lemma settle_run hs evs s : Forall (clean_event decode) evs -> throughout step (careful_event home) (start hs) evs -> run (start hs) evs = Ok s ->
    exists l s', Forall service l /\ run s l = Ok s' /\ idle s'.
  Proof.
    intros E K R. set (ts := nodup Nat.eq_dec (home :: flat_map thread_of evs)).
    assert (H : In home ts) by (apply nodup_In; now left).
    destruct (run_all evs (start hs) s ts) as (G & F & C & I); auto.
    - apply inv_start.
    - apply start_fresh.
    - constructor; auto; intros t d []. 
    - intros t _. reflexivity.
    - intros t X. apply nodup_In. now right.
    - apply (settle ts H (NoDup_nodup _ _) (work ts s) s); auto.
  Qed.
End Operation.

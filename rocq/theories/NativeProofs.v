(** Invariants of the threads of the channel of the gRPC library. *)

From Coq Require Import ZArith List Bool Arith Lia.
From Verif Require Import Base NativeModel NativeSpec.
Import ListNotations.
Open Scope Z_scope.

(** ** Lists *)

Lemma set_nth_length {A} : forall (l : list A) i x, length (set_nth i x l) = length l.
Proof. induction l as [| a l IH]; destruct i; cbn; auto. Qed.

Lemma nth_set_nth {A} : forall (l : list A) i j x d,
  nth j (set_nth i x l) d = if Nat.eqb j i && Nat.ltb j (length l) then x else nth j l d.
Proof.
  induction l as [| a l IH]; intros i j x d.
  - replace (Nat.ltb j (length (@nil A))) with false by (destruct j; reflexivity). rewrite andb_false_r. destruct i; reflexivity.
  - destruct i, j; cbn [set_nth nth length Nat.eqb andb]; try reflexivity. rewrite IH. reflexivity.
Qed.

Lemma nth_app_new {A} : forall (l : list A) x j d,
  nth j (l ++ [x]) d = if Nat.eqb j (length l) then x else nth j l d.
Proof.
  induction l as [| a l IH]; intros x j d; destruct j; cbn [app nth length Nat.eqb]; auto.
  destruct j; reflexivity.
Qed.

(** ** The view of one work *)

Definition proj (i : nat) (q : list posted) : list (option (list Z)) :=
  flat_map (fun p => match p with
    | PData j data => if Nat.eqb j i then [Some data] else []
    | PFinished j => if Nat.eqb j i then [None] else []
    end) q.

Fixpoint somes (l : list (option (list Z))) : list (list Z) :=
  match l with [] => [] | Some d :: l' => d :: somes l' | None :: l' => somes l' end.

Lemma somes_app : forall a b, somes (a ++ b) = somes a ++ somes b.
Proof. induction a as [| [d |] a IH]; intro b; cbn; [| f_equal |]; auto. Qed.

Lemma queued_proj : forall i q, queued i q = somes (proj i q).
Proof.
  intros i q. unfold queued, proj. induction q as [| [j d | j] q IH]; cbn; [reflexivity | |]; destruct (Nat.eqb j i); cbn; try exact IH.
  now rewrite IH.
Qed.

Record good (w : work) (t : task) (ow : bool) (q : list (option (list Z))) (ms : list (list Z)) (en : list report)
  (dm jn : Prop) (rd : list (list Z)) (rs : list (Z * list Z)) (di : Prop) (i : nat) : Prop := mkGood {
  g_prefix : prefix (ms ++ somes q) rd;
  g_last : forall q1 q2, q = q1 ++ None :: q2 -> q2 = [];
  g_linked : w_linked w = true -> ms ++ somes q = rd /\ en = [] /\ ow = true /\ w_gone w = false /\ ~ dm /\ ~ jn;
  g_running : w_place w <> Over -> ~ In None q /\ w_gone w = false /\ en = [];
  g_over : w_place w = Over -> w_linked w = true -> In None q;
  g_gone : w_gone w = true -> w_place w = Over /\ w_linked w = false /\ ~ In None q /\ ~ dm /\ ~ jn;
  g_result : match w_place w with Leaving | Over => rs = [(w_status w, w_response w)] | _ => rs = [] end;
  g_cut : w_linked w = false -> di \/ (w_place w = Over /\ ms = rd /\ q = [] /\ en = outcome t (w_owner w) i (w_status w) (w_response w));
  g_ended : en <> [] -> w_linked w = false /\ w_place w = Over /\ ms = rd /\ q = [] /\ en = outcome t (w_owner w) i (w_status w) (w_response w);
  g_alive : somes q <> [] -> ow = true;
  g_streaming : t = Streaming -> w_response w = [] /\ w_place w <> Begin;
  g_unary : t = Unary -> w_place w <> Finishing /\ rd = []
}.

Lemma good_frame : forall w t ow q ms en dm jn rd rs di i (dm' jn' di' : Prop),
  good w t ow q ms en dm jn rd rs di i -> (dm' -> dm) -> (jn' -> jn) -> (di -> di') ->
  good w t ow q ms en dm' jn' rd rs di' i.
Proof.
  intros w t ow q ms en dm jn rd rs di i dm' jn' di' [] D J I. constructor; auto.
  - intro L. destruct (g_linked0 L) as (a & b & c & d & e & f). auto 10.
  - intro G. destruct (g_gone0 G) as (a & b & c & d & e). auto 10.
  - intro L. destruct (g_cut0 L) as [X | X]; auto.
Qed.

(** ** The invariant *)

Definition view (evs : list event) (n : world) (i : nat) : Prop :=
  let w := work_at n i in
  good w (task_of n i) (owner_exists n (w_owner w)) (proj i (n_queue n)) (messages i (n_log n)) (ends i (n_log n))
    (In i (n_doomed n)) (In i (n_joining n)) (reads i evs) (results i evs) (disturbed i (w_owner w) evs) i.

Record fresh (evs : list event) (n : world) (i : nat) : Prop := mkFresh {
  f_queue : proj i (n_queue n) = [];
  f_messages : messages i (n_log n) = [];
  f_ends : ends i (n_log n) = [];
  f_doomed : ~ In i (n_doomed n);
  f_joining : ~ In i (n_joining n);
  f_reads : reads i evs = [];
  f_results : results i evs = []
}.

Record inv (evs : list event) (n : world) : Prop := mkInv {
  i_starts : length (n_works n) = starts evs;
  i_views : forall i, (i < length (n_works n))%nat -> view evs n i;
  i_fresh : forall i, (length (n_works n) <= i)%nat -> fresh evs n i;
  i_owners : forall i, (i < length (n_works n))%nat -> (w_owner (work_at n i) < length (n_owners n))%nat;
  i_nodup : NoDup (n_joining n);
  i_head : forall i rest, n_joining n = i :: rest -> w_cancelled (work_at n i) = true;
  i_dead : forall i, (i < length (n_works n))%nat -> owner_exists n (w_owner (work_at n i)) = false ->
    w_gone (work_at n i) = true \/ In i (n_joining n)
}.

Lemma app_flat_map {A B} : forall (f : A -> list B) l x, flat_map f (l ++ [x]) = flat_map f l ++ f x.
Proof. intros. rewrite flat_map_app. cbn. now rewrite app_nil_r. Qed.

Lemma reads_app : forall i evs e, reads i (evs ++ [e]) = reads i evs ++ reads i [e].
Proof. intros. unfold reads. rewrite flat_map_app. reflexivity. Qed.
Lemma results_app : forall i evs e, results i (evs ++ [e]) = results i evs ++ results i [e].
Proof. intros. unfold results. rewrite flat_map_app. reflexivity. Qed.
Lemma messages_app : forall i a b, messages i (a ++ b) = messages i a ++ messages i b.
Proof. intros. unfold messages. apply flat_map_app. Qed.
Lemma ends_app : forall i a b, ends i (a ++ b) = ends i a ++ ends i b.
Proof. intros. unfold ends. apply filter_app. Qed.
Lemma proj_app : forall i a b, proj i (a ++ b) = proj i a ++ proj i b.
Proof. intros. unfold proj. apply flat_map_app. Qed.

Lemma starts_app : forall a e, starts (a ++ [e]) = (starts a + match e with MStart _ _ => 1 | _ => 0 end)%nat.
Proof. intros. unfold starts. rewrite filter_app, app_length. destruct e; reflexivity. Qed.

Lemma disturbed_app : forall i o evs e, disturbed i o evs -> disturbed i o (evs ++ [e]).
Proof.
  intros i o evs e (a & x & b & -> & L & X). exists a, x, (b ++ [e]). rewrite <- app_assoc. auto.
Qed.

Lemma disturbed_now : forall i o evs e, (i < starts evs)%nat -> e = MAbort o \/ e = MDestroy o -> disturbed i o (evs ++ [e]).
Proof. intros i o evs e L X. exists evs, e, []. auto. Qed.

(** Works after a change of several ones. *)
Lemma change_works_at : forall f l n i, NoDup l -> (forall j, In j l -> (j < length (n_works n))%nat) ->
  work_at (change_works f l n) i = if in_dec Nat.eq_dec i l then f (work_at n i) else work_at n i.
Proof.
  intros f l. induction l as [| j l IH]; intros n i N R; [reflexivity |]. cbn [change_works].
  inversion N as [| ? ? Nj Nl]; subst.
  assert (W : forall k, work_at (with_work j (f (work_at n j)) n) k = if Nat.eqb k j then f (work_at n k) else work_at n k).
  { intro k. unfold work_at, with_work, with_works. cbn [n_works]. rewrite nth_set_nth.
    destruct (Nat.eqb_spec k j) as [-> |]; [| reflexivity].
    rewrite (proj2 (Nat.ltb_lt j (length (n_works n)))) by (apply R; now left). reflexivity. }
  rewrite IH.
  - rewrite W. destruct (Nat.eqb_spec i j) as [-> | D].
    + destruct (in_dec Nat.eq_dec j l) as [I | I]; [elim Nj; exact I |].
      destruct (in_dec Nat.eq_dec j (j :: l)) as [J | J]; [reflexivity | elim J; now left].
    + destruct (in_dec Nat.eq_dec i l) as [I | I], (in_dec Nat.eq_dec i (j :: l)) as [J | J]; try reflexivity.
      * elim J; now right.
      * destruct J as [J | J]; [congruence | elim I; exact J].
  - exact Nl.
  - intros k K. unfold with_work, with_works. cbn [n_works]. rewrite set_nth_length. apply R. now right.
Qed.

Lemma change_works_fields : forall f l n,
  n_owners (change_works f l n) = n_owners n /\ n_channels (change_works f l n) = n_channels n /\
  n_queue (change_works f l n) = n_queue n /\ n_doomed (change_works f l n) = n_doomed n /\
  n_joining (change_works f l n) = n_joining n /\ n_log (change_works f l n) = n_log n /\
  length (n_works (change_works f l n)) = length (n_works n).
Proof.
  intros f l. induction l as [| j l IH]; intro n; [repeat split |]. cbn [change_works].
  destruct (IH (with_work j (f (work_at n j)) n)) as (A & B & C & D & E & F & G).
  rewrite A, B, C, D, E, F, G. unfold with_work, with_works. cbn. rewrite set_nth_length. repeat split.
Qed.

Lemma works_of_in : forall n o p i, In i (works_of n o p) <->
  (i < length (n_works n))%nat /\ w_owner (work_at n i) = o /\ p (work_at n i) = true.
Proof.
  intros n o p i. unfold works_of. rewrite filter_In, in_seq, andb_true_iff, Nat.eqb_eq. intuition lia.
Qed.

Lemma works_of_nodup : forall n o p, NoDup (works_of n o p).
Proof. intros. unfold works_of. apply NoDup_filter, seq_NoDup. Qed.

Lemma with_work_at : forall i w n j, (i < length (n_works n))%nat ->
  work_at (with_work i w n) j = if Nat.eqb j i then w else work_at n j.
Proof.
  intros i w n j L. unfold work_at, with_work, with_works. cbn [n_works]. rewrite nth_set_nth.
  destruct (Nat.eqb_spec j i) as [-> |]; [| reflexivity]. rewrite (proj2 (Nat.ltb_lt _ _) L). reflexivity.
Qed.

(** ** Steps that do not concern a work *)

Lemma view_frame : forall evs e n n' i, view evs n i ->
  work_at n' i = work_at n i -> task_of n' i = task_of n i ->
  owner_exists n' (w_owner (work_at n i)) = owner_exists n (w_owner (work_at n i)) ->
  proj i (n_queue n') = proj i (n_queue n) -> messages i (n_log n') = messages i (n_log n) ->
  ends i (n_log n') = ends i (n_log n) -> (In i (n_doomed n') -> In i (n_doomed n)) ->
  (In i (n_joining n') -> In i (n_joining n)) -> reads i [e] = [] -> results i [e] = [] ->
  view (evs ++ [e]) n' i.
Proof.
  intros evs e n n' i V W T O Q M E D J R S. unfold view in *. cbv zeta in *.
  rewrite W, T, O, Q, M, E, reads_app, results_app, R, S, !app_nil_r.
  eapply good_frame; [exact V | exact D | exact J | apply disturbed_app].
Qed.

Lemma fresh_frame : forall evs e n n' i, fresh evs n i ->
  proj i (n_queue n') = proj i (n_queue n) -> messages i (n_log n') = messages i (n_log n) ->
  ends i (n_log n') = ends i (n_log n) -> (In i (n_doomed n') -> In i (n_doomed n)) ->
  (In i (n_joining n') -> In i (n_joining n)) -> reads i [e] = [] -> results i [e] = [] ->
  fresh (evs ++ [e]) n' i.
Proof.
  intros evs e n n' i [] Q M E D J R S. constructor; rewrite ?Q, ?M, ?E, ?reads_app, ?results_app, ?R, ?S, ?app_nil_r; auto.
Qed.

Lemma inv_start : inv [] start.
Proof.
  constructor; cbn; try reflexivity; try (intros; lia).
  - intros i _. constructor; cbn; auto.
  - constructor.
  - discriminate.
Qed.

Lemma inv_channels : forall evs e n l, inv evs n -> match e with MChannel | MDropChannel _ => True | _ => False end ->
  inv (evs ++ [e]) (with_channels l n).
Proof.
  intros evs e n l [] K. constructor; auto.
  - rewrite starts_app. cbn. destruct e; try contradiction; lia.
  - intros i L. apply view_frame with n; auto; destruct e; try contradiction; reflexivity.
  - intros i L. apply fresh_frame with n; auto; destruct e; try contradiction; reflexivity.
Qed.

Lemma inv_new : forall evs n t, inv evs n -> inv (evs ++ [MNew t]) (with_owners (n_owners n ++ [(t, true)]) n).
Proof.
  intros evs n t [].
  assert (O : forall o, (o < length (n_owners n))%nat -> owner_at (with_owners (n_owners n ++ [(t, true)]) n) o = owner_at n o).
  { intros o L. unfold owner_at, with_owners. cbn [n_owners]. apply app_nth1. exact L. }
  constructor; auto.
  - rewrite starts_app. cbn. lia.
  - intros i L. apply view_frame with n; auto.
    + unfold task_of. change (work_at (with_owners (n_owners n ++ [(t, true)]) n) i) with (work_at n i). rewrite O by auto. reflexivity.
    + unfold owner_exists. rewrite O by auto. reflexivity.
  - intros i L. apply fresh_frame with n; auto.
  - intros i L. change (work_at (with_owners (n_owners n ++ [(t, true)]) n) i) with (work_at n i). cbn [n_owners with_owners].
    rewrite app_length. cbn [length]. specialize (i_owners0 i L). lia.
  - intros i L. unfold owner_exists. change (work_at (with_owners (n_owners n ++ [(t, true)]) n) i) with (work_at n i).
    rewrite O by auto. apply i_dead0. exact L.
Qed.

Lemma owner_exists_in : forall n o, owner_exists n o = true -> (o < length (n_owners n))%nat.
Proof.
  intros n o E. destruct (Nat.lt_ge_cases o (length (n_owners n))) as [L | L]; [exact L |].
  unfold owner_exists, owner_at in E. rewrite nth_overflow in E by exact L. discriminate.
Qed.

Lemma inv_begin : forall evs n o ch, inv evs n -> owner_exists n o = true -> inv (evs ++ [MStart o ch]) (start_work o ch n).
Proof.
  intros evs n o ch [] Ow. pose (len := length (n_works n)).
  assert (W : forall i, work_at (start_work o ch n) i
    = if Nat.eqb i len then mkWork o ch (match fst (owner_at n o) with Unary => Begin | Streaming => Inside end) 0 [] true false false
      else work_at n i) by (intro i; unfold work_at, start_work, with_works; cbn [n_works]; apply nth_app_new).
  assert (Ln : length (n_works (start_work o ch n)) = S len)
    by (unfold len, start_work, with_works; cbn [n_works]; rewrite app_length; cbn [length]; lia).
  constructor.
  - rewrite Ln, starts_app, <- i_starts0. fold len. lia.
  - intros i L. rewrite Ln in L. destruct (Nat.eqb_spec i len) as [-> | D].
    + unfold view. cbv zeta. unfold task_of. rewrite W, Nat.eqb_refl. cbn [w_owner].
      destruct (i_fresh0 len) as [A B C E F G H]; [unfold len; lia |].
      change (owner_at (start_work o ch n) o) with (owner_at n o).
      change (owner_exists (start_work o ch n) o) with (owner_exists n o).
      rewrite reads_app, results_app, G, H. cbn [reads results flat_map app]. cbn [n_queue n_log n_doomed n_joining start_work with_works].
      rewrite A, B, C. constructor; cbn [w_linked w_place w_gone w_status w_response w_owner]; try discriminate; auto.
      * exists []. reflexivity.
      * intros q1 q2 X. destruct q1; discriminate.
      * auto 10.
      * destruct (fst (owner_at n o)); discriminate.
      * destruct (fst (owner_at n o)); reflexivity.
      * intros X; elim X; reflexivity.
      * intros X. rewrite X. split; [reflexivity | discriminate].
      * intros X. rewrite X. split; [discriminate | reflexivity].
    + apply view_frame with n; auto; [apply i_views0; unfold len in *; lia | |].
      * rewrite W. apply Nat.eqb_neq in D. rewrite D. reflexivity.
      * unfold task_of. rewrite W. apply Nat.eqb_neq in D. rewrite D. reflexivity.
  - intros i L. rewrite Ln in L. apply fresh_frame with n; auto. apply i_fresh0. unfold len in *. lia.
  - intros i L. rewrite Ln in L. rewrite W. change (n_owners (start_work o ch n)) with (n_owners n).
    destruct (Nat.eqb_spec i len) as [-> | D]; [apply owner_exists_in; exact Ow | apply i_owners0; unfold len in *; lia].
  - exact i_nodup0.
  - intros i rest J. rewrite W. change (n_joining (start_work o ch n)) with (n_joining n) in J.
    destruct (Nat.eqb_spec i len) as [-> | D].
    + destruct (i_fresh0 len) as [A B C E F G H]; [unfold len; lia |]. elim F. rewrite J. now left.
    + eapply i_head0. exact J.
  - intros i L. rewrite Ln in L. rewrite W. change (owner_exists (start_work o ch n)) with (owner_exists n). 
    destruct (Nat.eqb_spec i len) as [-> | D]; cbn [w_owner].
    + intro X. congruence.
    + intro X. apply i_dead0; [unfold len in *; lia | exact X].
Qed.

(** ** Steps of the threads of the works *)

Definition worker (e : event) : option nat :=
  match e with
  | WBegin i | WRead i _ | WEnd i | WBad i _ | WStatus i _ | WReply i _ _ | WExit i => Some i
  | _ => None
  end.

Lemma worker_other : forall e i j, worker e = Some i -> j <> i -> reads j [e] = [] /\ results j [e] = [].
Proof.
  intros e i j E D. apply not_eq_sym, Nat.eqb_neq in D.
  destruct e; cbn in E; inversion E; subst; cbn; rewrite ?D; auto.
Qed.

Lemma inv_worker : forall evs e n i w' q', inv evs n -> worker e = Some i -> (i < length (n_works n))%nat ->
  w_owner w' = w_owner (work_at n i) -> w_cancelled w' = w_cancelled (work_at n i) -> w_gone w' = w_gone (work_at n i) ->
  (forall j, j <> i -> proj j q' = proj j (n_queue n)) ->
  good w' (task_of n i) (owner_exists n (w_owner w')) (proj i q') (messages i (n_log n)) (ends i (n_log n))
    (In i (n_doomed n)) (In i (n_joining n)) (reads i evs ++ reads i [e]) (results i evs ++ results i [e])
    (disturbed i (w_owner w') evs) i ->
  inv (evs ++ [e]) (with_queue q' (with_work i w' n)).
Proof.
  intros evs e n i w' q' [] We L Wo Wc Wg Q G.
  pose (n' := with_queue q' (with_work i w' n)). fold n'.
  assert (W : forall j, work_at n' j = if Nat.eqb j i then w' else work_at n j)
    by (intro j; change (work_at n' j) with (work_at (with_work i w' n) j); apply with_work_at; exact L).
  assert (Ln : length (n_works n') = length (n_works n)) by (apply set_nth_length).
  assert (O : forall j, w_owner (work_at n' j) = w_owner (work_at n j)).
  { intro j. rewrite W. destruct (Nat.eqb_spec j i) as [-> |]; [exact Wo | reflexivity]. }
  constructor.
  - rewrite Ln, starts_app, i_starts0. destruct e; cbn in We; try discriminate; lia.
  - intros j Lj. rewrite Ln in Lj. destruct (Nat.eqb_spec j i) as [-> | D].
    + unfold view. cbv zeta. unfold task_of. rewrite W, Nat.eqb_refl, Wo. rewrite Wo in G. unfold task_of in G.
      rewrite reads_app, results_app. eapply good_frame; [exact G | auto | auto | apply disturbed_app].
    + destruct (worker_other _ _ _ We D) as [R S]. apply Nat.eqb_neq in D as D'.
      apply view_frame with n; auto.
      * rewrite W, D'. reflexivity.
      * unfold task_of. rewrite W, D'. reflexivity.
  - intros j Lj. rewrite Ln in Lj. assert (D : j <> i) by lia. destruct (worker_other _ _ _ We D) as [R S].
    apply fresh_frame with n; auto.
  - intros j Lj. rewrite Ln in Lj. rewrite O. apply i_owners0. exact Lj.
  - exact i_nodup0.
  - intros j rest J. rewrite W. destruct (Nat.eqb_spec j i) as [-> |]; [rewrite Wc |]; eapply i_head0; exact J.
  - intros j Lj X. rewrite Ln in Lj. rewrite O in X. change (owner_exists n') with (owner_exists n) in X.
    rewrite W. destruct (Nat.eqb_spec j i) as [-> |]; [rewrite Wg |]; apply i_dead0; auto.
Qed.

Lemma is_at_spec : forall n i t p, is_at n i t p = true ->
  (i < length (n_works n))%nat /\ task_of n i = t /\ w_place (work_at n i) = p.
Proof.
  intros n i t p E. unfold is_at in E. rewrite !andb_true_iff, Nat.ltb_lt in E. destruct E as [[L T] P].
  repeat split; [exact L | destruct (task_of n i), t; cbn in T; congruence | destruct (w_place (work_at n i)), p; cbn in P; congruence].
Qed.

Lemma with_queue_id : forall n, with_queue (n_queue n) n = n. Proof. destruct n; reflexivity. Qed.

Lemma eqb_self : forall i, Nat.eqb i i = true. Proof. exact Nat.eqb_refl. Qed.

(** No thread finds its work destroyed. *)
Lemma worker_alive : forall evs n i, inv evs n -> (i < length (n_works n))%nat -> w_place (work_at n i) <> Over ->
  w_gone (work_at n i) = false.
Proof. intros evs n i [] L P. apply (g_running _ _ _ _ _ _ _ _ _ _ _ _ (i_views0 i L)). exact P. Qed.

Lemma inv_at_place : forall evs n i t p p' e, inv evs n -> is_at n i t p = true -> worker e = Some i ->
  reads i [e] = [] -> results i [e] = [] -> p <> Over -> p' <> Over -> p <> Leaving -> p' <> Leaving -> p' <> Begin ->
  (t = Unary -> p' <> Finishing) ->
  inv (evs ++ [e]) (with_work i (at_place p' (work_at n i)) n).
Proof.
  intros evs n i t p p' e I A We R S Po Po' Pl Pl' Pb Pf. destruct (is_at_spec _ _ _ _ A) as (L & T & P).
  rewrite <- (with_queue_id (with_work i (at_place p' (work_at n i)) n)). change (n_queue (with_work i (at_place p' (work_at n i)) n)) with (n_queue n).
  apply inv_worker; auto.
  rewrite R, S, !app_nil_r. destruct I as [_ V _ _ _ _ _]. destruct (V i L). rewrite P in *. rewrite T in *.
  assert (Res : results i evs = []) by (destruct p; congruence).
  constructor; cbn [at_place w_linked w_place w_gone w_status w_response w_owner]; auto; try congruence.
  - intro G. destruct (g_gone0 G) as (G1 & _). congruence.
  - destruct p'; congruence.
  - intro K. destruct (g_cut0 K) as [X | (X & _)]; [now left | congruence].
  - intro K. destruct (g_ended0 K) as (_ & X & _). congruence.
  - intro K. split; [apply g_streaming0; exact K | exact Pb].
  - intro K. split; [auto | apply g_unary0; exact K].
Qed.

Lemma inv_with_result : forall evs n i t p code data e, inv evs n -> is_at n i t p = true -> worker e = Some i ->
  reads i [e] = [] -> results i [e] = [(code, data)] -> p <> Over -> p <> Leaving -> (t = Streaming -> data = []) ->
  inv (evs ++ [e]) (with_work i (with_result code data (work_at n i)) n).
Proof.
  intros evs n i t p code data e I A We R S Po Pl Td. destruct (is_at_spec _ _ _ _ A) as (L & T & P).
  rewrite <- (with_queue_id (with_work i (with_result code data (work_at n i)) n)).
  change (n_queue (with_work i (with_result code data (work_at n i)) n)) with (n_queue n).
  apply inv_worker; auto.
  rewrite R, S, !app_nil_r. destruct I as [_ V _ _ _ _ _]. destruct (V i L). rewrite P in *. rewrite T in *.
  assert (Res : results i evs = []) by (destruct p; congruence). rewrite Res.
  constructor; cbn [with_result w_linked w_place w_gone w_status w_response w_owner app]; auto; try congruence.
  - intro G. destruct (g_gone0 G) as (G1 & _). congruence.
  - intro K. destruct (g_cut0 K) as [X | (X & _)]; [now left | congruence].
  - intro K. destruct (g_ended0 K) as (_ & X & _). congruence.
  - intro K. split; [auto | discriminate].
  - intro K. split; [discriminate | apply g_unary0; exact K].
Qed.

Lemma inv_exit : forall evs n i t, inv evs n -> is_at n i t Leaving = true ->
  inv (evs ++ [WExit i]) (with_queue (n_queue n ++ [PFinished i]) (with_work i (at_place Over (work_at n i)) n)).
Proof.
  intros evs n i t I A. destruct (is_at_spec _ _ _ _ A) as (L & T & P).
  apply inv_worker; auto.
  - intros j D. rewrite proj_app. cbn. apply not_eq_sym, Nat.eqb_neq in D. rewrite D. apply app_nil_r.
  - cbn [reads results flat_map]. rewrite !app_nil_r, proj_app. cbn [proj flat_map app]. rewrite eqb_self. cbn [app].
    destruct I as [_ V _ _ _ _ _]. destruct (V i L). rewrite P in *. rewrite T in *.
    assert (Nq : ~ In None (proj i (n_queue n))) by (apply g_running0; congruence).
    assert (Ng : w_gone (work_at n i) = false) by (apply g_running0; congruence).
    assert (Sm : somes (proj i (n_queue n) ++ [None]) = somes (proj i (n_queue n))) by (rewrite somes_app; cbn; apply app_nil_r).
    constructor; cbn [at_place w_linked w_place w_gone w_status w_response w_owner app]; rewrite ?Sm; auto; try congruence.
    + intros q1 q2 E. destruct (exists_last (l := None :: q2)) as (q3 & x & E3); [discriminate |].
      rewrite E3, app_assoc in E. apply app_inj_tail in E. destruct E as [E <-].
      destruct q3 as [| y q3]; [cbn in E3; inversion E3; reflexivity |].
      cbn in E3. injection E3 as <- _. elim Nq. rewrite E. apply in_or_app. right. now left.
    + intros _ _. apply in_or_app. right. now left.
    + intro K. destruct (g_cut0 K) as [X | (X & _)]; [now left | congruence].
    + intro K. destruct (g_ended0 K) as (_ & X & _). congruence.
    + intro K. split; [apply g_streaming0; exact K | discriminate].
    + intro K. split; [discriminate | apply g_unary0; exact K].
Qed.

Lemma inv_read : forall evs n i data, inv evs n -> is_at n i Streaming Inside = true ->
  inv (evs ++ [WRead i data]) (if w_linked (work_at n i) then with_queue (n_queue n ++ [PData i data]) n else n).
Proof.
  intros evs n i data I A. destruct (is_at_spec _ _ _ _ A) as (L & T & P).
  assert (Id : with_work i (work_at n i) n = n).
  { unfold with_work, with_works. destruct n as [a b c d e f g]. cbn. f_equal. clear. unfold work_at. cbn. revert i.
    induction c as [| x c IH]; intro i; destruct i; try reflexivity. cbn. f_equal. apply IH. }
  destruct (w_linked (work_at n i)) eqn:Lk.
  - rewrite <- Id at 2. apply inv_worker; auto.
    + intros j D. rewrite proj_app. cbn. apply not_eq_sym, Nat.eqb_neq in D. rewrite D. apply app_nil_r.
    + cbn [reads results flat_map]. rewrite !app_nil_r, proj_app. cbn [proj flat_map app]. rewrite eqb_self. cbn [app].
      destruct I as [_ V _ _ _ _ _]. destruct (V i L). rewrite P in *. rewrite T in *.
      assert (Sm : somes (proj i (n_queue n) ++ [Some data]) = somes (proj i (n_queue n)) ++ [data]) by (rewrite somes_app; reflexivity).
      destruct (g_linked0 Lk) as (Eq & En & Ow & Gn & Nd & Nj).
      assert (Nq : ~ In None (proj i (n_queue n))) by (apply g_running0; congruence).
      constructor; rewrite ?Sm, ?P; auto; try congruence.
      * exists []. rewrite app_nil_r, <- Eq, app_assoc. reflexivity.
      * intros q1 q2 E. exfalso. assert (X : In None (proj i (n_queue n) ++ [Some data])) by (rewrite E; apply in_or_app; right; now left).
        apply in_app_or in X. destruct X as [X | [X | []]]; [auto | discriminate].
      * intros _. rewrite app_assoc, Eq. auto 10.
      * intros _. split; [| auto]. intro X. apply in_app_or in X. destruct X as [X | [X | []]]; [auto | discriminate].
  - rewrite <- (with_queue_id n). rewrite <- Id at 2. change (n_queue n) with (n_queue (with_work i (work_at n i) n)). rewrite Id.
    rewrite <- Id at 2. apply inv_worker; auto.
    cbn [reads results flat_map]. rewrite !app_nil_r. rewrite eqb_self.
    destruct I as [_ V _ _ _ _ _]. destruct (V i L). rewrite P in *. rewrite T in *.
    constructor; rewrite ?P; auto; try congruence.
    + destruct g_prefix0 as [c E]. exists (c ++ [data]). rewrite E, app_assoc. reflexivity.
    + intro K. destruct (g_cut0 K) as [X | (X & _)]; [now left | congruence].
    + intro K. destruct (g_ended0 K) as (_ & X & _). congruence.
Qed.

(** ** Steps of the thread of the client *)

Lemma good_cancel : forall w t ow q ms en dm jn rd rs di i,
  good w t ow q ms en dm jn rd rs di i -> good (cancel w) t ow q ms en dm jn rd rs di i.
Proof. intros w t ow q ms en dm jn rd rs di i []. constructor; auto. Qed.

Lemma enter_fields : forall l n,
  n_owners (enter l n) = n_owners n /\ n_channels (enter l n) = n_channels n /\ n_queue (enter l n) = n_queue n /\
  n_doomed (enter l n) = n_doomed n /\ n_joining (enter l n) = l /\ n_log (enter l n) = n_log n /\
  length (n_works (enter l n)) = length (n_works n).
Proof.
  intros l n. destruct l as [| i l]; [repeat split |]. unfold enter, with_joining, with_work, with_works. cbn.
  rewrite set_nth_length. repeat split.
Qed.

Lemma enter_at : forall l n j, (forall i, In i l -> (i < length (n_works n))%nat) ->
  work_at (enter l n) j = work_at n j \/ work_at (enter l n) j = cancel (work_at n j).
Proof.
  intros l n j R. destruct l as [| i l]; [now left |].
  change (work_at (enter (i :: l) n) j) with (work_at (with_work i (cancel (work_at n i)) n) j).
  rewrite with_work_at by (apply R; now left). destruct (Nat.eqb_spec j i) as [-> |]; auto.
Qed.

Lemma enter_head : forall l n i rest, (forall i, In i l -> (i < length (n_works n))%nat) -> l = i :: rest ->
  w_cancelled (work_at (enter l n) i) = true.
Proof.
  intros l n i rest R ->. change (work_at (enter (i :: rest) n) i) with (work_at (with_work i (cancel (work_at n i)) n) i).
  rewrite with_work_at by (apply R; now left). rewrite Nat.eqb_refl. reflexivity.
Qed.

Lemma inv_abort : forall evs n o, inv evs n -> idle n = true -> inv (evs ++ [MAbort o]) (abort_owner o n).
Proof.
  intros evs n o [] Id. unfold abort_owner. pose (l := works_of n o w_linked).
  pose (f := match fst (owner_at n o) with Unary => unlink | Streaming => fun w => cancel (unlink w) end).
  fold l. fold f. pose (n0 := tell [RAborted o] n). fold n0.
  destruct (change_works_fields f l n0) as (F1 & F2 & F3 & F4 & F5 & F6 & F7).
  assert (W : forall i, work_at (doom l (change_works f l n0)) i = if in_dec Nat.eq_dec i l then f (work_at n i) else work_at n i).
  { intro i. change (work_at (doom l (change_works f l n0)) i) with (work_at (change_works f l n0) i).
    rewrite change_works_at; [reflexivity | apply works_of_nodup | intros j J; apply works_of_in in J; apply J]. }
  pose (n' := doom l (change_works f l n0)). fold n'. fold n' in W.
  assert (Ln : length (n_works n') = length (n_works n)) by exact F7.
  assert (Fo : forall w, w_owner (f w) = w_owner w) by (intro w; unfold f; destruct (fst (owner_at n o)); reflexivity).
  assert (O : forall i, w_owner (work_at n' i) = w_owner (work_at n i))
    by (intro i; rewrite W; destruct (in_dec _ _ _); auto).
  assert (Oat : forall x, owner_at n' x = owner_at n x) by (intro x; unfold owner_at; change (n_owners n') with (n_owners (change_works f l n0)); rewrite F1; reflexivity).
  assert (Q : n_queue n' = n_queue n) by exact F3.
  assert (J : n_joining n' = n_joining n) by exact F5.
  assert (D : n_doomed n' = n_doomed n ++ l) by (change (n_doomed n') with (n_doomed (change_works f l n0) ++ l); rewrite F4; reflexivity).
  assert (G : n_log n' = n_log n ++ [RAborted o]) by (change (n_log n') with (n_log (change_works f l n0)); rewrite F6; reflexivity).
  assert (M : forall i, messages i (n_log n') = messages i (n_log n)) by (intro i; rewrite G, messages_app; apply app_nil_r).
  assert (E : forall i, ends i (n_log n') = ends i (n_log n)) by (intro i; rewrite G, ends_app; apply app_nil_r).
  constructor.
  - rewrite Ln, starts_app. lia.
  - intros i L. rewrite Ln in L. specialize (i_views0 i L). destruct (in_dec Nat.eq_dec i l) as [I | I] eqn:Ei.
    + unfold view. cbv zeta. unfold task_of, owner_exists. rewrite O, Oat, Q, M, E, J, D, W, Ei, reads_app, results_app. cbn [reads results flat_map].
      rewrite !app_nil_r. apply works_of_in in I as I'. destruct I' as (_ & Io & Il).
      unfold view in i_views0. cbv zeta in i_views0. unfold task_of, owner_exists in i_views0.
      assert (Nj : ~ In i (n_joining n)) by (unfold idle in Id; destruct (n_joining n); [auto | discriminate]).
      assert (Di : disturbed i (w_owner (work_at n i)) (evs ++ [MAbort o])) by (apply disturbed_now; [lia | rewrite Io; auto]).
      destruct i_views0. destruct (g_linked0 Il) as (A1 & A2 & A3 & A4 & A5 & A6).
      assert (X : good (unlink (work_at n i)) (fst (owner_at n (w_owner (work_at n i)))) (snd (owner_at n (w_owner (work_at n i))))
        (proj i (n_queue n)) (messages i (n_log n)) (ends i (n_log n)) (In i (n_doomed n ++ l)) (In i (n_joining n)) (reads i evs) (results i evs)
        (disturbed i (w_owner (work_at n i)) (evs ++ [MAbort o])) i).
      { constructor; cbn [unlink w_linked w_place w_gone w_status w_response w_owner]; auto; try congruence.
      }
      unfold f. destruct (fst (owner_at n o)); [exact X | apply good_cancel; exact X].
    + apply view_frame with n; auto.
      * rewrite W, Ei. reflexivity.
      * unfold task_of. rewrite O, Oat. reflexivity.
      * unfold owner_exists. rewrite Oat. reflexivity.
      * rewrite Q. reflexivity.
      * rewrite D. intro X. apply in_app_or in X. destruct X; [assumption | contradiction].
      * rewrite J. auto.
  - intros i L. rewrite Ln in L. apply fresh_frame with n; auto.
    + rewrite Q. reflexivity.
    + rewrite D. intro X. apply in_app_or in X. destruct X as [X | X]; [assumption |]. apply works_of_in in X. lia.
    + rewrite J. auto.
  - intros i L. rewrite Ln in L. rewrite O. change (n_owners n') with (n_owners (change_works f l n0)). rewrite F1. apply i_owners0. exact L.
  - rewrite J. exact i_nodup0.
  - intros i rest X. rewrite J in X. unfold idle in Id. rewrite X in Id. discriminate.
  - intros i L X. rewrite Ln in L. rewrite O in X. unfold owner_exists in X. rewrite Oat in X. rewrite J.
    assert (Y : w_gone (work_at n' i) = w_gone (work_at n i)).
    { rewrite W. destruct (in_dec _ _ _); [| reflexivity]. unfold f. destruct (fst (owner_at n o)); reflexivity. }
    rewrite Y. apply i_dead0; auto.
Qed.

Lemma last_form : forall q : list (option (list Z)), (forall q1 q2, q = q1 ++ None :: q2 -> q2 = []) ->
  exists s, q = map Some s \/ q = map Some s ++ [None].
Proof.
  induction q as [| [d |] q IH]; intro H.
  - exists []. now left.
  - destruct IH as (s & [-> | ->]).
    + intros q1 q2 E. apply (H (Some d :: q1) q2). cbn. now f_equal.
    + exists (d :: s). now left.
    + exists (d :: s). now right.
  - specialize (H [] q eq_refl). subst. exists []. now right.
Qed.

Definition is_none {A} (x : option A) : bool := match x with None => true | _ => false end.

Lemma proj_not_data : forall n o i q, proj i (filter (not_data_of n o) q)
  = if Nat.eqb (w_owner (work_at n i)) o then filter is_none (proj i q) else proj i q.
Proof.
  intros n o i q. induction q as [| [j d | j] q IH]; cbn [filter not_data_of].
  - destruct (Nat.eqb _ _); reflexivity.
  - cbn [proj flat_map]. destruct (Nat.eqb_spec j i) as [-> | D].
    + destruct (Nat.eqb _ o); cbn [negb filter is_none app]; [exact IH |]. cbn [proj flat_map]. rewrite Nat.eqb_refl. cbn [app]. f_equal. exact IH.
    + destruct (Nat.eqb (w_owner (work_at n j)) o); cbn [negb app]; [exact IH |]. cbn [proj flat_map].
      apply Nat.eqb_neq in D. rewrite D. exact IH.
  - cbn [proj flat_map]. destruct (Nat.eqb j i); [| exact IH]. cbn [app]. change (flat_map _ (filter (not_data_of n o) q)) with (proj i (filter (not_data_of n o) q)).
    rewrite IH. destruct (Nat.eqb _ o); reflexivity.
Qed.

Lemma somes_none : forall q, somes (filter is_none q) = [].
Proof. induction q as [| [d |] q IH]; cbn; auto. Qed.

Lemma filter_none_form : forall s : list (list Z), filter is_none (map Some s) = [].
Proof. induction s; cbn; auto. Qed.

Lemma last_none : forall q : list (option (list Z)), (forall q1 q2, q = q1 ++ None :: q2 -> q2 = []) ->
  forall q1 q2, filter is_none q = q1 ++ None :: q2 -> q2 = [].
Proof.
  intros q H q1 q2 E. destruct (last_form q H) as (s & [-> | ->]).
  - rewrite filter_none_form in E. destruct q1; discriminate.
  - rewrite filter_app, filter_none_form in E. cbn in E. destruct q1 as [| a q1]; [inversion E; reflexivity |].
    cbn in E. injection E as _ E. destruct q1; discriminate.
Qed.

Lemma none_in : forall q : list (option (list Z)), In None (filter is_none q) -> In None q.
Proof. intros q X. apply filter_In in X. apply X. Qed.

Lemma inv_destroy : forall evs n o, inv evs n -> idle n = true -> owner_exists n o = true ->
  inv (evs ++ [MDestroy o]) (destroy_owner o n).
Proof.
  intros evs n o [] Id Ow. unfold destroy_owner. pose (l := works_of n o (fun w => negb (w_gone w))). fold l.
  pose (n0 := with_owners (set_nth o (fst (owner_at n o), false) (n_owners n)) (with_queue (filter (not_data_of n o) (n_queue n)) n)).
  fold n0. destruct (change_works_fields unlink l n0) as (F1 & F2 & F3 & F4 & F5 & F6 & F7).
  destruct (enter_fields l (change_works unlink l n0)) as (H1 & H2 & H3 & H4 & H5 & H6 & H7).
  assert (R : forall i, In i l -> (i < length (n_works n))%nat) by (intros i I; apply works_of_in in I; apply I).
  assert (R' : forall i, In i l -> (i < length (n_works (change_works unlink l n0)))%nat) by (intros i I; rewrite F7; apply R; exact I).
  pose (n' := enter l (change_works unlink l n0)). fold n'. fold n' in H1, H2, H3, H4, H5, H6, H7.
  pose (u := fun i => if in_dec Nat.eq_dec i l then unlink (work_at n i) else work_at n i).
  assert (W : forall i, work_at n' i = u i \/ work_at n' i = cancel (u i)).
  { intro i. assert (X : work_at (change_works unlink l n0) i = u i).
    { unfold u. rewrite change_works_at; [reflexivity | apply works_of_nodup | exact R]. }
    rewrite <- X. apply enter_at. exact R'. }
  assert (Uo : forall i, w_owner (u i) = w_owner (work_at n i)) by (intro i; unfold u; destruct (in_dec _ _ _); reflexivity).
  assert (Ug : forall i, w_gone (u i) = w_gone (work_at n i)) by (intro i; unfold u; destruct (in_dec _ _ _); reflexivity).
  assert (O : forall i, w_owner (work_at n' i) = w_owner (work_at n i)) by (intro i; rewrite <- Uo; destruct (W i) as [-> | ->]; reflexivity).
  assert (Gn : forall i, w_gone (work_at n' i) = w_gone (work_at n i)) by (intro i; rewrite <- Ug; destruct (W i) as [-> | ->]; reflexivity).
  assert (Ln : length (n_works n') = length (n_works n)) by (rewrite H7, F7; reflexivity).
  assert (Lo : (o < length (n_owners n))%nat) by (apply owner_exists_in; exact Ow).
  assert (Oat : forall x, owner_at n' x = if Nat.eqb x o then (fst (owner_at n o), false) else owner_at n x).
  { intro x. unfold owner_at. rewrite H1, F1. unfold n0, with_owners. cbn [n_owners]. rewrite nth_set_nth.
    destruct (Nat.eqb_spec x o) as [-> |]; [| reflexivity]. rewrite (proj2 (Nat.ltb_lt _ _) Lo). reflexivity. }
  assert (Tk : forall i, task_of n' i = task_of n i).
  { intro i. unfold task_of. rewrite O, Oat. destruct (Nat.eqb_spec (w_owner (work_at n i)) o) as [-> |]; reflexivity. }
  assert (Q : forall i, proj i (n_queue n') = if Nat.eqb (w_owner (work_at n i)) o then filter is_none (proj i (n_queue n)) else proj i (n_queue n)).
  { intro i. rewrite H3, F3. apply proj_not_data. }
  assert (D : n_doomed n' = n_doomed n) by (rewrite H4, F4; reflexivity).
  assert (G : n_log n' = n_log n) by (rewrite H6, F6; reflexivity).
  assert (Nj : n_joining n = []) by (unfold idle in Id; destruct (n_joining n); [auto | discriminate]).
  constructor.
  - rewrite Ln, starts_app. lia.
  - intros i L. rewrite Ln in L. specialize (i_views0 i L). destruct (Nat.eqb_spec (w_owner (work_at n i)) o) as [Eo | No].
    + assert (X : good (u i) (task_of n i) false (filter is_none (proj i (n_queue n))) (messages i (n_log n)) (ends i (n_log n))
        (In i (n_doomed n)) (In i l) (reads i evs) (results i evs) (disturbed i (w_owner (u i)) (evs ++ [MDestroy o])) i).
      { assert (Di : disturbed i (w_owner (u i)) (evs ++ [MDestroy o])) by (apply disturbed_now; [lia | rewrite Uo, Eo; auto]).
        assert (Ul : w_linked (u i) = false).
        { unfold u. destruct (in_dec Nat.eq_dec i l) as [I | I]; [reflexivity |].
          destruct (w_linked (work_at n i)) eqn:Lk; [| reflexivity].
          destruct (g_linked _ _ _ _ _ _ _ _ _ _ _ _ i_views0 Lk) as (_ & _ & _ & X & _).
          elim I. apply works_of_in. rewrite X. auto. }
        assert (Up : w_place (u i) = w_place (work_at n i)) by (unfold u; destruct (in_dec _ _ _); reflexivity).
        assert (Us : w_status (u i) = w_status (work_at n i)) by (unfold u; destruct (in_dec _ _ _); reflexivity).
        assert (Ur : w_response (u i) = w_response (work_at n i)) by (unfold u; destruct (in_dec _ _ _); reflexivity).
        destruct i_views0. constructor; rewrite ?Up, ?Us, ?Ur, ?Ug; auto; try congruence.
        - rewrite somes_none, app_nil_r. destruct g_prefix0 as [c E]. exists (somes (proj i (n_queue n)) ++ c). rewrite E, app_assoc. reflexivity.
        - apply last_none. exact g_last0.
        - intro P. destruct (g_running0 P) as (A & B & C). split; [| auto]. intro X. apply A, none_in, X.
        - intro X. destruct (g_gone0 X) as (A & B & C & E & F). split; [exact A |]. split; [exact Ul |].
          split; [intro Y; apply C, none_in, Y |]. split; [exact E |]. intro Y. apply works_of_in in Y. destruct Y as (_ & _ & Y).
          rewrite X in Y. discriminate.
        - intro X. destruct (g_ended0 X) as (A & B & C & E & F). rewrite E. rewrite Uo. auto.
        - intro X. rewrite somes_none in X. elim X; reflexivity. }
      unfold view. cbv zeta. rewrite Tk, Q, G, D, H5, reads_app, results_app. cbn [reads results flat_map]. rewrite !app_nil_r.
      unfold owner_exists. rewrite Oat, O, Eo, Nat.eqb_refl. cbn [snd]. rewrite Uo, Eo in X.
      destruct (W i) as [-> | ->]; [exact X | apply good_cancel; exact X].
    + assert (Ni : ~ In i l) by (intro I; apply works_of_in in I; destruct I as (_ & I & _); contradiction).
      assert (Ui : u i = work_at n i) by (unfold u; destruct (in_dec _ _ _); [contradiction | reflexivity]).
      apply Nat.eqb_neq in No.
      assert (X : view (evs ++ [MDestroy o]) n i) by (apply view_frame with n; auto).
      unfold view in *. cbv zeta in *. unfold owner_exists in *. rewrite Tk, Q, G, D, H5, O, Oat, No.
      eapply good_frame with (jn := In i (n_joining n)) (di := disturbed i (w_owner (work_at n i)) (evs ++ [MDestroy o])); [| intro Y; exact Y | intro Y; contradiction | auto].
      destruct (W i) as [-> | ->]; rewrite Ui; [exact X | apply good_cancel; exact X].
  - intros i L. rewrite Ln in L. destruct (i_fresh0 i L). apply fresh_frame with n; auto.
    + rewrite Q. rewrite f_queue0. destruct (Nat.eqb _ _); reflexivity.
    + rewrite G. reflexivity.
    + rewrite G. reflexivity.
    + rewrite D. auto.
    + rewrite H5. intro X. apply R in X. lia.
  - intros i L. rewrite Ln in L. rewrite O, H1, F1. unfold n0, with_owners. cbn [n_owners]. rewrite set_nth_length. apply i_owners0. exact L.
  - rewrite H5. apply works_of_nodup.
  - intros i rest X. rewrite H5 in X. eapply enter_head; [exact R' | exact X].
  - intros i L X. rewrite Ln in L. rewrite O in X. unfold owner_exists in X. rewrite Oat in X. rewrite Gn, H5.
    destruct (Nat.eqb_spec (w_owner (work_at n i)) o) as [Eo | No].
    + destruct (w_gone (work_at n i)) eqn:Gi; [now left | right]. apply works_of_in. rewrite Gi. auto.
    + destruct (i_dead0 i L X) as [Y | Y]; [now left | rewrite Nj in Y; contradiction].
Qed.

Lemma in_other : forall i j l, In j (filter (other i) l) <-> In j l /\ j <> i.
Proof. intros i j l. rewrite filter_In. unfold other. rewrite negb_true_iff, Nat.eqb_neq. intuition. Qed.

Lemma inv_deferred : forall evs n i, inv evs n -> idle n = true -> In i (n_doomed n) -> inv (evs ++ [MDeferred i]) (deferred i n).
Proof.
  intros evs n i [] Id Dm. unfold deferred. pose (n0 := with_doomed (filter (other i) (n_doomed n)) n). fold n0.
  assert (L : (i < length (n_works n))%nat).
  { destruct (Nat.lt_ge_cases i (length (n_works n))) as [X | X]; [exact X |]. destruct (i_fresh0 i X). contradiction. }
  destruct (enter_fields [i] n0) as (H1 & H2 & H3 & H4 & H5 & H6 & H7).
  assert (R : forall j, In j [i] -> (j < length (n_works n0))%nat) by (intros j [<- | []]; exact L).
  pose (n' := enter [i] n0). fold n'. fold n' in H1, H2, H3, H4, H5, H6, H7.
  assert (W : forall j, work_at n' j = work_at n j \/ work_at n' j = cancel (work_at n j)) by (intro j; apply (enter_at [i] n0 j R)).
  assert (Ln : length (n_works n') = length (n_works n)) by exact H7.
  assert (O : forall j, w_owner (work_at n' j) = w_owner (work_at n j)) by (intro j; destruct (W j) as [-> | ->]; reflexivity).
  assert (Gn : forall j, w_gone (work_at n' j) = w_gone (work_at n j)) by (intro j; destruct (W j) as [-> | ->]; reflexivity).
  assert (Oat : forall x, owner_at n' x = owner_at n x) by (intro x; unfold owner_at; rewrite H1; reflexivity).
  assert (Tk : forall j, task_of n' j = task_of n j) by (intro j; unfold task_of; rewrite O, Oat; reflexivity).
  assert (Nj : n_joining n = []) by (unfold idle in Id; destruct (n_joining n); [auto | discriminate]).
  constructor.
  - rewrite Ln, starts_app. lia.
  - intros j Lj. rewrite Ln in Lj. specialize (i_views0 j Lj).
    assert (X : view (evs ++ [MDeferred i]) n j) by (apply view_frame with n; auto).
    unfold view in *. cbv zeta in *. unfold owner_exists in *. rewrite Tk, O, Oat, H3, H4, H5, H6. cbn [n_queue n_log n_doomed n0 with_doomed].
    assert (Y : good (work_at n j) (task_of n j) (snd (owner_at n (w_owner (work_at n j)))) (proj j (n_queue n)) (messages j (n_log n)) (ends j (n_log n))
      (In j (filter (other i) (n_doomed n))) (In j [i]) (reads j (evs ++ [MDeferred i])) (results j (evs ++ [MDeferred i]))
      (disturbed j (w_owner (work_at n j)) (evs ++ [MDeferred i])) j).
    { destruct (Nat.eq_dec j i) as [-> | D].
      - destruct X. constructor; auto.
        + intro K. destruct (g_linked0 K) as (A & B & C & E & F & G). contradiction.
        + intro K. destruct (g_gone0 K) as (A & B & C & E & F). contradiction.
      - eapply good_frame; [exact X | intro K; apply in_other in K; apply K | intros [K | []]; congruence | auto]. }
    destruct (W j) as [-> | ->]; [exact Y | apply good_cancel; exact Y].
  - intros j Lj. rewrite Ln in Lj. apply fresh_frame with n; [apply i_fresh0; exact Lj | rewrite H3 | rewrite H6 | rewrite H6 | rewrite H4 | rewrite H5 | |]; try reflexivity.
    + intro K. apply in_other in K. apply K.
    + intros [K | []]. lia.
  - intros j Lj. rewrite Ln in Lj. rewrite O, H1. apply i_owners0. exact Lj.
  - rewrite H5. constructor; [intros [] | constructor].
  - intros j rest X. rewrite H5 in X. eapply enter_head; [exact R | exact X].
  - intros j Lj X. rewrite Ln in Lj. rewrite O in X. unfold owner_exists in X. rewrite Oat in X. rewrite Gn, H5.
    destruct (i_dead0 j Lj X) as [Y | Y]; [now left | rewrite Nj in Y; contradiction].
Qed.

Definition is_some {A} (x : option A) : bool := negb (is_none x).

Lemma proj_not_finished : forall i j q, proj j (filter (not_finished_of i) q)
  = if Nat.eqb j i then filter is_some (proj j q) else proj j q.
Proof.
  intros i j q. induction q as [| [k d | k] q IH]; cbn [filter not_finished_of].
  - destruct (Nat.eqb j i); reflexivity.
  - cbn [proj flat_map]. destruct (Nat.eqb k j); [| exact IH]. cbn [app]. change (flat_map _ (filter (not_finished_of i) q)) with (proj j (filter (not_finished_of i) q)).
    rewrite IH. destruct (Nat.eqb j i); reflexivity.
  - unfold other. destruct (Nat.eqb_spec i k) as [-> | D]; cbn [negb].
    + cbn [proj flat_map]. destruct (Nat.eqb_spec k j) as [-> | E]; cbn [app].
      * rewrite Nat.eqb_refl in *. cbn [filter is_some is_none negb]. exact IH.
      * exact IH.
    + cbn [proj flat_map]. change (flat_map _ (filter (not_finished_of i) q)) with (proj j (filter (not_finished_of i) q)). rewrite IH.
      destruct (Nat.eqb_spec k j) as [-> | E]; [| reflexivity]. destruct (Nat.eqb_spec j i) as [-> |]; [congruence | reflexivity].
Qed.

Lemma somes_some : forall q, somes (filter is_some q) = somes q.
Proof. induction q as [| [d |] q IH]; cbn; auto. f_equal. exact IH. Qed.

Lemma none_not_some : forall q : list (option (list Z)), ~ In None (filter is_some q).
Proof. intros q X. apply filter_In in X. destruct X as [_ X]. discriminate. Qed.

Lemma inv_join : forall evs n i rest, inv evs n -> n_joining n = i :: rest -> w_place (work_at n i) = Over -> inv (evs ++ [MJoin]) (join n).
Proof.
  intros evs n i rest [] Jn Pl. unfold join. rewrite Jn.
  pose (n0 := with_work i (bury (work_at n i)) (with_queue (filter (not_finished_of i) (n_queue n)) (with_doomed (filter (other i) (n_doomed n)) n))). fold n0.
  assert (Rg : forall j, In j (n_joining n) -> (j < length (n_works n))%nat).
  { intros j K. destruct (Nat.lt_ge_cases j (length (n_works n))) as [X | X]; [exact X |]. destruct (i_fresh0 j X). contradiction. }
  assert (L : (i < length (n_works n))%nat) by (apply Rg; rewrite Jn; now left).
  destruct (enter_fields rest n0) as (H1 & H2 & H3 & H4 & H5 & H6 & H7).
  assert (L0 : length (n_works n0) = length (n_works n)) by apply set_nth_length.
  assert (R : forall j, In j rest -> (j < length (n_works n0))%nat) by (intros j K; rewrite L0; apply Rg; rewrite Jn; now right).
  pose (n' := enter rest n0). fold n'. fold n' in H1, H2, H3, H4, H5, H6, H7.
  assert (W0 : forall j, work_at n0 j = if Nat.eqb j i then bury (work_at n j) else work_at n j).
  { intro j. unfold n0. rewrite with_work_at by exact L. destruct (Nat.eqb_spec j i) as [-> |]; reflexivity. }
  assert (W : forall j, work_at n' j = work_at n0 j \/ work_at n' j = cancel (work_at n0 j)) by (intro j; apply (enter_at rest n0 j R)).
  assert (Ln : length (n_works n') = length (n_works n)) by (rewrite H7; exact L0).
  assert (O0 : forall j, w_owner (work_at n0 j) = w_owner (work_at n j)) by (intro j; rewrite W0; destruct (Nat.eqb j i); reflexivity).
  assert (O : forall j, w_owner (work_at n' j) = w_owner (work_at n j)) by (intro j; rewrite <- O0; destruct (W j) as [-> | ->]; reflexivity).
  assert (Oat : forall x, owner_at n' x = owner_at n x) by (intro x; unfold owner_at; rewrite H1; reflexivity).
  assert (Tk : forall j, task_of n' j = task_of n j) by (intro j; unfold task_of; rewrite O, Oat; reflexivity).
  assert (Q : forall j, proj j (n_queue n') = if Nat.eqb j i then filter is_some (proj j (n_queue n)) else proj j (n_queue n)).
  { intro j. rewrite H3. apply proj_not_finished. }
  assert (Nd : NoDup (i :: rest)) by (rewrite <- Jn; exact i_nodup0). apply NoDup_cons_iff in Nd. destruct Nd as [Ni Nr].
  constructor.
  - rewrite Ln, starts_app. lia.
  - intros j Lj. rewrite Ln in Lj. specialize (i_views0 j Lj).
    assert (X : view (evs ++ [MJoin]) n j) by (apply view_frame with n; auto).
    unfold view in *. cbv zeta in *. unfold owner_exists in *. rewrite Tk, O, Oat, Q, H4, H5, H6. cbn [n_log n_doomed n0 with_doomed with_work with_works with_queue].
    assert (Y : good (work_at n0 j) (task_of n j) (snd (owner_at n (w_owner (work_at n j))))
      (if Nat.eqb j i then filter is_some (proj j (n_queue n)) else proj j (n_queue n)) (messages j (n_log n)) (ends j (n_log n))
      (In j (filter (other i) (n_doomed n))) (In j rest) (reads j (evs ++ [MJoin])) (results j (evs ++ [MJoin]))
      (disturbed j (w_owner (work_at n j)) (evs ++ [MJoin])) j).
    { rewrite W0. destruct (Nat.eqb_spec j i) as [-> | D].
      - destruct X.
        assert (Lk : w_linked (work_at n i) = false).
        { destruct (w_linked (work_at n i)); [| reflexivity]. destruct (g_linked0 eq_refl) as (_ & _ & _ & _ & _ & K). elim K. rewrite Jn. now left. }
        constructor; cbn [bury w_linked w_place w_gone w_status w_response w_owner]; rewrite ?somes_some; auto; try congruence.
        + intros q1 q2 E. exfalso. apply (none_not_some (proj i (n_queue n))). rewrite E. apply in_or_app. right. now left.
        + intros _. split; [exact Pl |]. split; [exact Lk |]. split; [apply none_not_some |]. split; [| exact Ni].
          intro K. apply in_other in K. destruct K as [_ K]. congruence.
        + intro K. destruct (g_cut0 K) as [Z | (A & B & C & E)]; [now left | right]. rewrite C. auto.
        + intro K. destruct (g_ended0 K) as (A & B & C & E & F). rewrite E. auto.
      - eapply good_frame; [exact X | intro K; apply in_other in K; apply K | intro K; rewrite Jn; now right | auto]. }
    destruct (W j) as [-> | ->]; [exact Y | apply good_cancel; exact Y].
  - intros j Lj. rewrite Ln in Lj. apply fresh_frame with n; [apply i_fresh0; exact Lj | rewrite Q | rewrite H6 | rewrite H6 | rewrite H4 | rewrite H5 | |]; try reflexivity.
    + destruct (i_fresh0 j Lj). rewrite f_queue0. destruct (Nat.eqb j i); reflexivity.
    + intro K. apply in_other in K. apply K.
    + rewrite Jn. intro K. now right.
  - intros j Lj. rewrite Ln in Lj. rewrite O, H1. apply i_owners0. exact Lj.
  - rewrite H5. exact Nr.
  - intros j r X. rewrite H5 in X. eapply enter_head; [exact R | exact X].
  - intros j Lj X. rewrite Ln in Lj. rewrite O in X. unfold owner_exists in X. rewrite Oat in X. rewrite H5.
    assert (G : w_gone (work_at n' j) = w_gone (work_at n0 j)) by (destruct (W j) as [-> | ->]; reflexivity).
    rewrite G, W0. destruct (Nat.eqb_spec j i) as [-> | D]; [now left |].
    destruct (i_dead0 j Lj X) as [Y | Y]; [now left | right]. rewrite Jn in Y. destruct Y; [congruence | assumption].
Qed.

Lemma proj_cons_data : forall i j d q, proj j (PData i d :: q) = if Nat.eqb i j then Some d :: proj j q else proj j q.
Proof. intros. cbn [proj flat_map]. destruct (Nat.eqb i j); reflexivity. Qed.
Lemma proj_cons_finished : forall i j q, proj j (PFinished i :: q) = if Nat.eqb i j then None :: proj j q else proj j q.
Proof. intros. cbn [proj flat_map]. destruct (Nat.eqb i j); reflexivity. Qed.

Lemma outcome_other : forall t o i j code data, j <> i -> ends j (outcome t o i code data) = [].
Proof.
  intros t o i j code data D. apply not_eq_sym, Nat.eqb_neq in D. unfold outcome.
  destruct (code =? 0); [destruct t |]; cbn; rewrite ?D; reflexivity.
Qed.
Lemma outcome_same : forall t o i code data, ends i (outcome t o i code data) = outcome t o i code data.
Proof. intros t o i code data. unfold outcome. destruct (code =? 0); [destruct t |]; cbn; rewrite ?Nat.eqb_refl; reflexivity. Qed.
Lemma outcome_messages : forall t o i j code data, messages j (outcome t o i code data) = [].
Proof. intros t o i j code data. unfold outcome. destruct (code =? 0); [destruct t |]; reflexivity. Qed.

Lemma finished_reports : forall n i, (match task_of n i with
     | Unary => if w_status (work_at n i) =? 0 then [RDone (w_owner (work_at n i)) i (w_response (work_at n i))] else [RError (w_owner (work_at n i)) i (w_status (work_at n i))]
     | Streaming => if w_status (work_at n i) =? 0 then [] else [RError (w_owner (work_at n i)) i (w_status (work_at n i))]
     end) = outcome (task_of n i) (w_owner (work_at n i)) i (w_status (work_at n i)) (w_response (work_at n i)).
Proof. intros. unfold outcome. destruct (task_of n i), (_ =? 0); reflexivity. Qed.

Lemma queue_in : forall evs n i, inv evs n -> proj i (n_queue n) <> [] -> (i < length (n_works n))%nat.
Proof.
  intros evs n i [] P. destruct (Nat.lt_ge_cases i (length (n_works n))) as [X | X]; [exact X |]. destruct (i_fresh0 i X). contradiction.
Qed.

Lemma inv_dispatch : forall evs n n', inv evs n -> dispatch n = Ok n' -> inv (evs ++ [MDispatch]) n'.
Proof.
  intros evs n n' I Di. unfold dispatch in Di. destruct (n_queue n) as [| [i d | i] q] eqn:Q.
  - injection Di as <-. destruct I. constructor; auto.
    + rewrite starts_app. lia.
    + intros i L. apply view_frame with n; auto.
    + intros i L. apply fresh_frame with n; auto.
  - destruct (snd (owner_at n (w_owner (work_at n i)))) eqn:Ow; [| discriminate]. injection Di as <-.
    assert (L : (i < length (n_works n))%nat).
    { eapply queue_in; [exact I |]. rewrite Q, proj_cons_data, Nat.eqb_refl. discriminate. }
    destruct I. constructor; auto.
    + rewrite starts_app. cbn [n_works tell with_queue]. lia.
    + intros j Lj. destruct (Nat.eq_dec j i) as [-> | D].
      * specialize (i_views0 i Lj). unfold view in *. cbv zeta in *.
        cbn [n_queue n_log n_doomed n_joining tell with_queue].
        change (work_at (tell [RMessage (w_owner (work_at n i)) i d] (with_queue q n)) i) with (work_at n i).
        change (task_of (tell [RMessage (w_owner (work_at n i)) i d] (with_queue q n)) i) with (task_of n i).
        change (owner_exists (tell [RMessage (w_owner (work_at n i)) i d] (with_queue q n))) with (owner_exists n).
        rewrite Q, proj_cons_data, Nat.eqb_refl in i_views0. destruct i_views0.
        rewrite messages_app, ends_app, reads_app, results_app. cbn [messages ends reads results flat_map filter]. rewrite Nat.eqb_refl, !app_nil_r. cbn [app].
        constructor; auto.
        -- rewrite <- app_assoc. exact g_prefix0.
        -- intros q1 q2 E. apply (g_last0 (Some d :: q1) q2). cbn. now rewrite E.
        -- intro K. destruct (g_linked0 K) as (A & B). rewrite <- app_assoc. auto.
        -- intro K. destruct (g_running0 K) as (A & B & C). split; [| auto]. intro X. apply A. now right.
        -- intros A B. destruct (g_over0 A B) as [X | X]; [discriminate | exact X].
        -- intro K. destruct (g_gone0 K) as (A & B & C & E). split; [exact A |]. split; [exact B |]. split; [intro X; apply C; now right | exact E].
        -- intro K. destruct (g_cut0 K) as [X | (_ & _ & X & _)]; [left; apply disturbed_app; exact X | discriminate].
        -- intro K. destruct (g_ended0 K) as (_ & _ & _ & X & _). discriminate.
      * apply not_eq_sym, Nat.eqb_neq in D. apply view_frame with n; auto.
        -- cbn [n_queue tell with_queue]. rewrite Q, proj_cons_data, D. reflexivity.
        -- cbn [n_log tell with_queue]. rewrite messages_app. cbn. rewrite D. apply app_nil_r.
        -- cbn [n_log tell with_queue]. rewrite ends_app. apply app_nil_r.
    + intros j Lj. assert (D : j <> i) by (cbn [n_works tell with_queue] in Lj; lia). apply not_eq_sym, Nat.eqb_neq in D.
      apply fresh_frame with n; auto.
      -- cbn [n_queue tell with_queue]. rewrite Q, proj_cons_data, D. reflexivity.
      -- cbn [n_log tell with_queue]. rewrite messages_app. cbn. rewrite D. apply app_nil_r.
      -- cbn [n_log tell with_queue]. rewrite ends_app. apply app_nil_r.
  - destruct (w_gone (work_at n i) || _) eqn:Gn; [discriminate |]. apply orb_false_iff in Gn. destruct Gn as [Gn Gl]. injection Di as <-.
    assert (L : (i < length (n_works n))%nat).
    { eapply queue_in; [exact I |]. rewrite Q, proj_cons_finished, Nat.eqb_refl. discriminate. }
    destruct I. pose proof (i_views0 i L) as Vi. unfold view in Vi. cbv zeta in Vi. rewrite Q, proj_cons_finished, Nat.eqb_refl in Vi.
    unfold finished_slot. change (work_at (with_queue q n) i) with (work_at n i). change (task_of (with_queue q n) i) with (task_of n i).
    rewrite finished_reports.
    assert (Pq : proj i q = []) by (apply (g_last _ _ _ _ _ _ _ _ _ _ _ _ Vi [] (proj i q)); reflexivity).
    assert (Po : w_place (work_at n i) = Over).
    { destruct (w_place (work_at n i)) eqn:P; try reflexivity; destruct (g_running _ _ _ _ _ _ _ _ _ _ _ _ Vi) as [A _]; try congruence; elim A; now left. }
    destruct (w_linked (work_at n i)) eqn:Lk.
    + pose (oc := outcome (task_of n i) (w_owner (work_at n i)) i (w_status (work_at n i)) (w_response (work_at n i))). fold oc.
      pose (n' := doom [i] (with_work i (unlink (work_at n i)) (tell oc (with_queue q n)))). fold n'.
      assert (W : forall j, work_at n' j = if Nat.eqb j i then unlink (work_at n j) else work_at n j).
      { intro j. change (work_at n' j) with (work_at (with_work i (unlink (work_at n i)) (tell oc (with_queue q n))) j).
        rewrite with_work_at by exact L. destruct (Nat.eqb_spec j i) as [-> |]; reflexivity. }
      assert (Ln : length (n_works n') = length (n_works n)) by apply set_nth_length.
      assert (O : forall j, w_owner (work_at n' j) = w_owner (work_at n j)) by (intro j; rewrite W; destruct (Nat.eqb j i); reflexivity).
      constructor.
      * rewrite Ln, starts_app. lia.
      * intros j Lj. rewrite Ln in Lj. destruct (Nat.eq_dec j i) as [-> | D].
        -- unfold view. cbv zeta. unfold task_of. rewrite O. change (owner_at n') with (owner_at n). change (owner_exists n') with (owner_exists n).
           rewrite W, Nat.eqb_refl. change (n_queue n') with q. change (n_log n') with (n_log n ++ oc). change (n_doomed n') with (n_doomed n ++ [i]). change (n_joining n') with (n_joining n).
           rewrite Pq, messages_app, ends_app, reads_app, results_app. unfold oc. rewrite outcome_messages, outcome_same. cbn [reads results flat_map].
           rewrite !app_nil_r. destruct Vi. destruct (g_linked0 Lk) as (A & B & C & E & F & G). cbn [somes] in A. rewrite Pq in A. cbn [somes] in A. rewrite app_nil_r in A.
           rewrite B. cbn [app]. fold (task_of n i).
           constructor; cbn [unlink w_linked w_place w_gone w_status w_response w_owner somes]; rewrite ?app_nil_r; auto; try congruence.
           ++ rewrite A. exists []. now rewrite app_nil_r.
           ++ intros q1 q2 X. destruct q1; discriminate.
        -- apply Nat.eqb_neq in D as D'. apply not_eq_sym in D as D2. apply Nat.eqb_neq in D2. apply view_frame with n; auto.
           ++ rewrite W, D'. reflexivity.
           ++ unfold task_of. rewrite O. reflexivity.
           ++ change (n_queue n') with q. rewrite Q, proj_cons_finished, D2. reflexivity.
           ++ change (n_log n') with (n_log n ++ oc). rewrite messages_app. unfold oc. rewrite outcome_messages. apply app_nil_r.
           ++ change (n_log n') with (n_log n ++ oc). rewrite ends_app. unfold oc. rewrite outcome_other by exact D. apply app_nil_r.
           ++ change (n_doomed n') with (n_doomed n ++ [i]). intro X. apply in_app_or in X. destruct X as [X | [X | []]]; [exact X | congruence].
      * intros j Lj. rewrite Ln in Lj. assert (D : j <> i) by lia. apply not_eq_sym in D as D2. apply Nat.eqb_neq in D2. apply fresh_frame with n; auto.
        -- change (n_queue n') with q. rewrite Q, proj_cons_finished, D2. reflexivity.
        -- change (n_log n') with (n_log n ++ oc). rewrite messages_app. unfold oc. rewrite outcome_messages. apply app_nil_r.
        -- change (n_log n') with (n_log n ++ oc). rewrite ends_app. unfold oc. rewrite outcome_other by exact D. apply app_nil_r.
        -- change (n_doomed n') with (n_doomed n ++ [i]). intro X. apply in_app_or in X. destruct X as [X | [X | []]]; [exact X | congruence].
      * intros j Lj. rewrite Ln in Lj. rewrite O. apply i_owners0. exact Lj.
      * exact i_nodup0.
      * intros j rest X. rewrite W. destruct (Nat.eqb j i); cbn [unlink w_cancelled]; eapply i_head0; exact X.
      * intros j Lj X. rewrite Ln in Lj. rewrite O in X. rewrite W.
        assert (Y : w_gone (if Nat.eqb j i then unlink (work_at n j) else work_at n j) = w_gone (work_at n j)) by (destruct (Nat.eqb j i); reflexivity).
        rewrite Y. apply i_dead0; auto.
    + constructor; auto.
      * rewrite starts_app. cbn [n_works with_queue]. lia.
      * intros j Lj. destruct (Nat.eq_dec j i) as [-> | D].
        -- unfold view. cbv zeta. change (work_at (with_queue q n) i) with (work_at n i). change (task_of (with_queue q n) i) with (task_of n i).
           change (owner_exists (with_queue q n)) with (owner_exists n). cbn [n_queue n_log n_doomed n_joining with_queue].
           rewrite reads_app, results_app. cbn [reads results flat_map]. rewrite !app_nil_r, Pq in *.
           destruct Vi. constructor; auto; try congruence.
           ++ intros q1 q2 X. destruct q1; discriminate.
           ++ intro K. destruct (g_cut0 K) as [X | (_ & _ & X & _)]; [left; apply disturbed_app; exact X | discriminate].
           ++ intro K. destruct (g_ended0 K) as (_ & _ & _ & X & _). discriminate.
        -- apply not_eq_sym, Nat.eqb_neq in D. apply view_frame with n; auto.
           cbn [n_queue with_queue]. rewrite Q, proj_cons_finished, D. reflexivity.
      * intros j Lj. assert (D : j <> i) by (cbn [n_works with_queue] in Lj; lia). apply not_eq_sym, Nat.eqb_neq in D.
        apply fresh_frame with n; auto. cbn [n_queue with_queue]. rewrite Q, proj_cons_finished, D. reflexivity.
Qed.

(** ** All steps *)

Lemma inv_step : forall evs n e n', inv evs n -> enabled n e = true -> step n e = Ok n' -> inv (evs ++ [e]) n'.
Proof.
  intros evs n e n' I En St.
  assert (Wk : forall i t p, is_at n i t p = true -> p <> Over -> w_gone (work_at n i) = false).
  { intros i t p A P. destruct (is_at_spec _ _ _ _ A) as (L & _ & Pl). eapply worker_alive; [exact I | exact L | congruence]. }
  destruct e; cbn [enabled] in En; cbn [step] in St; repeat (rewrite andb_true_iff in En).
  - injection St as <-. apply inv_channels; [exact I | exact Logic.I].
  - injection St as <-. apply inv_new. exact I.
  - injection St as <-. apply inv_begin; [exact I | apply En].
  - injection St as <-. apply inv_abort; [exact I | apply En].
  - injection St as <-. apply inv_destroy; [exact I | apply En | apply En].
  - injection St as <-. apply inv_deferred; [exact I | apply En |]. destruct En as [_ En]. apply existsb_exists in En.
    destruct En as (x & X & E). apply Nat.eqb_eq in E. subst. exact X.
  - injection St as <-. destruct (n_joining n) as [| i rest] eqn:J; [discriminate |]. eapply inv_join; [exact I | exact J |].
    destruct (w_place (work_at n i)); cbn in En; congruence.
  - injection St as <-. apply inv_channels; [exact I | exact Logic.I].
  - apply inv_dispatch with n; [exact I | exact St].
  - unfold on_work in St. rewrite (Wk _ _ _ En) in St by discriminate. destruct (channel_exists _ _); [| discriminate]. injection St as <-.
    eapply inv_at_place; eauto; try discriminate; reflexivity.
  - unfold on_work in St. rewrite (Wk _ _ _ En) in St by discriminate. injection St as <-. apply inv_read; assumption.
  - unfold on_work in St. rewrite (Wk _ _ _ En) in St by discriminate. injection St as <-.
    eapply inv_at_place; eauto; try discriminate; reflexivity.
  - destruct En as [En _]. unfold on_work in St. rewrite (Wk _ _ _ En) in St by discriminate. injection St as <-.
    eapply inv_with_result; eauto; try discriminate; try reflexivity. cbn. rewrite Nat.eqb_refl. reflexivity.
  - unfold on_work in St. rewrite (Wk _ _ _ En) in St by discriminate. injection St as <-.
    eapply inv_with_result; eauto; try discriminate; try reflexivity. cbn. rewrite Nat.eqb_refl. reflexivity.
  - unfold on_work in St. rewrite (Wk _ _ _ En) in St by discriminate. injection St as <-.
    eapply inv_with_result; eauto; try discriminate; try reflexivity. cbn. rewrite Nat.eqb_refl. reflexivity.
  - assert (X : exists t, is_at n i t Leaving = true) by (apply orb_true_iff in En; destruct En; eauto).
    destruct X as [t X]. unfold on_work in St. rewrite (Wk _ _ _ X) in St by discriminate. injection St as <-.
    eapply inv_exit; eauto.
Qed.

Lemma inv_execution : forall evs n, execution evs n -> inv evs n.
Proof. induction 1; [apply inv_start | eapply inv_step; eassumption]. Qed.

Lemma execution_continues : forall evs n evs2 n2, execution evs n -> continues n evs2 n2 -> execution (evs ++ evs2) n2.
Proof.
  intros evs n evs2 n2 X C. revert evs X. induction C as [n | n e n1 evs2 n2 En St C IH]; intros evs X; [now rewrite app_nil_r |].
  replace (evs ++ e :: evs2) with ((evs ++ [e]) ++ evs2) by (rewrite <- app_assoc; reflexivity). apply IH. econstructor; eassumption.
Qed.

Lemma continues_app : forall n e1 n1 e2 n2, continues n e1 n1 -> continues n1 e2 n2 -> continues n (e1 ++ e2) n2.
Proof. intros n e1 n1 e2 n2 C D. induction C; [exact D | econstructor; eauto]. Qed.

(** ** What a step does to the log, the places and the connections *)

Lemma join_log : forall n, n_log (join n) = n_log n.
Proof.
  intro n. unfold join. destruct (n_joining n) as [| i rest]; [reflexivity |].
  destruct (enter_fields rest (with_work i (bury (work_at n i)) (with_queue (filter (not_finished_of i) (n_queue n)) (with_doomed (filter (other i) (n_doomed n)) n)))) as (_ & _ & _ & _ & _ & H & _).
  exact H.
Qed.

Lemma destroy_log : forall o n, n_log (destroy_owner o n) = n_log n.
Proof.
  intros o n. unfold destroy_owner. set (l := works_of _ _ _). set (n0 := with_owners _ _).
  destruct (enter_fields l (change_works unlink l n0)) as (_ & _ & _ & _ & _ & H & _). rewrite H.
  destruct (change_works_fields unlink l n0) as (_ & _ & _ & _ & _ & F & _). rewrite F. reflexivity.
Qed.

Lemma abort_log : forall o n, n_log (abort_owner o n) = n_log n ++ [RAborted o].
Proof.
  intros o n. unfold abort_owner. cbv zeta. unfold doom, with_doomed. cbn [n_log]. set (l := works_of _ _ _). set (f := match _ with Unary => _ | Streaming => _ end).
  destruct (change_works_fields f l (tell [RAborted o] n)) as (_ & _ & _ & _ & _ & F & _). rewrite F. reflexivity.
Qed.

Ltac gone_case := match goal with St : _ = Ok _ |- _ => cbv zeta beta in St; match type of St with (if w_gone (work_at ?n ?k) then _ else _) = _ => destruct (w_gone (work_at n k)); [discriminate |] end end.

(** What a step adds to the log. *)
Definition added (n : world) (e : event) : list report :=
  match e with
  | MAbort o => [RAborted o]
  | MDispatch =>
      match n_queue n with
      | PData i d :: _ => [RMessage (w_owner (work_at n i)) i d]
      | PFinished i :: _ =>
          if w_linked (work_at n i) then outcome (task_of n i) (w_owner (work_at n i)) i (w_status (work_at n i)) (w_response (work_at n i)) else []
      | [] => []
      end
  | _ => []
  end.

Lemma step_log : forall n e n', step n e = Ok n' -> n_log n' = n_log n ++ added n e.
Proof.
  intros n e n' St. destruct e; cbn [step added] in *; unfold on_work in *; rewrite ?app_nil_r;
    try gone_case; try (injection St as <-); try reflexivity.
  - apply abort_log.
  - apply destroy_log.
  - apply join_log.
  - unfold dispatch in St. destruct (n_queue n) as [| [i d | i] q].
    + injection St as <-. now rewrite app_nil_r.
    + destruct (snd _); [| discriminate]. injection St as <-. reflexivity.
    + destruct (w_gone (work_at n i) || _); [discriminate |]. injection St as <-. unfold finished_slot.
      change (work_at (with_queue q n) i) with (work_at n i). change (task_of (with_queue q n) i) with (task_of n i). rewrite finished_reports.
      destruct (w_linked (work_at n i)); [reflexivity | symmetry; apply app_nil_r].
  - destruct (channel_exists _ _); [| discriminate]. injection St as <-. reflexivity.
  - destruct (w_linked (work_at n i)); reflexivity.
Qed.

(** A work after a step: what can change. *)
Record keeps (w w' : work) : Prop := mkKeeps {
  kp_owner : w_owner w' = w_owner w;
  kp_channel : w_channel w' = w_channel w;
  kp_linked : w_linked w' = true -> w_linked w = true;
  kp_over : w_place w = Over -> w_place w' = Over;
  kp_begin : w_place w' = Begin -> w_place w = Begin
}.

Lemma keeps_refl : forall w, keeps w w. Proof. intro w. constructor; auto. Qed.
Lemma keeps_trans : forall a b c, keeps a b -> keeps b c -> keeps a c.
Proof. intros a b c [] []. constructor; auto; congruence. Qed.
Lemma keeps_cancel : forall w, keeps w (cancel w). Proof. intro w. constructor; auto. Qed.
Lemma keeps_unlink : forall w, keeps w (unlink w). Proof. intro w. constructor; auto. discriminate. Qed.
Lemma keeps_bury : forall w, keeps w (bury w). Proof. intro w. constructor; auto. Qed.

Lemma work_out : forall n i, (length (n_works n) <= i)%nat -> work_at n i = no_work.
Proof. intros n i L. unfold work_at. apply nth_overflow. exact L. Qed.

Lemma keeps_with_work : forall i w n j, keeps (work_at n i) w -> keeps (work_at n j) (work_at (with_work i w n) j).
Proof.
  intros i w n j K. unfold work_at, with_work, with_works. cbn [n_works]. rewrite nth_set_nth.
  destruct (Nat.eqb_spec j i) as [-> |]; [| apply keeps_refl]. destruct (Nat.ltb i (length (n_works n))); [exact K | apply keeps_refl].
Qed.

Lemma keeps_change : forall f l n j, (forall w, keeps w (f w)) -> keeps (work_at n j) (work_at (change_works f l n) j).
Proof.
  intros f l. induction l as [| i l IH]; intros n j F; [apply keeps_refl |]. cbn [change_works].
  eapply keeps_trans; [apply (keeps_with_work i (f (work_at n i)) n j); apply F | apply IH; exact F].
Qed.

Lemma keeps_enter : forall l n j, keeps (work_at n j) (work_at (enter l n) j).
Proof.
  intros l n j. destruct l as [| i l]; [apply keeps_refl |].
  change (work_at (enter (i :: l) n) j) with (work_at (with_work i (cancel (work_at n i)) n) j). apply keeps_with_work, keeps_cancel.
Qed.

Lemma keeps_at : forall p w, w_place w <> Over -> p <> Begin -> keeps w (at_place p w).
Proof. intros p w A B. constructor; cbn [at_place w_owner w_channel w_linked w_place]; auto; congruence. Qed.
Lemma keeps_over : forall w, keeps w (at_place Over w).
Proof. intros w. constructor; cbn [at_place w_owner w_channel w_linked w_place]; auto; congruence. Qed.
Lemma keeps_result : forall c d w, w_place w <> Over -> keeps w (with_result c d w).
Proof. intros c d w A. constructor; cbn [with_result w_owner w_channel w_linked w_place]; auto; congruence. Qed.

Lemma step_keeps : forall n e n' j, enabled n e = true -> step n e = Ok n' -> (j < length (n_works n))%nat -> keeps (work_at n j) (work_at n' j).
Proof.
  intros n e n' j En St L.
  assert (Np : forall i t p, is_at n i t p = true -> p <> Over -> w_place (work_at n i) <> Over).
  { intros i t p A P. destruct (is_at_spec _ _ _ _ A) as (_ & _ & X). congruence. }
  destruct e; cbn [enabled] in En; cbn [step] in St; unfold on_work in St;
    try gone_case; try (injection St as <-); try apply keeps_refl.
  - unfold work_at, start_work, with_works. cbn [n_works]. rewrite nth_app_new. destruct (Nat.eqb_spec j (length (n_works n))); [lia | apply keeps_refl].
  - unfold abort_owner. cbv zeta.
    match goal with |- keeps _ (work_at (doom ?l ?x) j) => change (work_at (doom l x) j) with (work_at x j) end.
    change (work_at n j) with (work_at (tell [RAborted o] n) j). apply keeps_change. intro w.
    destruct (fst (owner_at n o)); [apply keeps_unlink | eapply keeps_trans; [apply keeps_unlink | apply keeps_cancel]].
  - unfold destroy_owner. cbv zeta. set (l := works_of _ _ _). set (n0 := with_owners _ _).
    eapply keeps_trans; [| apply keeps_enter]. change (work_at n j) with (work_at n0 j). apply keeps_change, keeps_unlink.
  - unfold deferred. apply (keeps_enter [i] (with_doomed (filter (other i) (n_doomed n)) n) j).
  - unfold join. destruct (n_joining n) as [| i rest]; [apply keeps_refl |]. eapply keeps_trans; [| apply keeps_enter].
    apply (keeps_with_work i (bury (work_at n i)) (with_queue (filter (not_finished_of i) (n_queue n)) (with_doomed (filter (other i) (n_doomed n)) n)) j).
    apply keeps_bury.
  - unfold dispatch in St. destruct (n_queue n) as [| [i d | i] q].
    + injection St as <-. apply keeps_refl.
    + destruct (snd _); [| discriminate]. injection St as <-. apply keeps_refl.
    + destruct (w_gone (work_at n i) || _); [discriminate |]. injection St as <-. unfold finished_slot.
      change (work_at (with_queue q n) i) with (work_at n i). destruct (w_linked (work_at n i)); [| apply keeps_refl].
      match goal with |- keeps _ (work_at (doom ?l (with_work ?a ?b ?x)) j) => change (keeps (work_at x j) (work_at (with_work a b x) j)) end.
      apply keeps_with_work, keeps_unlink.
  - destruct (channel_exists _ _); [| discriminate]. injection St as <-. apply keeps_with_work, keeps_at; [eapply Np; [exact En | discriminate] | discriminate].
  - destruct (w_linked (work_at n i)); apply keeps_refl.
  - apply keeps_with_work, keeps_at; [eapply Np; [exact En | discriminate] | discriminate].
  - apply andb_true_iff in En. destruct En as [En _]. apply keeps_with_work, keeps_result. eapply Np; [exact En | discriminate].
  - apply keeps_with_work, keeps_result. eapply Np; [exact En | discriminate].
  - apply keeps_with_work, keeps_result. eapply Np; [exact En | discriminate].
  - change (keeps (work_at n j) (work_at (with_work i (at_place Over (work_at n i)) n) j)). apply keeps_with_work, keeps_over.
Qed.

Lemma exec_length : forall evs n, execution evs n -> length (n_works n) = starts evs.
Proof. intros evs n X. apply i_starts, inv_execution, X. Qed.

Lemma starts_mono : forall a b, (starts a <= starts (a ++ b))%nat.
Proof. intros. unfold starts. rewrite filter_app, app_length. lia. Qed.

Lemma step_length : forall evs n e n', execution evs n -> enabled n e = true -> step n e = Ok n' -> (length (n_works n) <= length (n_works n'))%nat.
Proof.
  intros evs n e n' X En St. rewrite (exec_length _ _ X), (exec_length (evs ++ [e]) n') by (econstructor; eassumption). apply starts_mono.
Qed.

(** The thread of a work is over exactly when its function has returned. *)
Lemma exit_over : forall evs n i, execution evs n -> In (WExit i) evs -> (i < length (n_works n))%nat /\ w_place (work_at n i) = Over.
Proof.
  intros evs n i X. induction X as [| evs n e n' X IH En St]; intro I; [contradiction |].
  apply in_app_or in I. destruct I as [I | [-> | []]].
  - destruct (IH I) as [L P]. split; [pose proof (step_length _ _ _ _ X En St); lia |].
    exact (kp_over _ _ (step_keeps _ _ _ _ En St L) P).
  - cbn [enabled] in En. assert (Y : exists t, is_at n i t Leaving = true) by (apply orb_true_iff in En; destruct En; eauto).
    destruct Y as [t Y]. destruct (is_at_spec _ _ _ _ Y) as (L & _ & _). cbn [step] in St. unfold on_work in St.
    destruct (w_gone (work_at n i)); [discriminate |]. injection St as <-.
    split; [cbn [n_works with_queue with_work with_works]; rewrite set_nth_length; exact L |].
    change (w_place (work_at (with_work i (at_place Over (work_at n i)) n) i) = Over). rewrite with_work_at, Nat.eqb_refl by exact L. reflexivity.
Qed.

(** The owner and the task of a work never change. *)
Lemma continues_keeps : forall evs n evs2 n2 j, execution evs n -> continues n evs2 n2 -> (j < length (n_works n))%nat ->
  keeps (work_at n j) (work_at n2 j) /\ (j < length (n_works n2))%nat.
Proof.
  intros evs n evs2 n2 j X C. revert evs X. induction C as [n | n e n1 evs2 n2 En St C IH]; intros evs X L; [split; [apply keeps_refl | exact L] |].
  destruct (IH (evs ++ [e])) as [A B]; [econstructor; eassumption | pose proof (step_length _ _ _ _ X En St); lia |].
  split; [eapply keeps_trans; [apply (step_keeps _ _ _ _ En St L) | exact A] | exact B].
Qed.

(** ** No dangling references *)

Lemma dispatch_ok : forall evs n, inv evs n -> exists n', dispatch n = Ok n'.
Proof.
  intros evs n I. unfold dispatch. destruct (n_queue n) as [| [i d | i] q] eqn:Q; [eauto | |].
  - assert (L : (i < length (n_works n))%nat) by (eapply queue_in; [exact I | rewrite Q, proj_cons_data, Nat.eqb_refl; discriminate]).
    destruct I. specialize (i_views0 i L). unfold view in i_views0. cbv zeta in i_views0. rewrite Q, proj_cons_data, Nat.eqb_refl in i_views0.
    assert (A : owner_exists n (w_owner (work_at n i)) = true) by (apply (g_alive _ _ _ _ _ _ _ _ _ _ _ _ i_views0); discriminate).
    unfold owner_exists in A. rewrite A. eauto.
  - assert (L : (i < length (n_works n))%nat) by (eapply queue_in; [exact I | rewrite Q, proj_cons_finished, Nat.eqb_refl; discriminate]).
    destruct I. specialize (i_views0 i L). unfold view in i_views0. cbv zeta in i_views0. rewrite Q, proj_cons_finished, Nat.eqb_refl in i_views0.
    destruct i_views0. destruct (w_gone (work_at n i)) eqn:G.
    + destruct (g_gone0 eq_refl) as (_ & _ & A & _). elim A. now left.
    + destruct (w_linked (work_at n i)) eqn:Lk; cbn [orb andb]; [| eauto].
      destruct (g_linked0 eq_refl) as (_ & _ & A & _). unfold owner_exists in A. rewrite A. cbn [negb]. eauto.
Qed.

Lemma step_ok : forall evs n e, inv evs n -> enabled n e = true ->
  (forall i, e = WBegin i -> channel_exists n (w_channel (work_at n i)) = true) -> exists n', step n e = Ok n'.
Proof.
  intros evs n e I En Ch.
  assert (Wk : forall i t p, is_at n i t p = true -> p <> Over -> w_gone (work_at n i) = false).
  { intros i t p A P. destruct (is_at_spec _ _ _ _ A) as (L & _ & Pl). eapply worker_alive; [exact I | exact L | congruence]. }
  destruct e; cbn [step]; unfold on_work; cbn [enabled] in En; try (eexists; reflexivity).
  - eapply dispatch_ok. exact I.
  - rewrite (Wk _ _ _ En) by discriminate. rewrite (Ch i eq_refl). eexists. reflexivity.
  - rewrite (Wk _ _ _ En) by discriminate. eexists. reflexivity.
  - rewrite (Wk _ _ _ En) by discriminate. eexists. reflexivity.
  - apply andb_true_iff in En. destruct En as [En _]. rewrite (Wk _ _ _ En) by discriminate. eexists. reflexivity.
  - rewrite (Wk _ _ _ En) by discriminate. eexists. reflexivity.
  - rewrite (Wk _ _ _ En) by discriminate. eexists. reflexivity.
  - assert (X : exists t, is_at n i t Leaving = true) by (apply orb_true_iff in En; destruct En; eauto).
    destruct X as [t X]. rewrite (Wk _ _ _ X) by discriminate. eexists. reflexivity.
Qed.

(** What a step does to the channels. *)
Lemma step_channels : forall n e n', step n e = Ok n' ->
  n_channels n' = match e with MChannel => n_channels n ++ [true] | MDropChannel ch => set_nth ch false (n_channels n) | _ => n_channels n end.
Proof.
  intros n e n' St. destruct e; cbn [step] in St; unfold on_work in St;
    try gone_case; try (injection St as <-); try reflexivity.
  - unfold abort_owner. cbv zeta. unfold doom, with_doomed. cbn [n_channels]. set (l := works_of _ _ _). set (f := match _ with Unary => _ | Streaming => _ end).
    destruct (change_works_fields f l (tell [RAborted o] n)) as (_ & F & _). rewrite F. reflexivity.
  - unfold destroy_owner. cbv zeta. set (l := works_of _ _ _). set (n0 := with_owners _ _).
    destruct (enter_fields l (change_works unlink l n0)) as (_ & H & _). rewrite H. destruct (change_works_fields unlink l n0) as (_ & F & _). rewrite F. reflexivity.
  - unfold join. destruct (n_joining n) as [| i rest]; [reflexivity |].
    apply (enter_fields rest (with_work i (bury (work_at n i)) (with_queue (filter (not_finished_of i) (n_queue n)) (with_doomed (filter (other i) (n_doomed n)) n)))).
  - unfold dispatch in St. destruct (n_queue n) as [| [i d | i] q].
    + injection St as <-. reflexivity.
    + destruct (snd _); [| discriminate]. injection St as <-. reflexivity.
    + destruct (w_gone (work_at n i) || _); [discriminate |]. injection St as <-. unfold finished_slot. destruct (w_linked _); reflexivity.
  - destruct (channel_exists _ _); [| discriminate]. injection St as <-. reflexivity.
  - destruct (w_linked (work_at n i)); reflexivity.
Qed.

Lemma careful_app : forall a e, careful (a ++ [e]) -> careful a.
Proof.
  intros a e C x ch y n i E X. apply (C x ch (y ++ [e]) n i); [| exact X]. rewrite E, <- app_assoc. reflexivity.
Qed.

Lemma careful_begin : forall evs n, execution evs n -> careful evs -> forall i, (i < length (n_works n))%nat -> w_place (work_at n i) = Begin ->
  nth (w_channel (work_at n i)) (n_channels n) false = true.
Proof.
  intros evs n X. induction X as [| evs n e n' X IH En St]; intros C i L P; [cbn in L; lia |].
  specialize (IH (careful_app _ _ C)). pose proof (step_channels _ _ _ St) as Ch.
  destruct (Nat.lt_ge_cases i (length (n_works n))) as [Li | Li].
  - pose proof (step_keeps _ _ _ i En St Li) as K. pose proof (kp_begin _ _ K P) as P0. specialize (IH i Li P0). rewrite (kp_channel _ _ K).
    rewrite Ch. destruct e; try exact IH.
    + rewrite app_nth1; [exact IH |]. destruct (Nat.lt_ge_cases (w_channel (work_at n i)) (length (n_channels n))) as [Y | Y]; [exact Y |].
      rewrite nth_overflow in IH by exact Y. discriminate.
    + rewrite nth_set_nth. destruct (Nat.eqb_spec (w_channel (work_at n i)) ch) as [E | E]; [| exact IH].
      elim (C evs ch [] n i eq_refl X Li E P0).
  - assert (Ln : (length (n_works n') <> length (n_works n))%nat) by lia.
    rewrite (exec_length _ _ X), (exec_length (evs ++ [e]) n') in Ln by (econstructor; eassumption). rewrite starts_app in Ln.
    destruct e; try lia. cbn [step] in St. injection St as <-. cbn [n_works start_work with_works] in L. rewrite app_length in L. cbn [length] in L.
    assert (i = length (n_works n)) by lia. subst i.
    assert (W : w_channel (work_at (start_work o ch n) (length (n_works n))) = ch).
    { unfold work_at, start_work, with_works. cbn [n_works]. rewrite nth_app_new, Nat.eqb_refl. reflexivity. }
    rewrite W, Ch. cbn [enabled] in En. rewrite !andb_true_iff in En. apply En.
Qed.

Lemma careful_ok : forall evs n e, execution evs n -> careful evs -> enabled n e = true -> exists n', step n e = Ok n'.
Proof.
  intros evs n e X C En. eapply step_ok; [apply inv_execution; exact X | exact En |]. intros i ->. cbn [enabled] in En.
  destruct (is_at_spec _ _ _ _ En) as (L & _ & P). unfold channel_exists. rewrite (careful_begin _ _ X C i L P). reflexivity.
Qed.

(** ** The order of the reports *)

Lemma added_single : forall n e, added n e = [] \/ exists r, added n e = [r].
Proof.
  intros n e. destruct e; cbn [added]; eauto. destruct (n_queue n) as [| [i d | i] q]; eauto.
  destruct (w_linked (work_at n i)); [| auto]. unfold outcome. destruct (_ =? 0); [destruct (task_of n i) |]; eauto.
Qed.

(** After the report of the end nothing comes from the work. *)
Lemma added_ended : forall evs n e i, execution evs n -> ends i (n_log n) <> [] -> messages i (added n e) = [] /\ ends i (added n e) = [].
Proof.
  intros evs n e i X En. pose proof (inv_execution _ _ X) as I.
  assert (L : (i < length (n_works n))%nat).
  { destruct (Nat.lt_ge_cases i (length (n_works n))) as [L | L]; [exact L |]. destruct I. destruct (i_fresh0 i L). contradiction. }
  pose proof (i_views _ _ I i L) as V. unfold view in V. cbv zeta in V.
  destruct (g_ended _ _ _ _ _ _ _ _ _ _ _ _ V En) as (Lk & _ & _ & Q & _).
  destruct e; cbn [added]; auto. destruct (n_queue n) as [| [j d | j] q]; auto.
  - rewrite proj_cons_data in Q. cbn. destruct (Nat.eqb j i); [discriminate | auto].
  - rewrite proj_cons_finished in Q. destruct (Nat.eqb_spec j i) as [-> | D]; [discriminate |].
    destruct (w_linked (work_at n j)); [| auto]. rewrite outcome_messages, outcome_other by auto. auto.
Qed.

Definition is_end (i : nat) (r : report) : Prop := ends i [r] = [r].

Lemma after_end : forall evs n i r l1 l2, execution evs n -> n_log n = l1 ++ r :: l2 -> is_end i r -> messages i l2 = [] /\ ends i l2 = [].
Proof.
  intros evs n i r l1 l2 X. revert l2. induction X as [| evs n e n' X IH En St]; intros l2 E R; [destruct l1; discriminate |].
  rewrite (step_log _ _ _ St) in E. destruct (added_single n e) as [A | (x & A)]; rewrite A in E.
  - rewrite app_nil_r in E. apply IH; assumption.
  - destruct (exists_last (l := r :: l2)) as (l3 & y & E3); [discriminate |]. rewrite E3, app_assoc in E. apply app_inj_tail in E. destruct E as [E <-].
    destruct l3 as [| z l3]; cbn [app] in E3; [injection E3 as <- ->; split; reflexivity |]. injection E3 as <- ->.
    destruct (IH l3 E R) as [M N].
    assert (Ne : ends i (n_log n) <> []).
    { rewrite E, ends_app. change (r :: l3) with ([r] ++ l3). rewrite ends_app, R. intro Y. apply app_eq_nil in Y. destruct Y as [_ Y]. discriminate. }
    destruct (added_ended _ _ e _ X Ne) as [M1 N1]. rewrite A in M1, N1. rewrite messages_app, ends_app, M, N, M1, N1. auto.
Qed.

(** ** After the connections are cut *)

Lemma prefix_refl {A} : forall l : list A, prefix l l. Proof. intro l. exists []. now rewrite app_nil_r. Qed.
Lemma prefix_trans {A} : forall a b c : list A, prefix a b -> prefix b c -> prefix a c.
Proof. intros a b c [x ->] [y ->]. exists (x ++ y). now rewrite app_assoc. Qed.
Lemma prefix_app {A} : forall a b c : list A, prefix b c -> prefix (a ++ b) (a ++ c).
Proof. intros a b c [x ->]. exists x. now rewrite app_assoc. Qed.
Lemma prefix_nil {A} : forall l : list A, prefix [] l. Proof. intro l. exists l. reflexivity. Qed.

Lemma queued_app : forall i a b, queued i (a ++ b) = queued i a ++ queued i b.
Proof. intros. unfold queued. apply flat_map_app. Qed.

Lemma step_queued : forall n e n' i, enabled n e = true -> step n e = Ok n' -> w_linked (work_at n i) = false ->
  prefix (messages i (added n e) ++ queued i (n_queue n')) (queued i (n_queue n)) /\ ends i (added n e) = [].
Proof.
  intros n e n' i En St Lk.
  assert (Same : n_queue n' = n_queue n -> messages i (added n e) = [] -> ends i (added n e) = [] ->
    prefix (messages i (added n e) ++ queued i (n_queue n')) (queued i (n_queue n)) /\ ends i (added n e) = []).
  { intros Q M E. rewrite Q, M, E. split; [apply prefix_refl | reflexivity]. }
  destruct e; cbn [step] in St; unfold on_work in St; try gone_case; try (injection St as <-); try (apply Same; reflexivity).
  - apply Same; try reflexivity. unfold abort_owner. cbv zeta. unfold doom, with_doomed. cbn [n_queue].
    set (l := works_of _ _ _). set (f := match _ with Unary => _ | Streaming => _ end).
    destruct (change_works_fields f l (tell [RAborted o] n)) as (_ & _ & F & _). rewrite F. reflexivity.
  - split; [| reflexivity]. cbn [added messages flat_map app]. unfold destroy_owner. cbv zeta. set (l := works_of _ _ _). set (n0 := with_owners _ _).
    destruct (enter_fields l (change_works unlink l n0)) as (_ & _ & H & _). rewrite H. destruct (change_works_fields unlink l n0) as (_ & _ & F & _). rewrite F.
    unfold n0. cbn [n_queue with_owners with_queue]. rewrite !queued_proj, proj_not_data. destruct (Nat.eqb _ _); [rewrite somes_none; apply prefix_nil | apply prefix_refl].
  - split; [| reflexivity]. cbn [added messages flat_map app]. unfold join. destruct (n_joining n) as [| k rest]; [apply prefix_refl |].
    match goal with |- prefix (queued i (n_queue (enter rest ?x))) _ => destruct (enter_fields rest x) as (_ & _ & H & _) end. rewrite H.
    cbn [n_queue with_work with_works with_queue]. rewrite !queued_proj, proj_not_finished. destruct (Nat.eqb i k); [rewrite somes_some |]; apply prefix_refl.
  - cbn [added]. unfold dispatch in St. destruct (n_queue n) as [| [k d | k] q] eqn:Q.
    + cbn [enabled] in En. rewrite Q, andb_false_r in En. discriminate.
    + destruct (snd _); [| discriminate]. injection St as <-. cbn [n_queue tell with_queue messages flat_map]. split; [| reflexivity]. rewrite app_nil_r.
      change (queued i (PData k d :: q)) with ((if Nat.eqb k i then [d] else []) ++ queued i q). apply prefix_refl.
    + destruct (w_gone (work_at n k) || _); [discriminate |]. injection St as <-. unfold finished_slot.
      change (work_at (with_queue q n) k) with (work_at n k). destruct (w_linked (work_at n k)) eqn:Lj.
      * assert (D : i <> k) by (intros ->; congruence). rewrite outcome_messages, outcome_other by exact D. split; [apply prefix_refl | reflexivity].
      * split; [apply prefix_refl | reflexivity].
  - destruct (channel_exists _ _); [| discriminate]. injection St as <-. apply Same; reflexivity.
  - destruct (Nat.eqb_spec i0 i) as [-> | D].
    + rewrite Lk in *. apply Same; reflexivity.
    + split; [| reflexivity]. cbn [added messages flat_map app]. destruct (w_linked (work_at n i0)); [| apply prefix_refl].
      cbn [n_queue with_queue]. rewrite queued_app. apply Nat.eqb_neq in D. cbn. rewrite D, app_nil_r. apply prefix_refl.
  - split; [| reflexivity]. cbn [added messages flat_map app n_queue with_queue]. rewrite queued_app. cbn. rewrite app_nil_r. apply prefix_refl.
Qed.

Lemma cut_continues : forall evs n evs2 n2 i, execution evs n -> continues n evs2 n2 -> (i < length (n_works n))%nat ->
  w_linked (work_at n i) = false ->
  exists l, n_log n2 = n_log n ++ l /\ prefix (messages i l ++ queued i (n_queue n2)) (queued i (n_queue n)) /\ ends i l = [].
Proof.
  intros evs n evs2 n2 i X C. revert evs X. induction C as [n | n e n1 evs2 n2 En St C IH]; intros evs X L Lk.
  - exists []. rewrite app_nil_r. split; [reflexivity |]. split; [apply prefix_refl | reflexivity].
  - pose proof (step_keeps _ _ _ i En St L) as K.
    assert (Lk1 : w_linked (work_at n1 i) = false).
    { destruct (w_linked (work_at n1 i)) eqn:E; [| reflexivity]. pose proof (kp_linked _ _ K E). congruence. }
    destruct (IH (evs ++ [e])) as (l & Lg & P & E); [econstructor; eassumption | pose proof (step_length _ _ _ _ X En St); lia | exact Lk1 |].
    destruct (step_queued _ _ _ i En St Lk) as [P1 E1].
    exists (added n e ++ l). rewrite Lg, (step_log _ _ _ St), app_assoc. split; [reflexivity |]. rewrite messages_app, ends_app, E, E1. split; [| reflexivity].
    rewrite <- app_assoc. eapply prefix_trans; [| exact P1]. apply prefix_app. exact P.
Qed.

Lemma abort_unlinks : forall o n i, (i < length (n_works n))%nat -> w_owner (work_at n i) = o -> w_linked (work_at (abort_owner o n) i) = false.
Proof.
  intros o n i L O. unfold abort_owner. cbv zeta. set (l := works_of _ _ _). set (f := match _ with Unary => _ | Streaming => _ end).
  change (w_linked (work_at (change_works f l (tell [RAborted o] n)) i) = false).
  rewrite change_works_at; [| apply works_of_nodup | intros j J; apply works_of_in in J; apply J].
  change (work_at (tell [RAborted o] n) i) with (work_at n i).
  destruct (in_dec Nat.eq_dec i l) as [I | I].
  - unfold f. destruct (fst (owner_at n o)); reflexivity.
  - destruct (w_linked (work_at n i)) eqn:E; [| reflexivity]. elim I. apply works_of_in. auto.
Qed.

Lemma abort_queue : forall o n, n_queue (abort_owner o n) = n_queue n.
Proof.
  intros o n. unfold abort_owner. cbv zeta. unfold doom, with_doomed. cbn [n_queue]. set (l := works_of _ _ _). set (f := match _ with Unary => _ | Streaming => _ end).
  destruct (change_works_fields f l (tell [RAborted o] n)) as (_ & _ & F & _). rewrite F. reflexivity.
Qed.

Lemma abort_idle : forall o n, n_joining (abort_owner o n) = n_joining n.
Proof.
  intros o n. unfold abort_owner. cbv zeta. unfold doom, with_doomed. cbn [n_joining]. set (l := works_of _ _ _). set (f := match _ with Unary => _ | Streaming => _ end).
  destruct (change_works_fields f l (tell [RAborted o] n)) as (_ & _ & _ & _ & F & _). rewrite F. reflexivity.
Qed.

(** ** The event loop empties its queue *)

Lemma dispatch_tail : forall n n', dispatch n = Ok n' -> n_queue n' = tl (n_queue n) /\ n_joining n' = n_joining n.
Proof.
  intros n n' D. unfold dispatch in D. destruct (n_queue n) as [| [i d | i] q] eqn:Q.
  - injection D as <-. rewrite Q. auto.
  - destruct (snd _); [| discriminate]. injection D as <-. auto.
  - destruct (w_gone (work_at n i) || _); [discriminate |]. injection D as <-. unfold finished_slot.
    change (work_at (with_queue q n) i) with (work_at n i). destruct (w_linked (work_at n i)); auto.
Qed.

Lemma dispatch_all : forall evs n k, execution evs n -> idle n = true -> (k <= length (n_queue n))%nat ->
  exists n', continues n (repeat MDispatch k) n' /\ n_queue n' = skipn k (n_queue n) /\ idle n' = true.
Proof.
  intros evs n k. revert evs n. induction k as [| k IH]; intros evs n X Id L.
  - exists n. split; [constructor | auto].
  - destruct (dispatch_ok _ _ (inv_execution _ _ X)) as [n1 D]. destruct (dispatch_tail _ _ D) as [Q J].
    destruct (n_queue n) as [| p q] eqn:Q0; [cbn in L; lia |]. cbn [tl] in Q.
    assert (En : enabled n MDispatch = true) by (cbn [enabled]; rewrite Id, Q0; reflexivity).
    assert (Id1 : idle n1 = true) by (unfold idle in *; rewrite J; exact Id).
    destruct (IH (evs ++ [MDispatch]) n1) as (n2 & C & Q2 & I2); [econstructor; [exact X | exact En | exact D] | exact Id1 | rewrite Q; cbn in L; lia |].
    exists n2. split; [econstructor; [exact En | exact D | exact C] |]. rewrite Q2, Q. auto.
Qed.

(** What the event loop reports when it takes the first [k] events: the messages among them. *)
Lemma dispatch_messages : forall evs n k n', execution evs n -> continues n (repeat MDispatch k) n' ->
  exists l, n_log n' = n_log n ++ l /\
    forall i d, In (PData i d) (firstn k (n_queue n)) -> In (RMessage (w_owner (work_at n i)) i d) l.
Proof.
  intros evs n k. revert evs n. induction k as [| k IH]; intros evs n n' X C.
  - inversion C; subst. exists []. rewrite app_nil_r. split; [reflexivity | intros i d []].
  - cbn [repeat] in C. inversion C as [| ? ? n1 ? ? En St C1]; subst.
    destruct (IH (evs ++ [MDispatch]) n1 n') as (l & Lg & M); [econstructor; eassumption | exact C1 |].
    exists (added n MDispatch ++ l). rewrite Lg, (step_log _ _ _ St), app_assoc. split; [reflexivity |].
    intros i d I. apply in_or_app. destruct (dispatch_tail _ _ St) as [Q _]. cbn [added].
    destruct (n_queue n) as [| p q]; [destruct I |]. cbn [firstn] in I. cbn [tl] in Q. destruct I as [-> | I].
    + left. now left.
    + right. rewrite Q in M. specialize (M i d I).
      assert (L : (i < length (n_works n1))%nat).
      { eapply queue_in with (evs := evs ++ [MDispatch]); [apply inv_execution; econstructor; eassumption |]. rewrite Q.
        assert (I2 : In (PData i d) q).
        { rewrite <- (firstn_skipn k q). apply in_or_app. now left. }
        intro E. assert (Y : In (Some d) (proj i q)).
        { unfold proj. apply in_flat_map. exists (PData i d). split; [exact I2 |]. rewrite Nat.eqb_refl. now left. }
        rewrite E in Y. destruct Y. }
      assert (L0 : (i < length (n_works n))%nat).
      { rewrite (exec_length _ _ X). rewrite (exec_length (evs ++ [MDispatch]) n1) in L by (econstructor; eassumption). rewrite starts_app in L. lia. }
      rewrite (kp_owner _ _ (step_keeps _ _ _ i En St L0)) in M. exact M.
Qed.

(** ** The threads end by themselves *)

Lemma careful_more : forall evs e, careful evs -> (forall ch, e <> MDropChannel ch) -> careful (evs ++ [e]).
Proof.
  intros evs e C N a ch b n i E X. destruct (exists_last (l := MDropChannel ch :: b)) as (b' & x & Eb); [discriminate |].
  rewrite Eb, app_assoc in E. apply app_inj_tail in E. destruct E as [E <-].
  destruct b' as [| y b']; cbn [app] in Eb; [injection Eb as Eb _; symmetry in Eb; elim (N ch Eb) |].
  injection Eb as <- _. eapply C; [exact E | exact X].
Qed.

Definition rank (p : place) : nat := match p with Begin => 4 | Inside => 3 | Finishing => 2 | Leaving => 1 | Over => 0 end.

(** The next step of a thread that has been cancelled (status 1 of gRPC). *)
Definition next_step (n : world) (i : nat) : event :=
  match task_of n i, w_place (work_at n i) with
  | _, Begin => WBegin i
  | Unary, Inside => WReply i 1 []
  | Streaming, Inside => WEnd i
  | _, Finishing => WStatus i 1
  | _, _ => WExit i
  end.

Lemma is_at_intro : forall n i t p, (i < length (n_works n))%nat -> task_of n i = t -> w_place (work_at n i) = p -> is_at n i t p = true.
Proof.
  intros n i t p L T P. unfold is_at. rewrite (proj2 (Nat.ltb_lt _ _) L), T, P. destruct t, p; reflexivity.
Qed.

Lemma next_enabled : forall evs n i, inv evs n -> (i < length (n_works n))%nat -> w_place (work_at n i) <> Over ->
  enabled n (next_step n i) = true.
Proof.
  intros evs n i I L P. pose proof (i_views _ _ I i L) as V. unfold view in V. cbv zeta in V.
  pose proof (g_streaming _ _ _ _ _ _ _ _ _ _ _ _ V) as Gs. pose proof (g_unary _ _ _ _ _ _ _ _ _ _ _ _ V) as Gu. clear V.
  unfold next_step. destruct (task_of n i) eqn:T.
  - destruct (Gu eq_refl) as [A _]. destruct (w_place (work_at n i)) eqn:Pl; cbn [enabled]; try congruence.
    + apply is_at_intro; assumption.
    + apply is_at_intro; assumption.
    + rewrite (is_at_intro n i Unary Leaving L T Pl). reflexivity.
  - destruct (Gs eq_refl) as [_ A]. destruct (w_place (work_at n i)) eqn:Pl; cbn [enabled]; try congruence.
    + apply is_at_intro; assumption.
    + apply is_at_intro; assumption.
    + rewrite (is_at_intro n i Streaming Leaving L T Pl). apply orb_true_r.
Qed.

Lemma next_effect : forall evs n i n', inv evs n -> (i < length (n_works n))%nat -> w_place (work_at n i) <> Over -> step n (next_step n i) = Ok n' ->
  (rank (w_place (work_at n' i)) < rank (w_place (work_at n i)))%nat /\ n_joining n' = n_joining n /\ length (n_works n') = length (n_works n).
Proof.
  intros evs n i n' I L P St. pose proof (i_views _ _ I i L) as V. unfold view in V. cbv zeta in V.
  pose proof (g_streaming _ _ _ _ _ _ _ _ _ _ _ _ V) as Gs. pose proof (g_unary _ _ _ _ _ _ _ _ _ _ _ _ V) as Gu. clear V.
  unfold next_step in St.
  assert (W : forall w, work_at (with_work i w n) i = w) by (intro w; rewrite with_work_at, Nat.eqb_refl by exact L; reflexivity).
  destruct (task_of n i) eqn:T; destruct (w_place (work_at n i)) eqn:Pl; try congruence;
    try (destruct (Gu eq_refl); congruence); try (destruct (Gs eq_refl); congruence);
    cbn [step] in St; unfold on_work in St; gone_case; try (destruct (channel_exists _ _); [| discriminate]); injection St as <-;
    unfold with_queue; cbn [n_joining n_works with_work with_works]; rewrite ?set_nth_length;
    try (change (work_at (mkWorld _ _ (set_nth i ?w _) _ _ _ _) i) with (work_at (with_work i w n) i)); rewrite ?W; cbn; split; auto.
Qed.

Lemma thread_ends : forall k evs n i, execution evs n -> careful evs -> (i < length (n_works n))%nat -> (rank (w_place (work_at n i)) <= k)%nat ->
  exists evs2 n2, continues n evs2 n2 /\ Forall (only_ending [i]) evs2 /\ w_place (work_at n2 i) = Over /\ n_joining n2 = n_joining n /\
    length (n_works n2) = length (n_works n) /\ careful (evs ++ evs2).
Proof.
  induction k as [| k IH]; intros evs n i X C L R.
  - exists [], n. rewrite app_nil_r. split; [constructor |]. split; [constructor |]. destruct (w_place (work_at n i)); cbn in R; try lia. auto.
  - destruct (place_eqb (w_place (work_at n i)) Over) eqn:Po.
    + exists [], n. rewrite app_nil_r. split; [constructor |]. split; [constructor |]. destruct (w_place (work_at n i)); cbn in Po; try discriminate. auto.
    + assert (P : w_place (work_at n i) <> Over) by (intro E; rewrite E in Po; discriminate).
      pose proof (inv_execution _ _ X) as I. pose proof (next_enabled _ _ _ I L P) as En.
      destruct (careful_ok _ _ _ X C En) as [n1 St]. destruct (next_effect _ _ _ _ I L P St) as (Rk & J & Ln).
      assert (Nd : forall ch, next_step n i <> MDropChannel ch) by (intros ch; unfold next_step; destruct (task_of n i), (w_place (work_at n i)); discriminate).
      destruct (IH (evs ++ [next_step n i]) n1 i) as (evs2 & n2 & C2 & F & O & J2 & L2 & Cf);
        [econstructor; eassumption | apply careful_more; assumption | lia | lia |].
      exists (next_step n i :: evs2), n2. split; [econstructor; eassumption |]. split.
      * constructor; [| exact F]. unfold next_step. destruct (task_of n i), (w_place (work_at n i)); cbn; auto.
      * rewrite J2, L2. rewrite <- app_assoc in Cf. auto.
Qed.

Lemma waiting_ends : forall l evs n, execution evs n -> careful evs -> n_joining n = l ->
  exists evs2 n2, continues n evs2 n2 /\ Forall (only_ending l) evs2 /\ n_joining n2 = [] /\ careful (evs ++ evs2).
Proof.
  induction l as [| i l IH]; intros evs n X C J.
  - exists [], n. rewrite app_nil_r. split; [constructor | auto].
  - assert (L : (i < length (n_works n))%nat).
    { destruct (Nat.lt_ge_cases i (length (n_works n))) as [L | L]; [exact L |]. destruct (i_fresh _ _ (inv_execution _ _ X) i L) as [_ _ _ _ F _ _].
      elim F. rewrite J. now left. }
    destruct (thread_ends _ evs n i X C L (le_n _)) as (e1 & n1 & C1 & F1 & O1 & J1 & L1 & Cf1).
    pose proof (execution_continues _ _ _ _ X C1) as X1. rewrite J in J1.
    assert (En : enabled n1 MJoin = true) by (cbn [enabled]; rewrite J1, O1; reflexivity).
    assert (J2 : n_joining (join n1) = l) by (unfold join; rewrite J1; apply enter_fields).
    destruct (IH ((evs ++ e1) ++ [MJoin]) (join n1)) as (e2 & n2 & C2 & F2 & J3 & Cf2);
      [econstructor; [exact X1 | exact En | reflexivity] | apply careful_more; [exact Cf1 | discriminate] | exact J2 |].
    exists (e1 ++ MJoin :: e2), n2. split; [eapply continues_app; [exact C1 |]; econstructor; [exact En | reflexivity | exact C2] |].
    split; [| split; [exact J3 |]].
    + apply Forall_app. split; [| constructor; [exact Logic.I |]].
      * eapply Forall_impl; [| exact F1]. intros e E. destruct e; cbn in *; try contradiction; auto; destruct E as [<- | []]; now left.
      * eapply Forall_impl; [| exact F2]. intros e E. destruct e; cbn in *; try contradiction; auto.
    + rewrite <- !app_assoc in Cf2. exact Cf2.
Qed.

(** ** Execution of a list of steps *)

Fixpoint run (n : world) (evs : list event) : option world :=
  match evs with
  | [] => Some n
  | e :: evs' => if enabled n e then match step n e with Ok n' => run n' evs' | _ => None end else None
  end.

Lemma run_continues : forall evs n n', run n evs = Some n' -> continues n evs n'.
Proof.
  induction evs as [| e evs IH]; intros n n' R; cbn in R; [injection R as <-; constructor |].
  destruct (enabled n e) eqn:En; [| discriminate]. destruct (step n e) eqn:St; try discriminate. econstructor; [exact En | exact St | apply IH, R].
Qed.

Lemma run_execution : forall evs n, run start evs = Some n -> execution evs n.
Proof. intros evs n R. apply (execution_continues [] start evs n); [constructor | apply run_continues, R]. Qed.

(** Properties C29, C30, C31: the process-wide registries. *)

From Coq Require Import ZArith List Bool Arith Lia.
From Verif Require Import Base RegistryModel RegistryProofs.
Import ListNotations.
Open Scope nat_scope.

(** ** C29 Registration and lookup of handlers by any number of threads *)

(** A state that the threads reach with some schedule, when thread i makes the calls [nth i progs]. *)
Definition reachable (progs : list (list op)) (c : config) : Prop :=
  exists sched, execute (start progs) sched = Some c.

(** Thread [i] is in the middle of an access to the map. *)
Definition modifies (c : config) (i : nat) : Prop :=
  exists t h ops, nth_error (c_threads c) i = Some (mkThread (RWriting t h) ops).
Definition reads (c : config) (i : nat) : Prop :=
  exists t ops, nth_error (c_threads c) i = Some (mkThread (FReading t) ops).

(** The handler of the last registration of a type in a history; 0 (the empty handler) if there is none. *)
Fixpoint registered_last (t : nat) (l : list act) (d : nat) : nat :=
  match l with
  | [] => d
  | Written _ t' h :: l' => registered_last t l' (if t =? t' then h else d)
  | _ :: l' => registered_last t l' d
  end.

Definition silent (j : nat) (l : list act) : Prop :=
  forall a, In a l -> match a with Call i _ | Written i _ _ | Got i _ _ | Return i _ _ => i <> j end.

Definition ended (c : config) : Prop := forall i th, nth_error (c_threads c) i = Some th -> t_pc th = Idle /\ t_ops th = [].

Lemma reachable_CInv progs c : reachable progs c -> CInv progs c.
Proof. intros [sched H]. eapply CInv_execute; [apply CInv_start | exact H]. Qed.

Lemma registered_last_eq t l d : registered_last t l d = last_written t l d.
Proof. reflexivity. Qed.

Lemma quiet_silent j l : quiet j l <-> silent j l.
Proof.
  unfold quiet, silent. rewrite Forall_forall. split; intros H a Ha; specialize (H a Ha); destruct a; exact H.
Qed.

(** An access that modifies the map never overlaps another access. *)
Theorem C29_exclusive : forall progs c i j, reachable progs c -> modifies c i -> modifies c j \/ reads c j -> i = j.
Proof.
  intros progs c i j R (t & h & ops & Hi) Hj. apply reachable_CInv in R as V.
  destruct (Nat.eq_dec i j) as [E|N]; [exact E|exfalso]. pose proof (V_sem _ _ V) as S.
  destruct Hj as [(t' & h' & ops' & Hj)|(t' & ops' & Hj)];
    pose proof (total_two held _ _ _ _ _ N Hi Hj) as T; cbn [held t_pc] in T; unfold max_threads in *; lia.
Qed.

(** Every call takes effect at one moment between the call and its return: a registration at the moment
    [Written], and a lookup finds the last registration of its type at the moment [Got]. *)
Theorem C29_atomic_registration : forall progs c pre post j t h r, reachable progs c ->
  c_trace c = pre ++ Return j (Register t h) r :: post ->
  exists a b d, pre = a ++ Call j (Register t h) :: b ++ Written j t h :: d /\ silent j b /\ silent j d.
Proof.
  intros progs c pre post j t h r R E. apply reachable_CInv in R as V.
  destruct (V_returned _ _ V pre j (Register t h) r post E) as [(a & b & d & H & Q1 & Q2) _].
  exists a, b, d. rewrite <- !quiet_silent. auto.
Qed.

Theorem C29_atomic_lookup : forall progs c pre post j t r, reachable progs c ->
  c_trace c = pre ++ Return j (Find t) r :: post ->
  exists a b d, pre = a ++ Call j (Find t) :: b ++ Got j t r :: d /\ silent j b /\ silent j d /\
    r = registered_last t (a ++ Call j (Find t) :: b) 0.
Proof.
  intros progs c pre post j t r R E. apply reachable_CInv in R as V.
  destruct (V_returned _ _ V pre j (Find t) r post E) as (a & b & d & H & Q1 & Q2 & Q3).
  exists a, b, d. rewrite <- !quiet_silent. auto.
Qed.

Lemma last_call_unique j o : forall a b a' b', a ++ Call j o :: b = a' ++ Call j o :: b' ->
  ~ In (Call j o) b -> ~ In (Call j o) b' -> a = a' /\ b = b'.
Proof.
  induction a as [|x a IH]; intros b [|y a'] b' E N N'; cbn in E.
  - injection E as E. auto.
  - injection E as E1 E2. exfalso. apply N. rewrite E2. apply in_app_iff. right. now left.
  - injection E as E1 E2. exfalso. apply N'. rewrite <- E2. apply in_app_iff. right. now left.
  - injection E as E1 E2. destruct (IH b a' b' E2 N N') as [-> ->]. subst. auto.
Qed.

Lemma none_written t : forall l d, (forall k h, ~ In (Written k t h) l) -> registered_last t l d = d.
Proof.
  induction l as [|a l IH]; intros d N; [reflexivity|].
  assert (N' : forall k h, ~ In (Written k t h) l) by (intros k h H; apply (N k h); now right).
  destruct a; cbn; try now apply IH. destruct (Nat.eqb_spec t t0) as [<-|]; [|now apply IH]. exfalso. apply (N i h). now left.
Qed.

(** So a lookup that is called after a registration has taken effect (at the latest when the registration returned)
    finds its handler, unless another registration of the type takes effect before the lookup returns. *)
Theorem C29_sees_completed : forall progs c p m n s i j t h r, reachable progs c ->
  c_trace c = p ++ Written i t h :: m ++ Call j (Find t) :: n ++ Return j (Find t) r :: s ->
  (forall o, ~ In (Call j o) n) -> (forall k h', ~ In (Written k t h') (m ++ n)) ->
  r = h.
Proof.
  intros progs c p m n s i j t h r R E Nc Nw.
  assert (E' : c_trace c = ((p ++ Written i t h :: m) ++ Call j (Find t) :: n) ++ Return j (Find t) r :: s)
    by (rewrite E; repeat (rewrite <- app_assoc; cbn [app]); reflexivity).
  destruct (C29_atomic_lookup _ _ _ _ _ _ _ R E') as (a & b & d & H & Q1 & Q2 & ->).
  apply last_call_unique in H as [<- ->].
  - rewrite !registered_last_eq, <- app_assoc, last_written_app. cbn. rewrite Nat.eqb_refl. rewrite last_written_app. cbn.
    change (registered_last t b (registered_last t m h) = h).
    rewrite !none_written; [reflexivity | |]; intros k h' X; apply (Nw k h'); rewrite !in_app_iff; tauto.
  - apply Nc.
  - intro X. apply in_app_iff in X as [X|[X|X]]; [now apply Q1 in X | discriminate | now apply Q2 in X].
Qed.

(** No schedule gets stuck before all calls of all threads have returned, ... *)
Theorem C29_no_deadlock : forall progs c, reachable progs c -> ended c \/ exists i c', advance i c = Some c'.
Proof.
  intros progs c R. apply reachable_CInv in R as V. destruct (Nat.eq_dec (total left_steps (c_threads c)) 0) as [Z|N].
  - left. unfold ended. now apply left_zero.
  - right. now apply (progress progs).
Qed.

(** ... schedules cannot go on forever, ... *)
Theorem C29_terminates : forall progs sched c, execute (start progs) sched = Some c ->
  length sched <= 7 * length (concat progs) /\ (ended c <-> length sched = 7 * length (concat progs)).
Proof.
  intros progs sched c H. apply execute_left in H.
  assert (S : total left_steps (c_threads (start progs)) = 7 * length (concat progs)).
  { clear. induction progs as [|p progs IH]; [reflexivity|]. cbn [start c_threads] in *. cbn [map total concat].
    rewrite app_length. unfold left_steps at 1. cbn [t_pc t_ops]. rewrite IH. lia. }
  rewrite S in H. split; [lia|]. unfold ended. rewrite <- left_zero. lia.
Qed.

(** ... and at the end every thread has made its calls in the order of its program, and each has returned. *)
Theorem C29_all_calls_return : forall progs c i prog, reachable progs c -> ended c -> nth_error progs i = Some prog ->
  flat_map (fun a => match a with Call j o => if j =? i then [o] else [] | _ => [] end) (c_trace c) = prog /\
  flat_map (fun a => match a with Return j o _ => if j =? i then [o] else [] | _ => [] end) (c_trace c) = prog.
Proof.
  intros progs c i prog R En P. apply reachable_CInv in R as V.
  destruct (nth_error (c_threads c) i) as [th|] eqn:H.
  - destruct (En i th H) as [A B]. pose proof (V_calls _ _ V i th H) as C. pose proof (V_returns _ _ V i th H) as D.
    rewrite B, app_nil_r, P in C. injection C as C. rewrite A in D. cbn in D. rewrite app_nil_r in D.
    unfold calls, returns in *. split; [now symmetry | now rewrite <- D].
  - exfalso. apply nth_error_None in H. rewrite (V_length _ _ V) in H.
    assert (i < length progs) by (apply nth_error_Some; congruence). lia.
Qed.

(** Two readers are in the map at once while a writer waits with the mutex; later the writer and a third
    reader finish. *)
Definition ex_progs : list (list op) := [[Find 5]; [Find 5; Find 5]; [Register 5 9; Register 6 8]].
Definition ex_sched : list nat :=
  [0; 0; 0; 0; 0; 1; 1; 1; 1; 1; 2; 2].
Definition ex_end : list nat :=
  ex_sched ++ [0; 0; 1; 1; 2; 2; 2; 2; 2; 1; 1; 1; 1; 1; 1; 1; 2; 2; 2; 2; 2; 2; 2].
Definition after (progs : list (list op)) (sched : list nat) : config :=
  match execute (start progs) sched with Some c => c | None => start progs end.

Lemma after_reachable progs sched :
  match execute (start progs) sched with Some _ => true | None => false end = true -> reachable progs (after progs sched).
Proof. intro H. exists sched. unfold after. destruct (execute (start progs) sched); [reflexivity | discriminate]. Qed.

Example C29_case :
  reachable ex_progs (after ex_progs ex_sched) /\ reads (after ex_progs ex_sched) 0 /\ reads (after ex_progs ex_sched) 1 /\
  advance 2 (after ex_progs ex_sched) = None /\
  reachable ex_progs (after ex_progs ex_end) /\ ended (after ex_progs ex_end) /\
  modifies (after ex_progs (ex_sched ++ [0; 0; 1; 1; 2; 2])) 2 /\
  c_trace (after ex_progs ex_end) =
    [Call 0 (Find 5); Call 1 (Find 5); Call 2 (Register 5 9); Got 0 5 0; Return 0 (Find 5) 0; Got 1 5 0; Return 1 (Find 5) 0;
     Written 2 5 9; Return 2 (Register 5 9) 0; Call 1 (Find 5); Got 1 5 9; Return 1 (Find 5) 9;
     Call 2 (Register 6 8); Written 2 6 8; Return 2 (Register 6 8) 0].
Proof.
  split; [apply after_reachable; vm_compute; reflexivity|].
  split; [exists 5, []; vm_compute; reflexivity|]. split; [exists 5, [Find 5]; vm_compute; reflexivity|].
  split; [vm_compute; reflexivity|]. split; [apply after_reachable; vm_compute; reflexivity|].
  split.
  { assert (T : c_threads (after ex_progs ex_end) = [mkThread Idle []; mkThread Idle []; mkThread Idle []]) by (vm_compute; reflexivity).
    intros i th H. rewrite T in H. do 3 (destruct i as [|i]; [cbn in H; injection H as <-; auto|]). destruct i; discriminate H. }
  split; [exists 5, 9, [Register 6 8]; vm_compute; reflexivity | vm_compute; reflexivity].
Qed.

(** ** C30 Registration functions *)

(** A registration function that registers no further functions. *)
Definition adds_none (l : list action) : Prop := forall f, ~ In (Add f) l.

Lemma none_added : forall l, adds_none l -> flat_map (fun a => match a with Add f => [f] | Reenter => [] end) l = [].
Proof.
  induction l as [|[g|] l IH]; intro A; [reflexivity| |].
  - exfalso. apply (A g). now left.
  - apply IH. intros g Hg. apply (A g). now right.
Qed.

Lemma body_none body : forall l n s, adds_none l -> y_done s = true -> length l + 2 <= n -> run_body body n l s = Some s.
Proof.
  induction l as [|[f|] l IH]; intros n s A D L; (destruct n as [|n]; [cbn in L; lia|]); rewrite run_body_S.
  - reflexivity.
  - exfalso. apply (A f). now left.
  - destruct n as [|n]; [cbn in L; lia|]. rewrite register_types_S, D. apply IH; [|exact D|cbn in *; lia].
    intros f X. apply (A f). now right.
Qed.

Lemma loop_none body k : (forall f, adds_none (body f)) -> forall rest l n, (forall f, In f rest -> length (body f) <= k) ->
  length rest + k + 3 <= n ->
  register_loop body n (length l) (mkTypes true (l ++ rest) l) = Some (mkTypes true (l ++ rest) (l ++ rest)).
Proof.
  intro A. induction rest as [|f rest IH]; intros l n B L; (destruct n as [|n]; [cbn in L; lia|]); rewrite register_loop_S; cbn [y_list y_done y_ran].
  - rewrite app_nil_r. replace (nth_error l (length l)) with (@None nat) by (symmetry; now apply nth_error_None). reflexivity.
  - rewrite nth_error_app2, Nat.sub_diag by lia. cbn [nth_error].
    rewrite body_none; [|apply A|reflexivity|specialize (B f (or_introl eq_refl)); cbn in L; lia].
    replace (S (length l)) with (length (l ++ [f])) by (rewrite app_length; cbn; lia).
    replace (l ++ f :: rest) with ((l ++ [f]) ++ rest) by now rewrite <- app_assoc.
    apply IH; [intros g Hg; apply B; now right | cbn in L; lia].
Qed.

Lemma libraries body n : forall fs rest s, program body n (map Library fs ++ rest) s =
  program body n rest (mkTypes (y_done s) (y_list s ++ fs) (y_ran s)).
Proof.
  induction fs as [|f fs IH]; intros rest s; cbn.
  - rewrite app_nil_r. now destruct s.
  - rewrite IH. cbn. now rewrite <- app_assoc.
Qed.

(** Whatever the functions do: what the first call runs is the list of registered functions, each once and in order,
    beginning with those registered before the call; later calls run nothing. Missing: functions registered after the
    first call, which never run (see below). *)
Theorem C30_in_order_once_partial : forall body fuel fs rest s,
  program body fuel (map Library fs ++ CallTypes :: rest) no_types = Some s ->
  exists during, y_ran s = fs ++ during /\
    ((forall f, adds_none (body f)) -> during = []) /\ exists late, y_list s = y_ran s ++ late.
Proof.
  intros body n fs rest s H. rewrite libraries in H. cbn [program no_types y_done y_list y_ran app] in H.
  destruct (register_types body n (mkTypes false fs [])) as [s1|] eqn:E; [|discriminate].
  destruct (first_call body n (mkTypes false fs []) s1 eq_refl eq_refl E) as (A & B & l & C). cbn in C.
  apply program_started in H as [H1 H2]; [|split; [exact A | exists []; now rewrite app_nil_r, B]].
  exists l. rewrite H1, B. split; [exact C|]. split; [|eexists; rewrite H2; reflexivity].
  intro An. destruct n as [|n]; [discriminate E|]. rewrite register_types_S in E. cbn [y_done y_list y_ran] in E.
  assert (Len : forall m i t t', y_done t = true -> register_loop body m i t = Some t' -> y_list t' = y_list t).
  { clear - An. induction m as [|m IH]; intros i t t' D Q; [discriminate Q|]. rewrite register_loop_S in Q.
    destruct (nth_error (y_list t) i) as [f|]; [|now injection Q as <-].
    destruct (run_body body m (body f) _) as [u|] eqn:R; [|discriminate].
    apply (proj2 (register_started body m)) in R as (X & Y & Z); [|exact D]. cbn in Z.
    rewrite (none_added (body f) (An f)), app_nil_r in Z. apply IH in Q; [congruence | exact X]. }
  apply Len in E; [|reflexivity]. cbn in E. rewrite E in C. destruct l as [|x l]; [reflexivity|].
  exfalso. assert (X : length fs = length (fs ++ x :: l)) by now rewrite <- C. rewrite app_length in X. cbn in X. lia.
Qed.

(** And the call does end if the functions register nothing. *)
Theorem C30_ends : forall body fs rest, (forall f, adds_none (body f)) ->
  exists fuel s, program body fuel (map Library fs ++ CallTypes :: rest) no_types = Some s.
Proof.
  intros body fs rest A.
  assert (K : exists k, forall f, In f fs -> length (body f) <= k).
  { induction fs as [|f fs [k IH]]; [exists 0; intros f []|]. exists (Nat.max (length (body f)) k).
    intros g [<-|Hg]; [lia|]. specialize (IH g Hg). lia. }
  destruct K as [k K]. exists (S (length fs + k + 3)).
  rewrite libraries. cbn [program no_types y_done y_list y_ran app]. rewrite register_types_S. cbn [y_done y_list y_ran].
  rewrite (loop_none body k A fs [] _ K) by lia. cbn [app].
  assert (G : forall l s, y_done s = true -> exists s', program body (S (length fs + k + 3)) l s = Some s').
  { clear. induction l as [|[f|] l IH]; intros s D; [now exists s | now apply IH|].
    cbn [program]. rewrite register_types_S, D. now apply IH. }
  now apply G.
Qed.

(** Missing: functions of a library that is loaded after the first call are never run, however often
    qRegisterProtobufTypes is called. *)
Theorem C30_late_library_refuted : forall body fuel fs f rest s, (forall g, adds_none (body g)) -> ~ In f fs ->
  program body fuel (map Library fs ++ CallTypes :: Library f :: rest) no_types = Some s ->
  In f (y_list s) /\ ~ In f (y_ran s).
Proof.
  intros body n fs f rest s A N H.
  destruct (C30_in_order_once_partial _ _ _ _ _ H) as (d & R & Z & _). rewrite (Z A), app_nil_r in R. rewrite R.
  split; [|exact N]. rewrite libraries in H. cbn [program no_types y_done y_list y_ran app] in H.
  destruct (register_types body n (mkTypes false fs [])) as [s1|] eqn:E; [|discriminate].
  destruct (first_call body n (mkTypes false fs []) s1 eq_refl eq_refl E) as (A1 & B & _).
  apply program_started in H as [_ H2]; [|split; [exact A1 | exists [f]; cbn; now rewrite B]].
  rewrite H2. cbn. rewrite !in_app_iff. left. right. now left.
Qed.

Lemma pair_loop fns i : forall m n s, p_done s i = false -> p_step s i = 2 + n -> length fns - n = m -> n <= length fns ->
  p_runs (pair_run fns (repeat i (S m)) s) = p_runs s ++ map (pair i) (skipn n fns) /\
  p_done (pair_run fns (repeat i (S m)) s) i = true /\
  (forall j, j <> i -> p_done (pair_run fns (repeat i (S m)) s) j = p_done s j /\ p_step (pair_run fns (repeat i (S m)) s) j = p_step s j).
Proof.
  induction m as [|m IH]; intros n s D P L B.
  - assert (E : nth_error fns n = None) by (apply nth_error_None; lia).
    assert (PA : pair_advance fns i s = mkPair (p_flag s) (p_step s) (set_fun (p_done s) i true) (p_runs s))
      by (unfold pair_advance; rewrite D, P; cbn [plus]; now rewrite E).
    cbn [repeat pair_run]. rewrite PA. cbn [p_runs p_done p_step].
    rewrite skipn_all2, app_nil_r by lia. split; [reflexivity|]. unfold set_fun. rewrite Nat.eqb_refl. split; [reflexivity|].
    intros j N. apply Nat.eqb_neq in N. now rewrite N.
  - destruct (nth_error fns n) as [f|] eqn:E; [|apply nth_error_None in E; lia].
    set (s1 := mkPair (p_flag s) (set_fun (p_step s) i (3 + n)) (p_done s) (p_runs s ++ [(i, f)])).
    assert (PA : pair_advance fns i s = s1) by (unfold pair_advance; rewrite D, P; cbn [plus]; now rewrite E).
    change (pair_run fns (repeat i (S (S m))) s) with (pair_run fns (repeat i (S m)) (pair_advance fns i s)). rewrite PA.
    destruct (IH (S n) s1) as (X & Y & Z); [exact D | unfold s1, set_fun; cbn; now rewrite Nat.eqb_refl | lia | lia|].
    assert (Sk : skipn n fns = f :: skipn (S n) fns).
    { clear - E. revert n E. induction fns as [|g fns IHf]; intros [|n] E; cbn in *; try discriminate; [now injection E as ->|]. now apply IHf. }
    split; [|split].
    + rewrite X. unfold s1. cbn [p_runs]. rewrite <- app_assoc, Sk. reflexivity.
    + exact Y.
    + intros j N. destruct (Z j N) as [Z1 Z2]. rewrite Z1, Z2. unfold s1. cbn [p_done p_step]. unfold set_fun.
      apply Nat.eqb_neq in N. now rewrite N.
Qed.

(** Missing: the flag is not protected.  Two threads that call the function at the same time can both run every function, ... *)
Theorem C30_threads_twice_refuted : forall fns, exists sched,
  p_runs (pair_run fns sched pair_start) = map (pair 0) fns ++ map (pair 1) fns.
Proof.
  intro fns. exists ([0; 1; 0; 1] ++ repeat 0 (S (length fns)) ++ repeat 1 (S (length fns))).
  assert (App : forall a b s, pair_run fns (a ++ b) s = pair_run fns b (pair_run fns a s))
    by (induction a as [|x a IH]; intros b s; cbn [app pair_run]; [reflexivity | apply IH]).
  rewrite !App. set (s0 := pair_run fns [0; 1; 0; 1] pair_start).
  destruct (pair_loop fns 0 (length fns) 0 s0) as (A & _ & C); [reflexivity | reflexivity | lia | lia|].
  set (s1 := pair_run fns (repeat 0 (S (length fns))) s0) in *. destruct (C 1) as [C1 C2]; [discriminate|].
  destruct (pair_loop fns 1 (length fns) 0 s1) as (A' & _ & _); [now rewrite C1 | now rewrite C2 | lia | lia|].
  rewrite A', A. reflexivity.
Qed.

(** ... and the call of one thread can return before any function has been run. *)
Theorem C30_threads_early_return_refuted : forall fns, exists sched,
  p_done (pair_run fns sched pair_start) 1 = true /\ p_runs (pair_run fns sched pair_start) = [].
Proof. intro fns. exists [0; 0; 1]. split; reflexivity. Qed.

(** One function calls qRegisterProtobufTypes, another registers a function; a library is loaded late. *)
Example C30_case :
  let body f := match f with 7 => [Reenter] | 8 => [Add 10] | _ => [] end in
  program body 20 (map Library [7; 8; 9] ++ CallTypes :: [CallTypes; Library 11; CallTypes]) no_types =
    Some (mkTypes true [7; 8; 9; 10; 11] [7; 8; 9; 10]) /\
  program (fun _ => [Reenter]) 20 (map Library [7; 8] ++ CallTypes :: [Library 11; CallTypes]) no_types =
    Some (mkTypes true [7; 8; 11] [7; 8]).
Proof. split; reflexivity. Qed.

(** ** C31 Serializers and plugins *)

(** The plugin has been loaded by one of the loads. *)
Definition loaded (plugin : nat) (l : list plugin_file) : Prop :=
  exists f, In f l /\ match f_meta f with Some m => m_name m = plugin | None => plugin = empty_name end.

Theorem C31_built_in : forall l id,
  getSerializer id (load_all l) =
  if (id =? protobuf_name) || (id =? json_name) then Ok (BuiltIn id) else Throw OutOfRange.
Proof.
  intros l id. unfold getSerializer, getSerializer_from. rewrite load_all_default. cbn.
  destruct (Nat.eqb_spec id protobuf_name) as [->|]; [reflexivity|].
  destruct (Nat.eqb_spec id json_name) as [->|]; reflexivity.
Qed.

Lemma load_all_app l l' : load_all (l ++ l') = fold_left (fun r f => snd (loadPlugin f r)) l' (load_all l).
Proof. apply fold_left_app. Qed.

Lemma load_all_none l : forall n, lookup n (load_all l) <> Some None.
Proof. apply load_some. intros n H. cbn in H. destruct (n =? default_name); discriminate. Qed.

Lemma loaded_known l plugin : loaded plugin l -> lookup plugin (load_all l) <> None.
Proof.
  intros (f & I & N). apply in_split in I as (l1 & l2 & ->). rewrite load_all_app. cbn [fold_left].
  assert (K : exists x, lookup plugin (snd (loadPlugin f (load_all l1))) = Some x).
  { unfold loadPlugin. set (name := match f_meta f with Some m => m_name m | None => empty_name end).
    assert (name = plugin) as -> by (unfold name; destruct (f_meta f); auto).
    destruct (lookup plugin (load_all l1)) as [y|] eqn:E; cbn; [eauto|]. rewrite Nat.eqb_refl. eauto. }
  destruct K as [x K]. rewrite (load_all_lookup _ _ _ _ K). discriminate.
Qed.

Lemma unknown_absent : forall l plugin, plugin <> default_name -> ~ loaded plugin l -> lookup plugin (load_all l) = None.
Proof.
  induction l as [|f l IH] using rev_ind; intros plugin N L.
  - cbn. apply Nat.eqb_neq in N. now rewrite N.
  - rewrite load_all_app. cbn [fold_left].
    assert (IHl : lookup plugin (load_all l) = None)
      by (apply IH; [exact N|]; intros (g & I & M); apply L; exists g; split; [apply in_app_iff; now left | exact M]).
    unfold loadPlugin. set (name := match f_meta f with Some m => m_name m | None => empty_name end).
    destruct (lookup name (load_all l)) eqn:E; cbn; [exact IHl|].
    destruct (Nat.eqb_spec plugin name) as [->|]; [|exact IHl]. exfalso. apply L. exists f.
    split; [apply in_app_iff; right; now left | unfold name; now destruct (f_meta f)].
Qed.

(** Loading further plugins never changes what a loaded plugin, or the built-in one, answers. *)
Theorem C31_stable : forall l l' plugin id, loaded plugin l \/ plugin = default_name ->
  getSerializer_from id plugin (load_all (l ++ l')) = getSerializer_from id plugin (load_all l) /\
  pluginVersion plugin (load_all (l ++ l')) = pluginVersion plugin (load_all l) /\
  pluginProtobufVersion plugin (load_all (l ++ l')) = pluginProtobufVersion plugin (load_all l) /\
  pluginRating plugin (load_all (l ++ l')) = pluginRating plugin (load_all l) /\
  pluginSerializers plugin (load_all (l ++ l')) = pluginSerializers plugin (load_all l).
Proof.
  intros l l' plugin id H.
  assert (K : lookup plugin (load_all (l ++ l')) = lookup plugin (load_all l)).
  { rewrite load_all_app. destruct (lookup plugin (load_all l)) as [x|] eqn:E; [now apply load_all_lookup|].
    exfalso. destruct H as [H| ->]; [now apply (loaded_known l plugin H)|]. now rewrite load_all_default in E. }
  unfold getSerializer_from, pluginVersion, pluginProtobufVersion, pluginRating, pluginSerializers, from_meta. rewrite K. auto.
Qed.

(** A plugin that is loaded for the first time answers with its serializers and meta data. *)
Theorem C31_loaded : forall l f m inst, f_meta f = Some m -> f_instance f = Some inst ->
  m_name m <> default_name -> ~ loaded (m_name m) l ->
  fst (loadPlugin f (load_all l)) = m_name m /\
  (forall id, getSerializer_from id (m_name m) (load_all (l ++ [f])) = if in_dec Nat.eq_dec id (m_types m) then Ok (inst id) else Throw OutOfRange) /\
  pluginVersion (m_name m) (load_all (l ++ [f])) = Ok (m_version m) /\
  pluginProtobufVersion (m_name m) (load_all (l ++ [f])) = Ok (m_protobuf m) /\
  pluginRating (m_name m) (load_all (l ++ [f])) = Ok (m_rating m) /\
  pluginSerializers (m_name m) (load_all (l ++ [f])) = Ok (filter (fun t => negb (t =? empty_name)) (m_types m)).
Proof.
  intros l f m inst M I N L. pose proof (unknown_absent l _ N L) as A.
  assert (K : lookup (m_name m) (load_all (l ++ [f])) = Some (Some (load_record f))).
  { rewrite load_all_app. cbn [fold_left]. unfold loadPlugin. rewrite M, A. cbn. now rewrite Nat.eqb_refl. }
  split; [unfold loadPlugin; rewrite M, A; reflexivity|].
  unfold getSerializer_from, pluginVersion, pluginProtobufVersion, pluginRating, pluginSerializers, from_meta. rewrite K.
  unfold load_record. rewrite M, I. cbn [r_serializers r_meta]. split; [|auto].
  intro id.
  assert (G : forall ts acc, lookup id (fold_left (fun l t => (t, inst t) :: l) ts acc) =
              if in_dec Nat.eq_dec id ts then Some (inst id) else lookup id acc).
  { clear. induction ts as [|t ts IH]; intro acc; cbn [fold_left]; [reflexivity|]. rewrite IH. cbn [lookup].
    destruct (in_dec Nat.eq_dec id ts) as [X|X], (in_dec Nat.eq_dec id (t :: ts)) as [Y|Y].
    - reflexivity.
    - exfalso. apply Y. now right.
    - destruct Y as [->|Y]; [now rewrite Nat.eqb_refl | contradiction].
    - destruct (Nat.eqb_spec id t) as [->|]; [|reflexivity]. exfalso. apply Y. now left. }
  rewrite G. cbn [lookup]. now destruct (in_dec Nat.eq_dec id (m_types m)).
Qed.

(** Data of an unknown plugin: the empty answers. *)
Theorem C31_unknown_data : forall l plugin, plugin <> default_name -> ~ loaded plugin l ->
  pluginVersion plugin (load_all l) = Ok 0%Z /\ pluginProtobufVersion plugin (load_all l) = Ok 0%Z /\
  pluginRating plugin (load_all l) = Ok 0%Z /\ pluginSerializers plugin (load_all l) = Ok [].
Proof.
  intros l plugin N L. unfold pluginVersion, pluginProtobufVersion, pluginRating, pluginSerializers, from_meta.
  rewrite (unknown_absent l plugin N L). auto.
Qed.

(** No lookup of data is undefined, in any history. *)
Theorem C31_data_defined : forall l plugin, exists v p r s,
  pluginVersion plugin (load_all l) = Ok v /\ pluginProtobufVersion plugin (load_all l) = Ok p /\
  pluginRating plugin (load_all l) = Ok r /\ pluginSerializers plugin (load_all l) = Ok s.
Proof.
  intros l plugin. unfold pluginVersion, pluginProtobufVersion, pluginRating, pluginSerializers, from_meta.
  pose proof (load_all_none l plugin). destruct (lookup plugin (load_all l)) as [[rec|]|]; [|congruence|eauto 10].
  destruct (r_meta rec); eauto 10.
Qed.

(** Missing: the serializer of an unknown plugin is not reported, whatever has been loaded. *)
Theorem C31_unknown_plugin_refuted : forall l plugin id, plugin <> default_name -> ~ loaded plugin l ->
  getSerializer_from id plugin (load_all l) = UB NullDeref.
Proof. intros l plugin id N L. unfold getSerializer_from. now rewrite (unknown_absent l plugin N L). Qed.

(** A file without meta data is registered as a plugin with the empty name and without serializers, so its lookups
    are reported. *)
Theorem C31_bad_file : forall l f id, f_meta f = None -> ~ loaded empty_name l ->
  fst (loadPlugin f (load_all l)) = empty_name /\ getSerializer_from id empty_name (load_all (l ++ [f])) = Throw OutOfRange.
Proof.
  intros l f id M L. assert (A : lookup empty_name (load_all l) = None) by (now apply unknown_absent).
  split; [unfold loadPlugin; rewrite M, A; reflexivity|].
  rewrite load_all_app. cbn [fold_left]. unfold loadPlugin, getSerializer_from. rewrite M, A. cbn [snd lookup]. rewrite Nat.eqb_refl. unfold load_record. rewrite M. reflexivity.
Qed.

Definition ex_plugin : plugin_file :=
  mkFile (Some (mkMeta 12 [20; 21; 0] 3%Z 5%Z 4%Z)) (Some (fun t => if t =? 21 then NullSerializer else FromPlugin t)).
Definition ex_same_name : plugin_file := mkFile (Some (mkMeta 12 [22] 9%Z 9%Z 9%Z)) (Some FromPlugin).
Definition ex_no_plugin : plugin_file := mkFile None None.

Example C31_case :
  loaded 12 [ex_no_plugin; ex_plugin] /\ ~ loaded 12 [ex_no_plugin] /\ ~ loaded 13 [ex_no_plugin; ex_plugin; ex_same_name] /\
  map (fun id => getSerializer_from id 12 (load_all [ex_no_plugin; ex_plugin; ex_same_name])) [20; 21; 22] =
    [Ok (FromPlugin 20); Ok NullSerializer; Throw OutOfRange] /\
  pluginSerializers 12 (load_all [ex_no_plugin; ex_plugin; ex_same_name]) = Ok [20; 21].
Proof.
  split; [exists ex_plugin; split; [right; now left | reflexivity]|].
  split; [intros (f & [<-|[]] & H); discriminate H|].
  split; [intros (f & [<-|[<-|[<-|[]]]] & H); discriminate H|]. split; reflexivity.
Qed.

Print Assumptions C29_exclusive.
Print Assumptions C29_atomic_registration.
Print Assumptions C29_atomic_lookup.
Print Assumptions C29_sees_completed.
Print Assumptions C29_no_deadlock.
Print Assumptions C29_terminates.
Print Assumptions C29_all_calls_return.
Print Assumptions C30_in_order_once_partial.
Print Assumptions C30_ends.
Print Assumptions C30_late_library_refuted.
Print Assumptions C30_threads_twice_refuted.
Print Assumptions C30_threads_early_return_refuted.
Print Assumptions C31_built_in.
Print Assumptions C31_stable.
Print Assumptions C31_loaded.
Print Assumptions C31_unknown_data.
Print Assumptions C31_data_defined.
Print Assumptions C31_unknown_plugin_refuted.
Print Assumptions C31_bad_file.

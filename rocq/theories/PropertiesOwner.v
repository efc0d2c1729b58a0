(** C48: the ownership of nested messages.  The words used here are in OwnerSpec.v. *)

From Coq Require Import List Bool Arith Lia.
From Verif Require Import Base OwnerModel OwnerSpec OwnerProofs.
Import ListNotations.

(** A history for the examples: a message with two message fields; the first one makes its own nested message,
    which makes another one; the second one is given a message, then one that belongs to the QML engine, then
    nothing, and then makes its own. *)
Definition ex_history : list op :=
  [New false 2; Access 0 0 1; Access 1 0 0; New false 1; Assign 0 1 (Some 3) 1; Access 3 0 0; New true 0;
   Assign 0 1 (Some 6) 1; Assign 0 1 None 1; Access 0 1 1].

Ltac legal_tac := apply legal_runb_ok; [apply initial_inv | apply initial_inv | vm_compute; reflexivity].

(** C48 (in part: [legal] excludes what the refuted theorems below show to go wrong). In a build with QML, after every
    history of allowed operations every object has been destroyed at most once, and those that have been destroyed
    exactly once; nothing undefined has happened. Missing: builds without QML, objects that are given to two fields or
    to a field inside of themselves, and those the engine collects while a field holds them. *)
Theorem C48_once_partial : forall xs, legal_run true initial xs ->
  exists w, run true initial xs = Ok w
    /\ forall p, p < w_next w -> destructions w p <= 1 /\ (destroyed w p <-> destructions w p = 1).
Proof.
  intros xs L. destruct initial_inv as (I0 & C0). destruct (run_ok xs initial I0 C0 L) as (w & R & I & C).
  exists w. split; [exact R |]. intros p Lp. unfold destructions, destroyed.
  pose proof (i_log _ _ I) as N. rewrite (NoDup_count_occ Nat.eq_dec) in N. split; [apply N |]. split.
  - intros (_ & D). pose proof (i_logged _ _ I p Lp D) as K. rewrite (count_occ_In Nat.eq_dec) in K. specialize (N p). lia.
  - intros K. split; [exact Lp |]. apply (i_dead _ _ I). rewrite (count_occ_In Nat.eq_dec). lia.
Qed.

Example C48_once_nonvacuous : legal_run true initial (ex_history ++ [Delete 0])
  /\ match run true initial (ex_history ++ [Delete 0]) with
     | Ok w => w_next w = 8 /\ map (destructions w) (seq 0 8) = [1; 1; 1; 1; 1; 1; 0; 1]
     | _ => False
     end.
Proof. split; [legal_tac | vm_compute; auto]. Qed.

(** C48 (in part): when all objects that were not made by a field are gone, all objects are gone, each destroyed
    exactly once: nothing is left over. Missing: as above. *)
Theorem C48_none_left_partial : forall xs w, legal_run true initial xs -> run true initial xs = Ok w ->
  (forall p, p < w_next w -> ~ made_by_field w p -> destroyed w p) ->
  forall p, p < w_next w -> destructions w p = 1.
Proof.
  intros xs w L R H p Lp. destruct (C48_once_partial xs L) as (w1 & R1 & A). replace w1 with w in * by congruence.
  apply (A p Lp). split; [exact Lp |]. destruct initial_inv as (I0 & C0).
  destruct (run_ok xs initial I0 C0 L) as (w2 & R2 & I2 & C2). replace w2 with w in * by congruence.
  apply (all_dead w I2 C2); [| exact Lp]. intros q Lq O. apply H; [exact Lq |]. unfold made_by_field. congruence.
Qed.

Example C48_none_left_nonvacuous : legal_run true initial (ex_history ++ [Delete 0; Delete 6])
  /\ match run true initial (ex_history ++ [Delete 0; Delete 6]) with
     | Ok w => w_next w = 8 /\ map (fun p => is_dead (state_of w p)) (seq 0 8) = repeat true 8
     | _ => False
     end.
Proof. split; [legal_tac | vm_compute; auto]. Qed.

(** C48 (in part): exactly one owner. What a field has made is held by exactly one field as long as it lives, and is
    destroyed by a field, never by anyone else. Missing: as above. *)
Theorem C48_one_owner_partial : forall xs w, legal_run true initial xs -> run true initial xs = Ok w ->
  forall p, p < w_next w -> made_by_field w p ->
    (alive w p -> exists o i, holds w o i p /\ alive w o /\ forall o' i', holds w o' i' p -> o' = o /\ i' = i)
    /\ (forall by_, In (p, by_) (w_log w) -> exists o i, by_ = ByField o i).
Proof.
  assert (G : forall xs w w', Inv w None -> calm w -> legal_run true w xs -> run true w xs = Ok w' ->
    (forall p by_, In (p, by_) (w_log w) -> made_by_field w p -> by_field (p, by_)) ->
    forall p by_, In (p, by_) (w_log w') -> made_by_field w' p -> by_field (p, by_)).
  { induction xs as [| x xs IH]; intros w w' I C L R A; cbn [run legal_run] in *; [injection R as <-; exact A |].
    destruct L as (L & Lr). destruct (step_ok w x I C L) as (w1 & E & I1 & C1). rewrite E in R. cbn [bind] in R.
    apply (IH w1 w' I1 C1 (Lr w1 E) R). intros p by_ K M.
    destruct (step_keeps w x w1 I C L E) as (N & O). destruct (step_log true w x w1 L E) as (l & Ll & F).
    rewrite Ll in K. apply in_app_iff in K. destruct K as [K | K].
    - destruct (F p by_ K) as [Q | (-> & _)]; [exact Q |]. destruct L as ((Lp & _) & Nm).
      unfold made_by_field in *. rewrite O in M by exact Lp. contradiction.
    - apply A; [exact K |]. unfold made_by_field in *. rewrite O in M; [exact M |].
      apply (i_dead _ _ I). apply in_map_iff. exists (p, by_). auto. }
  intros xs w L R p Lp M. destruct initial_inv as (I0 & C0). split.
  - intros (_ & A). destruct (run_ok xs initial I0 C0 L) as (w1 & R1 & I & C). replace w1 with w in * by congruence.
    destruct (i_held _ _ I p M A) as [(o & i & H) | H]; [| discriminate]. exists o, i. split; [exact H |].
    destruct (i_ptr _ _ I o i p H) as (_ & So & _). split.
    + split; [apply (i_next _ _ I); exact So |]. unfold state_of in So. specialize (C o). unfold state_of in C.
      destruct (o_state (w_obj w o)); congruence.
    + apply (i_own _ _ I o i p H M).
  - intros by_ K. destruct (G xs initial w I0 C0 L R) with (p := p) (by_ := by_) as (o & i & E); auto.
    + intros q b [].
    + exists o, i. exact E.
Qed.

Example C48_one_owner_nonvacuous : legal_run true initial ex_history
  /\ match run true initial ex_history with
     | Ok w => (holds w 1 0 2 /\ made_by_field w 2 /\ alive w 2) /\ made_by_field w 5 /\ In (5, ByField 3 0) (w_log w)
     | _ => False
     end.
Proof.
  split; [legal_tac |]. vm_compute. repeat split; auto; lia.
Qed.

(** C48: setting a message field to another message. The object it held is destroyed, once, by the field; or, if it
    belongs to the QML engine, it is left alone. Only objects nested in it go with it, and none of those the engine
    owns. Missing: operations that are not [legal], as above. *)
Theorem C48_replaced_partial : forall xs w o i q p fields, legal_run true initial xs -> run true initial xs = Ok w ->
  legal w (Assign o i p fields) -> holds w o i q -> p <> Some q ->
  exists w', step true w (Assign o i p fields) = Ok w'
    /\ (~ js_owned w q -> destroyed w' q /\ destructions w q = 0 /\ destructions w' q = 1 /\ In (q, ByField o i) (w_log w'))
    /\ (js_owned w q -> alive w' q /\ w_log w' = w_log w)
    /\ (forall a, alive w a -> a <> q -> ~ nested w q a \/ js_owned w a -> alive w' a)
    /\ (match p with
        | Some r => holds w' o i r \/ (nested w q r /\ destroyed w' r /\ forall a, ~ holds w' o i a)
        | None => forall a, ~ holds w' o i a
        end).
Proof.
  intros xs w o i q p fields L R Lg H Np. destruct initial_inv as (I0 & C0).
  destruct (run_ok xs initial I0 C0 L) as (w1 & R1 & I & C). replace w1 with w in * by congruence.
  destruct (step_ok w _ I C Lg) as (w' & E & I' & C'). exists w'. split; [exact E |].
  cbn [step legal] in *. destruct Lg as ((Lo & Ao) & Li & P). change (o_state (w_obj w o)) with (state_of w o) in Ao.
  rewrite Ao in E. cbn [is_alive] in E. unfold assign, access in E. rewrite (H : c_ptr _ = _) in E.
  rewrite (H : c_ptr _ = _) in E.
  assert (Er : reset true w o i p = Ok w').
  { destruct p as [r |]; [| exact E]. destruct (Nat.eqb_spec q r); [congruence | exact E]. }
  destruct (reset_ok w o i q p I C H Ao Np) as (w2 & E2 & _ & _ & N & K & J & D).
  { intros r ->. destruct P as [P | ((_ & Ar) & M & No & Nn)]; [unfold holds in *; congruence |].
    split; [exact Ar |]. split; [apply not_true_is_false; exact M | auto]. }
  replace w2 with w' in * by congruence. clear w2 E2.
  pose proof (i_ptr _ _ I o i q H) as (Sq & _ & _).
  assert (Aq : state_of w q = Alive) by (specialize (C q); destruct (state_of w q); congruence).
  assert (Lq : q < w_next w) by (apply (i_next _ _ I); exact Sq).
  unfold js_owned, destroyed, alive. rewrite N. split; [| split; [| split]].
  - intros J'. apply not_true_is_false in J'. destruct (D J') as (Dq & (l & Ll) & _ & _).
    split; [split; [exact Lq | exact Dq] |]. split; [| split].
    + unfold destructions. apply count_occ_not_In. intros G. apply (i_dead _ _ I) in G. destruct G as (_ & G). congruence.
    + unfold destructions. pose proof (i_log _ _ I') as Nd. rewrite (NoDup_count_occ Nat.eq_dec) in Nd. specialize (Nd q).
      rewrite Ll in *. cbn [map fst count_occ] in *. destruct (Nat.eq_dec q q); [lia | congruence].
    + rewrite Ll. left. reflexivity.
  - intros J'. destruct (J J') as (_ & Lg & S). split; [split; [exact Lq |] | exact Lg].
    specialize (S q). unfold state_of in S. rewrite S. exact Aq.
  - intros a (La & Aa) Na X. split; [exact La |]. change (state_of w' a = Alive). change (state_of w a = Alive) in Aa.
    destruct (o_js (w_obj w q)) eqn:Jq.
    + destruct (J eq_refl) as (_ & _ & S). rewrite S. exact Aa.
    + destruct (D eq_refl) as (_ & _ & S & _). destruct (S a Na) as [S' | (_ & _ & Y & Z)]; [congruence |].
      destruct X as [X | X]; [contradiction | congruence].
  - assert (X : w_cell w' o i = mkCell p p \/ (exists r, p = Some r /\ nested w q r /\ state_of w' r = Dead /\ w_cell w' o i = empty)).
    { destruct (o_js (w_obj w q)) eqn:Jq; [left; apply J; reflexivity | apply D; reflexivity]. }
    unfold holds. destruct X as [X | (r & -> & Nr & Dr & X)]; rewrite X.
    + destruct p; [left; reflexivity | discriminate].
    + right. split; [exact Nr |]. split; [split; [| exact Dr] | discriminate].
      destruct P as [P | ((Lr & _) & _)]; [unfold holds in *; congruence | exact Lr].
Qed.

Example C48_replaced_nonvacuous :
  let xs := [New false 1; New false 1; Assign 0 0 (Some 1) 1; Access 1 0 0; New true 1] in
  legal_run true initial (xs ++ [Assign 0 0 (Some 4) 1])
  /\ match run true initial xs with Ok w => holds w 0 0 1 /\ ~ js_owned w 1 /\ nested w 1 3 | _ => False end
  /\ legal_run true initial (xs ++ [Assign 0 0 (Some 4) 1; Assign 0 0 None 1])
  /\ match run true initial (xs ++ [Assign 0 0 (Some 4) 1]) with Ok w => holds w 0 0 4 /\ js_owned w 4 | _ => False end.
Proof.
  cbv zeta. split; [legal_tac |]. split.
  - destruct (run true initial _) as [w | | |] eqn:E; [| vm_compute in E; discriminate ..].
    cut (c_ptr (w_cell w 0 0) = Some 1 /\ o_js (w_obj w 1) = false /\ c_ptr (w_cell w 1 0) = Some 3).
    + intros (A & B & D). split; [exact A |]. split; [unfold js_owned; congruence | apply nested_one with 0; exact D].
    + assert (G : match run true initial [New false 1; New false 1; Assign 0 0 (Some 1) 1; Access 1 0 0; New true 1] with
        | Ok w => c_ptr (w_cell w 0 0) = Some 1 /\ o_js (w_obj w 1) = false /\ c_ptr (w_cell w 1 0) = Some 3
        | _ => True end) by (vm_compute; auto).
      rewrite E in G. exact G.
  - split; [legal_tac | vm_compute; auto].
Qed.

(** C48: the end of a message object. What its fields hold goes with it, destroyed once, unless the QML engine owns
    it; nothing else is touched but what is nested in it. Missing: operations that are not [legal], as above. *)
Theorem C48_deleted_partial : forall xs w o, legal_run true initial xs -> run true initial xs = Ok w ->
  legal w (Delete o) ->
  exists w', step true w (Delete o) = Ok w'
    /\ destroyed w' o
    /\ (forall i p, holds w o i p -> ~ js_owned w p -> destroyed w' p /\ destructions w p = 0 /\ destructions w' p = 1)
    /\ (forall a, alive w a -> a <> o -> ~ nested w o a \/ js_owned w a -> alive w' a)
    /\ (forall a i p, holds w' a i p -> alive w' a /\ alive w' p).
Proof.
  intros xs w o L R Lg. destruct initial_inv as (I0 & C0).
  destruct (run_ok xs initial I0 C0 L) as (w1 & R1 & I & C). replace w1 with w in * by congruence.
  destruct (step_ok w _ I C Lg) as (w' & E & I' & C'). exists w'. split; [exact E |].
  cbn [step legal] in *. destruct Lg as ((Lo & Ao) & M). change (o_state (w_obj w o)) with (state_of w o) in Ao.
  destruct (destroy_ok (S (w_next w)) ByOther w o) as (w2 & E2 & (_ & D & N & K & S & _ & F) & _).
  { split; [apply inv_weaken; exact I |]. split; [exact Ao |]. split; [intros d Dd; exfalso; exact (C d Dd) |].
    intros a i H. apply (i_given _ _ I); [exact H |]. apply not_true_is_false. exact M. }
  { apply Nat.lt_succ_r. apply count_le. }
  replace w2 with w' in * by congruence. clear w2 E2.
  unfold js_owned, destroyed, alive. rewrite N. split; [auto |]. split; [| split].
  - intros i p H J. apply not_true_is_false in J. pose proof (F i p H J) as Dp.
    destruct (i_ptr _ _ I o i p H) as (Sp & _). pose proof (i_next _ _ I p Sp) as Lp.
    split; [auto |]. unfold destructions. split.
    + apply count_occ_not_In. intros G. apply (i_dead _ _ I) in G. destruct G as (_ & G). congruence.
    + pose proof (i_log _ _ I') as Nd. rewrite (NoDup_count_occ Nat.eq_dec) in Nd. specialize (Nd p).
      assert (X : In p (map fst (w_log w'))) by (apply (i_logged _ _ I'); [rewrite N |]; assumption).
      apply (count_occ_In Nat.eq_dec) in X. lia.
  - intros a (La & Aa) Na X. split; [exact La |]. change (state_of w' a = Alive). change (state_of w a = Alive) in Aa.
    destruct (S a Na) as [S' | (_ & _ & Y & Z)]; [congruence |]. destruct X as [X | X]; [contradiction | congruence].
  - intros a i p H. destruct (i_ptr _ _ I' a i p H) as (Sp & Sa & _).
    pose proof (i_next _ _ I' a Sa). pose proof (i_next _ _ I' p Sp). rewrite N in *.
    pose proof (C' a) as Ca. pose proof (C' p) as Cp. unfold state_of in *.
    split; (split; [assumption |]).
    + destruct (o_state (w_obj w' a)); congruence.
    + destruct (o_state (w_obj w' p)); congruence.
Qed.

Example C48_deleted_nonvacuous : legal_run true initial (ex_history ++ [Delete 0])
  /\ match run true initial ex_history with
     | Ok w => holds w 0 0 1 /\ holds w 0 1 7 /\ holds w 1 0 2 | _ => False end.
Proof. split; [legal_tac | vm_compute; auto]. Qed.

(** C48 fails in builds without QML: the fields never destroy anything, an object made by a field outlives all
    others.  This is so for every history of allowed operations. *)
Theorem C48_no_qml_refuted : forall xs w, legal_run false initial xs -> run false initial xs = Ok w ->
  forall p, p < w_next w -> made_by_field w p -> alive w p /\ destructions w p = 0.
Proof.
  intros xs w L R.
  assert (G : forall xs w w', legal_run false w xs -> run false w xs = Ok w' ->
    (forall p, In p (map fst (w_log w)) -> p < w_next w /\ state_of w p <> Alive) ->
    forall p, In p (map fst (w_log w')) -> p < w_next w' /\ state_of w' p <> Alive).
  { clear. induction xs as [| x xs IH]; intros w w' L R A; cbn [run legal_run] in *; [injection R as <-; exact A |].
    destruct L as (L & Lr). destruct (step false w x) as [w1 | | |] eqn:E; try discriminate. cbn [bind] in R.
    apply (IH w1 w' (Lr w1 eq_refl) R). destruct (step_no_qml w x w1 L E) as (N & O & F & _).
    assert (X : forall p, p < w_next w -> x <> Delete p -> state_of w1 p = state_of w p) by (intros p Lp; apply (O p Lp)).
    intros p K. destruct (step_log false w x w1 L E) as (l & Ll & Fl).
    assert (Dl : forall q, x = Delete q -> state_of w1 q <> Alive).
    { intros q ->. cbn [step] in E. unfold destroy in E. fold destroy in E.
      destruct (negb (is_alive (state_of w q))); [discriminate |].
      destruct (cells_no_qml (destroy (w_next w) false) (o_fields (w_obj w q)) (set_state w q Dying) q) as (w2 & E2 & _).
      rewrite E2 in E. cbn [bind] in E. injection E as <-. unfold state_of. cbn. rewrite Nat.eqb_refl. cbn. discriminate. }
    assert (D : {q | x = Delete q} + {forall q, x <> Delete q}) by (destruct x; try (right; congruence); left; eauto).
    destruct D as [(q & Eq) | Nq].
    - pose proof (Dl q Eq) as Dq. subst x. cbn [step] in E. destruct (destroy_no_qml _ _ _ _ _ E) as (A1 & A2 & _).
      rewrite A1 in K. cbn [map fst] in K. rewrite A2. destruct K as [<- | K].
      + split; [exact (proj1 (proj1 L)) | exact Dq].
      + destruct (A p K) as (Lp & Sp). split; [exact Lp |]. destruct (Nat.eq_dec p q) as [-> | Nn]; [exact Dq |].
        rewrite X by (exact Lp || congruence). exact Sp.
    - assert (Y : In p (map fst (w_log w))).
      { apply in_map_iff in K. destruct K as ((p' & b) & Ep & K). cbn in Ep. subst p'.
        destruct (step_no_qml w x w1 L E) as (_ & _ & _ & H). destruct (H p b K) as [Q | ->].
        - apply in_map_iff. exists (p, b). auto.
        - rewrite Ll in K. apply in_app_iff in K. destruct K as [K | K].
          + destruct (Fl _ _ K) as [(o & i & Q) | (Q & _)]; [discriminate | exfalso; exact (Nq p Q)].
          + apply in_map_iff. exists (p, ByOther). auto. }
      destruct (A p Y) as (Lp & Sp). split; [lia |]. rewrite X by (exact Lp || apply Nq). exact Sp. }
  destruct (run_no_qml xs initial w L R) as (A & _).
  - intros p Lp. cbn in Lp. lia.
  - intros p b [].
  - intros p Lp M. pose proof (A p Lp M) as S. split; [split; [exact Lp | exact S] |].
    unfold destructions. apply count_occ_not_In. intros K.
    destruct (G xs initial w L R) with (p := p) as (_ & Q); [intros q [] | exact K | contradiction].
Qed.

Example C48_no_qml_witness : legal_run false initial [New false 1; Access 0 0 0; Delete 0]
  /\ match run false initial [New false 1; Access 0 0 0; Delete 0] with
     | Ok w => destroyed w 0 /\ alive w 1 /\ made_by_field w 1
     | _ => False
     end.
Proof.
  split; [| vm_compute; repeat split; lia].
  split; [exact I |]. intros w1 E1. injection E1 as <-. split; [vm_compute; repeat split; lia |].
  intros w2 E2. cbn in E2. injection E2 as <-. split; [| intros; exact I]. vm_compute. split; [split; [lia | reflexivity] | discriminate].
Qed.

(** C48 fails when an object that a field made for itself is set into another field, as the QML code
    [a.inner = b.inner] does: the field that made it does not learn that the other one has destroyed it. *)
Theorem C48_shared_refuted :
  run true initial [New false 1; New false 1; Access 1 0 0; Assign 0 0 (Some 2) 0; Delete 0; Delete 1] = UB DanglingRef.
Proof. vm_compute. reflexivity. Qed.

(** C48 fails when two messages are nested in each other: the destructor of the first is entered again. *)
Theorem C48_cycle_refuted :
  run true initial [New false 1; New false 1; Assign 0 0 (Some 1) 1; Assign 1 0 (Some 0) 1; Delete 0] = UB DanglingRef.
Proof. vm_compute. reflexivity. Qed.

(** C48 fails when the QML engine becomes the owner of an object that a field has made, and collects it: the
    field keeps its pointer. *)
Theorem C48_collected_refuted :
  run true initial [New false 1; Access 0 0 0; SetOwnership 1 true; Delete 1; Delete 0] = UB DanglingRef.
Proof. vm_compute. reflexivity. Qed.

Print Assumptions C48_once_partial.
Print Assumptions C48_none_left_partial.
Print Assumptions C48_one_owner_partial.
Print Assumptions C48_replaced_partial.
Print Assumptions C48_deleted_partial.
Print Assumptions C48_no_qml_refuted.
Print Assumptions C48_shared_refuted.
Print Assumptions C48_cycle_refuted.
Print Assumptions C48_collected_refuted.

(** C49: the QML list property of a repeated message field.  What is expected of it is in ListSpec.v. *)

From Coq Require Import List Bool Arith ZArith Lia.
From Verif Require Import Base ListModel ListSpec ListProofs.
Import ListNotations.
Local Open Scope nat_scope.

(** A history for the examples: three objects are appended, one of them null; the list is copied, cleared, set
    back and changed again; the engine collects what it owns. *)
Definition ex_ops : list lop :=
  [LNew true; LNew true; LAppend (Some 0); LAppend None; LAdd; LCount; LAt 0; LAt 1; LAt 2; LCollect 0; LCopy; LClear;
   LCount; LSet 0; LCount; LCollect 1; LDrop 0; LAt 2; LClear].

Definition listed_dec := in_dec eqb_dec.

(** C49 (in part: [allowed] excludes what the refuted theorems below show to go wrong). For every history the QML list
    property answers as a plain list to which the same operations are applied, the field holds the objects of that
    list, and the objects live as long as they should: those that have been put into a list as long as a list has
    them, each being destroyed once. Missing: indices out of range, objects that are put into a list twice or deleted
    by someone else. *)
Theorem C49_plain_list_partial : forall xs, allowed_run p_initial xs ->
  exists w, lrun l_initial xs = Ok (w, snd (plain_run p_initial xs))
    /\ map (option_map (b_obj w)) (l_field w) = p_field (fst (plain_run p_initial xs))
    /\ forall p, p < l_made w ->
         (lives (fst (plain_run p_initial xs)) p -> ~ In p (l_log w))
         /\ (~ lives (fst (plain_run p_initial xs)) p -> count_occ Nat.eq_dec (l_log w) p = 1).
Proof.
  intros xs A. destruct (lrun_sim xs l_initial p_initial sim_initial A) as (w & E & S). exists w.
  split; [exact E |]. split; [exact (s_field _ _ S) |]. intros p L. rewrite <- (s_dead _ _ S p). split.
  - intros D K. apply (s_logged _ _ S) in K. destruct K as (_ & K). congruence.
  - intros D. apply not_false_is_true in D. pose proof (s_log _ _ S) as N. rewrite (NoDup_count_occ Nat.eq_dec) in N.
    specialize (N p). assert (K : In p (l_log w)) by (apply (s_logged _ _ S); auto).
    apply (count_occ_In Nat.eq_dec) in K. lia.
Qed.

Example C49_plain_list_nonvacuous : allowed_run p_initial ex_ops
  /\ snd (plain_run p_initial ex_ops) =
       [Nothing; Nothing; Nothing; Nothing; Nothing; Number 3; Object (Some 0); Object None; Object (Some 2);
        Nothing; Nothing; Nothing; Number 0; Nothing; Number 3; Nothing; Nothing; Object (Some 2); Nothing]
  /\ match lrun l_initial ex_ops with Ok (w, _) => l_log w = [0; 2; 1] | _ => False end.
Proof.
  split; [| split; vm_compute; reflexivity]. cbn. unfold lives, in_list. cbn.
  repeat split; try lia; intros []; try contradiction.
Qed.

(** C49 fails for an index that is out of range, whatever the state: nothing checks it. *)
Theorem C49_out_of_range_refuted : forall w i, (i < 0 \/ Z.of_nat (length (l_field w)) <= i)%Z ->
  lstep w (LAt i) = UB BadIndex.
Proof.
  intros w i H. cbn [lstep]. unfold qmllistpropertyAt. destruct (Z.ltb_spec i 0); [reflexivity |].
  rewrite (proj2 (nth_error_None _ _)) by lia. reflexivity.
Qed.

Example C49_out_of_range_witness : lrun l_initial [LAdd; LAt 1] = UB BadIndex.
Proof. reflexivity. Qed.

Lemma drop_all_app : forall l m w, drop_all w (l ++ m) = (w1 <- drop_all w m ;; drop_all w1 l).
Proof.
  induction l as [| e l IH]; intros m w; cbn [app drop_all].
  - destruct (drop_all w m); reflexivity.
  - rewrite IH. destruct (drop_all w m); reflexivity.
Qed.

(** Objects of the field that are destroyed already make clearing it undefined. *)
Lemma clear_dead : forall w b, In (Some b) (l_field w) -> b_strong w b = times b (l_field w) ->
  l_dead w (b_obj w b) = true -> lstep w LClear = UB DanglingRef.
Proof.
  intros w b I C D. cbn [lstep]. unfold qmllistpropertyReset.
  destruct (drop_all_total (l_field w) (set_field w [])) as [(w' & E) | ->]; [| reflexivity].
  destruct (drop_all_dead _ _ _ E) as (_ & _ & _ & A). specialize (A b I C). cbn in A. congruence.
Qed.

Lemma only_field : forall w s b, Sim w s -> p_vars s = [] -> b < l_blocks w -> b_strong w b = times b (l_field w).
Proof.
  intros w s b S V L. rewrite (s_strong _ _ S) by exact L. unfold all_lists.
  pose proof (s_vars _ _ S) as Vs. rewrite V in Vs. apply map_eq_nil in Vs. rewrite Vs. cbn [concat]. rewrite app_nil_r. reflexivity.
Qed.

(** C49 fails when an object is appended that the list has already: clearing the list destroys it twice.  This is
    so after every history, as long as no other list has the object. *)
Theorem C49_twice_refuted : forall xs p, allowed_run p_initial xs ->
  In (Some p) (p_field (fst (plain_run p_initial xs))) -> p_vars (fst (plain_run p_initial xs)) = [] ->
  lrun l_initial (xs ++ [LAppend (Some p); LClear]) = UB DanglingRef.
Proof.
  assert (Lapp : forall xs ys w, lrun w (xs ++ ys) = (r <- lrun w xs ;; s <- lrun (fst r) ys ;; Ok (fst s, snd r ++ snd s))).
  { induction xs as [| x xs IH]; intros ys w; cbn [app lrun bind fst snd].
    - destruct (lrun w ys) as [(a, b) | | |]; reflexivity.
    - destruct (lstep w x) as [(w1, a) | | |]; cbn [bind fst snd]; try reflexivity. rewrite IH.
      destruct (lrun w1 xs) as [(w2, l) | | |]; cbn [bind fst snd]; try reflexivity.
      destruct (lrun w2 ys) as [(w3, m) | | |]; reflexivity. }
  intros xs p A I V. destruct (lrun_sim xs l_initial p_initial sim_initial A) as (w & E & S).
  rewrite Lapp, E. cbn [bind fst snd lrun]. set (s := fst (plain_run p_initial xs)) in *.
  assert (X : exists b, In (Some b) (l_field w) /\ b_obj w b = p).
  { rewrite <- (s_field _ _ S) in I. apply in_map_iff in I. destruct I as ([b |] & Eb & I); [| discriminate].
    injection Eb as Eb. exists b. auto. }
  destruct X as (b & Ib & Eb). assert (Lb : b < l_blocks w) by (apply (s_blocks _ _ S), all_field, Ib).
  pose proof (only_field w s b S V Lb) as Cb.
  assert (D : l_dead w p = false).
  { rewrite <- Eb. apply (strong_alive w s b S Lb). rewrite Cb. apply times_in. exact Ib. }
  assert (N : l_blocks w <> b) by lia.
  cbn [lstep qmllistpropertyAppend]. rewrite D. cbn [bind fst snd].
  unfold qmllistpropertyReset. cbn [set_field l_field new_block l_blocks b_obj b_strong].
  rewrite drop_all_app. cbn [drop_all bind drop set_field b_strong new_block b_obj]. rewrite !upd_same. unfold delete at 1.
  cbn [set_strong new_block set_field l_dead]. rewrite D. cbn [bind].
  match goal with |- context [drop_all ?w0 _] => set (w1 := w0) end.
  destruct (drop_all_total (l_field w) w1) as [(w' & E') | ->]; [| reflexivity]. exfalso.
  destruct (drop_all_dead _ _ _ E') as (_ & _ & _ & F). specialize (F b Ib). unfold w1 in F. cbn in F.
  rewrite (upd_other _ (b_obj w) (l_blocks w) p b) in F by congruence. rewrite !upd_other in F by congruence.
  specialize (F Cb). rewrite Eb, upd_same in F. discriminate.
Qed.

Example C49_twice_witness : allowed_run p_initial [LNew false; LAppend (Some 0)]
  /\ In (Some 0) (p_field (fst (plain_run p_initial [LNew false; LAppend (Some 0)])))
  /\ lrun l_initial [LNew false; LAppend (Some 0); LAppend (Some 0); LClear] = UB DanglingRef.
Proof.
  split; [| split; [cbn; auto | reflexivity]]. cbn. unfold lives, in_list. cbn. repeat split; auto; try lia; intros [].
Qed.

(** C49 fails when C++ code or a QObject parent deletes an object of the list. *)
Theorem C49_deleted_refuted : forall xs p, allowed_run p_initial xs ->
  In (Some p) (p_field (fst (plain_run p_initial xs))) -> p_vars (fst (plain_run p_initial xs)) = [] ->
  exists w, lrun l_initial (xs ++ [LDelete p]) = Ok (w, snd (plain_run p_initial xs) ++ [Nothing])
    /\ In (Some p) (map (option_map (b_obj w)) (l_field w)) /\ lstep w LClear = UB DanglingRef.
Proof.
  intros xs p A I V. destruct (lrun_sim xs l_initial p_initial sim_initial A) as (w & E & S).
  assert (Lapp : forall xs x w w1 l w2 a, lrun w xs = Ok (w1, l) -> lstep w1 x = Ok (w2, a) ->
    lrun w (xs ++ [x]) = Ok (w2, l ++ [a])).
  { clear. induction xs as [| y xs IH]; intros x w w1 l w2 a H K; cbn [app lrun bind fst snd] in *.
    - injection H as <- <-. rewrite K. reflexivity.
    - destruct (lstep w y) as [(v, c) | | |]; cbn [bind fst snd] in *; try discriminate.
      destruct (lrun v xs) as [(v1, m) | | |] eqn:Q; cbn [bind fst snd] in *; try discriminate.
      injection H as <- <-. rewrite (IH x v v1 m w2 a Q K). reflexivity. }
  set (s := fst (plain_run p_initial xs)) in *.
  assert (X : exists b, In (Some b) (l_field w) /\ b_obj w b = p).
  { rewrite <- (s_field _ _ S) in I. apply in_map_iff in I. destruct I as ([b |] & Eb & I); [| discriminate].
    injection Eb as Eb. exists b. auto. }
  destruct X as (b & Ib & Eb). assert (Lb : b < l_blocks w) by (apply (s_blocks _ _ S), all_field, Ib).
  pose proof (only_field w s b S V Lb) as Cb.
  assert (D : l_dead w p = false).
  { rewrite <- Eb. apply (strong_alive w s b S Lb). rewrite Cb. apply times_in. exact Ib. }
  assert (K : exists w', lstep w (LDelete p) = Ok (w', Nothing) /\ l_field w' = l_field w /\ b_strong w' = b_strong w
    /\ b_obj w' = b_obj w /\ l_dead w' p = true).
  { cbn [lstep]. unfold delete. rewrite D. cbn [bind]. eexists. split; [reflexivity |]. cbn.
    rewrite upd_same. auto. }
  destruct K as (w' & K & F & St & O & Dd). exists w'. split; [exact (Lapp _ _ _ _ _ _ _ E K) |]. split.
  - rewrite F, O. apply in_map_iff. exists (Some b). split; [cbn; congruence | exact Ib].
  - apply (clear_dead w' b); [rewrite F; exact Ib | rewrite St, F; exact Cb | rewrite O, Eb; exact Dd].
Qed.

Example C49_deleted_witness : allowed_run p_initial [LAdd; LAdd]
  /\ In (Some 1) (p_field (fst (plain_run p_initial [LAdd; LAdd])))
  /\ p_vars (fst (plain_run p_initial [LAdd; LAdd])) = [].
Proof. cbn. auto. Qed.

Print Assumptions C49_plain_list_partial.
Print Assumptions C49_out_of_range_refuted.
Print Assumptions C49_twice_refuted.
Print Assumptions C49_deleted_refuted.

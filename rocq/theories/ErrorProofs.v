(** Proofs about the error signals of clients. *)

From Coq Require Import ZArith List Bool Lia Permutation.
From Verif Require Import Base Values FrameModel CallModel ReplyModel ReplySpec ReplyProofs ErrorSpec.
Import ListNotations.
Open Scope Z_scope.

Definition error_of (s : signal) : list Z := match s with Error c => [c] | Finished _ => [] end.

Section Errors.
  Variable decode : list Z -> list value * res unit.

  (** * A call of a client that exists *)
  Definition sound (c : call_state) : Prop :=
    (c_client c = true /\ c_signals c = [] /\ c_connected c = true /\ c_abort c = true)
    \/ (c_client c = false /\ c_signals c <> [] /\ c_connected c = false).

  (** What an event changes: nothing the client sees; it ends the call; or the user aborts it after its end. *)
  Inductive changes (c c' : call_state) : Prop :=
  | ch_none : c_signals c' = c_signals c -> c_errors c' = c_errors c -> changes c c'
  | ch_end s : c_signals c = [] -> c_signals c' = [s] -> c_errors c' = c_errors c ++ error_of s -> changes c c'
  | ch_late : c_signals c <> [] -> c_signals c' = c_signals c ++ [Error 10] -> c_errors c' = c_errors c -> changes c c'.

  Lemma done_changes err st bd c c' : sound c -> network_done err st bd c = Ok c' -> sound c' /\ changes c c'.
  Proof.
    unfold network_done. intros S H. destruct (c_running c); cbn [negb] in H; [|injection H as <-; split; [exact S | now apply ch_none]].
    destruct S as [(A & B & C & D) | (A & B & C)]; rewrite C in H; cbn [negb] in H.
    - destruct (processReply err st bd) as [[code data]| | |]; cbn [bind] in H; try discriminate. injection H as <-.
      destruct (code =? 0).
      + split; [right; cbn; rewrite B; repeat split; discriminate|]. apply (ch_end _ _ (Finished data)); cbn; rewrite ?B; auto. now rewrite app_nil_r.
      + split; [right; cbn; rewrite B; repeat split; discriminate|]. apply (ch_end _ _ (Error code)); cbn; now rewrite ?A, ?B.
    - injection H as <-. split; [right; cbn; auto | now apply ch_none].
  Qed.
  Lemma abort_changes c : sound c -> sound (abort_call c) /\ changes c (abort_call c).
  Proof.
    unfold abort_call, emit_error. intros [(A & B & C & D) | (A & B & C)]; cbn; rewrite A.
    - rewrite B, D. cbn. split; [right; cbn; repeat split; discriminate|]. apply (ch_end _ _ (Error 10)); cbn; auto.
    - split; [right; cbn; rewrite C; split; [reflexivity|]; split; [now destruct (c_signals c) | now destruct (_ && _)]|]. apply ch_late; cbn; auto.
  Qed.
  Lemma event_changes e c c' : sound c -> http2_event c e = Ok c' -> sound c' /\ changes c c'.
  Proof.
    intros S H. destruct e; cbn in H; try (now apply (done_changes _ _ _ c c' S H)). injection H as <-. now apply abort_changes.
  Qed.

  (** * Errors of the slots *)
  Definition object_errors (d : list Z) (l : list told) : list Z :=
    flat_map (fun t => match t with GotObject _ | Stored _ _ => failure_code (snd (decode d)) | _ => [] end) l.
  Definition slot_errors (gone : list nat) (r : reply) (s : signal) : list Z :=
    match s with Finished d => object_errors d (slot_tells decode gone r s) | Error _ => [] end.

  Lemma read_object_errors d obj errs : read_object decode d = Ok (obj, errs) -> errs = failure_code (snd (decode d)).
  Proof.
    unfold read_object. destruct (decode d) as [o [u|x|u|]]; cbn; try discriminate; [intro H; now injection H|].
    destruct x; cbn; intro H; now injection H.
  Qed.

  Lemma user_slot_errors i r s w w' : user_slot decode i r s w = Ok w' -> w_errors w' = w_errors w ++ slot_errors (w_gone w) r s.
  Proof.
    assert (Hand : forall w, w_errors (hand i w) = w_errors w) by (intro w0; unfold hand; now destruct (nth_error (w_replies w0) i)).
    unfold user_slot, slot_errors, slot_tells, object_errors. intro H. destruct (r_slots r); [|injection H as <-; destruct s; cbn; now rewrite app_nil_r].
    destruct (r_style r) as [|x|e|t e], s as [d|c]; try (injection H as <-; cbn; now rewrite ?Hand, app_nil_r).
    - destruct (read_object decode d) as [[obj errs]| | |] eqn:E; cbn [bind] in H; try discriminate. injection H as <-.
      apply read_object_errors in E as ->. cbn. now rewrite app_nil_r.
    - destruct (has t (w_gone w)); [injection H as <-; cbn; now rewrite app_nil_r|].
      destruct (read_object decode d) as [[obj errs]| | |] eqn:E; cbn [bind] in H; try discriminate. injection H as <-.
      apply read_object_errors in E as ->. cbn. now rewrite app_nil_r.
  Qed.

  Lemma changed_errors i r c w w' : call_changed decode i r c w = Ok w' -> changes (r_call r) c ->
    (c_signals c = c_signals (r_call r) /\ w_errors w' = w_errors w /\ tells decode (w_gone w) r c = [])
    \/ (exists s, c_signals (r_call r) = [] /\ c_signals c = [s] /\ w_errors w' = w_errors w ++ error_of s ++ slot_errors (w_gone w) r s
         /\ tells decode (w_gone w) r c = slot_tells decode (w_gone w) r s)
    \/ (c_signals (r_call r) <> [] /\ c_signals c = c_signals (r_call r) ++ [Error 10] /\ w_errors w' = w_errors w
         /\ tells decode (w_gone w) r c = slot_tells decode (w_gone w) r (Error 10)).
  Proof.
    unfold call_changed, tells. intros H [S E | s S S' E | S S' E].
    - rewrite S, E, !skipn_all in H. rewrite S, skipn_all. left. injection H as <-. cbn. rewrite app_nil_r. auto.
    - rewrite S, S', E in H. rewrite S, S'. cbn [length skipn] in *. rewrite skipn_new in H. apply user_slot_errors in H. cbn in H.
      right. left. exists s. rewrite <- app_assoc in H. auto.
    - rewrite S', E, skipn_new, skipn_all in H. rewrite S', skipn_new. apply user_slot_errors in H. cbn in H. rewrite !app_nil_r in H. auto 10.
  Qed.

  (** * Counting *)
  Definition cnt (z : Z) (l : list Z) : nat := count_occ Z.eq_dec l z.
  Lemma cnt_app z l m : cnt z (l ++ m) = (cnt z l + cnt z m)%nat.
  Proof. apply count_occ_app. Qed.
  Definition sig (r : reply) : list signal := c_signals (r_call r).

  Lemma count_set (f : reply -> list Z) z r r' : forall l i, nth_error l i = Some r ->
    (cnt z (flat_map f (set_reply i r' l)) + cnt z (f r) = cnt z (flat_map f l) + cnt z (f r'))%nat.
  Proof.
    induction l as [|x l IH]; intros [|i] N; cbn in N; try discriminate; cbn [set_reply flat_map]; rewrite !cnt_app.
    - injection N as ->. lia.
    - specialize (IH i N). lia.
  Qed.

  Lemma failed_sig : forall l l', map sig l' = map sig l -> flat_map call_failed l' = flat_map call_failed l.
  Proof.
    induction l as [|x l IH]; intros [|y l'] E; try discriminate; [reflexivity|]. cbn in E. injection E as E1 E2. cbn [flat_map].
    rewrite (IH l' E2). unfold call_failed. unfold sig in E1. now rewrite E1.
  Qed.

  Lemma unreadable_sig w w' t : nth_error (map sig (w_replies w')) (fst t) = nth_error (map sig (w_replies w)) (fst t) ->
    unreadable decode w' t = unreadable decode w t.
  Proof.
    rewrite !nth_error_map. intro E. unfold unreadable. destruct (snd t); try reflexivity;
      (destruct (nth_error (w_replies w') (fst t)), (nth_error (w_replies w) (fst t)); cbn in E; try discriminate; [|reflexivity];
       injection E as E; unfold sig in E; now rewrite E).
  Qed.

  Definition told_of (w : world) (t : nat * told) : Prop := exists s, nth_error (map sig (w_replies w)) (fst t) = Some s /\ s <> [].
  Definition accounts (w : world) (n : nat) (rd : list Z) : Prop :=
    (forall z, cnt z (w_errors w) = (cnt z (flat_map call_failed (w_replies w)) + cnt z (repeat 2%Z n)
                                     + cnt z (flat_map (unreadable decode w) (w_told w)) + cnt z rd)%nat)
    /\ (w_client w = true -> Forall (fun r => sound (r_call r)) (w_replies w))
    /\ Forall (told_of w) (w_told w).

  Lemma flat_map_same {A} (f g : A -> list Z) l : Forall (fun x => f x = g x) l -> flat_map f l = flat_map g l.
  Proof. induction 1 as [|x l E F IH]; cbn; [reflexivity|]. now rewrite E, IH. Qed.

  (** Nothing but replies of new calls and errors [new]. *)
  Lemma quiet w w' n n' rd rd' k new : accounts w n rd -> map sig (w_replies w') = map sig (w_replies w) ++ repeat [] k -> w_told w' = w_told w ->
    w_errors w' = w_errors w ++ new -> (forall z, cnt z new + cnt z (repeat 2%Z n) + cnt z rd = cnt z (repeat 2%Z n') + cnt z rd')%nat ->
    (w_client w' = true -> Forall (fun r => sound (r_call r)) (w_replies w')) -> accounts w' n' rd'.
  Proof.
    intros (C & S & T) Er Et Ee En S'. split; [|split; [exact S'|]].
    - intro z. rewrite Ee, cnt_app, C. specialize (En z).
      assert (F : flat_map call_failed (w_replies w') = flat_map call_failed (w_replies w)).
      { rewrite (failed_sig (w_replies w ++ repeat (mkReply new_call AsHandle 0 0 false) k) (w_replies w')).
        - rewrite flat_map_app. assert (Z0 : forall k, flat_map call_failed (repeat (mkReply new_call AsHandle 0 0 false) k) = []) by (induction k0; cbn; auto).
          now rewrite Z0, app_nil_r.
        - rewrite Er, map_app. f_equal. clear. induction k; cbn; congruence. }
      assert (G : flat_map (unreadable decode w') (w_told w') = flat_map (unreadable decode w) (w_told w)).
      { rewrite Et. apply flat_map_same. revert T. apply Forall_impl. intros t (s & Ns & _). apply unreadable_sig. rewrite Er.
        apply nth_error_app1. apply nth_error_Some. congruence. }
      rewrite F, G. lia.
    - rewrite Et. revert T. apply Forall_impl. intros t (s & Ns & N). exists s. split; [|exact N]. rewrite Er, nth_error_app1; [exact Ns|].
      apply nth_error_Some. congruence.
  Qed.

  Lemma map_set_reply {A} (g : reply -> A) r r' : g r' = g r -> forall l i, nth_error l i = Some r -> map g (set_reply i r' l) = map g l.
  Proof. intro E. induction l as [|x l IH]; intros [|i] N; cbn in *; try discriminate; [injection N as ->; congruence | f_equal; now apply IH]. Qed.
  Lemma Forall_set_reply (P : reply -> Prop) r' : P r' -> forall l i, Forall P l -> Forall P (set_reply i r' l).
  Proof. intro E. induction l as [|x l IH]; intros [|i] F; cbn; auto; inversion F; subst; constructor; auto. Qed.

  Lemma late_told gone r c : Forall (fun t => match t with GotError _ => True | _ => False end) (slot_tells decode gone r (Error c)).
  Proof. unfold slot_tells. destruct (r_slots r); [|constructor]. destruct (r_style r) as [|x|[]|t []]; repeat constructor. Qed.

  Lemma call_accounts i r c w w' n rd : accounts w n rd -> w_client w = true -> nth_error (w_replies w) i = Some r ->
    call_changed decode i r c w = Ok w' -> sound c -> changes (r_call r) c -> accounts w' n rd.
  Proof.
    intros A Cl N H Sc Ch. pose proof (call_changed_spec decode i r c w w' H N) as (Cl' & _ & _ & _ & _ & Er & Et).
    pose proof A as (C & S & T). specialize (S Cl).
    assert (S' : Forall (fun r => sound (r_call r)) (w_replies w')) by (rewrite Er; apply Forall_set_reply; auto).
    assert (Li : (i < length (w_replies w))%nat) by (apply nth_error_Some; congruence).
    destruct (changed_errors i r c w w' H Ch) as [(Es & Ee & Te) | [(s & S0 & Es & Ee & Te) | (S0 & Es & Ee & Te)]].
    - rewrite Te in Et. cbn in Et. rewrite app_nil_r in Et. apply (quiet w w' n n rd rd 0%nat []); auto; cbn; rewrite ?app_nil_r; auto.
      rewrite Er. now apply (map_set_reply sig r).
    - assert (Ni : Forall (fun t => fst t <> i) (w_told w)).
      { revert T. apply Forall_impl. intros t (s' & Ns & Ne) <-. rewrite nth_error_map, N in Ns. cbn in Ns. injection Ns as <-. now apply Ne. }
      split; [|split; [auto|]].
      + intro z. rewrite Ee, Et, flat_map_app, !cnt_app, C, Er. pose proof (count_set call_failed z r (after_call r c) _ _ N) as K.
        assert (K1 : call_failed r = []) by (unfold call_failed; now rewrite S0).
        assert (K2 : call_failed (after_call r c) = error_of s) by (unfold call_failed; cbn [after_call r_call]; rewrite Es; now destruct s).
        rewrite K1, K2 in K. cbn [cnt count_occ] in K.
        assert (G : flat_map (unreadable decode w') (w_told w) = flat_map (unreadable decode w) (w_told w)).
        { apply flat_map_same. revert Ni. apply Forall_impl. intros t Ne. apply unreadable_sig. rewrite Er, !nth_error_map, set_reply_other by auto. reflexivity. }
        assert (L : flat_map (unreadable decode w') (map (pair i) (tells decode (w_gone w) r c)) = slot_errors (w_gone w) r s).
        { rewrite Te. assert (U : forall t, unreadable decode w' (i, t) = match t with GotObject _ | Stored _ _ => match s with Finished d => failure_code (snd (decode d)) | _ => [] end | _ => [] end).
          { intro t. unfold unreadable. cbn [fst snd]. rewrite Er, set_reply_same by auto. cbn [after_call r_call]. rewrite Es. now destruct t, s. }
          clear Te. unfold slot_errors, object_errors. destruct s as [d|e].
          - induction (slot_tells decode (w_gone w) r (Finished d)) as [|t l IH]; [reflexivity|]. cbn [map flat_map]. now rewrite IH, U.
          - induction (slot_tells decode (w_gone w) r (Error e)) as [|t l IH]; [reflexivity|]. cbn [map flat_map]. rewrite IH, U. now destruct t. }
        rewrite G, L. lia.
      + rewrite Et. apply Forall_app. split.
        * rewrite Forall_forall in T, Ni |- *. intros t It. destruct (T t It) as (s' & Ns & Ne). exists s'. split; [|exact Ne].
          rewrite Er, nth_error_map, set_reply_other by (apply not_eq_sym, Ni, It). now rewrite <- nth_error_map.
        * rewrite Forall_forall. intros t It. apply in_map_iff in It as (t' & <- & _). exists [s]. split; [|discriminate]. cbn [fst].
          rewrite Er, nth_error_map, set_reply_same by auto. cbn. unfold sig. cbn. now rewrite Es.
    - destruct (c_signals (r_call r)) as [|s0 rest] eqn:Sr; [contradiction|].
      assert (Su : forall t, unreadable decode w' t = unreadable decode w t).
      { intro t. unfold unreadable. destruct (Nat.eq_dec i (fst t)) as [E | E].
        - rewrite <- E, Er, set_reply_same, N by auto. cbn [after_call r_call]. rewrite Es, Sr. reflexivity.
        - rewrite Er, set_reply_other by exact E. reflexivity. }
      split; [|split; [auto|]].
      + intro z. rewrite Ee, Et, flat_map_app, !cnt_app, C, Er. pose proof (count_set call_failed z r (after_call r c) _ _ N) as K.
        assert (K2 : call_failed (after_call r c) = call_failed r) by (unfold call_failed; cbn [after_call r_call]; rewrite Es, Sr; reflexivity).
        rewrite K2 in K.
        assert (G : flat_map (unreadable decode w') (w_told w) = flat_map (unreadable decode w) (w_told w)) by (apply flat_map_same, Forall_forall; auto).
        assert (L : flat_map (unreadable decode w') (map (pair i) (tells decode (w_gone w) r c)) = []).
        { rewrite Te. clear Te. pose proof (late_told (w_gone w) r 10) as F. induction F as [|t l Ht F IH]; [reflexivity|]. cbn [map flat_map]. rewrite IH. now destruct t. }
        rewrite G, L. cbn [cnt count_occ]. lia.
      + rewrite Et. apply Forall_app. split.
        * rewrite Forall_forall in T |- *. intros t It. destruct (T t It) as (s' & Ns & Ne). destruct (Nat.eq_dec i (fst t)) as [E | E].
          -- exists (c_signals c). rewrite <- E, Er, nth_error_map, set_reply_same by auto. split; [reflexivity | rewrite Es; discriminate].
          -- exists s'. split; [|exact Ne]. rewrite Er, nth_error_map, set_reply_other by exact E. now rewrite <- nth_error_map.
        * rewrite Forall_forall. intros t It. apply in_map_iff in It as (t' & <- & _). exists (c_signals c). cbn [fst].
          rewrite Er, nth_error_map, set_reply_same by auto. split; [reflexivity | rewrite Es; discriminate].
  Qed.

  (** * Steps *)
  Definition refusal (w : world) (e : event) : nat :=
    match e with
    | Start (AsHandle | AsCallback _) _ => if w_client w then match w_channel w with None => 1 | Some _ => 0 end else 0
    | _ => 0
    end%nat.

  Lemma step_accounts w e w' n rd : accounts w n rd -> step decode w e = Ok w' -> accounts w' (n + refusal w e) (rd ++ read_fails decode w e).
  Proof.
    intros A H. pose proof A as (C & S & T).
    assert (Idle : refusal w e = 0%nat -> read_fails decode w e = [] -> accounts w (n + refusal w e) (rd ++ read_fails decode w e))
      by (intros -> ->; now rewrite Nat.add_0_r, app_nil_r).
    assert (Q : forall w1, refusal w e = 0%nat -> read_fails decode w e = [] -> map sig (w_replies w1) = map sig (w_replies w) -> w_told w1 = w_told w ->
      w_errors w1 = w_errors w -> (w_client w1 = true -> Forall (fun r => sound (r_call r)) (w_replies w1)) ->
      accounts w1 (n + refusal w e) (rd ++ read_fails decode w e)).
    { intros w1 -> -> Er Et Ee S1. rewrite Nat.add_0_r, app_nil_r. apply (quiet w w1 n n rd rd 0%nat []); auto; cbn; rewrite ?app_nil_r; auto. }
    assert (Net : forall j ce, refusal w e = 0%nat -> read_fails decode w e = [] -> network decode j ce w = Ok w' ->
      accounts w' (n + refusal w e) (rd ++ read_fails decode w e)).
    { intros j ce R0 F0 Hn. unfold network in Hn. destruct (nth_error (w_replies w) j) as [r|] eqn:N; [|injection Hn as <-; auto].
      destruct (w_client w) eqn:Cl; [|injection Hn as <-; auto].
      destruct (http2_event (r_call r) ce) as [c| | |] eqn:Hc; cbn [bind] in Hn; try discriminate. rewrite R0, F0, Nat.add_0_r, app_nil_r.
      assert (Sr : sound (r_call r)) by (specialize (S eq_refl); rewrite Forall_forall in S; apply S; now apply nth_error_In in N).
      destruct (event_changes _ _ _ Sr Hc). now apply (call_accounts j r c w). }
    assert (Sm : forall (g : reply -> reply) l, (forall r, sound (r_call r) -> sound (r_call (g r))) -> Forall (fun r => sound (r_call r)) l -> Forall (fun r => sound (r_call r)) (map g l)).
    { intros g l Hg F. rewrite Forall_map. revert F. apply Forall_impl. exact Hg. }
    assert (Sg : forall ch w1, map sig (w_replies (channel_gone ch w1)) = map sig (w_replies w1)).
    { intros ch w1. unfold channel_gone. cbn. rewrite map_map. apply map_ext. intro r. now destruct (Nat.eqb _ _). }
    assert (Ss : forall ch w1, Forall (fun r => sound (r_call r)) (w_replies w1) -> Forall (fun r => sound (r_call r)) (w_replies (channel_gone ch w1))).
    { intros ch w1. apply Sm. intro r. destruct (Nat.eqb _ _); auto. }
    destruct e as [s v|j err st bd|j|j|j|j|j|j|ch|ch|x| |]; cbn [step] in H; try (apply (Net _ _ eq_refl eq_refl H)).
    - (* Start *) destruct (w_client w) eqn:Cl; [|injection H as <-; apply Idle; [cbn; rewrite Cl; now destruct s | reflexivity]].
      assert (Sn : forall s ch h b, Forall (fun r => sound (r_call r)) (w_replies w ++ [mkReply new_call s ch h b])).
      { intros s0 ch h b. apply Forall_app. split; [now apply S|]. apply Forall_cons; [|apply Forall_nil]. left. cbn. auto. }
      unfold start in H. cbn [read_fails]. rewrite app_nil_r. cbn [refusal]. rewrite Cl.
      destruct s as [|x|b|t b].
      1,2: cbn [andb] in H; destruct (w_channel w) as [ch|]; injection H as <-;
        [rewrite Nat.add_0_r; apply (quiet w _ n n rd rd 1%nat []); auto; cbn; rewrite ?app_nil_r; auto;
           try (rewrite map_app; reflexivity); try (intros _; apply Sn)
        |rewrite Nat.add_1_r; apply (quiet w _ n (Datatypes.S n) rd rd 0%nat [2]); try exact A; try reflexivity; try (cbn; now rewrite app_nil_r); try (intros _; now apply S); intro z; change (repeat 2%Z (Datatypes.S n)) with ([2] ++ repeat 2%Z n); rewrite cnt_app; lia].
      all: cbn [andb] in H; rewrite Nat.add_0_r; destruct (negb (v && w_engine w)); [injection H as <-; exact A|];
        destruct (w_channel w) as [ch|]; [|discriminate]; injection H as <-; apply (quiet w _ n n rd rd 1%nat []); auto; cbn; rewrite ?app_nil_r; auto;
           try (rewrite map_app; reflexivity); try (intros _; apply Sn).
    - (* Abort *) cbn [refusal read_fails]. rewrite Nat.add_0_r, app_nil_r. unfold through in H.
      destruct (nth_error (w_replies w) j) as [r|] eqn:N; [|injection H as <-; exact A].
      destruct (Nat.eqb (r_handles r) 0); [injection H as <-; exact A|]. destruct (w_client w) eqn:Cl; [|discriminate].
      assert (Sr : sound (r_call r)) by (specialize (S eq_refl); rewrite Forall_forall in S; apply S; now apply nth_error_In in N).
      destruct (abort_changes _ Sr). now apply (call_accounts j r (abort_call (r_call r)) w).
    - (* Copy *) destruct (nth_error (w_replies w) j) as [r|] eqn:N; [|injection H as <-; now apply Idle]. injection H as <-.
      destruct (Nat.eqb (r_handles r) 0); [now apply Idle|]. apply Q; auto; cbn; [now apply (map_set_reply sig r)|].
      intro Cl. specialize (S Cl). apply Forall_set_reply; [|exact S]. rewrite Forall_forall in S. apply (S r). now apply nth_error_In in N.
    - (* Drop *) destruct (nth_error (w_replies w) j) as [r|] eqn:N; [|injection H as <-; now apply Idle].
      destruct (r_handles r) as [|m]; [injection H as <-; now apply Idle|]. destruct (Nat.eqb m 0 && negb (w_client w)); [discriminate|]. injection H as <-.
      apply Q; auto; cbn; [now apply (map_set_reply sig r)|].
      intro Cl. specialize (S Cl). apply Forall_set_reply; [|exact S]. rewrite Forall_forall in S. apply (S r). now apply nth_error_In in N.
    - (* Read *) unfold through in H. cbn [refusal read_fails]. rewrite Nat.add_0_r. destruct (nth_error (w_replies w) j) as [r|] eqn:N; [|injection H as <-; now rewrite app_nil_r].
      destruct (Nat.eqb (r_handles r) 0); [injection H as <-; now rewrite app_nil_r|]. destruct (w_client w) eqn:Cl; [|discriminate].
      destruct (read_object decode (c_data (r_call r))) as [[o errs]| | |] eqn:E; cbn [bind] in H; try discriminate. injection H as <-.
      apply read_object_errors in E as ->.
      apply (quiet w _ n n rd _ 0%nat (failure_code (snd (decode (c_data (r_call r)))))); auto; cbn; rewrite ?app_nil_r; auto. intro z. rewrite cnt_app. lia.
    - (* Attach *) destruct (w_client w) eqn:Cl; [|injection H as <-; now apply Idle]. injection H as <-. specialize (S eq_refl). unfold attach.
      destruct (w_channel w) as [old|]; [|now apply Q]. destruct (has old _); [now apply Q|].
      apply Q; try reflexivity; [now rewrite Sg | intros _; now apply Ss].
    - (* Release *) injection H as <-. unfold release_channel. destruct (is_current ch _); [now apply Q|].
      apply Q; try reflexivity; [now rewrite Sg | intro Cl; apply Ss; now apply S].
    - (* Gone *) injection H as <-. apply Q; auto; cbn.
      + rewrite map_map. apply map_ext. intro r. destruct (r_style r); try reflexivity. now destruct (Nat.eqb _ _).
      + intro Cl. apply Sm; [|now apply S]. intros r Hr. destruct (r_style r); auto. now destruct (Nat.eqb _ _).
    - (* EngineGone *) injection H as <-. apply Q; auto; cbn.
      + rewrite map_map. apply map_ext. intro r. now destruct (r_style r).
      + intro Cl. apply Sm; [|now apply S]. intros r Hr. now destruct (r_style r).
    - (* ClientGone *) injection H as <-. unfold client_gone.
      destruct (w_channel w) as [ch|]; [destruct (has ch (w_held w))|]; apply Q; auto; try rewrite Sg; cbn; rewrite ?map_map; try reflexivity; discriminate.
  Qed.

  (** * Histories *)
  Fixpoint refusals (w : world) (evs : list event) : nat :=
    match evs with
    | [] => 0
    | e :: evs' => refusal w e + match step decode w e with Ok w' => refusals w' evs' | _ => 0 end
    end%nat.

  Lemma run_accounts : forall evs w n rd w', accounts w n rd -> run decode w evs = Ok w' ->
    accounts w' (n + refusals w evs) (rd ++ reads_failed decode w evs).
  Proof.
    induction evs as [|e evs IH]; intros w n rd w' A H; cbn [run refusals reads_failed] in *.
    - injection H as <-. now rewrite Nat.add_0_r, app_nil_r.
    - destruct (step decode w e) as [w1| | |] eqn:E; cbn [bind] in H; try discriminate.
      rewrite Nat.add_assoc, app_assoc. eapply IH; [|exact H]. now apply step_accounts.
  Qed.

  Lemma changed_same i r c w w' : call_changed decode i r c w = Ok w' -> nth_error (w_replies w) i = Some r ->
    w_client w' = w_client w /\ w_channel w' = w_channel w.
  Proof. intros H N. destruct (call_changed_spec decode i r c w w' H N) as (A & _ & B & _). now split. Qed.

  Lemma network_same i e w w' : network decode i e w = Ok w' -> w_client w' = w_client w /\ w_channel w' = w_channel w.
  Proof.
    unfold network. destruct (nth_error (w_replies w) i) as [r|] eqn:N; [|intro H; injection H as <-; now split].
    destruct (w_client w) eqn:Cl; [|intro H; injection H as <-; now split].
    destruct (http2_event (r_call r) e) as [c| | |]; cbn [bind]; try discriminate. intro H. rewrite <- Cl. now apply (changed_same i r c).
  Qed.

  (** Only [Attach] and [ClientGone] change whether there is a channel or a client. *)
  Lemma step_same w e w' : step decode w e = Ok w' -> (forall ch, e <> Attach ch) -> e <> ClientGone ->
    w_client w' = w_client w /\ w_channel w' = w_channel w.
  Proof.
    intros H NA NC. destruct e as [s v|j err st bd|j|j|j|j|j|j|ch|ch|x| |]; cbn [step] in H; try (apply (network_same _ _ _ _ H)).
    - destruct (w_client w) eqn:Cl; [|injection H as <-; now split]. unfold start in H.
      destruct (_ && _); [injection H as <-; now split|]. destruct (w_channel w) as [ch|] eqn:Ch; [injection H as <-; cbn; now rewrite Ch|].
      destruct s; try discriminate; injection H as <-; now split.
    - unfold through in H. destruct (nth_error (w_replies w) j) as [r|] eqn:N; [|injection H as <-; now split].
      destruct (Nat.eqb _ _); [injection H as <-; now split|]. destruct (w_client w) eqn:Cl; [|discriminate]. rewrite <- Cl. now apply (changed_same j r _ _ _ H).
    - destruct (nth_error (w_replies w) j) as [r|]; injection H as <-; [|now split]. now destruct (Nat.eqb _ _).
    - destruct (nth_error (w_replies w) j) as [r|]; [|injection H as <-; now split]. destruct (r_handles r); [injection H as <-; now split|].
      destruct (_ && _); [discriminate|]. injection H as <-. now split.
    - unfold through in H. destruct (nth_error (w_replies w) j) as [r|]; [|injection H as <-; now split].
      destruct (Nat.eqb _ _); [injection H as <-; now split|]. destruct (w_client w) eqn:Cl; [|discriminate].
      destruct (read_object decode _) as [[o errs]| | |]; cbn [bind] in H; try discriminate. injection H as <-. now split.
    - now destruct (NA ch).
    - injection H as <-. unfold release_channel. destruct (is_current _ _); now split.
    - injection H as <-. now split.
    - injection H as <-. now split.
    - now destruct NC.
  Qed.

  Lemma no_refusals : forall evs w w', (w_client w = false \/ w_channel w <> None) -> run decode w evs = Ok w' -> refusals w evs = 0%nat.
  Proof.
    induction evs as [|e evs IH]; intros w w' D H; [reflexivity|]. cbn [run refusals] in *.
    destruct (step decode w e) as [w1| | |] eqn:E; cbn [bind] in H; try discriminate.
    assert (R : refusal w e = 0%nat) by (destruct e as [[]| | | | | | | | | | | |]; try reflexivity; cbn; destruct (w_client w), (w_channel w), D; congruence).
    rewrite R. cbn [Nat.add]. apply (IH w1 w'); [|exact H].
    destruct e as [s v|j err st bd|j|j|j|j|j|j|ch|ch|x| |]; try (destruct (step_same _ _ _ E) as (-> & ->); [discriminate | discriminate | exact D]).
    - cbn [step] in E. destruct (w_client w) eqn:Cl; injection E as <-; [|now left]. right. unfold attach.
      destruct (w_channel w); [destruct (has _ _)|]; discriminate.
    - left. injection E as <-. unfold client_gone. destruct (w_channel w); [destruct (has _ _)|]; reflexivity.
  Qed.

  Lemma refusals_refused : forall evs w w', w_client w = true -> w_channel w = None -> run decode w evs = Ok w' -> refusals w evs = refused evs.
  Proof.
    induction evs as [|e evs IH]; intros w w' Cl Ch H; [reflexivity|]. cbn [run refusals] in *.
    destruct (step decode w e) as [w1| | |] eqn:E; cbn [bind] in H; try discriminate.
    assert (G : (forall ch, e <> Attach ch) -> e <> ClientGone -> refusals w1 evs = refused evs).
    { intros A B. destruct (step_same _ _ _ E A B) as (C1 & C2). apply (IH w1 w'); congruence. }
    destruct e as [s v|j err st bd|j|j|j|j|j|j|ch|ch|x| |]; cbn [refusal refused]; try (apply G; discriminate).
    - rewrite Cl, Ch. destruct s; cbn [Nat.add]; rewrite G; try discriminate; reflexivity.
    - cbn [step] in E. rewrite Cl in E. injection E as <-. apply (no_refusals evs (attach ch w) w'); [|exact H]. right. unfold attach. rewrite Ch. discriminate.
    - cbn [step] in E. injection E as <-. apply (no_refusals evs (client_gone w) w'); [|exact H]. left. unfold client_gone. rewrite Ch. reflexivity.
  Qed.

  Lemma new_accounts : accounts new_world 0 [].
  Proof. split; [reflexivity|]. split; [intros _; apply Forall_nil | apply Forall_nil]. Qed.

  (** * A call ends *)
  Lemma run_snoc evs w w' e w'' : run decode w evs = Ok w' -> step decode w' e = Ok w'' -> run decode w (evs ++ [e]) = Ok w''.
  Proof.
    revert w. induction evs as [|x evs IH]; intros w H E; cbn [run app] in *; [injection H as ->; now rewrite E|].
    destruct (step decode w x) as [w1| | |]; cbn [bind] in *; try discriminate. now apply IH.
  Qed.

  (** What the reading of a response by the slots of the call adds. *)
  Definition read_by_slots (w : world) (r : reply) (s : signal) : list Z := slot_errors (w_gone w) r s.

  Lemma ending evs w e w' i s : run decode new_world evs = Ok w -> step decode w e = Ok w' -> ends_with i w w' s ->
    exists r, nth_error (w_replies w) i = Some r /\ w_errors w' = w_errors w ++ error_of s ++ slot_errors (w_gone w) r s.
  Proof.
    intros R E (r & r' & N & N' & S0 & S1). exists r. split; [exact N|].
    destruct (run_accounts evs _ _ _ _ new_accounts R) as (_ & S & _).
    assert (Ch : forall j rj c, nth_error (w_replies w) j = Some rj -> w_client w = true -> call_changed decode j rj c w = Ok w' -> changes (r_call rj) c ->
      w_errors w' = w_errors w ++ error_of s ++ slot_errors (w_gone w) r s).
    { intros j rj c Nj Cl Hc Cc. destruct (call_changed_spec decode j rj c w w' Hc Nj) as (_ & _ & _ & _ & _ & Er & _).
      assert (Li : (i < length (w_replies w))%nat) by (apply nth_error_Some; congruence).
      destruct (Nat.eq_dec j i) as [->|Ne].
      - rewrite N in Nj. injection Nj as <-. rewrite Er, set_reply_same in N' by exact Li. injection N' as <-. cbn in S1.
        destruct (changed_errors i r c w w' Hc Cc) as [(Es & _) | [(s' & _ & Es & Ee & _) | (Ne & _)]].
        + rewrite Es, S0 in S1. discriminate.
        + rewrite Es in S1. injection S1 as ->. exact Ee.
        + now rewrite S0 in Ne.
      - rewrite Er, set_reply_other, N in N' by exact Ne. injection N' as <-. rewrite S0 in S1. discriminate. }
    assert (Net : forall j ce, network decode j ce w = Ok w' -> w_errors w' = w_errors w ++ error_of s ++ slot_errors (w_gone w) r s).
    { intros j ce Hn. unfold network in Hn. destruct (nth_error (w_replies w) j) as [rj|] eqn:Nj; [|injection Hn as <-; rewrite N in N'; injection N' as <-; rewrite S0 in S1; discriminate].
      destruct (w_client w) eqn:Cl; [|injection Hn as <-; rewrite N in N'; injection N' as <-; rewrite S0 in S1; discriminate].
      destruct (http2_event (r_call rj) ce) as [c| | |] eqn:Hc; cbn [bind] in Hn; try discriminate.
      assert (Sr : sound (r_call rj)) by (specialize (S eq_refl); rewrite Forall_forall in S; apply S; now apply nth_error_In in Nj).
      destruct (event_changes _ _ _ Sr Hc). now apply (Ch j rj c). }
    destruct (step_evolves decode i w e w' r E N) as (r2 & l & N2 & _ & Ev). rewrite N' in N2. injection N2 as <-.
    assert (Same : c_signals (r_call r') = c_signals (r_call r) -> w_errors w' = w_errors w ++ error_of s ++ slot_errors (w_gone w) r s).
    { intro Es. rewrite Es, S0 in S1. discriminate. }
    inversion Ev; subst; try (apply Same; cbn; congruence).
    - destruct e; cbn in H; try discriminate; cbn [step] in E; apply (Net _ _ E).
    - cbn [step] in E. unfold through in E. rewrite N in E. destruct (Nat.eqb_spec (r_handles r) 0) as [Z0|Z0]; [lia|]. rewrite H1 in E.
      assert (Sr : sound (r_call r)) by (specialize (S H1); rewrite Forall_forall in S; apply S; now apply nth_error_In in N).
      destruct (abort_changes _ Sr). now apply (Ch i r _ N H1 E).
  Qed.

  (** Events that neither end a call nor start or read one. *)
  Lemma nothing_else evs w e w' : run decode new_world evs = Ok w -> step decode w e = Ok w' ->
    (forall i s, ~ ends_with i w w' s) -> (forall s v, e <> Start s v) -> (forall i, e <> Read i) -> w_errors w' = w_errors w.
  Proof.
    intros R E NE NS NR. destruct (run_accounts evs _ _ _ _ new_accounts R) as (_ & S & _).
    assert (Ch : forall j rj c, nth_error (w_replies w) j = Some rj -> call_changed decode j rj c w = Ok w' -> changes (r_call rj) c -> w_errors w' = w_errors w).
    { intros j rj c Nj Hc Cc. destruct (call_changed_spec decode j rj c w w' Hc Nj) as (_ & _ & _ & _ & _ & Er & _).
      assert (Lj : (j < length (w_replies w))%nat) by (apply nth_error_Some; congruence).
      destruct (changed_errors j rj c w w' Hc Cc) as [(_ & Ee & _) | [(s & S0 & Es & _) | (_ & _ & Ee & _)]]; [exact Ee | | exact Ee].
      exfalso. apply (NE j s). exists rj, (after_call rj c). rewrite Er, set_reply_same by exact Lj. auto. }
    assert (Net : forall j ce, network decode j ce w = Ok w' -> w_errors w' = w_errors w).
    { intros j ce Hn. unfold network in Hn. destruct (nth_error (w_replies w) j) as [rj|] eqn:Nj; [|now injection Hn as <-].
      destruct (w_client w) eqn:Cl; [|now injection Hn as <-].
      destruct (http2_event (r_call rj) ce) as [c| | |] eqn:Hc; cbn [bind] in Hn; try discriminate.
      assert (Sr : sound (r_call rj)) by (specialize (S eq_refl); rewrite Forall_forall in S; apply S; now apply nth_error_In in Nj).
      destruct (event_changes _ _ _ Sr Hc). now apply (Ch j rj c). }
    destruct e as [s v|j err st bd|j|j|j|j|j|j|ch|ch|x| |]; cbn [step] in E; try (apply (Net _ _ E)).
    - now destruct (NS s v).
    - unfold through in E. destruct (nth_error (w_replies w) j) as [r|] eqn:N; [|now injection E as <-].
      destruct (Nat.eqb _ _); [now injection E as <-|]. destruct (w_client w) eqn:Cl; [|discriminate].
      assert (Sr : sound (r_call r)) by (specialize (S eq_refl); rewrite Forall_forall in S; apply S; now apply nth_error_In in N).
      destruct (abort_changes _ Sr). now apply (Ch j r _ N E).
    - destruct (nth_error (w_replies w) j) as [r|]; injection E as <-; [|reflexivity]. now destruct (Nat.eqb _ _).
    - destruct (nth_error (w_replies w) j) as [r|]; [|now injection E as <-]. destruct (r_handles r); [now injection E as <-|].
      destruct (_ && _); [discriminate|]. now injection E as <-.
    - now destruct (NR j).
    - destruct (w_client w); injection E as <-; [|reflexivity]. unfold attach. destruct (w_channel w); [destruct (has _ _)|]; reflexivity.
    - injection E as <-. unfold release_channel. now destruct (is_current _ _).
    - now injection E as <-.
    - now injection E as <-.
    - injection E as <-. unfold client_gone. destruct (w_channel w); [destruct (has _ _)|]; reflexivity.
  Qed.
End Errors.

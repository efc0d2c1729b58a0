(** Proofs about printed bodies: signals of moves. *)

From Coq Require Import String Ascii ZArith List Bool Arith Lia.
From Verif Require Values.
From Verif Require Import Base MessageSpec MessageProofs SerializeProofs PropFacts ObjectModel ObjectSpec ObjectProofs ObjectTotal AssignProofs ObjectFacts.
From Verif Require Import GenModel GenSpec GenStrings GenTypesModel GenClassModel GenClassSpec GenClassProofs GenClassMembers GenClassBodies
  GenBodyModel GenBodySpec GenBodyProofs GenBodyCopy GenBodyMove GenBodySelf.
Import ListNotations.
Local Close Scope Z_scope.
Open Scope string_scope.

Lemma append_inj_r : forall a b c : string, a ++ c = b ++ c -> a = b.
Proof.
  intros a b c E. apply (f_equal list_ascii_of_string) in E. rewrite !ascii_app in E. apply app_inv_tail in E.
  rewrite <- (string_of_list_ascii_of_string a), <- (string_of_list_ascii_of_string b). now rewrite E.
Qed.

Lemma signal_inj : forall f g, signal_name f = signal_name g -> key (m_name f) = key (m_name g).
Proof. intros f g E. apply pname_key. unfold signal_name in E. now apply append_inj_r in E. Qed.

Lemma signals_only : forall emits fs xs ys s, In s (signals_of emits fs xs ys) -> exists f, In f fs /\ s = signal_name f.
Proof.
  intros emits. induction fs as [| f fs IH]; intros xs ys s I; [destruct I |]. destruct xs as [| x xs]; [destruct I |]. destruct ys as [| y ys]; [destruct I |].
  cbn [signals_of] in I. apply in_app_iff in I. destruct I as [I | I].
  - destruct (emits f x y); [destruct I as [<- | []] | destruct I]. exists f. split; [now left | reflexivity].
  - apply IH in I. destruct I as (g & G & ->). exists g. split; [now right | reflexivity].
Qed.

Lemma signals_in : forall emits fs xs ys, distinct fs -> forall j f x y, nth_error fs j = Some f -> nth_error xs j = Some x -> nth_error ys j = Some y ->
  (In (signal_name f) (signals_of emits fs xs ys) <-> emits f x y = true).
Proof.
  intros emits. induction fs as [| g fs IH]; intros xs ys D j f x y F X Y; [destruct j; discriminate F |].
  destruct xs as [| x0 xs]; [destruct j; discriminate X |]. destruct ys as [| y0 ys]; [destruct j; discriminate Y |].
  unfold distinct in D. cbn [map] in D. inversion D as [| ? ? N D']; subst. cbn [signals_of]. rewrite in_app_iff.
  destruct j as [| j]; cbn [nth_error] in F, X, Y.
  - injection F as ->. injection X as ->. injection Y as ->. split.
    + intros [I | I]; [destruct (emits f x y); [reflexivity | destruct I] |]. exfalso. apply signals_only in I. destruct I as (k & K & E).
      apply signal_inj in E. apply N. rewrite E. apply in_map_iff. eauto.
    + intros ->. left. now left.
  - rewrite <- (IH xs ys D' j f x y F X Y). split; [intros [I | I]; [| exact I] | now right]. exfalso.
    destruct (emits g x0 y0); [destruct I as [E | []] | destruct I]. apply signal_inj in E. apply N. rewrite E. apply in_map_iff.
    exists f. split; [reflexivity |]. now apply nth_error_In in F.
Qed.

Lemma signals_nodup : forall emits fs xs ys, distinct fs -> NoDup (signals_of emits fs xs ys).
Proof.
  intros emits. induction fs as [| g fs IH]; intros xs ys D; [constructor |].
  destruct xs as [| x0 xs]; [constructor |]. destruct ys as [| y0 ys]; [constructor |].
  unfold distinct in D. cbn [map] in D. inversion D as [| ? ? N D']; subst. cbn [signals_of]. destruct (emits g x0 y0); [| apply IH; exact D'].
  constructor; [| apply IH; exact D']. intros I. apply signals_only in I. destruct I as (k & K & E).
  apply signal_inj in E. apply N. rewrite E. apply in_map_iff. eauto.
Qed.

Lemma move_fields_ok : forall sch h fuel rec fields xs ys r, move_fields sch h fuel rec fields xs ys = Ok r ->
  forall j f x y, nth_error fields j = Some f -> nth_error xs j = Some x -> nth_error ys j = Some y ->
  exists x' y', move_field sch h fuel rec (Values.f_ty f) x y = Ok (x', y') /\ nth_error (fst r) j = Some x' /\ nth_error (snd r) j = Some y'.
Proof.
  intros sch h fuel rec. induction fields as [| g fields IH]; intros xs ys r R j f x y F X Y; [destruct j; discriminate F |].
  destruct xs as [| x0 xs]; [destruct j; discriminate X |]. destruct ys as [| y0 ys]; [destruct j; discriminate Y |].
  cbn [move_fields] in R. apply bind_Ok in R. destruct R as ([x' y'] & A & R). apply bind_Ok in R. destruct R as ([xs' ys'] & B & R). injection R as <-.
  destruct j as [| j]; cbn [nth_error fst snd] in *.
  - injection F as ->. injection X as ->. injection Y as ->. eauto.
  - exact (IH xs ys (xs', ys') B j f x y F X Y).
Qed.

(** Fields whose values the comparison in the body decides. *)
Definition decided (s : shape) : Prop := match s with Many (Mess _) | Assoc _ (Mess _) => False | _ => True end.
Definition number (s : shape) : Prop := match s with One (Simple t) => t <> TString /\ t <> TBytes | _ => False end.
Definition enumeration (s : shape) : Prop := match s with One (Enu _) => True | _ => False end.

Section Signals.
  Context (classes : nat -> message) (names : nat -> string) (qml field_numbers : bool) (sch : Values.schema) (h : heap)
    (DS : describes sch classes) (SO : schema_ok sch).

  Lemma moved : forall fuel m xs ys vs ws w, denotes sch h m xs vs -> denotes sch h m ys ws ->
    run_move classes names qml field_numbers sch h fuel false m xs ys = Ok w ->
    exists n, fuel = S n /\ move_fields sch h n (move_assign n sch h) (map descriptor (g_fields (classes m))) xs ys = Ok (w_this w, w_other w)
      /\ w_emitted w = signals_of (target_emits sch (eq_obj n sch h)) (g_fields (classes m)) xs ys
      /\ w_other_emitted w = signals_of (source_emits sch (eq_obj n sch h)) (g_fields (classes m)) xs ys.
  Proof.
    intros [| n] m xs ys vs ws w DX DY R; [discriminate R |]. rewrite (move_agrees classes names qml field_numbers sch h DS (S n) m xs ys vs ws DX DY) in R.
    cbn [move_assign pred] in R. rewrite (fields_described _ _ DS) in R. apply bind_Ok in R. destruct R as ([a b] & A & R). injection R as <-.
    exists n. cbn [w_this w_other w_emitted w_other_emitted]. auto.
  Qed.

  Lemma members_at : forall m xs vs, denotes sch h m xs vs -> forall j f, nth_error (g_fields (classes m)) j = Some f ->
    exists x v, nth_error xs j = Some x /\ nth_error vs j = Some v /\ den_field sch h (fty_of (m_shape f)) x v.
  Proof.
    intros m xs vs D. inversion D as [? ? ? F]; subst. rewrite (fields_described _ _ DS) in F. clear D.
    revert xs vs F. induction (g_fields (classes m)) as [| g fs IH]; intros xs vs F j f J; [destruct j; discriminate J |].
    cbn [map] in F. inversion F as [| ? ? x xs1 v vs1 F1 F2]; subst. destruct j as [| j]; cbn [nth_error] in *; [| now apply IH].
    injection J as ->. eauto.
  Qed.

  Lemma field_proper_at : forall m vs, proper sch m vs -> forall j f v, nth_error (g_fields (classes m)) j = Some f -> nth_error vs j = Some v ->
    field_proper sch (fty_of (m_shape f)) v.
  Proof.
    intros m vs P j f v F V.
    assert (L : j < List.length (Values.md_fields (Values.msg_at sch m))).
    { rewrite (fields_described _ _ DS), map_length. apply nth_error_Some. now rewrite F. }
    pose proof (proper_nth sch m vs j P L) as Q. unfold Values.field_at in Q. rewrite (fields_described _ _ DS) in Q.
    rewrite (nth_error_nth vs j _ V) in Q. assert (G : nth_error (map descriptor (g_fields (classes m))) j = Some (descriptor f)) by (rewrite nth_error_map, F; reflexivity).
    rewrite (nth_error_nth _ j _ G) in Q. exact Q.
  Qed.

  Lemma key_at : forall m j f, nth_error (g_fields (classes m)) j = Some f -> key_ok (fty_of (m_shape f)).
  Proof.
    intros m j f F. pose proof (schema_keys sch SO m) as K. rewrite (fields_described _ _ DS), Forall_forall in K.
    apply (K (descriptor f)). apply in_map. now apply nth_error_In in F.
  Qed.

  (** The comparison of one field. *)
  Lemma differ_spec : forall m n j f x y v w, nth_error (g_fields (classes m)) j = Some f ->
    den_field sch h (fty_of (m_shape f)) x v -> den_field sch h (fty_of (m_shape f)) y w ->
    field_proper sch (fty_of (m_shape f)) v -> field_proper sch (fty_of (m_shape f)) w ->
    (exists r, move_field sch h n (move_assign n sch h) (fty_of (m_shape f)) x y = Ok r) ->
    (~ same_field sch (fty_of (m_shape f)) v w -> differ sch (eq_obj n sch h) (m_shape f) x y = true)
    /\ (decided (m_shape f) -> differ sch (eq_obj n sch h) (m_shape f) x y = true -> ~ same_field sch (fty_of (m_shape f)) v w).
  Proof.
    intros m n j f x y v w F DX DY (OV & NV & MV) (OW & NW & MW) (r & R). pose proof (key_at m j f F) as K.
    destruct (bool_cases (pure_message (m_shape f))) as [P | P].
    - destruct (pure_shape f P) as (m' & E). rewrite E in *. cbn [fty_of elty_of differ move_field] in *. apply bind_Ok in R. destruct R as ([o o'] & R & _).
      unfold move_message in R. apply bind_Ok in R. destruct R as (b & B & _). rewrite B. destruct b.
      + split; [intros H; exfalso; apply H; eapply lazy_eq_true; eauto; split; auto | discriminate].
      + split; [reflexivity | intros _ _; eapply lazy_eq_false; eauto].
    - assert (M : is_message (fty_of (m_shape f)) = false) by (destruct (m_shape f) as [[t | m' | e | q] | e | k e]; try discriminate P; reflexivity).
      replace (differ sch (eq_obj n sch h) (m_shape f) x y) with (negb (mem_eqb (fty_of (m_shape f)) x y))
        by (destruct (m_shape f) as [[t | m' | e | q] | e | k e]; try discriminate P; reflexivity).
      split.
      + intros H. destruct (mem_eqb (fty_of (m_shape f)) x y) eqn:Q; [| reflexivity]. exfalso. apply H. eapply mem_eqb_same_all; eauto.
      + intros T Q S.
        assert (Pl : is_plain (fty_of (m_shape f)) = true).
        { destruct (m_shape f) as [[t | m' | e | q] | [t | m' | e | q] | k [t | m' | e | q]]; try discriminate P; try destruct T; reflexivity. }
        rewrite (mem_eqb_complete sch h _ _ _ _ _ K Pl DX DY MV MW S) in Q. discriminate Q.
  Qed.
End Signals.

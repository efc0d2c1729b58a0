(** Proofs about changes made through getters. *)

From Coq Require Import ZArith List Bool Lia Arith.
From Verif Require Import Base Values MessageSpec MessageProofs ObjectModel ObjectSpec ObjectProofs
  ObjectFacts GetterSpec.
Import ListNotations.
Open Scope Z_scope.

Lemma upd_nth_error_same {A} i (a : A) l : (i < length l)%nat -> nth_error (upd i a l) i = Some a.
Proof. revert i. induction l as [|x l IH]; intros [|i] L; cbn in *; try lia; auto. apply IH. lia. Qed.
Lemma upd_nth_error_other {A} i j (a : A) l : i <> j -> nth_error (upd i a l) j = nth_error l j.
Proof.
  revert i j. induction l as [|x l IH]; intros [|i] [|j] N; cbn [upd nth_error]; auto. now destruct N.
Qed.
Lemma nth_error_bound {A} (l : list A) i a : nth_error l i = Some a -> (i < length l)%nat.
Proof. intro H. apply nth_error_Some. congruence. Qed.
Lemma nth_error_nth_eq {A} (l : list A) i a d : nth_error l i = Some a -> nth i l d = a.
Proof. intro H. now apply nth_error_nth. Qed.

(** ** The value of an object is determined by its members *)

Section Value.
  Variable sch : schema.
  Variable h : heap.

  Lemma den_functional :
    (forall m xs vs, denotes sch h m xs vs -> forall m' vs', denotes sch h m' xs vs' -> vs = vs') /\
    (forall fs xs vs, den_fields sch h fs xs vs -> forall fs' vs', den_fields sch h fs' xs vs' -> vs = vs') /\
    (forall ty x v, den_field sch h ty x v -> forall ty' v', den_field sch h ty' x v' -> v = v') /\
    (forall m l vs, den_list sch h m l vs -> forall m' vs', den_list sch h m' l vs' -> vs = vs') /\
    (forall m l vs, den_entries sch h m l vs -> forall m' vs', den_entries sch h m' l vs' -> vs = vs') /\
    (forall m p v, den_ptr sch h m p v -> forall m' v', den_ptr sch h m' p v' -> v = v').
  Proof.
    apply (den_mutind sch h
      (fun m xs vs _ => forall m' vs', denotes sch h m' xs vs' -> vs = vs')
      (fun fs xs vs _ => forall fs' vs', den_fields sch h fs' xs vs' -> vs = vs')
      (fun ty x v _ => forall ty' v', den_field sch h ty' x v' -> v = v')
      (fun m l vs _ => forall m' vs', den_list sch h m' l vs' -> vs = vs')
      (fun m l vs _ => forall m' vs', den_entries sch h m' l vs' -> vs = vs')
      (fun m p v _ => forall m' v', den_ptr sch h m' p v' -> v = v'));
      intros; match goal with H : _ |- _ = ?v => is_var v; inversion H; subst end; auto; try f_equal; eauto.
    - f_equal. eauto.
    - match goal with A : nth_error h a = _, B : nth_error h a = _ |- _ =>
        rewrite A in B; injection B as <- end. eauto.
  Qed.

  (** Addresses passed by a chain of getters. *)
  Inductive visits : list step -> nat -> list mem -> list nat -> Prop :=
  | visits_here m xs : visits [] m xs []
  | visits_nested j path m xs m' o as_ :
      f_ty (field_at sch m j) = FSing (EM m') -> nth_error xs j = Some (MOwn (Some o)) ->
      visits path m' o as_ -> visits (Nested j :: path) m xs as_
  | visits_not_created j path m xs m' as_ :
      f_ty (field_at sch m j) = FSing (EM m') -> nth_error xs j = Some (MOwn None) ->
      visits path m' (default_mems sch m') as_ -> visits (Nested j :: path) m xs as_
  | visits_element j e path m xs m' l a o as_ :
      f_ty (field_at sch m j) = FRep (EM m') -> nth_error xs j = Some (MPtrs l) ->
      nth_error l e = Some (Some a) -> nth_error h a = Some o ->
      visits path m' o as_ -> visits (Element j e :: path) m xs (a :: as_)
  | visits_entry j k key path m xs m' l a o as_ :
      f_ty (field_at sch m j) = FMap k (EM m') -> nth_error xs j = Some (MPtrMap l) ->
      qmap_value k key l = Some a -> nth_error h a = Some o ->
      visits path m' o as_ -> visits (Entry j k key :: path) m xs (a :: as_).

  Lemma reads_visits path m xs n ys : reads sch h path m xs n ys -> exists as_, visits path m xs as_.
  Proof.
    induction 1; try (destruct IHreads as [as_ V]); eexists.
    - constructor.
    - eapply visits_nested; eauto.
    - eapply visits_not_created; eauto.
    - eapply visits_element; eauto.
    - eapply visits_entry; eauto.
  Qed.

  Lemma den_list_nth m l vs e p : den_list sch h m l vs -> nth_error l e = Some p ->
    exists v, In v vs /\ den_ptr sch h m p v.
  Proof.
    intro D. revert e. induction D as [|m q l v vs P D IH]; intros [|e] H; cbn in H; try discriminate.
    - injection H as <-. exists v. split; [now left | exact P].
    - destruct (IH e H) as (w & I & Q). exists w. split; [now right | exact Q].
  Qed.

  Lemma den_entries_value k key m l kvs a : den_entries sch h m l kvs -> qmap_value k key l = Some a ->
    exists key' v, In (key', v) kvs /\ den_ptr sch h m (Some a) v.
  Proof.
    induction 1 as [|m q p l v kvs P D IH]; intro H; cbn [qmap_value] in H; [discriminate|].
    destruct (key_ltb k key q || key_ltb k q key).
    - destruct (IH H) as (key' & w & I & Q). exists key', w. split; [now right | exact Q].
    - subst p. exists q, v. split; [now left | exact P].
  Qed.

  Lemma list_max_ge l x : In x l -> (x <= list_max l)%nat.
  Proof. intro I. assert (F := list_max_le l (list_max l)). destruct F as [F _]. specialize (F (le_n _)). rewrite Forall_forall in F. auto. Qed.

  Lemma field_at_bound m j : f_ty (field_at sch m j) <> f_ty dummy_field ->
    (j < length (md_fields (msg_at sch m)))%nat.
  Proof.
    intro N. destruct (Nat.lt_ge_cases j (length (md_fields (msg_at sch m)))) as [L|L]; auto.
    exfalso. apply N. unfold field_at. now rewrite nth_overflow.
  Qed.

  Lemma den_fields_length fs xs vs : den_fields sch h fs xs vs -> length xs = length fs /\ length vs = length fs.
  Proof. induction 1; cbn; intuition. Qed.

  Lemma den_member m xs vs j x : denotes sch h m xs vs -> nth_error xs j = Some x ->
    exists v, nth_error vs j = Some v /\ den_field sch h (f_ty (field_at sch m j)) x v.
  Proof.
    intros D. destruct D as [m xs vs D]. unfold field_at. revert j.
    induction D as [|f fs y xs v vs P D IH]; intros [|j] H; cbn in H; try discriminate.
    - injection H as <-. exists v. auto.
    - destruct (IH j H) as (w & I & Q). exists w. auto.
  Qed.

  Lemma odepth_in (vs : list value) v j : nth_error vs j = Some v -> (vdepth v <= odepth vs)%nat.
  Proof. intro H. unfold odepth. apply list_max_ge. apply in_map. eapply nth_error_In; eauto. Qed.

  Lemma visits_default path m as_ : visits path m (default_mems sch m) as_ -> as_ = [].
  Proof.
    intro V. remember (default_mems sch m) as xs eqn:E. revert E.
    induction V as [|j path m xs m' o as_ T N V IH|j path m xs m' as_ T N V IH
                   |j e path m xs m' l a o as_ T N E A V IH|j k key path m xs m' l a o as_ T N E A V IH];
      intro X; subst xs; auto; exfalso.
    - unfold default_mems in N. rewrite nth_error_map in N.
      destruct (nth_error _ j) as [f|] eqn:F; [|discriminate]. cbn in N.
      unfold field_at in T. rewrite (nth_error_nth_eq _ _ _ dummy_field F) in T. rewrite T in N. discriminate.
    - unfold default_mems in N. rewrite nth_error_map in N.
      destruct (nth_error _ j) as [f|] eqn:F; [|discriminate]. cbn in N.
      unfold field_at in T. rewrite (nth_error_nth_eq _ _ _ dummy_field F) in T. rewrite T in N. cbn in N.
      injection N as <-. destruct e; discriminate.
    - unfold default_mems in N. rewrite nth_error_map in N.
      destruct (nth_error _ j) as [f|] eqn:F; [|discriminate]. cbn in N.
      unfold field_at in T. rewrite (nth_error_nth_eq _ _ _ dummy_field F) in T. rewrite T in N. cbn in N.
      injection N as <-. discriminate.
  Qed.

  (** Everything passed is part of the value, and smaller than it. *)
  Lemma visits_smaller path m xs as_ : visits path m xs as_ -> forall vs b, denotes sch h m xs vs -> In b as_ ->
    exists o m' ws, nth_error h b = Some o /\ denotes sch h m' o ws /\ (odepth ws < odepth vs)%nat.
  Proof.
    induction 1 as [m xs|j path m xs m' o as_ T N V IH|j path m xs m' as_ T N V IH
                   |j e path m xs m' l a o as_ T N E A V IH|j k key path m xs m' l a o as_ T N E A V IH];
      intros vs b D I.
    - destruct I.
    - destruct (den_member _ _ _ _ _ D N) as (v & Nv & Dv). rewrite T in Dv. inversion Dv; subst.
      match goal with Do : denotes _ _ m' o ?us |- _ => destruct (IH _ b Do I) as (q & mq & ws & Q1 & Q2 & Q3) end.
      exists q, mq, ws. split; auto. split; auto. apply odepth_in in Nv. cbn [vdepth] in Nv.
      fold odepth in Nv. unfold odepth in *. lia.
    - apply visits_default in V. subst. destruct I.
    - destruct (den_member _ _ _ _ _ D N) as (v & Nv & Dv). rewrite T in Dv. inversion Dv; subst.
      match goal with L : den_list _ _ _ l ?us |- _ => destruct (den_list_nth _ _ _ _ _ L E) as (u & Iu & Pu) end.
      inversion Pu; subst. match goal with B : nth_error h a = Some ?q |- _ => assert (Q : q = o) by congruence; subst q end.
      apply odepth_in in Nv. cbn [vdepth] in Nv.
      apply (in_map vdepth), list_max_ge in Iu. cbn [vdepth] in Iu.
      destruct I as [<-|I].
      + do 3 eexists. split; [eassumption|]. split; [eassumption|]. unfold odepth in *. lia.
      + match goal with Do : denotes _ _ m' o ?us |- _ => destruct (IH _ b Do I) as (q & mq & ws & Q1 & Q2 & Q3) end.
        exists q, mq, ws. split; auto. split; auto. unfold odepth in *. lia.
    - destruct (den_member _ _ _ _ _ D N) as (v & Nv & Dv). rewrite T in Dv. inversion Dv; subst.
      match goal with L : den_entries _ _ _ l ?us |- _ => destruct (den_entries_value _ _ _ _ _ _ L E) as (key' & u & Iu & Pu) end.
      inversion Pu; subst. match goal with B : nth_error h a = Some ?q |- _ => assert (Q : q = o) by congruence; subst q end.
      apply odepth_in in Nv. cbn [vdepth] in Nv.
      apply (in_map (fun p => vdepth (snd p))), list_max_ge in Iu. cbn [vdepth snd] in Iu.
      destruct I as [<-|I].
      + do 3 eexists. split; [eassumption|]. split; [eassumption|]. unfold odepth in *. lia.
      + match goal with Do : denotes _ _ m' o ?us |- _ => destruct (IH _ b Do I) as (q & mq & ws & Q1 & Q2 & Q3) end.
        exists q, mq, ws. split; auto. split; auto. unfold odepth in *. lia.
  Qed.

  (** An object with a finite value is not part of itself, so no chain of getters comes back. *)
  Lemma visits_distinct path m xs as_ : visits path m xs as_ -> forall vs, denotes sch h m xs vs -> NoDup as_.
  Proof.
    assert (Once : forall path m o as_ ws, visits path m o as_ -> denotes sch h m o ws ->
              forall a, nth_error h a = Some o -> ~ In a as_).
    { intros p m0 o as_' ws V D a A I. destruct (visits_smaller _ _ _ _ V _ _ D I) as (q & mq & us & Q1 & Q2 & Q3).
      assert (q = o) by congruence. subst q. destruct den_functional as [F _].
      rewrite (F _ _ _ D _ _ Q2) in Q3. lia. }
    induction 1 as [m xs|j path m xs m' o as_ T N V IH|j path m xs m' as_ T N V IH
                   |j e path m xs m' l a o as_ T N E A V IH|j k key path m xs m' l a o as_ T N E A V IH];
      intros vs D.
    - constructor.
    - destruct (den_member _ _ _ _ _ D N) as (v & Nv & Dv). rewrite T in Dv. inversion Dv; subst. eauto.
    - apply visits_default in V. subst. constructor.
    - destruct (den_member _ _ _ _ _ D N) as (v & Nv & Dv). rewrite T in Dv. inversion Dv; subst.
      match goal with L : den_list _ _ _ l ?us |- _ => destruct (den_list_nth _ _ _ _ _ L E) as (u & Iu & Pu) end.
      inversion Pu; subst. match goal with B : nth_error h a = Some ?q |- _ => assert (Q : q = o) by congruence; subst q end.
      constructor; eauto.
    - destruct (den_member _ _ _ _ _ D N) as (v & Nv & Dv). rewrite T in Dv. inversion Dv; subst.
      match goal with L : den_entries _ _ _ l ?us |- _ => destruct (den_entries_value _ _ _ _ _ _ L E) as (key' & u & Iu & Pu) end.
      inversion Pu; subst. match goal with B : nth_error h a = Some ?q |- _ => assert (Q : q = o) by congruence; subst q end.
      constructor; eauto.
  Qed.
End Value.

(** Reading depends on the objects passed only. *)
Lemma reads_heap sch h h' path m xs as_ : visits sch h path m xs as_ ->
  (forall b, In b as_ -> nth_error h' b = nth_error h b) ->
  forall n ys, reads sch h path m xs n ys -> reads sch h' path m xs n ys.
Proof.
  induction 1 as [m xs|j path m xs m' o as_ T N V IH|j path m xs m' as_ T N V IH
                   |j e path m xs m' l a o as_ T N E A V IH|j k key path m xs m' l a o as_ T N E A V IH];
    intros S n ys R; inversion R; subst.
  - constructor.
  - assert (X : m'0 = m' /\ o0 = o) by (split; congruence). destruct X; subst. eapply reads_nested; eauto.
  - congruence.
  - congruence.
  - assert (X : m'0 = m') by congruence. subst. eapply reads_not_created; eauto.
  - assert (X : m'0 = m' /\ l0 = l) by (split; congruence). destruct X; subst.
    assert (X : a0 = a) by congruence. subst. assert (X : o0 = o) by congruence. subst.
    apply (reads_element _ _ j e path m xs m' l a o); auto; [rewrite S; [exact A | now left]|]. apply IH; auto. intros. apply S. now right.
  - assert (X : m'0 = m' /\ l0 = l) by (split; congruence). destruct X; subst.
    assert (X : a0 = a) by congruence. subst. assert (X : o0 = o) by congruence. subst.
    apply (reads_entry _ _ j k key path m xs m' l a o); auto; [rewrite S; [exact A | now left]|]. apply IH; auto. intros. apply S. now right.
Qed.

Lemma visits_heap sch h h' path m xs as_ : visits sch h path m xs as_ ->
  (forall b, In b as_ -> nth_error h' b = nth_error h b) -> visits sch h' path m xs as_.
Proof.
  induction 1 as [m xs|j path m xs m' o as_ T N V IH|j path m xs m' as_ T N V IH
                   |j e path m xs m' l a o as_ T N E A V IH|j k key path m xs m' l a o as_ T N E A V IH]; intros S.
  - constructor.
  - eapply visits_nested; eauto.
  - eapply visits_not_created; eauto.
  - apply (visits_element _ _ j e path m xs m' l a o); auto; [rewrite S; [exact A | now left]|]. apply IH. intros. apply S. now right.
  - apply (visits_entry _ _ j k key path m xs m' l a o); auto; [rewrite S; [exact A | now left]|]. apply IH. intros. apply S. now right.
Qed.

Lemma modify_reads sch h i new path m xs as_ : visits sch h path m xs as_ -> NoDup as_ ->
  forall n ys, reads sch h path m xs n ys ->
  exists xs' h', modify sch path i new m xs h = Some (xs', h') /\
    reads sch h' path m xs' n (upd i new ys) /\ visits sch h' path m xs' as_ /\
    length h' = length h /\ (forall b, ~ In b as_ -> nth_error h' b = nth_error h b).
Proof.
  induction 1 as [m xs|j path m xs m' o as_ T N V IH|j path m xs m' as_ T N V IH
                   |j e path m xs m' l a o as_ T N E A V IH|j k key path m xs m' l a o as_ T N E A V IH];
    intros ND n ys R; inversion R; subst; cbn [modify];
    unfold nested_type; try rewrite T; try rewrite (nth_error_nth_eq _ _ _ (MOwn None) N);
    cbn [own_of deref ptrs_of ptr_map_of].
  - do 2 eexists. split; [reflexivity|]. split; [constructor|]. split; [constructor|]. auto.
  - assert (X : m'0 = m' /\ o0 = o) by (split; congruence). destruct X; subst.
    destruct (IH ND n ys) as (o' & h' & M & R' & V' & L & F); auto. rewrite M.
    do 2 eexists. split; [reflexivity|]. split; [eapply reads_nested; eauto; apply upd_nth_error_same; eapply nth_error_bound; eauto|].
    split; [eapply visits_nested; eauto; apply upd_nth_error_same; eapply nth_error_bound; eauto|]. auto.
  - congruence.
  - congruence.
  - assert (X : m'0 = m') by congruence. subst.
    destruct (IH ND n ys) as (o' & h' & M & R' & V' & L & F); auto. rewrite M.
    do 2 eexists. split; [reflexivity|]. split; [eapply reads_nested; eauto; apply upd_nth_error_same; eapply nth_error_bound; eauto|].
    split; [eapply visits_nested; eauto; apply upd_nth_error_same; eapply nth_error_bound; eauto|]. auto.
  - assert (X : m'0 = m' /\ l0 = l) by (split; congruence). destruct X; subst.
    assert (X : a0 = a) by congruence. subst. assert (X : o0 = o) by congruence. subst.
    inversion ND as [|? ? NI ND']; subst.
    destruct (IH ND' n ys) as (o' & h' & M & R' & V' & L & F); auto.
    rewrite (nth_error_nth_eq _ _ _ None E), A, M.
    assert (La : (a < length h')%nat) by (rewrite L; eapply nth_error_bound; eauto).
    assert (Sh : forall b, In b as_ -> nth_error (upd a o' h') b = nth_error h' b).
    { intros b I. apply upd_nth_error_other. intros ->. contradiction. }
    do 2 eexists. split; [reflexivity|].
    split; [eapply reads_element; eauto; [now apply upd_nth_error_same | eapply reads_heap; eauto]|].
    split; [eapply visits_element; eauto; [now apply upd_nth_error_same | eapply visits_heap; eauto]|].
    split; [now rewrite upd_length|]. intros b I. cbn in I.
    rewrite upd_nth_error_other by tauto. apply F. tauto.
  - assert (X : m'0 = m' /\ l0 = l) by (split; congruence). destruct X; subst.
    assert (X : a0 = a) by congruence. subst. assert (X : o0 = o) by congruence. subst.
    inversion ND as [|? ? NI ND']; subst.
    destruct (IH ND' n ys) as (o' & h' & M & R' & V' & L & F); auto.
    rewrite E, A, M.
    assert (La : (a < length h')%nat) by (rewrite L; eapply nth_error_bound; eauto).
    assert (Sh : forall b, In b as_ -> nth_error (upd a o' h') b = nth_error h' b).
    { intros b I. apply upd_nth_error_other. intros ->. contradiction. }
    do 2 eexists. split; [reflexivity|].
    split; [eapply reads_entry; eauto; [now apply upd_nth_error_same | eapply reads_heap; eauto]|].
    split; [eapply visits_entry; eauto; [now apply upd_nth_error_same | eapply visits_heap; eauto]|].
    split; [now rewrite upd_length|]. intros b I. cbn in I.
    rewrite upd_nth_error_other by tauto. apply F. tauto.
Qed.

Lemma modify_put sch h i new w path : forall m xs vs n ys,
  denotes sch h m xs vs -> reads sch h (map Nested path) m xs n ys ->
  (i < length (md_fields (msg_at sch n)))%nat -> den_field sch h (f_ty (field_at sch n i)) new w ->
  exists xs', modify sch (map Nested path) i new m xs h = Some (xs', h) /\
    denotes sch h m xs' (put sch path i w m vs).
Proof.
  induction path as [|j path IH]; intros m xs vs n ys D R L W; cbn [map] in R; inversion R as [|? ? ? ? m' o ? ? T N R'|? ? ? ? m' ? ? T N R'| |]; subst; cbn [map modify put].
  - eexists. split; [reflexivity|]. inversion D; subst. constructor. now apply den_upd.
  - destruct (den_member _ _ _ _ _ _ _ D N) as (v & Nv & Dv). rewrite T in Dv. inversion Dv; subst.
    unfold nested_type. rewrite T, (nth_error_nth_eq _ _ _ _ N), (nth_error_nth_eq _ _ _ _ Nv). cbn [own_of deref].
    edestruct IH as (o' & M & D'); eauto. rewrite M. eexists. split; [reflexivity|].
    inversion D as [? ? ? DF]; subst. constructor. apply den_upd; auto.
    + destruct (den_fields_length _ _ _ _ _ DF) as [Lx _]. rewrite <- Lx. eapply nth_error_bound; eauto.
    + fold (field_at sch m j). rewrite T. now constructor.
  - destruct (den_member _ _ _ _ _ _ _ D N) as (v & Nv & Dv). rewrite T in Dv. inversion Dv; subst.
    unfold nested_type. rewrite T, (nth_error_nth_eq _ _ _ _ N), (nth_error_nth_eq _ _ _ _ Nv). cbn [own_of deref].
    destruct (IH m' (default_mems sch m') (default_obj sch m') n ys) as (o' & M & D'); auto using den_default. rewrite M. eexists. split; [reflexivity|].
    inversion D as [? ? ? DF]; subst. constructor. apply den_upd; auto.
    + destruct (den_fields_length _ _ _ _ _ DF) as [Lx _]. rewrite <- Lx. eapply nth_error_bound; eauto.
    + fold (field_at sch m j). rewrite T. now constructor.
Qed.

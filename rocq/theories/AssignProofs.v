(** Proofs about setters, assignment, copy and move of message objects. *)

From Coq Require Import ZArith List Bool Lia.
From Verif Require Import Base Values MessageSpec MessageProofs SerializeProofs MessageFacts
  PropFacts ObjectModel ObjectSpec ObjectProofs ObjectTotal.
Import ListNotations.
Open Scope Z_scope.

Local Ltac dep := cbn [vdepth] in *; rewrite ?odepth_default; unfold odepth in *; lia.

(** ** Comparison decides sameness *)

Section Decides.
  Variable sch : schema.
  Variable h : heap.
  Hypothesis S : schema_ok sch.

  Lemma eq_obj_false fuel m xs ys vs ws : denotes sch h m xs vs -> denotes sch h m ys ws ->
    object_ok sch m vs -> object_ok sch m ws ->
    nan_free sch (EM m) (VMsg vs) -> nan_free sch (EM m) (VMsg ws) ->
    eq_obj fuel sch h m xs ys = Ok false -> ~ same sch m vs ws.
  Proof.
    intros D1 D2 O1 O2 N1 N2 H E.
    set (n := Datatypes.S (fuel + odepth vs + odepth ws)).
    assert (H1 : eq_obj n sch h m xs ys = Ok true).
    { eapply eq_obj_same; eauto; unfold n; lia. }
    apply (eq_obj_mono sch h fuel n) in H; [congruence | unfold n; lia].
  Qed.

  Lemma lazy_eq_false fuel m x y v w : den_field sch h (FSing (EM m)) x v ->
    den_field sch h (FSing (EM m)) y w -> elem_ok sch (EM m) v -> elem_ok sch (EM m) w ->
    nan_free sch (EM m) v -> nan_free sch (EM m) w ->
    lazy_eq sch (eq_obj fuel sch h) m (own_of x) (own_of y) = Ok false ->
    ~ same_field sch (FSing (EM m)) v w.
  Proof.
    intros D1 D2 O1 O2 N1 N2 H E. apply same_message in E; auto.
    set (n := (fuel + vdepth v + vdepth w)%nat).
    assert (H1 : lazy_eq sch (eq_obj n sch h) m (own_of x) (own_of y) = Ok true).
    { eapply (lazy_eq_same sch h n (eq_obj n sch h)); eauto; try (unfold n; lia).
      intros. eapply eq_obj_same; eauto. }
    apply (lazy_eq_mono sch (eq_obj fuel sch h) (eq_obj n sch h)) in H; [congruence|].
    intros. apply eq_obj_mono. unfold n; lia.
  Qed.

  Lemma lazy_eq_true fuel m x y v w : den_field sch h (FSing (EM m)) x v ->
    den_field sch h (FSing (EM m)) y w -> field_good sch (FSing (EM m)) v ->
    field_good sch (FSing (EM m)) w ->
    lazy_eq sch (eq_obj fuel sch h) m (own_of x) (own_of y) = Ok true ->
    same_field sch (FSing (EM m)) v w.
  Proof.
    intros D1 D2 G1 G2 H. apply same_message; [apply G1 | apply G2 |].
    eapply lazy_eq_sound; eauto. intros. eapply eq_obj_sound; eauto.
  Qed.
End Decides.

(** ** Plain setters *)

Section Setters.
  Variable sch : schema.
  Variable h : heap.

  Lemma ptr_eqb_eq p q : ptr_eqb p q = true -> p = q.
  Proof.
    destruct p, q; cbn; intro H; try discriminate; auto. apply Nat.eqb_eq in H. now subst.
  Qed.
  Lemma ptr_eqb_refl p : ptr_eqb p p = true.
  Proof. destruct p; cbn; auto using Nat.eqb_refl. Qed.

  Lemma ptrs_eqb_eq a : forall b, list_eqb ptr_eqb a b = true <-> a = b.
  Proof.
    induction a as [|p a IH]; intros [|q b]; cbn [list_eqb]; split; intro H; try discriminate; auto.
    - apply andb_prop in H. destruct H as [H1 H2]. apply ptr_eqb_eq in H1. apply IH in H2. congruence.
    - injection H as -> ->. rewrite ptr_eqb_refl. now apply IH.
  Qed.

  Definition is_message (ty : fty) : bool := match ty with FSing (EM _) => true | _ => false end.

  Lemma den_fun_field ty x v v' : den_field sch h ty x v -> den_field sch h ty x v' -> v = v'.
  Proof. intros A B. exact (proj1 (proj2 (proj2 (den_fun sch h))) _ _ _ A _ B). Qed.
  Lemma den_fun_ptr m x v v' : den_ptr sch h m x v -> den_ptr sch h m x v' -> v = v'.
  Proof. intros A B. exact (proj2 (proj2 (proj2 (proj2 (proj2 (den_fun sch h))))) _ _ _ A _ B). Qed.

  (** Members that compare equal hold the same value. *)
  Lemma mem_eqb_same_all ty x y v w : key_ok ty -> is_message ty = false ->
    den_field sch h ty x v -> den_field sch h ty y w ->
    mem_eqb ty x y = true -> same_field sch ty v w.
  Proof.
    intros K M D1 D2 H. destruct (is_plain ty) eqn:P; [eapply mem_eqb_same; eauto|].
    destruct ty as [[t|m]|[t|m]|k [t|m]]; try discriminate P; try discriminate M;
      inversion D1; subst; inversion D2; subst; cbn [mem_eqb] in H.
    - apply ptrs_eqb_eq in H. subst. rewrite (den_fun_field _ _ _ _ D1 D2). reflexivity.
    - unfold same_field. cbn [canon_field map_of]. f_equal.
      match goal with A : den_entries _ _ _ l _, B : den_entries _ _ _ l0 _ |- _ =>
        rename A into A1; rename B into A2 end.
      clear D1 D2. revert l0 kvs0 A2 H. unfold qmap_eqb.
      induction A1 as [|m a p l v kvs P1 A1 IH]; intros l0 kvs0 A2 H; inversion A2; subst;
        try discriminate H; [reflexivity|].
      cbn [list_eqb fst snd] in H. apply andb_prop in H. destruct H as [E1 E2].
      apply andb_prop in E1. destruct E1 as [E1 E3].
      apply keys_neither in E1; [|exact K]. apply ptr_eqb_eq in E3. subst p0.
      cbn [map fst snd]. rewrite E1. f_equal; [|eapply IH; eauto].
      f_equal. f_equal. eapply den_fun_ptr; eauto.
  Qed.

  (** A plain setter: the new value is the argument's; the old one is kept only if it is the same. *)
  Lemma set_plain_spec ty x y v w x' s : key_ok ty -> is_message ty = false ->
    den_field sch h ty x v -> den_field sch h ty y w -> set_plain ty x y = (x', s) ->
    exists u, den_field sch h ty x' u /\ same_field sch ty u w /\ (u = v /\ x' = x \/ u = w /\ x' = y) /\
      (s = false -> same_field sch ty v w /\ x' = x).
  Proof.
    intros K M D1 D2 H. unfold set_plain in H.
    destruct (mem_eqb ty x y) eqn:E; injection H as <- <-.
    - pose proof (mem_eqb_same_all ty x y v w K M D1 D2 E). exists v. repeat split; auto.
    - exists w. repeat split; auto; discriminate.
  Qed.

  Lemma set_plain_signal ty x y v w : key_ok ty -> is_plain ty = true ->
    den_field sch h ty x v -> den_field sch h ty y w ->
    field_nan_free sch ty v -> field_nan_free sch ty w ->
    (snd (set_plain ty x y) = true <-> ~ same_field sch ty v w).
  Proof.
    intros K P D1 D2 N1 N2. unfold set_plain. destruct (mem_eqb ty x y) eqn:E; cbn [snd]; split; intro H.
    - discriminate.
    - destruct H. eapply mem_eqb_same; eauto.
    - intro A. eapply mem_eqb_complete in A; eauto. congruence.
    - reflexivity.
  Qed.
End Setters.

(** ** Assignment *)

Section Assign.
  Variable sch : schema.
  Variable h : heap.
  Hypothesis S : schema_ok sch.

  (** The member [x'] holds a good value that is the same as [w]. *)
  Definition holds (ty : fty) (x' : mem) (w : value) : Prop :=
    exists u, den_field sch h ty x' u /\ field_good sch ty u /\ same_field sch ty u w.
  (** The members [xs'] hold good values that are the same as [ws]. *)
  Definition holds_all (fields : list field) (xs' : list mem) (ws : list value) : Prop :=
    exists us, den_fields sch h fields xs' us /\
      Forall2 (fun f v => field_good sch (f_ty f) v) fields us /\
      canon_fields sch fields us = canon_fields sch fields ws.
  Definition object_holds (m : nat) (xs' : list mem) (ws : list value) : Prop :=
    exists us, denotes sch h m xs' us /\ object_ok sch m us /\ no_nulls (VMsg us) /\ same sch m us ws.

  Lemma good_object m us : Forall2 (fun f v => field_good sch (f_ty f) v) (md_fields (msg_at sch m)) us ->
    object_ok sch m us /\ no_nulls (VMsg us).
  Proof.
    intro G. split.
    - apply object_ok_spec. clear - G. induction G; constructor; auto. now destruct H.
    - cbn [no_nulls]. apply every_Forall. clear - G. induction G; constructor; auto. now destruct H.
  Qed.

  Lemma holds_object m xs' ws : holds_all (md_fields (msg_at sch m)) xs' ws <-> object_holds m xs' ws.
  Proof.
    split.
    - intros (us & D & G & E). exists us. destruct (good_object m us G).
      repeat split; auto. unfold same. now rewrite !canon_obj_spec.
    - intros (us & D & O & N & E). exists us. inversion D; subst. repeat split; auto.
      + now apply good_fields.
      + unfold same in E. now rewrite !canon_obj_spec in E.
  Qed.

  Lemma holds_cons f fields x' xs' w ws : holds (f_ty f) x' w -> holds_all fields xs' ws ->
    holds_all (f :: fields) (x' :: xs') (w :: ws).
  Proof.
    intros (u & D & G & E) (us & Ds & Gs & Es). exists (u :: us). repeat split.
    - now constructor.
    - now constructor.
    - cbn [canon_fields]. unfold same_field in E. now rewrite E, Es.
  Qed.

  Lemma holds_message m o w : elem_ok sch (EM m) w -> object_holds m o (obj_of sch m w) ->
    holds (FSing (EM m)) (MOwn (Some o)) w.
  Proof.
    intros O (us & D & Ou & N & E). exists (VMsg us). repeat split; auto.
    - now constructor.
    - apply same_message; auto.
  Qed.

  Lemma holds_plain ty x y v w : key_ok ty -> is_message ty = false ->
    den_field sch h ty x v -> den_field sch h ty y w -> field_good sch ty v -> field_good sch ty w ->
    holds ty (fst (set_plain ty x y)) w.
  Proof.
    intros K M D1 D2 G1 G2. destruct (set_plain ty x y) as [x' s] eqn:E.
    destruct (set_plain_spec sch h ty x y v w x' s K M D1 D2 E) as (u & D & Sm & C & _).
    exists u. repeat split; auto; destruct C as [[-> ->]|[-> ->]]; try apply G1; apply G2.
  Qed.

  Section Rec.
    Variable fuel : nat.
    Variable rec : nat -> list mem -> list mem -> res (list mem * list nat).
    Hypothesis REC : forall m xs ys vs ws xs' sg, denotes sch h m xs vs -> denotes sch h m ys ws ->
      object_ok sch m vs -> object_ok sch m ws -> no_nulls (VMsg vs) -> no_nulls (VMsg ws) ->
      rec m xs ys = Ok (xs', sg) -> object_holds m xs' ws.

    Lemma assign_field_sound ty x y v w x' s : key_ok ty -> den_field sch h ty x v ->
      den_field sch h ty y w -> field_good sch ty v -> field_good sch ty w ->
      assign_field sch h fuel rec ty x y = Ok (x', s) -> holds ty x' w.
    Proof.
      intros K D1 D2 G1 G2 H. destruct (is_message ty) eqn:M.
      - destruct ty as [[t|m]|[t|m]|k [t|m]]; try discriminate M. cbn [assign_field] in H.
        apply bind_Ok in H. destruct H as ([o s'] & H1 & H2). injection H2 as <- <-.
        unfold assign_message in H1. apply bind_Ok in H1. destruct H1 as (r & H1 & H2).
        destruct r.
        + injection H2 as <- <-. exists v. repeat split; try apply G1.
          * inversion D1; subst; exact D1.
          * eapply lazy_eq_true; eauto.
        + apply bind_Ok in H2. destruct H2 as ([o' sg] & H2 & H3). injection H3 as <- <-.
          apply holds_message; [apply G2|].
          destruct (obj_of_good sch m v G1), (obj_of_good sch m w G2).
          apply (REC m _ _ (obj_of sch m v) (obj_of sch m w)) in H2; auto using deref_den.
      - assert (H' : Ok (set_plain ty x y) = Ok (x', s)).
        { destruct ty as [[t|m]|[t|m]|k [t|m]]; try discriminate M; exact H. }
        injection H' as H'. replace x' with (fst (set_plain ty x y)) by now rewrite H'.
        eapply holds_plain; eauto.
    Qed.

    Lemma assign_fields_sound fields : forall i xs ys vs ws xs' sg,
      Forall (fun f => key_ok (f_ty f)) fields ->
      den_fields sch h fields xs vs -> den_fields sch h fields ys ws ->
      Forall2 (fun f v => field_good sch (f_ty f) v) fields vs ->
      Forall2 (fun f v => field_good sch (f_ty f) v) fields ws ->
      assign_fields sch h fuel rec i fields xs ys = Ok (xs', sg) -> holds_all fields xs' ws.
    Proof.
      induction fields as [|f fields IH]; intros i xs ys vs ws xs' sg K D1 D2 G1 G2 H;
        inversion D1; subst; inversion D2; subst; inversion G1; subst; inversion G2; subst;
        inversion K; subst.
      - injection H as <- <-. exists []. repeat split; constructor.
      - cbn [assign_fields] in H. apply bind_Ok in H. destruct H as ([x' s] & E1 & E2).
        apply bind_Ok in E2. destruct E2 as ([xs'' sg'] & E2 & E3). injection E3 as <- <-.
        apply holds_cons.
        + eapply assign_field_sound; [| | | | |exact E1]; eassumption.
        + eapply IH; [| | | | |exact E2]; eassumption.
    Qed.

    (** The signals: each position at most once, and exactly those of the flagged fields. *)
    Lemma assign_fields_signals fields : forall i xs ys xs' sg,
      assign_fields sch h fuel rec i fields xs ys = Ok (xs', sg) ->
      length xs = length fields -> length ys = length fields ->
      NoDup sg /\ (forall j, In j sg -> (i <= j < i + length fields)%nat) /\
      (forall j, (j < length fields)%nat -> exists s x',
         assign_field sch h fuel rec (f_ty (nth j fields dummy_field))
           (nth j xs (MOwn None)) (nth j ys (MOwn None)) = Ok (x', s)
         /\ nth j xs' (MOwn None) = x' /\ (In (i + j)%nat sg <-> s = true)).
    Proof.
      induction fields as [|f fields IH]; intros i xs ys xs' sg H L1 L2.
      - destruct xs; [|discriminate L1]. cbn in H. injection H as <- <-.
        repeat split; try constructor; try contradiction. cbn. intros; lia.
      - destruct xs as [|x xs]; [discriminate L1|]. destruct ys as [|y ys]; [discriminate L2|].
        cbn [assign_fields] in H. apply bind_Ok in H. destruct H as ([x' s] & E1 & E2).
        apply bind_Ok in E2. destruct E2 as ([xs'' sg'] & E2 & E3). injection E3 as <- <-.
        cbn [length] in L1, L2. destruct (IH _ _ _ _ _ E2) as (A & B & C); try lia.
        assert (F : ~ In i sg') by (intro I; apply B in I; lia).
        split; [destruct s; [constructor|]; auto|]. split.
        + intros j I. cbn [length]. destruct s; [destruct I as [<-|I]; [lia|]|]; apply B in I; lia.
        + intros [|j] Lj.
          * cbn [nth]. exists s, x'. rewrite Nat.add_0_r. repeat split; auto.
            -- destruct s; auto; try (intro I; contradiction).
            -- intros ->. now left.
          * cbn [nth length] in *. destruct (C j ltac:(lia)) as (s0 & x0 & P & Q & R).
            exists s0, x0. repeat split; auto.
            -- intro I. apply R. replace (Datatypes.S i + j)%nat with (i + Datatypes.S j)%nat by lia.
               destruct s; [destruct I as [I|I]; [lia|exact I] | exact I].
            -- intro T. apply R in T. replace (i + Datatypes.S j)%nat with (Datatypes.S i + j)%nat by lia.
               destruct s; [now right | exact T].
    Qed.
  End Rec.

  (** Assignment makes the target hold the value of the source. *)
  Lemma assign_sound fuel : forall m xs ys vs ws xs' sg, denotes sch h m xs vs -> denotes sch h m ys ws ->
    object_ok sch m vs -> object_ok sch m ws -> no_nulls (VMsg vs) -> no_nulls (VMsg ws) ->
    assign fuel sch h m xs ys = Ok (xs', sg) -> object_holds m xs' ws.
  Proof.
    induction fuel as [|fuel IH]; intros m xs ys vs ws xs' sg D1 D2 O1 O2 N1 N2 H; [discriminate|].
    cbn [assign] in H. apply holds_object. inversion D1; inversion D2; subst.
    apply (assign_fields_sound fuel _ IH _ 0 xs ys vs ws xs' sg); auto using schema_keys, good_fields.
  Qed.

  (** ** Assignment returns *)

  (** The members of nested messages set in both can be compared. *)
  Definition nested_at (fields : list field) (vs ws : list value) : Prop :=
    forall i f m v w, nth_error fields i = Some f -> f_ty f = FSing (EM m) ->
      nth_error vs i = Some v -> nth_error ws i = Some w -> comparable_at sch (FSing (EM m)) v w.

  Lemma nested_at_head f fields v vs w ws m : nested_at (f :: fields) (v :: vs) (w :: ws) ->
    f_ty f = FSing (EM m) -> comparable_at sch (FSing (EM m)) v w.
  Proof. intros H T. exact (H 0%nat f m v w eq_refl T eq_refl eq_refl). Qed.

  Lemma nested_at_tail f fields v vs w ws : nested_at (f :: fields) (v :: vs) (w :: ws) -> nested_at fields vs ws.
  Proof. intros H i g m a b. exact (H (Datatypes.S i) g m a b). Qed.

  Lemma nested_at_fields m vs ws : nested_comparable sch m vs ws -> nested_at (md_fields (msg_at sch m)) vs ws.
  Proof.
    intros H i f m' v w F T. apply (H i m').
    - apply nth_error_Some. congruence.
    - unfold field_at. now rewrite (nth_error_nth _ _ _ F).
  Qed.

  Lemma nested_default_nth m i m' v : f_ty (field_at sch m i) = FSing (EM m') ->
    nth_error (default_obj sch m) i = Some v -> v = VNull.
  Proof.
    unfold default_obj, field_at. generalize (md_fields (msg_at sch m)). intro fields. revert i.
    induction fields as [|f fields IH]; intros [|i] T E; cbn [nth map nth_error] in *; try discriminate; eauto.
    injection E as <-. unfold default_field in *. now rewrite T.
  Qed.

  Lemma nested_default_left m ws : nested_comparable sch m (default_obj sch m) ws.
  Proof. intros i m' v w L T E _. rewrite (nested_default_nth m i m' v T E). apply comparable_unset_left. Qed.

  Lemma nested_default_right m vs : nested_comparable sch m vs (default_obj sch m).
  Proof. intros i m' v w L T _ E. rewrite (nested_default_nth m i m' w T E). apply comparable_unset_right. Qed.

  Lemma comparable_nested_of m vs ws : comparable sch m vs ws -> nested_comparable sch m vs ws.
  Proof. intros C i m' v w L T. inversion C as [? ? ? F]; subst. rewrite <- T. auto. Qed.

  (** The comparison before the assignment of a nested message returns, and if it finds a difference the
      assignment of the members is in turn one that returns. *)
  Lemma nested_returns {A} n (rec : nat -> list mem -> list mem -> res A) m x y v w :
    (forall m xs ys vs ws, denotes sch h m xs vs -> denotes sch h m ys ws ->
       object_ok sch m vs -> object_ok sch m ws -> nested_comparable sch m vs ws ->
       no_nulls (VMsg vs) -> no_nulls (VMsg ws) -> (odepth vs < n)%nat -> (odepth ws < n)%nat ->
       exists r, rec m xs ys = Ok r) ->
    den_field sch h (FSing (EM m)) x v -> den_field sch h (FSing (EM m)) y w ->
    elem_ok sch (EM m) v -> elem_ok sch (EM m) w -> comparable_at sch (FSing (EM m)) v w ->
    no_nulls v -> no_nulls w -> (vdepth v <= n)%nat -> (vdepth w <= n)%nat ->
    exists r, lazy_eq sch (eq_obj n sch h) m (own_of x) (own_of y) = Ok r
      /\ (r = false -> exists r', rec m (deref sch m (own_of x)) (deref sch m (own_of y)) = Ok r').
  Proof.
    intros R F1 F2 O1 O2 C N1 N2 L1 L2.
    destruct (lazy_eq_returns sch h n (eq_obj n sch h) (eq_default_returns sch h n)
                (eq_default_returns_left sch h n) (eq_obj_returns sch h S n) m _ _ _ _ F1 F2)
      as (r & E & _); auto.
    exists r. split; [exact E|]. intros ->.
    inversion F1; inversion F2; subst; cbn [own_of deref lazy_eq] in *; try discriminate E.
    - match goal with D : denotes _ _ m ?a ?b |- _ =>
        apply (R m _ a (default_obj sch m) b (den_default sch h m) D); auto using default_ok,
          default_no_nulls, nested_default_left; dep end.
    - match goal with D : denotes _ _ m ?a ?b |- _ =>
        apply (R m a _ b (default_obj sch m) D (den_default sch h m)); auto using default_ok,
          default_no_nulls, nested_default_right; dep end.
    - inversion C; subst; [contradiction|].
      eapply R; eauto using comparable_nested_of; dep.
  Qed.

  Lemma assign_fields_returns n rec fields : forall i xs ys vs ws,
    (forall m xs ys vs ws, denotes sch h m xs vs -> denotes sch h m ys ws ->
       object_ok sch m vs -> object_ok sch m ws -> nested_comparable sch m vs ws ->
       no_nulls (VMsg vs) -> no_nulls (VMsg ws) -> (odepth vs < n)%nat -> (odepth ws < n)%nat ->
       exists r, rec m xs ys = Ok r) ->
    den_fields sch h fields xs vs -> den_fields sch h fields ys ws ->
    Forall2 (fun f v => field_good sch (f_ty f) v) fields vs -> Forall2 (fun f v => field_good sch (f_ty f) v) fields ws ->
    nested_at fields vs ws ->
    (odepth vs <= n)%nat -> (odepth ws <= n)%nat ->
    exists r, assign_fields sch h n rec i fields xs ys = Ok r.
  Proof.
    induction fields as [|f fields IH]; intros i xs ys vs ws R D1 D2 G1 G2 C L1 L2;
      inversion D1; subst; inversion D2; subst; inversion G1; subst; inversion G2; subst; cbn [assign_fields]; eauto.
    apply odepth_cons in L1, L2. destruct L1 as [L1 L1s], L2 as [L2 L2s].
    match goal with |- exists r, bind ?e _ = _ => assert (E : exists r, e = Ok r) end.
    { pose proof (fun m => nested_at_head f fields _ _ _ _ m C) as Ch.
      repeat match goal with H : field_good _ _ _ |- _ => revert H end.
      repeat match goal with H : den_field _ _ _ _ _ |- _ => revert H end. revert Ch.
      destruct (f_ty f) as [[t|m]|[t|m]|k [t|m]]; intros Ch F1 F2 [O1 N1] [O2 N2]; cbn [assign_field]; eauto.
      unfold assign_message.
      destruct (nested_returns n rec m _ _ _ _ R F1 F2) as (r & E & A); auto.
      rewrite E. cbn [bind]. destruct r; [cbn; eauto|].
      destruct (A eq_refl) as [[o sg] ->]. cbn [bind]. eauto. }
    destruct E as [[x' s] ->]. cbn [bind].
    edestruct (IH (Datatypes.S i)) as [[xs' sg] ->]; eauto using nested_at_tail. cbn [bind]. eauto.
  Qed.

  Lemma assign_returns : forall n m xs ys vs ws,
    denotes sch h m xs vs -> denotes sch h m ys ws ->
    object_ok sch m vs -> object_ok sch m ws -> nested_comparable sch m vs ws ->
    no_nulls (VMsg vs) -> no_nulls (VMsg ws) -> (odepth vs < n)%nat -> (odepth ws < n)%nat ->
    exists r, assign n sch h m xs ys = Ok r.
  Proof.
    induction n as [|n IH]; intros m xs ys vs ws D1 D2 O1 O2 C N1 N2 L1 L2; [lia|].
    cbn [assign]. inversion D1; subst; inversion D2; subst.
    eapply assign_fields_returns; eauto using good_fields, nested_at_fields; lia.
  Qed.

  (** Members whose nested messages are not yet created. *)
  Definition fresh (f : field) (x : mem) : Prop := is_message (f_ty f) = true -> x = MOwn None.

  Lemma assign_fields_fresh n rec fields : forall i xs ys ws,
    (forall m ys ws, denotes sch h m ys ws -> (odepth ws < n)%nat ->
       exists r, rec m (default_mems sch m) ys = Ok r) ->
    Forall2 fresh fields xs -> den_fields sch h fields ys ws -> (odepth ws <= n)%nat ->
    exists r, assign_fields sch h n rec i fields xs ys = Ok r.
  Proof.
    induction fields as [|f fields IH]; intros i xs ys ws R F D L;
      inversion F; subst; inversion D; subst; cbn [assign_fields]; eauto.
    apply odepth_cons in L. destruct L as [L1 L2].
    match goal with |- exists r, bind ?e _ = _ => assert (E : exists r, e = Ok r) end.
    { unfold fresh in H1. match goal with H : den_field _ _ _ _ _ |- _ => revert H end. revert H1.
      destruct (f_ty f) as [[t|m]|[t|m]|k [t|m]]; intros F1 F2; cbn [assign_field]; eauto.
      specialize (F1 eq_refl). subst y. unfold assign_message. cbn [own_of].
      inversion F2; subst; cbn [own_of lazy_eq bind deref]; eauto.
      match goal with H : denotes _ _ m ?a ?b |- _ =>
        destruct (eq_default_returns sch h n m a b H) as [r ->]; [dep|];
        destruct (R m a b H) as [[o sg] E]; [dep|] end.
      cbn [bind]. destruct r; [cbn; eauto|]. rewrite E. cbn [bind]. eauto. }
    destruct E as [[x' s] ->]. cbn [bind].
    edestruct (IH (Datatypes.S i)) as [[xs' sg] ->]; eauto. cbn [bind]. eauto.
  Qed.

  Lemma default_fresh fields : Forall2 fresh fields (map (fun f => default_mem (f_ty f)) fields).
  Proof.
    induction fields as [|f fields IH]; cbn [map]; constructor; auto.
    intro M. destruct (f_ty f) as [[t|m]|e|k e]; try discriminate M. reflexivity.
  Qed.

  Lemma assign_default_returns : forall n m ys ws, denotes sch h m ys ws -> (odepth ws < n)%nat ->
    exists r, assign n sch h m (default_mems sch m) ys = Ok r.
  Proof.
    induction n as [|n IH]; intros m ys ws D L; [lia|].
    cbn [assign]. inversion D; subst. eapply assign_fields_fresh; eauto; [apply default_fresh | lia].
  Qed.

  (** ** Copy construction *)

  (** Uninitialised members have some value of their type. *)
  Definition junk_ok (m : nat) (junk : nat -> scalar) : Prop :=
    forall i t, (i < length (md_fields (msg_at sch m)))%nat ->
    f_ty (field_at sch m i) = FSing (ES t) -> raw_type t = true -> scalar_ok t (junk i).

  Lemma raw_mems_fresh junk fields : forall i, Forall2 fresh fields (raw_mems junk i fields).
  Proof.
    induction fields as [|f fields IH]; intro i; cbn [raw_mems]; constructor; auto.
    intro M. destruct (f_ty f) as [[t|m]|e|k e]; try discriminate M. reflexivity.
  Qed.

  Lemma raw_mems_good junk fields : forall i,
    (forall j t, (j < length fields)%nat -> f_ty (nth j fields dummy_field) = FSing (ES t) ->
       raw_type t = true -> scalar_ok t (junk (i + j)%nat)) ->
    exists us, den_fields sch h fields (raw_mems junk i fields) us /\
      Forall2 (fun f v => field_good sch (f_ty f) v) fields us.
  Proof.
    induction fields as [|f fields IH]; intros i J; cbn [raw_mems].
    - exists []. split; constructor.
    - destruct (IH (Datatypes.S i)) as (us & D & G).
      { intros j t Lj E R. replace (Datatypes.S i + j)%nat with (i + Datatypes.S j)%nat by lia.
        apply (J (Datatypes.S j)); auto. cbn [length]. lia. }
      specialize (J 0%nat). cbn [nth length] in J. rewrite Nat.add_0_r in J.
      assert (X : exists u, den_field sch h (f_ty f)
          match f_ty f with
          | FSing (ES t) => if raw_type t then MScalar (junk i) else default_mem (f_ty f)
          | ty => default_mem ty
          end u /\ field_good sch (f_ty f) u).
      { assert (Dflt : exists u, den_field sch h (f_ty f) (default_mem (f_ty f)) u /\ field_good sch (f_ty f) u).
        { exists (default_field (f_ty f)). split; [apply den_default_field|].
          split; destruct (f_ty f) as [[t|m]|e|k e]; cbn; auto using default_scalar_ok. }
        destruct (f_ty f) as [[t|m]|e|k e]; try exact Dflt.
        destruct (raw_type t) eqn:R; [|exact Dflt].
        exists (VScalar (junk i)). split; [constructor|]. split; cbn; auto. apply J; auto. lia. }
      destruct X as (u & Du & Gu). exists (u :: us). split; constructor; auto.
  Qed.

  Lemma copy_construct_spec junk m ys ws : junk_ok m junk -> denotes sch h m ys ws ->
    object_ok sch m ws -> no_nulls (VMsg ws) ->
    forall n, (odepth ws < n)%nat -> exists xs, copy_construct n sch h junk m ys = Ok xs /\
      object_holds m xs ws.
  Proof.
    intros J D O N [|n] L; [lia|]. cbn [copy_construct]. inversion D; subst.
    destruct (raw_mems_good junk (md_fields (msg_at sch m)) 0) as (us & Du & Gu).
    { intros j t Lj E R. cbn [Nat.add]. now apply (J j t). }
    destruct (assign_fields_fresh n (assign n sch h) (md_fields (msg_at sch m)) 0
                (raw_mems junk 0 (md_fields (msg_at sch m))) ys ws) as [[xs sg] E]; auto.
    - intros. eapply assign_default_returns; eauto.
    - apply raw_mems_fresh.
    - lia.
    - rewrite E. exists xs. split; [reflexivity|]. apply holds_object.
      apply (assign_fields_sound n (assign n sch h) (assign_sound n) _ 0
               (raw_mems junk 0 (md_fields (msg_at sch m))) ys us ws xs sg);
        auto using schema_keys, good_fields.
  Qed.
End Assign.

(** ** Move *)

Section Move.
  Variable sch : schema.
  Variable h : heap.
  Hypothesis S : schema_ok sch.

  (** The member still holds some value of its type. *)
  Definition valid (ty : fty) (x : mem) : Prop :=
    exists u, den_field sch h ty x u /\ field_good sch ty u.
  Definition valid_all (fields : list field) (xs : list mem) : Prop :=
    exists us, den_fields sch h fields xs us /\ Forall2 (fun f v => field_good sch (f_ty f) v) fields us.

  Lemma valid_cons f fields x xs : valid (f_ty f) x -> valid_all fields xs ->
    valid_all (f :: fields) (x :: xs).
  Proof. intros (u & D & G) (us & Ds & Gs). exists (u :: us). split; constructor; auto. Qed.

  Section Rec.
    Variable fuel : nat.
    Variable rec : nat -> list mem -> list mem -> res (list mem * list mem).
    Hypothesis REC : forall m xs ys vs ws xs' ys', denotes sch h m xs vs -> denotes sch h m ys ws ->
      object_ok sch m vs -> object_ok sch m ws -> no_nulls (VMsg vs) -> no_nulls (VMsg ws) ->
      rec m xs ys = Ok (xs', ys') ->
      object_holds sch h m xs' ws /\ valid_all (md_fields (msg_at sch m)) ys'.

    Lemma move_field_sound ty x y v w x' y' : key_ok ty -> den_field sch h ty x v ->
      den_field sch h ty y w -> field_good sch ty v -> field_good sch ty w ->
      move_field sch h fuel rec ty x y = Ok (x', y') -> holds sch h ty x' w /\ valid ty y'.
    Proof.
      intros K D1 D2 G1 G2 H.
      assert (Vx : valid ty x) by (exists v; auto). assert (Vy : valid ty y) by (exists w; auto).
      assert (Hy : holds sch h ty y w) by (exists w; repeat split; auto; apply G2).
      assert (swap : is_message ty = false ->
        forall a b, (if mem_eqb ty x y then Ok (x, y) else Ok (y, x)) = Ok (a, b) ->
        holds sch h ty a w /\ valid ty b).
      { intros M a b E. pose proof (holds_plain sch h ty x y v w K M D1 D2 G1 G2) as P.
        unfold set_plain in P. destruct (mem_eqb ty x y); injection E as <- <-; auto. }
      destruct ty as [[t|m]|e|k e]; cbn [move_field] in H; try (now apply swap).
      - destruct (is_blob t) eqn:B; [destruct t; try discriminate B; now apply swap|].
        destruct t; try discriminate B; try (injection H as <- <-; auto; fail);
          (injection H as <- <-; split; [eapply holds_plain; eauto|]);
          exists (VScalar (SNum 0)); (split; [constructor|split; cbn; auto]);
          unfold WireSpec.in_s, WireSpec.in_u; cbn; lia.
      - apply bind_Ok in H. destruct H as ([o o'] & H1 & H2). injection H2 as <- <-.
        unfold move_message in H1. apply bind_Ok in H1. destruct H1 as (r & H1 & H2). destruct r.
        + injection H2 as <- <-. split.
          * exists v. repeat split; try apply G1.
            -- inversion D1; subst; exact D1.
            -- eapply lazy_eq_true; eauto.
          * exists w. split; [|exact G2]. inversion D2; subst; exact D2.
        + apply bind_Ok in H2. destruct H2 as ([a b] & H2 & H3). injection H3 as <- <-.
          destruct (obj_of_good sch m v G1), (obj_of_good sch m w G2).
          apply (REC m _ _ (obj_of sch m v) (obj_of sch m w)) in H2; auto using deref_den.
          destruct H2 as [P (us & Q1 & Q2)].
          split; [apply holds_message; [apply G2|exact P]|].
          exists (VMsg us). split; [constructor; now constructor|].
          destruct (good_object sch m us Q2). split; auto.
    Qed.

    Lemma move_fields_sound fields : forall xs ys vs ws xs' ys',
      Forall (fun f => key_ok (f_ty f)) fields ->
      den_fields sch h fields xs vs -> den_fields sch h fields ys ws ->
      Forall2 (fun f v => field_good sch (f_ty f) v) fields vs ->
      Forall2 (fun f v => field_good sch (f_ty f) v) fields ws ->
      move_fields sch h fuel rec fields xs ys = Ok (xs', ys') ->
      holds_all sch h fields xs' ws /\ valid_all fields ys'.
    Proof.
      induction fields as [|f fields IH]; intros xs ys vs ws xs' ys' K D1 D2 G1 G2 H;
        inversion D1; subst; inversion D2; subst; inversion G1; subst; inversion G2; subst;
        inversion K; subst.
      - injection H as <- <-. split; exists []; repeat split; constructor.
      - cbn [move_fields] in H. apply bind_Ok in H. destruct H as ([a b] & E1 & E2).
        apply bind_Ok in E2. destruct E2 as ([c d] & E2 & E3). injection E3 as <- <-.
        eapply move_field_sound in E1; [|eassumption..]. eapply IH in E2; [|eassumption..].
        destruct E1 as [P1 P2], E2 as [Q1 Q2].
        split; [now apply holds_cons | now apply valid_cons].
    Qed.
  End Rec.

  Lemma move_assign_sound fuel : forall m xs ys vs ws xs' ys', denotes sch h m xs vs ->
    denotes sch h m ys ws -> object_ok sch m vs -> object_ok sch m ws ->
    no_nulls (VMsg vs) -> no_nulls (VMsg ws) -> move_assign fuel sch h m xs ys = Ok (xs', ys') ->
    object_holds sch h m xs' ws /\ valid_all (md_fields (msg_at sch m)) ys'.
  Proof.
    induction fuel as [|fuel IH]; intros m xs ys vs ws xs' ys' D1 D2 O1 O2 N1 N2 H; [discriminate|].
    cbn [move_assign] in H. inversion D1; inversion D2; subst.
    apply (move_fields_sound fuel _ IH _ xs ys vs ws xs' ys') in H; auto using schema_keys, good_fields.
    destruct H as [P Q].
    split; [now apply holds_object | exact Q].
  Qed.

  Lemma move_fields_returns n rec fields : forall xs ys vs ws,
    (forall m xs ys vs ws, denotes sch h m xs vs -> denotes sch h m ys ws ->
       object_ok sch m vs -> object_ok sch m ws -> nested_comparable sch m vs ws ->
       no_nulls (VMsg vs) -> no_nulls (VMsg ws) -> (odepth vs < n)%nat -> (odepth ws < n)%nat ->
       exists r, rec m xs ys = Ok r) ->
    den_fields sch h fields xs vs -> den_fields sch h fields ys ws ->
    Forall2 (fun f v => field_good sch (f_ty f) v) fields vs -> Forall2 (fun f v => field_good sch (f_ty f) v) fields ws ->
    nested_at sch fields vs ws -> (odepth vs <= n)%nat -> (odepth ws <= n)%nat ->
    exists r, move_fields sch h n rec fields xs ys = Ok r.
  Proof.
    induction fields as [|f fields IH]; intros xs ys vs ws R D1 D2 G1 G2 C L1 L2;
      inversion D1; subst; inversion D2; subst; inversion G1; subst; inversion G2; subst; cbn [move_fields]; eauto.
    apply odepth_cons in L1, L2. destruct L1 as [L1 L1s], L2 as [L2 L2s].
    match goal with |- exists r, bind ?e _ = _ => assert (E : exists r, e = Ok r) end.
    { pose proof (fun m => nested_at_head sch f fields _ _ _ _ m C) as Ch.
      repeat match goal with H : field_good _ _ _ |- _ => revert H end.
      repeat match goal with H : den_field _ _ _ _ _ |- _ => revert H end. revert Ch.
      destruct (f_ty f) as [[t|m]|e|k e]; intros Ch F1 F2 [O1 N1] [O2 N2]; cbn [move_field];
        try (destruct (mem_eqb _ x x0); eauto; fail).
      - destruct t; cbn [is_blob]; try destruct (mem_eqb _ x x0); eauto.
      - unfold move_message.
        destruct (nested_returns sch h S n rec m _ _ _ _ R F1 F2) as (r & E & A); auto.
        rewrite E. cbn [bind]. destruct r; [cbn; eauto|].
        destruct (A eq_refl) as [[o sg] ->]. cbn [bind]. eauto. }
    destruct E as [[x' s] ->]. cbn [bind].
    edestruct IH as [[xs' sg] ->]; eauto using nested_at_tail. cbn [bind]. eauto.
  Qed.

  Lemma move_assign_returns : forall n m xs ys vs ws,
    denotes sch h m xs vs -> denotes sch h m ys ws ->
    object_ok sch m vs -> object_ok sch m ws -> nested_comparable sch m vs ws ->
    no_nulls (VMsg vs) -> no_nulls (VMsg ws) -> (odepth vs < n)%nat -> (odepth ws < n)%nat ->
    exists r, move_assign n sch h m xs ys = Ok r.
  Proof.
    induction n as [|n IH]; intros m xs ys vs ws D1 D2 O1 O2 C N1 N2 L1 L2; [lia|].
    cbn [move_assign]. inversion D1; subst; inversion D2; subst.
    eapply move_fields_returns; eauto using good_fields, nested_at_fields; lia.
  Qed.
End Move.

(** ** Move construction *)

Section MoveConstruct.
  Variable sch : schema.
  Variable h : heap.
  Hypothesis S : schema_ok sch.

  Lemma move_fields_fresh n rec fields : forall xs ys ws,
    (forall m ys ws, denotes sch h m ys ws -> (odepth ws < n)%nat ->
       exists r, rec m (default_mems sch m) ys = Ok r) ->
    Forall2 fresh fields xs -> den_fields sch h fields ys ws -> (odepth ws <= n)%nat ->
    exists r, move_fields sch h n rec fields xs ys = Ok r.
  Proof.
    induction fields as [|f fields IH]; intros xs ys ws R F D L;
      inversion F; subst; inversion D; subst; cbn [move_fields]; eauto.
    apply odepth_cons in L. destruct L as [L1 L2].
    match goal with |- exists r, bind ?e _ = _ => assert (E : exists r, e = Ok r) end.
    { unfold fresh in H1. match goal with H : den_field _ _ _ _ _ |- _ => revert H end. revert H1.
      destruct (f_ty f) as [[t|m]|e|k e]; intros F1 F2; cbn [move_field];
        try (destruct (mem_eqb _ y x); eauto; fail).
      - destruct t; cbn [is_blob]; try destruct (mem_eqb _ y x); eauto.
      - specialize (F1 eq_refl). subst y. unfold move_message. cbn [own_of].
        inversion F2; subst; cbn [own_of lazy_eq bind deref]; eauto.
        match goal with H : denotes _ _ m ?a ?b |- _ =>
          destruct (eq_default_returns sch h n m a b H) as [r ->]; [dep|];
          destruct (R m a b H) as [[o sg] E]; [dep|] end.
        cbn [bind]. destruct r; [cbn; eauto|]. rewrite E. cbn [bind]. eauto. }
    destruct E as [[x' s] ->]. cbn [bind].
    edestruct IH as [[xs' sg] ->]; eauto. cbn [bind]. eauto.
  Qed.

  Lemma move_default_returns : forall n m ys ws, denotes sch h m ys ws -> (odepth ws < n)%nat ->
    exists r, move_assign n sch h m (default_mems sch m) ys = Ok r.
  Proof.
    induction n as [|n IH]; intros m ys ws D L; [lia|].
    cbn [move_assign]. inversion D; subst. eapply move_fields_fresh; eauto; [apply default_fresh | lia].
  Qed.

  Lemma move_construct_field_sound n ty x y v w x' y' : key_ok ty -> den_field sch h ty x v ->
    den_field sch h ty y w -> field_good sch ty v -> field_good sch ty w ->
    move_construct_field n sch h ty x y = Ok (x', y') -> holds sch h ty x' w /\ valid sch h ty y'.
  Proof.
    intros K D1 D2 G1 G2 H.
    assert (Sw : forall a b, Ok (y, x) = Ok (a, b) -> holds sch h ty a w /\ valid sch h ty b).
    { intros a b E. injection E as <- <-. split; [exists w|exists v]; repeat split; auto; first [apply G2|apply G1]. }
    assert (Mv : move_field sch h n (move_assign n sch h) ty x y = Ok (x', y') ->
                 holds sch h ty x' w /\ valid sch h ty y').
    { intro E. apply (move_field_sound sch h S n (move_assign n sch h) (move_assign_sound sch h S n)
        ty x y v w x' y'); auto. }
    destruct ty as [[t|m]|e|k e]; unfold move_construct_field in H; try (now apply Sw); try (now apply Mv).
    destruct t; cbn [is_blob] in H; first [now apply Mv | now apply Sw].
  Qed.

  Lemma move_construct_fields_spec n fields : forall xs ys vs ws,
    Forall (fun f => key_ok (f_ty f)) fields ->
    Forall2 fresh fields xs ->
    den_fields sch h fields xs vs -> den_fields sch h fields ys ws ->
    Forall2 (fun f v => field_good sch (f_ty f) v) fields vs ->
    Forall2 (fun f v => field_good sch (f_ty f) v) fields ws -> (odepth ws <= n)%nat ->
    exists xs' ys', move_construct_fields n sch h fields xs ys = Ok (xs', ys') /\
      holds_all sch h fields xs' ws /\ valid_all sch h fields ys'.
  Proof.
    induction fields as [|f fields IH]; intros xs ys vs ws K F D1 D2 G1 G2 L;
      inversion F; subst; inversion D1; subst; inversion D2; subst; inversion G1; subst;
      inversion G2; subst; inversion K; subst; cbn [move_construct_fields].
    - exists [], []. repeat split; exists []; repeat split; constructor.
    - apply odepth_cons in L. destruct L as [L1 L2].
      match goal with H1 : den_field _ _ _ y _, H2 : den_field _ _ _ x _ |- _ =>
        rename H1 into Dx; rename H2 into Dy end.
      match goal with |- exists a b, bind ?e _ = _ /\ _ => assert (E : exists a b, e = Ok (a, b)) end.
      { unfold fresh in H1. revert Dx Dy. revert H1.
        destruct (f_ty f) as [[t|m]|e|k e]; intros F1 Dx Dy; cbn [move_construct_field]; eauto.
        - destruct t; cbn [is_blob move_field]; eauto.
        - specialize (F1 eq_refl). subst y. cbn [move_field]. unfold move_message. cbn [own_of].
          inversion Dy; subst; cbn [own_of lazy_eq bind deref]; eauto.
          match goal with H : denotes _ _ m ?a ?b |- _ =>
            destruct (eq_default_returns sch h n m a b H) as [r ->]; [dep|];
            destruct (move_default_returns n m a b H) as [[o sg] E]; [dep|] end.
          cbn [bind]. destruct r; [cbn; eauto|]. rewrite E. cbn [bind]. eauto. }
      destruct E as (x' & y' & E). rewrite E. cbn [bind].
      eapply move_construct_field_sound in E; [|eassumption..]. destruct E as [P1 P2].
      edestruct IH as (xs'' & ys'' & E2 & Q1 & Q2); [| | | | | | |rewrite E2]; try eassumption.
      cbn [bind]. exists (x' :: xs''), (y' :: ys'').
      split; [reflexivity|]. split; [now apply holds_cons | now apply valid_cons].
  Qed.

  Lemma move_construct_spec junk m ys ws : junk_ok sch m junk -> denotes sch h m ys ws ->
    object_ok sch m ws -> no_nulls (VMsg ws) ->
    forall n, (odepth ws <= n)%nat -> exists xs ys', move_construct n sch h junk m ys = Ok (xs, ys') /\
      object_holds sch h m xs ws /\ valid_all sch h (md_fields (msg_at sch m)) ys'.
  Proof.
    intros J D O N n L. unfold move_construct. inversion D; subst.
    destruct (raw_mems_good sch h junk (md_fields (msg_at sch m)) 0) as (us & Du & Gu).
    { intros j t Lj E R. cbn [Nat.add]. now apply (J j t). }
    destruct (move_construct_fields_spec n _ _ _ _ _ (schema_keys sch S m) (raw_mems_fresh junk _ 0) Du H Gu
                (good_fields sch m ws O N) L) as (xs & ys' & E & P & Q).
    exists xs, ys'. split; [exact E|]. split; [now apply holds_object | exact Q].
  Qed.
End MoveConstruct.

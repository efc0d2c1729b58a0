(** Proofs that comparison, assignment, setters and moves crash on maps with other keys. *)

From Coq Require Import ZArith List Bool Lia Arith.
From Verif Require Import Base Values MessageSpec MessageProofs SerializeProofs MessageFacts
  PropFacts ObjectModel ObjectSpec ObjectProofs ObjectTotal AssignProofs ObjectFacts.
Import ListNotations.
Open Scope Z_scope.

Local Ltac dep := cbn [vdepth] in *; rewrite ?odepth_default; unfold odepth in *; lia.

Section Clash.
  Variable sch : schema.
  Variable h : heap.
  Hypothesis S : schema_ok sch.

  Lemma qmap_value_missing k m key b kws : key_type k -> den_entries sch h m b kws ->
    ~ In (canon_scalar k key) (map (canon_scalar k) (keys_of kws)) -> qmap_value k key b = None.
  Proof.
    intros K D. induction D as [|m' x q b v kws P D IH]; intro N; [reflexivity|].
    cbn [qmap_value]. destruct (key_ltb k key x || key_ltb k x key) eqn:E.
    - apply IH. intro I. apply N. now right.
    - exfalso. apply N. left. cbn [fst]. apply orb_false_elim in E. destruct E as [E1 E2].
      symmetry. now apply key_tri.
  Qed.

  Lemma map_clash n k m a : forall b kvs kws key, key_type k ->
    den_entries sch h m a kvs -> den_entries sch h m b kws -> keys_sorted k kws ->
    every (fun p => scalar_ok k (fst p) /\ elem_ok sch (EM m) (snd p)) kvs ->
    every (fun p => scalar_ok k (fst p) /\ elem_ok sch (EM m) (snd p)) kws ->
    every (fun p => nan_free sch (EM m) (snd p)) kvs ->
    every (fun p => nan_free sch (EM m) (snd p)) kws ->
    no_nulls (VMap kvs) -> no_nulls (VMap kws) ->
    (forall p, In p kvs -> (vdepth (snd p) <= n)%nat) ->
    (forall p, In p kws -> (vdepth (snd p) <= n)%nat) ->
    In key (keys_of kvs) -> ~ In (canon_scalar k key) (map (canon_scalar k) (keys_of kws)) ->
    (forall x y v w, In (x, v) kvs -> In (y, w) kws -> canon_scalar k x = canon_scalar k y ->
       same_field sch (FSing (EM m)) v w) ->
    map_compare h (eq_obj n sch h) k m a b = UB NullDeref.
  Proof.
    induction a as [|[x p] a IH]; intros b kvs kws key K D1 D2 So O1 O2 N1 N2 M1 M2 L1 L2 I J C;
      inversion D1; subst; [contradiction|]. cbn [map_compare].
    destruct O1 as [O1 O1s], N1 as [N1 N1s], M1 as [[M1 M1'] M1s]. cbn [fst snd] in *.
    assert (Dec : {In (canon_scalar k x) (map (canon_scalar k) (keys_of kws))} +
                  {~ In (canon_scalar k x) (map (canon_scalar k) (keys_of kws))}).
    { apply in_dec. intros s s'. repeat decide equality. }
    destruct Dec as [F|F].
    - unfold keys_of in F. rewrite map_map in F. apply in_map_iff in F. destruct F as ([y w] & Ek & F).
      cbn [fst] in Ek. symmetry in Ek.
      pose proof (qmap_value_found sch h k m x b kws y w K D2 So F Ek) as P.
      pose proof (C x y v w (or_introl eq_refl) F Ek) as Sm.
      assert (O2' := O2). assert (N2' := N2). apply every_Forall in O2', N2'.
      rewrite Forall_forall in O2', N2'. specialize (O2' _ F). specialize (N2' _ F).
      assert (M2' := M2). cbn [no_nulls] in M2'. apply every_Forall in M2'. rewrite Forall_forall in M2'.
      specialize (M2' _ F). cbn [fst snd] in *.
      apply same_message in Sm; [|tauto|tauto].
      assert (Ev : canon_elem sch (EM m) w = canon_elem sch (EM m) v).
      { destruct v; try (now exfalso; apply M1); try (exfalso; tauto).
        destruct w; try (now exfalso; apply (proj1 M2')); try (exfalso; tauto).
        rewrite !canon_elem_msg. cbn [obj_of] in Sm. now rewrite Sm. }
      rewrite (pointee_same sch h n (eq_obj n sch h) (eq_obj_same sch h S n) m (qmap_value k x b) p w v P); auto;
        try tauto; [|now apply (L2 (y, w))|now apply (L1 (x, v)); left].
      cbn [bind]. apply (IH b kvs0 kws key); auto.
      + intros q Iq. apply L1. now right.
      + destruct I as [<-|I]; [|exact I]. exfalso. apply J. cbn [fst]. rewrite Ek. apply in_map.
        change y with (fst (y, w)). now apply in_map.
      + intros x' y' v' w' A. apply C. now right.
    - rewrite (qmap_value_missing k m x b kws K D2 F). unfold pointee_eq.
      match goal with H : den_ptr _ _ _ p v |- _ => inversion H; subst; [contradiction|] end. reflexivity.
  Qed.

  Lemma fields_clash n fields : forall i xs ys vs ws k m l l' a, Forall (fun f => key_ok (f_ty f)) fields ->
    den_fields sch h fields xs vs -> den_fields sch h fields ys ws ->
    Forall2 (fun f v => val_ok sch (f_ty f) v) fields vs ->
    Forall2 (fun f v => val_ok sch (f_ty f) v) fields ws ->
    Forall2 (fun f v => field_nan_free sch (f_ty f) v) fields vs ->
    Forall2 (fun f v => field_nan_free sch (f_ty f) v) fields ws ->
    every no_nulls vs -> every no_nulls ws -> (odepth vs <= n)%nat -> (odepth ws <= n)%nat ->
    (i < length fields)%nat -> f_ty (nth i fields dummy_field) = FMap k (EM m) ->
    nth_error vs i = Some (VMap l) -> nth_error ws i = Some (VMap l') -> length l = length l' ->
    In a (keys_of l) -> ~ In (canon_scalar k a) (map (canon_scalar k) (keys_of l')) ->
    (forall b b' v v', In (b, v) l -> In (b', v') l' -> canon_scalar k b = canon_scalar k b' ->
       same_field sch (FSing (EM m)) v v') ->
    (forall j v w, (j < i)%nat -> nth_error vs j = Some v -> nth_error ws j = Some w ->
       same_field sch (f_ty (nth j fields dummy_field)) v w) ->
    fields_eq sch h (eq_obj n sch h) fields xs ys = UB NullDeref.
  Proof.
    induction fields as [|f fields IH]; intros i xs ys vs ws k m l l' a K D1 D2 O1 O2 N1 N2 M1 M2 L1 L2 Li T A B El I J C Sm;
      cbn [length] in Li; [lia|].
    inversion D1; subst; inversion D2; subst; inversion O1; subst; inversion O2; subst;
      inversion N1; subst; inversion N2; subst; inversion K; subst.
    destruct M1 as [M1 M1s], M2 as [M2 M2s]. apply odepth_cons in L1, L2. destruct L1 as [L1 L1s], L2 as [L2 L2s].
    cbn [fields_eq]. destruct i as [|i]; cbn [nth nth_error] in *.
    - injection A as ->. injection B as ->. rewrite T in *. cbn [field_eq].
      repeat match goal with H : den_field _ _ _ _ _ |- _ => inversion H; subst; clear H end.
      cbn [val_ok field_nan_free key_ok ptr_map_of] in *. unfold repeatedMapCompare.
      match goal with |- context [Nat.eqb ?x ?y] => replace (Nat.eqb x y) with true end.
      2: { symmetry. apply Nat.eqb_eq.
           repeat match goal with H : den_entries _ _ _ _ _ |- _ => apply den_entries_length in H end. congruence. }
      erewrite map_clash; [reflexivity|..]; try eassumption; try tauto.
      + intros u Iu. pose proof (vdepth_map _ _ Iu). lia.
      + intros u Iu. pose proof (vdepth_map _ _ Iu). lia.
    - erewrite field_eq_same; [| | | | | | | | | | |exact (Sm 0%nat _ _ (Nat.lt_0_succ i) eq_refl eq_refl)];
        try eassumption; [|exact (eq_obj_same sch h S n)].
      cbn [bind]. eapply (IH i); try eassumption; [lia|].
      intros j v' w' Lj. apply (Sm (Datatypes.S j)). lia.
  Qed.

  (** Comparison. *)
  Lemma eq_obj_clash n m xs ys vs ws : denotes sch h m xs vs -> denotes sch h m ys ws ->
    proper sch m vs -> proper sch m ws -> clash sch m vs ws -> (odepth vs < n)%nat -> (odepth ws < n)%nat ->
    eq_obj n sch h m xs ys = UB NullDeref.
  Proof.
    intros D1 D2 (O1 & N1 & M1) (O2 & N2 & M2) (i & k & m' & l & l' & a & Li & T & A & B & El & I & J & C & Sm) L1 L2.
    destruct n as [|n]; [lia|]. cbn [eq_obj].
    apply nan_free_spec in N1; [|eapply den_length; eauto].
    apply nan_free_spec in N2; [|eapply den_length; eauto].
    apply object_ok_spec in O1, O2. inversion D1; subst; inversion D2; subst.
    eapply (fields_clash n _ i xs ys vs ws k m' l l' a); try eassumption; try lia. now apply schema_keys.
  Qed.

  (** The setter of a message field. *)
  Lemma set_field_clash n m m' xs vs i new us us' :
    denotes sch h m xs vs -> proper sch m vs -> (i < length (md_fields (msg_at sch m)))%nat ->
    f_ty (field_at sch m i) = FSing (EM m') -> nth_error vs i = Some (VMsg us) ->
    den_field sch h (FSing (EM m')) new (VMsg us') -> field_proper sch (FSing (EM m')) (VMsg us') ->
    clash sch m' us us' -> (odepth us < n)%nat -> (odepth us' < n)%nat ->
    set_field n sch h m xs i new = UB NullDeref.
  Proof.
    intros D P L Ty E Dw Pw C L1 L2. inversion D; subst.
    pose proof (den_nth sch h _ _ _ i H L) as Di. fold (field_at sch m i) in Di.
    pose proof (proper_nth sch m vs i P L) as Pi. rewrite Ty, (nth_error_nth _ _ _ E) in *.
    unfold set_field. rewrite Ty. unfold set_message.
    inversion Di; subst. inversion Dw; subst.
    cbn [own_of deref].
    destruct Pi as (O1 & M1 & N1), Pw as (O2 & M2 & N2).
    erewrite (eq_obj_clash n m'); [reflexivity|..]; try eassumption; split; try split; assumption.
  Qed.

  (** Assignment and move: the fields before return, the comparison of the nested messages crashes. *)
  Definition proper_at (f : field) (v : value) : Prop := field_proper sch (f_ty f) v.

  Lemma nested_field_clash n m x y us us' : den_field sch h (FSing (EM m)) x (VMsg us) ->
    den_field sch h (FSing (EM m)) y (VMsg us') ->
    field_proper sch (FSing (EM m)) (VMsg us) -> field_proper sch (FSing (EM m)) (VMsg us') ->
    clash sch m us us' -> (vdepth (VMsg us) <= n)%nat -> (vdepth (VMsg us') <= n)%nat ->
    lazy_eq sch (eq_obj n sch h) m (own_of x) (own_of y) = UB NullDeref.
  Proof.
    intros D1 D2 (O1 & M1 & N1) (O2 & M2 & N2) C L1 L2. inversion D1; subst. inversion D2; subst.
    cbn [own_of lazy_eq]. eapply eq_obj_clash; eauto; try (split; [|split]; assumption); dep.
  Qed.

  Lemma assign_fields_clash n fields : forall i j xs ys vs ws m us us',
    den_fields sch h fields xs vs -> den_fields sch h fields ys ws ->
    Forall2 proper_at fields vs -> Forall2 proper_at fields ws ->
    (odepth vs <= n)%nat -> (odepth ws <= n)%nat ->
    (i < length fields)%nat -> f_ty (nth i fields dummy_field) = FSing (EM m) ->
    nth_error vs i = Some (VMsg us) -> nth_error ws i = Some (VMsg us') -> clash sch m us us' ->
    (forall j m' v w, (j < i)%nat -> f_ty (nth j fields dummy_field) = FSing (EM m') ->
       nth_error vs j = Some v -> nth_error ws j = Some w -> comparable_at sch (FSing (EM m')) v w) ->
    assign_fields sch h n (assign n sch h) j fields xs ys = UB NullDeref /\
    move_fields sch h n (move_assign n sch h) fields xs ys = UB NullDeref.
  Proof.
    induction fields as [|f fields IH]; intros i j xs ys vs ws m us us' D1 D2 P1 P2 L1 L2 Li T A B C Cb;
      cbn [length] in Li; [lia|].
    inversion D1; subst; inversion D2; subst; inversion P1; subst; inversion P2; subst.
    apply odepth_cons in L1, L2. destruct L1 as [L1 L1s], L2 as [L2 L2s].
    cbn [assign_fields move_fields]. destruct i as [|i]; cbn [nth nth_error] in *.
    - injection A as ->. injection B as ->. unfold proper_at in *. rewrite T in *. cbn [assign_field move_field].
      unfold assign_message, move_message.
      rewrite (nested_field_clash n m x x0 us us'); auto.
    - assert (E : (exists r, assign_field sch h n (assign n sch h) (f_ty f) x x0 = Ok r) /\
                  (exists r, move_field sch h n (move_assign n sch h) (f_ty f) x x0 = Ok r)).
      { specialize (Cb 0%nat). cbn [nth nth_error] in Cb.
        pose proof (fun m' H => Cb m' _ _ (Nat.lt_0_succ i) H eq_refl eq_refl) as Ch. clear Cb.
        unfold proper_at in *.
        repeat match goal with H : field_proper _ _ _ |- _ => revert H end.
        repeat match goal with H : den_field _ _ _ _ _ |- _ => revert H end. revert Ch.
        destruct (f_ty f) as [[t|m']|e|k e]; intros Ch F1 F2 (O1 & M1 & _) (O2 & M2 & _); cbn [assign_field move_field];
          try (split; [eauto | destruct (mem_eqb _ x x0); eauto]; fail).
        - split; [eauto|]. destruct t; cbn [is_blob]; try destruct (mem_eqb _ x x0); eauto.
        - unfold assign_message, move_message. cbn [val_ok] in O1, O2. split.
          + destruct (nested_returns sch h S n (assign n sch h) m' _ _ _ _ (assign_returns sch h S n) F1 F2) as (r & -> & R); auto.
            cbn [bind]. destruct r; [cbn; eauto|]. destruct (R eq_refl) as [[o sg] ->]. cbn [bind]. eauto.
          + destruct (nested_returns sch h S n (move_assign n sch h) m' _ _ _ _ (move_assign_returns sch h S n) F1 F2) as (r & -> & R); auto.
            cbn [bind]. destruct r; [cbn; eauto|]. destruct (R eq_refl) as [[o o'] ->]. cbn [bind]. eauto. }
      destruct E as [[[x' s] ->] [[x'' y''] ->]]. cbn [bind].
      match goal with E1 : den_fields _ _ fields ?xs1 ?vs1, E2 : den_fields _ _ fields ?xs2 ?vs2,
        Q1 : Forall2 _ fields ?vs1, Q2 : Forall2 _ fields ?vs2 |- _ =>
        destruct (IH i (Datatypes.S j) xs1 xs2 vs1 vs2 m us us' E1 E2 Q1 Q2) as [Ea Em]; auto; try lia;
          [intros j' m' v' w' Lj; apply (Cb (Datatypes.S j')); lia|] end.
      rewrite Ea, Em. split; reflexivity.
  Qed.

  Lemma nested_clash_crashes n m i m' xs ys vs ws : denotes sch h m xs vs -> denotes sch h m ys ws ->
    proper sch m vs -> proper sch m ws -> nested_clash sch m i m' vs ws ->
    (odepth vs < n)%nat -> (odepth ws < n)%nat ->
    assign n sch h m xs ys = UB NullDeref /\ move_assign n sch h m xs ys = UB NullDeref.
  Proof.
    intros D1 D2 P1 P2 (Li & T & us & us' & A & B & C & Cb) L1 L2. destruct n as [|n]; [lia|].
    cbn [assign move_assign]. apply proper_spec in P1, P2. inversion D1; subst; inversion D2; subst.
    eapply (assign_fields_clash n _ i 0); eauto; lia.
  Qed.
End Clash.

(** Proofs that comparison of message objects returns. *)

From Coq Require Import ZArith List Bool Lia.
From Verif Require Import Base Values MessageSpec MessageProofs SerializeProofs MessageFacts
  PropFacts ObjectModel ObjectSpec ObjectProofs.
Import ListNotations.
Open Scope Z_scope.

Lemma list_max_in n l : In n l -> (n <= list_max l)%nat.
Proof. unfold list_max. induction l as [|x l IH]; cbn; [tauto|]. intros [->|H]; [lia|]. apply IH in H. lia. Qed.

Lemma vdepth_list l v : In v l -> (vdepth v <= vdepth (VList l))%nat.
Proof. intro I. cbn [vdepth]. apply list_max_in. now apply in_map. Qed.

Lemma vdepth_map l p : In p l -> (vdepth (snd p) <= vdepth (VMap l))%nat.
Proof.
  intro I. cbn [vdepth]. apply list_max_in. apply in_map_iff. exists p. auto.
Qed.

Lemma obj_of_nan sch m v : nan_free sch (EM m) v -> nan_free sch (EM m) (VMsg (obj_of sch m v)).
Proof. destruct v; intro N; cbn [obj_of]; try apply default_nan_free. exact N. Qed.

Lemma obj_of_ok sch m v : elem_ok sch (EM m) v -> object_ok sch m (obj_of sch m v).
Proof. destruct v; intro O; cbn [obj_of]; try apply default_ok. exact O. Qed.

Lemma obj_of_nulls sch m v : no_nulls v -> no_nulls (VMsg (obj_of sch m v)).
Proof. destruct v; intro N; cbn [obj_of]; try apply default_no_nulls. exact N. Qed.

Local Ltac dep := cbn [vdepth] in *; rewrite ?odepth_default; unfold odepth in *; lia.

(** ** Same values compare equal *)

Section Same.
  Variable sch : schema.
  Variable h : heap.
  Variable n : nat.
  Variable rec : nat -> list mem -> list mem -> res bool.
  Hypothesis REC : forall m xs ys vs ws, denotes sch h m xs vs -> denotes sch h m ys ws ->
    object_ok sch m vs -> object_ok sch m ws ->
    nan_free sch (EM m) (VMsg vs) -> nan_free sch (EM m) (VMsg ws) ->
    (odepth vs < n)%nat -> (odepth ws < n)%nat -> same sch m vs ws -> rec m xs ys = Ok true.

  Lemma depth_obj_of m v k : (vdepth v <= n)%nat -> v = VMsg k -> (odepth (obj_of sch m v) < n)%nat.
  Proof. intros D ->. cbn [vdepth obj_of] in *. unfold odepth. lia. Qed.

  Lemma lazy_eq_same m x y v w : den_field sch h (FSing (EM m)) x v ->
    den_field sch h (FSing (EM m)) y w -> elem_ok sch (EM m) v -> elem_ok sch (EM m) w ->
    nan_free sch (EM m) v -> nan_free sch (EM m) w -> (vdepth v <= n)%nat -> (vdepth w <= n)%nat ->
    same sch m (obj_of sch m v) (obj_of sch m w) ->
    lazy_eq sch rec m (own_of x) (own_of y) = Ok true.
  Proof.
    intros D1 D2 O1 O2 N1 N2 L1 L2 E.
    inversion D1; inversion D2; subst; cbn [own_of lazy_eq obj_of] in *; auto.
    - apply (REC m xs (default_mems sch m) vs (default_obj sch m));
        auto using den_default, default_ok, default_nan_free; try dep. now symmetry.
    - apply (REC m xs (default_mems sch m) vs (default_obj sch m));
        auto using den_default, default_ok, default_nan_free; dep.
    - eapply REC; eauto; dep.
  Qed.

  Lemma pointee_same m p q v w : den_ptr sch h m p v -> den_ptr sch h m q w ->
    elem_ok sch (EM m) v -> elem_ok sch (EM m) w -> nan_free sch (EM m) v -> nan_free sch (EM m) w ->
    (vdepth v <= n)%nat -> (vdepth w <= n)%nat ->
    canon_elem sch (EM m) v = canon_elem sch (EM m) w -> pointee_eq h rec m p q = Ok true.
  Proof.
    intros D1 D2 O1 O2 N1 N2 L1 L2 E. unfold pointee_eq.
    destruct (ptr_eqb p q) eqn:P; [reflexivity|].
    inversion D1; inversion D2; subst; try discriminate P; try discriminate E.
    match goal with A : nth_error h a = Some _, B : nth_error h a0 = Some _ |- _ => rewrite A, B end.
    rewrite !canon_elem_msg in E. injection E as E.
    eapply REC; eauto; cbn [vdepth] in L1, L2; unfold odepth; lia.
  Qed.

  Lemma list_compare_same m a : forall b vs ws, den_list sch h m a vs -> den_list sch h m b ws ->
    every (elem_ok sch (EM m)) vs -> every (elem_ok sch (EM m)) ws ->
    every (nan_free sch (EM m)) vs -> every (nan_free sch (EM m)) ws ->
    (forall v, In v vs -> (vdepth v <= n)%nat) -> (forall v, In v ws -> (vdepth v <= n)%nat) ->
    map (canon_elem sch (EM m)) vs = map (canon_elem sch (EM m)) ws ->
    length a = length b /\ list_compare h rec m a b = Ok true.
  Proof.
    induction a as [|p a IH]; intros b vs ws D1 D2 O1 O2 N1 N2 L1 L2 E; inversion D1; subst;
      inversion D2; subst; try discriminate E; auto.
    cbn [map] in E. assert (E1 := f_equal (hd VNull) E). assert (E2 := f_equal (@tl _) E).
    cbn [hd tl] in E1, E2. destruct O1, O2, N1, N2.
    match goal with H1 : den_list _ _ _ a _, H2 : den_list _ _ _ ?b _ |- _ =>
      lazymatch b with p :: a => fail | a => fail | p0 :: _ => fail
      | _ => destruct (IH b _ _ H1 H2) as [A B] end end; auto;
      try (intros ? ?; first [apply L1; now right|apply L2; now right]).
    split; [cbn [length]; congruence|]. cbn [list_compare].
    erewrite pointee_same; [| | | | | | | | |exact E1]; try eassumption;
      try (first [apply L1; now left|apply L2; now left]).
  Qed.

  Lemma qmap_value_found k m key b kws key' w : key_type k -> den_entries sch h m b kws ->
    keys_sorted k kws -> In (key', w) kws -> canon_scalar k key = canon_scalar k key' ->
    den_ptr sch h m (qmap_value k key b) w.
  Proof.
    intros K D. induction D as [|m' x q b v kws P D IH]; intros S I C; [contradiction|].
    cbn [qmap_value]. destruct (key_ltb k key x || key_ltb k x key) eqn:E.
    - destruct I as [I|I]; [|apply IH; auto; now destruct S].
      injection I as -> ->. exfalso.
      rewrite <- (key_ltb_canon k key), <- (key_ltb_canon k _ key), C, key_ltb_irrefl in E by exact K.
      discriminate.
    - destruct I as [I|I]; [injection I as -> ->; exact P|]. exfalso.
      apply orb_false_elim in E. destruct E as [E1 E2].
      pose proof (key_tri k key x K E1 E2) as T.
      destruct S as [S _]. rewrite Forall_forall in S. apply S in I. cbn [fst] in I.
      rewrite <- key_ltb_canon, <- T, C, key_ltb_irrefl in I by exact K. discriminate.
  Qed.

  Lemma map_compare_same k m a : forall b kvs kws, key_type k ->
    den_entries sch h m a kvs -> den_entries sch h m b kws -> keys_sorted k kws ->
    every (fun p => scalar_ok k (fst p) /\ elem_ok sch (EM m) (snd p)) kvs ->
    every (fun p => scalar_ok k (fst p) /\ elem_ok sch (EM m) (snd p)) kws ->
    every (fun p => nan_free sch (EM m) (snd p)) kvs ->
    every (fun p => nan_free sch (EM m) (snd p)) kws ->
    (forall p, In p kvs -> (vdepth (snd p) <= n)%nat) ->
    (forall p, In p kws -> (vdepth (snd p) <= n)%nat) ->
    (forall p, In p (canon_map sch k (EM m) kvs) -> In p (canon_map sch k (EM m) kws)) ->
    map_compare h rec k m a b = Ok true.
  Proof.
    induction a as [|[key p] a IH]; intros b kvs kws K D1 D2 S O1 O2 N1 N2 L1 L2 I; [reflexivity|].
    inversion D1; subst. cbn [map_compare].
    specialize (I (canon_scalar k key, canon_elem sch (EM m) v) (or_introl eq_refl)) as I0.
    unfold canon_map in I0. apply in_map_iff in I0. destruct I0 as ([key' w] & E & I0).
    cbn [fst snd] in E. injection E as Ek Ev. symmetry in Ek.
    pose proof (qmap_value_found k m key b kws key' w K D2 S I0 Ek) as P.
    assert (O2' := O2). assert (N2' := N2). apply every_Forall in O2', N2'.
    rewrite Forall_forall in O2', N2'. specialize (O2' _ I0). specialize (N2' _ I0).
    destruct O1 as [O1 O1s], N1 as [N1 N1s]. cbn [fst snd] in *.
    erewrite pointee_same; [| | | | | | | | |exact Ev]; try eassumption; try tauto.
    - cbn [bind]. eapply (IH b kvs0 kws); eauto.
      + intros ? ?. apply L1. now right.
      + intros ? ?. apply I. now right.
    - apply (L2 _ I0).
    - apply (L1 (key, v)). now left.
  Qed.

  Lemma field_eq_same ty x y v w : key_ok ty -> den_field sch h ty x v -> den_field sch h ty y w ->
    val_ok sch ty v -> val_ok sch ty w -> field_nan_free sch ty v -> field_nan_free sch ty w ->
    (vdepth v <= n)%nat -> (vdepth w <= n)%nat ->
    same_field sch ty v w -> field_eq sch h rec ty x y = Ok true.
  Proof.
    intros K D1 D2 O1 O2 N1 N2 L1 L2 E.
    assert (P : is_plain ty = true -> field_eq sch h rec ty x y = Ok true).
    { intro P. pose proof (mem_eqb_complete sch h ty x y v w K P D1 D2 N1 N2 E) as M.
      destruct ty as [[t|m]|[t|m]|k [t|m]]; try discriminate P; cbn [field_eq]; now rewrite M. }
    destruct ty as [[t|m]|[t|m]|k [t|m]]; try (now apply P); clear P; cbn [field_eq].
    - unfold message_eq. erewrite lazy_eq_same; eauto. apply same_message; auto.
    - unfold same_field in E. inversion D1; subst; inversion D2; subst.
      cbn [canon_field list_of val_ok field_nan_free ptrs_of] in *.
      assert (E1 := f_equal list_of E). cbn [list_of] in E1.
      unfold repeatedValueCompare.
      destruct (list_compare_same m l l0 vs vs0) as [A B]; auto.
      + intros u I. pose proof (vdepth_list _ _ I). lia.
      + intros u I. pose proof (vdepth_list _ _ I). lia.
      + rewrite A, Nat.eqb_refl. exact B.
    - unfold same_field in E. inversion D1; subst; inversion D2; subst.
      cbn [canon_field map_of val_ok field_nan_free ptr_map_of key_ok] in *.
      assert (E1 := f_equal map_of E). cbn [map_of] in E1.
      unfold repeatedMapCompare.
      replace (Nat.eqb (length l) (length l0)) with true.
      + eapply map_compare_same; eauto.
        * now destruct O2.
        * now destruct O1.
        * now destruct O2.
        * intros u I. pose proof (vdepth_map _ _ I). lia.
        * intros u I. pose proof (vdepth_map _ _ I). lia.
        * unfold canon_map. now rewrite E1.
      + symmetry. apply Nat.eqb_eq. apply (f_equal (@length _)) in E1. rewrite !map_length in E1.
        repeat match goal with H : den_entries _ _ _ _ _ |- _ => apply den_entries_length in H end.
        congruence.
  Qed.

  Lemma fields_eq_same fields : forall xs ys vs ws, Forall (fun f => key_ok (f_ty f)) fields ->
    den_fields sch h fields xs vs -> den_fields sch h fields ys ws ->
    Forall2 (fun f v => val_ok sch (f_ty f) v) fields vs ->
    Forall2 (fun f v => val_ok sch (f_ty f) v) fields ws ->
    Forall2 (fun f v => field_nan_free sch (f_ty f) v) fields vs ->
    Forall2 (fun f v => field_nan_free sch (f_ty f) v) fields ws ->
    (odepth vs <= n)%nat -> (odepth ws <= n)%nat ->
    canon_fields sch fields vs = canon_fields sch fields ws ->
    fields_eq sch h rec fields xs ys = Ok true.
  Proof.
    induction fields as [|f fields IH]; intros xs ys vs ws K D1 D2 G1 G2 N1 N2 L1 L2 E;
      inversion D1; subst; inversion D2; subst; inversion G1; subst; inversion G2; subst;
      inversion N1; subst; inversion N2; subst; inversion K; subst; auto.
    apply odepth_cons in L1, L2. cbn [canon_fields] in E.
    assert (E1 := f_equal (hd VNull) E). assert (E2 := f_equal (@tl _) E). cbn [hd tl] in E1, E2.
    cbn [fields_eq]. erewrite field_eq_same; [| | | | | | | | | |exact E1]; try eassumption; try tauto.
    cbn [bind]. eapply IH; [| | | | | | | | |exact E2]; try eassumption; tauto.
  Qed.
End Same.

Lemma eq_obj_same sch h (S : schema_ok sch) : forall n m xs ys vs ws,
  denotes sch h m xs vs -> denotes sch h m ys ws ->
  object_ok sch m vs -> object_ok sch m ws ->
  nan_free sch (EM m) (VMsg vs) -> nan_free sch (EM m) (VMsg ws) ->
  (odepth vs < n)%nat -> (odepth ws < n)%nat -> same sch m vs ws -> eq_obj n sch h m xs ys = Ok true.
Proof.
  induction n as [|n IH]; intros m xs ys vs ws D1 D2 O1 O2 N1 N2 L1 L2 E; [lia|].
  cbn [eq_obj]. unfold same in E. rewrite !canon_obj_spec in E.
  apply nan_free_spec in N1; [|eapply den_length; eauto].
  apply nan_free_spec in N2; [|eapply den_length; eauto].
  apply object_ok_spec in O1, O2. inversion D1; subst; inversion D2; subst.
  eapply (fields_eq_same sch h n); [exact IH | | | | | | | | | |exact E]; try eassumption; try lia.
  now apply schema_keys.
Qed.

Lemma den_list_length sch h m l vs : den_list sch h m l vs -> length l = length vs.
Proof. induction 1; cbn [length]; congruence. Qed.

(** ** Values that can be compared *)

Scheme comparable_mut := Minimality for comparable Sort Prop
  with comparable_at_mut := Minimality for comparable_at Sort Prop.
Combined Scheme comparable_both from comparable_mut, comparable_at_mut.

Lemma comparable_symm sch :
  (forall m vs ws, comparable sch m vs ws -> comparable sch m ws vs) /\
  (forall ty v w, comparable_at sch ty v w -> comparable_at sch ty w v).
Proof.
  refine (comparable_both sch (fun m vs ws => comparable sch m ws vs) (fun ty v w => comparable_at sch ty w v) _ _ _ _ _ _ _).
  - intros m vs ws H IH. constructor. intros i v w L A B. exact (IH i w v L B A).
  - intros ty v w H. now apply comparable_plain.
  - intros m w. apply comparable_unset_right.
  - intros m v. apply comparable_unset_left.
  - intros m vs ws H IH. now apply comparable_nested.
  - intros m l l' H IH. apply comparable_list. intros i vs ws E A B. exact (IH i ws vs (eq_sym E) B A).
  - intros k m l l' K H IH. apply comparable_map.
    + intros E c. symmetry. apply K. now symmetry.
    + intros a a' vs ws E A B C. exact (IH a' a ws vs (eq_sym E) B A (eq_sym C)).
Qed.
Definition comparable_sym sch := proj1 (comparable_symm sch).
Definition comparable_at_sym sch := proj2 (comparable_symm sch).

(** Equal values can be compared. *)
Lemma comparable_msg sch m vs ws : comparable sch m vs ws ->
  comparable_at sch (FSing (EM m)) (VMsg vs) (VMsg ws).
Proof. intro. now apply comparable_nested. Qed.

Lemma comparable_nth sch m vs ws i v w : comparable sch m vs ws ->
  (i < length (md_fields (msg_at sch m)))%nat -> nth_error vs i = Some v -> nth_error ws i = Some w ->
  comparable_at sch (f_ty (field_at sch m i)) v w.
Proof. intros C. inversion C; subst. eauto. Qed.

(** Values of a type without maps to messages can be compared. *)
Lemma no_map_comparable sch m : no_map_inside sch m -> forall vs ws,
  object_ok sch m vs -> object_ok sch m ws -> comparable sch m vs ws.
Proof.
  intros (T & Tm & TC). 
  assert (G : forall n m, T m -> forall vs ws, (odepth vs < n)%nat -> object_ok sch m vs -> object_ok sch m ws ->
    comparable sch m vs ws).
  { clear m Tm. induction n as [|n IH]; intros m Tm vs ws L O1 O2; [lia|].
    apply object_ok_spec in O1, O2. constructor. intros i v w Li Ev Ew.
    assert (If : In (field_at sch m i) (md_fields (msg_at sch m))) by (now apply nth_In).
    specialize (TC m _ Tm If).
    assert (Ov : val_ok sch (f_ty (field_at sch m i)) v).
    { unfold field_at. destruct (nth_error (md_fields (msg_at sch m)) i) eqn:Ef; [|apply nth_error_None in Ef; lia].
      rewrite (nth_error_nth _ _ dummy_field Ef). clear - O1 Ev Ef. revert i Ev Ef.
      induction O1; intros [|i] Ev Ef; try discriminate; cbn in *; [congruence|eauto]. }
    assert (Ow : val_ok sch (f_ty (field_at sch m i)) w).
    { unfold field_at. destruct (nth_error (md_fields (msg_at sch m)) i) eqn:Ef; [|apply nth_error_None in Ef; lia].
      rewrite (nth_error_nth _ _ dummy_field Ef). clear - O2 Ew Ef. revert i Ew Ef.
      induction O2; intros [|i] Ew Ef; try discriminate; cbn in *; [congruence|eauto]. }
    assert (Lv : (vdepth v <= odepth vs)%nat).
    { clear - Ev. revert i Ev. induction vs as [|x vs IH]; intros [|i] Ev; try discriminate; cbn in Ev.
      - injection Ev as ->. pose proof (odepth_cons v vs _ (le_n _)). tauto.
      - pose proof (odepth_cons x vs _ (le_n _)) as [_ H]. specialize (IH i Ev). lia. }
    destruct (f_ty (field_at sch m i)) as [[t|m']|[t|m']|k [t|m']] eqn:Ty; try (apply comparable_plain; exact I).
    - destruct v; try contradiction; try apply comparable_unset_left.
      destruct w; try contradiction; try apply comparable_unset_right.
      apply comparable_nested. apply IH; auto. dep.
    - destruct v; try contradiction. destruct w; try contradiction. cbn [val_ok] in Ov, Ow.
      apply comparable_list. intros j a b _ Ea Eb. apply nth_error_In in Ea, Eb. apply every_Forall in Ov, Ow.
      rewrite Forall_forall in Ov, Ow. apply IH; auto.
      + apply vdepth_list in Ea. dep.
      + exact (Ov _ Ea).
      + exact (Ow _ Eb).
    - contradiction. }
  intros vs ws. apply (G (S (odepth vs))); auto.
Qed.

Lemma comparable_message sch m : no_map_inside sch m -> forall v w,
  elem_ok sch (EM m) v -> elem_ok sch (EM m) w -> comparable_at sch (FSing (EM m)) v w.
Proof.
  intros NM v w O1 O2. destruct v; try contradiction; try apply comparable_unset_left.
  destruct w; try contradiction; try apply comparable_unset_right.
  apply comparable_nested. now apply no_map_comparable.
Qed.

(** Comparison with a newly created object always returns. *)
Lemma fields_eq_default_returns sch h n fields : forall xs vs,
  (forall m xs vs, denotes sch h m xs vs -> (odepth vs < n)%nat ->
     exists r, eq_obj n sch h m xs (default_mems sch m) = Ok r) ->
  den_fields sch h fields xs vs -> (odepth vs <= n)%nat ->
  exists r, fields_eq sch h (eq_obj n sch h) fields xs (map (fun f => default_mem (f_ty f)) fields) = Ok r.
Proof.
  induction fields as [|f fields IH]; intros xs vs R D L; inversion D; subst; cbn [map fields_eq]; eauto.
  apply odepth_cons in L. destruct L as [L1 L2].
  match goal with |- exists r, bind ?e _ = _ => assert (E : exists r, e = Ok r) end.
  { match goal with H : den_field _ _ _ x v |- _ => rename H into D1 end.
    destruct (f_ty f) as [[t|m]|[t|m]|k [t|m]]; cbn [field_eq default_mem]; eauto.
    - unfold message_eq. cbn [own_of]. inversion D1; subst; cbn [own_of lazy_eq deref bind]; eauto.
      match goal with H : denotes _ _ _ _ _ |- _ => destruct (R _ _ _ H) as [r E] end; [dep|].
      rewrite E. cbn [bind]. destruct r; eauto.
    - cbn [ptrs_of]. unfold repeatedValueCompare. destruct (ptrs_of x); cbn; eauto.
    - cbn [ptr_map_of]. unfold repeatedMapCompare. destruct (ptr_map_of x); cbn; eauto. }
  destruct E as [r ->]. cbn [bind]. destruct r; eauto.
Qed.

Lemma eq_default_returns sch h : forall n m xs vs, denotes sch h m xs vs -> (odepth vs < n)%nat ->
  exists r, eq_obj n sch h m xs (default_mems sch m) = Ok r.
Proof.
  induction n as [|n IH]; intros m xs vs D L; [lia|].
  cbn [eq_obj]. unfold default_mems. inversion D; subst.
  eapply fields_eq_default_returns; eauto. lia.
Qed.

Lemma fields_eq_default_returns_left sch h n fields : forall ys ws,
  (forall m xs vs, denotes sch h m xs vs -> (odepth vs < n)%nat ->
     exists r, eq_obj n sch h m xs (default_mems sch m) = Ok r) ->
  (forall m ys ws, denotes sch h m ys ws -> (odepth ws < n)%nat ->
     exists r, eq_obj n sch h m (default_mems sch m) ys = Ok r) ->
  den_fields sch h fields ys ws -> (odepth ws <= n)%nat ->
  exists r, fields_eq sch h (eq_obj n sch h) fields (map (fun f => default_mem (f_ty f)) fields) ys = Ok r.
Proof.
  induction fields as [|f fields IH]; intros xs vs R R' D L; inversion D; subst; cbn [map fields_eq]; eauto.
  apply odepth_cons in L. destruct L as [L1 L2].
  match goal with |- exists r, bind ?e _ = _ => assert (E : exists r, e = Ok r) end.
  { match goal with H : den_field _ _ _ x v |- _ => rename H into D1 end.
    destruct (f_ty f) as [[t|m]|[t|m]|k [t|m]]; cbn [field_eq default_mem]; eauto.
    - unfold message_eq. cbn [own_of]. inversion D1; subst; cbn [own_of lazy_eq deref bind]; eauto.
      match goal with H : denotes _ _ _ _ _ |- _ => destruct (R _ _ _ H) as [r E]; [dep|]; destruct (R' _ _ _ H) as [r' E']; [dep|] end.
      rewrite E. cbn [bind]. destruct r; eauto.
    - cbn [ptrs_of]. unfold repeatedValueCompare. destruct (ptrs_of x); cbn; eauto.
    - cbn [ptr_map_of]. unfold repeatedMapCompare. destruct (ptr_map_of x); cbn; eauto. }
  destruct E as [r ->]. cbn [bind]. destruct r; eauto.
Qed.

Lemma eq_default_returns_left sch h : forall n m ys ws, denotes sch h m ys ws -> (odepth ws < n)%nat ->
  exists r, eq_obj n sch h m (default_mems sch m) ys = Ok r.
Proof.
  induction n as [|n IH]; intros m xs vs D L; [lia|].
  cbn [eq_obj]. unfold default_mems. inversion D; subst.
  eapply fields_eq_default_returns_left; eauto using eq_default_returns. lia.
Qed.

(** ** Comparison returns *)

Section Returns.
  Variable sch : schema.
  Variable h : heap.
  Variable n : nat.
  Variable rec : nat -> list mem -> list mem -> res bool.
  Hypothesis DEF : forall m xs vs, denotes sch h m xs vs -> (odepth vs < n)%nat ->
    exists r, rec m xs (default_mems sch m) = Ok r.
  Hypothesis FED : forall m ys ws, denotes sch h m ys ws -> (odepth ws < n)%nat ->
    exists r, rec m (default_mems sch m) ys = Ok r.
  Hypothesis REC : forall m xs ys vs ws, denotes sch h m xs vs -> denotes sch h m ys ws ->
    object_ok sch m vs -> object_ok sch m ws -> comparable sch m vs ws ->
    no_nulls (VMsg vs) -> no_nulls (VMsg ws) ->
    (odepth vs < n)%nat -> (odepth ws < n)%nat -> exists r, rec m xs ys = Ok r.

  Lemma pointee_returns m p q v w : den_ptr sch h m p v -> den_ptr sch h m q w ->
    v <> VNull -> w <> VNull -> elem_ok sch (EM m) v -> elem_ok sch (EM m) w ->
    (forall vs ws, v = VMsg vs -> w = VMsg ws -> comparable sch m vs ws) -> no_nulls v -> no_nulls w ->
    (vdepth v <= n)%nat -> (vdepth w <= n)%nat -> exists r, pointee_eq h rec m p q = Ok r.
  Proof.
    intros D1 D2 V W O1 O2 C N1 N2 L1 L2. unfold pointee_eq.
    destruct (ptr_eqb p q) eqn:P; [eauto|].
    inversion D1; inversion D2; subst; try congruence.
    match goal with A : nth_error h a = Some _, B : nth_error h a0 = Some _ |- _ => rewrite A, B end.
    eapply REC; eauto; cbn [vdepth] in L1, L2; unfold odepth; lia.
  Qed.

  Lemma list_compare_returns m a : forall b vs ws, den_list sch h m a vs -> den_list sch h m b ws ->
    every (elem_ok sch (EM m)) vs -> every (elem_ok sch (EM m)) ws ->
    (forall i x y, nth_error vs i = Some (VMsg x) -> nth_error ws i = Some (VMsg y) -> comparable sch m x y) ->
    no_nulls (VList vs) -> no_nulls (VList ws) ->
    (forall v, In v vs -> (vdepth v <= n)%nat) -> (forall v, In v ws -> (vdepth v <= n)%nat) ->
    exists r, list_compare h rec m a b = Ok r.
  Proof.
    induction a as [|p a IH]; intros b vs ws D1 D2 O1 O2 C N1 N2 L1 L2; inversion D1; subst;
      inversion D2; subst; cbn [list_compare]; eauto.
    destruct N1 as [[N1 N1'] N1s], N2 as [[N2 N2'] N2s], O1 as [O1 O1s], O2 as [O2 O2s].
    edestruct (pointee_returns m p p0 v v0) as [r ->]; try eassumption;
      try (first [apply L1; now left|apply L2; now left]).
    { intros x y -> ->. apply (C 0%nat); reflexivity. }
    cbn [bind]. destruct r; [|eauto].
    eapply IH; try eassumption; try (intros ? ?; first [apply L1; now right|apply L2; now right]).
    intros i x y E1 E2. apply (C (S i)); assumption.
  Qed.

  Lemma map_compare_returns k m a : forall b kvs kws, key_type k ->
    den_entries sch h m a kvs -> den_entries sch h m b kws -> keys_sorted k kws ->
    every (fun p => scalar_ok k (fst p) /\ elem_ok sch (EM m) (snd p)) kvs ->
    every (fun p => scalar_ok k (fst p) /\ elem_ok sch (EM m) (snd p)) kws ->
    (forall c, In c (map (canon_scalar k) (keys_of kvs)) -> In c (map (canon_scalar k) (keys_of kws))) ->
    (forall x y vs ws, In (x, VMsg vs) kvs -> In (y, VMsg ws) kws -> canon_scalar k x = canon_scalar k y ->
       comparable sch m vs ws) ->
    no_nulls (VMap kvs) -> no_nulls (VMap kws) ->
    (forall p, In p kvs -> (vdepth (snd p) <= n)%nat) ->
    (forall p, In p kws -> (vdepth (snd p) <= n)%nat) ->
    exists r, map_compare h rec k m a b = Ok r.
  Proof.
    induction a as [|[key p] a IH]; intros b kvs kws K D1 D2 S O1 O2 I C N1 N2 L1 L2; [cbn; eauto|].
    inversion D1; subst. cbn [map_compare].
    assert (I0 : In (canon_scalar k key) (map (canon_scalar k) (keys_of kws))) by (apply I; now left).
    unfold keys_of in I0. rewrite map_map in I0. apply in_map_iff in I0. destruct I0 as ([key' w] & Ek & I0).
    cbn [fst] in Ek. symmetry in Ek.
    pose proof (qmap_value_found sch h k m key b kws key' w K D2 S I0 Ek) as P.
    assert (O2' := O2). apply every_Forall in O2'. rewrite Forall_forall in O2'. specialize (O2' _ I0).
    assert (N2' := N2). cbn [no_nulls] in N2'. apply every_Forall in N2'. rewrite Forall_forall in N2'.
    specialize (N2' _ I0). destruct O1 as [O1 O1s], N1 as [[N1 N1'] N1s]. cbn [fst snd] in *.
    edestruct (pointee_returns m (qmap_value k key b) p w v) as [r ->]; try eassumption; try tauto.
    - intros x y -> ->. apply comparable_sym. eapply (C key key'); eauto. now left.
    - apply (L2 _ I0).
    - apply (L1 (key, v)). now left.
    - cbn [bind]. destruct r; [|eauto]. eapply (IH b kvs0 kws); eauto.
      + intros c Ic. apply I. now right.
      + intros x y vs ws A. apply C. now right.
      + intros ? ?. apply L1. now right.
  Qed.

  Lemma lazy_eq_returns m x y v w : den_field sch h (FSing (EM m)) x v ->
    den_field sch h (FSing (EM m)) y w -> elem_ok sch (EM m) v -> elem_ok sch (EM m) w ->
    comparable_at sch (FSing (EM m)) v w -> no_nulls v -> no_nulls w ->
    (vdepth v <= n)%nat -> (vdepth w <= n)%nat ->
    exists r, lazy_eq sch rec m (own_of x) (own_of y) = Ok r
      /\ (r = false -> exists r', rec m (deref sch m (own_of x)) (deref sch m (own_of y)) = Ok r').
  Proof.
    intros D1 D2 O1 O2 C N1 N2 L1 L2.
    inversion D1; inversion D2; subst; cbn [own_of lazy_eq deref].
    - exists true. split; [reflexivity | discriminate].
    - match goal with H : denotes _ _ _ xs vs |- _ => rename H into Dx end.
      assert (Lx : (odepth vs < n)%nat) by dep.
      destruct (DEF m xs vs Dx Lx) as [r E]. exists r. split; [exact E|]. intros _. exact (FED m xs vs Dx Lx).
    - match goal with H : denotes _ _ _ xs vs |- _ => rename H into Dx end.
      assert (Lx : (odepth vs < n)%nat) by dep.
      destruct (DEF m xs vs Dx Lx) as [r E]. exists r. eauto.
    - match goal with H : denotes _ _ _ xs vs |- _ => rename H into Dx end.
      match goal with H : denotes _ _ _ xs0 vs0 |- _ => rename H into Dy end.
      assert (Cm : comparable sch m vs vs0) by (inversion C; subst; [contradiction|assumption]).
      destruct (REC m xs xs0 vs vs0 Dx Dy O1 O2 Cm N1 N2) as [r E]; [dep|dep|]. exists r. eauto.
  Qed.

  Lemma field_eq_returns ty x y v w : key_ok ty ->
    den_field sch h ty x v -> den_field sch h ty y w -> val_ok sch ty v -> val_ok sch ty w ->
    comparable_at sch ty v w -> no_nulls v -> no_nulls w ->
    (vdepth v <= n)%nat -> (vdepth w <= n)%nat -> exists r, field_eq sch h rec ty x y = Ok r.
  Proof.
    intros K D1 D2 O1 O2 C N1 N2 L1 L2.
    destruct ty as [[t|m]|[t|m]|k [t|m]]; cbn [field_eq]; eauto.
    - unfold message_eq. destruct (lazy_eq_returns m x y v w) as (r & -> & R); auto.
      cbn [bind]. destruct r; [eauto|]. now apply R.
    - unfold repeatedValueCompare. destruct (Nat.eqb_spec (length (ptrs_of x)) (length (ptrs_of y))) as [Le|]; [|eauto].
      inversion D1; inversion D2; subst. cbn [ptrs_of] in *. cbn [val_ok] in O1, O2.
      inversion C as [? ? ? F| | | |? ? ? Cl|]; subst; [contradiction|].
      eapply list_compare_returns; eauto.
      + intros i a b A B. eapply Cl; eauto.
        repeat match goal with H : den_list _ _ _ _ _ |- _ => apply den_list_length in H end. congruence.
      + intros u I. pose proof (vdepth_list _ _ I). lia.
      + intros u I. pose proof (vdepth_list _ _ I). lia.
    - unfold repeatedMapCompare. destruct (Nat.eqb_spec (length (ptr_map_of x)) (length (ptr_map_of y))) as [Le|]; [|eauto].
      inversion D1; inversion D2; subst. cbn [ptr_map_of] in *. cbn [val_ok key_ok] in O1, O2, K.
      inversion C as [? ? ? F| | | | |? ? ? ? Ck Cm]; subst; [contradiction|].
      assert (Le' : length kvs = length kvs0).
      { repeat match goal with H : den_entries _ _ _ _ _ |- _ => apply den_entries_length in H end. congruence. }
      eapply map_compare_returns; eauto.
      + now destruct O2.
      + now destruct O1.
      + now destruct O2.
      + intros c. now apply Ck.
      + intros u I. pose proof (vdepth_map _ _ I). lia.
      + intros u I. pose proof (vdepth_map _ _ I). lia.
  Qed.

  Lemma fields_eq_returns fields : forall xs ys vs ws, Forall (fun f => key_ok (f_ty f)) fields ->
    (forall i v w, (i < length fields)%nat -> nth_error vs i = Some v -> nth_error ws i = Some w ->
       comparable_at sch (f_ty (nth i fields dummy_field)) v w) ->
    den_fields sch h fields xs vs -> den_fields sch h fields ys ws ->
    Forall2 (fun f v => val_ok sch (f_ty f) v) fields vs ->
    Forall2 (fun f v => val_ok sch (f_ty f) v) fields ws ->
    every no_nulls vs -> every no_nulls ws -> (odepth vs <= n)%nat -> (odepth ws <= n)%nat ->
    exists r, fields_eq sch h rec fields xs ys = Ok r.
  Proof.
    induction fields as [|f fields IH]; intros xs ys vs ws K C D1 D2 O1 O2 N1 N2 L1 L2;
      inversion D1; subst; inversion D2; subst; cbn [fields_eq]; eauto.
    destruct N1, N2. apply odepth_cons in L1, L2. destruct L1, L2.
    inversion K; inversion O1; inversion O2; subst.
    edestruct field_eq_returns as [r ->]; [| | | | |exact (C 0%nat _ _ (Nat.lt_0_succ _) eq_refl eq_refl)|..]; try eassumption.
    cbn [bind]. destruct r; [|eauto]. eapply IH; try eassumption.
    intros i a b Li A B. apply (C (S i)); auto. cbn [length]. lia.
  Qed.
End Returns.

Lemma eq_obj_returns sch h (S : schema_ok sch) : forall n m xs ys vs ws,
  denotes sch h m xs vs -> denotes sch h m ys ws -> object_ok sch m vs -> object_ok sch m ws ->
  comparable sch m vs ws -> no_nulls (VMsg vs) -> no_nulls (VMsg ws) ->
  (odepth vs < n)%nat -> (odepth ws < n)%nat -> exists r, eq_obj n sch h m xs ys = Ok r.
Proof.
  induction n as [|n IH]; intros m xs ys vs ws D1 D2 O1 O2 C N1 N2 L1 L2; [lia|].
  cbn [eq_obj]. inversion D1; subst; inversion D2; subst. apply object_ok_spec in O1, O2.
  inversion C; subst.
  eapply (fields_eq_returns sch h n); eauto using eq_default_returns, eq_default_returns_left; try lia.
  now apply schema_keys.
Qed.

(** Facts about objects used by the property theorems: sameness and NaN, setter calls,
    independence from the heap. *)

From Coq Require Import ZArith List Bool Lia Arith.
From Verif Require Import Base Values MessageSpec MessageProofs SerializeProofs MessageFacts
  PropFacts ObjectModel ObjectSpec ObjectProofs ObjectTotal AssignProofs.
Import ListNotations.
Open Scope Z_scope.

(** ** The same value has the same NaNs *)

Lemma nan_zero w e b : 0 <= e -> 0 <= w - 1 - e -> b mod 2 ^ (w - 1) = 0 -> is_nan w e b = false.
Proof.
  intros He Hm H. unfold is_nan.
  assert (E : b mod 2 ^ (w - 1 - e) = 0).
  { apply Z.mod_divide in H; [|apply Z.pow_nonzero; lia].
    apply Z.mod_divide; [apply Z.pow_nonzero; lia|].
    eapply Z.divide_trans; [|exact H].
    replace (w - 1) with (w - 1 - e + e) at 2 by lia. rewrite Z.pow_add_r by lia.
    apply Z.divide_factor_l. }
  rewrite E. cbn. now rewrite andb_false_r.
Qed.

Lemma canon_not_nan t s : not_nan t (canon_scalar t s) <-> not_nan t s.
Proof.
  unfold canon_scalar. destruct t; cbn [is_blob not_nan num_of]; try tauto.
  - destruct (num_of s mod 2 ^ 31 =? 0) eqn:E; [|tauto]. apply Z.eqb_eq in E. rewrite E. cbn. lia.
  - destruct (num_of s mod 2 ^ 63 =? 0) eqn:E; [|tauto]. apply Z.eqb_eq in E. rewrite E. cbn. lia.
Qed.

Section Nan.
  Variable sch : schema.

  Fixpoint all_nan_free (fields : list field) (fs : list value) : Prop :=
    match fields, fs with
    | f :: fields', x :: fs' => field_nan_free sch (f_ty f) x /\ all_nan_free fields' fs'
    | _, _ => True
    end.

  Lemma nan_free_all m fs :
    nan_free sch (EM m) (VMsg fs) <-> all_nan_free (md_fields (msg_at sch m)) fs.
  Proof.
    cbn [nan_free]. generalize (md_fields (msg_at sch m)). intros fields. revert fs.
    induction fields as [|f fields IH]; intros [|x fs]; cbn [all_nan_free]; try tauto.
    unfold field_nan_free. specialize (IH fs). destruct (f_ty f), x; tauto.
  Qed.

  Lemma default_nan_canon fs : forall fields, forallb is_default (canon_fields sch fields fs) = true ->
    (forall ty v, In v fs -> field_nan_free sch ty (canon_field sch ty v) <-> field_nan_free sch ty v) ->
    all_nan_free fields fs.
  Proof.
    induction fs as [|v fs IH]; intros [|f fields] H E; cbn [all_nan_free]; auto.
    cbn [canon_fields forallb] in H. apply andb_prop in H. destruct H as [H1 H2].
    split; [|apply IH; auto; intros; apply E; now right].
    apply E; [now left|]. rewrite canon_field_default by exact H1.
    destruct (f_ty f) as [[t|m]|e|k e]; cbn; auto. rewrite canon_not_nan. destruct t; cbn; auto; discriminate.
  Qed.

  Definition nan_iff (v : value) : Prop :=
    (forall e, nan_free sch e (canon_elem sch e v) <-> nan_free sch e v) /\
    (forall ty, field_nan_free sch ty (canon_field sch ty v) <-> field_nan_free sch ty v).

  Lemma nan_iff_scalar t v : nan_free sch (ES t) (canon_elem sch (ES t) v) <-> nan_free sch (ES t) v.
  Proof.
    rewrite canon_elem_scalar. cbn [nan_free]. rewrite canon_not_nan.
    destruct v; cbn [scalar_of]; try tauto; destruct t; cbn; (tauto || (split; [constructor | discriminate])).
  Qed.

  Lemma every_iff {A B} (f : A -> B) (P : B -> Prop) (Q : A -> Prop) l :
    (forall x, In x l -> P (f x) <-> Q x) -> every P (map f l) <-> every Q l.
  Proof.
    induction l as [|x l IH]; intro H; cbn [map every]; [tauto|].
    rewrite (H x (or_introl eq_refl)), IH; [tauto|]. intros y I. apply H. now right.
  Qed.

  Lemma nan_free_canon n : forall v, (vsize v <= n)%nat -> nan_iff v.
  Proof.
    induction n as [|n IH]; intros v L; [destruct v; cbn in L; lia|].
    assert (M : forall m fs, v = VMsg fs ->
      (all_nan_free (md_fields (msg_at sch m)) (canon_obj sch m fs)
       <-> all_nan_free (md_fields (msg_at sch m)) fs) /\
      (forallb is_default (canon_obj sch m fs) = true -> all_nan_free (md_fields (msg_at sch m)) fs)).
    { intros m fs ->. rewrite canon_obj_spec.
      assert (A : forall ty x, In x fs -> field_nan_free sch ty (canon_field sch ty x) <-> field_nan_free sch ty x).
      { intros ty x I. apply IH. cbn [vsize] in L. pose proof (list_sum_in (vsize x) (map vsize fs) (in_map _ _ _ I)).
        lia. }
      split; [|intro D; now apply default_nan_canon].
      clear L. revert fs A. induction (md_fields (msg_at sch m)) as [|f fields IHf]; intros [|x fs] A;
        cbn [canon_fields all_nan_free]; try tauto.
      rewrite (A _ x (or_introl eq_refl)), IHf; [tauto|]. intros. apply A. now right. }
    assert (E : forall e, nan_free sch e (canon_elem sch e v) <-> nan_free sch e v).
    { intros [t|m]; [apply nan_iff_scalar|]. destruct v; try (cbn; tauto).
      rewrite canon_elem_msg, !nan_free_all. now apply M. }
    split; [exact E|].
    intros [[t|m]|e|k e]; cbn [canon_field field_nan_free].
    - rewrite canon_elem_scalar. cbn [collapse]. rewrite <- canon_elem_scalar with (sch := sch). apply E.
    - destruct v; try (cbn; tauto).
      rewrite canon_elem_msg. cbn [collapse]. destruct (M m fs eq_refl) as [M1 M2].
      destruct (forallb is_default (canon_obj sch m fs)).
      + split; [intros _; apply nan_free_all; auto | intros _; exact I].
      + rewrite !nan_free_all. exact M1.
    - destruct v; cbn [list_of map every]; try tauto. apply every_iff. intros x I. apply IH.
      cbn [vsize] in L. pose proof (list_sum_in (vsize x) (map vsize l) (in_map _ _ _ I)). lia.
    - destruct v; cbn [map_of map every]; try tauto. apply every_iff. intros x I. cbn [snd]. apply IH.
      cbn [vsize] in L.
      pose proof (list_sum_in (vsize (snd x)) (map (fun p => vsize (snd p)) l)
                    (in_map (fun p => vsize (snd p)) _ _ I)). lia.
  Qed.

  Lemma same_nan_free m a b : same sch m a b -> nan_free sch (EM m) (VMsg b) ->
    nan_free sch (EM m) (VMsg a).
  Proof.
    intros E N. destruct (nan_free_canon _ (VMsg a) (le_n _)) as [A _].
    destruct (nan_free_canon _ (VMsg b) (le_n _)) as [B _].
    apply A. apply B in N. rewrite canon_elem_msg in *. unfold same in E. now rewrite E.
  Qed.

  Lemma same_field_nan_free ty a b : same_field sch ty a b -> field_nan_free sch ty b ->
    field_nan_free sch ty a.
  Proof.
    intros E N. destruct (nan_free_canon _ a (le_n _)) as [_ A].
    destruct (nan_free_canon _ b (le_n _)) as [_ B].
    apply A. apply B in N. unfold same_field in E. now rewrite E.
  Qed.
End Nan.

(** ** Independence from the heap *)

Lemma unshared_heap sch h h' m xs vs : unshared sch m -> denotes sch h m xs vs ->
  denotes sch h' m xs vs.
Proof.
  intros (T & Tm & C) D. revert Tm.
  apply (denotes_ind' sch h
    (fun m xs vs _ => T m -> denotes sch h' m xs vs)
    (fun fs xs vs _ => (forall f, In f fs ->
        match f_ty f with FRep (EM _) | FMap _ (EM _) => False | FSing (EM m'') => T m'' | _ => True end) ->
        den_fields sch h' fs xs vs)
    (fun ty x v _ =>
        match ty with FRep (EM _) | FMap _ (EM _) => False | FSing (EM m'') => T m'' | _ => True end ->
        den_field sch h' ty x v)
    (fun m l vs _ => True) (fun m l vs _ => True) (fun m p v _ => True)); try exact D; auto.
  - intros m0 xs0 vs0 _ IH Tm. constructor. apply IH. intros f I. eapply C; eauto.
  - intros. constructor.
  - intros f fields x xs0 v vs0 _ IH1 _ IH2 H. constructor; [apply IH1, H; now left|].
    apply IH2. intros f' I. apply H. now right.
  - intros. constructor.
  - intros. constructor.
  - intros m0 xs0 vs0 _ IH Tm. constructor. auto.
  - intros. constructor.
  - intros. contradiction.
  - intros. constructor.
  - intros. contradiction.
Qed.

Lemma modify_nested sch i new path : forallb is_nested path = true -> forall m xs h xs' h',
  modify sch path i new m xs h = Some (xs', h') -> h' = h.
Proof.
  induction path as [|s path IH]; intros N m xs h xs' h' H; cbn [modify] in H.
  - now injection H as <- <-.
  - cbn [forallb] in N. apply andb_prop in N. destruct N as [N1 N2]. destruct s; try discriminate N1.
    match type of H with context [modify sch path i new ?a ?b h] =>
      destruct (modify sch path i new a b h) as [[o' h'']|] eqn:E end; [|discriminate].
    apply IH in E; auto. injection H as <- <-. exact E.
Qed.

Lemma modify_all_nested sch mods : forallb (fun c => forallb is_nested (fst (fst c))) mods = true ->
  forall m xs h xs' h', modify_all sch mods m xs h = Some (xs', h') -> h' = h.
Proof.
  induction mods as [|[[path i] new] mods IH]; intros N m xs h xs' h' H; cbn [modify_all] in H.
  - now injection H as <- <-.
  - cbn [forallb fst] in N. apply andb_prop in N. destruct N as [N1 N2].
    destruct (modify sch path i new m xs h) as [[xs1 h1]|] eqn:E; [|discriminate].
    apply modify_nested in E; auto. subst h1. eauto.
Qed.

(** ** Setter calls *)

Lemma changes_resp sch ty v v' ws n : same_field sch ty v v' ->
  changes (same_field sch ty) v ws n -> changes (same_field sch ty) v' ws n.
Proof.
  unfold same_field. intros E C. inversion C; subst; constructor; auto; congruence.
Qed.

(** A field type whose setter compares values: everything but containers of messages. *)
Definition value_type (ty : fty) : bool := is_plain ty || is_message ty.

Lemma upd_nth_same {A} i (a : A) l d : (i < length l)%nat -> nth i (upd i a l) d = a.
Proof. revert i. induction l as [|x l IH]; intros [|i] L; cbn in *; try lia; auto. apply IH. lia. Qed.
Lemma upd_nth_other {A} i j (a : A) l d : i <> j -> nth j (upd i a l) d = nth j l d.
Proof.
  revert i j. induction l as [|x l IH]; intros [|i] [|j] N; cbn [upd nth]; auto. now destruct N.
Qed.
Lemma upd_length {A} i (a : A) l : length (upd i a l) = length l.
Proof. revert i. induction l as [|x l IH]; intros [|i]; cbn [upd length]; auto. Qed.

Section Setting.
  Variable sch : schema.
  Variable h : heap.
  Hypothesis S : schema_ok sch.

  Lemma den_nth fields xs vs i : den_fields sch h fields xs vs -> (i < length fields)%nat ->
    den_field sch h (f_ty (nth i fields dummy_field)) (nth i xs (MOwn None)) (nth i vs VNull).
  Proof.
    revert xs vs i. induction fields as [|f fields IH]; intros xs vs i D L; cbn [length] in L; [lia|].
    inversion D; subst. destruct i; cbn [nth]; auto. apply IH; auto. lia.
  Qed.

  Lemma den_upd fields xs vs i x v : den_fields sch h fields xs vs ->
    (i < length fields)%nat -> den_field sch h (f_ty (nth i fields dummy_field)) x v ->
    den_fields sch h fields (upd i x xs) (upd i v vs).
  Proof.
    revert xs vs i. induction fields as [|f fields IH]; intros xs vs i D L E; cbn [length] in L; [lia|].
    inversion D; subst. destruct i; cbn [upd nth] in *; constructor; auto. apply IH; auto. lia.
  Qed.

  (** The value of a field: well typed, without nulls and NaN. *)
  Definition field_proper (ty : fty) (v : value) : Prop :=
    val_ok sch ty v /\ no_nulls v /\ field_nan_free sch ty v.

  Lemma proper_spec m vs : proper sch m vs <->
    Forall2 (fun f v => field_proper (f_ty f) v) (md_fields (msg_at sch m)) vs.
  Proof.
    unfold proper. rewrite nan_free_all, object_ok_spec. cbn [no_nulls]. rewrite every_Forall.
    split.
    - intros (O & N & Nn). revert N Nn. induction O; intros N Nn; constructor.
      + inversion Nn; subst. destruct N. repeat split; auto.
      + inversion Nn; subst. destruct N. auto.
    - induction 1 as [|f v fields vs (A & B & C) F (IH1 & IH2 & IH3)]; repeat split; try constructor; auto.
  Qed.

  Lemma proper_nth m vs i : proper sch m vs -> (i < length (md_fields (msg_at sch m)))%nat ->
    field_proper (f_ty (field_at sch m i)) (nth i vs VNull).
  Proof.
    rewrite proper_spec. unfold field_at. intro F. revert i.
    induction F; intros i L; cbn [length] in L; [lia|]. destruct i; cbn [nth]; auto. apply IHF. lia.
  Qed.

  Lemma proper_upd m vs i v : proper sch m vs -> (i < length (md_fields (msg_at sch m)))%nat ->
    field_proper (f_ty (field_at sch m i)) v -> proper sch m (upd i v vs).
  Proof.
    rewrite !proper_spec. unfold field_at. intro F. revert i.
    induction F; intros i L P; cbn [length] in L; [lia|]. destruct i; cbn [nth upd] in *; constructor; auto.
    apply IHF; auto. lia.
  Qed.

  Lemma field_key m i : (i < length (md_fields (msg_at sch m)))%nat -> key_ok (f_ty (field_at sch m i)).
  Proof.
    intro L. pose proof (schema_keys sch S m) as K. rewrite Forall_forall in K. apply K.
    unfold field_at. now apply nth_In.
  Qed.

  (** One setter call on a field that is not a message. *)
  Lemma set_field_plain fuel m xs vs i new w : denotes sch h m xs vs -> proper sch m vs ->
    (i < length (md_fields (msg_at sch m)))%nat -> is_message (f_ty (field_at sch m i)) = false ->
    den_field sch h (f_ty (field_at sch m i)) new w -> field_proper (f_ty (field_at sch m i)) w ->
    exists x s u, set_field fuel sch h m xs i new = Ok (upd i x xs, s) /\
      den_field sch h (f_ty (field_at sch m i)) x u /\ field_proper (f_ty (field_at sch m i)) u /\
      same_field sch (f_ty (field_at sch m i)) u w /\
      (s = snd (set_plain (f_ty (field_at sch m i)) (nth i xs (MOwn None)) new)) /\
      (is_plain (f_ty (field_at sch m i)) = true ->
         (s = false <-> same_field sch (f_ty (field_at sch m i)) (nth i vs VNull) w)).
  Proof.
    intros D P L M Dw Pw. inversion D; subst.
    pose proof (den_nth _ _ _ i H L) as Di. fold (field_at sch m i) in Di.
    pose proof (proper_nth m vs i P L) as Pi. pose proof (field_key m i L) as K.
    set (ty := f_ty (field_at sch m i)) in *.
    destruct (set_plain ty (nth i xs (MOwn None)) new) as [x s] eqn:E.
    destruct (set_plain_spec sch h ty _ _ _ _ x s K M Di Dw E) as (u & Du & Su & C & _).
    exists x, s, u.
    assert (Pu : field_proper ty u) by (destruct C as [[-> _]|[-> _]]; auto).
    split; [|split; [exact Du|split; [exact Pu|split; [exact Su|split; [reflexivity|]]]]].
    - unfold set_field. fold ty.
      destruct ty as [[t|m']|[t|m']|k [t|m']]; try discriminate M; now rewrite E.
    - intro Pl. replace s with (snd (set_plain ty (nth i xs (MOwn None)) new)) by now rewrite E.
      unfold set_plain. destruct (mem_eqb ty (nth i xs (MOwn None)) new) eqn:Eq; cbn [snd]; split; intro F;
        try discriminate; auto.
      + eapply mem_eqb_same; eauto.
      + exfalso. pose proof (mem_eqb_complete sch h ty _ _ _ _ K Pl Di Dw (proj2 (proj2 Pi)) (proj2 (proj2 Pw)) F) as X.
        congruence.
  Qed.

  (** Comparison and assignment of a nested message, which is created for it. *)
  Lemma message_returns m x y v w : den_field sch h (FSing (EM m)) x v -> den_field sch h (FSing (EM m)) y w ->
    elem_ok sch (EM m) v -> elem_ok sch (EM m) w -> comparable_at sch (FSing (EM m)) v w ->
    no_nulls v -> no_nulls w ->
    forall n, (odepth (obj_of sch m v) < n)%nat -> (odepth (obj_of sch m w) < n)%nat ->
    (exists r, eq_obj n sch h m (deref sch m (own_of x)) (deref sch m (own_of y)) = Ok r) /\
    (exists r, assign n sch h m (deref sch m (own_of x)) (deref sch m (own_of y)) = Ok r).
  Proof.
    intros D1 D2 O1 O2 C N1 N2 n L1 L2.
    pose proof (deref_den sch h m x v D1) as E1. pose proof (deref_den sch h m y w D2) as E2.
    pose proof (obj_of_ok sch m v O1) as P1. pose proof (obj_of_ok sch m w O2) as P2.
    pose proof (obj_of_nulls sch m v N1) as M1. pose proof (obj_of_nulls sch m w N2) as M2.
    split.
    - inversion D1; inversion D2; subst; cbn [own_of deref obj_of] in *.
      + eapply eq_default_returns; eauto.
      + eapply eq_default_returns_left; eauto.
      + eapply eq_default_returns; eauto.
      + inversion C; subst; [contradiction|]. eapply eq_obj_returns; eauto.
    - eapply assign_returns; eauto.
      inversion D1; inversion D2; subst; cbn [obj_of];
        try apply nested_default_left; try apply nested_default_right.
      inversion C; subst; [contradiction|]. now apply comparable_nested_of.
  Qed.

  (** One setter call on a message field. *)
  Lemma set_field_message m m' xs vs i new w : comparable_at sch (FSing (EM m')) (nth i vs VNull) w ->
    denotes sch h m xs vs -> proper sch m vs ->
    (i < length (md_fields (msg_at sch m)))%nat -> f_ty (field_at sch m i) = FSing (EM m') ->
    den_field sch h (FSing (EM m')) new w -> field_proper (FSing (EM m')) w ->
    forall fuel, (vdepth (nth i vs VNull) <= fuel)%nat -> (vdepth w <= fuel)%nat -> (0 < fuel)%nat ->
    exists x s u, set_field fuel sch h m xs i new = Ok (upd i x xs, s) /\
      den_field sch h (FSing (EM m')) x u /\ field_proper (FSing (EM m')) u /\
      same_field sch (FSing (EM m')) u w /\
      (s = false <-> same_field sch (FSing (EM m')) (nth i vs VNull) w).
  Proof.
    intros NM D P L Ty Dw Pw fuel L1 L2 L3. inversion D; subst.
    pose proof (den_nth _ _ _ i H L) as Di. fold (field_at sch m i) in Di.
    pose proof (proper_nth m vs i P L) as Pi. rewrite Ty in Di, Pi.
    set (x := nth i xs (MOwn None)) in *. set (v := nth i vs VNull) in *.
    pose proof (deref_den sch h m' x v Di) as D1. pose proof (deref_den sch h m' new w Dw) as D2.
    destruct Pi as (O1 & Nn1 & N1), Pw as (O2 & Nn2 & N2). cbn [val_ok field_nan_free] in *.
    assert (d1 : (odepth (obj_of sch m' v) < fuel)%nat).
    { destruct v; cbn [obj_of vdepth] in *; rewrite ?odepth_default; unfold odepth; lia. }
    assert (d2 : (odepth (obj_of sch m' w) < fuel)%nat).
    { destruct w; cbn [obj_of vdepth] in *; rewrite ?odepth_default; unfold odepth; lia. }
    pose proof (obj_of_ok sch m' v O1) as O1'. pose proof (obj_of_ok sch m' w O2) as O2'.
    pose proof (obj_of_nan sch m' v N1) as N1'. pose proof (obj_of_nan sch m' w N2) as N2'.
    pose proof (obj_of_nulls sch m' v Nn1) as M1. pose proof (obj_of_nulls sch m' w Nn2) as M2.
    unfold set_field. rewrite Ty. fold x. unfold set_message.
    destruct (message_returns m' x new v w Di Dw O1 O2 NM Nn1 Nn2 fuel d1 d2) as [[r E] [[o sg] A]].
    rewrite E. cbn [bind].
    destruct r.
    - exists (MOwn (own_of x)), false, v.
      assert (Eq : same_field sch (FSing (EM m')) v w).
      { apply same_message; auto. eapply eq_obj_sound; eauto. }
      repeat split; auto.
      clear - Di. revert Di. generalize x v. intros x0 v0 Di. inversion Di; subst; exact Di.
    - rewrite A. cbn [bind].
      destruct (assign_sound sch h S fuel m' _ _ _ _ o sg D1 D2 O1' O2' M1 M2 A) as (us & Du & Ou & Nu & Su).
      exists (MOwn (Some o)), true, (VMsg us).
      split; [reflexivity|]. split; [now constructor|].
      assert (Eq : same_field sch (FSing (EM m')) (VMsg us) w) by (apply same_message; auto).
      split; [|split; [exact Eq|]].
      + split; [exact Ou|]. split; [exact Nu|]. cbn [field_nan_free]. now apply (same_nan_free sch m' us (obj_of sch m' w)).
      + split; [discriminate|]. intro F. apply same_message in F; auto.
        exfalso. revert F. eapply eq_obj_false; eauto.
  Qed.
End Setting.

(** ** Runs with any large enough bound *)

Lemma returns_mono {A} (f : nat -> res A) n r : (forall a, le_res (f a) (f (S a))) -> f n = Ok r ->
  returns f r.
Proof. intros M E. exists n. induction 1; [exact E|]. now apply M. Qed.

Lemma returns_fun {A} (f : nat -> res A) r r' : returns f r -> returns f r' -> r = r'.
Proof.
  intros [n E] [n' E']. specialize (E (n + n')%nat). specialize (E' (n + n')%nat).
  rewrite E in E' by lia. injection (E' ltac:(lia)). auto.
Qed.

Lemma returns_bind {A B} (f : nat -> res A) (g : nat -> A -> res B) a b : returns f a ->
  returns (fun fuel => g fuel a) b -> returns (fun fuel => x <- f fuel ;; g fuel x) b.
Proof.
  intros [n E] [n' E']. exists (n + n')%nat. intros fuel L. rewrite E by lia. cbn [bind]. apply E'. lia.
Qed.

Lemma returns_const {A} (a : A) : returns (fun _ => Ok a) a.
Proof. exists 0%nat. auto. Qed.

Lemma lazy_eq_mono_fuel sch h fuel m p q :
  le_res (lazy_eq sch (eq_obj fuel sch h) m p q) (lazy_eq sch (eq_obj (S fuel) sch h) m p q).
Proof. apply lazy_eq_mono. apply eq_obj_mono1. Qed.

Lemma assign_fields_mono sch h fuel rec rec' fields :
  (forall m xs ys, le_res (rec m xs ys) (rec' m xs ys)) ->
  forall i xs ys, le_res (assign_fields sch h fuel rec i fields xs ys)
                         (assign_fields sch h (S fuel) rec' i fields xs ys).
Proof.
  intro R. induction fields as [|f fields IH]; intros i [|x xs] [|y ys] r H; try exact H.
  cbn [assign_fields] in *. apply bind_Ok in H. destruct H as ([x' s] & H1 & H2).
  apply bind_Ok in H2. destruct H2 as ([xs'' sg] & H2 & H3). apply IH in H2.
  assert (E : assign_field sch h (S fuel) rec' (f_ty f) x y = Ok (x', s)).
  { unfold assign_field in *. destruct (f_ty f) as [[t|m]|e|k e]; auto.
    apply bind_Ok in H1. destruct H1 as ([o b] & H1 & H4). unfold assign_message in *.
    apply bind_Ok in H1. destruct H1 as (c & H1 & H5). apply lazy_eq_mono_fuel in H1. rewrite H1.
    cbn [bind]. destruct c; [injection H5 as <- <-; exact H4|].
    apply bind_Ok in H5. destruct H5 as ([o' g] & H5 & H6). apply R in H5. rewrite H5. cbn [bind].
    injection H6 as <- <-. exact H4. }
  rewrite E. cbn [bind]. rewrite H2. exact H3.
Qed.

Lemma assign_mono sch h fuel : forall m xs ys,
  le_res (assign fuel sch h m xs ys) (assign (S fuel) sch h m xs ys).
Proof.
  induction fuel as [|fuel IH]; intros m xs ys; [intros r H; discriminate|].
  cbn [assign]. apply assign_fields_mono. exact IH.
Qed.

Lemma set_field_mono sch h fuel m xs i new :
  le_res (set_field fuel sch h m xs i new) (set_field (S fuel) sch h m xs i new).
Proof.
  intros r H. unfold set_field in *. destruct (f_ty (field_at sch m i)) as [[t|m']|e|k e]; auto.
  apply bind_Ok in H. destruct H as ([o s] & H1 & H2). unfold set_message in *.
  apply bind_Ok in H1. destruct H1 as (c & H1 & H3). apply eq_obj_mono1 in H1. rewrite H1. cbn [bind].
  destruct c; [injection H3 as <- <-; exact H2|].
  apply bind_Ok in H3. destruct H3 as ([o' g] & H3 & H4). apply assign_mono in H3. rewrite H3. cbn [bind].
  injection H4 as <- <-. exact H2.
Qed.

Lemma copy_construct_mono sch h junk m ys fuel :
  le_res (copy_construct fuel sch h junk m ys) (copy_construct (S fuel) sch h junk m ys).
Proof.
  destruct fuel as [|fuel]; intros r H; [discriminate|]. cbn [copy_construct] in *.
  apply bind_Ok in H. destruct H as ([xs sg] & H1 & H2).
  eapply assign_fields_mono in H1; [|apply assign_mono]. rewrite H1. exact H2.
Qed.

Lemma move_field_mono sch h fuel rec rec' ty x y :
  (forall m xs ys, le_res (rec m xs ys) (rec' m xs ys)) ->
  le_res (move_field sch h fuel rec ty x y) (move_field sch h (S fuel) rec' ty x y).
Proof.
  intros R r H. unfold move_field in *. destruct ty as [[t|m]|e|k e]; auto.
  apply bind_Ok in H. destruct H as ([o b] & H1 & H4). unfold move_message in *.
  apply bind_Ok in H1. destruct H1 as (c & H1 & H5). apply lazy_eq_mono_fuel in H1. rewrite H1.
  cbn [bind]. destruct c; [injection H5 as <- <-; exact H4|].
  apply bind_Ok in H5. destruct H5 as ([o' g] & H5 & H6). apply R in H5. rewrite H5. cbn [bind].
  injection H6 as <- <-. exact H4.
Qed.

Lemma move_fields_mono sch h fuel rec rec' fields :
  (forall m xs ys, le_res (rec m xs ys) (rec' m xs ys)) ->
  forall xs ys, le_res (move_fields sch h fuel rec fields xs ys)
                       (move_fields sch h (S fuel) rec' fields xs ys).
Proof.
  intro R. induction fields as [|f fields IH]; intros [|x xs] [|y ys] r H; try exact H.
  cbn [move_fields] in *. apply bind_Ok in H. destruct H as ([x' s] & H1 & H2).
  apply bind_Ok in H2. destruct H2 as ([xs'' sg] & H2 & H3). apply IH in H2.
  eapply move_field_mono in H1; [|exact R]. rewrite H1. cbn [bind]. rewrite H2. exact H3.
Qed.

Lemma move_assign_mono sch h fuel : forall m xs ys,
  le_res (move_assign fuel sch h m xs ys) (move_assign (S fuel) sch h m xs ys).
Proof.
  induction fuel as [|fuel IH]; intros m xs ys; [intros r H; discriminate|].
  cbn [move_assign]. apply move_fields_mono. exact IH.
Qed.

Lemma move_construct_mono sch h junk m ys fuel :
  le_res (move_construct fuel sch h junk m ys) (move_construct (S fuel) sch h junk m ys).
Proof.
  unfold move_construct. generalize (raw_mems junk 0 (md_fields (msg_at sch m))).
  revert ys. induction (md_fields (msg_at sch m)) as [|f fields IH]; intros ys xs r H;
    destruct xs as [|x xs], ys as [|y ys]; try exact H.
  cbn [move_construct_fields] in *. apply bind_Ok in H. destruct H as ([x' s] & H1 & H2).
  apply bind_Ok in H2. destruct H2 as ([xs'' sg] & H2 & H3). apply IH in H2.
  assert (E : move_construct_field (S fuel) sch h (f_ty f) x y = Ok (x', s)).
  { pose proof (move_field_mono sch h fuel _ _ (f_ty f) x y (move_assign_mono sch h fuel)) as M.
    unfold move_construct_field in *. destruct (f_ty f) as [[t|m']|e|k e]; auto. }
  rewrite E. cbn [bind]. rewrite H2. exact H3.
Qed.

(** ** Sequences of setter calls *)

Lemma last_default {A} (x : A) l d d' : last (x :: l) d = last (x :: l) d'.
Proof. revert x. induction l as [|y l IH]; intro x; [reflexivity|]. exact (IH y). Qed.

Section Calls.
  Variable sch : schema.
  Variable h : heap.
  Hypothesis S : schema_ok sch.

  (** Calls and the values of their arguments. *)
  Definition call_ok (m : nat) (c : nat * mem) (a : nat * value) : Prop :=
    fst c = fst a /\ (fst a < length (md_fields (msg_at sch m)))%nat /\
    den_field sch h (f_ty (field_at sch m (fst a))) (snd c) (snd a) /\
    field_proper sch (f_ty (field_at sch m (fst a))) (snd a).

  Lemma set_field_step m xs vs c a :
    (forall m', f_ty (field_at sch m (fst a)) = FSing (EM m') ->
       comparable_at sch (FSing (EM m')) (nth (fst a) vs VNull) (snd a)) -> denotes sch h m xs vs -> proper sch m vs ->
    call_ok m c a ->
    exists x s u, returns (fun fuel => set_field fuel sch h m xs (fst c) (snd c)) (upd (fst a) x xs, s) /\
      den_field sch h (f_ty (field_at sch m (fst a))) x u /\
      field_proper sch (f_ty (field_at sch m (fst a))) u /\
      same_field sch (f_ty (field_at sch m (fst a))) u (snd a) /\
      (value_type (f_ty (field_at sch m (fst a))) = true ->
         (s = false <-> same_field sch (f_ty (field_at sch m (fst a))) (nth (fst a) vs VNull) (snd a))).
  Proof.
    intros NM D P (E & L & Da & Pa). destruct c as [i new], a as [i' w]. cbn [fst snd] in *. subst i'.
    destruct (is_message (f_ty (field_at sch m i))) eqn:M.
    - destruct (f_ty (field_at sch m i)) as [[t|m']|e|k e] eqn:Ty; try discriminate M.
      destruct (set_field_message sch h S m m' xs vs i new w (NM m' eq_refl) D P L Ty Da Pa
                  (1 + vdepth (nth i vs VNull) + vdepth w)) as (x & s & u & R & A & B & C & F); try lia.
      exists x, s, u. repeat split; try apply A; try apply B; try apply C; try apply F.
      eapply returns_mono; [|exact R]. intro. apply set_field_mono.
    - destruct (set_field_plain sch h S 0 m xs vs i new w D P L M Da Pa) as (x & s & u & R & A & B & C & _ & F).
      exists x, s, u. split; [eapply returns_mono; [|exact R]; intro; apply set_field_mono|].
      repeat split; try apply A; try apply B; try apply C;
        intro; apply F; unfold value_type in *; rewrite M, orb_false_r in *; auto.
  Qed.

  Lemma set_fields_calls m : no_map_nested sch m -> forall calls args xs vs,
    Forall2 (call_ok m) calls args -> denotes sch h m xs vs -> proper sch m vs ->
    exists xs' vs' sigs, returns (fun fuel => set_fields fuel sch h m xs calls) (xs', sigs) /\
      denotes sch h m xs' vs' /\ proper sch m vs' /\
      (forall i, (i < length (md_fields (msg_at sch m)))%nat ->
         same_field sch (f_ty (field_at sch m i)) (nth i vs' VNull)
           (last (args_for i args) (nth i vs VNull)) /\
         (value_type (f_ty (field_at sch m i)) = true ->
            changes (same_field sch (f_ty (field_at sch m i))) (nth i vs VNull) (args_for i args)
              (count_occ Nat.eq_dec sigs i))).
  Proof.
    intros NM calls args xs vs F. revert xs vs. induction F as [|c a calls args Hc F IH]; intros xs vs D P.
    - exists xs, vs, []. split; [apply returns_const|]. split; [exact D|]. split; [exact P|].
      intros i L. split; [reflexivity|]. intros. constructor.
    - assert (Cm : forall m', f_ty (field_at sch m (fst a)) = FSing (EM m') ->
        comparable_at sch (FSing (EM m')) (nth (fst a) vs VNull) (snd a)).
      { intros m' T. destruct Hc as (_ & L & _ & Pa). pose proof (proper_nth sch m vs (fst a) P L) as Pi.
        rewrite T in Pa, Pi. apply comparable_message; [|apply Pi|apply Pa].
        apply (NM (field_at sch m (fst a))); [now apply nth_In | exact T]. }
      destruct (set_field_step m xs vs c a Cm D P Hc) as (x & s & u & R & Du & Pu & Su & Sg).
      destruct Hc as (E & L & Da & Pa).
      assert (Lv : length (md_fields (msg_at sch m)) = length vs).
      { apply (proj1 (proper_spec sch m vs)) in P. clear - P. induction P; cbn [length]; congruence. }
      assert (D1 : denotes sch h m (upd (fst a) x xs) (upd (fst a) u vs)).
      { inversion D; subst. constructor. apply den_upd; auto. }
      assert (P1 : proper sch m (upd (fst a) u vs)) by (apply proper_upd; auto).
      destruct (IH _ _ D1 P1) as (xs' & vs' & sigs & R' & D' & P' & C).
      exists xs', vs', (if s then fst a :: sigs else sigs). split; [|split; [exact D'|split; [exact P'|]]].
      + destruct c as [i new]. cbn [fst snd set_fields] in *. subst i.
        eapply returns_bind; [exact R|]. cbn beta iota.
        eapply (returns_bind (fun fuel => set_fields fuel sch h m (upd (fst a) x xs) calls)
                  (fun _ p => let '(xs'', sigs0) := p in Ok (xs'', if s then fst a :: sigs0 else sigs0)));
          [exact R'|]. apply returns_const.
      + intros i Li. destruct (C i Li) as [C1 C2]. unfold args_for in *. cbn [filter].
        destruct (Nat.eqb_spec (fst a) i) as [<-|N].
        * rewrite upd_nth_same in C1, C2 by lia. split.
          { cbn [map]. destruct (map snd (filter (fun a0 => Nat.eqb (fst a0) (fst a)) args)) as [|w ws];
              [cbn [last] in *; unfold same_field in *; congruence|].
            change (last (snd a :: w :: ws) (nth (fst a) vs VNull)) with (last (w :: ws) (nth (fst a) vs VNull)).
            rewrite (last_default w ws _ u). exact C1. }
          intro V. specialize (C2 V). specialize (Sg V). cbn [map].
          eapply changes_resp in C2; [|exact Su].
          destruct s.
          { cbn [count_occ]. destruct (Nat.eq_dec (fst a) (fst a)); [|congruence].
            apply changes_diff; [|exact C2]. intro H. apply Sg in H. discriminate. }
          { apply changes_same; [|exact C2]. now apply Sg. }
        * rewrite upd_nth_other in C1, C2 by auto. split; [exact C1|]. intro V. specialize (C2 V).
          destruct s; auto. cbn [count_occ]. destruct (Nat.eq_dec (fst a) i); [congruence|auto].
  Qed.
End Calls.

(** ** Updates of one field *)

Lemma canon_upd sch fields : forall i v vs, (i < length fields)%nat -> length vs = length fields ->
  canon_fields sch fields (upd i v vs)
  = upd i (canon_field sch (f_ty (nth i fields dummy_field)) v) (canon_fields sch fields vs).
Proof.
  induction fields as [|f fields IH]; intros i v [|x vs] L E; cbn [length] in *; try lia.
  destruct i as [|i]; cbn [upd nth canon_fields]; [reflexivity|]. f_equal. apply IH; lia.
Qed.

Lemma canon_nth sch fields : forall i vs, (i < length fields)%nat -> length vs = length fields ->
  nth i (canon_fields sch fields vs) VNull
  = canon_field sch (f_ty (nth i fields dummy_field)) (nth i vs VNull).
Proof.
  induction fields as [|f fields IH]; intros i [|x vs] L E; cbn [length] in *; try lia.
  destruct i as [|i]; cbn [nth canon_fields]; [reflexivity|]. apply IH; lia.
Qed.

Lemma canon_length sch fields : forall vs, length vs = length fields ->
  length (canon_fields sch fields vs) = length fields.
Proof.
  induction fields as [|f fields IH]; intros [|x vs] E; cbn [length canon_fields] in *; try lia.
  f_equal. apply IH. lia.
Qed.

Lemma upd_self {A} (d : A) i l : upd i (nth i l d) l = l.
Proof. revert i. induction l as [|x l IH]; intros [|i]; cbn [upd nth]; auto. now rewrite IH. Qed.

Lemma same_upd sch m i v w vs : (i < length (md_fields (msg_at sch m)))%nat ->
  length vs = length (md_fields (msg_at sch m)) ->
  same_field sch (f_ty (field_at sch m i)) v w -> same sch m (upd i v vs) (upd i w vs).
Proof.
  intros L E F. unfold same. rewrite !canon_obj_spec, !canon_upd by auto. unfold same_field, field_at in F.
  now rewrite F.
Qed.

Lemma same_upd_old sch m i w vs : (i < length (md_fields (msg_at sch m)))%nat ->
  length vs = length (md_fields (msg_at sch m)) ->
  same sch m vs (upd i w vs) <-> same_field sch (f_ty (field_at sch m i)) (nth i vs VNull) w.
Proof.
  intros L E. split; intro H.
  - unfold same in H. rewrite !canon_obj_spec in H. rewrite canon_upd in H by auto.
    unfold same_field, field_at. rewrite <- canon_nth by auto. rewrite H.
    rewrite upd_nth_same; [reflexivity|]. rewrite canon_length; auto.
  - rewrite <- (upd_self VNull i vs) at 1. now apply same_upd.
Qed.

Lemma call_with_ok sch h m c a : call_with sch h m c a -> call_ok sch h m c a.
Proof.
  intros (E & L & D & us & P & N). repeat split; auto; try apply D;
    pose proof (proper_nth sch m us (fst a) P L) as F; rewrite (nth_error_nth us _ VNull N) in F; apply F.
Qed.

(** ** Objects of every value *)

Section Realize.
  Variable sch : schema.

  (** New objects on the heap change nothing. *)
  Lemma den_extend h e :
    (forall m xs vs, denotes sch h m xs vs -> denotes sch (h ++ e) m xs vs) /\
    (forall fs xs vs, den_fields sch h fs xs vs -> den_fields sch (h ++ e) fs xs vs) /\
    (forall ty x v, den_field sch h ty x v -> den_field sch (h ++ e) ty x v) /\
    (forall m l vs, den_list sch h m l vs -> den_list sch (h ++ e) m l vs) /\
    (forall m l vs, den_entries sch h m l vs -> den_entries sch (h ++ e) m l vs) /\
    (forall m p v, den_ptr sch h m p v -> den_ptr sch (h ++ e) m p v).
  Proof.
    apply (den_mutind sch h
      (fun m xs vs _ => denotes sch (h ++ e) m xs vs) (fun fs xs vs _ => den_fields sch (h ++ e) fs xs vs)
      (fun ty x v _ => den_field sch (h ++ e) ty x v) (fun m l vs _ => den_list sch (h ++ e) m l vs)
      (fun m l vs _ => den_entries sch (h ++ e) m l vs) (fun m p v _ => den_ptr sch (h ++ e) m p v));
      intros; try (constructor; assumption).
    apply (den_address sch (h ++ e) m a xs vs); [|assumption].
    rewrite nth_error_app1; [assumption|]. apply nth_error_Some. congruence.
  Qed.

  (** Every well typed value is the value of an object, after objects were added to the heap. *)
  Lemma realize : forall n m vs, (odepth vs < n)%nat -> object_ok sch m vs -> forall h,
    exists e xs, denotes sch (h ++ e) m xs vs.
  Proof.
    induction n as [|n IH]; intros m vs L O h; [lia|].
    assert (Ptr : forall m v h, (vdepth v <= n)%nat -> elem_ok sch (EM m) v ->
      exists e p, den_ptr sch (h ++ e) m p v).
    { clear - IH. intros m v h L O. destruct v; try contradiction.
      - exists [], None. constructor.
      - destruct (IH m fs) with (h := h) as (e & xs & D); [cbn [vdepth] in L; unfold odepth; lia | exact O |].
        exists (e ++ [xs]), (Some (length (h ++ e))).
        apply (den_address sch (h ++ e ++ [xs]) m _ xs fs).
        + rewrite app_assoc, nth_error_app2, Nat.sub_diag by lia. reflexivity.
        + rewrite app_assoc. now apply den_extend. }
    apply object_ok_spec in O. revert O L.
    enough (G : forall fields vs, Forall2 (fun f v => val_ok sch (f_ty f) v) fields vs -> (odepth vs <= n)%nat -> forall h,
      exists e xs, den_fields sch (h ++ e) fields xs vs).
    { intros O L. destruct (G _ _ O ltac:(lia) h) as (e & xs & D). exists e, xs. now constructor. }
    clear m vs h. intros fields vs O. induction O as [|f v fields vs O Os IHf]; intros L h.
    - exists [], []. constructor.
    - apply odepth_cons in L. destruct L as [L Ls].
      assert (F : exists e x, den_field sch (h ++ e) (f_ty f) x v).
      { revert O. destruct (f_ty f) as [[t|m]|[t|m]|k [t|m]]; cbn [val_ok]; intro O.
        - destruct v; try contradiction. exists [], (MScalar s). constructor.
        - destruct v; try contradiction.
          + exists [], (MOwn None). constructor.
          + destruct (IH m fs) with (h := h) as (e & xs & D); [cbn [vdepth] in L; unfold odepth; lia | exact O |].
            exists e, (MOwn (Some xs)). now constructor.
        - destruct v as [| | |vs0|]; try contradiction.
          assert (A : exists l, vs0 = map VScalar l).
          { clear - O. induction vs0 as [|v vs0 IHv]; [now exists []|]. destruct O as [O Os].
            destruct (IHv Os) as [l ->]. destruct v; try contradiction. now exists (s :: l). }
          destruct A as [l ->]. exists [], (MScalars l). constructor.
        - destruct v as [| | |vs0|]; try contradiction.
          assert (A : forall l h, (forall v, In v l -> (vdepth v <= n)%nat) -> every (elem_ok sch (EM m)) l ->
            exists e a, den_list sch (h ++ e) m a l).
          { clear - Ptr. induction l as [|v l IHl]; intros h L O; [exists [], []; constructor|]. destruct O as [O Os].
            destruct (Ptr m v h (L v (or_introl eq_refl)) O) as (e & p & Dp).
            destruct (IHl (h ++ e) ltac:(intros; apply L; now right) Os) as (e' & a & Dl).
            exists (e ++ e'), (p :: a). rewrite app_assoc. constructor; [now apply den_extend | exact Dl]. }
          destruct (A vs0 h) as (e & a & D); [|exact O|].
          + intros u I. pose proof (vdepth_list _ _ I). lia.
          + exists e, (MPtrs a). now constructor.
        - destruct v as [| | | |kvs]; try contradiction. destruct O as [_ O].
          assert (A : exists l, kvs = map (fun p => (fst p, VScalar (snd p))) l).
          { clear - O. induction kvs as [|[a v] kvs IHv]; [now exists []|]. destruct O as [[_ O] Os].
            destruct (IHv Os) as [l ->]. cbn [snd] in O. destruct v; try contradiction. now exists ((a, s) :: l). }
          destruct A as [l ->]. exists [], (MScalarMap l). constructor.
        - destruct v as [| | | |kvs]; try contradiction. destruct O as [_ O].
          assert (A : forall (l : list (scalar * value)) h, (forall v, In v l -> (vdepth (snd v) <= n)%nat) ->
            every (fun p => scalar_ok k (fst p) /\ elem_ok sch (EM m) (snd p)) l ->
            exists e a, den_entries sch (h ++ e) m a l).
          { clear - Ptr. induction l as [|[b v] l IHl]; intros h L O; [exists [], []; constructor|].
            destruct O as [[_ O] Os]. cbn [snd] in O.
            destruct (Ptr m v h (L (b, v) (or_introl eq_refl)) O) as (e & p & Dp).
            destruct (IHl (h ++ e) ltac:(intros; apply L; now right) Os) as (e' & a & Dl).
            exists (e ++ e'), ((b, p) :: a). rewrite app_assoc. constructor; [now apply den_extend | exact Dl]. }
          destruct (A kvs h) as (e & a & D); [|exact O|].
          + intros u I. pose proof (vdepth_map _ _ I). lia.
          + exists e, (MPtrMap a). now constructor. }
      destruct F as (e & x & F). destruct (IHf Ls (h ++ e)) as (e' & xs & D).
      exists (e ++ e'), (x :: xs). rewrite app_assoc. constructor; [now apply den_extend | exact D].
  Qed.
End Realize.

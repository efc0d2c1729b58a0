(** Proofs about comparison of message objects. *)

From Coq Require Import ZArith List Bool Lia.
From Verif Require Import Base Values MessageSpec MessageProofs SerializeProofs MessageFacts
  PropFacts ObjectModel ObjectSpec.
Import ListNotations.
Open Scope Z_scope.

Lemma bind_Ok {A B} (a : res A) (f : A -> res B) r :
  bind a f = Ok r -> exists x, a = Ok x /\ f x = Ok r.
Proof. destruct a; cbn; try discriminate. eauto. Qed.

(** ** Scalars *)

Lemma feqb_complete w e a b : 0 < w -> is_nan w e a = false -> is_nan w e b = false ->
  (if a mod 2 ^ (w - 1) =? 0 then 0 else a) = (if b mod 2 ^ (w - 1) =? 0 then 0 else b) ->
  feqb w e a b = true.
Proof.
  intros W A B H. unfold feqb, is_fzero. rewrite A, B. cbn [negb andb].
  destruct (a mod 2 ^ (w - 1) =? 0) eqn:E1, (b mod 2 ^ (w - 1) =? 0) eqn:E2; cbn [andb].
  - now rewrite orb_true_r.
  - subst b. rewrite Z.mod_0_l in E2 by (apply Z.pow_nonzero; lia). discriminate.
  - subst a. rewrite Z.mod_0_l in E1 by (apply Z.pow_nonzero; lia). discriminate.
  - subst b. now rewrite Z.eqb_refl.
Qed.

Lemma is_nan_iff w e b : 0 < e -> 0 < w - 1 - e ->
  (is_nan w e b = false <-> b mod 2 ^ (w - 1) <= (2 ^ e - 1) * 2 ^ (w - 1 - e)).
Proof.
  intros He Hm. unfold is_nan. set (m := w - 1 - e) in *. replace (w - 1) with (m + e) by lia.
  assert (O : 2 ^ e - 1 = Z.ones e) by (rewrite Z.ones_equiv; lia). rewrite O, Z.land_ones, Z.shiftr_div_pow2, <- O by lia.
  rewrite Z.pow_add_r, Z.rem_mul_r by (try apply Z.pow_nonzero; try apply Z.pow_pos_nonneg; lia).
  assert (Pm : 0 < 2 ^ m) by (apply Z.pow_pos_nonneg; lia). assert (Pe : 0 < 2 ^ e) by (apply Z.pow_pos_nonneg; lia).
  pose proof (Z.mod_pos_bound b (2 ^ m) Pm) as Bm. pose proof (Z.mod_pos_bound (b / 2 ^ m) (2 ^ e) Pe) as Be.
  set (x := b mod 2 ^ m) in *. set (y := (b / 2 ^ m) mod 2 ^ e) in *. clearbody x y.
  destruct (Z.eqb_spec y (2 ^ e - 1)) as [-> | N]; cbn [andb].
  - destruct (Z.eqb_spec x 0) as [-> | N]; cbn [negb]; split; intro H; try reflexivity; try discriminate; nia.
  - split; [intros _ | reflexivity]. nia.
Qed.
Lemma not_nan_float s : not_nan TFloat s <-> is_nan 32 8 (num_of s) = false.
Proof. rewrite is_nan_iff by lia. reflexivity. Qed.
Lemma not_nan_double s : not_nan TDouble s <-> is_nan 64 11 (num_of s) = false.
Proof. rewrite is_nan_iff by lia. reflexivity. Qed.

Lemma scalar_eqb_complete t a b : not_nan t a -> not_nan t b ->
  canon_scalar t a = canon_scalar t b -> scalar_eqb t a b = true.
Proof.
  unfold canon_scalar, scalar_eqb. destruct t; cbn [is_blob]; intros A B H;
    try (injection H as H; lia);
    try (injection H as H; now apply list_eqb_Z).
  - injection H as H. apply feqb_complete; [lia | now apply not_nan_float.. | exact H].
  - injection H as H. apply feqb_complete; [lia | now apply not_nan_double.. | exact H].
Qed.

Lemma scalar_eqb_iff t a b : not_nan t a -> not_nan t b ->
  (scalar_eqb t a b = true <-> canon_scalar t a = canon_scalar t b).
Proof. intros A B. split; [apply scalar_eqb_canon | now apply scalar_eqb_complete]. Qed.

Lemma not_nan_key k s : key_type k -> not_nan k s.
Proof. destruct k; cbn; tauto. Qed.

Lemma scalars_eqb_complete t a : forall b, Forall (not_nan t) a -> Forall (not_nan t) b ->
  map (canon_scalar t) a = map (canon_scalar t) b -> list_eqb (scalar_eqb t) a b = true.
Proof.
  induction a as [|x a IH]; intros [|y b] A B H; cbn [map] in H; try discriminate; auto.
  injection H as H1 H2. cbn [list_eqb]. inversion A; inversion B; subst.
  rewrite scalar_eqb_complete, IH by assumption. reflexivity.
Qed.

Lemma keys_neither k a b : key_type k ->
  (negb (key_ltb k a b) && negb (key_ltb k b a) = true <-> canon_scalar k a = canon_scalar k b).
Proof.
  intro K. split; intro H.
  - apply andb_prop in H. destruct H as [H1 H2]. apply key_tri; auto; now apply negb_true_iff.
  - rewrite <- (key_ltb_canon k a b), <- (key_ltb_canon k b a), H, key_ltb_irrefl by exact K.
    reflexivity.
Qed.

(** ** Plain members *)

Section Plain.
  Variable sch : schema.
  Variable h : heap.

  Definition is_plain (ty : fty) : bool :=
    match ty with FSing (ES _) | FRep (ES _) | FMap _ (ES _) => true | _ => false end.
  Definition key_ok (ty : fty) : Prop := match ty with FMap k _ => key_type k | _ => True end.

  Definition field_nan_free (ty : fty) (v : value) : Prop :=
    match ty, v with
    | FSing e', _ => nan_free sch e' v
    | FRep e', VList l => every (nan_free sch e') l
    | FMap k e', VMap l => every (fun p => nan_free sch e' (snd p)) l
    | _, _ => True
    end.

  Lemma nan_free_spec m fs : length fs = length (md_fields (msg_at sch m)) ->
    (nan_free sch (EM m) (VMsg fs)
     <-> Forall2 (fun f v => field_nan_free (f_ty f) v) (md_fields (msg_at sch m)) fs).
  Proof.
    cbn [nan_free]. generalize (md_fields (msg_at sch m)). intros fields. revert fs.
    induction fields as [|f fields IH]; intros [|x fs] L; cbn [length] in L; try discriminate.
    - split; [constructor | intros _; exact I].
    - injection L as L. specialize (IH fs L). split.
      + intros [H1 H2]. constructor; [|now apply IH].
        unfold field_nan_free. destruct (f_ty f); auto.
      + intro H. inversion H; subst. split; [|now apply IH].
        match goal with H : field_nan_free _ _ |- _ => unfold field_nan_free in H end.
        destruct (f_ty f); auto.
  Qed.

  Lemma mem_eqb_same ty x y v w : key_ok ty -> is_plain ty = true ->
    den_field sch h ty x v -> den_field sch h ty y w ->
    mem_eqb ty x y = true -> same_field sch ty v w.
  Proof.
    intros K P D1 D2. destruct ty as [[t|m]|[t|m]|k [t|m]]; try discriminate P;
      inversion D1; inversion D2; subst; cbn [mem_eqb]; intro H; unfold same_field; cbn [canon_field].
    - rewrite !canon_elem_scalar. cbn [scalar_of]. apply scalar_eqb_canon in H. now rewrite H.
    - cbn [list_of]. f_equal. rewrite !map_map. apply list_eqb_canon in H.
      revert l0 D2 H. clear. induction l as [|a l IH]; intros [|b l0] D2 H; try discriminate; auto.
      cbn [map] in *. injection H as H1 H2. rewrite !canon_elem_scalar. cbn [scalar_of].
      rewrite H1. f_equal. apply IH; auto. constructor.
    - cbn [map_of]. f_equal. rewrite !map_map. unfold qmap_eqb in H.
      revert l0 D2 H. clear - K. induction l as [|a l IH]; intros [|b l0] D2 H; try discriminate; auto.
      cbn [list_eqb] in H. apply andb_prop in H. destruct H as [H1 H2].
      apply andb_prop in H1. destruct H1 as [H1 H3].
      cbn [map fst snd]. apply keys_neither in H1; [|exact K]. apply scalar_eqb_canon in H3.
      rewrite !canon_elem_scalar. cbn [scalar_of]. rewrite H1, H3. f_equal.
      apply IH; auto. constructor.
  Qed.

  Lemma mem_eqb_complete ty x y v w : key_ok ty -> is_plain ty = true ->
    den_field sch h ty x v -> den_field sch h ty y w ->
    field_nan_free ty v -> field_nan_free ty w ->
    same_field sch ty v w -> mem_eqb ty x y = true.
  Proof.
    intros K P D1 D2. destruct ty as [[t|m]|[t|m]|k [t|m]]; try discriminate P;
      inversion D1; inversion D2; subst; cbn [mem_eqb field_nan_free]; intros N1 N2;
      unfold same_field; cbn [canon_field]; intro H.
    - rewrite !canon_elem_scalar in H. cbn [scalar_of collapse nan_free] in *.
      injection H as H. now apply scalar_eqb_complete.
    - cbn [list_of] in H. injection H as H. rewrite !map_map in H.
      apply every_Forall in N1, N2. rewrite Forall_map in N1, N2.
      apply scalars_eqb_complete; auto.
      revert l0 D2 N2 H. clear. induction l as [|a l IH]; intros [|b l0] D2 N2 H; try discriminate; auto.
      cbn [map] in *. rewrite !canon_elem_scalar in H. cbn [scalar_of] in H.
      injection H as H1 H2. rewrite H1. f_equal. apply IH; auto; [constructor|]. now inversion N2.
    - cbn [map_of] in H. injection H as H. rewrite !map_map in H.
      apply every_Forall in N1, N2. rewrite Forall_map in N1, N2. cbn [snd nan_free] in N1, N2.
      unfold qmap_eqb. clear D1 D2.
      revert l0 N2 H. induction l as [|a l IH]; intros [|b l0] N2 H; try discriminate; auto.
      cbn [map fst snd] in H. rewrite !canon_elem_scalar in H.
      cbn [scalar_of] in H. injection H as H1 H2 H3. cbn [list_eqb].
      inversion N1; inversion N2; subst.
      apply keys_neither in H1; [|exact K]. rewrite H1. cbn [andb].
      rewrite scalar_eqb_complete, IH by assumption. reflexivity.
  Qed.
End Plain.

(** ** Nested messages and default values *)

Section Defaults.
  Variable sch : schema.
  Variable h : heap.

  Lemma den_default_field ty : den_field sch h ty (default_mem ty) (default_field ty).
  Proof.
    destruct ty as [[t|m]|[t|m]|k [t|m]]; cbn [default_mem default_field].
    - constructor.
    - constructor.
    - apply (den_scalars sch h t []).
    - constructor. constructor.
    - apply (den_scalar_map sch h k t []).
    - constructor. constructor.
  Qed.

  Lemma den_default_fields fields :
    den_fields sch h fields (map (fun f => default_mem (f_ty f)) fields)
      (map (fun f => default_field (f_ty f)) fields).
  Proof. induction fields; cbn [map]; constructor; auto using den_default_field. Qed.

  Lemma den_default m : denotes sch h m (default_mems sch m) (default_obj sch m).
  Proof. constructor. apply den_default_fields. Qed.

  Lemma den_fields_length fields xs vs : den_fields sch h fields xs vs ->
    length xs = length fields /\ length vs = length fields.
  Proof.
    revert xs vs. induction fields as [|f fields IH]; intros xs vs D; inversion D; subst; auto.
    match goal with H : den_fields _ _ fields _ _ |- _ => apply IH in H end. cbn [length]. lia.
  Qed.

  Lemma den_length m xs vs : denotes sch h m xs vs -> length vs = length (md_fields (msg_at sch m)).
  Proof. inversion 1; subst. now apply (den_fields_length _ _ _ H0). Qed.

  Lemma canon_field_default ty v : is_default (canon_field sch ty v) = true ->
    canon_field sch ty v = canon_field sch ty (default_field ty).
  Proof.
    destruct ty as [[t|m]|e|k e]; cbn [canon_field default_field].
    - rewrite !canon_elem_scalar. unfold canon_scalar, default_scalar. cbn [scalar_of].
      destruct (is_blob t) eqn:B; cbn [collapse is_default blob_of].
      + destruct (blob_of (scalar_of v)); [reflexivity | discriminate].
      + destruct t; try discriminate B; cbn [is_default num_of]; intro H;
          try (f_equal; f_equal; lia).
        * destruct (num_of (scalar_of v) mod 2 ^ 31 =? 0) eqn:E; [reflexivity|].
          assert (num_of (scalar_of v) = 0) as H0 by lia. rewrite H0 in E. discriminate.
        * destruct (num_of (scalar_of v) mod 2 ^ 63 =? 0) eqn:E; [reflexivity|].
          assert (num_of (scalar_of v) = 0) as H0 by lia. rewrite H0 in E. discriminate.
    - destruct v; cbn [canon_elem collapse is_default]; auto.
      match goal with |- context [forallb is_default ?l] => destruct (forallb is_default l) end;
        [reflexivity | discriminate].
    - cbn [list_of map]. destruct (map _ (list_of v)); [reflexivity | discriminate].
    - cbn [map_of map]. destruct (map _ (map_of v)); [reflexivity | discriminate].
  Qed.

  Lemma all_default m vs : length vs = length (md_fields (msg_at sch m)) ->
    (forallb is_default (canon_obj sch m vs) = true <-> same sch m vs (default_obj sch m)).
  Proof.
    intro L. unfold same. split.
    - rewrite !canon_obj_spec. unfold default_obj. revert vs L.
      induction (md_fields (msg_at sch m)) as [|f fields IH]; intros [|v vs] L; try discriminate L; auto.
      cbn [canon_fields forallb map]. intro H. apply andb_prop in H. destruct H as [H1 H2].
      injection L as L. rewrite canon_field_default by exact H1. now rewrite IH.
    - intros ->. apply canon_default.
  Qed.

  (** Value of a nested message member, as object. *)
  Definition obj_of (m : nat) (v : value) : list value :=
    match v with VMsg vs => vs | _ => default_obj sch m end.

  Lemma same_message m v w : elem_ok sch (EM m) v -> elem_ok sch (EM m) w ->
    (same_field sch (FSing (EM m)) v w <-> same sch m (obj_of m v) (obj_of m w)).
  Proof.
    assert (L : forall vs, elem_ok sch (EM m) (VMsg vs) -> length vs = length (md_fields (msg_at sch m))).
    { intros vs O. apply object_ok_spec in O. symmetry. clear - O. induction O; cbn [length]; auto. }
    assert (one : forall vs, elem_ok sch (EM m) (VMsg vs) ->
      (same_field sch (FSing (EM m)) (VMsg vs) VNull <-> same sch m vs (default_obj sch m))).
    { intros vs O. unfold same_field. cbn [canon_field]. rewrite canon_elem_msg.
      cbn [collapse canon_elem]. rewrite <- all_default by auto.
      destruct (forallb is_default (canon_obj sch m vs)); split; intro; auto; discriminate. }
    intros O1 O2. destruct v, w; try contradiction; cbn [obj_of].
    - split; intros _; reflexivity.
    - split; intro H.
      + symmetry. apply one; auto. symmetry. exact H.
      + symmetry. apply one; auto. symmetry. exact H.
    - apply one; auto.
    - unfold same_field. cbn [canon_field]. rewrite !canon_elem_msg. cbn [collapse].
      pose proof (all_default m fs (L _ O1)) as A1. pose proof (all_default m fs0 (L _ O2)) as A2.
      unfold same in *. destruct (forallb is_default (canon_obj sch m fs)) eqn:E1,
        (forallb is_default (canon_obj sch m fs0)) eqn:E2.
      + split; intros _; [|reflexivity]. destruct A1 as [A1 _], A2 as [A2 _].
        rewrite A1, A2; auto.
      + split; intro H; [discriminate|]. rewrite H in E1. congruence.
      + split; intro H; [discriminate|]. rewrite H in E1. congruence.
      + split; intro H; [now injection H | now rewrite H].
  Qed.

  Lemma default_no_nulls m : no_nulls (VMsg (default_obj sch m)).
  Proof.
    cbn [no_nulls]. unfold default_obj. apply every_Forall. apply Forall_map. apply Forall_forall.
    intros f _. destruct (f_ty f) as [[t|m']|e|k e]; cbn; auto.
  Qed.

  Lemma default_nan_free m : nan_free sch (EM m) (VMsg (default_obj sch m)).
  Proof.
    apply nan_free_spec; [apply default_obj_length|]. unfold default_obj.
    induction (md_fields (msg_at sch m)) as [|f fields IH]; cbn [map]; constructor; auto.
    destruct (f_ty f) as [[t|m']|e|k e]; cbn; auto. destruct t; cbn; auto; discriminate.
  Qed.
End Defaults.

(** ** More fuel *)

Section Mono.
  Variable sch : schema.
  Variable h : heap.
  Variables rec rec' : nat -> list mem -> list mem -> res bool.
  Hypothesis R : forall m xs ys, le_res (rec m xs ys) (rec' m xs ys).

  Lemma lazy_eq_mono m p q : le_res (lazy_eq sch rec m p q) (lazy_eq sch rec' m p q).
  Proof. destruct p, q; cbn [lazy_eq]; try apply R. intros x H. exact H. Qed.

  Lemma pointee_eq_mono m p q : le_res (pointee_eq h rec m p q) (pointee_eq h rec' m p q).
  Proof.
    unfold pointee_eq. destruct (ptr_eqb p q); [intros x H; exact H|].
    destruct p as [a|], q as [b|]; try (intros x H; exact H).
    destruct (nth_error h a), (nth_error h b); try (intros x H; exact H). apply R.
  Qed.

  Lemma field_eq_mono ty x y : le_res (field_eq sch h rec ty x y) (field_eq sch h rec' ty x y).
  Proof.
    destruct ty as [[t|m]|[t|m]|k [t|m]]; cbn [field_eq]; try (intros r H; exact H).
    - unfold message_eq. intros r H. apply bind_Ok in H. destruct H as (b & H1 & H2).
      apply lazy_eq_mono in H1. rewrite H1. cbn [bind]. destruct b; [exact H2|]. now apply R.
    - unfold repeatedValueCompare. destruct (Nat.eqb _ _); [|intros r H; exact H].
      generalize (ptrs_of x) as a. intro a. generalize (ptrs_of y) as b. induction a as [|p a IH]; intros [|q b] r H;
        try exact H. cbn [list_compare] in *.
      apply bind_Ok in H. destruct H as (c & H1 & H2).
      apply pointee_eq_mono in H1. rewrite H1. cbn [bind]. destruct c; [now apply IH | exact H2].
    - unfold repeatedMapCompare. destruct (Nat.eqb _ _); [|intros r H; exact H].
      generalize (ptr_map_of y) as b. intro b.
      induction (ptr_map_of x) as [|[key p] a IH]; intros r H; [exact H|]. cbn [map_compare] in *.
      apply bind_Ok in H. destruct H as (c & H1 & H2).
      apply pointee_eq_mono in H1. rewrite H1. cbn [bind]. destruct c; [now apply IH | exact H2].
  Qed.

  Lemma fields_eq_mono fields : forall xs ys,
    le_res (fields_eq sch h rec fields xs ys) (fields_eq sch h rec' fields xs ys).
  Proof.
    induction fields as [|f fields IH]; intros [|x xs] [|y ys] r H; try exact H.
    cbn [fields_eq] in *. apply bind_Ok in H. destruct H as (c & H1 & H2).
    apply field_eq_mono in H1. rewrite H1. cbn [bind]. destruct c; [now apply IH | exact H2].
  Qed.
End Mono.

Lemma eq_obj_mono1 sch h fuel : forall m xs ys,
  le_res (eq_obj fuel sch h m xs ys) (eq_obj (S fuel) sch h m xs ys).
Proof.
  induction fuel as [|fuel IH]; intros m xs ys; [intros r H; discriminate|].
  cbn [eq_obj]. apply fields_eq_mono. exact IH.
Qed.

Lemma eq_obj_mono sch h fuel fuel' m xs ys : (fuel <= fuel')%nat ->
  le_res (eq_obj fuel sch h m xs ys) (eq_obj fuel' sch h m xs ys).
Proof. induction 1; intros r H0; auto. apply eq_obj_mono1. auto. Qed.

(** ** An object has one value *)

Scheme denotes_ind' := Induction for denotes Sort Prop
  with den_fields_ind' := Induction for den_fields Sort Prop
  with den_field_ind' := Induction for den_field Sort Prop
  with den_list_ind' := Induction for den_list Sort Prop
  with den_entries_ind' := Induction for den_entries Sort Prop
  with den_ptr_ind' := Induction for den_ptr Sort Prop.
Combined Scheme den_mutind from denotes_ind', den_fields_ind', den_field_ind', den_list_ind',
  den_entries_ind', den_ptr_ind'.

Lemma den_fun sch h :
  (forall m xs vs, denotes sch h m xs vs -> forall vs', denotes sch h m xs vs' -> vs = vs') /\
  (forall fs xs vs, den_fields sch h fs xs vs -> forall vs', den_fields sch h fs xs vs' -> vs = vs') /\
  (forall ty x v, den_field sch h ty x v -> forall v', den_field sch h ty x v' -> v = v') /\
  (forall m l vs, den_list sch h m l vs -> forall vs', den_list sch h m l vs' -> vs = vs') /\
  (forall m l vs, den_entries sch h m l vs -> forall vs', den_entries sch h m l vs' -> vs = vs') /\
  (forall m p v, den_ptr sch h m p v -> forall v', den_ptr sch h m p v' -> v = v').
Proof.
  apply (den_mutind sch h
    (fun m xs vs _ => forall vs', denotes sch h m xs vs' -> vs = vs')
    (fun fs xs vs _ => forall vs', den_fields sch h fs xs vs' -> vs = vs')
    (fun ty x v _ => forall v', den_field sch h ty x v' -> v = v')
    (fun m l vs _ => forall vs', den_list sch h m l vs' -> vs = vs')
    (fun m l vs _ => forall vs', den_entries sch h m l vs' -> vs = vs')
    (fun m p v _ => forall v', den_ptr sch h m p v' -> v = v')); intros;
  match goal with
  | H : denotes _ _ _ _ ?v |- _ = ?v => inversion H; subst
  | H : den_fields _ _ _ _ ?v |- _ = ?v => inversion H; subst
  | H : den_field _ _ _ _ ?v |- _ = ?v => inversion H; subst
  | H : den_list _ _ _ _ ?v |- _ = ?v => inversion H; subst
  | H : den_entries _ _ _ _ ?v |- _ = ?v => inversion H; subst
  | H : den_ptr _ _ _ _ ?v |- _ = ?v => inversion H; subst
  end; auto; f_equal; auto.
  - f_equal; auto.
  - match goal with H : forall vs', denotes _ _ _ _ vs' -> _ |- _ => apply H end. congruence.
Qed.

Lemma denotes_fun sch h m xs vs vs' : denotes sch h m xs vs -> denotes sch h m xs vs' -> vs = vs'.
Proof. intros A B. exact (proj1 (den_fun sch h) _ _ _ A _ B). Qed.

(** ** Comparison that returns true *)

Lemma bytes_ltb_trans a : forall b c, bytes_ltb a b = true -> bytes_ltb b c = true ->
  bytes_ltb a c = true.
Proof.
  induction a as [|x a IH]; intros [|y b] [|z c] H1 H2; cbn [bytes_ltb] in *; try discriminate; auto.
  apply orb_prop in H1. apply orb_prop in H2.
  destruct H1 as [H1|H1].
  - destruct H2 as [H2|H2]; [|apply andb_prop in H2; destruct H2 as [H2 _]];
      apply orb_true_iff; left; lia.
  - apply andb_prop in H1. destruct H1 as [E1 H1]. destruct H2 as [H2|H2].
    + apply orb_true_iff; left; lia.
    + apply andb_prop in H2. destruct H2 as [E2 H2]. apply orb_true_iff. right.
      rewrite (IH _ _ H1 H2). lia.
Qed.

Lemma key_ltb_trans k a b c : key_ltb k a b = true -> key_ltb k b c = true -> key_ltb k a c = true.
Proof. unfold key_ltb. destruct (is_blob k); [apply bytes_ltb_trans | lia]. Qed.

Lemma sorted_NoDup k (l : list (scalar * value)) : keys_sorted k l -> NoDup l.
Proof.
  induction l as [|[a v] l IH]; cbn [keys_sorted]; intro H; constructor.
  - intro In. destruct H as [H _]. rewrite Forall_forall in H. apply H in In. cbn [fst] in In.
    now rewrite key_ltb_irrefl in In.
  - now apply IH.
Qed.

(** A sorted list contained in a sorted list of the same length is that list. *)
Lemma sorted_incl k (a b : list (scalar * value)) : keys_sorted k a -> keys_sorted k b ->
  length a = length b -> (forall p, In p a -> In p b) -> a = b.
Proof.
  revert a. induction b as [|[y w] b IH]; intros [|[x v] a] Sa Sb L I; try discriminate L; auto.
  assert (E : (x, v) = (y, w)).
  { destruct (I (x, v) (or_introl eq_refl)) as [E|E]; [now symmetry|]. exfalso.
    assert (C : incl ((x, v) :: a) b).
    { intros q Q. destruct (I q Q) as [E0|E0]; [|exact E0]. exfalso. subst q.
      assert (Lt : key_ltb k y x = true).
      { destruct Sb as [Sb _]. rewrite Forall_forall in Sb. now apply Sb in E. }
      destruct Q as [Q|Q].
      - injection Q as -> ->. now rewrite key_ltb_irrefl in Lt.
      - destruct Sa as [Sa _]. rewrite Forall_forall in Sa. apply Sa in Q. cbn [fst] in Q.
        pose proof (key_ltb_trans _ _ _ _ Lt Q) as F. now rewrite key_ltb_irrefl in F. }
    pose proof (NoDup_incl_length (sorted_NoDup _ _ Sa) C) as F. cbn [length] in *. lia. }
  rewrite <- E in *. f_equal. injection E as <- <-. destruct Sa as [S1 S2], Sb as [S3 S4].
  apply IH; auto.
  intros p P. destruct (I p (or_intror P)) as [<-|Q]; [|exact Q]. exfalso.
  rewrite Forall_forall in S1. apply S1 in P. cbn [fst] in P. now rewrite key_ltb_irrefl in P.
Qed.

Lemma canon_sorted sch k e l : key_type k -> keys_sorted k l -> keys_sorted k (canon_map sch k e l).
Proof.
  intro K. induction l as [|[a v] l IH]; cbn [keys_sorted canon_map map fst]; auto.
  intros [H1 H2]. split; [|now apply IH]. apply Forall_map. cbn [fst].
  eapply Forall_impl; [|exact H1]. intros p H. cbn beta in *. now rewrite key_ltb_canon.
Qed.

Lemma den_entries_length sch h m l kvs : den_entries sch h m l kvs -> length l = length kvs.
Proof. induction 1; cbn [length]; auto. Qed.

Section Sound.
  Variable sch : schema.
  Variable h : heap.
  Hypothesis S : schema_ok sch.

  Definition field_good (ty : fty) (v : value) : Prop := val_ok sch ty v /\ no_nulls v.

  Lemma good_fields m vs : object_ok sch m vs -> no_nulls (VMsg vs) ->
    Forall2 (fun f v => field_good (f_ty f) v) (md_fields (msg_at sch m)) vs.
  Proof.
    intros O N. apply object_ok_spec in O. cbn [no_nulls] in N. apply every_Forall in N.
    induction O; constructor; inversion N; subst; auto. now split.
  Qed.

  Section Rec.
    Variable rec : nat -> list mem -> list mem -> res bool.
    Hypothesis REC : forall m xs ys vs ws, denotes sch h m xs vs -> denotes sch h m ys ws ->
      object_ok sch m vs -> object_ok sch m ws -> no_nulls (VMsg vs) -> no_nulls (VMsg ws) ->
      rec m xs ys = Ok true -> same sch m vs ws.

    Lemma deref_den m x v : den_field sch h (FSing (EM m)) x v ->
      denotes sch h m (deref sch m (own_of x)) (obj_of sch m v).
    Proof. inversion 1; subst; cbn; auto using den_default. Qed.

    Lemma obj_of_good m v : field_good (FSing (EM m)) v ->
      object_ok sch m (obj_of sch m v) /\ no_nulls (VMsg (obj_of sch m v)).
    Proof.
      intros [O N]. cbn [val_ok] in O. destruct v; try contradiction; cbn [obj_of].
      - split; [apply default_ok | apply default_no_nulls].
      - split; auto.
    Qed.

    Lemma lazy_eq_sound m x y v w : den_field sch h (FSing (EM m)) x v ->
      den_field sch h (FSing (EM m)) y w -> field_good (FSing (EM m)) v ->
      field_good (FSing (EM m)) w ->
      lazy_eq sch rec m (own_of x) (own_of y) = Ok true -> same sch m (obj_of sch m v) (obj_of sch m w).
    Proof.
      intros D1 D2 G1 G2 H.
      pose proof (deref_den _ _ _ D1) as E1. pose proof (deref_den _ _ _ D2) as E2.
      destruct (obj_of_good _ _ G1) as [O1 N1], (obj_of_good _ _ G2) as [O2 N2].
      destruct (own_of x) eqn:X, (own_of y) eqn:Y; cbn [lazy_eq deref] in *.
      - eapply REC; eauto.
      - inversion D2; subst; try discriminate Y. eapply REC; eauto.
      - inversion D1; subst; try discriminate X.
        symmetry. eapply REC; eauto.
      - inversion D1; subst; try discriminate X. inversion D2; subst; try discriminate Y. reflexivity.
    Qed.

    Lemma pointee_sound m p q v w : den_ptr sch h m p v -> den_ptr sch h m q w ->
      elem_ok sch (EM m) v -> elem_ok sch (EM m) w -> no_nulls v -> no_nulls w ->
      pointee_eq h rec m p q = Ok true -> canon_elem sch (EM m) v = canon_elem sch (EM m) w
        /\ (v = VNull <-> w = VNull).
    Proof.
      intros D1 D2 O1 O2 N1 N2 H. unfold pointee_eq in H.
      inversion D1; inversion D2; subst; cbn [ptr_eqb] in H; try discriminate H.
      - split; [reflexivity|tauto].
      - split; [|split; discriminate]. rewrite !canon_elem_msg. f_equal.
        match goal with A : nth_error h a = Some _, B : nth_error h a0 = Some _ |- _ =>
          rewrite A, B in H end.
        assert (R : rec m xs xs0 = Ok true \/ a = a0).
        { destruct (Nat.eqb a a0) eqn:E; [right; now apply Nat.eqb_eq | now left]. }
        destruct R as [R | ->].
        + eapply REC; [| |exact O1|exact O2|exact N1|exact N2|exact R]; assumption.
        + assert (xs0 = xs) as -> by congruence.
          f_equal. eapply denotes_fun; eassumption.
    Qed.

    Lemma list_compare_sound m a : forall b vs ws, length a = length b ->
      den_list sch h m a vs -> den_list sch h m b ws ->
      every (elem_ok sch (EM m)) vs -> every (elem_ok sch (EM m)) ws ->
      no_nulls (VList vs) -> no_nulls (VList ws) ->
      list_compare h rec m a b = Ok true ->
      map (canon_elem sch (EM m)) vs = map (canon_elem sch (EM m)) ws.
    Proof.
      induction a as [|p a IH]; intros [|q b] vs ws L D1 D2 O1 O2 N1 N2 H; try discriminate L;
        inversion D1; inversion D2; subst; auto.
      cbn [list_compare] in H. apply bind_Ok in H. destruct H as (c & H1 & H2).
      destruct c; [|discriminate H2]. destruct O1, O2, N1 as [[] ?], N2 as [[] ?].
      cbn [map]. f_equal.
      - eapply pointee_sound; [| | | | | |exact H1]; eassumption.
      - apply (IH b); auto.
    Qed.

    Lemma qmap_value_den k m key b kws : key_type k -> den_entries sch h m b kws ->
      qmap_value k key b = None
      \/ exists key' w, In (key', w) kws /\ canon_scalar k key = canon_scalar k key'
                       /\ den_ptr sch h m (qmap_value k key b) w.
    Proof.
      intros K. revert kws. induction b as [|[x q] b IH]; intros kws D; inversion D; subst; [now left|].
      cbn [qmap_value]. destruct (key_ltb k key x || key_ltb k x key) eqn:E.
      - match goal with H : den_entries _ _ _ b _ |- _ => destruct (IH _ H) as [F|(key' & w & I & C & P)] end;
          [now left|]. right. exists key', w. split; [now right|]. now split.
      - right. exists x, v. split; [now left|]. split; [|assumption].
        apply orb_false_elim in E. destruct E. now apply key_tri.
    Qed.

    Lemma map_compare_sound k m a : forall b kvs kws, key_type k ->
      den_entries sch h m a kvs -> den_entries sch h m b kws ->
      every (fun p => scalar_ok k (fst p) /\ elem_ok sch (EM m) (snd p)) kvs ->
      every (fun p => scalar_ok k (fst p) /\ elem_ok sch (EM m) (snd p)) kws ->
      no_nulls (VMap kvs) -> no_nulls (VMap kws) ->
      map_compare h rec k m a b = Ok true ->
      forall p, In p (canon_map sch k (EM m) kvs) -> In p (canon_map sch k (EM m) kws).
    Proof.
      induction a as [|[key p] a IH]; intros b kvs kws K D1 D2 O1 O2 N1 N2 H; inversion D1; subst;
        [contradiction|].
      cbn [map_compare] in H. apply bind_Ok in H. destruct H as (c & H1 & H2).
      destruct c; [|discriminate H2]. destruct O1 as [O1 O1'], N1 as [N1 N1'].
      intros r [E|I]; [|eapply IH; eauto]. subst r. cbn [fst snd] in *.
      destruct (qmap_value_den k m key b kws K D2) as [F|(key' & w & I & C & P)].
      - rewrite F in H1. unfold pointee_eq in H1.
        match goal with H : den_ptr _ _ _ p _ |- _ => inversion H; subst end; cbn [ptr_eqb] in H1;
          [|discriminate]. now destruct N1.
      - apply every_Forall in O2. rewrite Forall_forall in O2. specialize (O2 _ I).
        cbn [no_nulls] in N2. apply every_Forall in N2. rewrite Forall_forall in N2. specialize (N2 _ I).
        cbn [fst snd] in *.
        assert (E : canon_elem sch (EM m) w = canon_elem sch (EM m) v).
        { eapply pointee_sound; [exact P | | | | | |exact H1]; try eassumption; tauto. }
        unfold canon_map. apply in_map_iff. exists (key', w). cbn [fst snd]. now rewrite C, E.
    Qed.

    Lemma field_eq_sound ty x y v w : key_ok ty -> den_field sch h ty x v -> den_field sch h ty y w ->
      field_good ty v -> field_good ty w ->
      field_eq sch h rec ty x y = Ok true -> same_field sch ty v w.
    Proof.
      intros K D1 D2 G1 G2 H.
      assert (P : is_plain ty = true -> same_field sch ty v w).
      { intro P. eapply mem_eqb_same; eauto.
        destruct ty as [[t|m]|[t|m]|k [t|m]]; try discriminate P; cbn [field_eq] in H; congruence. }
      destruct ty as [[t|m]|[t|m]|k [t|m]]; try (now apply P); clear P; cbn [field_eq] in H.
      - apply same_message; [apply G1 | apply G2 |].
        unfold message_eq in H. apply bind_Ok in H. destruct H as (c & H1 & H2).
        destruct c; [eapply lazy_eq_sound; eauto|].
        destruct (obj_of_good _ _ G1) as [O1 N1], (obj_of_good _ _ G2) as [O2 N2].
        eapply REC; [| |exact O1|exact O2|exact N1|exact N2|exact H2]; now apply deref_den.
      - unfold repeatedValueCompare in H. destruct (Nat.eqb _ _) eqn:L; [|discriminate H].
        apply Nat.eqb_eq in L. destruct G1 as [G1 N1], G2 as [G2 N2].
        inversion D1; inversion D2; subst. cbn [ptrs_of val_ok] in *.
        unfold same_field. cbn [canon_field list_of]. f_equal. eapply list_compare_sound; eauto.
      - unfold repeatedMapCompare in H. destruct (Nat.eqb _ _) eqn:L; [|discriminate H].
        apply Nat.eqb_eq in L. destruct G1 as [G1 N1], G2 as [G2 N2].
        inversion D1; inversion D2; subst. cbn [ptr_map_of val_ok key_ok] in *.
        destruct G1 as [S1 O1], G2 as [S2 O2].
        unfold same_field. cbn [canon_field map_of]. f_equal.
        apply (sorted_incl k); try (apply (canon_sorted sch k (EM m)); assumption).
        + rewrite !map_length.
          repeat match goal with H : den_entries _ _ _ _ _ |- _ => apply den_entries_length in H end.
          congruence.
        + eapply map_compare_sound; eauto.
    Qed.

    Lemma fields_eq_sound fields : forall xs ys vs ws, Forall (fun f => key_ok (f_ty f)) fields ->
      den_fields sch h fields xs vs -> den_fields sch h fields ys ws ->
      Forall2 (fun f v => field_good (f_ty f) v) fields vs ->
      Forall2 (fun f v => field_good (f_ty f) v) fields ws ->
      fields_eq sch h rec fields xs ys = Ok true -> canon_fields sch fields vs = canon_fields sch fields ws.
    Proof.
      induction fields as [|f fields IH]; intros xs ys vs ws K D1 D2 G1 G2 H;
        inversion D1; subst; inversion D2; subst; inversion G1; subst; inversion G2; subst;
        inversion K; subst; auto.
      cbn [fields_eq] in H. apply bind_Ok in H. destruct H as (c & E1 & E2).
      destruct c; [|discriminate E2]. cbn [canon_fields]. f_equal.
      - eapply field_eq_sound; [| | | | |exact E1]; eassumption.
      - eapply IH; [| | | | |exact E2]; eassumption.
    Qed.
  End Rec.

  Lemma schema_keys m : Forall (fun f => key_ok (f_ty f)) (md_fields (msg_at sch m)).
  Proof.
    destruct (msg_at_ok sch m S) as (_ & F & _). eapply Forall_impl; [|exact F].
    intros f [_ H]. unfold key_ok. destruct (f_ty f) as [e|[[]|]|k e]; auto.
  Qed.

  (** If operator== returns true, the values are the same. *)
  Lemma eq_obj_sound fuel : forall m xs ys vs ws, denotes sch h m xs vs -> denotes sch h m ys ws ->
    object_ok sch m vs -> object_ok sch m ws -> no_nulls (VMsg vs) -> no_nulls (VMsg ws) ->
    eq_obj fuel sch h m xs ys = Ok true -> same sch m vs ws.
  Proof.
    induction fuel as [|fuel IH]; intros m xs ys vs ws D1 D2 O1 O2 N1 N2 H; [discriminate|].
    cbn [eq_obj] in H. unfold same. rewrite !canon_obj_spec.
    inversion D1; inversion D2; subst.
    eapply fields_eq_sound; eauto using schema_keys, good_fields.
  Qed.
End Sound.

(** ** Depth *)

Fixpoint vdepth (v : value) : nat :=
  match v with
  | VMsg fs => 1 + list_max (map vdepth fs)
  | VList l => list_max (map vdepth l)
  | VMap l => list_max (map (fun p => vdepth (snd p)) l)
  | _ => 0
  end%nat.
Definition odepth (vs : list value) : nat := list_max (map vdepth vs).

Lemma odepth_default sch m : odepth (default_obj sch m) = 0%nat.
Proof.
  unfold odepth, default_obj. induction (md_fields (msg_at sch m)) as [|f l IH]; [reflexivity|].
  cbn [map list_max fold_right]. unfold list_max in IH. rewrite IH.
  destruct (f_ty f) as [[t|m']|e|k e]; reflexivity.
Qed.

Lemma odepth_cons v vs n : (odepth (v :: vs) <= n)%nat -> (vdepth v <= n /\ odepth vs <= n)%nat.
Proof. unfold odepth. cbn [map list_max fold_right]. unfold list_max. lia. Qed.

Lemma odepth_obj_of sch m v n : (vdepth v <= S n)%nat -> (odepth (obj_of sch m v) <= n)%nat.
Proof.
  destruct v; cbn [obj_of vdepth]; rewrite ?odepth_default; try lia. unfold odepth. lia.
Qed.

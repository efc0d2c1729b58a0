(** Proofs on texts: messages. *)

From Coq Require Import ZArith List Bool Lia Permutation.
From Verif Require Import Base Values WireSpec MessageSpec MessageProofs SerializeProofs PropFacts ObjectProofs TypedProofs JsonReadProofs.
From Verif Require Import TextSpec TextModel TextProofs TextMessageSpec.
Import ListNotations.
Local Open Scope Z_scope.

Lemma value_nested : forall (P : value -> Prop),
  (forall s, P (VScalar s)) -> P VNull -> (forall fs, Forall P fs -> P (VMsg fs)) -> (forall l, Forall P l -> P (VList l)) ->
  (forall l, Forall (fun p => P (snd p)) l -> P (VMap l)) -> forall v, P v.
Proof.
  intros P HS HN HM HL HA. fix F 1. intros [s | | fs | l | l].
  - apply HS.
  - apply HN.
  - apply HM. induction fs as [| x fs IH]; constructor; auto.
  - apply HL. induction l as [| x fs IH]; constructor; auto.
  - apply HA. induction l as [| (k, x) fs IH]; constructor; cbn; auto.
Qed.

Section Convert.
  Context (c : list Z -> list Z) (sch : schema).

  Definition convert_entry (k : sty) (e : elty) (p : scalar * value) : scalar * value := (convert_scalar c k (fst p), convert c sch e (snd p)).
  Definition convert_field (ty : fty) (x : value) : value :=
    match ty with
    | FSing e' => convert c sch e' x
    | FRep e' => match x with VList l => VList (map (convert c sch e') l) | _ => x end
    | FMap k e' => match x with VMap l => VMap (in_order k (map (convert_entry k e') l)) | _ => x end
    end.
  Fixpoint convert_fields (fields : list field) (fs : list value) : list value :=
    match fields, fs with
    | f :: fields', x :: fs' => convert_field (f_ty f) x :: convert_fields fields' fs'
    | _, _ => fs
    end.

  Lemma convert_object_spec : forall m fs, convert_object c sch m fs = convert_fields (md_fields (msg_at sch m)) fs.
  Proof.
    intros m fs. unfold convert_object. cbn [convert]. generalize (md_fields (msg_at sch m)). intro fields. revert fs.
    induction fields as [| f fields IH]; intros [| x fs]; auto. cbn [convert_fields]. f_equal. apply IH.
  Qed.
  Lemma convert_msg : forall m fs, convert c sch (EM m) (VMsg fs) = VMsg (convert_fields (md_fields (msg_at sch m)) fs).
  Proof. intros m fs. rewrite <- convert_object_spec. reflexivity. Qed.

  Lemma convert_null : forall e v, convert c sch e v = VNull <-> v = VNull.
  Proof. intros e v. split; [| intros ->; reflexivity]. destruct v, e; cbn; congruence. Qed.

  (** * Values that are the same remain so *)

  Hypothesis c_nil : c [] = [].

  Lemma default_converted : forall ty x, is_default x = true -> is_default (canon_field sch ty (convert_field ty x)) = true.
  Proof.
    intros ty x D. destruct ty as [[t | m] | e | k e].
    - destruct x as [[z | n us] | | fs | l | l]; try discriminate D; cbn [convert_field convert canon_field]; rewrite ?canon_elem_scalar; cbn [scalar_of].
      + cbn in D. apply Z.eqb_eq in D. subst z. destruct t; reflexivity.
      + cbn in D. destruct us; [| discriminate D]. destruct t; cbn; rewrite ?c_nil; reflexivity.
      + destruct t; reflexivity.
      + destruct t; reflexivity.
      + destruct t; reflexivity.
    - destruct x; try discriminate D; reflexivity.
    - destruct x as [s | | fs | l | l]; try discriminate D; try reflexivity. now destruct l.
    - destruct x as [s | | fs | l | l]; try discriminate D; try reflexivity. destruct l; [| discriminate D]. now destruct k.
  Qed.

  Lemma defaults_converted : forall fields fs, forallb is_default fs = true -> forallb is_default (canon_fields sch fields (convert_fields fields fs)) = true.
  Proof.
    induction fields as [| f fields IH]; intros [| x fs] D; try reflexivity. cbn [forallb] in D. apply andb_prop in D. destruct D as (A & B).
    cbn [convert_fields canon_fields forallb]. now rewrite default_converted, IH.
  Qed.

  Lemma convert_scalar_canon : forall t s, canon_scalar t (convert_scalar c t s) = canon_scalar t (convert_scalar c t (canon_scalar t s)).
  Proof.
    intros t s. destruct t; try (cbn [convert_scalar]; symmetry; apply canon_scalar_idem).
    destruct s; cbn; rewrite ?c_nil; reflexivity.
  Qed.

  Lemma in_order_canon : forall k e l, canon_map sch k e (in_order k l) = in_order k (canon_map sch k e l).
  Proof.
    intros k e l. destruct k; try reflexivity. unfold in_order. now rewrite insert_fold_canon.
  Qed.

  Lemma canon_converted : forall v,
    (forall e, canon_elem sch e (convert c sch e v) = canon_elem sch e (convert c sch e (canon_elem sch e v)))
    /\ (forall ty, canon_field sch ty (convert_field ty v) = canon_field sch ty (convert_field ty (canon_field sch ty v))).
  Proof.
    assert (Q : forall v, (forall e, canon_elem sch e (convert c sch e v) = canon_elem sch e (convert c sch e (canon_elem sch e v))) ->
      forall e, canon_field sch (FSing e) (convert_field (FSing e) v) = canon_field sch (FSing e) (convert_field (FSing e) (canon_field sch (FSing e) v))).
    { intros v A e. cbn [canon_field convert_field]. rewrite A. destruct (canon_elem sch e v) as [s | | fs | l | l] eqn:E; try reflexivity.
      cbn [collapse]. destruct (forallb is_default fs) eqn:D; [| reflexivity]. destruct e as [t | m]; [rewrite canon_elem_scalar in E; discriminate E |].
      rewrite convert_msg, canon_elem_msg, canon_obj_spec. cbn [collapse]. now rewrite (defaults_converted _ _ D). }
    assert (S : forall v t, canon_elem sch (ES t) (convert c sch (ES t) v) = canon_elem sch (ES t) (convert c sch (ES t) (canon_elem sch (ES t) v))).
    { intros v t. rewrite (canon_elem_scalar sch t v). cbn [convert]. rewrite !canon_elem_scalar. f_equal.
      destruct v as [s | | fs | l | l]; cbn [convert scalar_of]; [apply convert_scalar_canon | ..]; destruct t; cbn; rewrite ?c_nil; reflexivity. }
    apply value_nested.
    - intro s. assert (A : forall e, canon_elem sch e (convert c sch e (VScalar s)) = canon_elem sch e (convert c sch e (canon_elem sch e (VScalar s)))) by (intros [t | m]; [apply S | reflexivity]).
      split; [exact A |]. intros [e | e | k e]; [now apply Q | reflexivity | now destruct k].
    - assert (A : forall e, canon_elem sch e (convert c sch e VNull) = canon_elem sch e (convert c sch e (canon_elem sch e VNull))) by (intros [t | m]; [apply S | reflexivity]).
      split; [exact A |]. intros [e | e | k e]; [now apply Q | reflexivity | now destruct k].
    - intros fs F. assert (A : forall e, canon_elem sch e (convert c sch e (VMsg fs)) = canon_elem sch e (convert c sch e (canon_elem sch e (VMsg fs)))).
      { intros [t | m]; [apply S |]. rewrite (canon_elem_msg sch m fs), !convert_msg, !canon_elem_msg, !canon_obj_spec. f_equal.
        generalize (md_fields (msg_at sch m)). intro fields. revert fields. induction F as [| x fs (_ & Fx) _ IH]; intros [| f fields]; try reflexivity.
        cbn [convert_fields canon_fields]. f_equal; [apply Fx | apply IH]. }
      split; [exact A |]. intros [e | e | k e]; [now apply Q | reflexivity | now destruct k].
    - intros l F. assert (A : forall e, canon_elem sch e (convert c sch e (VList l)) = canon_elem sch e (convert c sch e (canon_elem sch e (VList l)))) by (intros [t | m]; [apply S | reflexivity]).
      split; [exact A |]. intros [e | e | k e]; [now apply Q | | now destruct k].
      cbn [convert_field canon_field list_of]. f_equal. rewrite !map_map. apply map_ext_in. intros x I. rewrite Forall_forall in F. now apply F.
    - intros l F. assert (A : forall e, canon_elem sch e (convert c sch e (VMap l)) = canon_elem sch e (convert c sch e (canon_elem sch e (VMap l)))) by (intros [t | m]; [apply S | reflexivity]).
      split; [exact A |]. intros [e | e | k e]; [now apply Q | reflexivity |].
      cbn [convert_field canon_field map_of]. f_equal.
      change (canon_map sch k e (in_order k (map (convert_entry k e) l)) = canon_map sch k e (in_order k (map (convert_entry k e) (canon_map sch k e l)))).
      rewrite !in_order_canon. f_equal. unfold canon_map, convert_entry. rewrite !map_map. apply map_ext_in. intros (a, x) I. cbn [fst snd].
      rewrite Forall_forall in F. destruct (F _ I) as (Fx & _). f_equal; [apply convert_scalar_canon | apply Fx].
  Qed.

  Lemma same_converted : forall m a b, same sch m a b -> same sch m (convert_object c sch m a) (convert_object c sch m b).
  Proof.
    intros m a b E. unfold same in *.
    assert (H : forall x, canon_obj sch m (convert_object c sch m x) = canon_obj sch m (convert_object c sch m (canon_obj sch m x))).
    { intro x. pose proof (proj1 (canon_converted (VMsg x)) (EM m)) as X. rewrite !canon_elem_msg, !convert_msg, !canon_elem_msg in X.
      rewrite !convert_object_spec. now injection X. }
    now rewrite (H a), E, <- H.
  Qed.
End Convert.

(** * Types *)

Definition text_val_ok (P : list Z -> Prop) (sch : schema) (ty : fty) (x : value) : Prop :=
  match ty, x with
  | FSing e', _ => text_ok P sch e' x
  | FRep e', VList l => every (text_ok P sch e') l
  | FMap k e', VMap l => keys_sorted k l /\ every (fun p => text_scalar_ok P k (fst p) /\ text_ok P sch e' (snd p)) l
  | _, _ => False
  end.

Lemma text_object_spec : forall P sch m fs,
  text_object_ok P sch m fs <-> Forall2 (fun f x => text_val_ok P sch (f_ty f) x) (md_fields (msg_at sch m)) fs.
Proof.
  intros P sch m. unfold text_object_ok. cbn [text_ok]. generalize (md_fields (msg_at sch m)). intro fields.
  induction fields as [| f fields IH]; intros [| x fs]; split; intro H; try contradiction; try (now inversion H); auto.
  - destruct H as [H1 H2]. apply IH in H2. constructor; [| exact H2]. unfold text_val_ok. destruct (f_ty f); destruct x; auto.
  - inversion H; subst. split; [| now apply IH]. match goal with H : text_val_ok _ _ _ _ |- _ => unfold text_val_ok in H end.
    destruct (f_ty f); destruct x; auto.
Qed.

(** * Keys *)

Definition content (p : scalar * value) : list Z := blob_of (fst p).

Lemma insert_permutation : forall key v l, Forall (fun p => content p <> blob_of key) l -> Permutation ((key, v) :: l) (map_insert TString key v l).
Proof.
  intros key v l. induction 1 as [| (a, w) l N _ IH]; [reflexivity |]. cbn [map_insert]. destruct (key_ltb TString key a) eqn:E1; [reflexivity |].
  destruct (key_ltb TString a key) eqn:E2.
  - rewrite perm_swap. now constructor.
  - exfalso. apply N. symmetry. exact (bytes_ltb_tri _ _ E1 E2).
Qed.

Lemma inserts_permutation : forall l acc, NoDup (map content (l ++ acc)) -> keys_sorted TString acc ->
  keys_sorted TString (fold_left (fun acc p => map_insert TString (fst p) (snd p) acc) l acc)
  /\ Permutation (l ++ acc) (fold_left (fun acc p => map_insert TString (fst p) (snd p) acc) l acc).
Proof.
  induction l as [| (a, v) l IH]; intros acc N S; [split; [exact S | reflexivity] |]. cbn [fold_left fst snd app map] in *. inversion N as [| ? ? A B]; subst.
  assert (P : Permutation ((a, v) :: acc) (map_insert TString a v acc)).
  { apply insert_permutation. apply Forall_forall. intros p I E. apply A. change (content (a, v)) with (blob_of a). rewrite <- E. apply in_map, in_or_app. now right. }
  destruct (IH (map_insert TString a v acc)) as (S' & P').
  - apply (Permutation_NoDup (l := map content ((a, v) :: l ++ acc))); [apply Permutation_map | exact N]. rewrite <- P. apply Permutation_middle.
  - now apply insert_sorted.
  - split; [exact S' |]. rewrite <- P', <- P. apply Permutation_middle.
Qed.

Lemma in_order_sorted : forall l, NoDup (map content l) -> keys_sorted TString (in_order TString l) /\ Permutation l (in_order TString l).
Proof. intros l N. destruct (inserts_permutation l []) as (S & P); [now rewrite app_nil_r | exact Logic.I |]. rewrite app_nil_r in P. now split. Qed.

Lemma sorted_contents : forall l, keys_sorted TString l -> NoDup (map content l).
Proof.
  induction l as [| (a, v) l IH]; cbn [keys_sorted map]; intro H; constructor; [| now apply IH]. intro I. apply in_map_iff in I. destruct I as (p & E & I).
  destruct H as [H _]. rewrite Forall_forall in H. apply H in I. unfold key_ltb in I. cbn [is_blob] in I. unfold content in E. cbn [fst] in E.
  rewrite E in I. now rewrite bytes_ltb_irrefl in I.
Qed.

Lemma flat_map_permutation : forall {A B} (f : A -> list B) l l', Permutation l l' -> Permutation (flat_map f l) (flat_map f l').
Proof. intros A B f l l' P. now rewrite P. Qed.

(** * Typed messages are written as typed messages *)

Lemma to_utf8_bytes : forall us, units us -> bytes (to_utf8 us).
Proof. intros us U. rewrite to_utf8_chars by exact U. exact (utf8_positive _ (chars_characters _ U)). Qed.

Section Typed.
  Context (P Q : list Z -> Prop) (c : list Z -> list Z).
  Hypothesis PQ : forall us, P us -> Q (c us).
  Hypothesis c_nil : c [] = [].

  Lemma converted_scalar : forall t s, text_scalar_ok P t s -> text_scalar_ok Q t (convert_scalar c t s).
  Proof.
    intros t s H. destruct t; try exact H. destruct s as [z | n us]; [exact H |]. destruct H as (U & N). split; [now apply PQ |].
    intro E. rewrite (N E). exact c_nil.
  Qed.

  Lemma converted_typed : forall sch v,
    (forall e, text_ok P sch e v -> text_ok Q sch e (convert c sch e v))
    /\ (forall ty, text_val_ok P sch ty v -> text_val_ok Q sch ty (convert_field c sch ty v)).
  Proof.
    intro sch. apply value_nested.
    - intro s. assert (A : forall e, text_ok P sch e (VScalar s) -> text_ok Q sch e (convert c sch e (VScalar s))) by (intros [t | m] H; [now apply converted_scalar | destruct H]).
      split; [exact A |]. intros [e | e | k e] H; [now apply A | destruct H | destruct H].
    - assert (A : forall e, text_ok P sch e VNull -> text_ok Q sch e (convert c sch e VNull)) by (intros [t | m] H; exact H).
      split; [exact A |]. intros [e | e | k e] H; [now apply A | destruct H | destruct H].
    - intros fs F. assert (A : forall e, text_ok P sch e (VMsg fs) -> text_ok Q sch e (convert c sch e (VMsg fs))).
      { intros [t | m] H; [destruct H |]. rewrite convert_msg. apply text_object_spec in H. apply text_object_spec. revert F.
        generalize dependent (md_fields (msg_at sch m)). intros fields H. induction H as [| f x fields fs Hx _ IH]; intro F; [constructor |].
        inversion F as [| ? ? (_ & Fx) Ft]; subst. cbn [convert_fields]. constructor; [now apply Fx | now apply IH]. }
      split; [exact A |]. intros [e | e | k e] H; [now apply A | destruct H | destruct H].
    - intros l F. split; [intros [t | m] H; destruct H |]. intros [e | e | k e] H; [destruct e; destruct H | | destruct H].
      cbn [convert_field text_val_ok]. cbn [text_val_ok] in H. rewrite every_Forall in *. apply Forall_map. rewrite Forall_forall in *. intros x I. apply F; auto.
    - intros l F. split; [intros [t | m] H; destruct H |]. intros [e | e | k e] H; [destruct e; destruct H | destruct H |].
      cbn [convert_field text_val_ok]. destruct H as (S & H). rewrite every_Forall in H.
      assert (E : Forall (fun p => text_scalar_ok Q k (fst p) /\ text_ok Q sch e (snd p)) (map (convert_entry c sch k e) l)).
      { apply Forall_map. rewrite Forall_forall in *. intros p I. destruct (H p I) as (A & B). split; [now apply converted_scalar | now apply F]. }
      destruct (match k with TString => true | _ => false end) eqn:K.
      + destruct k; try discriminate K. unfold in_order.
        assert (G : forall ps acc, Forall (fun p => text_scalar_ok Q TString (fst p) /\ text_ok Q sch e (snd p)) ps -> keys_sorted TString acc ->
          every (fun p => text_scalar_ok Q TString (fst p) /\ text_ok Q sch e (snd p)) acc ->
          keys_sorted TString (fold_left (fun acc p => map_insert TString (fst p) (snd p) acc) ps acc)
          /\ every (fun p => text_scalar_ok Q TString (fst p) /\ text_ok Q sch e (snd p)) (fold_left (fun acc p => map_insert TString (fst p) (snd p) acc) ps acc)).
        { induction ps as [| (a, v) ps IH]; intros acc Ps Sa Ea; [now split |]. inversion Ps as [| ? ? (Pa & Pv) Pt]; subst. cbn [fold_left fst snd] in *.
          apply IH; [exact Pt | now apply insert_sorted |]. apply insert_every; [| now split | exact Ea]. cbn [fst snd]. tauto. }
        apply G; [exact E | exact Logic.I | exact Logic.I].
      + assert (In_k : in_order k (map (convert_entry c sch k e) l) = map (convert_entry c sch k e) l) by (destruct k; try discriminate K; reflexivity).
        rewrite In_k. split; [| now apply every_Forall]. clear E In_k F H. induction l as [| (a, v) l IH]; [exact Logic.I |]. cbn [map keys_sorted] in *. destruct S as (S1 & S2).
        change (Forall (fun p => key_ltb k (fst (convert_entry c sch k e (a, v))) (fst p) = true) (map (convert_entry c sch k e) l) /\ keys_sorted k (map (convert_entry c sch k e) l)).
        split; [| now apply IH]. apply Forall_map. eapply Forall_impl; [| exact S1]. intros p Hp. cbn [convert_entry fst]. destruct k; try discriminate K; exact Hp.
  Qed.

  Lemma converted_object_typed : forall sch m fs, text_object_ok P sch m fs -> text_object_ok Q sch m (convert_object c sch m fs).
  Proof. intros sch m fs H. apply (proj1 (converted_typed sch (VMsg fs)) (EM m)) in H. rewrite convert_msg in H. now rewrite convert_object_spec. Qed.
End Typed.

(** * There and back *)

Lemma faithful_back : forall us, faithful us -> from_utf8 (to_utf8 us) = us.
Proof.
  intros us ((cs & C & ->) & Z0 & M). rewrite written_text, read_utf8 by exact C. rewrite utf16_zero in Z0 by exact C. rewrite before_nul_none by exact Z0.
  destruct cs as [| c cs]; [reflexivity |]. rewrite without_mark_other; [reflexivity |]. intros ->. exact (M (utf16 cs) eq_refl).
Qed.

Lemma faithful_units : forall us, faithful us -> units us.
Proof. intros us ((cs & C & ->) & _). now apply utf16_units. Qed.

Lemma text_ok_impl : forall (P Q : list Z -> Prop) sch, (forall us, P us -> Q us) -> forall v,
  (forall e, text_ok P sch e v -> text_ok Q sch e v) /\ (forall ty, text_val_ok P sch ty v -> text_val_ok Q sch ty v).
Proof.
  intros P Q sch PQ.
  assert (SC : forall t s, text_scalar_ok P t s -> text_scalar_ok Q t s).
  { intros t s H. destruct t; try exact H. destruct s; [exact H |]. destruct H as (U & N). split; auto. }
  apply value_nested.
  - intro s. assert (A : forall e, text_ok P sch e (VScalar s) -> text_ok Q sch e (VScalar s)) by (intros [t | m] H; [now apply SC | destruct H]).
    split; [exact A |]. intros [e | e | k e] H; [now apply A | destruct H | destruct H].
  - split; [intros [t | m] H; exact H |]. intros [[t | m] | e | k e] H; exact H.
  - intros fs F. assert (A : forall e, text_ok P sch e (VMsg fs) -> text_ok Q sch e (VMsg fs)).
    { intros [t | m] H; [destruct H |]. apply text_object_spec in H. apply text_object_spec. revert F.
      generalize dependent (md_fields (msg_at sch m)). intros fields H. induction H as [| f x fields fs Hx _ IH]; intro F; [constructor |].
      inversion F as [| ? ? (_ & Fx) Ft]; subst. constructor; [now apply Fx | now apply IH]. }
    split; [exact A |]. intros [e | e | k e] H; [now apply A | destruct H | destruct H].
  - intros l F. split; [intros [t | m] H; destruct H |]. intros [e | e | k e] H; [destruct e; destruct H | | destruct H].
    cbn [text_val_ok] in *. rewrite every_Forall in *. rewrite Forall_forall in *. intros x I. apply F; auto.
  - intros l F. split; [intros [t | m] H; destruct H |]. intros [e | e | k e] H; [destruct e; destruct H | destruct H |].
    destruct H as (S & H). split; [exact S |]. rewrite every_Forall in *. rewrite Forall_forall in *. intros p I. destruct (H p I). split; [now apply SC | now apply F].
Qed.

Lemma scalar_back : forall t s, text_scalar_ok faithful t s -> convert_scalar from_utf8 t (convert_scalar to_utf8 t s) = s.
Proof. intros t s H. destruct t; try reflexivity. destruct s as [z | n us]; [reflexivity |]. cbn. destruct H as (F & _). now rewrite faithful_back. Qed.

Lemma there_and_back : forall sch v,
  (forall e, text_ok faithful sch e v -> convert from_utf8 sch e (drop_nulls (convert to_utf8 sch e v)) = drop_nulls v)
  /\ (forall ty, text_val_ok faithful sch ty v -> convert_field from_utf8 sch ty (drop_nulls (convert_field to_utf8 sch ty v)) = drop_nulls v).
Proof.
  intro sch. apply value_nested.
  - intro s. assert (A : forall e, text_ok faithful sch e (VScalar s) -> convert from_utf8 sch e (drop_nulls (convert to_utf8 sch e (VScalar s))) = VScalar s).
    { intros [t | m] H; [| destruct H]. cbn. now rewrite scalar_back. }
    split; [exact A |]. intros [e | e | k e] H; [now apply A | destruct H | destruct H].
  - split; [intros [t | m] H; reflexivity |]. intros [[t | m] | e | k e] H; try reflexivity; destruct H.
  - intros fs F. assert (A : forall e, text_ok faithful sch e (VMsg fs) -> convert from_utf8 sch e (drop_nulls (convert to_utf8 sch e (VMsg fs))) = drop_nulls (VMsg fs)).
    { intros [t | m] H; [destruct H |]. rewrite convert_msg. cbn [drop_nulls]. rewrite convert_msg. f_equal. apply text_object_spec in H. revert F.
      generalize dependent (md_fields (msg_at sch m)). intros fields H. induction H as [| f x fields fs Hx _ IH]; intro F; [reflexivity |].
      inversion F as [| ? ? (_ & Fx) Ft]; subst. cbn [convert_fields map]. f_equal; [now apply Fx | now apply IH]. }
    split; [exact A |]. intros [e | e | k e] H; [now apply A | destruct H | destruct H].
  - intros l F. split; [intros [t | m] H; destruct H |]. intros [e | e | k e] H; [destruct e; destruct H | | destruct H].
    cbn [convert_field drop_nulls]. f_equal. cbn [text_val_ok] in H. rewrite every_Forall in H. induction H as [| x l Hx _ IH]; [reflexivity |].
    inversion F as [| ? ? (Fx & _) Ft]; subst. specialize (IH Ft). cbn [map flat_map]. rewrite map_app, IH. f_equal. specialize (Fx e Hx).
    destruct x as [s | | fs | l' | l'], e as [t | m]; try destruct Hx; cbn [convert] in *; try reflexivity; cbn [map]; now rewrite Fx.
  - intros l F. split; [intros [t | m] H; destruct H |]. intros [e | e | k e] H; [destruct e; destruct H | destruct H |].
    destruct H as (S & H). rewrite every_Forall in H. cbn [convert_field drop_nulls].
    change (VMap (in_order k (map (convert_entry from_utf8 sch k e) (drop_entries (in_order k (map (convert_entry to_utf8 sch k e) l))))) = VMap (drop_entries l)).
    f_equal.
    assert (B : map (convert_entry from_utf8 sch k e) (drop_entries (map (convert_entry to_utf8 sch k e) l)) = drop_entries l).
    { clear S. induction H as [| (a, x) l (Ha & Hx) _ IH]; [reflexivity |]. inversion F as [| ? ? (Fx & _) Ft]; subst. specialize (IH Ft). cbn [snd fst] in *.
      unfold drop_entries in *. cbn [map flat_map]. rewrite map_app, IH. f_equal. specialize (Fx e Hx). cbn [convert_entry fst snd].
      destruct x as [s | | fs | l' | l'], e as [t | m]; try destruct Hx; cbn [convert] in *; try reflexivity; unfold convert_entry; cbn [map fst snd]; rewrite Fx, scalar_back by exact Ha; reflexivity. }
    destruct (match k with TString => true | _ => false end) eqn:K; [| destruct k; try discriminate K; exact B].
    destruct k; try discriminate K. clear K.
    assert (D : NoDup (map content (map (convert_entry to_utf8 sch TString e) l))).
    { apply sorted_contents in S. rewrite map_map.
      assert (X : map (fun x => content (convert_entry to_utf8 sch TString e x)) l = map to_utf8 (map content l)).
      { rewrite map_map. clear - H. induction H as [| (a, x) l (Ha & _) _ IH]; [reflexivity |]. cbn [map]. rewrite IH. f_equal. destruct a; [destruct Ha | reflexivity]. }
      rewrite X. assert (G : Forall faithful (map content l)).
      { clear - H. induction H as [| (a, x) l (Ha & _) _ IH]; [constructor |]. cbn [map]. constructor; [| exact IH]. destruct a; [destruct Ha |]. now destruct Ha. }
      revert S G. clear. generalize (map content l). intros L S G. induction S as [| us L N _ IH]; [constructor |]. inversion G as [| ? ? Gu Gl]; subst. cbn [map]. constructor; [| now apply IH].
      intro I. apply in_map_iff in I. destruct I as (vs & E & I). apply N. rewrite Forall_forall in Gl. pose proof (Gl vs I) as Gv.
      rewrite <- (faithful_back us Gu), <- E, (faithful_back vs Gv). exact I. }
    destruct (in_order_sorted _ D) as (S1 & P1).
    pose proof (Permutation_map (convert_entry from_utf8 sch TString e) (flat_map_permutation (fun p => match snd p with VNull => [] | _ => [(fst p, drop_nulls (snd p))] end) _ _ P1)) as P2.
    fold (drop_entries (map (convert_entry to_utf8 sch TString e) l)) in P2. fold (drop_entries (in_order TString (map (convert_entry to_utf8 sch TString e) l))) in P2.
    rewrite B in P2. pose proof (drop_entries_sorted TString l S) as SD.
    assert (D2 : NoDup (map content (map (convert_entry from_utf8 sch TString e) (drop_entries (in_order TString (map (convert_entry to_utf8 sch TString e) l)))))).
    { eapply Permutation_NoDup; [apply Permutation_map, P2 |]. now apply sorted_contents. }
    destruct (in_order_sorted _ D2) as (S3 & P3). pose proof (Permutation_trans P2 P3) as P4. symmetry. apply (sorted_incl TString); auto.
    + now apply Permutation_length.
    + intros p I. now rewrite <- P4.
Qed.

Lemma object_there_and_back : forall sch m fs, text_object_ok faithful sch m fs ->
  convert_object from_utf8 sch m (map drop_nulls (convert_object to_utf8 sch m fs)) = map drop_nulls fs.
Proof.
  intros sch m fs H. pose proof (proj1 (there_and_back sch (VMsg fs)) (EM m) H) as E. rewrite convert_msg in E. cbn [drop_nulls] in E. rewrite convert_msg in E.
  injection E as E. now rewrite !convert_object_spec.
Qed.

(** With bytes for strings these are the objects of the other models. *)
Lemma text_bytes : forall sch v,
  (forall e, text_ok bytes sch e v <-> elem_ok sch e v) /\ (forall ty, text_val_ok bytes sch ty v <-> val_ok sch ty v).
Proof.
  intro sch. assert (SC : forall t s, text_scalar_ok bytes t s <-> scalar_ok t s) by (intros t [z | n us]; destruct t; reflexivity).
  apply value_nested.
  - intro s. assert (A : forall e, text_ok bytes sch e (VScalar s) <-> elem_ok sch e (VScalar s)) by (intros [t | m]; [apply SC | reflexivity]).
    split; [exact A |]. intros [e | e | k e]; [apply A | reflexivity | reflexivity].
  - split; [intros [t | m]; reflexivity | intros [[t | m] | e | k e]; reflexivity].
  - intros fs F. assert (A : forall e, text_ok bytes sch e (VMsg fs) <-> elem_ok sch e (VMsg fs)).
    { intros [t | m]; [reflexivity |]. change (text_object_ok bytes sch m fs <-> object_ok sch m fs). rewrite text_object_spec, object_ok_spec.
      generalize (md_fields (msg_at sch m)). intro fields. revert fields. induction F as [| x fs (_ & Fx) _ IH]; intros fields; split; intro H; inversion H; subst; constructor; try (now apply Fx); now apply IH. }
    split; [exact A |]. intros [e | e | k e]; [apply A | reflexivity | reflexivity].
  - intros l F. split; [intros [t | m]; reflexivity |]. intros [e | e | k e]; [destruct e; reflexivity | | reflexivity].
    cbn [text_val_ok val_ok]. rewrite !every_Forall, !Forall_forall. rewrite Forall_forall in F. split; intros H x I; apply F; auto.
  - intros l F. split; [intros [t | m]; reflexivity |]. intros [e | e | k e]; [destruct e; reflexivity | reflexivity |].
    cbn [text_val_ok val_ok]. rewrite !every_Forall, !Forall_forall. rewrite Forall_forall in F.
    split; intros (S & H); (split; [exact S |]); intros p I; destruct (H p I); (split; [now apply SC | now apply F]).
Qed.

Lemma text_object_bytes : forall sch m fs, text_object_ok bytes sch m fs <-> object_ok sch m fs.
Proof. intros sch m fs. exact (proj1 (text_bytes sch (VMsg fs)) (EM m)). Qed.

Lemma converted_object_ok : forall sch m fs, text_object_ok units sch m fs -> object_ok sch m (convert_object to_utf8 sch m fs).
Proof. intros sch m fs H. apply text_object_bytes. now apply (converted_object_typed units bytes to_utf8 to_utf8_bytes eq_refl). Qed.

Lemma faithful_object_units : forall sch m fs, text_object_ok faithful sch m fs -> text_object_ok units sch m fs.
Proof. intros sch m fs. exact (proj1 (text_ok_impl faithful units sch faithful_units (VMsg fs)) (EM m)). Qed.

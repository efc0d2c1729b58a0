(** Facts about [arrives]: it determines the result, and what arrived arrives again unchanged. *)

From Coq Require Import ZArith List Bool Lia.
From Verif Require Import Base WireModel Values MessageModel WireSpec MessageSpec MessageProofs
  SerializeProofs ExactSpec.
Import ListNotations.
Open Scope Z_scope.

Scheme arrives_mut := Induction for arrives Sort Prop
with arrives_fields_mut := Induction for arrives_fields Sort Prop
with arrives_field_mut := Induction for arrives_field Sort Prop
with arrives_list_mut := Induction for arrives_list Sort Prop
with arrives_map_mut := Induction for arrives_map Sort Prop.

Lemma single_back_idem t s : single_back t (single_back t s) = single_back t s.
Proof.
  destruct t, s; cbn [single_back]; try reflexivity;
    try (destruct (_ =? _) eqn:E; cbn [single_back]; [reflexivity | now rewrite E]);
    destruct bs; reflexivity.
Qed.

Lemma element_back_idem s : element_back (element_back s) = element_back s.
Proof. destruct s; reflexivity. Qed.

Section Facts.
  Variable sch : schema.

  Lemma arrives_fun m a b : arrives sch m a b -> forall c, arrives sch m a c -> b = c.
  Proof.
    revert m a b.
    apply (arrives_mut sch
      (fun m a b _ => forall c, arrives sch m a c -> b = c)
      (fun fields a b _ => forall c, arrives_fields sch fields a c -> b = c)
      (fun ty a b _ => forall c, arrives_field sch ty a c -> b = c)
      (fun e a b _ => forall c, arrives_list sch e a c -> b = c)
      (fun e a b _ => forall c, arrives_map sch e a c -> b = c)).
    - intros m fs rs _ IH c C. inversion C; subst. auto.
    - intros c C. now inversion C.
    - intros f fields x fs y rs _ IH1 _ IH2 c C. inversion C; subst. f_equal; auto.
    - intros t s c C. now inversion C.
    - intros m r _ IH c C. inversion C; subst. f_equal; auto.
    - intros m fs r _ IH c C. inversion C; subst. f_equal; auto.
    - intros e l l' _ IH c C. inversion C; subst. f_equal; auto.
    - intros k e l l' _ IH c C. inversion C; subst. f_equal; auto.
    - intros e c C. now inversion C.
    - intros t s l l' _ IH c C. inversion C; subst. f_equal; auto.
    - intros m l l' _ IH c C. inversion C; subst. auto.
    - intros m fs r l l' _ IH1 _ IH2 c C. inversion C; subst. f_equal; auto. f_equal; auto.
    - intros e c C. now inversion C.
    - intros t k s l l' _ IH c C. inversion C; subst. f_equal; auto.
    - intros m k l l' _ IH c C. inversion C; subst. auto.
    - intros m k fs r l l' _ IH1 _ IH2 c C. inversion C; subst. f_equal; auto. do 2 f_equal; auto.
  Qed.

  (** What arrived arrives again as it is. *)
  Lemma arrives_again m a b : arrives sch m a b -> arrives sch m b b.
  Proof.
    revert m a b.
    apply (arrives_mut sch
      (fun m a b _ => arrives sch m b b)
      (fun fields a b _ => arrives_fields sch fields b b)
      (fun ty a b _ => arrives_field sch ty b b)
      (fun e a b _ => arrives_list sch e b b)
      (fun e a b _ => arrives_map sch e b b)); intros; try (constructor; auto; fail); auto.
    - rewrite <- (single_back_idem t s) at 2. constructor.
    - rewrite <- (element_back_idem s) at 2. now constructor.
  Qed.

  Lemma single_back_ok t s : scalar_ok t s -> scalar_ok t (single_back t s).
  Proof.
    destruct t, s; cbn [scalar_ok single_back]; intro H; auto; try contradiction.
    - destruct (z =? 2 ^ 31); cbn [scalar_ok]; auto. unfold in_u. lia.
    - destruct (z =? 2 ^ 63); cbn [scalar_ok]; auto. unfold in_u. lia.
    - destruct H as [H _]. destruct bs; cbn [scalar_ok]; split; auto. discriminate.
    - destruct H as [H _]. destruct bs; cbn [scalar_ok]; split; auto. discriminate.
  Qed.

  Lemma element_back_ok t s : scalar_ok t s -> scalar_ok t (element_back s).
  Proof.
    destruct t, s; cbn [scalar_ok element_back]; intro H; auto; split; try tauto; discriminate.
  Qed.

  Lemma arrives_map_keys e l l' : arrives_map sch e l l' -> forall k a,
    Forall (fun p : scalar * value => key_ltb k a (fst p) = true) l ->
    Forall (fun p : scalar * value => key_ltb k a (fst p) = true) l'.
  Proof.
    induction 1; intros q a F; inversion F; subst; auto; constructor; auto.
  Qed.

  Lemma arrives_map_sorted e l l' : arrives_map sch e l l' -> forall k, keys_sorted k l -> keys_sorted k l'.
  Proof.
    induction 1; intros q F; auto; destruct F as [F1 F2]; auto; split; auto;
      eapply arrives_map_keys; eauto.
  Qed.

  Lemma arrives_ok m a b : arrives sch m a b -> object_ok sch m a -> object_ok sch m b.
  Proof.
    revert m a b.
    apply (arrives_mut sch
      (fun m a b _ => object_ok sch m a -> object_ok sch m b)
      (fun fields a b _ => Forall2 (fun f x => val_ok sch (f_ty f) x) fields a ->
                           Forall2 (fun f x => val_ok sch (f_ty f) x) fields b)
      (fun ty a b _ => val_ok sch ty a -> val_ok sch ty b)
      (fun e a b _ => every (elem_ok sch e) a -> every (elem_ok sch e) b)
      (fun e a b _ => forall k, every (fun p => scalar_ok k (fst p) /\ elem_ok sch e (snd p)) a ->
                      every (fun p => scalar_ok k (fst p) /\ elem_ok sch e (snd p)) b)).
    - intros m fs rs _ IH O. apply object_ok_spec. apply IH. now apply object_ok_spec.
    - auto.
    - intros f fields x fs y rs _ IH1 _ IH2 F. inversion F; subst. constructor; auto.
    - intros t s H. cbn [val_ok elem_ok] in *. now apply single_back_ok.
    - intros m r _ IH _. exact (IH (default_ok sch m)).
    - intros m fs r _ IH O. exact (IH O).
    - intros e l l' _ IH O. exact (IH O).
    - intros k e l l' A IH [O1 O2]. split; [eapply arrives_map_sorted; eauto | now apply IH].
    - auto.
    - intros t s l l' _ IH [O1 O2]. split; [|auto]. cbn [elem_ok] in *. now apply element_back_ok.
    - intros m l l' _ IH [_ O]. auto.
    - intros m fs r l l' _ IH1 _ IH2 [O1 O2]. split; [exact (IH1 O1) | auto].
    - auto.
    - intros t k s l l' _ IH q [O1 O2]. split; auto.
    - intros m k l l' _ IH q [_ O]. auto.
    - intros m k fs r l l' _ IH1 _ IH2 q [[O1 O1'] O2]. split; [|auto].
      split; [exact O1 | exact (IH1 O1')].
  Qed.

  Lemma arrives_nth m a b i : arrives sch m a b -> (i < length (md_fields (msg_at sch m)))%nat ->
    arrives_field sch (f_ty (field_at sch m i)) (nth i a VNull) (nth i b VNull).
  Proof.
    intros A. inversion A as [? ? ? F]; subst. unfold field_at. clear A. revert i.
    induction F as [|f fields x fs y rs H F IH]; intros i Hi; cbn [length] in Hi; [lia|].
    destruct i; [exact H|]. apply IH. lia.
  Qed.

  (** Lists of numbers and maps with numbers or strings as values arrive as they are. *)
  Lemma arrives_numbers t l l' : is_blob t = false -> every (elem_ok sch (ES t)) l ->
    arrives_list sch (ES t) l l' -> l' = l.
  Proof.
    intros Bl. revert l'. induction l as [|x l IH]; intros l' O A; inversion A; subst; [reflexivity|].
    destruct O as [O1 O2]. f_equal; [|now apply IH].
    cbn [elem_ok] in O1. destruct s; [reflexivity|]. destruct t; try contradiction; discriminate Bl.
  Qed.

  Lemma arrives_scalar_map t l l' : arrives_map sch (ES t) l l' -> l' = l.
  Proof.
    revert l'. induction l as [|x l IH]; intros l' A; inversion A; subst; [reflexivity|].
    f_equal. now apply IH.
  Qed.
End Facts.

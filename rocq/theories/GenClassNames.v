(** Proofs about what is inside of generated classes: names of properties, constructors. *)

From Coq Require Import String Ascii ZArith List Bool Arith Lia Permutation.
From Verif Require Import GenModel GenSpec GenStrings GenFields GenTypesModel GenClassModel GenClassSpec GenClassProofs.
Import ListNotations.
Open Scope string_scope.

Lemma length_append : forall a b, String.length (a ++ b) = String.length a + String.length b.
Proof. induction a as [| c a IH]; cbn; intros b; [reflexivity | now rewrite IH]. Qed.
Lemma append_cancel_r : forall a b x, a ++ x = b ++ x -> a = b.
Proof.
  induction a as [| c a IH]; intros [| d b] x E; auto.
  - apply (f_equal String.length) in E. rewrite !length_append in E. cbn in E. lia.
  - apply (f_equal String.length) in E. rewrite !length_append in E. cbn in E. lia.
  - cbn in E. injection E as -> E. now rewrite (IH b x E).
Qed.

Lemma cut_data : forall f, cut (pname f ++ "Data") = None \/ exists c, cut (pname f ++ "Data") = Some (c, "protoData").
Proof.
  intro f. destruct (pname_cases f) as [F | [<- | [<- | [<- | []]]]].
  - left. apply cut_last_free, free_append; [exact F | free].
  - right. exists "id". reflexivity.
  - right. exists "property". reflexivity.
  - right. exists "import". reflexivity.
Qed.

(** The names of the properties of a field: its own name; the other one. *)
Definition own_name (qml : bool) (f : mfield) : Prop := listed f -> qml = true.
Definition property_names (qml : bool) (f : mfield) : list string :=
  map q_name (property_line qml f :: extra_property_line qml f).

Lemma property_names_cases : forall qml f,
  (property_names qml f = [pname f] /\ own_name qml f /\ ~ listed f)
  \/ (property_names qml f = [pname f ++ "_p"; pname f] /\ own_name qml f /\ ~ listed f)
  \/ (property_names qml f = [pname f ++ "Data"; pname f] /\ qml = true /\ listed f)
  \/ (property_names qml f = [pname f ++ "Data"] /\ qml = false /\ listed f).
Proof.
  intros qml f. unfold property_names, own_name. pose proof (listed_spec f) as L. unfold property_line, extra_property_line.
  destruct (m_shape f) as [e | e | k v]; [destruct e as [t | m | u | q] | destruct e as [t | m | u | q] |]; try destruct t; destruct qml; cbn in *;
  (first [assert (NL : ~ listed f) by (rewrite L; intros (X & Y & Z); discriminate) | assert (LI : listed f) by (apply L; auto)]); tauto.
Qed.

Lemma names_apart : forall qml f g x, key (m_name f) <> key (m_name g) -> In x (property_names qml f) -> In x (property_names qml g) ->
  same_property qml f g \/ same_property qml g f.
Proof.
  intros qml f g x K I J.
  assert (N : pname f <> pname g) by (intros E; apply K; now apply pname_key).
  assert (PP : forall h k, pname h ++ "_p" <> pname k).
  { intros h k E. apply (f_equal cut) in E. rewrite cut_p in E. destruct (cut_pname k) as [C | (c & _ & C)]; rewrite C in E; discriminate E. }
  assert (PD : forall h k, pname h ++ "_p" <> pname k ++ "Data").
  { intros h k E. apply (f_equal cut) in E. rewrite cut_p in E. destruct (cut_data k) as [C | (c & C)]; rewrite C in E; discriminate E. }
  assert (P2 : pname f ++ "_p" <> pname g ++ "_p").
  { intros E. apply (f_equal cut) in E. rewrite !cut_p in E. injection E as E. contradiction. }
  assert (D2 : pname f ++ "Data" <> pname g ++ "Data").
  { intros E. apply append_cancel_r in E. contradiction. }
  unfold same_property.
  assert (CL : listed f -> own_name qml g -> pname f ++ "Data" = pname g -> listed f /\ (listed g -> qml = true) /\ exists n, known_as f n /\ known_as g (n ++ "Data")).
  { intros A B E. split; [exact A |]. split; [exact B |]. exists (pname f). split; [apply known_pname | apply known_as_spec; exact E]. }
  assert (CR : listed g -> own_name qml f -> pname g ++ "Data" = pname f -> listed g /\ (listed f -> qml = true) /\ exists n, known_as g n /\ known_as f (n ++ "Data")).
  { intros A B E. split; [exact A |]. split; [exact B |]. exists (pname g). split; [apply known_pname | apply known_as_spec; exact E]. }
  destruct (property_names_cases qml f) as [(E & A & B) | [(E & A & B) | [(E & A & B) | (E & A & B)]]]; rewrite E in I;
  destruct (property_names_cases qml g) as [(E' & A' & B') | [(E' & A' & B') | [(E' & A' & B') | (E' & A' & B')]]]; rewrite E' in J;
  cbn [In] in I, J;
  repeat match goal with H : _ \/ _ |- _ => destruct H as [H | H] | H : False |- _ => destruct H end; subst x;
  try congruence; try (exfalso; now apply (PP f g)); try (exfalso; now apply (PP g f)); try (exfalso; now apply (PD f g)); try (exfalso; now apply (PD g f));
  try (left; apply CL; unfold own_name; auto; congruence); try (right; apply CR; unfold own_name; auto; congruence).
Qed.

Lemma names_once : forall qml f, NoDup (property_names qml f).
Proof.
  intros qml f. assert (A : forall c t, pname f ++ String c t <> pname f) by (intros c t E; symmetry in E; now apply append_longer in E).
  destruct (property_names_cases qml f) as [(E & _) | [(E & _) | [(E & _) | (E & _)]]]; rewrite E;
  repeat (constructor; [cbn; intros X; repeat (destruct X as [X | X]; [symmetry in X; now apply A in X |]); destruct X |]); constructor.
Qed.

Lemma properties_names : forall qml m, Permutation (map q_name (properties qml m)) (flat_map (property_names qml) (g_fields m)).
Proof.
  intros qml m. unfold properties. rewrite map_app. induction (g_fields m) as [| f fs IH]; cbn; [constructor |].
  constructor. rewrite !map_app. rewrite <- IH. rewrite !app_assoc. apply Permutation_app_tail, Permutation_app_comm.
Qed.

Lemma same_listed : forall qml f g n, same_property qml f g -> known_as f n -> In (n ++ "Data") (property_names qml f) /\ In (n ++ "Data") (property_names qml g) /\ f <> g.
Proof.
  intros qml f g n (L & O & n' & A & B) K. apply known_as_spec in A, K. subst n n'. apply known_as_spec in B.
  split; [| split].
  - destruct (property_names_cases qml f) as [(E & _ & X) | [(E & _ & X) | [(E & _ & X) | (E & _ & X)]]]; try contradiction; rewrite E; now left.
  - rewrite B. destruct (property_names_cases qml g) as [(E & X) | [(E & X) | [(E & X) | (E & X & Y)]]]; rewrite E; cbn; auto.
    specialize (O Y). congruence.
  - intros ->. symmetry in B. now apply append_longer in B.
Qed.

Lemma nodup_flat {A B} (h : A -> list B) (l : list A) : NoDup (flat_map h l) -> forall x y b, In x l -> In y l -> In b (h x) -> In b (h y) -> x <> y -> False.
Proof.
  induction l as [| a l IH]; cbn; intros N x y b X Y I J D; [destruct X |].
  assert (S : forall z, In z l -> In b (h z) -> In b (h a) -> False).
  { intros z Z Iz Ia. clear - N Z Iz Ia. revert N Ia. generalize (h a). intros p. induction p as [| q p IHp]; cbn; intros N Ia; [destruct Ia |].
    inversion N as [| ? ? NI ND]. subst. destruct Ia as [-> | Ia]; [| now apply IHp].
    apply NI, in_or_app. right. apply in_flat_map. now exists z. }
  destruct X as [<- | X], Y as [<- | Y]; try congruence.
  - now apply (S y).
  - now apply (S x).
  - apply (IH) with (x := x) (y := y) (b := b); auto. clear - N. revert N. generalize (h a). intros p. induction p as [| q p IHp]; cbn; auto.
    intros N. inversion N. auto.
Qed.

Lemma property_names_spec : forall qml m, fields_distinct m ->
  (NoDup (map q_name (properties qml m)) <-> forall f g, In f (g_fields m) -> In g (g_fields m) -> ~ same_property qml f g).
Proof.
  intros qml m FD. split.
  - intros N f g F G S. apply (Permutation_NoDup (properties_names qml m)) in N.
    destruct (same_listed qml f g (pname f) S (known_pname f)) as (A & B & D). exact (nodup_flat _ _ N f g _ F G A B D).
  - intros H. apply (Permutation_NoDup (Permutation_sym (properties_names qml m))). unfold fields_distinct in FD.
    induction (g_fields m) as [| f fs IH]; [constructor |]. cbn [map] in FD. inversion FD as [| ? ? NI ND]. subst. cbn [flat_map].
    assert (R : NoDup (flat_map (property_names qml) fs)) by (apply IH; auto; intros; apply H; now right).
    assert (X : forall x, In x (property_names qml f) -> ~ In x (flat_map (property_names qml) fs)).
    { intros x I J. apply in_flat_map in J. destruct J as (g & G & J).
      assert (K : key (m_name f) <> key (m_name g)) by (intros E; apply NI; rewrite E; apply in_map_iff; now exists g).
      destruct (names_apart qml f g x K I J) as [S | S]; revert S; apply H; [now left | now right | now right | now left]. }
    pose proof (names_once qml f) as O. revert O X. generalize (property_names qml f). intros p. induction p as [| q p IHp]; cbn; auto.
    intros O X. inversion O. subst. constructor; [| apply IHp; auto]. intros I. apply in_app_or in I. destruct I as [I | I]; [contradiction |].
    now apply (X q); [left |].
Qed.

Lemma constructors_spec : forall qml field_numbers full m count,
  (count <= List.length (g_fields m))%nat <-> In (DSpecial (Constructor count)) (declarations qml field_numbers full m).
Proof.
  intros qml fn full m count. split.
  - intros L. unfold declarations. do 4 (apply in_or_app; right). apply in_or_app. left. unfold special_declarations. apply in_map, in_or_app. left.
    unfold constructors_of. apply in_or_app. left. apply in_map, in_seq. lia.
  - intros I. unfold declarations in I.
    repeat match type of I with In _ (_ ++ _)%list => apply in_app_or in I; destruct I as [I | I] end;
    try match type of I with In _ (flat_map _ _) => apply in_flat_map in I; destruct I as (f & _ & I) end.
    + cbn in I. repeat (destruct I as [I | I]; [discriminate I |]). destruct I.
    + unfold enum_declarations in I. apply in_app_or in I. destruct I as [I | I].
      * destruct fn; [| destruct I]. destruct I as [I | I]; [discriminate I |]. unfold enumerator_declarations in I. apply in_map_iff in I. destruct I as (x & I & _). discriminate I.
      * apply in_app_or in I. destruct I as [I | I].
        -- apply in_flat_map in I. destruct I as (e & _ & [I | I]); [discriminate I |]. unfold enumerator_declarations in I. apply in_map_iff in I. destruct I as (x & I & _). discriminate I.
        -- apply in_map_iff in I. destruct I as (x & I & _). discriminate I.
    + unfold nested_aliases in I. apply in_flat_map in I. destruct I as (f & _ & I). destruct (goes_into _ _); cbn in I; intuition discriminate.
    + unfold map_aliases in I. apply in_flat_map in I. destruct I as (f & _ & I). destruct (is_map _); cbn in I; intuition discriminate.
    + unfold special_declarations, constructors_of in I. apply in_map_iff in I. destruct I as (x & E & I). injection E as ->.
      apply in_app_or in I. destruct I as [I | I]; [| cbn in I; intuition discriminate].
      apply in_app_or in I. destruct I as [I | I].
      * apply in_map_iff in I. destruct I as (n & E & I). injection E as ->. apply in_seq in I. lia.
      * destruct (String.eqb _ _); cbn in I; intuition discriminate.
    + unfold getter_declarations in I. cbv zeta in I.
      repeat match type of I with In _ (_ ++ _)%list => apply in_app_or in I; destruct I as [I | I]
      | In _ (_ :: _) => destruct I as [I | I]; [discriminate I |] | In _ nil => destruct I
      | In _ (match ?b with _ => _ end) => destruct b end.
    + unfold setter_declarations in I. cbv zeta in I.
      repeat match type of I with In _ (_ ++ _)%list => apply in_app_or in I; destruct I as [I | I]
      | In _ (_ :: _) => destruct I as [I | I]; [discriminate I |] | In _ nil => destruct I
      | In _ (match ?b with _ => _ end) => destruct b end.
    + cbn in I. intuition discriminate.
    + cbn in I. intuition discriminate.
    + unfold private_getter_declarations in I. cbv zeta in I.
      repeat match type of I with In _ (if ?b then _ else _) => destruct b end; cbn in I; intuition discriminate.
    + unfold private_setter_declarations in I.
      repeat match type of I with In _ (if ?b then _ else _) => destruct b end; cbn in I; intuition discriminate.
    + unfold private_method_declarations in I.
      repeat match type of I with In _ (if ?b then _ else _) => destruct b end; cbn in I; intuition discriminate.
    + cbn in I. intuition discriminate.
Qed.

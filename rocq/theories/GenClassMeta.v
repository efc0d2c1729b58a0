(** Proofs about the meta types that a header declares, and about members that are not defined. *)

From Coq Require Import String Ascii ZArith List Bool Arith Lia Permutation.
From Verif Require Import GenModel GenSpec GenStrings GenOutput GenTypesModel GenTypesSpec GenTypesNames GenClassModel GenClassSpec GenClassProofs GenClassMembers GenClassBodies.
Import ListNotations.
Open Scope string_scope.

(** * Induction over messages *)

Section Induction.
Context (P : message -> Prop) (H : forall id name fs es nested, (forall n, In n nested -> P n) -> P (Message id name fs es nested)).
Fixpoint message_induction (m : message) : P m :=
  match m with
  | Message id name fs es nested =>
      H id name fs es nested
        ((fix go (l : list message) : forall n, In n l -> P n :=
            match l with
            | [] => fun n i => match i with end
            | a :: l' => fun n i => match i with or_introl e => eq_ind a P (message_induction a) n e | or_intror i' => go l' n i' end
            end) nested)
  end.
End Induction.

(** * What a type is made for *)

Definition class_ids (m : message) : list nat := map g_id (family m).
Definition enum_ids (m : message) : list nat := flat_map (fun n => map e_id (g_enums n)) (family m).

Definition made_for (m : message) (t : meta) : Prop :=
  match t with
  | MClass i | MList i | MQmlList i => In i (class_ids m)
  | MEnum e | MEnumList e => In e (enum_ids m)
  end.
Definition own_made_for (m : message) (t : meta) : Prop :=
  match t with
  | MClass i | MList i | MQmlList i => i = g_id m
  | MEnum e | MEnumList e => In e (map e_id (g_enums m))
  end.

Lemma local_enum : forall e es, isLocalEnum e es = true <-> In e (map e_id es).
Proof.
  intros e es. unfold isLocalEnum. rewrite existsb_exists, in_map_iff. split.
  - intros (x & I & E). apply Nat.eqb_eq in E. now exists x.
  - intros (x & E & I). exists x. split; [exact I | now apply Nat.eqb_eq].
Qed.

Definition enum_of (f : mfield) (e : nat) : Prop := m_shape f = One (Enu e) \/ m_shape f = Many (Enu e).

Lemma field_types : forall es f t, In t (field_meta_types es f) <->
  exists e, enum_of f e /\ In e (map e_id es) /\ (t = MEnum e \/ t = MEnumList e).
Proof.
  intros es f t. unfold field_meta_types, enum_of. split.
  - destruct (m_shape f) as [[| | e |] | [| | e |] |] eqn:S; try (intros []; fail);
      (destruct (isLocalEnum e es) eqn:L; [| intros []]; apply local_enum in L; intros [<- | [<- | []]]; exists e; auto).
  - intros (e & [S | S] & L & T); rewrite S; apply local_enum in L; rewrite L; cbn; intuition auto.
Qed.

Lemma own_types : forall qml m t, In t (own_meta_types qml m) -> own_made_for m t.
Proof.
  intros qml m t I. unfold own_meta_types in I. rewrite !in_app_iff in I. destruct I as [I | [I | I]].
  - destruct I as [<- | [<- | []]]; reflexivity.
  - destruct qml; [destruct I as [<- | []]; reflexivity | destruct I].
  - apply in_flat_map in I. destruct I as (f & _ & I). apply field_types in I. destruct I as (e & _ & L & [-> | ->]); exact L.
Qed.

Lemma class_ids_are : forall id name fs es nested, class_ids (Message id name fs es nested) = id :: flat_map class_ids nested.
Proof. intros. unfold class_ids. cbn [family map g_id]. now rewrite map_flat. Qed.
Lemma enum_ids_are : forall id name fs es nested, enum_ids (Message id name fs es nested) = (map e_id es ++ flat_map enum_ids nested)%list.
Proof. intros. unfold enum_ids. cbn [family flat_map g_enums]. now rewrite flat_flat. Qed.

Lemma own_made : forall m t, own_made_for m t -> made_for m t.
Proof.
  intros [id name fs es nested] t O.
  destruct t as [i | i | i | e | e]; cbn [own_made_for made_for g_id g_enums] in *; rewrite ?class_ids_are, ?enum_ids_are;
    first [left; congruence | apply in_or_app; left; exact O].
Qed.

Lemma nested_made : forall id name fs es nested n t, In n nested -> made_for n t -> made_for (Message id name fs es nested) t.
Proof.
  intros id name fs es nested n t N M.
  destruct t as [i | i | i | e | e]; cbn [made_for] in *; rewrite ?class_ids_are, ?enum_ids_are;
    first [right; apply in_flat_map; exists n; auto | apply in_or_app; right; apply in_flat_map; exists n; auto].
Qed.

Lemma types_made : forall qml m t, In t (meta_types qml m) -> made_for m t.
Proof.
  intros qml m. induction m as [id name fs es nested IH] using message_induction. intros t I. cbn [meta_types] in I.
  apply in_app_iff in I. destruct I as [I | I].
  - apply own_made, (own_types qml), I.
  - apply in_flat_map in I. destruct I as (n & N & I). destruct (goes_into fs n); [| destruct I]. exact (nested_made _ _ _ _ _ _ _ N (IH n N t I)).
Qed.

(** * No type twice *)

Lemma nodup_parts : forall (A B : Type) (h : A -> B) a b l, NoDup (map h (a :: l)) -> In b l -> h a <> h b.
Proof. intros A B h a b l N I E. inversion N as [| ? ? X _]; subst. apply X. rewrite E. now apply in_map. Qed.

Lemma field_types_distinct : forall es fs,
  (forall e a f b g c, fs = (a ++ f :: b ++ g :: c)%list -> In e (map e_id es) -> enum_of f e -> enum_of g e -> False) ->
  NoDup (flat_map (field_meta_types es) fs).
Proof.
  intros es fs. induction fs as [| f fs IH]; intro H; [constructor |]. cbn [flat_map]. apply nodup_append.
  - unfold field_meta_types. destruct (m_shape f) as [[| | e |] | [| | e |] |]; try constructor; destruct (isLocalEnum e es);
      repeat (constructor; [cbn; intros X; repeat (destruct X as [X | X]; [discriminate X |]); destruct X |]); constructor.
  - apply IH. intros e a x b g c ->. exact (H e (f :: a)%list x b g c eq_refl).
  - intros t I J. apply in_flat_map in J. destruct J as (g & G & J). apply field_types in I, J.
    destruct I as (e & E & L & T). destruct J as (e' & E' & L' & T').
    assert (e' = e) as -> by (destruct T as [-> | ->]; destruct T' as [T' | T']; congruence).
    apply in_split in G. destruct G as (b & c & ->). exact (H e []%list f b g c eq_refl L E E').
Qed.

Lemma types_distinct : forall qml m,
  NoDup (class_ids m) -> NoDup (enum_ids m) -> (forall n, In n (family m) -> ~ enum_twice n) -> NoDup (meta_types qml m).
Proof.
  intros qml m. induction m as [id name fs es nested IH] using message_induction. intros NC NE NT.
  rewrite class_ids_are in NC. rewrite enum_ids_are in NE. inversion NC as [| ? ? NI NC']; subst.
  cbn [meta_types]. apply nodup_append.
  - unfold own_meta_types. cbn [g_id g_enums g_fields]. apply nodup_append; [| apply nodup_append |].
    + repeat constructor; cbn; intuition congruence.
    + destruct qml; repeat constructor. intros [].
    + apply field_types_distinct. intros e a f b g c E L F G. apply (NT (Message id name fs es nested)); [left; reflexivity |].
      exists e, a, f, b, g, c. auto.
    + intros t I J. destruct qml; [| destruct I]. destruct I as [<- | []]. apply in_flat_map in J. destruct J as (f & _ & J).
      apply field_types in J. destruct J as (e & _ & _ & [J | J]); discriminate J.
    + intros t I J. apply in_app_iff in J. destruct J as [J | J].
      * destruct qml; [| destruct J]. destruct J as [<- | []]. destruct I as [I | [I | []]]; discriminate I.
      * apply in_flat_map in J. destruct J as (f & _ & J). apply field_types in J.
        destruct J as (e & _ & _ & [-> | ->]); destruct I as [I | [I | []]]; discriminate I.
  - assert (NE' : NoDup (flat_map enum_ids nested)).
    { clear - NE. induction (map e_id es) as [| x l IHl]; [exact NE |]. inversion NE; auto. }
    assert (NT' : forall k, In k nested -> forall n, In n (family k) -> ~ enum_twice n).
    { intros k K n N. apply NT. right. apply in_flat_map. exists k. auto. }
    clear NC NI NE NT. induction nested as [| k l IHl]; [constructor |]. cbn [flat_map] in *. apply nodup_append.
    + destruct (goes_into fs k); [| constructor]. apply IH; [left; reflexivity | exact (nodup_prefix _ _ _ NC') | exact (nodup_prefix _ _ _ NE') |].
      apply NT'. left. reflexivity.
    + apply IHl.
      * intros n N. apply IH. right. exact N.
      * clear - NC'. induction (class_ids k) as [| x y IHy]; [exact NC' |]. inversion NC'; auto.
      * clear - NE'. induction (enum_ids k) as [| x y IHy]; [exact NE' |]. inversion NE'; auto.
      * intros n N. apply NT'. right. exact N.
    + intros t I J. destruct (goes_into fs k); [| destruct I]. apply types_made in I.
      apply in_flat_map in J. destruct J as (n & N & J). destruct (goes_into fs n); [| destruct J]. apply types_made in J.
      destruct t as [i | i | i | e | e]; cbn [made_for] in *;
        first [refine (proj2 (nodup_middle _ (class_ids k) (flat_map class_ids l) [] _) _ I _); [rewrite app_nil_r; exact NC' | apply in_flat_map; exists n; auto]
              | refine (proj2 (nodup_middle _ (enum_ids k) (flat_map enum_ids l) [] _) _ I _); [rewrite app_nil_r; exact NE' | apply in_flat_map; exists n; auto]].
  - intros t I J. apply own_types in I. apply in_flat_map in J. destruct J as (n & N & J). destruct (goes_into fs n); [| destruct J].
    apply types_made in J.
    destruct t as [i | i | i | e | e]; cbn [made_for own_made_for g_id g_enums] in *;
      first [subst i; apply NI; apply in_flat_map; exists n; auto
            | refine (proj2 (nodup_middle _ (map e_id es) (flat_map enum_ids nested) [] _) _ I _); [rewrite app_nil_r; exact NE | apply in_flat_map; exists n; auto]].
Qed.

Lemma nodup_suffix : forall (A : Type) (l l' : list A), NoDup (l ++ l') -> NoDup l'.
Proof. induction l as [| x l IH]; intros l' N; [exact N |]. inversion N; auto. Qed.

Lemma types_twice : forall qml m, enum_twice m -> ~ NoDup (meta_types qml m).
Proof.
  intros qml [id name fs es nested] (e & a & f & b & g & c & E & L & F & G) N. cbn [g_fields g_enums] in *. cbn [meta_types] in N.
  apply nodup_prefix in N. unfold own_meta_types in N. cbn [g_id g_enums g_fields] in N. rewrite E in N.
  rewrite !flat_map_app in N. cbn [flat_map] in N. rewrite flat_map_app in N. cbn [flat_map] in N.
  assert (XF : exists l, field_meta_types es f = (MEnum e :: l)%list).
  { apply local_enum in L. exists [MEnumList e]. unfold field_meta_types. destruct F as [-> | ->]; now rewrite L. }
  assert (XG : In (MEnum e) (field_meta_types es g)) by (apply field_types; exists e; auto).
  destruct XF as (l & XF). rewrite XF in N.
  do 3 apply nodup_suffix in N. cbn [app] in N. inversion N as [| ? ? X _]; subst. apply X. rewrite !in_app_iff. auto.
Qed.

(** * The name of the class *)

Lemma class_name_inside : forall qml field_numbers full m x, declared_inside m x -> first_capital x = first_capital (g_name m) ->
  In (first_capital (g_name m)) (names_declared (declarations qml field_numbers full m)).
Proof.
  intros qml fn full m x D E. rewrite <- E, first_capital_eq. apply declared_inside_spec in D.
  apply (Permutation_in _ (Permutation_sym (all_names qml fn full m))). rewrite !in_app_iff. right. left.
  apply (Permutation_in _ (Permutation_sym (type_names_general fn m))). rewrite !in_app_iff. right. left. now apply in_map.
Qed.

(** * Lists of Qt types *)

Lemma qt_list_undefined : forall qml field_numbers full m f, In f (g_fields m) -> qt_list qml f ->
  In (extra_property_line qml f) [[mkQProperty (QmlListOf (element_of (m_shape f))) (pname f) (pname f ++ "_l") None (signal_name f)]]
  /\ In (DFunction (qml_list_getter f)) (declarations qml field_numbers full m)
  /\ forall b, ~ In (FFunction (qml_list_getter f) b) (definitions qml full m).
Proof.
  intros qml fn full m f F [-> (q & S)]. split; [| split].
  - left. unfold extra_property_line. rewrite S. reflexivity.
  - apply (declared_own _ _ _ _ f _ F). apply has_list; [reflexivity |]. exists (Qt q). split; [exact S | right; now exists q].
  - intros b I.
    assert (R : fn_result (qml_list_getter f) = Some (QmlListOf (Qt q))) by (unfold qml_list_getter; now rewrite S).
    remember (FFunction (qml_list_getter f) b) as d eqn:D.
    assert (X : match d with FFunction g _ => fn_result g | _ => None end = Some (QmlListOf (Qt q))) by now rewrite D.
    clear D R. unfold definitions in I. rewrite !in_app_iff in I. destruct I as [I | [I | [I | I]]].
    + cbn in I. repeat (destruct I as [<- | I]; [discriminate X |]). destruct I.
    + unfold special_definitions in I. apply in_map_iff in I. destruct I as (s & <- & _). discriminate X.
    + apply in_flat_map in I. destruct I as (g & _ & I). unfold getter_definitions in I. apply in_app_iff in I. destruct I as [I | I].
      * destruct (pure_message (m_shape g)); [| destruct I]. destruct I as [<- | [<- | []]]; discriminate X.
      * destruct (_ && _) eqn:Y in I; [| destruct I]. destruct I as [<- | []]. cbn in X. injection X as X.
        rewrite X in Y. rewrite !andb_true_iff in Y. destruct Y as [[_ Y] _]. discriminate Y.
    + apply in_flat_map in I. destruct I as (g & _ & I). unfold setter_definitions in I.
      destruct (message_type (m_shape g)), (pure_message (m_shape g)), (text_type (m_shape g)); repeat (destruct I as [<- | I]; [discriminate X |]); destruct I.
Qed.

(** Proofs about what is inside of generated classes: members, definitions, properties, meta types. *)

From Coq Require Import String Ascii ZArith List Bool Arith Lia Permutation.
From Verif Require Import GenModel GenSpec GenStrings GenFields GenTypesModel GenClassModel GenClassSpec GenClassProofs.
Import ListNotations.
Open Scope string_scope.

(** * All members *)

Lemma flat_map_both : forall (A B : Type) (h k : A -> list B) l,
  Permutation (flat_map h l ++ flat_map k l) (flat_map (fun x => h x ++ k x) l)%list.
Proof.
  intros A B h k. induction l as [| x l IH]; [constructor |]. cbn [flat_map]. rewrite <- IH, <- !app_assoc.
  apply Permutation_app_head. rewrite !app_assoc. apply Permutation_app_tail, Permutation_app_comm.
Qed.

Lemma own_permuted : forall qml fs,
  Permutation (flat_map (getter_declarations qml) fs ++ flat_map setter_declarations fs
    ++ flat_map signal_declarations fs ++ flat_map private_getter_declarations fs
    ++ flat_map private_setter_declarations fs ++ flat_map (private_method_declarations qml) fs
    ++ flat_map variable_declarations fs)%list (flat_map (own qml) fs).
Proof.
  intros qml fs. unfold own.
  rewrite (flat_map_both _ _ (private_method_declarations qml) variable_declarations).
  rewrite (flat_map_both _ _ private_setter_declarations).
  rewrite (flat_map_both _ _ private_getter_declarations).
  rewrite (flat_map_both _ _ signal_declarations).
  rewrite (flat_map_both _ _ setter_declarations).
  rewrite (flat_map_both _ _ (getter_declarations qml)). reflexivity.
Qed.

Lemma declarations_permuted : forall qml field_numbers full m,
  Permutation (declarations qml field_numbers full m)
    (special_declarations full m ++ fixed_members ++ type_members field_numbers m ++ flat_map (own qml) (g_fields m))%list.
Proof.
  intros qml fn full m. unfold declarations, fixed_members, type_members. rewrite <- (own_permuted qml (g_fields m)).
  set (M := macros). set (E := enum_declarations fn m). set (N := nested_aliases m). set (P := map_aliases m).
  set (S := special_declarations full m). set (G := flat_map (getter_declarations qml) (g_fields m)). set (T := flat_map setter_declarations (g_fields m)).
  set (R := [DFunction register_types]). set (W := (flat_map signal_declarations (g_fields m) ++ _)%list).
  change (flat_map signal_declarations (g_fields m) ++ _)%list with W.
  transitivity (S ++ M ++ E ++ N ++ P ++ G ++ T ++ R ++ W)%list.
  - transitivity ((M ++ E ++ N ++ P) ++ S ++ (G ++ T ++ R ++ W))%list.
    + rewrite <- !app_assoc. reflexivity.
    + rewrite Permutation_app_swap_app, <- !app_assoc. reflexivity.
  - apply Permutation_app_head. rewrite <- !app_assoc. apply Permutation_app_head.
    transitivity ((E ++ N ++ P ++ G ++ T) ++ R ++ W)%list.
    + rewrite <- !app_assoc. reflexivity.
    + rewrite Permutation_app_swap_app, <- !app_assoc. reflexivity.
Qed.

Lemma special_none : forall full m d, In d (special_declarations full m) -> declared d = None.
Proof. intros full m d I. unfold special_declarations in I. apply in_map_iff in I. destruct I as (s & <- & _). reflexivity. Qed.

Lemma special_pairs : forall full m, ForallOrdPairs apart (special_declarations full m).
Proof.
  intros full m. assert (H := special_none full m). induction (special_declarations full m) as [| d l IH]; [constructor |]. constructor.
  - apply Forall_forall. intros e _. apply distinct_apart. intros n a b A _. rewrite (H d) in A by now left. discriminate A.
  - apply IH. intros x I. apply H. now right.
Qed.

Lemma type_fixed : forall field_numbers m d e, Forall letter_first (g_fields m) -> capitals m -> names_free field_numbers m ->
  In d fixed_members -> In e (type_members field_numbers m) -> apart d e.
Proof.
  intros fn m d e LF [_ C] (_ & O & _) D E. apply distinct_apart. intros n a b A B.
  assert (I : In n (names_declared (type_members fn m))).
  { unfold names_declared. apply in_flat_map. exists e. split; [exact E |]. rewrite B. now left. }
  destruct (type_names_capital fn m n LF C I) as (c & t & -> & K).
  assert (Q : String c t = "QPrivateSignal").
  { cbn in D. repeat (destruct D as [D | D]; [subst d; injection A as <- <- <-; try reflexivity; exfalso; cbn in K; repeat (destruct K as [K | K]; [discriminate K |]); destruct K |]). destruct D. }
  rewrite Q in I. apply (Permutation_in _ (type_names_permuted fn m C)) in I. rewrite !in_app_iff in I. destruct I as [I | [I | I]].
  - unfold number_names in I. destruct fn; [| destruct I]. destruct I as [I | I]; [discriminate I |].
    apply in_map_iff in I. destruct I as (f & I & _). apply (f_equal last_char) in I. rewrite last_append in I. discriminate I.
  - apply O. now apply declared_inside_spec.
  - apply in_map_iff in I. destruct I as (y & I & _). unfold list_name, repeated_suffix in I. apply (f_equal last_char) in I. rewrite last_append in I. discriminate I.
Qed.

Theorem members_no_clash : forall qml field_numbers full m,
  fields_distinct m -> Forall letter_first (g_fields m) -> capitals m -> names_free field_numbers m ->
  (forall f n, In f (g_fields m) -> In n taken -> ~ known_as f n) ->
  (forall f g, In f (g_fields m) -> In g (g_fields m) -> ~ in_the_way qml f g) ->
  no_clash (declarations qml field_numbers full m).
Proof.
  intros qml fn full m FD LF G NF T W. apply pairs_no_clash.
  refine (pairs_permutation _ _ (Permutation_sym (declarations_permuted qml fn full m)) _).
  pose proof LF as LF'. rewrite Forall_forall in LF'.
  apply pairs_app; [apply special_pairs | |].
  - apply pairs_app; [apply fixed_pairs | |].
    + apply pairs_app.
      * apply names_pairs. now apply type_names_distinct.
      * now apply fields_pairs.
      * intros d e D E. apply in_flat_map in E. destruct E as (f & F & E). apply distinct_apart. intros n a b A B.
        assert (I : In n (names_declared (type_members fn m))).
        { unfold names_declared. apply in_flat_map. exists d. split; [exact D |]. rewrite A. now left. }
        destruct (type_names_capital fn m n LF (proj2 G) I) as (c & t & -> & K).
        destruct (own_owned _ _ _ _ _ E B) as (k & O). destruct (owned_small _ _ _ _ _ (LF' f F) O) as (c' & t' & X & K').
        injection X as <- _. exact (capital_not_small _ K K').
    + intros d e D E. apply in_app_or in E. destruct E as [E | E]; [now apply (type_fixed fn m) |].
      apply in_flat_map in E. destruct E as (f & F & E). apply (fixed_own qml f); auto.
  - intros d e D _. apply distinct_apart. intros n a b A _. rewrite (special_none _ _ _ D) in A. discriminate A.
Qed.

(** * Clashes *)

Lemma clash_found : forall l d e, In d l -> In e l -> d <> e -> clashes d e -> ~ no_clash l.
Proof.
  intros l d e D E N C H. apply In_nth_error in D. apply In_nth_error in E. destruct D as [i D]. destruct E as [j E].
  apply (H i j d e); auto. intros ->. congruence.
Qed.

Lemma declared_own : forall qml field_numbers full m f d, In f (g_fields m) -> In d (own qml f) -> In d (declarations qml field_numbers full m).
Proof.
  intros qml fn full m f d F D. apply (Permutation_in _ (Permutation_sym (declarations_permuted qml fn full m))).
  rewrite !in_app_iff. right. right. right. apply in_flat_map. exists f. auto.
Qed.

Lemma declared_fixed : forall qml field_numbers full m d, In d fixed_members -> In d (declarations qml field_numbers full m).
Proof.
  intros qml fn full m d D. apply (Permutation_in _ (Permutation_sym (declarations_permuted qml fn full m))). rewrite !in_app_iff. auto.
Qed.

Lemma declared_type : forall qml field_numbers full m d, In d (type_members field_numbers m) -> In d (declarations qml field_numbers full m).
Proof.
  intros qml fn full m d D. apply (Permutation_in _ (Permutation_sym (declarations_permuted qml fn full m))). rewrite !in_app_iff. auto.
Qed.

(** Members that a field has. *)
Lemma has_getter : forall qml f, exists d, In d (own qml f) /\ declared d = Some (pname f, Some ([], true, false)).
Proof.
  intros qml f. unfold own, getter_declarations. destruct (pure_message (m_shape f)); eexists; (split; [left; reflexivity | reflexivity]).
Qed.
Lemma has_container : forall qml f, container f -> In (DInline (container_getter f) (Returns (variable_name f))) (own qml f).
Proof.
  intros qml f C. apply container_spec in C. unfold own, getter_declarations. rewrite C. rewrite !in_app_iff. left. right. now left.
Qed.
Lemma has_list : forall qml f, qml = true -> listed f -> In (DFunction (qml_list_getter f)) (own qml f).
Proof.
  intros qml f Q L. apply listed_spec in L. destruct L as (R & M & P). unfold own, getter_declarations. rewrite R, M, P, Q.
  rewrite !in_app_iff. left. right. right. now left.
Qed.
Lemma has_second : forall qml f, second_getter qml f -> exists d, In d (own qml f) /\ declared d = Some (pname f ++ "_p", Some ([], true, false)).
Proof.
  intros qml f S. apply second_spec in S. unfold own, private_getter_declarations, private_method_declarations. destruct S as [S | S]; rewrite S.
  - exists (DFunction (pointer_getter f)). split; [| reflexivity]. rewrite !in_app_iff. cbn. auto 8.
  - exists (DInline (plain_getter f) (Returns (variable_name f))). split; [| reflexivity]. rewrite !in_app_iff. cbn. auto 10.
Qed.
Lemma has_signal : forall qml f, In (DSignal (signal_name f)) (own qml f).
Proof. intros qml f. unfold own, signal_declarations. rewrite !in_app_iff. cbn. auto. Qed.
Lemma has_variable : forall qml f, In (DVariable (variable_name f)) (own qml f).
Proof. intros qml f. unfold own, variable_declarations. rewrite !in_app_iff. cbn. auto 10. Qed.

Lemma way_clash : forall qml field_numbers full m f g, In f (g_fields m) -> In g (g_fields m) -> in_the_way qml f g ->
  ~ no_clash (declarations qml field_numbers full m).
Proof.
  intros qml fn full m f g F G [(n & A & B & C) | [(A & S & B) | (A & Q & L & B)]]; apply known_as_spec in A, B.
  - apply (clash_found _ (DInline (container_getter f) (Returns (variable_name f))) (DSignal (signal_name g))).
    + now apply (declared_own _ _ _ _ f), has_container.
    + now apply (declared_own _ _ _ _ g), has_signal.
    + discriminate.
    + exists (pname f), (Some ([], false, false)), (Some ([], false, false)). split; [reflexivity |]. split.
      * cbn. unfold signal_name. rewrite <- A, B. reflexivity.
      * intros [X | (X & _)]; now apply X.
  - destruct (has_second qml f S) as (d & D & E).
    apply (clash_found _ d (DVariable (variable_name g))).
    + now apply (declared_own _ _ _ _ f).
    + now apply (declared_own _ _ _ _ g), has_variable.
    + intros ->. discriminate E.
    + exists "m_p", (Some ([], true, false)), None. rewrite E, <- A. split; [reflexivity |]. split; [| intro X; exact X].
      cbn. unfold variable_name. now rewrite <- B.
  - apply (clash_found _ (DFunction (qml_list_getter f)) (DVariable (variable_name g))).
    + now apply (declared_own _ _ _ _ f), has_list.
    + now apply (declared_own _ _ _ _ g), has_variable.
    + discriminate.
    + exists "m_l", (Some ([], false, false)), None. cbn. unfold variable_name. rewrite <- A, <- B.
      split; [reflexivity |]. split; [reflexivity | intro X; exact X].
Qed.

Lemma taken_clash : forall qml field_numbers full m f n, In f (g_fields m) -> In n taken -> known_as f n ->
  ~ no_clash (declarations qml field_numbers full m).
Proof.
  intros qml fn full m f n F T K. apply known_as_spec in K. destruct (has_getter qml f) as (d & D & E). rewrite <- K in E.
  assert (X : exists e a, In e fixed_members /\ declared e = Some (n, a) /\ (forall p, ~ overloads (Some ([], true, false)) a /\ a <> Some ([], true, p))
            \/ (exists x, e = DMoc x /\ In e fixed_members /\ declared e = Some (n, a) /\ a = Some ([], true, false))).
  { destruct T as [<- | [<- | [<- | [<- | [<- | []]]]]].
    - exists (DMoc (mkFunc "metaObject" (Some (Text "const QMetaObject *")) [] true false)), (Some ([], true, false)). right.
      eexists. split; [reflexivity |]. split; [cbn; auto |]. split; reflexivity.
    - exists (DFunction register_types), (Some ([], false, true)). left. split; [cbn; auto 30 |]. split; [reflexivity |]. intro p. split; [| discriminate].
      cbn. intros [X | (_ & _ & X)]; [now apply X | discriminate X].
    - exists (DMocStatic "staticMetaObject"), None. left. split; [cbn; auto 30 |]. split; [reflexivity |]. intro p. split; [intro X; exact X | discriminate].
    - exists (DStatic "propertyOrdering"), None. left. split; [cbn; auto 30 |]. split; [reflexivity |]. intro p. split; [intro X; exact X | discriminate].
    - exists (DStatic "protobufMetaObject"), None. left. split; [cbn; auto 30 |]. split; [reflexivity |]. intro p. split; [intro X; exact X | discriminate]. }
  destruct X as (e & a & [(I & J & O) | (x & -> & I & J & ->)]).
  - apply (clash_found _ d e).
    + now apply (declared_own _ _ _ _ f).
    + now apply declared_fixed.
    + intros ->. rewrite J in E. injection E as E. exact (proj2 (O false) E).
    + exists n, (Some ([], true, false)), a. split; [exact E |]. split; [exact J |]. exact (proj1 (O false)).
  - apply (clash_found _ d (DMoc x)).
    + now apply (declared_own _ _ _ _ f).
    + now apply declared_fixed.
    + intros ->. unfold own, getter_declarations in D. 
      assert (Y : forall y, In y (own qml f) -> y <> DMoc x).
      { intros y Y. rewrite <- tagged_own in Y. apply in_map_iff in Y. destruct Y as ([k z] & Z & Y). cbn in Z. subst z. intros ->.
        unfold tagged in Y. rewrite !in_app_iff in Y.
        destruct Y as [Y | [Y | [Y | [Y | [Y | [Y | [Y | Y]]]]]]];
          repeat match type of Y with
          | In _ (if ?b then _ else _) => destruct b
          | In _ (_ :: _) => destruct Y as [Y | Y]; [discriminate Y |]
          | In _ [] => destruct Y
          end. }
      exact (Y _ D eq_refl).
    + exists n, (Some ([], true, false)), (Some ([], true, false)). split; [exact E |]. split; [exact J |].
      intros [X | (X & _)]; now apply X.
Qed.

(** * Clashes of types *)

Definition plain_names (l : list declaration) : list string :=
  flat_map (fun d => match declared d with Some (n, None) => [n] | _ => [] end) l.

Lemma no_clash_tail : forall d l, no_clash (d :: l) -> no_clash l.
Proof. intros d l H i j x y N X Y. apply (H (S i) (S j)); auto. Qed.

Lemma no_clash_pairs : forall l, no_clash l -> ForallOrdPairs apart l.
Proof.
  induction l as [| d l IH]; intro H; [constructor |]. constructor.
  - apply Forall_forall. intros e I. apply In_nth_error in I. destruct I as [j J]. apply (H 0 (S j)); auto.
  - apply IH. exact (no_clash_tail _ _ H).
Qed.

Lemma pairs_plain : forall l, ForallOrdPairs apart l -> NoDup (plain_names l).
Proof.
  induction 1 as [| d l F _ IH]; [constructor |]. unfold plain_names. cbn [flat_map]. fold (plain_names l).
  destruct (declared d) as [[n [a |]] |] eqn:D; cbn [app]; try exact IH. constructor; [| exact IH].
  unfold plain_names. rewrite in_flat_map. intros (e & I & N). rewrite Forall_forall in F. apply (F e I).
  destruct (declared e) as [[n' [a |]] |] eqn:E; [destruct N | destruct N as [N | []] | destruct N]. exists n', None, None. rewrite D, E. subst n'. auto.
Qed.

Lemma plain_app : forall a b, plain_names (a ++ b) = (plain_names a ++ plain_names b)%list.
Proof. intros. unfold plain_names. apply flat_map_app. Qed.

Lemma type_plain : forall field_numbers m, plain_names (type_members field_numbers m) = names_declared (type_members field_numbers m).
Proof.
  intros fn m. unfold plain_names, names_declared. apply flat_map_same. intros d D.
  assert (X : exists n, declared d = Some (n, None)); [| destruct X as [n ->]; reflexivity].
  unfold type_members, enum_declarations, nested_aliases, map_aliases in D. rewrite !in_app_iff in D.
  destruct D as [[D | [D | D]] | [D | D]].
  - destruct fn; [| destruct D]. destruct D as [<- | D]; [eexists; reflexivity |]. unfold enumerator_declarations in D. apply in_map_iff in D.
    destruct D as (v & <- & _). eexists; reflexivity.
  - apply in_flat_map in D. destruct D as (e & _ & D). destruct D as [<- | D]; [eexists; reflexivity |]. unfold enumerator_declarations in D.
    apply in_map_iff in D. destruct D as (v & <- & _). eexists; reflexivity.
  - apply in_map_iff in D. destruct D as (e & <- & _). eexists; reflexivity.
  - apply in_flat_map in D. destruct D as (n & _ & D). destruct (goes_into _ _); [| destruct D]. destruct D as [<- | [<- | []]]; eexists; reflexivity.
  - apply in_flat_map in D. destruct D as (f & _ & D). destruct (is_map _); [| destruct D]. destruct D as [<- | []]; eexists; reflexivity.
Qed.

Lemma nodup_middle : forall (A : Type) (a b c : list A), NoDup (a ++ b ++ c) -> NoDup b /\ forall x, In x a -> In x b -> False.
Proof.
  intros A a b c N. split.
  - apply (nodup_prefix _ b (a ++ c)). refine (Permutation_NoDup _ N). rewrite Permutation_app_swap_app. reflexivity.
  - intros x I J. apply in_split in I. destruct I as (a1 & a2 & ->). rewrite <- app_assoc in N. cbn [app] in N. apply NoDup_remove_2 in N.
    apply N. rewrite !in_app_iff. auto.
Qed.

Lemma clash_types : forall qml field_numbers full m, no_clash (declarations qml field_numbers full m) ->
  NoDup (names_declared (type_members field_numbers m)) /\ ~ In "QPrivateSignal" (names_declared (type_members field_numbers m)).
Proof.
  intros qml fn full m H. apply no_clash_pairs in H.
  apply (pairs_permutation _ _ (declarations_permuted qml fn full m)) in H. apply pairs_plain in H.
  rewrite !plain_app, type_plain in H. rewrite app_assoc in H. apply nodup_middle in H. destruct H as [N D]. split; [exact N |].
  intro I. apply (D _) in I; [exact I |]. apply in_or_app. right. cbn. auto 10.
Qed.

Lemma no_clash_names : forall qml field_numbers full m, capitals m -> no_clash (declarations qml field_numbers full m) -> names_free field_numbers m.
Proof.
  intros qml fn full m [_ C] H. apply clash_types in H. destruct H as [N Q].
  apply (Permutation_NoDup (type_names_permuted fn m C)) in N.
  split; [| split].
  - intros x W D. apply with_list_spec in W. apply declared_inside_spec in D. rewrite app_assoc in N.
    destruct (nodup_middle _ (number_names fn m ++ inner_names m) (map list_name (listed_names m)) [])%list as [_ X].
    { rewrite app_nil_r. exact N. }
    apply (X (x ++ "Repeated")); [apply in_or_app; now right |]. apply in_map_iff. exists x. auto.
  - intro D. apply Q. apply declared_inside_spec in D. apply (Permutation_in _ (Permutation_sym (type_names_permuted fn m C))).
    rewrite !in_app_iff. auto.
  - intros ->. destruct (nodup_middle _ _ _ _ N) as [_ X]. split.
    + intro D. apply declared_inside_spec in D. exact (X _ (or_introl eq_refl) D).
    + intros f n F K D. apply declared_inside_spec in D. apply (X (first_capital n ++ "ProtoFieldNumber")); [| exact D].
      right. apply in_map_iff. exists f. split; [| exact F]. rewrite first_capital_eq. apply known_as_spec in K. now rewrite K.
Qed.

(** Names that become the same when they are written with a capital letter. *)
Lemma nodup_map_inj : forall (A B : Type) (h : A -> B) l x y, NoDup (map h l) -> In x l -> In y l -> h x = h y -> x = y.
Proof.
  intros A B h. induction l as [| z l IH]; intros x y N X Y E; [destruct X |]. cbn in N. apply NoDup_cons_iff in N. destruct N as [Z N].
  destruct X as [-> | X], Y as [-> | Y]; auto.
  - exfalso. apply Z. rewrite E. now apply in_map.
  - exfalso. apply Z. rewrite <- E. now apply in_map.
Qed.

Lemma same_capital : forall qml field_numbers full m x y, declared_inside m x -> declared_inside m y -> x <> y ->
  first_capital x = first_capital y -> ~ no_clash (declarations qml field_numbers full m).
Proof.
  intros qml fn full m x y X Y N E H. apply clash_types in H. destruct H as [D _].
  apply (Permutation_NoDup (type_names_general fn m)) in D. apply nodup_middle in D. destruct D as [D _].
  apply declared_inside_spec in X, Y. rewrite !first_capital_eq in E. apply N. exact (nodup_map_inj _ _ _ _ x y D X Y E).
Qed.

(** A name that a list has. *)
Lemma list_clash : forall qml field_numbers full m x y, with_list m x -> declared_inside m y ->
  first_capital y = first_capital x ++ "Repeated" -> ~ no_clash (declarations qml field_numbers full m).
Proof.
  intros qml fn full m x y X Y E H. apply clash_types in H. destruct H as [D _].
  apply (Permutation_NoDup (type_names_general fn m)) in D. rewrite app_assoc in D.
  destruct (nodup_middle _ (number_names fn m ++ map upperCaseName (inner_names m)) (map list_name (map upperCaseName (listed_names m))) [])%list as [_ Z].
  { rewrite app_nil_r. exact D. }
  apply with_list_spec in X. apply declared_inside_spec in Y. rewrite !first_capital_eq in E.
  apply (Z (upperCaseName y)); [apply in_or_app; right; now apply in_map |]. rewrite E. apply in_map_iff. exists (upperCaseName x).
  split; [reflexivity | now apply in_map].
Qed.

Lemma all_names : forall qml field_numbers full m,
  Permutation (names_declared (declarations qml field_numbers full m))
    (names_declared fixed_members ++ names_declared (type_members field_numbers m) ++ names_declared (flat_map (own qml) (g_fields m))).
Proof.
  intros qml fn full m. transitivity (names_declared (special_declarations full m ++ fixed_members ++ type_members fn m ++ flat_map (own qml) (g_fields m))).
  - unfold names_declared. apply Permutation_flat_map. apply declarations_permuted.
  - rewrite !names_declared_app. assert (E : names_declared (special_declarations full m) = []); [| rewrite E; reflexivity].
    assert (H := special_none full m). induction (special_declarations full m) as [| d l IH]; [reflexivity |].
    unfold names_declared. cbn [flat_map]. rewrite (H d) by now left. apply IH. intros x I. apply H. now right.
Qed.

(** * The name of the class *)

Lemma class_name_apart : forall qml field_numbers full m, Forall letter_first (g_fields m) -> capitals m ->
  (exists c s, g_name m = String c s /\ In c capital_letters) ->
  ~ declared_inside m (g_name m) -> (forall x, with_list m x -> x ++ "Repeated" <> g_name m) ->
  g_name m <> "QPrivateSignal" ->
  (field_numbers = true -> g_name m <> "QtProtobufFieldEnum"
     /\ forall f n, In f (g_fields m) -> known_as f n -> first_capital n ++ "ProtoFieldNumber" <> g_name m) ->
  ~ In (first_capital (g_name m)) (names_declared (declarations qml field_numbers full m)).
Proof.
  intros qml fn full m LF [N C] CN D L Q Nb I. rewrite first_capital_eq, (upper_capital _ CN) in I.
  destruct CN as (c & s & CN & K).
  apply (Permutation_in _ (all_names qml fn full m)) in I. rewrite !in_app_iff in I. destruct I as [I | [I | I]].
  - rewrite CN in *. cbn in I.
    repeat (destruct I as [I | I]; [injection I as <- <-; try (apply Q; reflexivity); cbn in K; repeat (destruct K as [K | K]; [discriminate K |]); destruct K |]). destruct I.
  - apply (Permutation_in _ (type_names_permuted fn m C)) in I. rewrite !in_app_iff in I. destruct I as [I | [I | I]].
    + unfold number_names in I. destruct fn; [| destruct I]. destruct (Nb eq_refl) as [A B]. destruct I as [I | I]; [now apply A |].
      apply in_map_iff in I. destruct I as (f & E & F). apply (B f (pname f) F (known_pname f)). now rewrite first_capital_eq.
    + apply D. now apply declared_inside_spec.
    + apply in_map_iff in I. destruct I as (x & E & I). apply (L x); [now apply with_list_spec | exact E].
  - rewrite names_flat in I. apply in_flat_map in I. destruct I as (f & F & I). unfold names_declared in I. apply in_flat_map in I.
    destruct I as (d & D' & I). destruct (declared d) as [[n a] |] eqn:E; [| destruct I]. destruct I as [-> | []].
    destruct (own_owned _ _ _ _ _ D' E) as (k & O). rewrite Forall_forall in LF.
    destruct (owned_small _ _ _ _ _ (LF f F) O) as (c' & t & X & K'). rewrite CN in X. injection X as <- _. exact (capital_not_small _ K K').
Qed.

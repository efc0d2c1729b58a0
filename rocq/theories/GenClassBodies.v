(** Proofs about what is inside of generated classes: definitions, properties, identifiers, parameters, meta types. *)

From Coq Require Import String Ascii ZArith List Bool Arith Lia Permutation.
From Verif Require Import GenModel GenSpec GenStrings GenFields GenTypesModel GenClassModel GenClassSpec GenClassProofs GenClassMembers.
Import ListNotations.
Open Scope string_scope.

(** * Definitions *)

Lemma wanted_app : forall a b, flat_map wanted (a ++ b) = (flat_map wanted a ++ flat_map wanted b)%list.
Proof. intros. apply flat_map_app. Qed.

Lemma flat_flat : forall (A B C : Type) (h : B -> list C) (k : A -> list B) l, flat_map h (flat_map k l) = flat_map (fun x => flat_map h (k x)) l.
Proof. intros A B C h k. induction l as [| x l IH]; [reflexivity |]. cbn [flat_map]. now rewrite flat_map_app, IH. Qed.

Lemma flat_map_permuted : forall (A B : Type) (h k : A -> list B) l, (forall x, In x l -> Permutation (h x) (k x)) -> Permutation (flat_map h l) (flat_map k l).
Proof.
  intros A B h k. induction l as [| x l IH]; intro H; [constructor |]. cbn [flat_map]. apply Permutation_app.
  - apply H. now left.
  - apply IH. intros y I. apply H. now right.
Qed.

Lemma wanted_types : forall field_numbers m, flat_map wanted (type_members field_numbers m) = [].
Proof.
  intros fn m. assert (H : forall d, In d (type_members fn m) -> wanted d = []).
  { intros d D. unfold type_members, enum_declarations, nested_aliases, map_aliases in D. rewrite !in_app_iff in D.
    destruct D as [[D | [D | D]] | [D | D]].
    - destruct fn; [| destruct D]. destruct D as [<- | D]; [reflexivity |]. unfold enumerator_declarations in D. apply in_map_iff in D.
      destruct D as (v & <- & _). reflexivity.
    - apply in_flat_map in D. destruct D as (e & _ & D). destruct D as [<- | D]; [reflexivity |]. unfold enumerator_declarations in D.
      apply in_map_iff in D. destruct D as (v & <- & _). reflexivity.
    - apply in_map_iff in D. destruct D as (e & <- & _). reflexivity.
    - apply in_flat_map in D. destruct D as (n & _ & D). destruct (goes_into _ _); [| destruct D]. destruct D as [<- | [<- | []]]; reflexivity.
    - apply in_flat_map in D. destruct D as (f & _ & D). destruct (is_map _); [| destruct D]. destruct D as [<- | []]; reflexivity. }
  induction (type_members fn m) as [| d l IH]; [reflexivity |]. cbn [flat_map]. rewrite (H d) by now left. apply IH. intros x I. apply H. now right.
Qed.

Lemma wanted_own : forall qml f, ~ qt_list qml f ->
  Permutation (flat_map wanted (own qml f)) (map given (getter_definitions qml f) ++ map given (setter_definitions f)).
Proof.
  intros qml f Q. unfold own, getter_declarations, setter_declarations, signal_declarations, private_getter_declarations,
    private_setter_declarations, private_method_declarations, variable_declarations, getter_definitions, setter_definitions, qml_alias.
  destruct (m_shape f) as [[t | m | e | q] | [t | m | e | q] | k v] eqn:S; try destruct t; destruct qml;
    cbn [pure_message is_repeated message_type is_map text_type element_of andb orb negb app flat_map wanted map given]; try reflexivity.
  - (* a message *) set (a := EFunction (getter f)). set (b := EFunction (setter f)). set (c := EFunction (pointer_getter f)). set (d := EFunction (pointer_setter f)).
    transitivity [a; c; d; b].
    + apply perm_skip. transitivity [c; b; d]; [apply perm_swap | apply perm_skip, perm_swap].
    + apply perm_swap.
  - set (a := EFunction (getter f)). set (b := EFunction (setter f)). set (c := EFunction (pointer_getter f)). set (d := EFunction (pointer_setter f)).
    transitivity [a; c; d; b].
    + apply perm_skip. transitivity [c; b; d]; [apply perm_swap | apply perm_skip, perm_swap].
    + apply perm_swap.
  - exfalso. apply Q. split; [reflexivity |]. eexists. exact S.
Qed.

Theorem definitions_match : forall qml field_numbers full m,
  (forall f, In f (g_fields m) -> ~ qt_list qml f) ->
  Permutation (flat_map wanted (declarations qml field_numbers full m)) (map given (definitions qml full m)).
Proof.
  intros qml fn full m Q.
  rewrite (Permutation_flat_map wanted (declarations_permuted qml fn full m)). rewrite !wanted_app, wanted_types.
  rewrite flat_flat. rewrite (flat_map_permuted _ _ _ (fun f => map given (getter_definitions qml f) ++ map given (setter_definitions f))%list)
    by (intros f F; apply wanted_own, Q, F).
  rewrite <- flat_map_both. unfold definitions. rewrite !map_app, !map_flat. 
  unfold special_declarations, special_definitions. rewrite flat_map_concat_map, map_map. cbn [wanted]. rewrite <- flat_map_concat_map, flat_one, map_map. cbn [given].
  set (G := flat_map (fun f => map given (getter_definitions qml f)) (g_fields m)). set (T := flat_map (fun f => map given (setter_definitions f)) (g_fields m)).
  rewrite !map_app. cbn [map flat_map wanted fixed_members macros app given].
  set (C := map (fun s => ESpecial s) (constructors_of full m)).
  change (map ESpecial (constructors_of full m)) with C.
  rewrite <- !app_assoc. cbn [app].
  set (R := [ESpecial CopyConstructor; ESpecial CopyAssignment; ESpecial MoveConstructor; ESpecial MoveAssignment; ESpecial Equal; ESpecial NotEqual]).
  set (U := EStatic "propertyOrdering"). set (V := EStatic "protobufMetaObject"). set (X := EFunction register_types). set (Z := ESpecial Destructor).
  transitivity ([Z] ++ C ++ R ++ [U; V; X] ++ G ++ T)%list.
  - rewrite <- (Permutation_app_swap_app C [Z]). reflexivity.
  - transitivity ([Z] ++ [U; V; X] ++ C ++ R ++ G ++ T)%list.
    + apply Permutation_app_head. rewrite (app_assoc C R). rewrite Permutation_app_swap_app. rewrite <- app_assoc. reflexivity.
    + cbn [app]. apply perm_skip. apply perm_swap.
Qed.

(** * Bodies *)

Lemma defined_getter : forall qml full m f d, In f (g_fields m) -> In d (getter_definitions qml f) -> In d (definitions qml full m).
Proof.
  intros qml full m f d F D. unfold definitions. rewrite !in_app_iff. right. right. left. apply in_flat_map. exists f. auto.
Qed.
Lemma defined_setter : forall qml full m f d, In f (g_fields m) -> In d (setter_definitions f) -> In d (definitions qml full m).
Proof.
  intros qml full m f d F D. unfold definitions. rewrite !in_app_iff. right. right. right. apply in_flat_map. exists f. auto.
Qed.

Definition reachable_body (qml field_numbers : bool) (full : string) (m : message) : func -> body -> Prop :=
  has_body (declarations qml field_numbers full m) (definitions qml full m).

Lemma body_getter : forall qml field_numbers full m f, In f (g_fields m) ->
  reachable_body qml field_numbers full m (getter f) (if pure_message (m_shape f) then ReturnsObject (variable_name f) else Returns (variable_name f)).
Proof.
  intros qml fn full m f F. unfold reachable_body, has_body. destruct (pure_message (m_shape f)) eqn:P.
  - right. split.
    + apply (declared_own _ _ _ _ f); [exact F |]. unfold own, getter_declarations. rewrite P. now left.
    + apply (defined_getter _ _ _ f); [exact F |]. unfold getter_definitions. rewrite P. cbn. auto.
  - left. apply (declared_own _ _ _ _ f); [exact F |]. unfold own, getter_declarations. rewrite P. now left.
Qed.

Lemma body_container : forall qml field_numbers full m f, In f (g_fields m) -> container f ->
  reachable_body qml field_numbers full m (container_getter f) (Returns (variable_name f)).
Proof. intros qml fn full m f F C. left. apply (declared_own _ _ _ _ f); [exact F |]. now apply has_container. Qed.

Lemma body_setter : forall qml field_numbers full m f, In f (g_fields m) ->
  reachable_body qml field_numbers full m (setter f)
    (if pure_message (m_shape f) then StoresObject (variable_name f) (signal_name f) else Stores (variable_name f) (signal_name f)).
Proof.
  intros qml fn full m f F. unfold reachable_body, has_body.
  destruct (message_type (m_shape f) || text_type (m_shape f)) eqn:P.
  - right. split.
    + apply (declared_own _ _ _ _ f); [exact F |]. unfold own, setter_declarations. rewrite P. rewrite !in_app_iff. right. left. now left.
    + apply (defined_setter _ _ _ f); [exact F |]. unfold setter_definitions.
      destruct (message_type (m_shape f)) eqn:M; [destruct (pure_message (m_shape f)); cbn; auto |].
      cbn in P. rewrite P. destruct (pure_message (m_shape f)) eqn:X; [| now left].
      destruct (m_shape f) as [[| | |] | |]; discriminate.
  - left. apply (declared_own _ _ _ _ f); [exact F |]. unfold own, setter_declarations. rewrite P. rewrite !in_app_iff.
    destruct (pure_message (m_shape f)) eqn:X; [| right; left; now left].
    destruct (m_shape f) as [[| | |] | |]; discriminate.
Qed.

Lemma body_pointer : forall qml field_numbers full m f, In f (g_fields m) -> pure_message (m_shape f) = true ->
  reachable_body qml field_numbers full m (pointer_getter f) (ReturnsPointer (variable_name f))
  /\ reachable_body qml field_numbers full m (pointer_setter f) (StoresPointer (variable_name f) (signal_name f)).
Proof.
  intros qml fn full m f F P. split; right; split.
  - apply (declared_own _ _ _ _ f); [exact F |]. unfold own, private_getter_declarations. rewrite P. rewrite !in_app_iff. cbn. auto 8.
  - apply (defined_getter _ _ _ f); [exact F |]. unfold getter_definitions. rewrite P. now left.
  - apply (declared_own _ _ _ _ f); [exact F |]. unfold own, private_setter_declarations. rewrite P. rewrite !in_app_iff. cbn. auto 10.
  - apply (defined_setter _ _ _ f); [exact F |]. unfold setter_definitions.
    assert (M : message_type (m_shape f) = true) by (destruct (m_shape f) as [[| | |] | |]; try discriminate P; reflexivity).
    rewrite M, P. now left.
Qed.

Lemma body_plain : forall qml field_numbers full m f, In f (g_fields m) -> qml_alias qml (m_shape f) = true ->
  reachable_body qml field_numbers full m (plain_getter f) (Returns (variable_name f))
  /\ reachable_body qml field_numbers full m (plain_setter f) (Stores (variable_name f) (signal_name f)).
Proof.
  intros qml fn full m f F P. split; left; (apply (declared_own _ _ _ _ f); [exact F |]); unfold own, private_method_declarations; rewrite P;
    rewrite !in_app_iff; cbn; auto 15.
Qed.

Lemma body_list : forall field_numbers full m f n, In f (g_fields m) -> m_shape f = Many (Mess n) ->
  reachable_body true field_numbers full m (qml_list_getter f) (ReturnsQmlList (variable_name f)).
Proof.
  intros fn full m f n F S. right. split.
  - apply (declared_own _ _ _ _ f); [exact F |]. apply has_list; [reflexivity |]. exists (Mess n). split; [exact S |]. left. eexists; reflexivity.
  - apply (defined_getter _ _ _ f); [exact F |]. unfold getter_definitions. rewrite S. now left.
Qed.

(** * Properties *)

Section Serves.
Context (qml field_numbers : bool) (full : string) (m : message) (f : mfield) (F : In f (g_fields m)).
Let ds := declarations qml field_numbers full m.
Let fs := definitions qml full m.

Lemma serves_field : forall q g b w b',
  has_body ds fs g b -> fn_name g = q_read q -> fn_params g = [] -> fn_static g = false -> fn_result g = Some (q_type q) -> reads b (variable_name f) ->
  q_write q = Some (fn_name w) -> has_body ds fs w b' -> fn_params w = [q_type q] -> fn_const w = false -> fn_static w = false -> fn_result w = None ->
  writes b' (variable_name f) (signal_name f) -> q_notify q = signal_name f -> serves ds fs q (variable_name f) (signal_name f).
Proof.
  intros q g b w b' B1 B2 B3 B4 B5 B6 W1 W2 W3 W4 W5 W6 W7 Nt. split; [| split; [| split; [exact Nt | split]]].
  - exists g, b. auto 8.
  - intros x X. rewrite W1 in X. injection X as <-. exists w, b'. auto 10.
  - apply (declared_own _ _ _ _ f); [exact F | apply has_signal].
  - apply (declared_own _ _ _ _ f); [exact F | apply has_variable].
Qed.

Lemma serves_line : serves ds fs (property_line qml f) (variable_name f) (signal_name f).
Proof.
  unfold property_line. destruct (pure_message (m_shape f)) eqn:P; [| destruct (qml_alias qml (m_shape f)) eqn:A].
  - destruct (body_pointer qml field_numbers full m f F P) as [G S].
    refine (serves_field _ _ _ _ _ G _ _ _ _ _ _ S _ _ _ _ _ _); try reflexivity; cbn; auto.
  - pose proof (body_getter qml field_numbers full m f F) as G. pose proof (body_setter qml field_numbers full m f F) as S. rewrite P in G, S.
    refine (serves_field _ _ _ _ _ G _ _ _ _ _ _ S _ _ _ _ _ _); try reflexivity; cbn; auto.
  - pose proof (body_getter qml field_numbers full m f F) as G. pose proof (body_setter qml field_numbers full m f F) as S. rewrite P in G, S.
    destruct (_ && _);
      (refine (serves_field _ _ _ _ _ G _ _ _ _ _ _ S _ _ _ _ _ _); try reflexivity; cbn; auto).
Qed.

Lemma serves_extra : forall q, ~ qt_list qml f -> In q (extra_property_line qml f) -> serves ds fs q (variable_name f) (signal_name f).
Proof.
  intros q Q I. unfold extra_property_line in I. destruct (_ && _) eqn:C.
  - destruct I as [<- | []]. apply andb_prop in C. destruct C as [C E]. apply andb_prop in C. destruct C as [C M]. apply andb_prop in C. destruct C as [T R].
    destruct (m_shape f) as [[t | n | e | q] | [t | n | e | q] | k v] eqn:S; try discriminate.
    + split; [| split; [discriminate | split; [reflexivity | split]]].
      * exists (qml_list_getter f), (ReturnsQmlList (variable_name f)). split; [| cbn; rewrite S; auto 10].
        subst ds fs. clear Q. destruct qml; [| discriminate E]. exact (body_list field_numbers full m f n F S).
      * apply (declared_own _ _ _ _ f); [exact F | apply has_signal].
      * apply (declared_own _ _ _ _ f); [exact F | apply has_variable].
    + exfalso. apply Q. split; [exact E |]. eexists. exact S.
  - destruct (qml_alias qml (m_shape f)) eqn:A; [| destruct I]. destruct I as [<- | []].
    destruct (body_plain qml field_numbers full m f F A) as [G S].
    refine (serves_field _ _ _ _ _ G _ _ _ _ _ _ S _ _ _ _ _ _); try reflexivity; cbn; auto.
Qed.
End Serves.

(** * Identifiers *)

Lemma name_char_upper : forall c, name_char c -> name_char (toupper c).
Proof.
  intros c [I | [I | [I | ->]]].
  - right. left. cbn in I. repeat (destruct I as [<- | I]; [vm_compute; auto 30 |]). destruct I.
  - right. left. cbn in I. repeat (destruct I as [<- | I]; [vm_compute; auto 30 |]). destruct I.
  - right. right. left. cbn in I. repeat (destruct I as [<- | I]; [vm_compute; auto 30 |]). destruct I.
  - right. right. right. reflexivity.
Qed.
Lemma name_char_lower : forall c, name_char c -> name_char (tolower_char c).
Proof.
  intros c [I | [I | [I | ->]]].
  - left. cbn in I. repeat (destruct I as [<- | I]; [vm_compute; auto 30 |]). destruct I.
  - left. cbn in I. repeat (destruct I as [<- | I]; [vm_compute; auto 30 |]). destruct I.
  - right. right. left. cbn in I. repeat (destruct I as [<- | I]; [vm_compute; auto 30 |]). destruct I.
  - right. right. right. reflexivity.
Qed.

Definition all_name_chars (s : string) : Prop := Forall name_char (list_ascii_of_string s).

Lemma chars_camel : forall s up, all_name_chars s -> all_name_chars (camel up s).
Proof.
  induction s as [| c s IH]; intros up H; [constructor |]. unfold all_name_chars in *. cbn in H. inversion H as [| ? ? A B]; subst.
  cbn [camel]. destruct (Ascii.eqb c underscore); [now apply IH |]. cbn. constructor; [destruct up; [now apply name_char_upper | exact A] | now apply IH].
Qed.
Lemma chars_lower : forall s, all_name_chars s -> all_name_chars (lowerCaseName s).
Proof. intros [| c s] H; [exact H |]. unfold all_name_chars in *. cbn in *. inversion H as [| ? ? A B]; subst. constructor; [now apply name_char_lower | exact B]. Qed.
Lemma chars_upper : forall s, all_name_chars s -> all_name_chars (upperCaseName s).
Proof. intros [| c s] H; [exact H |]. unfold all_name_chars in *. cbn in *. inversion H as [| ? ? A B]; subst. constructor; [now apply name_char_upper | exact B]. Qed.
Lemma chars_app : forall a b, all_name_chars a -> all_name_chars b -> all_name_chars (a ++ b).
Proof. intros a b A B. unfold all_name_chars. rewrite ascii_app. apply Forall_app. auto. Qed.

Ltac literal_chars := unfold all_name_chars; cbn [list_ascii_of_string];
  repeat (constructor; [unfold name_char; cbn; auto 40 |]); constructor.

Lemma chars_proto : all_name_chars "_proto". Proof. literal_chars. Qed.
Lemma chars_changed : all_name_chars "Changed". Proof. literal_chars. Qed.
Lemma chars_p : all_name_chars "_p". Proof. literal_chars. Qed.
Lemma chars_l : all_name_chars "_l". Proof. literal_chars. Qed.
Lemma chars_m : all_name_chars "m_". Proof. literal_chars. Qed.
Lemma chars_set : all_name_chars "set". Proof. literal_chars. Qed.
Lemma chars_repeated : all_name_chars "Repeated". Proof. literal_chars. Qed.
Lemma chars_number : all_name_chars "ProtoFieldNumber". Proof. literal_chars. Qed.

Lemma chars_pname : forall f, identifier (m_name f) -> all_name_chars (pname f).
Proof.
  intros f (c & s & _ & _ & H). unfold pname, cpp_name, camelcase_name.
  assert (X : all_name_chars (lowerCaseName (lowerCaseName (camel false (m_name f))))) by now apply chars_lower, chars_lower, chars_camel.
  destruct (qualified_cases (lowerCaseName (lowerCaseName (camel false (m_name f))))) as [-> | ->]; [exact X |]. apply chars_app; [exact X | apply chars_proto].
Qed.

Lemma chars_owned : forall qml f k n a, identifier (m_name f) -> owned qml f k n a -> all_name_chars n.
Proof.
  intros qml f k n a I O. pose proof (chars_pname f I) as P.
  destruct O; unfold setter_name, signal_name, variable_name; repeat apply chars_app;
    try exact P; try (apply chars_upper; exact P); try apply chars_l; try apply chars_p; try apply chars_set; try apply chars_changed; try apply chars_m.
Qed.

Lemma letters_not_digits : forall c, In c small_letters \/ In c capital_letters -> ~ In c digits.
Proof.
  intros c [I | I] D; cbn in D;
    repeat (destruct D as [<- | D]; [cbn in I; repeat (destruct I as [I | I]; [discriminate I |]); destruct I |]); destruct D.
Qed.

Lemma starts_identifier : forall n, all_name_chars n -> starts n small_letters \/ starts n capital_letters -> identifier n.
Proof.
  intros n A [(c & t & -> & I) | (c & t & -> & I)]; exists c, t; (split; [reflexivity | split; [apply letters_not_digits; auto | exact A]]).
Qed.

Lemma fixed_identifiers : Forall identifier (names_declared fixed_members).
Proof.
  unfold names_declared. cbn [fixed_members macros app flat_map declared fn_name register_types].
  repeat (constructor; [apply starts_identifier; [literal_chars |];
    first [left; eexists _, _; split; [reflexivity |]; cbn; solve [auto 30] | right; eexists _, _; split; [reflexivity |]; cbn; solve [auto 30]] |]).
  constructor.
Qed.

Lemma all_identifiers : forall qml field_numbers full m,
  field_names_ok m -> Forall letter_first (g_fields m) -> capitals m -> Forall identifier (names_inside m) ->
  Forall identifier (names_declared (declarations qml field_numbers full m)).
Proof.
  intros qml fn full m FO LF [_ C] NI. apply Forall_forall. intros x I.
  pose proof LF as LF'. rewrite Forall_forall in LF'. unfold field_names_ok in FO. rewrite Forall_forall in FO.
  apply (Permutation_in _ (all_names qml fn full m)) in I. rewrite !in_app_iff in I. destruct I as [I | [I | I]].
  - pose proof fixed_identifiers as X. rewrite Forall_forall in X. now apply X.
  - apply starts_identifier; [| right; exact (type_names_capital fn m x LF C I)].
    rewrite Forall_forall in NI.
    assert (K : forall y, In y (inner_names m) -> all_name_chars y).
    { intros y Y. destruct (NI y (inner_inside _ _ Y)) as (c & s & _ & _ & H). exact H. }
    apply (Permutation_in _ (type_names_permuted fn m C)) in I. rewrite !in_app_iff in I. destruct I as [I | [I | I]].
    + unfold number_names in I. destruct fn; [| destruct I]. destruct I as [<- | I]; [literal_chars |].
      apply in_map_iff in I. destruct I as (f & <- & F). apply chars_app; [apply chars_upper, chars_pname, FO, F | apply chars_number].
    + now apply K.
    + apply in_map_iff in I. destruct I as (y & <- & I). apply chars_app; [apply K, listed_inner, I | apply chars_repeated].
  - rewrite names_flat in I. apply in_flat_map in I. destruct I as (f & F & I). unfold names_declared in I. apply in_flat_map in I.
    destruct I as (d & D & I). destruct (declared d) as [[n a] |] eqn:E; [| destruct I]. destruct I as [-> | []].
    destruct (own_owned _ _ _ _ _ D E) as (k & O). apply starts_identifier; [exact (chars_owned _ _ _ _ _ (FO f F) O) |].
    left. exact (owned_small _ _ _ _ _ (LF' f F) O).
Qed.

Lemma getter_name_declared : forall qml field_numbers full m f, In f (g_fields m) -> In (pname f) (names_declared (declarations qml field_numbers full m)).
Proof.
  intros qml fn full m f F. destruct (has_getter qml f) as (d & D & E). unfold names_declared. apply in_flat_map. exists d.
  split; [now apply (declared_own _ _ _ _ f) |]. rewrite E. now left.
Qed.

Lemma key_char : forall s, all_name_chars s -> forall c t, key s = String c t -> In c small_letters \/ In c digits.
Proof.
  induction s as [| x s IH]; intros H c t K; [discriminate K |]. unfold all_name_chars in H. cbn in H. inversion H as [| ? ? A B]; subst.
  cbn [key] in K. destruct (Ascii.eqb_spec x "_") as [X | X]; [exact (IH B c t K) |]. injection K as <- _.
  destruct A as [I | [I | [I | I]]]; [| | | contradiction].
  - left. cbn in I. repeat (destruct I as [<- | I]; [vm_compute; auto 30 |]). destruct I.
  - left. cbn in I. repeat (destruct I as [<- | I]; [vm_compute; auto 30 |]). destruct I.
  - right. cbn in I. repeat (destruct I as [<- | I]; [vm_compute; auto 30 |]). destruct I.
Qed.

Lemma no_letter_no_identifier : forall f, identifier (m_name f) -> ~ letter_first f -> ~ identifier (pname f).
Proof.
  intros f I L (c & s & E & D & _). apply L.
  destruct I as (c0 & s0 & _ & _ & A).
  assert (K : key (pname f) = key (m_name f) \/ key (pname f) = key (m_name f) ++ "proto" /\ In (plain_name (as_field f)) ["id"; "property"; "import"]).
  { unfold pname, cpp_name. change (lowerCaseName (camelcase_name (m_name f))) with (plain_name (as_field f)).
    pose proof (plain_key (as_field f)) as X. cbn [as_field f_name] in X. unfold qualifiedName. destruct (existsb _ _) eqn:Y; [right | left; exact X].
    apply existsb_exists in Y. destruct Y as (x & J & Y). apply String.eqb_eq in Y. split; [| rewrite Y; exact J].
    rewrite <- X, Y. destruct J as [<- | [<- | [<- | []]]]; reflexivity. }
  destruct K as [K | [_ K]].
  - rewrite E in K. cbn [key] in K. destruct (Ascii.eqb_spec c "_") as [X | X].
    + exfalso. destruct (pname_cases f) as [G | G]; rewrite E in G.
      * apply free_cons in G. now apply (proj1 G).
      * subst c. destruct G as [G | [G | [G | []]]]; discriminate G.
    + destruct (key_char _ A _ _ (eq_sym K)) as [J | J]; [exists (to_small c), (key s); auto |].
      exfalso. apply D. pose proof (lower_pname f) as Lo. rewrite E in Lo. cbn in Lo. injection Lo as Lo. rewrite to_small_eq, Lo in J. exact J.
  - pose proof (plain_key (as_field f)) as X. cbn [as_field f_name] in X. unfold letter_first. rewrite <- X.
    destruct K as [<- | [<- | [<- | []]]]; eexists _, _; (split; [reflexivity | vm_compute; auto 30]).
Qed.

(** * Keywords *)

Lemma keyword_small : forall k, In k keywords -> starts k small_letters.
Proof.
  assert (X : Forall (fun k => starts k small_letters) keywords).
  { unfold keywords. repeat (constructor; [eexists _, _; split; [reflexivity | cbn; solve [auto 30]] |]). constructor. }
  rewrite Forall_forall in X. exact X.
Qed.

Definition tail_ok (k : string) : bool :=
  match cut k with Some (_, t) => negb (String.eqb t "l") && negb (String.eqb t "p") | None => true end
  && match last_char k with Some c => negb (Ascii.eqb c "d") || negb (String.eqb (substring (String.length k - 7) 7 k) "Changed") | None => true end
  && negb (String.prefix "set" k) && negb (String.prefix "m_" k).

Lemma keywords_tails : forall k, In k keywords -> tail_ok k = true.
Proof.
  assert (X : forallb tail_ok keywords = true) by (vm_compute; reflexivity). rewrite forallb_forall in X. exact X.
Qed.

Lemma substring_tail : forall a b, substring (String.length (a ++ b) - String.length b) (String.length b) (a ++ b) = b.
Proof.
  intros a b. rewrite length_app_s. replace (String.length a + String.length b - String.length b) with (String.length a) by lia.
  induction a as [| c a IH]; cbn [append String.length substring]; [| exact IH].
  induction b as [| c b IH]; cbn; [reflexivity | now rewrite IH].
Qed.

Lemma owned_keyword : forall qml f k n a, owned qml f k n a -> In n keywords -> n = pname f.
Proof.
  intros qml f k n a O I. destruct O; try reflexivity; exfalso; apply keywords_tails in I; unfold tail_ok in I; rewrite !andb_true_iff in I;
    destruct I as [[[I1 I2] I3] I4].
  - rewrite cut_l in I1. discriminate I1.
  - unfold setter_name in I3. rewrite prefix_app in I3. discriminate I3.
  - rewrite cut_p in I1. discriminate I1.
  - rewrite cut_p in I1. discriminate I1.
  - unfold signal_name in I2. rewrite last_append in I2. cbn [last_char Ascii.eqb negb orb] in I2.
    pose proof (substring_tail (pname f) "Changed") as T. change (String.length "Changed") with 7 in T. rewrite T in I2. vm_compute in I2. discriminate I2.
  - unfold variable_name in I4. rewrite prefix_app in I4. discriminate I4.
Qed.

Lemma keyword_of_field : forall qml field_numbers full m x, Forall letter_first (g_fields m) -> capitals m ->
  In x (names_declared (declarations qml field_numbers full m)) -> In x keywords -> exists f, In f (g_fields m) /\ known_as f x.
Proof.
  intros qml fn full m x LF [_ C] I W. apply (Permutation_in _ (all_names qml fn full m)) in I. rewrite !in_app_iff in I. destruct I as [I | [I | I]].
  - exfalso.
    assert (X : forallb (fun n => negb (existsb (String.eqb n) keywords)) (names_declared fixed_members) = true) by (vm_compute; reflexivity).
    rewrite forallb_forall in X. apply X in I. apply negb_true_iff in I.
    assert (Y : existsb (String.eqb x) keywords = true); [| congruence]. apply existsb_exists. exists x. split; [exact W | apply String.eqb_refl].
  - exfalso. destruct (type_names_capital fn m x LF C I) as (c & t & -> & A). destruct (keyword_small _ W) as (c' & t' & E & B). injection E as <- _.
    exact (capital_not_small _ A B).
  - rewrite names_flat in I. apply in_flat_map in I. destruct I as (f & F & I). unfold names_declared in I. apply in_flat_map in I.
    destruct I as (d & D & I). destruct (declared d) as [[n a] |] eqn:E; [| destruct I]. destruct I as [-> | []].
    destruct (own_owned _ _ _ _ _ D E) as (k & O). exists f. split; [exact F |]. rewrite (owned_keyword _ _ _ _ _ O W). apply known_pname.
Qed.

(** * Parameters *)

Lemma parameters_distinct : forall count m, fields_distinct m ->
  (NoDup (constructor_parameters count m) <-> forall f, In f (firstn count (g_fields m)) -> ~ known_as f "parent").
Proof.
  intros count m FD. unfold constructor_parameters. split.
  - intros N f F K. apply known_as_spec in K. apply NoDup_remove_2 in N. apply N. rewrite app_nil_r. rewrite K. now apply in_map.
  - intro H. apply nodup_append.
    + apply nodup_map.
      * unfold fields_distinct in FD. apply NoDup_map_inv in FD. rewrite <- (firstn_skipn count (g_fields m)) in FD. exact (nodup_prefix _ _ _ FD).
      * intros f g F G E. apply pname_key in E. unfold fields_distinct in FD.
        apply (nodup_map_inj _ _ (fun f => key (m_name f)) (g_fields m)); auto;
          rewrite <- (firstn_skipn count (g_fields m)); apply in_or_app; auto.
    + repeat constructor. intros [].
    + intros x I J. destruct J as [<- | []]. apply in_map_iff in I. destruct I as (f & E & F). apply (H f F). apply known_as_spec. auto.
Qed.

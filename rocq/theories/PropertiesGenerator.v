(** The properties of the code generator. *)

From Coq Require Import String Ascii ZArith List Bool Arith Lia.
From Verif Require Import GenModel GenSpec GenStrings GenFields GenOutput GenMulti.
Import ListNotations.
Open Scope string_scope.

(** * C28: the property of a field *)

(** Deserialization reads and writes for each field number the property of that field. *)
Theorem C28_deserialized : forall qml fs i f,
  NoDup (map f_number fs) -> nth_error fs i = Some f ->
  exists p, deserialized_property qml fs (f_number f) = Some p /\ belongs_to p i.
Proof.
  intros qml fs i f N H. exists (field_property qml i f). split.
  - apply deserialized_nth; assumption.
  - apply field_property_belongs.
Qed.

(** Fields do not share a property, and numbers of no field have none. *)
Theorem C28_distinct : forall qml fs i j f g,
  NoDup (map f_number fs) -> nth_error fs i = Some f -> nth_error fs j = Some g -> i <> j ->
  deserialized_property qml fs (f_number f) <> deserialized_property qml fs (f_number g).
Proof.
  intros qml fs i j f g N Hi Hj D E. rewrite (deserialized_nth qml fs i f N Hi), (deserialized_nth qml fs j g N Hj) in E.
  injection E as E. apply D. destruct (field_property_belongs qml i f) as [A _].
  destruct (field_property_belongs qml j g) as [B _]. congruence.
Qed.

Theorem C28_unknown_number : forall qml fs n,
  ~ In n (map f_number fs) -> deserialized_property qml fs n = None /\ serialized_property qml fs n = None.
Proof.
  intros qml fs n H. unfold serialized_property, deserialized_property. rewrite find_number_none by exact H. auto.
Qed.

(** Serialization writes for each field number the property of that field, in a message without a clash of
    names.  Missing: messages with one, see the next theorem. *)
Theorem C28_serialized_partial : forall qml fs i f,
  valid_fields fs -> ~ clash qml fs -> nth_error fs i = Some f ->
  exists p, serialized_property qml fs (f_number f) = Some p /\ belongs_to p i.
Proof.
  intros qml fs i f V C H. exists (field_property qml i f). split.
  - apply serialized_right; assumption.
  - apply field_property_belongs.
Qed.

(** In every message with a clash the property of another field is written for some field, or a view for
    QML instead of the field. *)
Theorem C28_clash_refuted : forall qml fs,
  valid_fields fs -> clash qml fs ->
  exists i f p, nth_error fs i = Some f /\ serialized_property qml fs (f_number f) = Some p /\ ~ belongs_to p i.
Proof. exact serialized_wrong. Qed.

(** What the property is called that is read and written for a field. *)
Theorem C28_names : forall qml fs i f n,
  NoDup (map f_number fs) -> nth_error fs i = Some f -> called f n ->
  exists p, deserialized_property qml fs (f_number f) = Some p /\
    ((repeated_message f /\ p_name p = n ++ "Data") \/
     (qml = true /\ qml_number f /\ p_name p = n ++ "_p") \/
     (~ repeated_message f /\ ~ (qml = true /\ qml_number f) /\ p_name p = n)).
Proof.
  intros qml fs i f n N H C. apply called_spec in C. subst n. exists (field_property qml i f).
  split; [apply deserialized_nth; assumption |].
  unfold field_property, isPureMessage, hasQmlAlias, repeated_message, qml_number.
  destruct (f_type f) eqn:T, (f_map f) eqn:M, (f_repeated f) eqn:R, (f_qt f) eqn:Q, qml; cbn;
    try (left; now repeat split); try (right; left; now repeat split; auto);
    right; right; (split; [intuition discriminate |]); (split; [intuition discriminate | reflexivity]).
Qed.

(** In a class for QML each field is found under its name, in a class without QML each one that is no list of messages:
    lists of messages as a list of objects for QML, some numbers as plain int, all others as they are.  Missing: messages
    with a clash of names. *)
Theorem C28_lookup_partial : forall qml fs i f n,
  valid_fields fs -> ~ clash qml fs -> nth_error fs i = Some f -> called f n -> qml = true \/ ~ repeated_message f ->
  exists p, by_name (class_properties qml fs) n = Some p /\ p_field p = i /\
    (p_access p = QmlList <-> repeated_message f) /\ (p_access p = Alias <-> qml = true /\ qml_number f).
Proof.
  intros qml fs i f n V C H Cn X. apply called_spec in Cn. subst n. rewrite (by_name_called qml fs i f V C H X).
  eexists. split; [reflexivity |]. clear V C H.
  unfold extra_property, field_property, isPureMessage, hasQmlAlias. unfold repeated_message, qml_number in *.
  destruct (f_type f) eqn:T, (f_map f) eqn:M, (f_repeated f) eqn:R, (f_qt f) eqn:Q, qml; cbn; intuition discriminate.
Qed.

(** With a clash the name of some field leads to another field, if the list of messages comes after it. *)
Theorem C28_lookup_refuted : forall fs i j f g n,
  valid_fields fs -> nth_error fs i = Some f -> nth_error fs j = Some g -> j < i ->
  repeated_message f -> called f n -> called g (n ++ "Data") -> ~ repeated_message g -> ~ qml_number g ->
  exists p, by_name (class_properties true fs) (n ++ "Data") = Some p /\ p_field p <> j.
Proof.
  intros fs i j f g n V Hi Hj L R Cf Cg Ng Nn. apply called_spec in Cf, Cg. subst n.
  assert (Ex : forall q, In q (extra_properties true 0 fs) -> p_name q = property_name f ++ "Data" -> p_field q <> j).
  { intros q Iq E F. apply in_extra_properties in Iq as (k & h & Hk & Iq). cbn [Nat.add] in Iq.
    assert (k = j) by (destruct (field_property_cases true k h) as [(_ & _ & Z) | [(_ & _ & _ & Z) | (_ & _ & Z)]];
      rewrite Z in Iq; [contradiction | destruct Iq as [<- | []]; exact F ..]).
    subst k. rewrite Hj in Hk. injection Hk as <-. revert Iq. unfold extra_property, hasQmlAlias. revert Ng Nn. unfold repeated_message, qml_number.
    destruct (f_type g), (f_map g), (f_repeated g); cbn; intuition. }
  unfold by_name, class_properties. rewrite rev_app_distr, find_app.
  destruct (find _ (rev (extra_properties true 0 fs))) as [q |] eqn:F1.
  - exists q. split; [reflexivity |]. apply find_some in F1 as [I1 E1]. apply in_rev in I1. apply String.eqb_eq in E1. now apply Ex.
  - destruct (nth_error_split fs i Hi) as (a & b & E & La).
    assert (Sp : forall a b k, field_properties true k (a ++ b)%list = (field_properties true k a ++ field_properties true (k + List.length a) b)%list).
    { clear. induction a as [| x a IH]; intros b k; cbn; [now rewrite Nat.add_0_r |]. rewrite IH. now rewrite Nat.add_succ_r. }
    rewrite E, Sp. cbn [field_properties Nat.add]. rewrite La, rev_app_distr. cbn [rev]. rewrite <- app_assoc, find_app.
    destruct (find _ (rev (field_properties true (S i) b))) as [q |] eqn:F2.
    + exists q. split; [reflexivity |]. apply find_some in F2 as [I2 _]. apply in_rev, in_field_properties in I2 as (k & h & _ & ->).
      rewrite (proj1 (field_property_belongs true (S i + k) h)). lia.
    + cbn [app find]. assert (Pf : field_property true i f = mkProperty (property_name f ++ "Data") i Stored).
      { destruct (field_property_cases true i f) as [(_ & B & _) | [(_ & B & _) | (A & _)]]; tauto. }
      rewrite Pf. cbn [p_name]. rewrite String.eqb_refl. eexists. split; [reflexivity |]. cbn. lia.
Qed.

Definition plain_field (name : string) (number : Z) (t : ftype) (repeated : bool) : field :=
  mkField name number name t repeated false None None false.

(** A message with all kinds of fields, among them ones with a name reserved in QML. *)
Definition ex_fields : list field :=
  [plain_field "id" 1 TInt32 false; plain_field "text_value" 7 TString false;
   plain_field "items" 3 TMessage true; plain_field "counts" 4 TInt32 true;
   plain_field "single" 5 TMessage false; plain_field "data_count" 6 TSInt64 false].
(** "repeated Item foo = 1; string foo_data = 2;" *)
Definition ex_clash : list field := [plain_field "foo" 1 TMessage true; plain_field "foo_data" 2 TString false].

Example C28_case :
  valid_fields ex_fields /\ ~ clash true ex_fields
  /\ map (fun n => option_map p_name (serialized_property true ex_fields n)) [1; 7; 3; 4; 5; 6]%Z
     = [Some "id_proto_p"; Some "textValue"; Some "itemsData"; Some "counts"; Some "single"; Some "dataCount"].
Proof.
  repeat split.
  - cbn. repeat constructor; cbn; intuition discriminate.
  - cbn. repeat constructor; cbn; intuition discriminate.
  - intro Cl. apply clash_spec in Cl. destruct Cl as (f & g & If & Ig & (T & _ & _) & E & _). cbn in If, Ig.
    repeat destruct If as [<- | If]; try discriminate T; try destruct If;
      repeat destruct Ig as [<- | Ig]; try discriminate E; destruct Ig.
Qed.

Example C28_refuted_case :
  valid_fields ex_clash /\ clash false ex_clash
  /\ option_map p_field (serialized_property false ex_clash 1) = Some 1
  /\ option_map p_field (deserialized_property false ex_clash 1) = Some 0.
Proof.
  repeat split.
  - cbn. repeat constructor; cbn; intuition discriminate.
  - cbn. repeat constructor; cbn; intuition discriminate.
  - apply clash_spec. exists (plain_field "foo" 1 TMessage true), (plain_field "foo_data" 2 TString false).
    repeat split; [left; reflexivity | right; left; reflexivity |]. right. intros (T & _). discriminate T.
Qed.

(** "string foo_data = 2; repeated Item foo = 1;": the name fooData leads to the list of messages. *)
Example C28_lookup_refuted_case : valid_fields (rev ex_clash)
  /\ called (plain_field "foo" 1 TMessage true) "foo" /\ called (plain_field "foo_data" 2 TString false) "fooData"
  /\ by_name (class_properties true (rev ex_clash)) "fooData" = Some (mkProperty "fooData" 1 Stored).
Proof.
  repeat split.
  - cbn. repeat constructor; cbn; intuition discriminate.
  - cbn. repeat constructor; cbn; intuition discriminate.
  - apply called_spec. reflexivity.
  - apply called_spec. reflexivity.
Qed.

Example C28_names_case : called (plain_field "id" 1 TInt32 false) "id_proto" /\ qml_number (plain_field "id" 1 TInt32 false)
  /\ called (plain_field "text_value" 7 TString false) "textValue"
  /\ by_name (class_properties true ex_fields) "id_proto" = Some (mkProperty "id_proto" 0 Alias)
  /\ by_name (class_properties true ex_fields) "items" = Some (mkProperty "items" 2 QmlList).
Proof.
  repeat split.
  - exists "id". split; [| left; split; [left; reflexivity | reflexivity]].
    exists "id", []. repeat split. repeat constructor. intro I; cbn in I; intuition discriminate.
  - left. reflexivity.
  - exists "textValue". split; [| right; split; [cbn; intuition discriminate | reflexivity]].
    exists "text", ["value"]. repeat split. repeat constructor; intro I; cbn in I; intuition discriminate.
Qed.

(** * C46: options *)

(** Each flag is set if and only if it is listed, whatever else is listed in whatever order. *)
Theorem C46_flags : forall ts,
  Forall (free_of ":") ts ->
  let o := parseFromEnv (join ":" ts) in
  (o_multi o = true <-> In "MULTI" ts) /\ (o_qml o = true <-> In "QML" ts)
  /\ (o_comments o = true <-> In "COMMENTS" ts) /\ (o_folder o = true <-> In "FOLDER" ts)
  /\ (o_fieldenum o = true <-> In "FIELDENUM" ts).
Proof.
  intros ts F o. unfold o, parseFromEnv. rewrite (split_join ":" ts F).
  destruct (parse_flags (join ":" ts) (trimmed ts) no_options) as (A & B & C & D & E).
  rewrite (trimmed_in ts "MULTI") in A by discriminate. rewrite (trimmed_in ts "QML") in B by discriminate.
  rewrite (trimmed_in ts "COMMENTS") in C by discriminate. rewrite (trimmed_in ts "FOLDER") in D by discriminate.
  rewrite (trimmed_in ts "FIELDENUM") in E by discriminate. cbn in A, B, C, D, E.
  repeat split; intuition discriminate.
Qed.

(** Without an option for it there is no extra namespace. *)
Theorem C46_no_namespace : forall ts,
  Forall (fun t => free_of ":" t /\ prefix "EXTRA_NAMESPACE" t = false) ts ->
  o_extra (parseFromEnv (join ":" ts)) = "".
Proof.
  intros ts F. unfold parseFromEnv. rewrite (split_join ":" ts).
  - apply parse_extra_same. intros x I. rewrite Forall_forall in F.
    destruct x as [| c x]; [reflexivity |]. apply (trimmed_in ts) in I; [| discriminate].
    apply F; exact I.
  - eapply Forall_impl; [| exact F]. cbn. tauto.
Qed.

Definition namespace_option (x : string) : string := "EXTRA_NAMESPACE=" ++ x.
Definition quoted (x : string) : string := String quote (x ++ String quote "").

(** As the last option EXTRA_NAMESPACE=x gives namespace x, also for x in quotes.  Missing: other places, see
    the next theorem. *)
Lemma extra_last : forall ts x,
  Forall (fun t => free_of ":" t /\ free_of "=" t) ts -> free_of ":" x -> free_of "=" x -> x <> "" ->
  o_extra (parseFromEnv (join ":" (ts ++ [namespace_option x])%list)) = unquote x.
Proof.
  intros ts x F Fc Fe N.
  set (last := namespace_option x).
  assert (Pre : exists a, free_of "=" a /\ join ":" (ts ++ [last])%list = a ++ String "=" x).
  { destruct ts as [| t ts].
    - exists "EXTRA_NAMESPACE". split; [intro I; cbn in I; intuition discriminate | reflexivity].
    - exists (join ":" (t :: ts) ++ ":" ++ "EXTRA_NAMESPACE"). split.
      + rewrite !free_app. repeat split; [| intro I; cbn in I; intuition discriminate ..].
        apply join_free; [intro I; cbn in I; intuition discriminate |].
        eapply Forall_impl; [| exact F]. cbn. tauto.
      + rewrite join_snoc by discriminate. unfold last, namespace_option. rewrite !app_assoc_s. reflexivity. }
  destruct Pre as (a & Fa & E).
  unfold parseFromEnv. rewrite (split_join ":").
  - rewrite trimmed_last by discriminate.
    rewrite (parse_extra_seen _ a x).
    + rewrite existsb_app. cbn [existsb]. unfold last, namespace_option. change ("EXTRA_NAMESPACE=" ++ x) with ("EXTRA_NAMESPACE" ++ "=" ++ x).
      rewrite prefix_app. cbn. rewrite orb_true_r. reflexivity.
    + rewrite E, split_app by exact Fa. rewrite split_free by assumption. reflexivity.
  - apply Forall_app. split; [eapply Forall_impl; [| exact F]; cbn; tauto |].
    constructor; [| constructor]. unfold last, namespace_option. rewrite free_app. split; [intro I; cbn in I; intuition discriminate | exact Fc].
Qed.

Theorem C46_namespace_last_partial : forall ts x,
  Forall (fun t => free_of ":" t /\ free_of "=" t) ts ->
  free_of ":" x -> free_of "=" x -> free_of quote x -> x <> "" ->
  o_extra (parseFromEnv (join ":" (ts ++ [namespace_option x])%list)) = x
  /\ o_extra (parseFromEnv (join ":" (ts ++ [namespace_option (quoted x)])%list)) = x.
Proof.
  intros ts x F Fc Fe Fq N. split.
  - rewrite extra_last by assumption. destruct x as [| c x]; [congruence |]. apply unquote_plain.
    apply free_cons in Fq. tauto.
  - rewrite extra_last; [apply unquote_quoted | exact F | | | discriminate].
    + apply free_cons. split; [discriminate |]. rewrite free_app. split; [exact Fc |]. intro I; cbn in I; intuition discriminate.
    + apply free_cons. split; [discriminate |]. rewrite free_app. split; [exact Fe |]. intro I; cbn in I; intuition discriminate.
Qed.

(** Followed by other options it gives a namespace with a colon in it, which is none. *)
Theorem C46_namespace_not_last_refuted : forall ts x us,
  Forall (fun t => free_of ":" t /\ free_of "=" t) ts -> Forall (fun t => free_of ":" t /\ free_of "=" t) us ->
  free_of ":" x -> free_of "=" x -> x <> "" -> us <> [] ->
  ~ free_of ":" (o_extra (parseFromEnv (join ":" (ts ++ [namespace_option x] ++ us)%list))).
Proof.
  intros ts x us Ft Fu Fc Fe N Nu.
  assert (Fr : Forall (free_of ":") us) by (eapply Forall_impl; [| exact Fu]; cbn; tauto).
  assert (Fs : Forall (free_of "=") us) by (eapply Forall_impl; [| exact Fu]; cbn; tauto).
  set (last := namespace_option x). set (rest := x ++ ":" ++ join ":" us).
  assert (Pre : exists a, free_of "=" a /\ join ":" (ts ++ [last] ++ us)%list = a ++ String "=" rest).
  { destruct ts as [| t ts].
    - exists "EXTRA_NAMESPACE". split; [intro I; cbn in I; intuition discriminate |].
      rewrite app_nil_l, (join_app ":" [last] us) by (discriminate || assumption).
      unfold rest, last, namespace_option. cbn [join]. rewrite !app_assoc_s. reflexivity.
    - exists (join ":" (t :: ts) ++ ":" ++ "EXTRA_NAMESPACE"). split.
      + rewrite !free_app. repeat split; [| intro I; cbn in I; intuition discriminate ..].
        apply join_free; [intro I; cbn in I; intuition discriminate |].
        eapply Forall_impl; [| exact Ft]. cbn. tauto.
      + rewrite join_app by discriminate. rewrite (join_app ":" [last] us) by (discriminate || assumption).
        unfold rest, last, namespace_option. cbn [join]. rewrite !app_assoc_s. reflexivity. }
  destruct Pre as (a & Fa & E).
  assert (Fl : Forall (free_of ":") (ts ++ [last] ++ us)%list).
  { apply Forall_app. split; [eapply Forall_impl; [| exact Ft]; cbn; tauto |].
    apply Forall_app. split; [| exact Fr]. constructor; [| constructor].
    unfold last, namespace_option. rewrite free_app. split; [intro I; cbn in I; intuition discriminate | exact Fc]. }
  assert (R : o_extra (parseFromEnv (join ":" (ts ++ [last] ++ us)%list)) = unquote rest).
  { unfold parseFromEnv. rewrite (split_join ":") by exact Fl.
    rewrite (parse_extra_seen _ a rest).
    - replace (existsb (fun y => prefix "EXTRA_NAMESPACE" y) (trimmed (ts ++ [last] ++ us)%list)) with true; [reflexivity |].
      symmetry. apply existsb_exists. exists last. split.
      + apply trimmed_in; [discriminate |]. apply in_or_app. right. left. reflexivity.
      + unfold last, namespace_option. change ("EXTRA_NAMESPACE=" ++ x) with ("EXTRA_NAMESPACE" ++ "=" ++ x). apply prefix_app.
    - rewrite E, split_app by exact Fa. rewrite split_free; [reflexivity | |].
      + unfold rest. rewrite !free_app. repeat split; [exact Fe | intro I; cbn in I; intuition discriminate |].
        apply join_free; [intro I; cbn in I; intuition discriminate | exact Fs].
      + unfold rest. destruct x; [congruence | discriminate]. }
  fold last. rewrite R. intro Fq.
  destruct (unquote_cases rest) as [Q | (y & Q & U)].
  - rewrite Q in Fq. unfold rest in Fq. rewrite !free_app in Fq. destruct Fq as (_ & Fq & _).
    apply Fq. left. reflexivity.
  - rewrite U in Fq. assert (Fall : free_of ":" rest).
    { rewrite Q. apply free_cons. split; [discriminate |]. rewrite free_app. split; [exact Fq |].
      intro I; cbn in I; intuition discriminate. }
    unfold rest in Fall. rewrite !free_app in Fall. destruct Fall as (_ & Fall & _). apply Fall. left. reflexivity.
Qed.

Example C46_case :
  parseFromEnv "QML:SINGLE:FOLDER:EXTRA_NAMESPACE=""my_ns""" = mkOptions false true false true false "my_ns"
  /\ parseFromEnv "MULTI:COMMENTS:FIELDENUM" = mkOptions true false true false true "".
Proof. split; reflexivity. Qed.

Example C46_refuted_case : o_extra (parseFromEnv "EXTRA_NAMESPACE=my_ns:QML") = "my_ns:QML".
Proof. reflexivity. Qed.

(** * C45: names of files *)

(** The base name of a file "dir/base.proto" is "base". *)
Theorem C45_base_name : forall file,
  ends_with ".proto" file ->
  exists base, extractFileBasename file = Some base /\ free_of "/" base
    /\ (file = base ++ ".proto" \/ exists dir, file = dir ++ "/" ++ base ++ ".proto").
Proof.
  intros file (a & E). subst file. unfold extractFileBasename, removeFileSuffix.
  change ".proto" with (String "." "proto").
  rewrite cut_last_app by (intro I; cbn in I; intuition discriminate). cbn [option_map fst].
  destruct (cut_last "/" a) as [[d b] |] eqn:C.
  - apply cut_last_some in C. destruct C as [C F]. exists b. repeat split; [exact F |].
    right. exists d. subst a. rewrite app_assoc_s. reflexivity.
  - exists a. repeat split; [apply cut_last_none; exact C |]. left. reflexivity.
Qed.

(** In folder mode the file lies in the directory of the package, otherwise it has no directory. *)
Theorem C45_folder : forall o parts file,
  package_parts parts -> ends_with ".proto" file ->
  exists base, extractFileBasename file = Some base /\
    single_file o (package_of parts) file
    = Some (if o_folder o then join "/" (parts ++ [(base ++ ".qpb")%string])%list else base ++ ".qpb").
Proof.
  intros o parts file P E. destruct (C45_base_name file E) as (base & B & _). exists base. split; [exact B |].
  unfold single_file. rewrite B. cbn [option_map]. f_equal.
  destruct (o_folder o) eqn:F.
  - rewrite base_name_folder by assumption. destruct parts as [| p parts]; [reflexivity |].
    rewrite !join_snoc by discriminate. rewrite !app_assoc_s. reflexivity.
  - unfold generateBaseName. rewrite F. reflexivity.
Qed.

(** For a file without any suffix the generator dies of an exception. *)
Theorem C45_no_suffix_refuted : forall o package file,
  free_of "." file ->
  extractFileBasename file = None /\ single_file o package file = None /\ single_include file = None.
Proof.
  intros o package file F. unfold single_file, single_include, extractFileBasename, removeFileSuffix.
  rewrite cut_last_free by exact F. auto.
Qed.

(** With one file for each message, two messages of a package are written to the same file if and only if
    their names differ in nothing but capital letters. *)
Theorem C45_multi : forall o parts name name',
  package_parts parts ->
  multi_file o (package_of parts) name = multi_file o (package_of parts) name' <-> in_small name = in_small name'.
Proof.
  intros o parts name name' P. rewrite !in_small_eq. unfold multi_file. split; [| congruence]. intro H.
  destruct (o_folder o) eqn:F.
  - rewrite !base_name_folder in H by assumption. destruct parts as [| p parts]; [exact H |].
    rewrite !join_snoc in H by discriminate. apply app_inv_head_s in H. apply app_inv_head_s in H. exact H.
  - unfold generateBaseName in H. rewrite F in H. exact H.
Qed.

(** The clients for the services of a file are written to a file of their own in the same directory; with one file for each
    message, so are those for each service. *)
Theorem C45_services : forall o parts file name,
  package_parts parts -> ends_with ".proto" file ->
  exists base, extractFileBasename file = Some base
    /\ single_service_file o (package_of parts) file
       = Some (if o_folder o then join "/" (parts ++ [(base ++ "_grpc.qpb")%string])%list else base ++ "_grpc.qpb")
    /\ single_service_file o (package_of parts) file <> single_file o (package_of parts) file
    /\ multi_service_file o (package_of parts) name
       = (if o_folder o then join "/" (parts ++ [(in_small name ++ "client")%string])%list else in_small name ++ "client")
    /\ multi_service_file o (package_of parts) name <> multi_file o (package_of parts) name.
Proof.
  intros o parts file name P E. destruct (C45_base_name file E) as (base & B & _). exists base. split; [exact B |].
  unfold single_service_file, single_file, multi_service_file, multi_file. rewrite B. cbn [option_map]. rewrite in_small_eq.
  assert (Len : forall a b c : string, a ++ b = a ++ c -> String.length b = String.length c).
  { intros a b c H. apply app_inv_head_s in H. rewrite H. reflexivity. }
  assert (J : forall x y, (join "/" (parts ++ [x])%list ++ y = join "/" (parts ++ [(x ++ y)%string])%list)%string).
  { intros x y. destruct parts as [| p l]; [reflexivity |]. rewrite !join_snoc by discriminate. rewrite !app_assoc_s. reflexivity. }
  split; [| split; [| split]].
  - f_equal. destruct (o_folder o) eqn:F; [rewrite base_name_folder by assumption; apply (J base "_grpc.qpb") |].
    unfold generateBaseName. rewrite F. reflexivity.
  - intro H. injection H as H. apply Len in H. discriminate.
  - destruct (o_folder o) eqn:F; [rewrite base_name_folder by assumption; apply J |].
    unfold generateBaseName. rewrite F. reflexivity.
  - intro H. replace (generateBaseName o (package_of parts) (tolower name)) with (generateBaseName o (package_of parts) (tolower name) ++ "") in H at 2
      by apply app_nil_s. apply Len in H. discriminate.
Qed.

(** These names may be those of other files: the services of "x.proto" and the messages of "x_grpc.proto" are written to the same file,
    as are a service "X" and a message "XClient" with one file for each message. *)
Theorem C45_service_clash_refuted : forall o package base name,
  free_of "/" base ->
  (exists f, single_service_file o package (base ++ ".proto") = Some f /\ single_file o package (base ++ "_grpc.proto") = Some f)
  /\ multi_service_file o package name = multi_file o package (name ++ "Client").
Proof.
  intros o package base name F.
  assert (G : forall s x, generateBaseName o package (s ++ x) = generateBaseName o package s ++ x).
  { intros s x. unfold generateBaseName. destruct (o_folder o); [symmetry; apply app_assoc_s | reflexivity]. }
  assert (D : forall b, free_of "/" b -> extractFileBasename (b ++ ".proto") = Some b).
  { intros b Fb. unfold extractFileBasename, removeFileSuffix. change ".proto" with (String "." "proto").
    rewrite cut_last_app by (intro I; cbn in I; intuition discriminate). cbn [option_map fst]. rewrite cut_last_free by exact Fb. reflexivity. }
  split.
  - eexists. unfold single_service_file, single_file. rewrite D by exact F. cbn [option_map]. split; [reflexivity |].
    replace (base ++ "_grpc.proto") with ((base ++ "_grpc") ++ ".proto") by apply app_assoc_s.
    rewrite D by (apply free_app; split; [exact F | intro I; cbn in I; intuition discriminate]). cbn [option_map].
    rewrite G, app_assoc_s. reflexivity.
  - unfold multi_service_file, multi_file. rewrite <- G. f_equal. clear. induction name as [| c s IH]; [reflexivity |].
    cbn [append tolower]. rewrite <- IH. reflexivity.
Qed.

Definition folder_options : options := mkOptions false false false true false "".

Example C45_case :
  package_parts ["my"; "pkg"] /\ ends_with ".proto" "dir.d/sub/name.v1.proto"
  /\ single_file folder_options (package_of ["my"; "pkg"]) "dir.d/sub/name.v1.proto" = Some "my/pkg/name.v1.qpb"
  /\ single_file no_options (package_of ["my"; "pkg"]) "dir.d/sub/name.v1.proto" = Some "name.v1.qpb"
  /\ free_of "." "dir/name"
  /\ multi_file folder_options (package_of ["my"; "pkg"]) "Foo" = multi_file folder_options (package_of ["my"; "pkg"]) "FOO".
Proof.
  repeat split; try (intro I; cbn in I; intuition discriminate).
  - repeat constructor; try discriminate; intro I; cbn in I; intuition discriminate.
  - exists "dir.d/sub/name.v1". reflexivity.
Qed.

(** * C58: includes *)

(** The header that is included for an imported file is the one written for that file, if the import path
    is the directory of the package (in folder mode) or has no directory (otherwise).  Missing: other import
    paths, see the next theorem. *)
Theorem C58_import_partial : forall o parts base,
  package_parts parts -> free_of "/" base ->
  let file := (if o_folder o then join "/" (parts ++ [base])%list else base) ++ ".proto" in
  single_include file = single_file o (package_of parts) file /\ single_include file <> None.
Proof.
  intros o parts base P F file.
  assert (R : removeFileSuffix file = Some (if o_folder o then join "/" (parts ++ [base])%list else base)).
  { unfold removeFileSuffix, file. change ".proto" with (String "." "proto").
    rewrite cut_last_app by (intro I; cbn in I; intuition discriminate). reflexivity. }
  assert (X : extractFileBasename file = Some base).
  { unfold extractFileBasename. rewrite R. destruct (o_folder o) eqn:Fo.
    - destruct parts as [| p parts].
      + cbn. rewrite cut_last_free by exact F. reflexivity.
      + rewrite join_snoc by discriminate. change ("/" ++ base) with (String "/" base).
        rewrite cut_last_app by exact F. reflexivity.
    - rewrite cut_last_free by exact F. reflexivity. }
  unfold single_include, single_file. rewrite R, X. cbn [option_map]. split; [| discriminate].
  f_equal. destruct (o_folder o) eqn:Fo.
  - rewrite base_name_folder by assumption. reflexivity.
  - unfold generateBaseName. rewrite Fo. reflexivity.
Qed.

(** For every other import path the included header is not the one that is written. *)
Theorem C58_import_refuted : forall o parts dir base,
  package_parts parts -> free_of "/" base ->
  (o_folder o = true -> dir <> join "/" parts \/ parts = []) ->
  let file := dir ++ "/" ++ base ++ ".proto" in
  single_include file <> single_file o (package_of parts) file.
Proof.
  intros o parts dir base P F D file.
  assert (R : removeFileSuffix file = Some (dir ++ "/" ++ base)).
  { unfold removeFileSuffix, file. change ".proto" with (String "." "proto").
    rewrite <- !app_assoc_s. rewrite cut_last_app by (intro I; cbn in I; intuition discriminate).
    reflexivity. }
  assert (X : extractFileBasename file = Some base).
  { unfold extractFileBasename. rewrite R. change ("/" ++ base) with (String "/" base).
    rewrite cut_last_app by exact F. reflexivity. }
  unfold single_include, single_file. rewrite R, X. cbn [option_map]. intro E. injection E as E.
  apply app_inv_tail_s in E.
  destruct (o_folder o) eqn:Fo.
  - rewrite base_name_folder in E by assumption. destruct parts as [| p parts].
    + cbn in E. apply (f_equal String.length) in E. rewrite length_app_s in E. cbn in E. lia.
    + rewrite join_snoc in E by discriminate. destruct (D eq_refl) as [D' | D']; [| discriminate].
      apply D'. exact (app_inv_tail_s _ _ _ E).
  - unfold generateBaseName in E. rewrite Fo in E. apply (f_equal String.length) in E.
    rewrite length_app_s in E. cbn in E. lia.
Qed.

(** With one file for each message the source for a message includes the header in its own directory. *)
Theorem C58_own_header : forall o parts name,
  package_parts parts ->
  multi_file o (package_of parts) name = multi_own_include name
  \/ exists dir, multi_file o (package_of parts) name = dir ++ "/" ++ multi_own_include name.
Proof.
  intros o parts name P. unfold multi_file, multi_own_include. destruct (o_folder o) eqn:F.
  - rewrite base_name_folder by assumption. destruct parts as [| p parts]; [left; reflexivity |].
    right. rewrite join_snoc by discriminate. exists (join "/" (p :: parts)). reflexivity.
  - left. unfold generateBaseName. rewrite F. reflexivity.
Qed.

(** The source for a service includes a header that is not its own, for every service. *)
Theorem C58_service_header_refuted : forall o parts name,
  package_parts parts ->
  multi_service_file o (package_of parts) name <> multi_service_own_include name
  /\ forall dir, free_of "/" name ->
       multi_service_file o (package_of parts) name <> dir ++ "/" ++ multi_service_own_include name.
Proof.
  intros o parts name P. unfold multi_service_file, multi_service_own_include.
  assert (L : exists d, generateBaseName o (package_of parts) (tolower name) = d ++ tolower name
    /\ (d = "" \/ exists e, d = e ++ "/")).
  { destruct (o_folder o) eqn:F.
    - rewrite base_name_folder by assumption. destruct parts as [| p parts]; [exists ""; auto |].
      rewrite join_snoc by discriminate. exists (join "/" (p :: parts) ++ "/"). split; [| right; eexists; reflexivity].
      rewrite app_assoc_s. reflexivity.
    - exists "". unfold generateBaseName. rewrite F. auto. }
  destruct L as (d & L & Ld). rewrite L. split.
  - intro E. apply (f_equal String.length) in E. rewrite !length_app_s in E. cbn in E. lia.
  - intros dir F E.
    assert (Fl : free_of "/" (tolower name)).
    { clear -F. induction name as [| c s IH]; [exact F |]. apply free_cons in F. destruct F as [N F].
      cbn. apply free_cons. split; [| apply IH; exact F].
      intro Q. apply N. destruct c as [[] [] [] [] [] [] [] []]; vm_compute in Q; congruence. }
    assert (K : cut_last "/" ((d ++ tolower name) ++ "client") = Some (dir, tolower name)).
    { rewrite E. change ("/" ++ tolower name) with (String "/" (tolower name)). apply cut_last_app. exact Fl. }
    destruct Ld as [-> | (e & ->)].
    + cbn [append] in K. rewrite cut_last_free in K; [discriminate |].
      rewrite free_app. split; [exact Fl |]. intro I; cbn in I; intuition discriminate.
    + rewrite !app_assoc_s in K. change ("/" ++ tolower name ++ "client") with (String "/" (tolower name ++ "client")) in K.
      rewrite cut_last_app in K.
      * injection K as _ K. apply (f_equal String.length) in K. rewrite length_app_s in K. cbn in K. lia.
      * rewrite free_app. split; [exact Fl |]. intro I; cbn in I; intuition discriminate.
Qed.

Example C58_case :
  single_include "my/pkg/name.proto" = Some "my/pkg/name.qpb"
  /\ single_file folder_options "my.pkg" "my/pkg/name.proto" = Some "my/pkg/name.qpb"
  /\ single_file no_options "my.pkg" "name.proto" = single_include "name.proto".
Proof. repeat split. Qed.

Example C58_refuted_case :
  single_file no_options "my.pkg" "protos/name.proto" = Some "name.qpb"
  /\ single_include "protos/name.proto" = Some "protos/name.qpb"
  /\ multi_service_file no_options "" "Greeter" = "greeterclient" /\ multi_service_own_include "Greeter" = "greeter".
Proof. repeat split. Qed.

Open Scope list_scope.

(** * C44: namespaces *)

(** In the header, the source and the files for services every namespace that is opened is closed; what is
    at the top level of the file stands in the extra namespace and the package, a message inside of others in
    one more namespace for each of them. *)
Theorem C44_header : forall o parts f,
  package_parts parts -> p_package f = package_of parts -> names_ok f ->
  exists l, placed (single_header o f) = Some l /\
    forall path x, In (path, x) l ->
      match x with
      | Forward id name | Declare id name _ =>
          exists m, at_path (outer_namespaces o parts) (p_messages f) path m
            /\ d_id m = id /\ first_capital (d_name m) = name
      | Other name => path = outer_namespaces o parts /\ exists e, In e (p_enums f) /\ first_capital e = name
      | _ => False
      end.
Proof.
  intros o parts f P E N. rewrite (header_placed o parts f P E N). eexists. split; [reflexivity |].
  intros path x I. rewrite !in_app_iff in I. destruct I as [I | [I | I]]; apply in_map_iff in I; destruct I as (y & Y & I).
  - injection Y as <- <-. split; [reflexivity |]. exists y. split; [exact I | apply first_capital_eq].
  - destruct y as [p m]. injection Y as <- <-. exists m. split; [apply file_spots_path; exact I | split; [reflexivity | apply first_capital_eq]].
  - destruct y as [p m]. injection Y as <- <-. exists m. split; [apply file_spots_path; exact I | split; [reflexivity | apply first_capital_eq]].
Qed.

Theorem C44_source : forall o parts f,
  package_parts parts -> p_package f = package_of parts -> names_ok f ->
  exists l, placed (single_source o f) = Some l /\
    forall path x, In (path, x) l ->
      match x with
      | Define id name =>
          exists m, at_path (outer_namespaces o parts) (p_messages f) path m
            /\ d_id m = id /\ first_capital (d_name m) = name
      | Other name => path = outer_namespaces o parts /\ exists e, In e (p_enums f) /\ first_capital e = name
      | _ => False
      end.
Proof.
  intros o parts f P E N. rewrite (source_placed o parts f P E N). eexists. split; [reflexivity |].
  intros path x I. rewrite !in_app_iff in I. destruct I as [I | I]; apply in_map_iff in I; destruct I as (y & Y & I).
  - injection Y as <- <-. split; [reflexivity |]. exists y. split; [exact I | apply first_capital_eq].
  - destruct y as [p m]. injection Y as <- <-. exists m. split; [apply file_spots_path; exact I | split; [reflexivity | apply first_capital_eq]].
Qed.

Theorem C44_services : forall o parts f,
  package_parts parts -> p_package f = package_of parts -> names_ok f ->
  placed (single_services o f)
  = Some (map (fun s => (outer_namespaces o parts, Other (first_capital s))) (p_services f)).
Proof.
  intros o parts f P E N. rewrite (services_placed o parts f P E N). f_equal. apply map_ext. intro s. unfold other_spot. now rewrite first_capital_eq.
Qed.

(** The header and the source agree: the same classes in the same namespaces and the same order. *)
Theorem C44_agree : forall o parts f,
  package_parts parts -> p_package f = package_of parts -> names_ok f ->
  exists h s, placed (single_header o f) = Some h /\ placed (single_source o f) = Some s /\
    flat_map (fun x => match snd x with Declare id name _ => [(fst x, id, name)] | _ => [] end) h
    = flat_map (fun x => match snd x with Define id name => [(fst x, id, name)] | _ => [] end) s.
Proof.
  intros o parts f P E N. rewrite (header_placed o parts f P E N), (source_placed o parts f P E N).
  eexists. eexists. split; [reflexivity |]. split; [reflexivity |].
  rewrite !flat_map_app.
  assert (A : forall l (g : list string * item -> list (list string * nat * string)),
    (forall p n, g (p, Other n) = []) -> flat_map g (map (other_spot (outer_namespaces o parts)) l) = []).
  { intros l g G. induction l as [| y l IH]; [reflexivity |]. cbn. rewrite IH. unfold other_spot. rewrite G. reflexivity. }
  rewrite !A by reflexivity. cbn [app].
  generalize (file_spots o parts f). intro l. clear.
  assert (Z : flat_map (fun x : list string * item => match snd x with Declare id name _ => [(fst x, id, name)] | _ => [] end)
    (map forward_spot l) = []) by (induction l; [reflexivity | exact IHl]).
  rewrite Z. clear Z. cbn [app]. induction l as [| y l IH]; [reflexivity |]. cbn. rewrite IH. reflexivity.
Qed.

(** With one file for each message namespaces are closed as well, and classes stand where they belong. *)
Theorem C44_multi : forall lookup o parts d,
  package_parts parts -> name_ok (d_name d) ->
  exists h s, placed (multi_header lookup o (package_of parts) d) = Some h
    /\ placed (multi_source o (package_of parts) d) = Some s
    /\ forall path id name ms, In (path, Declare id name ms) h \/ In (path, Define id name) s ->
         exists m, at_path (outer_namespaces o parts) [d] path m /\ d_id m = id /\ first_capital (d_name m) = name.
Proof.
  intros lookup o parts d P N.
  rewrite (multi_header_placed lookup o parts d P N), (multi_source_placed o parts d P N).
  eexists. eexists. split; [reflexivity |]. split; [reflexivity |].
  assert (A : forall p m, In (p, m) (spots (outer_namespaces o parts) d) ->
    at_path (outer_namespaces o parts) [d] p m).
  { intros p m I. eapply spots_path; [| exact I]. apply at_top. left; reflexivity. }
  intros path id name ms [I | I].
  - apply in_app_or in I. destruct I as [I | I].
    + exfalso. apply in_flat_map in I. destruct I as (t & _ & I). unfold dependency_spot in I.
      destruct (match r_containing (lookup t) with Some c => Nat.eqb c (d_id d) | None => false end); [destruct I |].
      destruct I as [I | []]. discriminate I.
    + apply in_map_iff in I. destruct I as ((p & m) & Y & I). injection Y as <- <- <- <-. exists m.
      split; [apply A; exact I | split; [reflexivity | apply first_capital_eq]].
  - apply in_map_iff in I. destruct I as ((p & m) & Y & I). injection Y as <- <- <-. exists m.
    split; [apply A; exact I | split; [reflexivity | apply first_capital_eq]].
Qed.

(** But with an extra namespace the forward declarations for messages of other files stand in the wrong
    namespace, for every such message. *)
Theorem C44_multi_forward_refuted : forall lookup o parts d t parts' ,
  package_parts parts -> name_ok (d_name d) -> o_extra o <> ""%string ->
  In t (dependencies d) -> package_parts parts' -> name_ok (r_name (lookup t)) ->
  r_full (lookup t) = full_name (package_of parts') (r_name (lookup t)) ->
  r_containing (lookup t) = None -> r_nested (lookup t) = false ->
  exists h, placed (multi_header lookup o (package_of parts) d) = Some h
    /\ In (parts', Forward t (first_capital (r_name (lookup t)))) h /\ parts' <> outer_namespaces o parts'.
Proof.
  intros lookup o parts d t parts' P N X I P' Nt Ft Ct Rt.
  rewrite (multi_header_placed lookup o parts d P N). eexists. split; [reflexivity |]. split.
  - apply in_or_app. left. apply in_flat_map. exists t. split; [exact I |].
    unfold dependency_spot, forward_path. rewrite Ct, Rt, Ft.
    rewrite full_name_parts, getNamespaces_parts by (try apply parts_snoc; assumption). left. now rewrite first_capital_eq.
  - unfold outer_namespaces. destruct (o_extra o); [congruence |]. intro Q.
    apply (f_equal (@List.length string)) in Q. cbn in Q. lia.
Qed.

(** package my.pkg; message Outer { message Inner { } Inner inner = 1; } message Last { Outer outer = 1; } *)
Definition message_field (name : string) (number : Z) (t : nat) : field :=
  mkField name number name TMessage false false (Some t) None false.
Definition ex_file : file :=
  mkFile "my.pkg"
    [Descriptor 0 "Outer" [message_field "inner" 1 1] [Descriptor 1 "Inner" [] []];
     Descriptor 2 "Last" [message_field "outer" 1 0] []]
    ["Color"] ["Greeter"].
Definition extra_options : options := mkOptions false false false false false "ex".

Lemma name_ok_test : forall n,
  negb (String.eqb n "") && forallb (fun c => negb (Ascii.eqb c ".")) (list_ascii_of_string n) = true -> name_ok n.
Proof.
  intros n H. apply andb_prop in H. destruct H as [A B]. split.
  - intro E. subst n. discriminate A.
  - intro I. rewrite forallb_forall in B. specialize (B _ I). rewrite Ascii.eqb_refl in B. discriminate B.
Qed.

Example C44_case :
  package_parts ["my"; "pkg"]%string /\ p_package ex_file = package_of ["my"; "pkg"]%string /\ names_ok ex_file
  /\ placed (single_source extra_options ex_file)
     = Some [(["ex"; "my"; "pkg"], Other "Color"); (["ex"; "my"; "pkg"; "Outer_QtProtobufNested"], Define 1 "Inner");
             (["ex"; "my"; "pkg"], Define 0 "Outer"); (["ex"; "my"; "pkg"], Define 2 "Last")]%string.
Proof.
  assert (N : forall l, forallb (fun n => negb (String.eqb n "") && forallb (fun c => negb (Ascii.eqb c ".")) (list_ascii_of_string n)) l = true
    -> Forall name_ok l).
  { intros l H. apply Forall_forall. intros x I. apply name_ok_test. rewrite forallb_forall in H. apply H. exact I. }
  split; [apply (N ["my"; "pkg"]%string eq_refl) |].
  split; [reflexivity |]. split; [| reflexivity].
  split; [| split]; [| apply N; reflexivity ..].
  apply Forall_map. apply N. reflexivity.
Qed.

Definition ex_lookup (t : nat) : reference :=
  match t with
  | 1 => mkReference 1 (Some 0) 0 true "my.pkg" "my.pkg.Outer.Inner" "Inner"
  | 0 => mkReference 0 None 0 false "my.pkg" "my.pkg.Outer" "Outer"
  | _ => mkReference t None t false "my.pkg" "my.pkg.Last" "Last"
  end.

Example C44_refuted_case :
  let d := Descriptor 2 "Last" [message_field "outer" 1 0] [] in
  In 0 (dependencies d)
  /\ placed (multi_header ex_lookup extra_options "my.pkg" d)
     = Some [(["my"; "pkg"], Forward 0 "Outer"); (["ex"; "my"; "pkg"], Declare 2 "Last" [0])]%string.
Proof. split; [left; reflexivity | reflexivity]. Qed.

(** * C47: classes for messages *)

(** Classes are declared at most once, only for messages of the file that are not made for maps; each is
    declared before (forward), declared and defined alike. *)
Theorem C47_at_most_once : forall o f,
  valid_messages (p_messages f) ->
  NoDup (declared_ids (single_header o f))
  /\ (forall id, In id (declared_ids (single_header o f)) ->
        exists m, wants_class (p_messages f) m /\ d_id m = id)
  /\ forward_ids (single_header o f) = declared_ids (single_header o f)
  /\ defined_ids (single_source o f) = declared_ids (single_header o f).
Proof.
  intros o f V. destruct (header_ids o f) as (A & B). rewrite A, B, source_ids. split; [| split; [| auto]].
  - apply NoDup_subs. apply V.
  - intros id I. apply in_map_iff in I. destruct I as (m & E & I). exists m. split; [| exact E].
    apply subs_wants; assumption.
Qed.

(** Messages of the top level always get a class. *)
Theorem C47_top_level : forall o f d,
  In d (p_messages f) ->
  In (d_id d) (declared_ids (single_header o f)) /\ In (d_id d) (defined_ids (single_source o f)).
Proof.
  intros o f d I. destruct (header_ids o f) as (A & _). rewrite A, source_ids.
  assert (X : In (d_id d) (map d_id (flat_map sub (p_messages f)))).
  { apply in_map. apply in_flat_map. exists d. split; [exact I | apply sub_self]. }
  auto.
Qed.

(** Nested messages get one, at any depth, if each is the type of a field of the message around it, or that
    message has no fields.  Missing: other nested messages, see the next theorem. *)
Theorem C47_nested_partial : forall o f,
  valid_messages (p_messages f) ->
  (forall d n, wants_class (p_messages f) d -> In n (d_nested d) -> ~ map_entry d n ->
     d_fields d = [] \/ field_of_type d n) ->
  forall m, wants_class (p_messages f) m ->
    count_occ Nat.eq_dec (declared_ids (single_header o f)) (d_id m) = 1
    /\ count_occ Nat.eq_dec (defined_ids (single_source o f)) (d_id m) = 1.
Proof.
  intros o f V U m W. destruct (header_ids o f) as (A & _). rewrite A, source_ids.
  assert (I : In m (flat_map sub (p_messages f))).
  { induction W as [d D | d n W IH J M].
    - apply in_flat_map. exists d. split; [exact D | apply sub_self].
    - apply in_flat_map in IH. destruct IH as (t & T & IH). apply in_flat_map. exists t. split; [exact T |].
      eapply sub_nested; [exact IH | exact J |]. apply visited_spec. apply U; assumption. }
  assert (N : NoDup (map d_id (flat_map sub (p_messages f)))) by (apply NoDup_subs; apply V).
  assert (C : count_occ Nat.eq_dec (map d_id (flat_map sub (p_messages f))) (d_id m) = 1).
  { pose proof (proj1 (NoDup_count_occ Nat.eq_dec _) N (d_id m)) as L.
    pose proof (proj1 (count_occ_In Nat.eq_dec _ (d_id m)) (in_map d_id _ _ I)) as G. lia. }
  auto.
Qed.

(** A nested message that no field of the message around it uses (other than as values of a map) gets no
    class, in every file, if the message around it has any field. *)
Theorem C47_unused_refuted : forall o f d n,
  valid_messages (p_messages f) ->
  In d (all_messages (p_messages f)) -> In n (d_nested d) -> d_fields d <> [] -> ~ field_of_type d n ->
  ~ In (d_id n) (declared_ids (single_header o f)) /\ ~ In (d_id n) (forward_ids (single_header o f))
  /\ ~ In (d_id n) (defined_ids (single_source o f)).
Proof.
  intros o f d n V D J F U. destruct (header_ids o f) as (A & B). rewrite A, B, source_ids.
  assert (X : ~ In (d_id n) (map d_id (flat_map sub (p_messages f)))).
  { intro I. apply in_map_iff in I. destruct I as (m & E & I). apply in_flat_map in I. destruct I as (t & T & I).
    pose proof (proj1 V) as N.
    assert (Am : In m (all_messages (p_messages f)))
      by (apply in_flat_map; exists t; split; [exact T | apply sub_messages; exact I]).
    assert (An : In n (all_messages (p_messages f))) by exact (all_nested _ d n D J).
    assert (m = n) by (exact (NoDup_id_inj _ m n N Am An E)). subst m.
    (* the message around [n] is [d] and no other *)
    destruct (nested_parent (p_messages f) N d n D J) as (P1 & P2).
    destruct (sub_inv t n I) as [Q | (k & K & Jk & Vk)].
    - subst t. exact (P1 T).
    - assert (Ak : In k (all_messages (p_messages f)))
        by (apply in_flat_map; exists t; split; [exact T | apply sub_messages; exact K]).
      assert (k = d) by (apply P2; assumption). subst k.
      apply visited_spec in Vk. destruct Vk; contradiction. }
  auto.
Qed.

(** A nested message that is used only as the values of a map in the message around it is mentioned by that
    class and declared nowhere. *)
Theorem C47_undeclared_refuted : forall o f d n g,
  valid_messages (p_messages f) ->
  In d (p_messages f) -> In n (d_nested d) -> ~ field_of_type d n ->
  In g (d_fields d) -> f_map g = true -> f_qt g = false -> f_value_of g = Some (d_id n) ->
  exists a name ms b, single_header o f = a ++ Declare (d_id d) name ms :: b /\ In (d_id n) ms
    /\ ~ In (d_id n) (forward_ids (single_header o f)) /\ ~ In (d_id n) (declared_ids (single_header o f)).
Proof.
  intros o f d n g V D J U G M Q W.
  destruct (header_declare o f d) as (a & b & E).
  { apply in_flat_map. exists d. split; [exact D | apply sub_self]. }
  exists a, (upperCaseName (d_name d)), (class_mentions (d_fields d) (d_nested d)), b. split; [exact E |]. split.
  - unfold class_mentions. apply in_or_app. right. apply in_flat_map. exists g. split; [exact G |].
    unfold field_mentions. rewrite Q, M, W. left. reflexivity.
  - destruct (C47_unused_refuted o f d n V) as (A & B & _); [apply all_top; exact D | exact J | | exact U | auto].
    intro Z. rewrite Z in G. destruct G.
Qed.

(** What a class mentions, of what is declared in the file at all, is declared before it, at least forward. *)
Theorem C47_before_use : forall o f a id name ms b t,
  single_header o f = a ++ Declare id name ms :: b -> In t ms -> In t (declared_ids (single_header o f)) ->
  known a id t.
Proof.
  intros o f a id name ms b t E _ I. right. left. eapply declare_after_forwards; eassumption.
Qed.

(** With one file for each message the files together declare and define the same classes in the same
    order. *)
Theorem C47_multi_same : forall lookup o f,
  flat_map (fun d => declared_ids (multi_header lookup o (p_package f) d)) (p_messages f)
  = declared_ids (single_header o f)
  /\ flat_map (fun d => defined_ids (multi_source o (p_package f) d)) (p_messages f)
     = defined_ids (single_source o f).
Proof.
  intros lookup o f. destruct (header_ids o f) as (A & _). rewrite A, source_ids. clear A.
  assert (R : forall g, (forall d, g d = map d_id (sub d)) ->
    flat_map g (p_messages f) = map d_id (flat_map sub (p_messages f))).
  { intros g G. induction (p_messages f) as [| d ds IH]; [reflexivity |]. cbn. rewrite G, IH, map_app. reflexivity. }
  split; apply R; intro d; [apply multi_declared | apply multi_defined].
Qed.

(** There the class of the outermost message comes behind all of its nested ones; what else it mentions is
    included from the file of another message, or is a nested message that has no class at all.  Missing:
    what the nested messages mention, see the next theorem. *)
Theorem C47_multi_outermost_partial : forall lookup o package d,
  right_lookup lookup d ->
  exists a b, multi_header lookup o package d
    = a ++ Declare (d_id d) (upperCaseName (d_name d)) (class_mentions (d_fields d) (d_nested d)) :: b
  /\ forall t, In t (class_mentions (d_fields d) (d_nested d)) ->
       known a (d_id d) t
       \/ (r_highest (lookup t) <> d_id d /\ In (r_highest (lookup t)) (multi_includes lookup d))
       \/ (r_highest (lookup t) = d_id d /\ ~ In t (declared_ids (multi_header lookup o package d))).
Proof.
  intros lookup o package d R. destruct (multi_last lookup o package d) as (a & b & E & _ & K).
  exists a, b. split; [exact E |]. intros t I.
  destruct (multi_self lookup d t R I) as [S | [S | S]].
  - left. rewrite <- (multi_declared lookup o package d) in S. destruct (K t S) as [Q | Q].
    + left. exact Q.
    + right. right. exact Q.
  - right. left. exact S.
  - right. right. rewrite multi_declared. exact S.
Qed.

(** The header includes the headers, or forward declares the classes, of all messages that fields of the nested classes contain, at any depth. *)
Theorem C47_multi_inner : forall lookup o package d m f t,
  NoDup (map d_id (messages_of d)) -> In m (messages_of d) ->
  In (d_id m) (declared_ids (multi_header lookup o package d)) ->
  In f (d_fields m) -> f_type f = TMessage -> f_map f = false -> f_repeated f = false -> f_qt f = false -> f_type_of f = Some t ->
  In (r_highest (lookup t)) (multi_includes lookup d)
  /\ (r_containing (lookup t) = Some (d_id d) \/ exists n, In (Forward t n) (multi_header lookup o package d)).
Proof.
  intros lookup o package d m f t N M D F T Mp Rp Qt Tf. rewrite multi_declared in D. apply in_map_iff in D.
  destruct D as (m' & E & S). assert (M' := sub_messages d m' S).
  assert (m' = m) as ->.
  { clear - N M M' E. revert N M M'. induction (messages_of d) as [| x l IH]; intros N M M'; [destruct M |].
    cbn [map] in N. inversion N as [| ? ? Nx N']; subst. destruct M as [-> | M], M' as [-> | M'].
    - reflexivity.
    - exfalso. apply Nx. rewrite <- E. apply in_map. exact M'.
    - exfalso. apply Nx. rewrite E. apply in_map. exact M.
    - apply IH; assumption. }
  assert (P : In t (pure_types (d_fields m))).
  { unfold pure_types. apply in_flat_map. exists f. split; [exact F |]. unfold isPureMessage. rewrite T, Mp, Rp, Qt, Tf. left. reflexivity. }
  assert (Dp : In t (dependencies d)).
  { unfold dependencies. clear - S P. apply in_or_app. revert m S P.
    induction d as [id name fs nested IH] using descriptor_rect'. intros m S P. cbn [sub] in S. apply in_app_or in S.
    destruct S as [S | [<- | []]]; [| right; exact P]. left. cbn [findNestedDependency]. apply in_flat_map in S.
    destruct S as (n & I & S). apply in_flat_map. exists n. split; [exact I |].
    destruct (visited fs n); [| destruct S]. rewrite Forall_forall in IH. apply in_or_app.
    destruct (IH n I m S P) as [H | H]; [right; exact H | left; exact H]. }
  split.
  - unfold multi_includes. apply in_or_app. right. apply in_map_iff. exists t. auto.
  - destruct (match r_containing (lookup t) with Some c => Nat.eqb c (d_id d) | None => false end) eqn:C.
    + left. destruct (r_containing (lookup t)) as [c |]; [| discriminate]. apply Nat.eqb_eq in C. subst c. reflexivity.
    + right. exists (upperCaseName (r_name (lookup t))). unfold multi_header. apply in_or_app. left. apply in_flat_map.
      exists t. split; [exact Dp |]. unfold forward_dependency. rewrite C. apply in_or_app. right. left. reflexivity.
Qed.

(** A nested message with a field whose type is a nested message behind it mentions that type before it is
    declared, in every such file. *)
Theorem C47_multi_siblings_refuted : forall lookup o package id name fs l1 a l2 b l3,
  let d := Descriptor id name fs (l1 ++ a :: l2 ++ b :: l3) in
  NoDup (map d_id (messages_of d)) ->
  field_of_type d a -> field_of_type a b ->
  (forall f, In f (d_fields a) -> f_type_of f = Some (d_id b) -> f_qt f = false) ->
  r_containing (lookup (d_id b)) = Some id ->
  exists x n ms y, multi_header lookup o package d = x ++ Declare (d_id a) n ms :: y
    /\ In (d_id b) ms /\ ~ known x (d_id a) (d_id b).
Proof.
  intros lookup o package id name fs l1 a l2 b l3 d N V F Q C.
  apply (multi_siblings lookup o package id name fs l1 a l2 b l3); try assumption.
  change fs with (d_fields d). apply visited_spec. right. exact V.
Qed.

(** message Outer { message Inner { message Deep { } Deep deep = 1; } message Second { Inner inner = 1; }
    Inner inner = 1; Second second = 2; map<int32, Inner> m = 3; } *)
Definition ex_deep : descriptor :=
  Descriptor 0 "Outer"
    [message_field "inner" 1 1; message_field "second" 2 3;
     mkField "m" 3 "m" TMessage true true (Some 4) (Some 1) false]
    [Descriptor 1 "Inner" [message_field "deep" 1 2] [Descriptor 2 "Deep" [] []];
     Descriptor 3 "Second" [message_field "inner" 1 1] [];
     Descriptor 4 "MEntry" [plain_field "key" 1 TInt32 false; message_field "value" 2 1] []].
Definition ex_deep_file : file := mkFile "my.pkg" [ex_deep; Descriptor 5 "Empty" [] []] [] [].

Ltac all_cases :=
  repeat match goal with
  | H : _ \/ _ |- _ => destruct H as [H | H]
  | H : False |- _ => destruct H
  end.

Example C47_case :
  valid_messages (p_messages ex_deep_file)
  /\ (forall d n, wants_class (p_messages ex_deep_file) d -> In n (d_nested d) -> ~ map_entry d n ->
        d_fields d = [] \/ field_of_type d n)
  /\ declared_ids (single_header no_options ex_deep_file) = [2; 1; 3; 0; 5]
  /\ ~ In 4 (declared_ids (single_header no_options ex_deep_file)).
Proof.
  split; [| split; [| split]].
  - split.
    + cbn. repeat constructor; cbn; intuition discriminate.
    + intros d n D J (f & F & M & T). cbn in D. all_cases; subst d; cbn in J; all_cases; subst n;
        cbn in F; all_cases; subst f; try discriminate M; cbn in T; try discriminate T.
      split; [| reflexivity]. intros (f & F & M' & T'). cbn in F. all_cases; subst f; try discriminate M'; discriminate T'.
  - intros d n W J M. apply wants_all in W. cbn in W. all_cases; subst d; cbn in J; all_cases; subst n.
    + right. exists (message_field "inner" 1 1). repeat split. left; reflexivity.
    + right. exists (message_field "second" 2 3). repeat split. right; left; reflexivity.
    + exfalso. apply M. exists (mkField "m" 3 "m" TMessage true true (Some 4) (Some 1) false).
      repeat split. right; right; left; reflexivity.
    + right. exists (message_field "deep" 1 2). repeat split. left; reflexivity.
  - reflexivity.
  - cbn. intuition discriminate.
Qed.

(** message Outer { message Inner { } int32 id = 1; } and
    message Outer { message Inner { } map<int32, Inner> m = 1; } *)
Definition ex_unused : descriptor :=
  Descriptor 0 "Outer" [plain_field "id" 1 TInt32 false] [Descriptor 1 "Inner" [] []].
Definition ex_map_only : descriptor :=
  Descriptor 0 "Outer" [mkField "m" 1 "m" TMessage true true (Some 2) (Some 1) false]
    [Descriptor 1 "Inner" [] []; Descriptor 2 "MEntry" [plain_field "key" 1 TInt32 false; message_field "value" 2 1] []].

Example C47_refuted_case :
  declared_ids (single_header no_options (mkFile "" [ex_unused] [] [])) = [0]
  /\ ~ field_of_type ex_unused (Descriptor 1 "Inner" [] []) /\ d_fields ex_unused <> []
  /\ declared_ids (single_header no_options (mkFile "" [ex_map_only] [] [])) = [0]
  /\ ~ field_of_type ex_map_only (Descriptor 1 "Inner" [] [])
  /\ In 1 (class_mentions (d_fields ex_map_only) (d_nested ex_map_only)).
Proof.
  repeat split; try discriminate.
  - intros (f & [<- | []] & _ & T). discriminate T.
  - intros (f & [<- | []] & M & _). discriminate M.
  - left. reflexivity.
Qed.

(** message Outer { message First { Second second = 1; } message Second { } First first = 1;
    Second second = 2; } *)
Definition ex_siblings : descriptor :=
  Descriptor 0 "Outer" [message_field "first" 1 1; message_field "second" 2 2]
    [Descriptor 1 "First" [message_field "second" 1 2] []; Descriptor 2 "Second" [] []].
Definition sibling_lookup (t : nat) : reference :=
  match t with
  | 0 => mkReference 0 None 0 false "" "Outer" "Outer"
  | 1 => mkReference 1 (Some 0) 0 true "" "Outer.First" "First"
  | 2 => mkReference 2 (Some 0) 0 true "" "Outer.Second" "Second"
  | _ => mkReference t None t false "" "" ""
  end.

Example C47_siblings_case :
  field_of_type ex_siblings (Descriptor 1 "First" [message_field "second" 1 2] [])
  /\ field_of_type (Descriptor 1 "First" [message_field "second" 1 2] []) (Descriptor 2 "Second" [] [])
  /\ r_containing (sibling_lookup 2) = Some 0 /\ right_lookup sibling_lookup ex_siblings
  /\ multi_header sibling_lookup no_options "" ex_siblings
     = [Open "Outer_QtProtobufNested"; Open "First_QtProtobufNested"; Close; Declare 1 "First" [2];
        Open "Second_QtProtobufNested"; Close; Declare 2 "Second" []; Close; Declare 0 "Outer" [1; 2; 1; 2]]%string.
Proof.
  repeat split.
  - exists (message_field "first" 1 1). repeat split. left; reflexivity.
  - exists (message_field "second" 1 2). repeat split. left; reflexivity.
  - destruct t as [| [| [| t]]]; cbn; congruence.
  - destruct t as [| [| [| t]]]; cbn; congruence.
Qed.

(** message Outer { message Inner { Other other = 1; } Inner inner = 1; }, with Other in another file. *)
Definition ex_inner_user : descriptor :=
  Descriptor 0 "Outer" [message_field "inner" 1 1] [Descriptor 1 "Inner" [message_field "other" 1 2] []].
Definition inner_lookup (t : nat) : reference :=
  match t with
  | 0 => mkReference 0 None 0 false "" "Outer" "Outer"
  | 1 => mkReference 1 (Some 0) 0 true "" "Outer.Inner" "Inner"
  | _ => mkReference t None t false "other" "other.Other" "Other"
  end.
Example C47_multi_inner_case :
  NoDup (map d_id (messages_of ex_inner_user))
  /\ In 1 (declared_ids (multi_header inner_lookup no_options "" ex_inner_user))
  /\ multi_includes inner_lookup ex_inner_user = [2; 0]
  /\ In (Forward 2 "Other") (multi_header inner_lookup no_options "" ex_inner_user).
Proof.
  split; [cbn; repeat constructor; cbn; intuition discriminate |]. split; [left; reflexivity |]. split; [reflexivity |].
  right. left. reflexivity.
Qed.

(** * C57: names of classes where they are used *)

(** Fields name the class of a message by the namespaces in which it is declared (the extra namespace may be left out,
    as the name is used inside of it), if and only if the names of all messages around it start with a capital letter.
    Missing: names that are hidden by other declarations in the scope where they are printed. *)
Theorem C57_field_names_partial : forall o parts f,
  package_parts parts -> p_package f = package_of parts ->
  names_ok f -> Forall (fun d => name_ok (d_name d)) (all_messages (p_messages f)) ->
  exists l, placed (single_header o f) = Some l /\
    forall path id name ms, In (path, Declare id name ms) l ->
      exists around m, inside (p_messages f) around m /\ d_id m = id /\
        let full := package_of (parts ++ around ++ [d_name m]) in
        let used := mentioned_path o (package_of parts) full (d_name m)
                      (match around with [] => false | _ => true end) in
        (path ++ [name] = used \/ path ++ [name] = o_extra o :: used) <-> Forall capital around.
Proof.
  intros o parts f P E N A. rewrite (header_placed o parts f P E N). eexists. split; [reflexivity |].
  intros path id name ms I. rewrite !in_app_iff in I. destruct I as [I | [I | I]];
    apply in_map_iff in I; destruct I as (y & Y & I); try discriminate Y.
  destruct y as [p m]. injection Y as Yp Yi Yn Ym. cbn [fst snd] in *. subst p.
  destruct (file_spots_inside _ _ _ _ _ I) as (around & Ep & Ia). exists around, m. split; [exact Ia |]. split; [exact Yi |].
  destruct (inside_all _ _ _ Ia) as (Am & Aa). rewrite Forall_forall in A.
  assert (Nm : name_ok (d_name m)) by (apply A; exact Am).
  assert (Na : Forall name_ok around).
  { apply Forall_forall. intros n X. destruct (Aa n X) as (d & D & <-). apply A. exact D. }
  cbn zeta. subst path name. unfold mentioned_path. rewrite (nested_namespaces_parts parts around (d_name m) P Na Nm).
  destruct around as [| a around].
  - split; [intros _; constructor |]. intros _. left. cbn [app map]. rewrite app_nil_r.
    assert (Q : namespaces o (package_of (parts ++ [d_name m])) = outer_namespaces o parts).
    { unfold namespaces, outer_namespaces. rewrite getNamespaces_parts by (apply parts_snoc; assumption). reflexivity. }
    rewrite Q. reflexivity.
  - rewrite <- (nested_place_inj (a :: around)). unfold outer_namespaces. destruct (o_extra o) as [| c e].
    + split.
      * intros [H | H].
        -- apply app_inj_tail in H. destruct H as [H _]. apply app_inv_head in H. exact H.
        -- apply (f_equal (@List.length string)) in H. repeat (cbn in H; rewrite ?app_length, ?map_length in H). lia.
      * intro H. left. rewrite H. reflexivity.
    + split.
      * intros [H | H].
        -- apply (f_equal (@List.length string)) in H. repeat (cbn in H; rewrite ?app_length, ?map_length in H). lia.
        -- cbn [app] in H. injection H as H. apply app_inj_tail in H. destruct H as [H _].
           apply app_inv_head in H. exact H.
      * intro H. right. rewrite H. reflexivity.
Qed.

(** Remote procedures name the class of a message of the top level rightly if and only if its name starts with a
    capital letter. Missing: nested messages as parameters of procedures, and names hidden by other declarations. *)
Theorem C57_method_names_partial : forall o parts f,
  package_parts parts -> p_package f = package_of parts -> names_ok f ->
  exists l, placed (single_header o f) = Some l /\
    forall m, In m (p_messages f) -> valid_messages (p_messages f) ->
      exists path name ms, In (path, Declare (d_id m) name ms) l /\
        let used := method_path (package_of (parts ++ [d_name m])) in
        (path ++ [name] = used \/ path ++ [name] = o_extra o :: used) <-> capital (d_name m).
Proof.
  intros o parts f P E N. rewrite (header_placed o parts f P E N). eexists. split; [reflexivity |].
  intros m M V. exists (outer_namespaces o parts), (upperCaseName (d_name m)), (class_mentions (d_fields m) (d_nested m)).
  split.
  - rewrite !in_app_iff. right. right. apply in_map_iff. exists (outer_namespaces o parts, m). split; [reflexivity |].
    unfold file_spots. apply in_flat_map. exists m. split; [exact M |]. destruct m as [id name fs nested]. cbn [spots].
    apply in_or_app. right. left. reflexivity.
  - assert (Nm : name_ok (d_name m)) by (destruct N as (N & _); rewrite Forall_forall in N; apply N; exact M).
    cbn zeta. unfold method_path. rewrite split_parts by (apply parts_snoc; assumption).
    unfold outer_namespaces, capital. rewrite first_capital_eq. destruct (o_extra o) as [| c e].
    + split.
      * intros [H | H].
        -- apply app_inj_tail in H. apply H.
        -- apply (f_equal (@List.length string)) in H. repeat (cbn in H; rewrite ?app_length in H). lia.
      * intro H. left. rewrite H. reflexivity.
    + split.
      * intros [H | H].
        -- apply (f_equal (@List.length string)) in H. repeat (cbn in H; rewrite ?app_length in H). lia.
        -- cbn [app] in H. injection H as H. apply app_inj_tail in H. apply H.
      * intro H. right. rewrite H. reflexivity.
Qed.

Example C57_case :
  inside (p_messages ex_deep_file) ["Outer"; "Inner"]%string (Descriptor 2 "Deep" [] [])
  /\ Forall capital ["Outer"; "Inner"]%string
  /\ mentioned_path no_options "my.pkg" "my.pkg.Outer.Inner.Deep" "Deep" true
     = ["my"; "pkg"; "Outer_QtProtobufNested"; "Inner_QtProtobufNested"; "Deep"]%string.
Proof.
  split; [| split; [repeat constructor | reflexivity]].
  apply (inside_nested _ ["Outer"]%string (Descriptor 1 "Inner" [message_field "deep" 1 2] [Descriptor 2 "Deep" [] []])).
  - apply (inside_nested _ [] ex_deep); [apply inside_top; left; reflexivity | left; reflexivity].
  - left. reflexivity.
Qed.

(** message outer { message Inner { } Inner inner = 1; } *)
Example C57_refuted_case :
  let d := Descriptor 0 "outer" [message_field "inner" 1 1] [Descriptor 1 "Inner" [] []] in
  ~ capital "outer"%string
  /\ option_map (map fst) (placed (single_source no_options (mkFile "" [d] [] [])))
     = Some [["Outer_QtProtobufNested"]; []]%string
  /\ mentioned_path no_options "" "outer.Inner" "Inner" true = ["outer_QtProtobufNested"; "Inner"]%string.
Proof. split; [discriminate | split; reflexivity]. Qed.

Print Assumptions C28_deserialized.
Print Assumptions C28_distinct.
Print Assumptions C28_unknown_number.
Print Assumptions C28_serialized_partial.
Print Assumptions C28_clash_refuted.
Print Assumptions C28_names.
Print Assumptions C28_lookup_partial.
Print Assumptions C28_lookup_refuted.
Print Assumptions C44_header.
Print Assumptions C44_source.
Print Assumptions C44_services.
Print Assumptions C44_agree.
Print Assumptions C44_multi.
Print Assumptions C44_multi_forward_refuted.
Print Assumptions C45_base_name.
Print Assumptions C45_folder.
Print Assumptions C45_no_suffix_refuted.
Print Assumptions C45_multi.
Print Assumptions C45_services.
Print Assumptions C45_service_clash_refuted.
Print Assumptions C46_flags.
Print Assumptions C46_no_namespace.
Print Assumptions C46_namespace_last_partial.
Print Assumptions C46_namespace_not_last_refuted.
Print Assumptions C47_at_most_once.
Print Assumptions C47_top_level.
Print Assumptions C47_nested_partial.
Print Assumptions C47_unused_refuted.
Print Assumptions C47_undeclared_refuted.
Print Assumptions C47_before_use.
Print Assumptions C47_multi_same.
Print Assumptions C47_multi_outermost_partial.
Print Assumptions C47_multi_inner.
Print Assumptions C47_multi_siblings_refuted.
Print Assumptions C57_field_names_partial.
Print Assumptions C57_method_names_partial.
Print Assumptions C58_import_partial.
Print Assumptions C58_import_refuted.
Print Assumptions C58_own_header.
Print Assumptions C58_service_header_refuted.

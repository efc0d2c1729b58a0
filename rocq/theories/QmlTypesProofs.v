(** Proofs about the types in QML. *)

From Coq Require Import String Ascii ZArith List Bool Arith Lia Permutation.
From Verif Require Import GenModel GenSpec GenStrings GenOutput GenTypesModel GenTypesSpec GenTypesNames GenLookupModel GenLookupSpec
  GenLookupProofs GenClassSpec GenClassProofs GenClassBodies GenClassMeta QmlTypesModel QmlTypesSpec.
Import ListNotations.
Open Scope string_scope.

(** * Names *)

Lemma with_dots_join : forall l, l <> [] -> with_dots l = join "." l ++ ".".
Proof.
  induction l as [| x [| y l] IH]; intro N; [elim N; reflexivity | reflexivity |].
  cbn [with_dots] in *. rewrite IH by discriminate. rewrite join_cons, !app_assoc_s. reflexivity.
Qed.

Lemma dotted_join : forall l, dotted_string l = join "." l.
Proof.
  intros [| x l]; [reflexivity |]. unfold dotted_string. rewrite with_dots_join by discriminate.
  destruct (String.eqb_spec (join "." (x :: l) ++ ".") "") as [E | E].
  - destruct (join "." (x :: l)); discriminate E.
  - rewrite length_app_s. cbn [String.length]. rewrite Nat.add_sub. apply substring_app.
Qed.

Lemma identifier_part : forall s, identifier s -> part_ok s.
Proof.
  intros s (c & s' & E & _ & F). split; [subst s; discriminate |]. rewrite Forall_forall in F.
  assert (X : forall d, In d (list_ascii_of_string s) -> d <> "."%char /\ d <> ":"%char).
  { intros d I. destruct (F d I) as [H | [H | [H | ->]]]; [| | | split; discriminate];
      split; intros ->; cbn in H; repeat (destruct H as [H | H]; [discriminate H |]); destruct H. }
  split; intro I; apply X in I; destruct I; congruence.
Qed.

Lemma identifiers_parts : forall l, Forall identifier l -> Forall part_ok l.
Proof. intros l F. eapply Forall_impl; [| exact F]. exact identifier_part. Qed.

Lemma package_inj : forall a b, package_parts a -> package_parts b -> join "." a = join "." b -> a = b.
Proof.
  intros a b A B E.
  assert (X : name_ok "x") by (split; [discriminate | cbn; intros [H | []]; discriminate H]).
  rewrite <- (getNamespaces_parts a "x") by (apply parts_snoc; assumption).
  rewrite <- (getNamespaces_parts b "x") by (apply parts_snoc; assumption).
  unfold package_of. rewrite <- !full_name_join by assumption. unfold package_of. now rewrite E.
Qed.

(** * Registrations *)

Lemma placed_classes_spec : forall p m around, class_of p around m ->
  forall around' m', In (around', m') (placed_classes around m) -> class_of p around' m'.
Proof.
  intros p m. induction m as [id name fs es nested IH] using message_induction. intros around C around' m' I.
  cbn [placed_classes] in I. apply in_app_or in I. destruct I as [I | [I | []]]; [| now injection I as <- <-].
  apply in_flat_map in I. destruct I as (n & N & I). destruct (goes_into fs n) eqn:G; [| destruct I].
  apply (IH n N (around ++ [name])%list); [| exact I]. apply (class_nested p around _ n C).
  apply goes_into_spec. apply filter_In. split; [exact N | exact G].
Qed.

Lemma placed_self : forall m around, In (around, m) (placed_classes around m).
Proof. intros [id name fs es nested] around. cbn. apply in_or_app. right. now left. Qed.

Lemma placed_inner : forall m base around n k, In (around, n) (placed_classes base m) -> aliased n k ->
  In ((around ++ [g_name n])%list, k) (placed_classes base m).
Proof.
  intro m. induction m as [id name fs es nested IH] using message_induction. intros base around n k I A.
  cbn [placed_classes] in *. apply in_app_or in I. apply in_or_app. left. apply in_flat_map. destruct I as [I | [I | []]].
  - apply in_flat_map in I. destruct I as (c & C & I). exists c. split; [exact C |]. destruct (goes_into fs c); [| destruct I].
    exact (IH c C _ _ _ _ I A).
  - injection I as <- <-. apply goes_into_spec in A. apply filter_In in A. destruct A as [A G]. cbn in A, G. exists k.
    split; [exact A |]. rewrite G. apply placed_self.
Qed.

Lemma class_placed : forall p around m, class_of p around m -> exists t, In t (o_messages p) /\ In (around, m) (placed_classes [] t).
Proof.
  intros p around m C. induction C as [m T | around m n C (t & T & I) A].
  - exists m. split; [exact T | apply placed_self].
  - exists t. split; [exact T |]. exact (placed_inner _ _ _ _ _ I A).
Qed.

Lemma package_module : forall o parts around name, package_parts (parts ++ around ++ [name]) ->
  qml_package o (message_full (package_of parts) around name) = module o parts around.
Proof.
  intros o parts around name P. unfold qml_package, module, module_parts. rewrite dotted_join. f_equal.
  rewrite message_full_join by (apply Forall_app in P; apply P). unfold namespaces, outer_namespaces.
  change (join "." (parts ++ around ++ [name])) with (package_of (parts ++ around ++ [name])).
  rewrite app_assoc, getNamespaces_parts by (rewrite <- app_assoc; exact P). destruct (o_extra o); reflexivity.
Qed.

Lemma type_parts : forall s around name t, source_ok s -> type_of (src_file s) around name t ->
  package_parts (src_parts s ++ around ++ [name])%list.
Proof.
  intros s around name t (_ & P & N) T. destruct (N _ _ _ T) as [A B].
  apply parts_app; [apply part_package, identifiers_parts, P |].
  apply parts_app; [apply part_package, identifiers_parts, A | apply part_one, identifier_part, B].
Qed.

Lemma register_spec : forall o s u n t, source_ok s -> o_qml o = true ->
  (In (mkRegistration u n t) (qml_register o (src_file s)) <->
   exists around name, type_of (src_file s) around name t /\ u = module o (src_parts s) around /\ n = first_capital name).
Proof.
  intros o s u n t S Q. assert (P : o_package (src_file s) = package_of (src_parts s)) by apply S.
  unfold qml_register. rewrite in_app_iff, P. split.
  - intros [I | I].
    + apply in_flat_map in I. destruct I as (e & E & I). unfold qml_register_enum in I. rewrite Q in I. destruct I as [I | []].
      injection I as <- <- <-. assert (T : type_of (src_file s) [] (e_name e) (QmlEnum e)) by (constructor; exact E).
      exists [], (e_name e). split; [exact T |]. rewrite first_capital_eq. split; [| reflexivity].
      exact (package_module o (src_parts s) [] (e_name e) (type_parts _ _ _ _ S T)).
    + apply in_flat_map in I. destruct I as (m & M & I). apply in_flat_map in I. destruct I as ([around k] & K & I).
      unfold qml_register_message in I. rewrite Q in I. destruct I as [I | []]. cbn [fst snd] in I. injection I as <- <- <-.
      assert (C : class_of (src_file s) around k) by (apply (placed_classes_spec _ m []); [constructor; exact M | exact K]).
      assert (T := type_message _ _ _ C). exists around, (g_name k). split; [exact T |]. rewrite first_capital_eq. split; [| reflexivity].
      apply package_module. exact (type_parts _ _ _ _ S T).
  - intros (around & name & T & -> & ->). assert (F := type_parts _ _ _ _ S T). destruct T as [around m C | e E].
    + right. destruct (class_placed _ _ _ C) as (k & K & I). apply in_flat_map. exists k. split; [exact K |].
      apply in_flat_map. exists (around, m). split; [exact I |]. unfold qml_register_message. rewrite Q. left. cbn [fst snd].
      rewrite first_capital_eq. f_equal. apply package_module. exact F.
    + left. apply in_flat_map. exists e. split; [exact E |]. unfold qml_register_enum. rewrite Q. left.
      rewrite first_capital_eq. f_equal. exact (package_module o (src_parts s) [] (e_name e) F).
Qed.

Lemma registered_spec : forall o program u n t, Forall source_ok program -> o_qml o = true ->
  (In (mkRegistration u n t) (registered o program) <->
   exists place name, type_in o program place name t /\ u = join "." place /\ n = first_capital name).
Proof.
  intros o program u n t S Q. rewrite Forall_forall in S. unfold registered. rewrite in_flat_map. split.
  - intros (s & I & R). apply (register_spec o s u n t (S s I) Q) in R. destruct R as (around & name & T & -> & ->).
    exists (module_parts o (src_parts s) around), name. split; [| split; reflexivity]. exists s, around. auto.
  - intros (place & name & (s & around & I & T & ->) & -> & ->). exists s. split; [exact I |].
    apply (register_spec o s _ _ t (S s I) Q). exists around, name. auto.
Qed.

(** * Lookup *)

Lemma resolve_in : forall l u n t, resolve l u n = Some t -> In (mkRegistration u n t) l.
Proof.
  intros l u n t R. unfold resolve in R. destruct (find _ l) as [[u' n' t'] |] eqn:F; [| discriminate R].
  injection R as <-. apply find_some in F. destruct F as [I E]. cbn in E. apply andb_prop in E. destruct E as [E1 E2].
  apply String.eqb_eq in E1, E2. now subst.
Qed.

Lemma resolve_some : forall l u n t, In (mkRegistration u n t) l -> exists t', resolve l u n = Some t'.
Proof.
  intros l u n t I. unfold resolve. destruct (find _ l) as [r |] eqn:F; [now exists (r_type r) |].
  exfalso. apply (find_none _ _ F) in I. cbn in I. rewrite !String.eqb_refl in I. discriminate I.
Qed.

Lemma place_parts : forall o program place n t, (o_extra o = "" \/ identifier (o_extra o)) -> Forall source_ok program ->
  type_in o program place n t -> Forall identifier place /\ identifier n.
Proof.
  intros o program place n t E S (s & around & I & T & ->). rewrite Forall_forall in S. destruct (S s I) as (_ & P & N).
  destruct (N _ _ _ T) as [A B]. split; [| exact B]. unfold module_parts. apply Forall_app. split; [| exact A].
  unfold outer_namespaces. destruct (o_extra o) eqn:X; [exact P |]. constructor; [| exact P]. destruct E as [E | E]; [discriminate E | exact E].
Qed.

Lemma resolve_type : forall o program l place n t, (o_extra o = "" \/ identifier (o_extra o)) -> Forall source_ok program ->
  o_qml o = true -> Permutation l (registered o program) -> names_apart o program -> type_in o program place n t ->
  resolve l (join "." place) (first_capital n) = Some t.
Proof.
  intros o program l place n t E S Q Pm Ap T.
  assert (I : In (mkRegistration (join "." place) (first_capital n) t) l).
  { apply (Permutation_in _ (Permutation_sym Pm)). apply (registered_spec _ _ _ _ _ S Q). exists place, n. auto. }
  destruct (resolve_some _ _ _ _ I) as (t' & R). rewrite R. f_equal. apply resolve_in in R.
  apply (Permutation_in _ Pm) in R. apply (registered_spec _ _ _ _ _ S Q) in R. destruct R as (place' & n' & T' & U & N).
  assert (place = place').
  { destruct (place_parts _ _ _ _ _ E S T) as [P _], (place_parts _ _ _ _ _ E S T') as [P' _].
    apply package_inj; [apply part_package, identifiers_parts, P | apply part_package, identifiers_parts, P' | exact U]. }
  subst place'. symmetry. exact (Ap place n t n' t' T T' N).
Qed.

(** * Documents *)

Lemma importable_iff : forall place, Forall identifier place -> (importable (join "." place) <-> place <> []).
Proof.
  intros place F. split.
  - intros (parts & N & G & E) ->. symmetry in E. revert E. apply dots_nonempty; [apply part_package, identifiers_parts, G | exact N].
  - intro N. exists place. auto.
Qed.

Lemma import_chars : forall uri, importable uri -> Forall (fun c => name_char c \/ c = "."%char) (list_ascii_of_string uri).
Proof.
  assert (X : forall a b, list_ascii_of_string (a ++ b) = (list_ascii_of_string a ++ list_ascii_of_string b)%list).
  { induction a as [| c a IH]; intro b; [reflexivity |]. cbn. now rewrite IH. }
  intros uri (parts & _ & F & ->). induction F as [| x l H F IH]; [constructor |].
  assert (Hx : Forall (fun c => name_char c \/ c = "."%char) (list_ascii_of_string x)).
  { destruct H as (c & s & _ & _ & H). eapply Forall_impl; [| exact H]. intros d D. now left. }
  destruct l as [| y l]; [exact Hx |]. rewrite join_cons, !X. apply Forall_app. split; [exact Hx |]. cbn [list_ascii_of_string app].
  constructor; [right; reflexivity |]. exact IH.
Qed.

Lemma capital_char : forall c, In c capital_letters <-> is_capital c = true.
Proof.
  intro c. split.
  - intro H. cbn in H. repeat (destruct H as [<- | H]; [reflexivity |]). destruct H.
  - destruct c as [[] [] [] [] [] [] [] []]; vm_compute; intro H; try discriminate H; repeat (try (now left); right).
Qed.

Lemma upper_char : forall c, In c small_letters \/ In c capital_letters -> In (to_capital c) capital_letters.
Proof.
  intros c [H | H]; cbn in H; repeat (destruct H as [<- | H]; [vm_compute; repeat (try (now left); right) |]); destruct H.
Qed.

Lemma other_char : forall c, name_char c -> ~ In c digits -> ~ (In c small_letters \/ In c capital_letters) -> c = "_"%char.
Proof. intros c [H | [H | [H | H]]] D L; [elim L; now left | elim L; now right | contradiction | exact H]. Qed.

Lemma name_iff : forall n, identifier n -> (type_name (first_capital n) <-> starts_with_letter n).
Proof.
  intros n (c & s & -> & D & F). cbn [first_capital list_ascii_of_string] in *. inversion F as [| ? ? Nc Fs]; subst. split.
  - intros (_ & c' & s' & E & K). injection E as <- <-. exists c, s. split; [reflexivity |]. destruct Nc as [L | [L | [L | L]]].
    + now left.
    + now right.
    + contradiction.
    + subst c. vm_compute in K. repeat (destruct K as [K | K]; [discriminate K |]). destruct K.
  - intros (c' & s' & E & K). injection E as <- <-. apply upper_char in K. split; [| now exists (to_capital c), s].
    exists (to_capital c), s. split; [reflexivity |]. split; [apply letters_not_digits; now right |]. cbn [list_ascii_of_string].
    constructor; [right; now left | exact Fs].
Qed.

(** * Values *)

Lemma meta_value : forall t n z, In (n, z) (meta_enumerators t) <-> exists v, value_in t v z /\ n = first_capital v.
Proof.
  assert (X : forall e n z, In (n, z) (enumerators e) <-> exists v, In (v, z) (e_values e) /\ n = first_capital v).
  { intros e n z. unfold enumerators. rewrite in_map_iff. split.
    - intros ([v y] & E & I). cbn in E. injection E as <- <-. exists v. rewrite first_capital_eq. auto.
    - intros (v & I & ->). exists (v, z). cbn. rewrite first_capital_eq. auto. }
  intros [m | e] n z; cbn [meta_enumerators value_in]; [| apply X]. rewrite in_flat_map. split.
  - intros (e & E & I). apply X in I. destruct I as (v & I & ->). exists v. split; [now exists e | reflexivity].
  - intros (v & (e & E & I) & ->). exists e. split; [exact E |]. apply X. now exists v.
Qed.

Lemma value_found : forall l u n t v z, resolve l u n = Some t -> values_apart t -> value_in t v z -> starts_with_letter v ->
  qml_value l u n (first_capital v) = Some z.
Proof.
  intros l u n t v z R Ap I (c & s & -> & L). unfold qml_value. rewrite R. cbn [first_capital].
  assert (K : is_capital (to_capital c) = true) by (apply capital_char, upper_char; exact L). rewrite K.
  change (String (to_capital c) s) with (first_capital (String c s)).
  destruct (find _ (meta_enumerators t)) as [[v' z'] |] eqn:F.
  - cbn. f_equal. apply find_some in F. destruct F as [F E]. apply String.eqb_eq in E. cbn [fst] in E. subst v'.
    apply meta_value in F. destruct F as (w & W & E). symmetry. exact (Ap _ _ _ _ I W E).
  - exfalso. assert (J : In (first_capital (String c s), z) (meta_enumerators t)) by (apply meta_value; eexists; split; [exact I | reflexivity]).
    apply (find_none _ _ F) in J. cbn [fst] in J. rewrite String.eqb_refl in J. discriminate J.
Qed.

(** * The class *)

Lemma qml_class_text : forall o pt at_ nt, (o_extra o = "" \/ part_ok (o_extra o)) -> message_names_ok pt at_ nt ->
  qml_class o (mkMessageRef (package_of pt) at_ nt) = text (target_namespaces o pt at_ ++ [first_capital nt])%list.
Proof.
  intros o pt at_ nt E M. unfold qml_class, message_scope_type, message_scope_namespaces.
  rewrite (nested_namespace_list_spec o pt at_ nt M). cbn [mr_name scope_namespaces]. rewrite namespaces_string_join.
  unfold getScopeNamespacesString. cbn [String.eqb]. rewrite <- first_capital_eq. apply in_namespace_text.
  destruct M as (P & A & N). apply part_target; assumption.
Qed.

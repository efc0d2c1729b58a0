(** C86: generated types in QML. *)

From Coq Require Import String Ascii ZArith List Bool Arith Lia Permutation.
From Verif Require Import GenModel GenSpec GenStrings GenOutput GenTypesModel GenTypesSpec GenTypesNames GenLookupModel GenLookupSpec
  GenLookupProofs GenClassSpec QmlTypesModel QmlTypesSpec QmlTypesProofs.
Import ListNotations.
Open Scope string_scope.

(** What is registered with QML: each message that has a class and each enumeration of the top level, in the module that its
    package and the messages around it make, by its name with a capital letter; and nothing else. *)
Theorem C86_registered : forall o program u n t, Forall source_ok program -> o_qml o = true ->
  (In (mkRegistration u n t) (registered o program) <->
   exists place name, type_in o program place name t /\ u = join "." place /\ n = first_capital name).
Proof. exact registered_spec. Qed.

(** Without the option nothing is registered. *)
Theorem C86_not_asked : forall o program, o_qml o = false -> registered o program = [].
Proof.
  intros o program Q. unfold registered. induction program as [| s program IH]; [reflexivity |]. cbn [flat_map]. rewrite IH, app_nil_r.
  unfold qml_register.
  assert (A : forall (X : Type) (f : X -> list registration) l, (forall x, f x = []) -> flat_map f l = []).
  { intros X f l H. induction l as [| x l I]; [reflexivity |]. cbn. now rewrite H, I. }
  rewrite (A enum), (A message); [reflexivity | |].
  - intro m. apply A. intro am. unfold qml_register_message. now rewrite Q.
  - intro e. unfold qml_register_enum. now rewrite Q.
Qed.

(** In whatever order the registration functions run, the module and name of a type give that type.  Missing: types of one place
    with names that differ in the case of the first letter, see the next theorem. *)
Theorem C86_resolve_partial : forall o program l place n t, (o_extra o = "" \/ identifier (o_extra o)) -> Forall source_ok program ->
  o_qml o = true -> Permutation l (registered o program) -> names_apart o program ->
  type_in o program place n t -> resolve l (join "." place) (first_capital n) = Some t.
Proof. exact resolve_type. Qed.

(** A message Foo and an enumeration foo are different names for protoc and become different classes in C++, but one name in
    QML: one of the two types cannot be had, in no order of registration. *)
Theorem C86_collision_refuted : forall o program l place n t n' t', Forall source_ok program -> o_qml o = true ->
  Permutation l (registered o program) -> type_in o program place n t -> type_in o program place n' t' ->
  first_capital n = first_capital n' -> t <> t' ->
  In (mkRegistration (join "." place) (first_capital n) t) l /\ In (mkRegistration (join "." place) (first_capital n') t') l
  /\ ~ (resolve l (join "." place) (first_capital n) = Some t /\ resolve l (join "." place) (first_capital n') = Some t').
Proof.
  intros o program l place n t n' t' S Q Pm T T' E D.
  assert (I : forall m x, type_in o program place m x -> In (mkRegistration (join "." place) (first_capital m) x) l).
  { intros m x X. apply (Permutation_in _ (Permutation_sym Pm)). apply (registered_spec _ _ _ _ _ S Q). exists place, m. auto. }
  split; [exact (I _ _ T) |]. split; [exact (I _ _ T') |]. rewrite E. intros [A B]. congruence.
Qed.

(** The module of a type can be imported if its file has a package (or the type is inside of a message, or there is an extra
    namespace), and its name can be written if it starts with a letter.  Missing: all other types, see the next theorems. *)
Theorem C86_usable_partial : forall o program place n t, (o_extra o = "" \/ identifier (o_extra o)) -> Forall source_ok program ->
  type_in o program place n t ->
  (importable (join "." place) <-> place <> []) /\ (type_name (first_capital n) <-> starts_with_letter n).
Proof.
  intros o program place n t E S T. destruct (place_parts _ _ _ _ _ E S T) as [P N].
  split; [exact (importable_iff place P) | exact (name_iff n N)].
Qed.

(** The types of the top level of a file without package are registered in a module without name: no import gives them. *)
Theorem C86_no_package_refuted : forall o s n t, source_ok s -> o_qml o = true -> o_extra o = "" -> src_parts s = [] ->
  type_of (src_file s) [] n t ->
  In (mkRegistration "" (first_capital n) t) (registered o [s])
  /\ (forall u m, In (mkRegistration u m t) (registered o [s]) -> (forall around m', type_of (src_file s) around m' t -> around = []) ->
      ~ importable u).
Proof.
  intros o s n t S Q E P T. assert (F : Forall source_ok [s]) by (constructor; [exact S | constructor]).
  assert (M : module_parts o [] [] = []) by (unfold module_parts, outer_namespaces; rewrite E; reflexivity). split.
  - apply (registered_spec _ _ _ _ _ F Q). exists [], n. split; [| split; reflexivity]. exists s, []. split; [now left |].
    split; [exact T |]. rewrite P. symmetry. exact M.
  - intros u m I O. apply (registered_spec _ _ _ _ _ F Q) in I. destruct I as (place & name & (s' & around & [<- | []] & T' & ->) & -> & _).
    rewrite (O _ _ T'), P, M. intro X. apply (importable_iff [] (Forall_nil _)) in X. now apply X.
Qed.

(** A type with a name that starts with an underscore cannot be named in QML. *)
Theorem C86_underscore_refuted : forall o program place n t, (o_extra o = "" \/ identifier (o_extra o)) -> Forall source_ok program ->
  type_in o program place n t -> (exists s, n = String "_" s) -> ~ type_name (first_capital n).
Proof.
  intros o program place n t E S T (s & ->) X. apply (C86_usable_partial o program place _ t E S T) in X.
  destruct X as (c & s' & Q & L). injection Q as <- <-.
  destruct L as [L | L]; vm_compute in L; repeat (destruct L as [L | L]; [discriminate L |]); destruct L.
Qed.

(** With an extra namespace like a::b, which C++ takes, no generated type is in a module that can be imported. *)
Theorem C86_extra_refuted : forall o parts around, In ":"%char (list_ascii_of_string (o_extra o)) ->
  ~ importable (module o parts around).
Proof.
  intros o parts around C X. apply import_chars in X. rewrite Forall_forall in X.
  assert (I : In ":"%char (list_ascii_of_string (module o parts around))).
  { unfold module, module_parts, outer_namespaces. destruct (o_extra o) as [| c e] eqn:E; [destruct C |].
    assert (A : forall a b, list_ascii_of_string (a ++ b) = (list_ascii_of_string a ++ list_ascii_of_string b)%list).
    { induction a as [| d a IH]; intro b; [reflexivity |]. cbn. now rewrite IH. }
    destruct (parts ++ around)%list as [| y l] eqn:L; rewrite <- app_comm_cons, L; [exact C |].
    rewrite join_cons, A. apply in_or_app. left. exact C. }
  destruct (X _ I) as [[H | [H | [H | H]]] | H]; try discriminate H;
    cbn in H; repeat (destruct H as [H | H]; [discriminate H |]); destruct H.
Qed.

(** The values of the enumerations of a type can be had by their names with a capital letter, and have their numbers.
    Missing: names that do not start with a letter, see the next theorem, or differ in the case of the first letter only (these do
    not compile, C63). *)
Theorem C86_values_partial : forall o program l place n t v z, (o_extra o = "" \/ identifier (o_extra o)) -> Forall source_ok program ->
  o_qml o = true -> Permutation l (registered o program) -> names_apart o program ->
  type_in o program place n t -> values_apart t -> value_in t v z -> starts_with_letter v ->
  qml_value l (join "." place) (first_capital n) (first_capital v) = Some z.
Proof.
  intros o program l place n t v z E S Q Pm Ap T Va I L.
  exact (value_found l _ _ t v z (resolve_type o program l place n t E S Q Pm Ap T) Va I L).
Qed.

(** A value with a name that starts with an underscore cannot be had. *)
Theorem C86_underscore_value_refuted : forall l u n s, qml_value l u n (first_capital (String "_" s)) = None.
Proof. intros l u n s. unfold qml_value. destruct (resolve l u n); reflexivity. Qed.

(** The class that the call of qmlRegisterType names is found by C++ as the class of the message, from where the call stands, if
    nothing of the same name is further in.  Missing: names of outer messages with small letters, and hidden names, see the
    next theorem. *)
Theorem C86_class_partial : forall declared o pt at_ nt, (o_extra o = "" \/ part_ok (o_extra o)) -> message_names_ok pt at_ nt ->
  Forall capital at_ -> closed declared -> declared (class_path o pt at_ nt) ->
  exists outer parts,
    qml_class o (mkMessageRef (package_of pt) at_ nt) = text parts
    /\ class_path o pt at_ nt = (outer ++ parts)%list
    /\ (found declared (class_path o pt at_ nt) parts (class_path o pt at_ nt)
        <-> ~ hidden declared (class_path o pt at_ nt) outer parts).
Proof.
  intros D o pt at_ nt E M C Cl Dp.
  assert (X : exists outer, class_path o pt at_ nt = (outer ++ target_namespaces o pt at_ ++ [first_capital nt])%list).
  { unfold class_path, target_namespaces. destruct at_ as [| a at_].
    - exists []. cbn [map app]. reflexivity.
    - exists (match o_extra o with EmptyString => [] | e => [e] end).
      assert (W : map (fun a => (first_capital a ++ "_QtProtobufNested")%string) (a :: at_) = printed_nested (a :: at_)).
      { unfold printed_nested. apply map_ext_in. intros x Ix. rewrite Forall_forall in C. unfold capital in C. rewrite (C x Ix). reflexivity. }
      rewrite W. unfold outer_namespaces. destruct (o_extra o); cbn [app]; rewrite <- app_assoc; reflexivity. }
  destruct X as (outer & X). exists outer, (target_namespaces o pt at_ ++ [first_capital nt])%list.
  split; [exact (qml_class_text o pt at_ nt E M) |]. split; [exact X |]. rewrite X in *.
  refine (found_not_hidden D _ outer _ _ Cl _ eq_refl Dp). destruct (target_namespaces o pt at_); discriminate.
Qed.

(** In a package in which the first part comes again, like a.b.a, the call names no class. *)
Theorem C86_class_refuted : forall declared o b r1 r2 at_ nt, o_extra o = "" ->
  message_names_ok (b :: r1 ++ b :: r2)%list at_ nt -> Forall capital at_ -> closed declared ->
  declared (class_path o (b :: r1 ++ b :: r2)%list at_ nt) ->
  exists parts, qml_class o (mkMessageRef (package_of (b :: r1 ++ b :: r2)%list) at_ nt) = text parts
    /\ ~ found declared (class_path o (b :: r1 ++ b :: r2)%list at_ nt) parts (class_path o (b :: r1 ++ b :: r2)%list at_ nt).
Proof.
  intros D o b r1 r2 at_ nt E M C Cl Dp. set (pt := (b :: r1 ++ b :: r2)%list) in *.
  destruct (C86_class_partial D o pt at_ nt (or_introl E) M C Cl Dp) as (outer & parts & T & P & F).
  exists parts. split; [exact T |]. intro G. apply F in G. apply G. clear F G.
  assert (Q : parts = (target_namespaces o pt at_ ++ [first_capital nt])%list /\ outer = []).
  { assert (Fp : Forall part_ok parts).
    { assert (Fc : Forall part_ok (class_path o pt at_ nt)).
      { assert (X : class_path o pt at_ nt = (target_namespaces o pt at_ ++ [first_capital nt])%list).
        { unfold class_path, target_namespaces, outer_namespaces. rewrite E. destruct at_ as [| a at_]; [reflexivity |].
          rewrite <- app_assoc. f_equal. f_equal. unfold printed_nested. apply map_ext_in. intros x Ix. rewrite Forall_forall in C.
          unfold capital in C. rewrite (C x Ix). reflexivity. }
        rewrite X. destruct M as (Pp & Pa & Pn). apply Forall_app. split; [apply part_target; auto |]. constructor; [| constructor].
        exact (part_capital nt Pn). }
      rewrite P in Fc. apply Forall_app in Fc. apply Fc. }
    rewrite (qml_class_text o pt at_ nt (or_introl E) M) in T.
    assert (Q : (target_namespaces o pt at_ ++ [first_capital nt])%list = parts).
    { apply text_inj; [| exact Fp | exact T]. destruct M as (Pp & Pa & Pn). apply Forall_app. split; [apply part_target; auto |].
      constructor; [exact (part_capital nt Pn) | constructor]. }
    split; [symmetry; exact Q |]. subst parts.
    assert (L : List.length (class_path o pt at_ nt) = List.length (target_namespaces o pt at_ ++ [first_capital nt])%list).
    { unfold class_path, target_namespaces, outer_namespaces. rewrite E. destruct at_ as [| a at_]; [reflexivity |].
      rewrite !app_length, map_length. unfold printed_nested. rewrite map_length. cbn. lia. }
    rewrite P, app_length in L. destruct outer; [reflexivity | cbn in L; lia]. }
  destruct Q as [-> ->].
  assert (Fi : first_part (target_namespaces o pt at_ ++ [first_capital nt])%list = b).
  { unfold target_namespaces, outer_namespaces. rewrite E. destruct at_; reflexivity. }
  assert (Sp : exists inner, class_path o pt at_ nt = ((b :: r1) ++ b :: inner)%list).
  { unfold class_path, outer_namespaces. rewrite E. unfold pt. eexists. cbn [app]. rewrite <- app_assoc. cbn [app]. reflexivity. }
  destruct Sp as (inner & Sp). exists (b :: r1), (b :: inner). split; [exact Sp |]. split; [cbn; lia |]. rewrite Fi.
  apply (Cl ((b :: r1) ++ [b])%list inner); [| destruct r1; discriminate]. rewrite <- app_assoc. cbn [app] in *. now rewrite <- Sp.
Qed.

(** * Cases *)

Definition ex_options : options := mkOptions false true false false false "".
Definition ex_kind : enum := mkEnum 7 "kind" [("none", 0%Z); ("Many", 4%Z)].
Definition ex_color : enum := mkEnum 8 "Color" [("RED", 0%Z); ("_dark", 1%Z)].
Definition ex_inner : message := Message 2 "inner" [] [] [].
Definition ex_outer : message := Message 1 "Outer" [mkMField "f" 1 (One (Mess 2))] [ex_color] [ex_inner].
Definition ex_source : source := mkSource ["my"; "app"] (mkProto "my.app" [ex_outer] [ex_kind]).

Lemma ex_types : forall around name t, type_of (src_file ex_source) around name t ->
  (around = [] /\ name = "Outer" /\ t = QmlMessage ex_outer) \/ (around = ["Outer"] /\ name = "inner" /\ t = QmlMessage ex_inner)
  \/ (around = [] /\ name = "kind" /\ t = QmlEnum ex_kind).
Proof.
  assert (C : forall around m, class_of (src_file ex_source) around m ->
    (around = [] /\ m = ex_outer) \/ (around = ["Outer"] /\ m = ex_inner)).
  { intros around m C. induction C as [m [<- | []] | around m n C IH A]; [now left |].
    destruct IH as [[-> ->] | [-> ->]]; destruct A as [A _]; [| destruct A]. destruct A as [<- | []]. now right. }
  intros around name t T. destruct T as [around m T | e [<- | []]]; [| right; right; auto].
  destruct (C _ _ T) as [[-> ->] | [-> ->]]; [left | right; left]; auto.
Qed.

Definition is_in (c : ascii) (l : list ascii) : bool := existsb (Ascii.eqb c) l.
Definition identifier_check (s : string) : bool :=
  match s with
  | EmptyString => false
  | String c _ => negb (is_in c digits) && forallb (fun d => is_in d (small_letters ++ capital_letters ++ digits ++ ["_"%char])%list) (list_ascii_of_string s)
  end.
Lemma identifier_check_ok : forall s, identifier_check s = true -> identifier s.
Proof.
  intros [| c s] H; [discriminate H |]. unfold identifier_check in H. apply andb_prop in H. destruct H as [D F].
  exists c, s. split; [reflexivity |]. split.
  - intro I. apply negb_true_iff in D. assert (X : is_in c digits = true) by (apply existsb_exists; exists c; split; [exact I | apply Ascii.eqb_refl]). congruence.
  - apply Forall_forall. intros d I. rewrite forallb_forall in F. apply F in I. unfold is_in in I. apply existsb_exists in I.
    destruct I as (e & I & E). apply Ascii.eqb_eq in E. subst e. rewrite !in_app_iff in I. unfold name_char. cbn [In] in I. intuition auto.
Qed.
Ltac ident := apply identifier_check_ok; reflexivity.
Ltac idents := repeat (apply Forall_cons; [ident |]); apply Forall_nil.

Lemma ex_source_ok : source_ok ex_source.
Proof.
  split; [reflexivity |]. split; [idents |]. intros around name t T.
  destruct (ex_types _ _ _ T) as [(-> & -> & _) | [(-> & -> & _) | (-> & -> & _)]]; (split; [idents | ident]).
Qed.

Lemma ex_inner_in : type_in ex_options [ex_source] ["my"; "app"; "Outer"] "inner" (QmlMessage ex_inner).
Proof.
  exists ex_source, ["Outer"]. split; [now left |]. split; [| reflexivity]. apply (type_message _ ["Outer"] ex_inner).
  apply (class_nested _ [] ex_outer); [apply class_top; now left |]. split; [now left |]. right. eexists. split; [now left | now left].
Qed.

Lemma ex_apart : names_apart ex_options [ex_source].
Proof.
  intros place n t n' t' (s & around & [<- | []] & T & E) (s' & around' & [<- | []] & T' & E') F.
  destruct (ex_types _ _ _ T) as [(-> & -> & ->) | [(-> & -> & ->) | (-> & -> & ->)]],
    (ex_types _ _ _ T') as [(-> & -> & ->) | [(-> & -> & ->) | (-> & -> & ->)]]; try reflexivity;
    vm_compute in F; try discriminate F; rewrite E in E'; discriminate E'.
Qed.

(** The message inner of Outer is registered as Inner of the module my.app.Outer, and found there, wherever it is registered
    first or last. *)
Example C86_inner_case :
  resolve (rev (registered ex_options [ex_source])) "my.app.Outer" "Inner" = Some (QmlMessage ex_inner)
  /\ importable "my.app.Outer" /\ type_name "Inner".
Proof.
  assert (S : Forall source_ok [ex_source]) by (constructor; [exact ex_source_ok | constructor]).
  split.
  - apply (C86_resolve_partial ex_options [ex_source] _ ["my"; "app"; "Outer"] "inner"); try assumption; try reflexivity.
    + now left.
    + apply Permutation_sym, Permutation_rev.
    + exact ex_apart.
    + exact ex_inner_in.
  - destruct (C86_usable_partial ex_options [ex_source] _ _ _ (or_introl eq_refl) S ex_inner_in) as [A B].
    split; [apply A; discriminate | apply B]. exists "i"%char, "nner". split; [reflexivity |]. left. vm_compute. intuition auto.
Qed.

(** Kind.None and Kind.Many of module my.app, and Outer.RED. *)
Example C86_values_case :
  qml_value (registered ex_options [ex_source]) "my.app" "Kind" "None" = Some 0%Z
  /\ qml_value (registered ex_options [ex_source]) "my.app" "Kind" "Many" = Some 4%Z
  /\ qml_value (registered ex_options [ex_source]) "my.app" "Outer" "RED" = Some 0%Z.
Proof.
  assert (S : Forall source_ok [ex_source]) by (constructor; [exact ex_source_ok | constructor]).
  assert (K : type_in ex_options [ex_source] ["my"; "app"] "kind" (QmlEnum ex_kind)).
  { exists ex_source, []. split; [now left |]. split; [apply (type_enum _ ex_kind); now left | reflexivity]. }
  assert (O : type_in ex_options [ex_source] ["my"; "app"] "Outer" (QmlMessage ex_outer)).
  { exists ex_source, []. split; [now left |]. split; [apply (type_message _ [] ex_outer), class_top; now left | reflexivity]. }
  assert (Kv : values_apart (QmlEnum ex_kind)).
  { intros a b x y [A | [A | []]] [B | [B | []]] E; injection A as <- <-; injection B as <- <-; try reflexivity; discriminate E. }
  assert (Ov : values_apart (QmlMessage ex_outer)).
  { intros a b x y (e & [<- | []] & [A | [A | []]]) (e' & [<- | []] & [B | [B | []]]) E; injection A as <- <-; injection B as <- <-;
      try reflexivity; discriminate E. }
  split; [| split].
  - apply (C86_values_partial ex_options [ex_source] _ ["my"; "app"] "kind" (QmlEnum ex_kind) "none" 0%Z); auto.
    + exact ex_apart.
    + now left.
    + exists "n"%char, "one". split; [reflexivity |]. left. vm_compute. intuition auto.
  - apply (C86_values_partial ex_options [ex_source] _ ["my"; "app"] "kind" (QmlEnum ex_kind) "Many" 4%Z); auto.
    + exact ex_apart.
    + right. now left.
    + exists "M"%char, "any". split; [reflexivity |]. right. vm_compute. intuition auto.
  - apply (C86_values_partial ex_options [ex_source] _ ["my"; "app"] "Outer" (QmlMessage ex_outer) "RED" 0%Z); auto.
    + exact ex_apart.
    + exists ex_color. split; [now left | now left].
    + exists "R"%char, "ED". split; [reflexivity |]. right. vm_compute. intuition auto.
Qed.

(** A message Foo and an enumeration foo. *)
Definition ex_foo : message := Message 1 "Foo" [] [] [].
Definition ex_foo_enum : enum := mkEnum 2 "foo" [("a", 0%Z)].
Definition ex_foos : source := mkSource ["p"] (mkProto "p" [ex_foo] [ex_foo_enum]).

Lemma ex_foos_ok : source_ok ex_foos.
Proof.
  assert (C : forall around m, class_of (src_file ex_foos) around m -> around = [] /\ m = ex_foo).
  { intros around m C. induction C as [m [<- | []] | around m n C [-> ->] A]; [auto |]. destruct A as [[] _]. }
  split; [reflexivity |]. split; [idents |]. intros around name t T. destruct T as [around m T | e [<- | []]].
  - destruct (C _ _ T) as [-> ->]. split; [constructor | ident].
  - split; [constructor | ident].
Qed.

Example C86_collision_case :
  ~ (resolve (registered ex_options [ex_foos]) "p" "Foo" = Some (QmlMessage ex_foo)
     /\ resolve (registered ex_options [ex_foos]) "p" "Foo" = Some (QmlEnum ex_foo_enum)).
Proof.
  assert (S : Forall source_ok [ex_foos]) by (constructor; [exact ex_foos_ok | constructor]).
  apply (C86_collision_refuted ex_options [ex_foos] (registered ex_options [ex_foos]) ["p"] "Foo" (QmlMessage ex_foo) "foo"
    (QmlEnum ex_foo_enum) S eq_refl (Permutation_refl _)).
  - exists ex_foos, []. split; [now left |]. split; [apply (type_message _ [] ex_foo), class_top; now left | reflexivity].
  - exists ex_foos, []. split; [now left |]. split; [apply (type_enum _ ex_foo_enum); now left | reflexivity].
  - reflexivity.
  - discriminate.
Qed.

(** A file without package. *)
Definition ex_bare : source := mkSource [] (mkProto "" [ex_foo] []).
Example C86_no_package_case : In (mkRegistration "" "Foo" (QmlMessage ex_foo)) (registered ex_options [ex_bare])
  /\ forall u m, In (mkRegistration u m (QmlMessage ex_foo)) (registered ex_options [ex_bare]) -> ~ importable u.
Proof.
  assert (C : forall around m, class_of (src_file ex_bare) around m -> around = [] /\ m = ex_foo).
  { intros around m C. induction C as [m [<- | []] | around m n C [-> ->] A]; [auto |]. destruct A as [[] _]. }
  assert (Y : forall around name t, type_of (src_file ex_bare) around name t -> around = [] /\ name = "Foo").
  { intros around name t T. destruct T as [around m T | e []]. destruct (C _ _ T) as [-> ->]. auto. }
  assert (S : source_ok ex_bare).
  { split; [reflexivity |]. split; [constructor |]. intros around name t T. destruct (Y _ _ _ T) as [-> ->].
    split; [constructor | ident]. }
  destruct (C86_no_package_refuted ex_options ex_bare "Foo" (QmlMessage ex_foo) S eq_refl eq_refl eq_refl) as [A B].
  - apply (type_message _ [] ex_foo), class_top. now left.
  - split; [exact A |]. intros u m I. apply (B u m I). intros around m' T. exact (proj1 (Y _ _ _ T)).
Qed.

(** Underscores, extra namespaces of two parts. *)
Definition ex_hidden : message := Message 1 "_foo" [] [] [].
Example C86_underscore_case : ~ type_name "_foo" /\ ~ importable (module (mkOptions false true false false false "a::b") ["p"] []).
Proof.
  split.
  - pose (s := mkSource ["p"] (mkProto "p" [ex_hidden] [])).
    assert (C : forall around m, class_of (src_file s) around m -> around = [] /\ m = ex_hidden).
    { intros around m C. induction C as [m [<- | []] | around m n C [-> ->] A]; [auto |]. destruct A as [[] _]. }
    assert (S : source_ok s).
    { split; [reflexivity |]. split; [idents |]. intros around name t T. destruct T as [around m T | e []].
      destruct (C _ _ T) as [-> ->]. split; [constructor | ident]. }
    apply (C86_underscore_refuted ex_options [s] ["p"] "_foo" (QmlMessage ex_hidden)); [now left | now constructor | | now exists "foo"].
    exists s, []. split; [now left |]. split; [apply (type_message _ [] ex_hidden), class_top; now left | reflexivity].
  - apply C86_extra_refuted. vm_compute. intuition auto.
Qed.

(** The class of message M of package a.b, and of a.b.a. *)
Ltac part := split; [discriminate | split; vm_compute; intuition discriminate].
Ltac parts_ := repeat (apply Forall_cons; [part |]); apply Forall_nil.
Definition ex_declared (l : list path) (p : path) : Prop := exists q r, In q l /\ q = (p ++ r)%list /\ p <> [].
Lemma ex_closed : forall l, closed (ex_declared l).
Proof.
  intros l p q (x & r & I & E & _) N. exists x, (q ++ r)%list. split; [exact I |]. split; [now rewrite app_assoc | exact N].
Qed.
Example C86_class_case :
  (exists parts, text parts = "a::b::M" /\ found (ex_declared [["a"; "b"; "M"]]) ["a"; "b"; "M"] parts ["a"; "b"; "M"])
  /\ (exists parts, text parts = "a::b::a::M" /\ ~ found (ex_declared [["a"; "b"; "a"; "M"]]) ["a"; "b"; "a"; "M"] parts ["a"; "b"; "a"; "M"]).
Proof.
  assert (N : forall l, Forall part_ok l -> message_names_ok l [] "M") by (intros l F; split; [exact F | split; [constructor | part]]).
  split.
  - destruct (C86_class_partial (ex_declared [["a"; "b"; "M"]]) ex_options ["a"; "b"] [] "M" (or_introl eq_refl)) as (outer & parts & T & P & F).
    + apply N. parts_.
    + constructor.
    + apply ex_closed.
    + exists ["a"; "b"; "M"], []. split; [now left |]. split; [reflexivity | discriminate].
    + exists parts. split; [symmetry; exact T |]. apply F. intros (o' & i' & E & L & (q & r & [<- | []] & Q & _)).
      change (class_path ex_options ["a"; "b"] [] "M") with ["a"; "b"; "M"] in *.
      assert (X : first_part parts = "a" /\ outer = []).
      { assert (U : text parts = text ["a"; "b"; "M"]) by (symmetry; exact T). apply text_inj in U.
        - subst parts. split; [reflexivity |]. destruct outer as [| z outer]; [reflexivity |]. apply (f_equal (@List.length string)) in P.
          rewrite app_length in P. cbn in P. lia.
        - assert (V : Forall part_ok (outer ++ parts)%list) by (rewrite <- P; parts_). apply Forall_app in V. apply V.
        - parts_. }
      destruct X as [X ->]. rewrite X in Q. destruct o' as [| x [| y [| z o']]]; cbn in *; try lia; try discriminate Q.
      apply (f_equal (@List.length string)) in Q. cbn in Q. rewrite !app_length in Q. cbn in Q. lia.
  - destruct (C86_class_refuted (ex_declared [["a"; "b"; "a"; "M"]]) ex_options "a" ["b"] [] [] "M" eq_refl) as (parts & T & F).
    + apply N. parts_.
    + constructor.
    + apply ex_closed.
    + exists ["a"; "b"; "a"; "M"], []. split; [now left |]. split; [reflexivity | discriminate].
    + exists parts. split; [symmetry; exact T | exact F].
Qed.

Print Assumptions C86_registered.
Print Assumptions C86_not_asked.
Print Assumptions C86_resolve_partial.
Print Assumptions C86_collision_refuted.
Print Assumptions C86_usable_partial.
Print Assumptions C86_no_package_refuted.
Print Assumptions C86_underscore_refuted.
Print Assumptions C86_extra_refuted.
Print Assumptions C86_values_partial.
Print Assumptions C86_underscore_value_refuted.
Print Assumptions C86_class_partial.
Print Assumptions C86_class_refuted.

(** What is inside of the class of a message (C75).

    [declarations qml field_numbers full m] is what the header has in the class of the message [m], [definitions qml full m] what
    the source has for it; [qml] and [field_numbers] are options of the generator. *)

From Coq Require Import String Ascii ZArith List Bool Arith Lia Permutation.
From Verif Require Import GenModel GenSpec GenTypesModel GenClassModel GenClassSpec GenClassProofs GenClassMembers GenClassBodies GenClassMeta GenClassNames.
Import ListNotations.
Open Scope string_scope.

(** * Members *)

(** No two members of the class are in each other's way if and only if no name in the message is one that is made from
    another one, no field is known by one of the names that each class uses, and no two fields have members with one name.
    (Constructors are the subject of [C75_constructors] and C64, the names of properties that of [C75_property_names].) *)
Theorem C75_members : forall qml field_numbers full m,
  fields_distinct m -> Forall letter_first (g_fields m) -> capitals m ->
  (no_clash (declarations qml field_numbers full m)
   <-> names_free field_numbers m
       /\ (forall f n, In f (g_fields m) -> In n taken -> ~ known_as f n)
       /\ (forall f g, In f (g_fields m) -> In g (g_fields m) -> ~ in_the_way qml f g)).
Proof.
  intros qml fn full m FD LF C. split.
  - intro H. split; [exact (no_clash_names qml fn full m C H) | split].
    + intros f n F N K. exact (taken_clash qml fn full m f n F N K H).
    + intros f g F G W. exact (way_clash qml fn full m f g F G W H).
  - intros (NF & T & W). exact (members_no_clash qml fn full m FD LF C NF T W).
Qed.

(** A repeated field or map that is called like the signal of another field: "tags" of any type, and "repeated ... tags_changed". *)
Theorem C75_signal_refuted : forall qml field_numbers full m f g n,
  In f (g_fields m) -> In g (g_fields m) -> known_as g n -> known_as f (n ++ "Changed") -> container f ->
  ~ no_clash (declarations qml field_numbers full m).
Proof. intros qml fn full m f g n F G N C K. apply (way_clash qml fn full m f g F G). left. exists n. auto. Qed.

(** A field "m" with a message, and a field "p" of any type; with QML also a number "m". *)
Theorem C75_pointer_refuted : forall qml field_numbers full m f g,
  In f (g_fields m) -> In g (g_fields m) -> known_as f "m" -> second_getter qml f -> known_as g "p" ->
  ~ no_clash (declarations qml field_numbers full m).
Proof. intros qml fn full m f g F G N S K. apply (way_clash qml fn full m f g F G). right. left. auto. Qed.

(** A field that is called like a function that each class has, as "meta_object". *)
Theorem C75_taken_refuted : forall qml field_numbers full m f n,
  In f (g_fields m) -> In n ["metaObject"; "registerTypes"; "staticMetaObject"; "propertyOrdering"; "protobufMetaObject"] -> known_as f n ->
  ~ no_clash (declarations qml field_numbers full m).
Proof. exact taken_clash. Qed.

(** Names that differ only in whether the first letter is a capital one, as the values "none" and "None" of enumerations. *)
Theorem C75_capital_refuted : forall qml field_numbers full m x y,
  declared_inside m x -> declared_inside m y -> x <> y -> first_capital x = first_capital y ->
  ~ no_clash (declarations qml field_numbers full m).
Proof. exact same_capital. Qed.

(** A type that is called like the list of another one. *)
Theorem C75_list_refuted : forall qml field_numbers full m x y,
  with_list m x -> declared_inside m y -> first_capital y = first_capital x ++ "Repeated" ->
  ~ no_clash (declarations qml field_numbers full m).
Proof. exact list_clash. Qed.

(** No member has the name of the class, which C++ does not allow.
    Missing: messages with something inside that has their own name, or for which the generator makes it. *)
Theorem C75_class_name_partial : forall qml field_numbers full m, Forall letter_first (g_fields m) -> capitals m ->
  (exists c s, g_name m = String c s /\ In c capital_letters) ->
  ~ declared_inside m (g_name m) -> (forall x, with_list m x -> x ++ "Repeated" <> g_name m) ->
  g_name m <> "QPrivateSignal" ->
  (field_numbers = true -> g_name m <> "QtProtobufFieldEnum"
     /\ forall f n, In f (g_fields m) -> known_as f n -> first_capital n ++ "ProtoFieldNumber" <> g_name m) ->
  ~ In (first_capital (g_name m)) (names_declared (declarations qml field_numbers full m)).
Proof. exact class_name_apart. Qed.

(** An enumeration, a value of it or a message that is called like the message it is inside of. *)
Theorem C75_class_name_refuted : forall qml field_numbers full m x,
  declared_inside m x -> first_capital x = first_capital (g_name m) ->
  In (first_capital (g_name m)) (names_declared (declarations qml field_numbers full m)).
Proof. exact class_name_inside. Qed.

(** * Identifiers *)

(** Everything that is declared has a name that is an identifier.
    Missing: fields whose names begin with underscores and a digit. *)
Theorem C75_identifiers_partial : forall qml field_numbers full m,
  field_names_ok m -> Forall letter_first (g_fields m) -> capitals m -> Forall identifier (names_inside m) ->
  Forall identifier (names_declared (declarations qml field_numbers full m)).
Proof. exact all_identifiers. Qed.

(** The member for any such field has a name that is no identifier. *)
Theorem C75_identifiers_refuted : forall qml field_numbers full m f,
  In f (g_fields m) -> identifier (m_name f) -> ~ letter_first f ->
  ~ Forall identifier (names_declared (declarations qml field_numbers full m)).
Proof.
  intros qml fn full m f F I L H. rewrite Forall_forall in H. apply (no_letter_no_identifier f I L).
  apply H, getter_name_declared, F.
Qed.

(** A name of a member is a keyword if and only if a field is known by it. *)
Theorem C75_keywords : forall qml field_numbers full m k, Forall letter_first (g_fields m) -> capitals m -> In k keywords ->
  (In k (names_declared (declarations qml field_numbers full m)) <-> exists f, In f (g_fields m) /\ known_as f k).
Proof.
  intros qml fn full m k LF C K. split.
  - intro I. exact (keyword_of_field qml fn full m k LF C I K).
  - intros (f & F & N). apply known_as_spec in N. rewrite N. apply getter_name_declared, F.
Qed.

(** The fields "class", "default", "public", "signals", "slots", "emit" ... make the class one that no compiler accepts. *)
Theorem C75_keywords_refuted : forall qml field_numbers full m f k,
  In f (g_fields m) -> known_as f k -> In k keywords ->
  ~ (forall x, In x (names_declared (declarations qml field_numbers full m)) -> ~ In x keywords).
Proof.
  intros qml fn full m f k F N K H. apply (H k); [| exact K]. apply known_as_spec in N. rewrite N. apply getter_name_declared, F.
Qed.

(** * Parameters *)

(** The parameters of the constructor for the first fields have different names if and only if none of these fields is
    known as "parent", the name of the last parameter. *)
Theorem C75_parameters : forall count m, fields_distinct m ->
  (NoDup (constructor_parameters count m) <-> forall f, In f (firstn count (g_fields m)) -> ~ known_as f "parent").
Proof. exact parameters_distinct. Qed.

(** * Definitions *)

(** What the class declares is defined in the source, once; and nothing else is.
    Missing: with QML, lists of Qt types. *)
Theorem C75_definitions_partial : forall qml field_numbers full m,
  (forall f, In f (g_fields m) -> ~ qt_list qml f) ->
  Permutation (flat_map wanted (declarations qml field_numbers full m)) (map given (definitions qml full m)).
Proof. exact definitions_match. Qed.

(** For any list of a Qt type there is a property with QML, and it names a function that is declared, but not defined: the
    generated code does not link. *)
Theorem C75_qt_list_refuted : forall qml field_numbers full m f, In f (g_fields m) -> qt_list qml f ->
  exists q g, In q (properties qml m) /\ q_read q = fn_name g /\ fn_result g = Some (q_type q)
    /\ In (DFunction g) (declarations qml field_numbers full m)
    /\ forall b, ~ In (FFunction g b) (definitions qml full m).
Proof.
  intros qml fn full m f F Q. destruct (qt_list_undefined qml fn full m f F Q) as (E & D & N). destruct E as [E | []].
  eexists _, (qml_list_getter f). split; [unfold properties; apply in_or_app; right; apply in_flat_map; exists f; split; [exact F | rewrite <- E; left; reflexivity] |].
  split; [reflexivity |]. split; [reflexivity |]. split; [exact D | exact N].
Qed.

(** No two properties of the class have one name, unless a list of messages has "Data" behind its name where another field has it
    too: "repeated Line rows", and "row" that is called "rows_data". *)
Theorem C75_property_names : forall qml m, fields_distinct m ->
  (NoDup (map q_name (properties qml m)) <-> forall f g, In f (g_fields m) -> In g (g_fields m) -> ~ same_property qml f g).
Proof. exact property_names_spec. Qed.

Theorem C75_property_names_refuted : forall qml m f g, fields_distinct m -> In f (g_fields m) -> In g (g_fields m) ->
  same_property qml f g -> ~ NoDup (map q_name (properties qml m)).
Proof. intros qml m f g FD F G S N. exact (proj1 (property_names_spec qml m FD) N f g F G S). Qed.

(** The class has a constructor for each number of fields from none to all, and none for more. *)
Theorem C75_constructors : forall qml field_numbers full m count,
  count <= List.length (g_fields m) <-> In (DSpecial (Constructor count)) (declarations qml field_numbers full m).
Proof. exact constructors_spec. Qed.

(** * Properties *)

(** Each field has a property, in the order of the fields, that gives access to its variable. *)
Theorem C75_properties : forall qml field_numbers full m i f, nth_error (g_fields m) i = Some f ->
  exists q n, nth_error (properties qml m) i = Some q /\ known_as f n
    /\ serves (declarations qml field_numbers full m) (definitions qml full m) q ("m_" ++ n) (n ++ "Changed").
Proof.
  intros qml fn full m i f I. exists (property_line qml f), (pname f). split; [| split].
  - unfold properties. rewrite nth_error_app1.
    + now apply map_nth_error.
    + rewrite map_length. apply nth_error_Some. congruence.
  - apply known_pname.
  - apply serves_line. exact (nth_error_In _ _ I).
Qed.

(** Each property gives access to the variable of a field.
    Missing: with QML, lists of Qt types. *)
Theorem C75_every_property_partial : forall qml field_numbers full m,
  (forall f, In f (g_fields m) -> ~ qt_list qml f) ->
  forall q, In q (properties qml m) ->
  exists f n, In f (g_fields m) /\ known_as f n
    /\ serves (declarations qml field_numbers full m) (definitions qml full m) q ("m_" ++ n) (n ++ "Changed").
Proof.
  intros qml fn full m NQ q I. unfold properties in I. apply in_app_iff in I. destruct I as [I | I].
  - apply in_map_iff in I. destruct I as (f & <- & F). exists f, (pname f). split; [exact F |]. split; [apply known_pname |]. now apply serves_line.
  - apply in_flat_map in I. destruct I as (f & F & I). exists f, (pname f). split; [exact F |]. split; [apply known_pname |].
    apply serves_extra; auto.
Qed.

(** * Meta types *)

(** The header declares no meta type twice, which C++ does not allow.
    Missing: messages with two fields of an enumeration inside of them. *)
Theorem C75_meta_types_partial : forall qml m,
  NoDup (map g_id (family m)) -> NoDup (flat_map (fun n => map e_id (g_enums n)) (family m)) ->
  (forall n, In n (family m) -> ~ enum_twice n) -> NoDup (meta_types qml m).
Proof. exact types_distinct. Qed.

(** The meta type of an enumeration that two fields of the message have as their type is declared twice. *)
Theorem C75_meta_types_refuted : forall qml m, enum_twice m -> ~ NoDup (meta_types qml m).
Proof. exact types_twice. Qed.

(** * Cases *)

(** message Order { enum State { Draft = 0; Sent = 1; }  message Line { string text = 1; }  fixed32 order_id = 1; Customer customer = 2;
    repeated Line lines = 3; map<string, string> notes = 4; State state = 5; repeated bytes parts = 6; } *)
Definition order : message :=
  Message 0 "Order"
    [ mkMField "order_id" 1 (One (Simple TFixed32)); mkMField "customer" 2 (One (Mess 1)); mkMField "lines" 3 (Many (Mess 2));
      mkMField "notes" 4 (Assoc TString (Simple TString)); mkMField "state" 5 (One (Enu 0)); mkMField "parts" 6 (Many (Simple TBytes)) ]
    [ mkEnum 0 "State" [("Draft", 0%Z); ("Sent", 1%Z)] ]
    [ Message 2 "Line" [mkMField "text" 1 (One (Simple TString))] [] [] ].

Ltac each H := repeat (destruct H as [<- | H]; [| try (destruct H; fail)]); try (destruct H; fail).
Ltac no_names := repeat (constructor; [vm_compute; intros X; repeat (destruct X as [X | X]; [discriminate X |]); destruct X |]); constructor.
Ltac names_of I := repeat (destruct I as [<- | I]; [vm_compute; auto 40 |]); destruct I.

Lemma order_fields : fields_distinct order /\ Forall letter_first (g_fields order) /\ field_names_ok order.
Proof.
  split; [| split].
  - unfold fields_distinct. no_names.
  - repeat (constructor; [eexists _, _; split; [reflexivity | vm_compute; auto 30] |]). constructor.
  - unfold field_names_ok. repeat (constructor; [eexists _, _; split; [reflexivity |]; split; [vm_compute; intros X; repeat (destruct X as [X | X]; [discriminate X |]); destruct X | repeat (constructor; [vm_compute; auto 80 |]); constructor] |]). constructor.
Qed.

Lemma order_capitals : capitals order.
Proof. split; [no_names |]. repeat (constructor; [eexists _, _; split; [reflexivity | vm_compute; auto 30] |]). constructor. Qed.

Lemma order_inside : forall x, declared_inside order x -> In x ["State"; "Draft"; "Sent"; "Line"; "NotesEntry"].
Proof.
  intros x I. apply declared_inside_spec in I. revert I. vm_compute. tauto.
Qed.

Lemma order_free : forall fn, names_free fn order.
Proof.
  intro fn. split; [| split].
  - intros x W D. apply order_inside in D. apply with_list_spec in W. vm_compute in W.
    repeat (destruct W as [<- | W]; [vm_compute in D; repeat (destruct D as [D | D]; [discriminate D |]); destruct D |]). destruct W.
  - intro D. apply order_inside in D. vm_compute in D. repeat (destruct D as [D | D]; [discriminate D |]). destruct D.
  - intros _. split; [intro D; apply order_inside in D; vm_compute in D; repeat (destruct D as [D | D]; [discriminate D |]); destruct D |].
    intros f n F K D. apply known_as_spec in K. subst n. apply order_inside in D. cbn [g_fields order] in F.
    repeat (destruct F as [<- | F]; [vm_compute in D; repeat (destruct D as [D | D]; [discriminate D |]); destruct D |]). destruct F.
Qed.

Lemma order_apart : forall f g n, In f (g_fields order) -> In g (g_fields order) -> In n taken -> ~ known_as f n /\ forall qml, ~ in_the_way qml f g.
Proof.
  intros f g n F G N. split.
  - intro K. apply known_as_spec in K. subst n. cbn [g_fields order] in F.
    repeat (destruct F as [<- | F]; [vm_compute in N; repeat (destruct N as [N | N]; [discriminate N |]); destruct N |]). destruct F.
  - intros qml [(x & K & L & _) | [(K & _ & _) | (K & _)]].
    + apply known_as_spec in K, L. subst x. cbn [g_fields order] in F, G.
      repeat (destruct F as [<- | F]; [repeat (destruct G as [<- | G]; [vm_compute in L; discriminate L |]); destruct G |]). destruct F.
    + apply known_as_spec in K. cbn [g_fields order] in F. repeat (destruct F as [<- | F]; [vm_compute in K; discriminate K |]). destruct F.
    + apply known_as_spec in K. cbn [g_fields order] in F. repeat (destruct F as [<- | F]; [vm_compute in K; discriminate K |]). destruct F.
Qed.

(** The hypotheses of the theorems hold for this message, and its class is in order. *)
Example C75_case : forall qml field_numbers,
  no_clash (declarations qml field_numbers "shop.Order" order)
  /\ ~ In "Order" (names_declared (declarations qml field_numbers "shop.Order" order))
  /\ Forall identifier (names_declared (declarations qml field_numbers "shop.Order" order))
  /\ (forall k, In k keywords -> ~ In k (names_declared (declarations qml field_numbers "shop.Order" order)))
  /\ (forall count, NoDup (constructor_parameters count order))
  /\ Permutation (flat_map wanted (declarations qml field_numbers "shop.Order" order)) (map given (definitions qml "shop.Order" order))
  /\ NoDup (meta_types qml order).
Proof.
  intros qml fn. destruct order_fields as (FD & LF & FO). pose proof order_capitals as C. pose proof (order_free fn) as NF.
  split; [| split; [| split; [| split; [| split; [| split]]]]].
  - apply C75_members; auto. split; [exact NF | split].
    + intros f n F N. exact (proj1 (order_apart f f n F F N)).
    + intros f g F G. exact (proj2 (order_apart f g "metaObject" F G (or_introl eq_refl)) qml).
  - apply (C75_class_name_partial qml fn "shop.Order" order LF C).
    + eexists _, _. split; [reflexivity | vm_compute; auto 30].
    + intro D. apply order_inside in D. vm_compute in D. repeat (destruct D as [D | D]; [discriminate D |]). destruct D.
    + intros x W. apply with_list_spec in W. vm_compute in W. repeat (destruct W as [<- | W]; [discriminate |]). destruct W.
    + discriminate.
    + intros _. split; [discriminate |]. intros f n F K. apply known_as_spec in K. subst n. cbn [g_fields order] in F.
      repeat (destruct F as [<- | F]; [vm_compute; discriminate |]). destruct F.
  - apply C75_identifiers_partial; auto.
    repeat (constructor; [eexists _, _; split; [reflexivity |]; split; [vm_compute; intros X; repeat (destruct X as [X | X]; [discriminate X |]); destruct X | repeat (constructor; [vm_compute; auto 80 |]); constructor] |]). constructor.
  - intros k K I. apply (C75_keywords qml fn "shop.Order" order k LF C K) in I. destruct I as (f & F & N). apply known_as_spec in N. subst k.
    revert K. cbn [g_fields order] in F.
    assert (E : forall x, In x keywords -> existsb (String.eqb x) keywords = true) by (intros x I; apply existsb_exists; exists x; split; [exact I | apply String.eqb_refl]).
    repeat (destruct F as [<- | F]; [intro K; apply E in K; vm_compute in K; discriminate K |]). destruct F.
  - intro count. apply C75_parameters; [exact FD |]. intros f F K. apply known_as_spec in K.
    assert (F' : In f (g_fields order)) by (rewrite <- (firstn_skipn count); apply in_or_app; now left).
    cbn [g_fields order] in F'. repeat (destruct F' as [<- | F']; [vm_compute in K; discriminate K |]). destruct F'.
  - apply C75_definitions_partial. intros f F [_ (q & S)]. cbn [g_fields order] in F. repeat (destruct F as [<- | F]; [discriminate S |]). destruct F.
  - apply C75_meta_types_partial.
    + no_names.
    + no_names.
    + intros n N (e & a & f & b & g & c & E & L & F & G). destruct N as [<- | [<- | []]]; [| destruct L].
      destruct L as [<- | []].
      assert (X : count_occ Bool.bool_dec (map (fun f => match m_shape f with One (Enu _) | Many (Enu _) => true | _ => false end) (g_fields order)) true = 1) by reflexivity.
      change (g_fields order = (a ++ f :: b ++ g :: c)%list) in E. rewrite E in X. rewrite !map_app in X; cbn [map] in X; rewrite map_app in X; cbn [map] in X; rewrite !count_occ_app in X.
      destruct F as [F | F], G as [G | G]; rewrite F, G in X; rewrite !count_occ_cons_eq, !count_occ_app, !count_occ_cons_eq in X by reflexivity; lia.
Qed.

Example C75_property_names_case : forall qml, NoDup (map q_name (properties qml order)).
Proof.
  intro qml. apply C75_property_names; [apply order_fields |]. intros f g F G (_ & _ & n & Kf & Kg).
  apply known_as_spec in Kf, Kg. rewrite Kf in Kg. clear Kf. revert Kg. cbn [g_fields order] in F, G.
  repeat (destruct F as [<- | F]; [repeat (destruct G as [<- | G]; [vm_compute; discriminate |]); destruct G |]). destruct F.
Qed.
Example C75_constructors_case : forall qml field_numbers,
  In (DSpecial (Constructor 2)) (declarations qml field_numbers "shop.Order" order)
  /\ ~ In (DSpecial (Constructor 100)) (declarations qml field_numbers "shop.Order" order).
Proof. intros qml fn. split; [| intro I]; [| apply C75_constructors in I; revert I]; [apply C75_constructors |]; cbn; lia. Qed.

(** message Sheet { repeated Line rows = 1; string rows_data = 2; } *)
Definition sheet : message :=
  Message 3 "Sheet" [mkMField "rows" 1 (Many (Mess 7)); mkMField "rows_data" 2 (One (Simple TString))] [] [].
Example C75_property_names_refuted_case : forall qml, fields_distinct sheet /\ ~ NoDup (map q_name (properties qml sheet)).
Proof.
  intro qml. assert (FD : fields_distinct sheet) by (unfold fields_distinct; vm_compute; repeat constructor; cbn; intuition discriminate).
  split; [exact FD |].
  apply (C75_property_names_refuted qml sheet (mkMField "rows" 1 (Many (Mess 7))) (mkMField "rows_data" 2 (One (Simple TString)))); cbn; auto.
  split; [| split].
  - eexists. split; [reflexivity | left; now eexists].
  - intros (e & E & _). discriminate E.
  - exists "rows". split; apply known_as_spec; reflexivity.
Qed.

(** Messages for which classes are not in order:
    message Bad { enum Bad { none = 0; None = 1; }  Bad parent = 1; Bad class = 2; string _1st = 3; string tags = 4;
                  repeated string tags_changed = 5; string meta_object = 6; repeated QtProtobuf.QUrl links = 7; Other m = 8; string p = 9; } *)
Definition bad : message :=
  Message 0 "Bad"
    [ mkMField "parent" 1 (One (Enu 0)); mkMField "class" 2 (One (Enu 0)); mkMField "_1st" 3 (One (Simple TString));
      mkMField "tags" 4 (One (Simple TString)); mkMField "tags_changed" 5 (Many (Simple TString)); mkMField "meta_object" 6 (One (Simple TString));
      mkMField "links" 7 (Many (Qt "QUrl")); mkMField "m" 8 (One (Mess 1)); mkMField "p" 9 (One (Simple TString)) ]
    [ mkEnum 0 "Bad" [("none", 0%Z); ("None", 1%Z)]; mkEnum 1 "BadRepeated" [("Zero", 0%Z)] ] [].
Definition bad_field (i : nat) : mfield := nth i (g_fields bad) (mkMField "" 0 (One (Simple TString))).

Example C75_refuted_cases :
  (forall i, i < 9 -> In (bad_field i) (g_fields bad))
  /\ (known_as (bad_field 3) "tags" /\ known_as (bad_field 4) ("tags" ++ "Changed") /\ container (bad_field 4))
  /\ (known_as (bad_field 7) "m" /\ second_getter false (bad_field 7) /\ known_as (bad_field 8) "p")
  /\ known_as (bad_field 5) "metaObject"
  /\ (declared_inside bad "none" /\ declared_inside bad "None" /\ first_capital "none" = first_capital "None")
  /\ (with_list bad "Bad" /\ declared_inside bad "BadRepeated" /\ first_capital "BadRepeated" = first_capital "Bad" ++ "Repeated")
  /\ declared_inside bad (g_name bad)
  /\ (identifier (m_name (bad_field 2)) /\ ~ letter_first (bad_field 2))
  /\ (known_as (bad_field 1) "class" /\ In "class" keywords)
  /\ (known_as (bad_field 0) "parent" /\ fields_distinct bad)
  /\ qt_list true (bad_field 6)
  /\ enum_twice bad.
Proof.
  assert (D : forall x, In x (inner_names bad) -> declared_inside bad x) by (intros x I; now apply declared_inside_spec).
  split; [intros i I; apply nth_In; exact I |].
  split; [split; [| split]; [now apply known_as_spec | now apply known_as_spec |]; left; now exists (Simple TString) |].
  split; [split; [| split]; [now apply known_as_spec | | now apply known_as_spec]; left; now exists 1 |].
  split; [now apply known_as_spec |].
  split; [split; [| split]; [apply D; vm_compute; auto 10 | apply D; vm_compute; auto 10 | reflexivity] |].
  split; [split; [| split]; [apply with_list_spec; vm_compute; auto | apply D; vm_compute; auto 10 | reflexivity] |].
  split; [apply D; vm_compute; auto |].
  split.
  { split.
    - eexists _, _. split; [reflexivity |]. split; [vm_compute; intros X; repeat (destruct X as [X | X]; [discriminate X |]); destruct X |].
      repeat (constructor; [vm_compute; auto 80 |]); constructor.
    - intros (c & s & E & I). vm_compute in E. injection E as <- _. vm_compute in I. repeat (destruct I as [I | I]; [discriminate I |]). destruct I. }
  split; [split; [now apply known_as_spec | vm_compute; auto 80] |].
  split; [split; [now apply known_as_spec |]; unfold fields_distinct; no_names |].
  split; [split; [reflexivity | now exists "QUrl"] |].
  exists 0, [], (bad_field 0), [], (bad_field 1), (skipn 2 (g_fields bad)). split; [reflexivity |]. split; [left; reflexivity |]. split; left; reflexivity.
Qed.

Print Assumptions C75_members.
Print Assumptions C75_class_name_partial.
Print Assumptions C75_identifiers_partial.
Print Assumptions C75_keywords.
Print Assumptions C75_definitions_partial.
Print Assumptions C75_qt_list_refuted.
Print Assumptions C75_properties.
Print Assumptions C75_every_property_partial.
Print Assumptions C75_meta_types_partial.
Print Assumptions C75_meta_types_refuted.
Print Assumptions C75_property_names.
Print Assumptions C75_property_names_refuted.
Print Assumptions C75_constructors.

(** Properties of the types of generated properties, their registration, and of enumerations. *)

From Coq Require Import String Ascii ZArith List Bool Arith Lia Permutation.
From Verif Require Import GenModel GenSpec GenStrings GenFields GenTypesModel GenTypesSpec GenTypesProofs GenTypesNames.
Import ListNotations.
Open Scope string_scope.

(** * C62: handlers *)

(** After all registrations of an application, in any order, the serializer finds the right handlers for a field of every
    generated class if its type is supported: a message with a class, an enumeration of the top level or with a
    direct field in its message, a Qt type of the library that is neither repeated nor in a map, or
    anything but repeated bool.  Missing: the other types, see the next theorem. *)
Theorem C62_handlers_partial : forall ps qt regs m f,
  Permutation regs (registrations ps qt) -> In m (classes_of ps) -> In f (g_fields m) ->
  shape_supported ps qt (m_shape f) ->
  field_handlers regs (m_shape f) = needed_handlers (m_shape f) /\ field_handlers regs (m_shape f) <> None.
Proof.
  intros ps qt regs m f P M F S. rewrite (field_supported ps qt regs m f P M F S). split; [reflexivity |].
  destruct (m_shape f) as [e | e | k v]; cbn; try discriminate. destruct S as (_ & N & _).
  destruct e; cbn; try discriminate. exfalso. apply N. eexists. reflexivity.
Qed.

(** For every other type that protoc allows there is a value or the field itself without handler: using the field throws. *)
Theorem C62_unsupported_refuted : forall ps qt regs m f,
  Permutation regs (registrations ps qt) -> In m (classes_of ps) -> In f (g_fields m) ->
  match m_shape f with
  | One (Simple t) | Many (Simple t) => simple t
  | Assoc k v => key_type k /\ match v with Simple t => simple t | _ => True end
  | _ => True
  end ->
  ~ shape_supported ps qt (m_shape f) -> field_handlers regs (m_shape f) = None.
Proof. exact field_unsupported. Qed.

(** A repeated bool has no handler, nor has an enumeration that is declared in a message without a field of its
    own and used by others. *)
Theorem C62_enum_elsewhere_refuted : forall ps qt regs m f e,
  Permutation regs (registrations ps qt) -> In m (classes_of ps) -> In f (g_fields m) ->
  (m_shape f = One (Enu e) \/ m_shape f = Many (Enu e) \/ exists k, key_type k /\ m_shape f = Assoc k (Enu e)) ->
  (forall p x, In p ps -> In x (o_enums p) -> e_id x <> e) ->
  (forall c x, In c (classes_of ps) -> In x (g_enums c) -> e_id x = e -> ~ direct_field c e) ->
  field_handlers regs (m_shape f) = None.
Proof.
  intros ps qt regs m f e P M F S T D.
  assert (N : ~ registered_enum ps e).
  { intros [(p & x & Ip & Ix & E) | (c & x & C & X & E & Dx)]; [exact (T p x Ip Ix E) | exact (D c x C X E Dx)]. }
  apply (field_unsupported ps qt regs m f P M F).
  - destruct S as [-> | [-> | (k & K & ->)]]; auto.
  - destruct S as [-> | [-> | (k & K & ->)]]; cbn; intuition.
Qed.

Theorem C62_repeated_bool_refuted : forall ps qt regs m f,
  Permutation regs (registrations ps qt) -> In m (classes_of ps) -> In f (g_fields m) ->
  m_shape f = Many (Simple TBool) -> field_handlers regs (m_shape f) = None.
Proof.
  intros ps qt regs m f P M F S. apply (field_unsupported ps qt regs m f P M F).
  - rewrite S. split; discriminate.
  - rewrite S. intros (_ & _ & N). congruence.
Qed.

(** A file with an enumeration, a message with an enumeration and a message of its own, and fields of all kinds. *)
Definition types_file : proto :=
  mkProto "my.pkg"
    [ Message 0 "Outer"
        [ mkMField "number" 1 (One (Simple TInt32)); mkMField "numbers" 2 (Many (Simple TSFixed64));
          mkMField "kind" 3 (One (Enu 1)); mkMField "kinds" 4 (Many (Enu 0)); mkMField "inner" 5 (One (Mess 1));
          mkMField "inners" 6 (Assoc TString (Mess 1)); mkMField "names" 7 (Assoc TInt32 (Simple TString));
          mkMField "url" 8 (One (Qt "QUrl")); mkMField "by_kind" 9 (Assoc TInt64 (Enu 1)) ]
        [ mkEnum 1 "Kind" [("None", 0%Z); ("Some", 1%Z)]; mkEnum 2 "Unused" [("Nothing", 0%Z)] ]
        [ Message 1 "Inner" [ mkMField "flags" 1 (Many (Simple TBool)); mkMField "unused" 2 (One (Enu 2)) ] [] [] ] ]
    [ mkEnum 0 "Global" [("zero", 0%Z); ("one", 1%Z)] ].

Example C62_case :
  let regs := rev (registrations [types_file] ["QUrl"; "QColor"]) in
  map (fun m => map (fun f => field_handlers regs (m_shape f)) (g_fields m)) (classes_of [types_file])
  = [ [None; None];
      [ Some [HSimple TInt32]; Some [HSimples TSFixed64]; Some [HEnum 1]; Some [HEnumList 0]; Some [HObject 1];
        Some [HMap TString (Mess 1); HSimple TString; HObject 1]; Some [HMap TInt32 (Simple TString); HSimple TInt32; HSimple TString];
        Some [HQt "QUrl"]; Some [HMap TInt64 (Enu 1); HSimple TInt64; HEnum 1] ] ].
Proof. reflexivity. Qed.

Example C62_supported_case :
  exists m, In m (classes_of [types_file]) /\ g_id m = 0
    /\ Forall (fun f => shape_supported [types_file] ["QUrl"] (m_shape f)) (g_fields m).
Proof.
  eexists. split; [right; left; reflexivity |]. split; [reflexivity |].
  assert (E1 : registered_enum [types_file] 1).
  { right. do 2 eexists. split; [right; left; reflexivity |]. split; [left; reflexivity |]. split; [reflexivity |].
    eexists. split; [right; right; left; reflexivity |]. left. reflexivity. }
  assert (E0 : registered_enum [types_file] 0).
  { left. do 2 eexists. split; [left; reflexivity |]. split; [left; reflexivity |]. reflexivity. }
  assert (C1 : has_class [types_file] 1) by (left; reflexivity).
  assert (Q : forall e, match e with Qt _ => False | _ => True end -> ~ is_qt e) by (intros e T (q & ->); exact T).
  cbn [g_fields].
  repeat (apply Forall_cons; [cbn [m_shape shape_supported element_supported] |]); [.. | apply Forall_nil];
    unfold key_type, simple; repeat split; try discriminate; try assumption; try (apply Q; exact Logic.I); left; reflexivity.
Qed.

(** * C63: enumerations *)

(** The enumerators of the C++ enumeration have the names of the values, with a capital first letter, and their numbers. *)
Theorem C63_enumerators : forall e name number,
  (exists v, In (v, number) (e_values e) /\ name = first_capital v) <-> In (name, number) (enumerators e).
Proof.
  intros e name number. unfold enumerators. rewrite in_map_iff. split.
  - intros (v & I & ->). exists (v, number). cbn. rewrite first_capital_eq. auto.
  - intros ([v z] & E & I). cbn in E. injection E as <- <-. exists v. rewrite first_capital_eq. auto.
Qed.

(** Each name is declared once if no two values differ in the case of their first letter only.  Missing: other
    enumerations, see the next theorem. *)
Theorem C63_distinct_partial : forall e,
  NoDup (map fst (e_values e)) ->
  (forall a b, In a (map fst (e_values e)) -> In b (map fst (e_values e)) -> first_capital a = first_capital b -> a = b) ->
  NoDup (map fst (enumerators e)).
Proof.
  intros e N D. unfold enumerators. rewrite map_map. cbn [fst]. rewrite <- (map_map fst upperCaseName).
  clear - N D. induction (map fst (e_values e)) as [| x l IH]; [constructor |]. inversion N as [| ? ? Nx N']; subst.
  cbn [map]. constructor.
  - rewrite in_map_iff. intros (y & E & I). rewrite <- !first_capital_eq in E.
    rewrite (D y x) in I; [contradiction | right; exact I | left; reflexivity | exact E].
  - apply IH; [exact N' |]. intros a b A B. apply D; right; assumption.
Qed.

Theorem C63_distinct_refuted : forall e a b,
  In a (map fst (e_values e)) -> In b (map fst (e_values e)) -> a <> b -> first_capital a = first_capital b ->
  ~ NoDup (map fst (enumerators e)).
Proof.
  intros e a b A B N E D. unfold enumerators in D. rewrite map_map in D. cbn [fst] in D. rewrite <- (map_map fst upperCaseName) in D.
  rewrite !first_capital_eq in E. revert A B N E D. generalize (map fst (e_values e)) as l. clear.
  induction l as [| x l IH]; intros A B N E D; [exact A |]. cbn in D. inversion D as [| ? ? Nx D']; subst.
  destruct A as [-> | A], B as [-> | B].
  - congruence.
  - apply Nx. rewrite E. apply in_map. exact B.
  - apply Nx. rewrite <- E. apply in_map. exact A.
  - exact (IH A B N E D').
Qed.

(** The constant for a field has its number, and there is one for each field. *)
Theorem C63_field_constants : forall fs,
  NoDup (map (fun f => key (m_name f)) fs) ->
  (forall f n, In f fs -> field_constant (m_name f) n -> forall z, In (n, z) (field_enum fs) <-> z = m_number f)
  /\ NoDup (map fst (field_enum fs)).
Proof.
  intros fs N.
  set (as_field := fun f : mfield => mkField (m_name f) 0 "" TInt32 false false None None false).
  assert (Cn : forall f, cpp_name (m_name f) = property_name (as_field f)) by reflexivity.
  assert (Low : forall f, lowerCaseName (upperCaseName (cpp_name (m_name f))) = cpp_name (m_name f)).
  { intro f. rewrite Cn. change (property_name (as_field f)) with (qualifiedName (plain_name (as_field f))).
    assert (U : forall x, lowerCaseName (upperCaseName x) = lowerCaseName x).
    { intros [| c x]; [reflexivity |]. cbn. rewrite tolower_toupper. reflexivity. }
    rewrite U. assert (P : lowerCaseName (plain_name (as_field f)) = plain_name (as_field f)) by apply first_small_twice.
    destruct (qualified_cases (plain_name (as_field f))) as [-> | ->]; [exact P |].
    destruct (plain_name (as_field f)); [reflexivity |]. cbn in *. injection P as P. rewrite P. reflexivity. }
  assert (Inj : forall f g, upperCaseName (cpp_name (m_name f)) ++ "ProtoFieldNumber" = upperCaseName (cpp_name (m_name g)) ++ "ProtoFieldNumber" ->
    key (m_name f) = key (m_name g)).
  { intros f g E. apply app_inv_tail_s in E. apply (f_equal lowerCaseName) in E. rewrite !Low, !Cn in E.
    exact (property_name_key (as_field f) (as_field g) E). }
  assert (Con : forall f n, field_constant (m_name f) n <-> n = upperCaseName (cpp_name (m_name f)) ++ "ProtoFieldNumber").
  { intros f n. unfold field_constant. rewrite <- first_capital_eq. split.
    - intros (c & C & ->). apply (camel_case_spec (as_field f)) in C. subst c. reflexivity.
    - intros ->. exists (plain_name (as_field f)). split; [apply (camel_case_spec (as_field f) (plain_name (as_field f))); reflexivity | reflexivity]. }
  split.
  - intros f n I C z. apply Con in C. subst n. unfold field_enum. rewrite in_map_iff. split.
    + intros (g & E & G). injection E as E <-. apply Inj in E.
      assert (f = g) as ->; [| reflexivity]. clear - N I G E. induction fs as [| x l IH]; [contradiction |].
      cbn [map] in N. inversion N as [| ? ? Nx N']; subst. destruct I as [-> | I], G as [-> | G].
      * reflexivity.
      * exfalso. apply Nx. rewrite <- E. exact (in_map (fun f => key (m_name f)) _ _ G).
      * exfalso. apply Nx. rewrite E. exact (in_map (fun f => key (m_name f)) _ _ I).
      * exact (IH N' I G).
    + intros ->. exists f. auto.
  - unfold field_enum. rewrite map_map. cbn [fst]. clear - N Inj. induction fs as [| x l IH]; [constructor |].
    cbn [map] in *. inversion N as [| ? ? Nx N']; subst. constructor; [| exact (IH N')].
    rewrite in_map_iff. intros (y & E & I). apply Inj in E. apply Nx. rewrite <- E. exact (in_map (fun f => key (m_name f)) _ _ I).
Qed.

(** The enumerator that new objects get is declared, and is the first one, if its name starts with a capital letter.
    Missing: enumerations whose first name starts with a small letter, for which the enumerator is not declared (see
    below). *)
Theorem C63_initial_partial : forall e v z rest,
  e_values e = (v, z) :: rest -> capital v ->
  exists n, initial_enumerator e = Some n /\ hd_error (enumerators e) = Some (n, z).
Proof.
  intros e v z rest E C. unfold initial_enumerator, enumerators. rewrite E. exists v. split; [reflexivity |].
  cbn. rewrite <- first_capital_eq, C. reflexivity.
Qed.

(** Otherwise it is not declared: the generated constructor is not valid C++. *)
Theorem C63_initial_refuted : forall e v z rest,
  e_values e = (v, z) :: rest -> ~ capital v ->
  exists n, initial_enumerator e = Some n /\ ~ In n (map fst (enumerators e)).
Proof.
  intros e v z rest E C. unfold initial_enumerator. rewrite E. exists v. split; [reflexivity |].
  unfold enumerators. rewrite map_map. cbn [fst]. rewrite in_map_iff. intros ([w y] & H & _). cbn [fst] in H.
  apply C. unfold capital. rewrite first_capital_eq, <- H. destruct w as [| c w]; [reflexivity |]. cbn. f_equal.
  destruct c as [[] [] [] [] [] [] [] []]; reflexivity.
Qed.

(** An enumeration of the top level is named by the path of its declaration, and in a class of the top level the
    shorter name that is printed means it. (Likewise in a nested class, if the path of the enumeration does not start
    with the name of a message around that class.) Missing: nested classes around which a message has the name the
    path of the enumeration starts with, and names hidden by other declarations ([means] does not look at those). *)
Theorem C63_top_level_partial : forall o pe name file ps as_ m,
  enum_names_ok pe [] name file -> scope_names_ok ps as_ m -> extra_ok o ps ->
  ~ In (pe ++ [name])%list (full_names ps as_ m) ->
  (as_ = [] \/ forall rest, (outer_namespaces o pe ++ [(first_capital name ++ "Gadget")%string])%list <> (ps ++ as_ ++ rest)%list) ->
  let r := enum_of pe [] name file in
  let s := scope_of ps as_ m in
  exists p, declared_at o pe [] name p
    /\ enum_full_type o r s = text p /\ enum_property_type o r s = text p
    /\ means (class_path o ps as_ (g_name m)) (enum_scope_type o r s) p.
Proof.
  intros o pe name file ps as_ m E S X D H r s.
  assert (Xp : o_extra o = "" \/ part_ok (o_extra o)) by (destruct X as [X | [X _]]; auto).
  assert (V : enumVisibility r s = GLOBAL_ENUM).
  { unfold r, s. rewrite visibility_spec by assumption. cbn [app].
    destruct (in_dec _ _ _) as [I | I]; [contradiction |]. clear I.
    destruct (in_dec _ _ _) as [I | I]; [| reflexivity]. exfalso. apply in_flat_map in I. destruct I as (x & _ & I).
    unfold full_names in I. apply in_map_iff in I. destruct I as (y & I & _).
    apply (f_equal (@List.length string)) in I. rewrite !app_length in I. cbn in I. lia. }
  exists (outer_namespaces o pe ++ [(first_capital name ++ "Gadget")%string; first_capital name])%list.
  split; [apply at_gadget |].
  assert (Ft : enum_full_type o r s = text (outer_namespaces o pe ++ [(first_capital name ++ "Gadget")%string; first_capital name])%list).
  { unfold r. rewrite full_type_spec by assumption. fold r. rewrite V. reflexivity. }
  split; [exact Ft |]. split; [unfold enum_property_type; rewrite V; exact Ft |].
  destruct (scope_type_cases o pe [] name file ps as_ m Xp E S) as [(T & _) | (rest & Nn & En & T)]; fold r s in T |- *; rewrite T.
  - fold r s. rewrite V. cbn [gadget app]. rewrite <- app_assoc. apply means_full.
  - fold r s in En. rewrite V in En. cbn [gadget app] in En.
    destruct H as [-> | H]; [| exfalso; exact (H rest En)]. cbn [app] in *. rewrite app_nil_r in Nn.
    destruct X as [X | [Px X]].
    + assert (Q : forall l, outer_namespaces o l = l) by (intro l; unfold outer_namespaces; rewrite X; reflexivity).
      rewrite Q in *. replace (pe ++ [(first_capital name ++ "Gadget")%string; first_capital name])%list with (ps ++ (rest ++ [first_capital name]))%list
        by (rewrite app_assoc, <- En, <- app_assoc; reflexivity).
      eapply means_relative; [unfold class_path; rewrite Q; reflexivity | destruct rest; discriminate].
    + exfalso. unfold outer_namespaces in En. destruct (o_extra o) as [| c e] eqn:Ex; [destruct Px as (Px & _); congruence |].
      destruct ps as [| p ps]; [congruence |]. cbn in En. injection En as Ep _. apply (X ps). rewrite Ep. reflexivity.
Qed.

(** The same for an enumeration that is declared in a message of the top level with a capital letter. Missing:
    enumerations of nested messages and of messages with a small letter, which are named wrongly (see below), and
    names hidden by other declarations.  (A package is not called like a message with another one inside.) *)
Theorem C63_of_message_partial : forall o pe c name file ps as_ m,
  enum_names_ok pe [g_name c] name file -> scope_names_ok ps as_ m -> extra_ok o ps ->
  In c file -> has_enum c name -> capital (g_name c) ->
  (as_ = [] \/ forall rest, (outer_namespaces o pe ++ [g_name c])%list <> (ps ++ as_ ++ rest)%list) ->
  let r := enum_of pe [g_name c] name file in
  let s := scope_of ps as_ m in
  exists p, declared_at o pe [g_name c] name p
    /\ enum_full_type o r s = text p
    /\ (as_ = [] \/ pe <> (ps ++ as_)%list -> means (class_path o ps as_ (g_name m)) (enum_property_type o r s) p)
    /\ means (class_path o ps as_ (g_name m)) (enum_scope_type o r s) p.
Proof.
  intros o pe c name file ps as_ m E S X C (e & Ie & Ne) Cc H r s.
  assert (Xp : o_extra o = "" \/ part_ok (o_extra o)) by (destruct X as [X | [X _]]; auto).
  assert (V : gadget (enumVisibility r s) name = []).
  { unfold r, s. rewrite visibility_spec by assumption. destruct (in_dec _ _ _) as [I | I]; [reflexivity |].
    destruct (in_dec _ _ _) as [J | J]; [reflexivity |]. exfalso. apply J. apply in_flat_map. exists c. split; [exact C |].
    unfold full_names. apply in_map_iff. exists e. rewrite Ne. auto. }
  exists (outer_namespaces o pe ++ [g_name c; first_capital name])%list.
  split.
  { assert (A := at_class o pe [] (g_name c) name). unfold class_path in A. cbn [map app] in A. rewrite <- app_assoc, Cc in A. exact A. }
  split.
  { unfold r. rewrite full_type_spec by assumption. fold r. rewrite V. reflexivity. }
  split.
  { intro L. unfold enum_property_type, s. unfold r at 1. rewrite visibility_spec by assumption. fold r s.
    assert (Ft : enum_full_type o r s = text (outer_namespaces o pe ++ [g_name c; first_capital name])%list)
      by (unfold r; rewrite full_type_spec by assumption; fold r; rewrite V; reflexivity).
    destruct (in_dec _ _ _) as [I | I].
    - unfold full_names in I. apply in_map_iff in I. destruct I as (e' & Ee & Ie').
      change ([g_name c] ++ [name])%list with [g_name c; name] in Ee.
      assert (Eq : (ps ++ as_)%list = pe /\ g_name m = g_name c).
      { rewrite app_assoc in Ee. change [g_name m; e_name e'] with ([g_name m] ++ [e_name e'])%list in Ee.
        change [g_name c; name] with ([g_name c] ++ [name])%list in Ee. rewrite !app_assoc in Ee. apply app_inj_tail in Ee. destruct Ee as [Ee _].
        apply app_inj_tail in Ee. exact Ee. }
      destruct Eq as [Ep Em]. assert (As : as_ = []) by (destruct L as [L | L]; [exact L | elim L; symmetry; exact Ep]).
      subst as_. rewrite app_nil_r in Ep. subst pe. cbn [er_name r enum_of]. rewrite <- first_capital_eq.
      change (first_capital name) with (text [first_capital name]) at 1. unfold class_path. cbn [map app]. rewrite Em, Cc.
      change [g_name c; first_capital name] with ([g_name c] ++ [first_capital name])%list. rewrite app_assoc.
      eapply means_relative; [symmetry; apply app_nil_r | discriminate].
    - destruct (in_dec _ _ _) as [J | J]; rewrite Ft; apply means_full. }
  destruct (scope_type_cases o pe [g_name c] name file ps as_ m Xp E S) as [(T & _) | (rest & Nn & En & T)]; fold r s in T |- *; rewrite T.
  - fold r s. rewrite V, app_nil_r. rewrite <- app_assoc. apply means_full.
  - fold r s in En. rewrite V, app_nil_r in En.
    destruct H as [-> | H]; [| exfalso; exact (H rest En)]. cbn [app] in *. rewrite app_nil_r in Nn.
    destruct X as [X | [Px X]].
    + assert (Q : forall l, outer_namespaces o l = l) by (intro l; unfold outer_namespaces; rewrite X; reflexivity).
      rewrite Q in *. replace (pe ++ [g_name c; first_capital name])%list with (ps ++ (rest ++ [first_capital name]))%list
        by (rewrite app_assoc, <- En, <- app_assoc; reflexivity).
      eapply means_relative; [unfold class_path; rewrite Q; reflexivity | destruct rest; discriminate].
    + exfalso. unfold outer_namespaces in En. destruct (o_extra o) as [| d e'] eqn:Ex; [destruct Px as (Px & _); congruence |].
      destruct ps as [| p ps]; [congruence |]. cbn in En. injection En as Ep _. apply (X ps). rewrite Ep. reflexivity.
Qed.

(** The class of a message, at any depth, names its own enumerations rightly if there is no extra namespace and the
    name of the message starts with a capital letter. Missing: extra namespaces and messages with a small letter (see
    below), and names hidden by other declarations. *)
Theorem C63_own_partial : forall o ps as_ m name file,
  enum_names_ok ps (as_ ++ [g_name m])%list name file -> scope_names_ok ps as_ m -> o_extra o = "" ->
  has_enum m name -> capital (g_name m) ->
  let r := enum_of ps (as_ ++ [g_name m])%list name file in
  let s := scope_of ps as_ m in
  exists p, declared_at o ps (as_ ++ [g_name m])%list name p
    /\ means (class_path o ps as_ (g_name m)) (enum_property_type o r s) p
    /\ means (class_path o ps as_ (g_name m)) (enum_scope_type o r s) p
    /\ (Forall capital as_ -> exists q, reached_at o ps (as_ ++ [g_name m])%list name q /\ enum_full_type o r s = text q).
Proof.
  intros o ps as_ m name file E S X (e & Ie & Ne) Cm r s.
  assert (V : enumVisibility r s = LOCAL_ENUM).
  { unfold r, s. rewrite visibility_spec by assumption. destruct (in_dec _ _ _) as [I | I]; [reflexivity |]. exfalso. apply I.
    unfold full_names. apply in_map_iff. exists e. rewrite Ne, <- app_assoc. auto. }
  assert (Q : forall l, outer_namespaces o l = l) by (intro l; unfold outer_namespaces; rewrite X; reflexivity).
  exists (class_path o ps as_ (g_name m) ++ [first_capital name])%list. split; [apply at_class |]. split.
  { unfold enum_property_type. rewrite V. cbn [er_name r enum_of]. rewrite <- first_capital_eq.
    change (first_capital name) with (text [first_capital name]) at 1.
    eapply means_relative; [symmetry; apply app_nil_r | discriminate]. }
  split.
  { destruct (scope_type_cases o ps (as_ ++ [g_name m])%list name file ps as_ m (or_introl X) E S) as [(T & D) | (rest & Nn & En & T)];
      fold r s in T |- *; rewrite T; clear T; fold r s; rewrite ?V; cbn [gadget]; rewrite ?app_nil_r, ?Q.
    - fold r s in D. rewrite V in D. cbn [gadget] in D. rewrite app_nil_r, Q in D. destruct D as [[-> ->] | D]; [| exfalso; exact (D [g_name m] eq_refl)]. cbn [app].
      unfold class_path. rewrite Q. cbn [map app]. rewrite Cm. apply means_full.
    - fold r s in En. rewrite V in En. cbn [gadget] in En. rewrite app_nil_r, Q in En. apply app_inv_head in En. apply app_inv_head in En. subst rest. unfold class_path. rewrite Q, Cm.
      change ([g_name m] ++ [first_capital name])%list with [g_name m; first_capital name].
      replace ((ps ++ map (fun a => (first_capital a ++ "_QtProtobufNested")%string) as_ ++ [g_name m]) ++ [first_capital name])%list
        with ((ps ++ map (fun a => (first_capital a ++ "_QtProtobufNested")%string) as_) ++ [g_name m; first_capital name])%list
        by (rewrite <- !app_assoc; reflexivity).
      eapply means_relative; [rewrite app_assoc; reflexivity | discriminate]. }
  intro Ca. exists (alias_path o ps as_ (g_name m) ++ [first_capital name])%list. split; [apply reached_by_alias |].
  unfold r. rewrite full_type_spec by (auto). fold r. rewrite V. cbn [gadget app]. unfold alias_path. rewrite Cm.
  replace (map first_capital as_) with as_ by (clear - Ca; induction Ca as [| x l C _ IH]; [reflexivity | cbn; rewrite C, <- IH; reflexivity]).
  rewrite <- !app_assoc. reflexivity.
Qed.

(** An enumeration of a nested message that is used in another message is printed with the name of a class for it that is not
    generated: what is printed is the path of no declaration. *)
Theorem C63_nested_refuted : forall o pe a b around name file ps as_ m,
  enum_names_ok pe (a :: b :: around) name file -> scope_names_ok ps as_ m ->
  (o_extra o = "" \/ part_ok (o_extra o)) ->
  ~ In (pe ++ (a :: b :: around) ++ [name])%list (full_names ps as_ m) ->
  let r := enum_of pe (a :: b :: around) name file in
  let s := scope_of ps as_ m in
  forall p, reached_at o pe (a :: b :: around) name p ->
    enum_full_type o r s <> text p /\ enum_property_type o r s <> text p.
Proof.
  intros o pe a b around name file ps as_ m E S X D r s p R.
  assert (V : enumVisibility r s = GLOBAL_ENUM).
  { unfold r, s. rewrite visibility_spec by assumption. destruct (in_dec _ _ _) as [I | I]; [contradiction |]. clear I.
    destruct (in_dec _ _ _) as [I | I]; [| reflexivity]. exfalso. apply in_flat_map in I. destruct I as (x & _ & I).
    unfold full_names in I. apply in_map_iff in I. destruct I as (y & I & _).
    apply (f_equal (@List.length string)) in I. repeat progress (rewrite ?app_length in I; cbn in I). lia. }
  assert (Ft : enum_full_type o r s <> text p).
  { unfold r. rewrite full_type_spec by assumption. fold r. rewrite V. cbn [gadget].
    destruct E as (P & A & N & F).
    assert (G : Forall part_ok p /\ List.length p = (List.length (outer_namespaces o pe) + (3 + List.length around))%nat).
    { inversion R as [ar n q Dq | ar mm n Ea]; subst.
      - inversion Dq as [| ar mm n Ea]; subst. assert (A' := A). rewrite <- Ea in A'. apply Forall_app in A'. destruct A' as [A1 A2].
        inversion A2; subst. split.
        + apply Forall_app. split; [apply part_class_path; assumption | constructor; [apply part_capital; exact N | constructor]].
        + apply (f_equal (@List.length string)) in Ea. rewrite app_length in Ea. cbn in Ea.
          unfold class_path. rewrite !app_length, map_length. cbn. lia.
      - assert (A' := A). rewrite <- Ea in A'. apply Forall_app in A'. destruct A' as [A1 A2]. inversion A2; subst. split.
        + unfold alias_path. rewrite !Forall_app. split; [split; [apply part_outer; assumption |] |].
          * split; [rewrite Forall_forall in *; intros x I; apply in_map_iff in I; destruct I as (y & <- & I); apply part_capital; apply A1; exact I
                   | constructor; [apply part_capital; assumption | constructor]].
          * constructor; [apply part_capital; exact N | constructor].
        + apply (f_equal (@List.length string)) in Ea. rewrite app_length in Ea. cbn in Ea.
          unfold alias_path. rewrite !app_length, map_length. cbn. lia. }
    destruct G as [Pp Lp]. intro T. apply text_inj in T.
    - apply (f_equal (@List.length string)) in T. rewrite Lp in T. repeat progress (rewrite ?app_length in T; cbn in T). lia.
    - rewrite !Forall_app. split; [apply part_outer; assumption |]. split; [exact A |].
      split; [constructor; [apply part_gadget; exact N | constructor] | constructor; [apply part_capital; exact N | constructor]].
    - exact Pp. }
  split; [exact Ft |]. unfold enum_property_type. rewrite V. exact Ft.
Qed.

(** An enumeration of the message around, used in the class of the nested message, is printed with its bare name, which means
    nothing there. *)
Theorem C63_around_refuted : forall o ps c name file m,
  enum_names_ok ps [g_name c] name file -> scope_names_ok ps [g_name c] m -> o_extra o = "" ->
  In c file -> has_enum c name -> ~ In (ps ++ [g_name c; name])%list (full_names ps [g_name c] m) ->
  let r := enum_of ps [g_name c] name file in
  let s := scope_of ps [g_name c] m in
  forall p, reached_at o ps [g_name c] name p -> ~ means (class_path o ps [g_name c] (g_name m)) (enum_scope_type o r s) p.
Proof.
  intros o ps c name file m E S X C (e & Ie & Ne) D r s p R M.
  assert (Q : forall l, outer_namespaces o l = l) by (intro l; unfold outer_namespaces; rewrite X; reflexivity).
  assert (V : gadget (enumVisibility r s) name = []).
  { unfold r, s. rewrite visibility_spec by assumption. destruct (in_dec _ _ _) as [I | I]; [contradiction |].
    destruct (in_dec _ _ _) as [J | J]; [reflexivity |]. exfalso. apply J. apply in_flat_map. exists c. split; [exact C |].
    unfold full_names. apply in_map_iff. exists e. rewrite Ne. auto. }
  assert (Pr : enum_scope_type o r s = text [first_capital name]).
  { destruct (scope_type_cases o ps [g_name c] name file ps [g_name c] m (or_introl X) E S) as [(_ & [[_ F] | F]) | (rest & _ & En & T)].
    - discriminate.
    - exfalso. fold r s in F. rewrite V, Q, app_nil_r in F. apply (F []). rewrite app_nil_r. reflexivity.
    - fold r s in T. rewrite T. fold r s in En. rewrite V, Q, app_nil_r in En. apply app_inv_head in En.
      change ([g_name c] = [g_name c] ++ rest)%list in En. destruct rest; [reflexivity | discriminate]. }
  assert (Ep : p = (ps ++ [first_capital (g_name c); first_capital name])%list).
  { inversion R as [ar n q Dq | ar mm n Ea]; subst.
    - inversion Dq as [| ar mm n Ea]; subst. destruct ar as [| x ar]; [| destruct ar; discriminate].
      injection Ea as ->. unfold class_path. rewrite Q. cbn [map app]. rewrite <- app_assoc. reflexivity.
    - destruct ar as [| x ar]; [| destruct ar; discriminate].
      injection Ea as ->. unfold alias_path. rewrite Q. cbn [map app]. rewrite <- app_assoc. reflexivity. }
  subst p. rewrite Pr in M. destruct E as (P & A & N & F). destruct S as (_ & _ & Nm & _).
  inversion A as [| ? ? Nc _]; subst.
  apply means_spec in M.
  - destruct M as (inner & outer & E1 & E2). unfold class_path in E1. rewrite Q in E1. cbn [map app] in E1.
    change (ps ++ [first_capital (g_name c); first_capital (e_name e)])%list
      with (ps ++ [first_capital (g_name c)] ++ [first_capital (e_name e)])%list in E2.
    rewrite app_assoc in E2. apply app_inj_tail in E2. destruct E2 as [<- _].
    rewrite <- app_assoc in E1. apply app_inv_head in E1. injection E1 as E1 _.
    apply (f_equal String.length) in E1. rewrite length_app_s in E1. cbn in E1. lia.
  - apply part_class_path; auto.
  - constructor; [apply part_capital; exact N | constructor].
  - rewrite Forall_app. split; [exact P |]. constructor; [apply part_capital; exact Nc |]. constructor; [apply part_capital; exact N | constructor].
  - discriminate.
Qed.

(** With an extra namespace, the class of a nested message prints another name for its own enumerations than that of their
    declaration: one through the class around it, which is not complete at this point. *)
Theorem C63_extra_refuted : forall o ps as_ m name file,
  enum_names_ok ps (as_ ++ [g_name m])%list name file -> scope_names_ok ps as_ m ->
  part_ok (o_extra o) -> as_ <> [] -> hd_error (ps ++ as_)%list <> Some (o_extra o) -> has_enum m name ->
  let r := enum_of ps (as_ ++ [g_name m])%list name file in
  let s := scope_of ps as_ m in
  forall p, declared_at o ps (as_ ++ [g_name m])%list name p -> ~ means (class_path o ps as_ (g_name m)) (enum_scope_type o r s) p.
Proof.
  intros o ps as_ m name file E S X Na Hd (e & Ie & Ne) r s p D M.
  assert (Q : forall l, outer_namespaces o l = o_extra o :: l).
  { intro l. unfold outer_namespaces. destruct (o_extra o); [destruct X; congruence | reflexivity]. }
  assert (V : enumVisibility r s = LOCAL_ENUM).
  { unfold r, s. rewrite visibility_spec by assumption. destruct (in_dec _ _ _) as [I | I]; [reflexivity |]. exfalso. apply I.
    unfold full_names. apply in_map_iff. exists e. rewrite Ne, <- app_assoc. auto. }
  assert (Pr : enum_scope_type o r s = text (o_extra o :: ps ++ as_ ++ [g_name m; first_capital name])%list).
  { destruct (scope_type_cases o ps (as_ ++ [g_name m])%list name file ps as_ m (or_intror X) E S) as [(T & _) | (rest & Nn & En & T)].
    - fold r s in T. rewrite T. fold r s. rewrite V. cbn [gadget]. rewrite app_nil_r, Q. cbn [app]. rewrite <- !app_assoc. reflexivity.
    - exfalso. rewrite Q in En. apply Hd. rewrite (app_assoc ps as_ rest) in En. destruct (ps ++ as_)%list; [congruence |].
      cbn in En. injection En as <- _. reflexivity. }
  rewrite Pr in M. destruct E as (P & A & N & F). apply Forall_app in A. destruct A as [A Nm].
  inversion Nm as [| ? ? Nm' _]; subst.
  inversion D as [| ar mm n Ea]; subst; [destruct as_; discriminate |].
  apply app_inj_tail in Ea. destruct Ea as [-> ->].
  apply means_spec in M.
  - destruct M as (inner & outer & E1 & E2). unfold class_path in E2. rewrite Q in E2.
    destruct outer as [| x outer].
    + cbn [app] in E2. injection E2 as E2. rewrite <- !app_assoc in E2. apply app_inv_head in E2.
      destruct as_ as [| a as_]; [congruence |]. cbn in E2. injection E2 as E2 _.
      apply (f_equal String.length) in E2. rewrite length_app_s in E2. destruct a; cbn in E2; lia.
    + apply (f_equal (@List.length string)) in E2. repeat progress (rewrite ?app_length, ?map_length in E2; cbn in E2). lia.
  - apply part_class_path; auto.
  - constructor; [exact X |]. rewrite !Forall_app. split; [exact P |]. split; [exact A |].
    constructor; [exact Nm' |]. constructor; [apply part_capital; exact N | constructor].
  - rewrite Forall_app. split; [apply part_class_path; auto | constructor; [apply part_capital; exact N | constructor]].
  - discriminate.
Qed.

(** The classes of messages have names with capital letters, and the names of their enumerations are printed without. *)
Theorem C63_small_refuted : forall o pe c name file ps as_ m,
  enum_names_ok pe [g_name c] name file -> scope_names_ok ps as_ m ->
  (o_extra o = "" \/ part_ok (o_extra o)) ->
  In c file -> has_enum c name -> ~ capital (g_name c) ->
  forall p, reached_at o pe [g_name c] name p ->
    enum_full_type o (enum_of pe [g_name c] name file) (scope_of ps as_ m) <> text p.
Proof.
  intros o pe c name file ps as_ m E S X C (e & Ie & Ne) Cc p R.
  set (r := enum_of pe [g_name c] name file). set (s := scope_of ps as_ m).
  assert (V : gadget (enumVisibility r s) name = []).
  { unfold r, s. rewrite visibility_spec by assumption. destruct (in_dec _ _ _) as [I | I]; [reflexivity |].
    destruct (in_dec _ _ _) as [J | J]; [reflexivity |]. exfalso. apply J. apply in_flat_map. exists c. split; [exact C |].
    unfold full_names. apply in_map_iff. exists e. rewrite Ne. auto. }
  assert (Ep : p = (outer_namespaces o pe ++ [first_capital (g_name c); first_capital name])%list).
  { inversion R as [ar n q Dq | ar mm n Ea]; subst.
    - inversion Dq as [| ar mm n Ea]; subst. destruct ar as [| x ar]; [| destruct ar; discriminate].
      injection Ea as ->. unfold class_path. cbn [map app]. rewrite <- app_assoc. reflexivity.
    - destruct ar as [| x ar]; [| destruct ar; discriminate].
      injection Ea as ->. unfold alias_path. cbn [map app]. rewrite <- app_assoc. reflexivity. }
  unfold r. rewrite full_type_spec by assumption. fold r. rewrite V. subst p. cbn [app].
  destruct E as (P & A & N & F). inversion A as [| ? ? Nc _]; subst. intro T. apply text_inj in T.
  - apply app_inv_head in T. injection T as T. apply Cc. symmetry. exact T.
  - rewrite Forall_app. split; [apply part_outer; assumption |]. constructor; [exact Nc |]. constructor; [apply part_capital; exact N | constructor].
  - rewrite Forall_app. split; [apply part_outer; assumption |].
    constructor; [apply part_capital; exact Nc |]. constructor; [apply part_capital; exact N | constructor].
Qed.

Lemma part_check : forall s,
  (if String.eqb s "" then false else negb (existsb (fun c => Ascii.eqb "." c || Ascii.eqb ":" c)%bool (list_ascii_of_string s))) = true ->
  part_ok s.
Proof.
  intros s H. destruct (String.eqb s "") eqn:E; [discriminate |]. apply Bool.negb_true_iff in H. rewrite <- Bool.not_true_iff_false in H.
  split; [intros ->; discriminate |].
  split; intro I; apply H; apply existsb_exists; eexists; (split; [exact I | reflexivity]).
Qed.

(** The messages of a file "my.pkg": Outer has an enumeration, and a message Inner with one of its own; in small has one as well. *)
Definition inner_message : message := Message 1 "Inner" [] [mkEnum 3 "Level" [("Low", 0%Z)]] [].
Definition outer_message : message := Message 0 "Outer" [] [mkEnum 1 "Kind" [("None", 0%Z); ("Some", 1%Z)]] [inner_message].
Definition small_message : message := Message 2 "small" [] [mkEnum 4 "Kind" [("none", 0%Z)]] [].
Definition user_message : message := Message 3 "User" [] [] [].
Definition names_file : list message := [outer_message; small_message; user_message].
Definition no_extra : options := no_options.
Definition with_extra : options := mkOptions false false false false false "ext".

Example C63_printed_case :
  let user := scope_of ["my"; "pkg"] [] user_message in
  let inner := scope_of ["my"; "pkg"] ["Outer"] inner_message in
  let global := enum_of ["my"; "pkg"] [] "Mode" names_file in
  let kind := enum_of ["my"; "pkg"] ["Outer"] "Kind" names_file in
  let level := enum_of ["my"; "pkg"] ["Outer"; "Inner"] "Level" names_file in
  let small := enum_of ["my"; "pkg"] ["small"] "Kind" names_file in
  enum_full_type no_extra global user = "my::pkg::ModeGadget::Mode" /\ enum_scope_type no_extra global user = "ModeGadget::Mode"
  /\ enum_full_type no_extra kind user = "my::pkg::Outer::Kind" /\ enum_scope_type no_extra kind user = "Outer::Kind"
  /\ enum_property_type no_extra level inner = "Level" /\ enum_scope_type no_extra level inner = "Inner::Level"
  /\ enum_full_type no_extra level user = "my::pkg::Outer::Inner::LevelGadget::Level"
  /\ enum_scope_type no_extra kind inner = "Kind"
  /\ enum_scope_type with_extra level inner = "ext::my::pkg::Outer::Inner::Level"
  /\ enum_full_type no_extra small user = "my::pkg::small::Kind".
Proof. repeat split. Qed.

Lemma names_file_ok : forall around name, Forall part_ok around -> part_ok name -> enum_names_ok ["my"; "pkg"] around name names_file.
Proof.
  intros around name A N. split; [repeat constructor; apply part_check; reflexivity |]. split; [exact A |]. split; [exact N |].
  repeat constructor; apply part_check; reflexivity.
Qed.

Example C63_hypotheses_case :
  enum_names_ok ["my"; "pkg"] [] "Mode" names_file /\ enum_names_ok ["my"; "pkg"] ["Outer"] "Kind" names_file
  /\ enum_names_ok ["my"; "pkg"] ["Outer"; "Inner"] "Level" names_file /\ enum_names_ok ["my"; "pkg"] ["small"] "Kind" names_file
  /\ scope_names_ok ["my"; "pkg"] [] user_message /\ scope_names_ok ["my"; "pkg"] ["Outer"] inner_message
  /\ extra_ok no_extra ["my"; "pkg"] /\ extra_ok with_extra ["my"; "pkg"]
  /\ has_enum outer_message "Kind" /\ has_enum inner_message "Level" /\ has_enum small_message "Kind"
  /\ capital (g_name outer_message) /\ capital (g_name inner_message) /\ ~ capital (g_name small_message)
  /\ ~ In (["my"; "pkg"] ++ ["Mode"])%list (full_names ["my"; "pkg"] [] user_message)
  /\ ~ In (["my"; "pkg"] ++ ["Outer"; "Inner"] ++ ["Level"])%list (full_names ["my"; "pkg"] [] user_message)
  /\ ~ In (["my"; "pkg"] ++ ["Outer"; "Kind"])%list (full_names ["my"; "pkg"] ["Outer"] inner_message)
  /\ part_ok (o_extra with_extra) /\ hd_error (["my"; "pkg"] ++ ["Outer"])%list <> Some (o_extra with_extra).
Proof.
  assert (P : forall s, _ -> part_ok s) by exact part_check.
  split; [apply names_file_ok; repeat constructor; apply P; reflexivity |].
  split; [apply names_file_ok; repeat constructor; apply P; reflexivity |].
  split; [apply names_file_ok; repeat constructor; apply P; reflexivity |].
  split; [apply names_file_ok; repeat constructor; apply P; reflexivity |].
  split; [repeat split; repeat constructor; apply P; reflexivity |].
  split; [repeat split; repeat constructor; apply P; reflexivity |].
  split; [left; reflexivity |]. split; [right; split; [apply P; reflexivity | discriminate] |].
  split; [eexists; split; [left; reflexivity | reflexivity] |]. split; [eexists; split; [left; reflexivity | reflexivity] |].
  split; [eexists; split; [left; reflexivity | reflexivity] |].
  split; [reflexivity |]. split; [reflexivity |]. split; [discriminate |].
  split; [intros [] |]. split; [intros [] |]. split; [intros [I | []]; discriminate |]. split; [apply P; reflexivity | discriminate].
Qed.

Example C63_values_case :
  let e := mkEnum 0 "Level" [("low", 0%Z); ("High", 5%Z)] in
  enumerators e = [("Low", 0%Z); ("High", 5%Z)] /\ initial_enumerator e = Some "low" /\ ~ capital "low"
  /\ ~ NoDup (map fst (enumerators (mkEnum 0 "Twice" [("low", 0%Z); ("Low", 1%Z)])))
  /\ field_enum [mkMField "my_field" 3 (One (Simple TInt32)); mkMField "id" 7 (One (Simple TInt32))]
     = [("MyFieldProtoFieldNumber", 3%Z); ("Id_protoProtoFieldNumber", 7%Z)].
Proof.
  split; [reflexivity |]. split; [reflexivity |]. split; [discriminate |]. split; [| reflexivity].
  apply (C63_distinct_refuted _ "low" "Low"); [left; reflexivity | right; left; reflexivity | discriminate | reflexivity].
Qed.

Print Assumptions C62_handlers_partial.
Print Assumptions C62_unsupported_refuted.
Print Assumptions C62_enum_elsewhere_refuted.
Print Assumptions C62_repeated_bool_refuted.
Print Assumptions C63_enumerators.
Print Assumptions C63_distinct_partial.
Print Assumptions C63_distinct_refuted.
Print Assumptions C63_field_constants.
Print Assumptions C63_initial_partial.
Print Assumptions C63_initial_refuted.
Print Assumptions C63_top_level_partial.
Print Assumptions C63_of_message_partial.
Print Assumptions C63_own_partial.
Print Assumptions C63_nested_refuted.
Print Assumptions C63_around_refuted.
Print Assumptions C63_extra_refuted.
Print Assumptions C63_small_refuted.

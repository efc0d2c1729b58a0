(** Proofs about the names of enumerations. *)

From Coq Require Import String Ascii ZArith List Bool Arith Lia.
From Verif Require Import GenModel GenSpec GenStrings GenTypesModel GenTypesSpec.
Import ListNotations.
Open Scope string_scope.

(** * Texts of paths *)

Lemma namespaces_string_join : forall l, namespaces_string l = text l.
Proof.
  unfold text. induction l as [| x [| y l] IH]; [reflexivity | reflexivity |].
  change (namespaces_string (x :: y :: l)) with (x ++ "::" ++ namespaces_string (y :: l)). rewrite IH. reflexivity.
Qed.

Lemma colon_split : forall x y a b, free_of ":" x -> free_of ":" y ->
  x ++ String ":" a = y ++ String ":" b -> x = y /\ a = b.
Proof.
  induction x as [| c x IH]; intros [| d y] a b Fx Fy E; cbn in E.
  - injection E as E. auto.
  - injection E as <- _. apply free_cons in Fy. exfalso. apply (proj1 Fy). reflexivity.
  - injection E as E _. apply free_cons in Fx. exfalso. apply (proj1 Fx). exact E.
  - injection E as <- E. apply free_cons in Fx. apply free_cons in Fy. destruct (IH y a b (proj2 Fx) (proj2 Fy) E) as [-> ->]. auto.
Qed.

Lemma colon_free_app : forall x y b, free_of ":" x -> x = y ++ String ":" b -> False.
Proof.
  intros x y b F ->. apply free_app in F. destruct F as [_ F]. apply free_cons in F. apply (proj1 F). reflexivity.
Qed.

Lemma text_cons : forall x l, l <> [] -> text (x :: l) = x ++ "::" ++ text l.
Proof. intros x [| y l] N; [congruence | reflexivity]. Qed.

Lemma text_nonempty : forall l, Forall part_ok l -> l <> [] -> text l <> "".
Proof.
  intros [| x l] F N; [congruence |]. inversion F as [| ? ? (Nx & _) _]; subst. destruct l as [| y l]; [exact Nx |].
  unfold text. rewrite join_cons. destruct x; [congruence | discriminate].
Qed.

Lemma text_inj : forall a b, Forall part_ok a -> Forall part_ok b -> text a = text b -> a = b.
Proof.
  induction a as [| x a IH]; intros b Fa Fb E.
  - destruct b as [| y b]; [reflexivity |]. exfalso. symmetry in E. revert E. apply text_nonempty; [exact Fb | discriminate].
  - destruct b as [| y b]; [exfalso; revert E; apply text_nonempty; [exact Fa | discriminate] |].
    inversion Fa as [| ? ? (Nx & _ & Cx) Fa']; subst. inversion Fb as [| ? ? (Ny & _ & Cy) Fb']; subst.
    destruct a as [| x' a], b as [| y' b].
    + unfold text in E. cbn in E. congruence.
    + rewrite (text_cons y) in E by discriminate. exfalso. exact (colon_free_app _ _ _ Cx E).
    + rewrite (text_cons x) in E by discriminate. exfalso. symmetry in E. exact (colon_free_app _ _ _ Cy E).
    + rewrite !text_cons in E by discriminate. destruct (colon_split _ _ _ _ Cx Cy E) as [-> E'].
      injection E' as E'. rewrite (IH (y' :: b)); auto.
Qed.

Lemma text_app : forall a b, a <> [] -> b <> [] -> text (a ++ b)%list = text a ++ "::" ++ text b.
Proof. intros a b Na Nb. apply join_app; assumption. Qed.

Lemma prefix_spec : forall a s, String.prefix a s = true <-> exists b, s = a ++ b.
Proof.
  induction a as [| c a IH]; intro s; [split; [intros _; exists s; reflexivity | intros _; destruct s; reflexivity] |].
  destruct s as [| d s]; [split; [discriminate | intros (b & E); discriminate] |].
  cbn [String.prefix]. destruct (ascii_dec c d) as [-> | N].
  - rewrite IH. split; intros (b & E); exists b; [rewrite E; reflexivity | injection E as E; exact E].
  - split; [discriminate | intros (b & E); injection E as E _; congruence].
Qed.

(** The text of a path starts with that of another one and two colons. *)
Lemma text_prefix : forall a b t, Forall part_ok a -> Forall part_ok b -> a <> [] ->
  text b = text a ++ "::" ++ t -> exists rest, rest <> [] /\ b = (a ++ rest)%list /\ t = text rest.
Proof.
  induction a as [| x a IH]; intros b t Fa Fb N E; [congruence |].
  inversion Fa as [| ? ? (Nx & _ & Cx) Fa']; subst.
  destruct b as [| y b].
  { exfalso. apply (f_equal String.length) in E. rewrite !length_app_s in E. cbn in E. lia. }
  inversion Fb as [| ? ? (Ny & _ & Cy) Fb']; subst.
  destruct a as [| x' a].
  - destruct b as [| y' b].
    + exfalso. unfold text in E. cbn in E. exact (colon_free_app _ _ _ Cy E).
    + rewrite text_cons in E by discriminate. change (text [x]) with x in E.
      destruct (colon_split _ _ _ _ Cy Cx E) as [-> E']. injection E' as E'. exists (y' :: b). split; [discriminate |]. auto.
  - rewrite (text_cons x) in E by discriminate. rewrite app_assoc_s in E. destruct b as [| y' b].
    + exfalso. exact (colon_free_app _ _ _ Cy E).
    + rewrite text_cons in E by discriminate. destruct (colon_split _ _ _ _ Cy Cx E) as [-> E']. injection E' as E'.
      destruct (IH (y' :: b) t Fa' Fb' ltac:(discriminate) E') as (rest & Nr & -> & ->). exists rest. auto.
Qed.

Lemma substring_skip : forall a b, substring (String.length a) (String.length b) (a ++ b) = b.
Proof.
  induction a as [| c a IH]; intro b; cbn; [| exact (IH b)].
  induction b as [| d b IHb]; cbn; [reflexivity | rewrite IHb; reflexivity].
Qed.

(** What is left of a path in a scope. *)
Lemma scope_namespaces_cases : forall en ns, Forall part_ok en -> Forall part_ok ns ->
  let printed := getScopeNamespacesString (text en) (text ns) in
  (printed = text en /\ (ns = [] \/ forall rest, en <> (ns ++ rest)%list))
  \/ (exists rest, ns <> [] /\ en = (ns ++ rest)%list /\ printed = text rest).
Proof.
  intros en ns Fe Fn printed. unfold printed, getScopeNamespacesString.
  destruct (String.eqb (text ns) "") eqn:E0.
  { apply String.eqb_eq in E0. left. split; [reflexivity |]. left. destruct ns as [| x ns]; [reflexivity |].
    exfalso. revert E0. apply text_nonempty; [exact Fn | discriminate]. }
  assert (Nn : ns <> []) by (intros ->; discriminate).
  destruct (String.eqb (text en) (text ns)) eqn:E1.
  { apply String.eqb_eq in E1. apply text_inj in E1; [| exact Fe | exact Fn]. right. exists [].
    split; [exact Nn |]. rewrite app_nil_r. auto. }
  destruct (String.prefix (text ns ++ "::") (text en)) eqn:E2.
  - apply prefix_spec in E2. destruct E2 as (b & E2).
    assert (E2' := E2). rewrite app_assoc_s in E2'. destruct (text_prefix ns en b Fn Fe Nn E2') as (rest & Nr & En & Eb).
    right. exists rest. split; [exact Nn |]. split; [exact En |]. rewrite E2, <- Eb.
    replace (String.length (text ns) + 2) with (String.length (text ns ++ "::")) by (rewrite length_app_s; reflexivity).
    rewrite (length_app_s (text ns ++ "::") b).
    replace (String.length (text ns ++ "::") + String.length b - String.length (text ns ++ "::")) with (String.length b) by lia.
    apply substring_skip.
  - left. split; [reflexivity |]. right. intros rest E. destruct rest as [| r rest].
    + rewrite app_nil_r in E. subst en. rewrite String.eqb_refl in E1. discriminate.
    + assert (T : String.prefix (text ns ++ "::") (text en) = true).
      { apply prefix_spec. rewrite E, text_app by (assumption || discriminate). exists (text (r :: rest)).
        rewrite app_assoc_s. reflexivity. }
      congruence.
Qed.

(** * Full names *)

Lemma part_package : forall l, Forall part_ok l -> package_parts l.
Proof. intros l F. unfold package_parts. eapply Forall_impl; [| exact F]. intros p (N & D & _). auto. Qed.

Lemma dots_nonempty : forall l, package_parts l -> l <> [] -> join "." l <> "".
Proof.
  intros [| x l] F N; [congruence |]. inversion F as [| ? ? (Nx & _) _]; subst. destruct l as [| y l]; [exact Nx |].
  rewrite join_cons. destruct x; [congruence | discriminate].
Qed.

Lemma full_name_join : forall parts name, package_parts parts ->
  full_name (package_of parts) name = join "." (parts ++ [name])%list.
Proof.
  intros parts name P. unfold full_name, package_of. destruct parts as [| p parts]; [reflexivity |].
  destruct (join "." (p :: parts)) eqn:E; [exfalso; revert E; apply dots_nonempty; [exact P | discriminate] |].
  rewrite <- E. rewrite join_snoc by discriminate. reflexivity.
Qed.

Lemma message_full_join : forall parts around name, package_parts parts ->
  message_full (package_of parts) around name = join "." (parts ++ around ++ [name])%list.
Proof.
  intros parts around name P. destruct around as [| a around]; cbn [message_full app].
  - apply full_name_join. exact P.
  - rewrite full_name_join by exact P. unfold nested_name.
    assert (G : forall l acc, acc <> [] ->
      fold_left (fun outer n => outer ++ "." ++ n) l (join "." acc) = join "." (acc ++ l)%list).
    { induction l as [| x l IH]; intros acc N; cbn [fold_left]; [rewrite app_nil_r; reflexivity |].
      rewrite <- join_snoc by exact N. rewrite IH by (destruct acc; discriminate). rewrite <- app_assoc. reflexivity. }
    change (fold_left nested_name around (join "." (parts ++ [a])%list))
      with (fold_left (fun outer n => outer ++ "." ++ n) around (join "." (parts ++ [a])%list)).
    rewrite G by (destruct parts; discriminate). rewrite <- app_assoc. cbn [app].
    rewrite <- join_snoc by (destruct parts; discriminate). rewrite <- app_assoc. reflexivity.
Qed.

Lemma join_dot_inj : forall a b, package_parts a -> package_parts b -> join "." a = join "." b -> a = b.
Proof.
  intros a b A B E. rewrite <- (split_parts a A), <- (split_parts b B). unfold package_of. rewrite E. reflexivity.
Qed.

Lemma parts_app : forall a b, package_parts a -> package_parts b -> package_parts (a ++ b)%list.
Proof. intros a b A B. apply Forall_app. auto. Qed.

Lemma part_one : forall x, part_ok x -> package_parts [x].
Proof. intros x (N & D & _). constructor; [auto | constructor]. Qed.

(** isLocalEnum and its like, by lists of names. *)
Lemma declares_spec : forall parts around m full,
  scope_names_ok parts around m -> package_parts full ->
  declares (package_of parts) around m (join "." full) = true <-> In full (full_names parts around m).
Proof.
  intros parts around m full (P & A & N & E) F. unfold declares, full_names. rewrite existsb_exists, in_map_iff.
  assert (J : forall e, In e (g_enums m) ->
    nested_name (message_full (package_of parts) around (g_name m)) (e_name e) = join "." (parts ++ around ++ [g_name m; e_name e])%list).
  { intros e I. rewrite message_full_join by (apply part_package; exact P). unfold nested_name.
    rewrite <- join_snoc by (destruct parts, around; discriminate). rewrite <- !app_assoc. reflexivity. }
  assert (Q : forall e, In e (g_enums m) -> package_parts (parts ++ around ++ [g_name m; e_name e])%list).
  { intros e I. rewrite Forall_forall in E. apply parts_app; [apply part_package; exact P |].
    apply parts_app; [apply part_package; exact A |]. apply part_package. constructor; [exact N |].
    constructor; [apply E; exact I | constructor]. }
  split.
  - intros (e & I & T). apply String.eqb_eq in T. rewrite (J e I) in T.
    apply join_dot_inj in T; [| apply Q; exact I | exact F]. exists e. auto.
  - intros (e & T & I). exists e. split; [exact I |]. rewrite (J e I), T. apply String.eqb_refl.
Qed.

(** The visibility of an enumeration. *)
Lemma visibility_spec : forall ps as_ m pe ae name file,
  scope_names_ok ps as_ m -> enum_names_ok pe ae name file ->
  let full := (pe ++ ae ++ [name])%list in
  enumVisibility (enum_of pe ae name file) (scope_of ps as_ m) =
    (if in_dec (list_eq_dec string_dec) full (full_names ps as_ m) then LOCAL_ENUM
     else if in_dec (list_eq_dec string_dec) full (flat_map (full_names pe []) file) then NEIGHBOR_ENUM else GLOBAL_ENUM).
Proof.
  intros ps as_ m pe ae name file S (P & A & N & F) full.
  assert (Pf : package_parts full).
  { apply parts_app; [apply part_package; exact P |]. apply parts_app; [apply part_package; exact A | apply part_one; exact N]. }
  unfold enumVisibility, enum_of, scope_of. cbn [er_package er_around er_name er_file s_package s_around s_message].
  rewrite message_full_join by (apply part_package; exact P). fold full.
  destruct (in_dec (list_eq_dec string_dec) full (full_names ps as_ m)) as [I | I].
  - apply declares_spec in I; [| exact S | exact Pf]. rewrite I. reflexivity.
  - destruct (declares (package_of ps) as_ m (join "." full)) eqn:D; [apply declares_spec in D; [contradiction | exact S | exact Pf] |].
    clear D. rewrite Forall_forall in F.
    assert (Sm : forall x, In x file -> scope_names_ok pe [] x).
    { intros x X. destruct (F x X) as [Nx Ex]. repeat split; auto; apply Nx. }
    destruct (in_dec (list_eq_dec string_dec) full (flat_map (full_names pe []) file)) as [J | J].
    + apply in_flat_map in J. destruct J as (x & X & J). apply declares_spec in J; [| apply Sm; exact X | exact Pf].
      destruct (existsb _ file) eqn:E; [reflexivity |]. exfalso.
      assert (T : existsb (fun m0 => declares (package_of pe) [] m0 (join "." full)) file = true)
        by (apply existsb_exists; exists x; auto). congruence.
    + destruct (existsb _ file) eqn:E; [| reflexivity]. exfalso. apply existsb_exists in E. destruct E as (x & X & D).
      apply declares_spec in D; [| apply Sm; exact X | exact Pf]. apply J. apply in_flat_map. exists x. auto.
Qed.

(** * Printed names *)

Lemma part_capital : forall s, part_ok s -> part_ok (first_capital s).
Proof.
  intros [| c s] (N & D & C); [congruence |]. rewrite first_capital_eq. cbn [upperCaseName].
  apply free_cons in D. apply free_cons in C. split; [discriminate |]. split; apply free_cons; split; try apply D; try apply C.
  - intro E. apply (proj1 D). destruct c as [[] [] [] [] [] [] [] []]; vm_compute in E; congruence.
  - intro E. apply (proj1 C). destruct c as [[] [] [] [] [] [] [] []]; vm_compute in E; congruence.
Qed.

Lemma part_suffix : forall s t, part_ok s -> free_of "." t -> free_of ":" t -> part_ok (s ++ t).
Proof.
  intros s t (N & D & C) D' C'. split; [destruct s; [congruence | discriminate] |]. split; apply free_app; auto.
Qed.

Lemma part_gadget : forall s, part_ok s -> part_ok (first_capital s ++ "Gadget").
Proof.
  intros s P. apply part_suffix; [apply part_capital; exact P | |]; intro I; cbn in I; intuition discriminate.
Qed.

Lemma part_nested : forall s, part_ok s -> part_ok (first_capital s ++ "_QtProtobufNested").
Proof.
  intros s P. apply part_suffix; [apply part_capital; exact P | |]; intro I; cbn in I; intuition discriminate.
Qed.

(** The namespaces that the generator finds for an enumeration. *)
Definition gadget (v : visibility) (name : string) : list string :=
  match v with GLOBAL_ENUM => [(first_capital name ++ "Gadget")%string] | _ => [] end.

Lemma getNamespaces_join : forall l name, package_parts (l ++ [name])%list -> getNamespaces (join "." (l ++ [name])%list) = l.
Proof.
  intros l name P. unfold getNamespaces. change (join "." (l ++ [name])%list) with (package_of (l ++ [name])%list).
  rewrite split_parts by exact P. apply removelast_last.
Qed.

Lemma enum_namespaces_spec : forall o pe ae name file s, enum_names_ok pe ae name file ->
  enum_namespaces o (enum_of pe ae name file) s
  = (outer_namespaces o pe ++ ae ++ gadget (enumVisibility (enum_of pe ae name file) s) name)%list.
Proof.
  intros o pe ae name file s (P & A & N & F). unfold enum_namespaces. cbn [er_package er_around er_name er_file enum_of].
  rewrite message_full_join by (apply part_package; exact P).
  assert (Pn : package_parts ((pe ++ ae) ++ [name])%list).
  { apply parts_app; [apply parts_app; apply part_package; assumption | apply part_one; exact N]. }
  rewrite app_assoc. unfold namespaces. rewrite getNamespaces_join by exact Pn.
  unfold gadget, outer_namespaces. rewrite first_capital_eq. change (mkEnumRef (package_of pe) ae name file) with (enum_of pe ae name file).
  destruct (o_extra o); cbn [app]; rewrite <- ?app_assoc; reflexivity.
Qed.

Lemma scope_namespaces_spec : forall ps as_ m, scope_names_ok ps as_ m ->
  scope_namespaces (scope_of ps as_ m) = text (ps ++ as_)%list.
Proof.
  intros ps as_ m (P & A & N & E). unfold scope_namespaces, scope_of, scope_full. cbn [s_package s_around s_message].
  rewrite message_full_join by (apply part_package; exact P). rewrite app_assoc, getNamespaces_join; [apply namespaces_string_join |].
  apply parts_app; [apply parts_app; apply part_package; assumption | apply part_one; exact N].
Qed.

Lemma in_namespace_text : forall l x, Forall part_ok l -> in_namespace (text l) x = text (l ++ [x])%list.
Proof.
  intros l x F. unfold in_namespace. destruct l as [| y l]; [reflexivity |].
  destruct (String.eqb (text (y :: l)) "") eqn:E.
  - apply String.eqb_eq in E. exfalso. revert E. apply text_nonempty; [exact F | discriminate].
  - rewrite text_app by discriminate. reflexivity.
Qed.

Lemma part_outer : forall o parts, (o_extra o = "" \/ part_ok (o_extra o)) -> Forall part_ok parts ->
  Forall part_ok (outer_namespaces o parts).
Proof.
  intros o parts X P. unfold outer_namespaces. destruct (o_extra o) eqn:E; [exact P |].
  destruct X as [X | X]; [discriminate |]. constructor; assumption.
Qed.

Lemma part_all : forall o pe ae name file s, (o_extra o = "" \/ part_ok (o_extra o)) -> enum_names_ok pe ae name file ->
  Forall part_ok (outer_namespaces o pe ++ ae ++ gadget (enumVisibility (enum_of pe ae name file) s) name)%list.
Proof.
  intros o pe ae name file s X (P & A & N & F). apply Forall_app. split; [apply part_outer; assumption |].
  apply Forall_app. split; [exact A |]. unfold gadget. destruct (enumVisibility _ _); constructor; [apply part_gadget; exact N | constructor].
Qed.

Lemma full_type_spec : forall o pe ae name file s,
  (o_extra o = "" \/ part_ok (o_extra o)) -> enum_names_ok pe ae name file ->
  enum_full_type o (enum_of pe ae name file) s
  = text (outer_namespaces o pe ++ ae ++ gadget (enumVisibility (enum_of pe ae name file) s) name ++ [first_capital name])%list.
Proof.
  intros o pe ae name file s X E. unfold enum_full_type. rewrite enum_namespaces_spec by exact E.
  rewrite namespaces_string_join. rewrite in_namespace_text by (apply part_all; assumption).
  cbn [er_name enum_of]. rewrite first_capital_eq, <- !app_assoc. reflexivity.
Qed.

Lemma scope_type_cases : forall o pe ae name file ps as_ m,
  (o_extra o = "" \/ part_ok (o_extra o)) -> enum_names_ok pe ae name file -> scope_names_ok ps as_ m ->
  let s := scope_of ps as_ m in
  let en := (outer_namespaces o pe ++ ae ++ gadget (enumVisibility (enum_of pe ae name file) s) name)%list in
  (enum_scope_type o (enum_of pe ae name file) s = text (en ++ [first_capital name])%list
     /\ (ps = [] /\ as_ = [] \/ forall rest, en <> (ps ++ as_ ++ rest)%list))
  \/ (exists rest, (ps ++ as_)%list <> [] /\ en = (ps ++ as_ ++ rest)%list
        /\ enum_scope_type o (enum_of pe ae name file) s = text (rest ++ [first_capital name])%list).
Proof.
  intros o pe ae name file ps as_ m X E S s en. unfold enum_scope_type.
  assert (Sn : scope_namespaces s = text (ps ++ as_)%list) by (apply scope_namespaces_spec; exact S).
  rewrite enum_namespaces_spec by exact E. rewrite Sn, namespaces_string_join. fold en.
  cbn [er_name enum_of]. rewrite <- first_capital_eq.
  assert (Fe : Forall part_ok en) by (apply part_all; assumption).
  assert (Fn : Forall part_ok (ps ++ as_)%list) by (destruct S as (P & A & _); apply Forall_app; auto).
  destruct (scope_namespaces_cases en (ps ++ as_)%list Fe Fn) as [(-> & H) | (rest & N & H & ->)].
  - left. rewrite in_namespace_text by exact Fe. split; [reflexivity |]. destruct H as [H | H].
    + left. apply app_eq_nil in H. exact H.
    + right. intros rest R. apply (H rest). rewrite R, app_assoc. reflexivity.
  - right. exists rest. split; [exact N |]. rewrite <- app_assoc in H. split; [exact H |].
    rewrite in_namespace_text; [reflexivity |]. rewrite H in Fe. apply Forall_app in Fe. destruct Fe as [_ Fe].
    apply Forall_app in Fe. apply Fe.
Qed.

(** * Where enumerations are *)

Lemma means_full : forall place l, means place (text l) l.
Proof. intros place l. exists place, []. split; reflexivity. Qed.

Lemma means_relative : forall place outer inner rest, place = (outer ++ inner)%list -> rest <> [] ->
  means place (text rest) (outer ++ rest)%list.
Proof.
  intros place outer inner rest E N. exists inner, outer. split; [exact E |]. destruct outer as [| x outer]; [reflexivity |].
  apply text_app; [discriminate | exact N].
Qed.

(** Names that are not followed by a path of their own. *)
Lemma means_spec : forall place l p, Forall part_ok place -> Forall part_ok l -> Forall part_ok p -> l <> [] ->
  means place (text l) p -> exists inner outer, place = (outer ++ inner)%list /\ p = (outer ++ l)%list.
Proof.
  intros place l p Fp Fl Fq N (inner & outer & E & T). exists inner, outer. split; [exact E |].
  rewrite E in Fp. apply Forall_app in Fp. destruct outer as [| x outer].
  - apply text_inj in T; [exact T | exact Fq | exact Fl].
  - rewrite <- text_app in T by (discriminate || exact N). apply text_inj in T; [exact T | exact Fq |]. apply Forall_app. split; [apply Fp | exact Fl].
Qed.

Lemma part_class_path : forall o parts around name, (o_extra o = "" \/ part_ok (o_extra o)) ->
  Forall part_ok parts -> Forall part_ok around -> part_ok name -> Forall part_ok (class_path o parts around name).
Proof.
  intros o parts around name X P A N. unfold class_path. apply Forall_app. split; [apply part_outer; assumption |].
  apply Forall_app. split; [| constructor; [apply part_capital; exact N | constructor]].
  rewrite Forall_forall in *. intros x I. apply in_map_iff in I. destruct I as (y & <- & I). apply part_nested. apply A. exact I.
Qed.

(** Proofs about how GrpcStream finds the methods of clients. *)

From Coq Require Import String Ascii ZArith List Bool Arith Lia Permutation.
From Verif Require Import Base GenModel GenSpec GenStrings GenOutput GenTypesModel GenTypesSpec GenTypesNames GenLookupModel GenLookupSpec
  GenLookupProofs GenClassSpec ClientModel ClientSpec ClientProofs.
Import ListNotations.
Open Scope string_scope.

Lemma find_only : forall (A : Type) (P : A -> bool) l m, In m l -> P m = true -> (forall m', In m' l -> P m' = true -> m' = m) ->
  find P l = Some m.
Proof.
  intros A P l m I Pm U. destruct (find P l) as [m' |] eqn:F.
  - apply find_some in F. f_equal. apply U; apply F.
  - rewrite (find_none _ _ F _ I) in Pm. discriminate.
Qed.

Lemma parts_eqb_spec : forall a b, parts_eqb a b = true <-> a = b.
Proof. intros a b. unfold parts_eqb. destruct (list_eq_dec string_dec a b); split; auto; discriminate. Qed.

(** * Names of meta types *)

Lemma concat_text : forall l, meta_class_name l = text l.
Proof.
  unfold meta_class_name, text. induction l as [| x [| y l] IH]; [reflexivity | reflexivity |].
  change (String.concat "::" (x :: y :: l)) with (x ++ "::" ++ String.concat "::" (y :: l)). now rewrite IH.
Qed.

Lemma full_type_text : forall o pt at_ nt, (o_extra o = "" \/ part_ok (o_extra o)) -> message_names_ok pt at_ nt ->
  message_full_type o (mkMessageRef (package_of pt) at_ nt) = text (outer_namespaces o pt ++ at_ ++ [first_capital nt])%list.
Proof.
  intros o pt at_ nt E M. unfold message_full_type, message_namespaces. rewrite ref_full_parts by exact M. destruct M as (P & A & N).
  cbn [mr_name]. rewrite <- first_capital_eq.
  assert (Q : namespaces o (package_of (pt ++ at_ ++ [nt])) = (outer_namespaces o pt ++ at_)%list).
  { unfold namespaces, outer_namespaces. rewrite app_assoc. rewrite getNamespaces_parts; [destruct (o_extra o); reflexivity |].
    apply parts_app; [apply parts_app; apply part_package; assumption | apply part_one; exact N]. }
  rewrite Q, namespaces_string_join. clear Q.
  assert (Po : Forall part_ok (outer_namespaces o pt)) by (apply part_outer; assumption).
  rewrite in_namespace_text by (apply Forall_app; split; assumption). now rewrite <- app_assoc.
Qed.

Lemma class_parts_path : forall o pt at_ nt, message_names_ok pt at_ nt ->
  class_parts o (mkMessageRef (package_of pt) at_ nt) = class_path o pt at_ nt.
Proof.
  intros o pt at_ nt (P & A & N). unfold class_parts, class_path. cbn [mr_package mr_around mr_name].
  assert (T : part_ok (match at_ with [] => nt | a :: _ => a end)) by (destruct at_; [exact N | now inversion A]).
  set (top := match at_ with [] => nt | a :: _ => a end) in *. clearbody top.
  assert (Q : namespaces o (full_name (package_of pt) top) = outer_namespaces o pt).
  { rewrite full_name_join by (now apply part_package). change (join "." (pt ++ [top])) with (package_of (pt ++ [top])).
    unfold namespaces, outer_namespaces. rewrite getNamespaces_parts; [destruct (o_extra o); reflexivity |].
    apply parts_app; [now apply part_package | now apply part_one]. }
  rewrite Q. f_equal. rewrite <- first_capital_eq. f_equal. apply map_ext. intro a. now rewrite <- first_capital_eq.
Qed.

Lemma part_class : forall o k, (o_extra o = "" \/ part_ok (o_extra o)) -> known_ok k -> Forall part_ok (class_at o k).
Proof.
  intros o [pt at_ nt] E ((P & A & N) & _). unfold class_at, class_path. cbn [k_parts k_around k_name] in *. rewrite !Forall_app.
  split; [now apply part_outer |]. split; [| constructor; [now apply part_capital | constructor]].
  clear -A. induction at_ as [| a l IH]; [constructor |]. inversion A as [| ? ? Pa Al]; subst. constructor; [| now apply IH].
  apply part_capital in Pa. destruct Pa as (Ne & D & C). split; [intro Q; destruct (first_capital a); [now apply Ne | discriminate Q] |].
  split; apply GenStrings.free_app; (split; [assumption |]); intro Q; cbn in Q; intuition discriminate.
Qed.

Lemma part_registered : forall o k, (o_extra o = "" \/ part_ok (o_extra o)) -> known_ok k -> Forall part_ok (registered_path o k).
Proof.
  intros o [pt at_ nt] E ((P & A & N) & _). unfold registered_path. cbn [k_parts k_around k_name] in *. rewrite !Forall_app.
  split; [now apply part_outer |]. split; [exact A |]. constructor; [now apply part_capital | constructor].
Qed.

Lemma known_names : forall o k, (o_extra o = "" \/ part_ok (o_extra o)) -> known_ok k ->
  meta_names o (ref_of k) =
    [ (text (registered_path o k), MValue (class_at o k)); (text (class_at o k) ++ "*", MPointer (class_at o k));
      (text (registered_path o k) ++ "*", MPointer (class_at o k)) ].
Proof.
  intros o [pt at_ nt] E (M & _). unfold meta_names, ref_of, class_at, registered_path. cbn [k_parts k_around k_name] in *.
  rewrite (class_parts_path o pt at_ nt M). rewrite (full_type_text o pt at_ nt E M). rewrite (concat_text (class_path o pt at_ nt)). reflexivity.
Qed.

(** No stars in names. *)
Lemma free_capital : forall s, free_of "*" s -> free_of "*" (first_capital s).
Proof.
  intros [| c s] F; [exact F |]. apply free_cons in F. destruct F as [N F]. cbn [first_capital]. apply free_cons. split; [| exact F].
  intro E. apply N. destruct c as [[] [] [] [] [] [] [] []]; vm_compute in E; congruence.
Qed.

Lemma free_text : forall l, Forall (free_of "*") l -> free_of "*" (text l).
Proof.
  unfold text. induction l as [| x [| y l] IH]; intro F.
  - intro I; destruct I.
  - now inversion F.
  - inversion F as [| ? ? X Y]; subst. change (join "::" (x :: y :: l)) with (x ++ "::" ++ join "::" (y :: l)).
    apply GenStrings.free_app. split; [exact X |]. apply GenStrings.free_app. split; [intro I; cbn in I; intuition discriminate | now apply IH].
Qed.

Lemma star_free : forall a b, free_of "*" b -> a ++ "*" <> b.
Proof. intros a b F E. subst b. apply GenStrings.free_app in F. destruct F as [_ F]. apply F. now left. Qed.

Section Program.

Variable o : options.
Variable program : list known.
Hypothesis Ok_ : program_ok o program.

Lemma extra_part : o_extra o = "" \/ part_ok (o_extra o).
Proof. destruct Ok_ as ([E | (E & _)] & _); auto. Qed.

Lemma known_in : forall k, In k program -> known_ok k.
Proof. intros k I. destruct Ok_ as (_ & F & _). rewrite Forall_forall in F. now apply F. Qed.

Lemma extra_free : free_of "*" (o_extra o).
Proof. destruct Ok_ as ([E | (_ & E & _)] & _); [rewrite E; intro I; destruct I | exact E]. Qed.

Lemma outer_free : forall l, Forall (free_of "*") l -> Forall (free_of "*") (outer_namespaces o l).
Proof. intros l F. pose proof extra_free as E. unfold outer_namespaces. destruct (o_extra o); [exact F |]. now constructor. Qed.

Lemma registered_free : forall k, In k program -> free_of "*" (text (registered_path o k)).
Proof.
  intros k I. destruct (known_in k I) as (_ & F & _). apply free_text. unfold registered_path. rewrite !Forall_app in *.
  destruct F as (F1 & F2 & F3). split; [now apply outer_free |]. split; [exact F2 |].
  constructor; [apply free_capital; now inversion F3 | constructor].
Qed.

Lemma class_free : forall k, In k program -> free_of "*" (text (class_at o k)).
Proof.
  intros k I. destruct (known_in k I) as (_ & F & _). apply free_text. unfold class_at, class_path. rewrite !Forall_app in *.
  destruct F as (F1 & F2 & F3). split; [now apply outer_free |].
  split; [| constructor; [apply free_capital; now inversion F3 | constructor]].
  clear -F2. induction (k_around k) as [| a l IH]; [constructor |]. inversion F2; subst. constructor; [| auto].
  apply GenStrings.free_app. split; [now apply free_capital |]. intro I; cbn in I; intuition discriminate.
Qed.

(** What a registered name can be. *)
Lemma named_some : forall n t, type_named (meta_types o (map ref_of program)) n = Some t ->
  exists k, In k program /\
    ((n = text (registered_path o k) /\ t = MValue (class_at o k))
     \/ ((n = text (class_at o k) ++ "*" \/ n = text (registered_path o k) ++ "*") /\ t = MPointer (class_at o k))).
Proof.
  intros n t H. unfold type_named in H. destruct (find _ _) as [[n' t'] |] eqn:F; [| discriminate H]. cbn in H. injection H as ->.
  apply find_some in F. cbn [fst] in F. destruct F as [I E]. apply String.eqb_eq in E. subst n'.
  unfold meta_types in I. apply in_flat_map in I. destruct I as (r & R & I). apply in_map_iff in R. destruct R as (k & <- & K).
  exists k. split; [exact K |]. rewrite (known_names o k extra_part (known_in k K)) in I.
  destruct I as [I | [I | [I | []]]]; injection I as <- <-; auto.
Qed.

Lemma named_none : forall n, type_named (meta_types o (map ref_of program)) n = None -> forall k, In k program ->
  n <> text (registered_path o k) /\ n <> text (class_at o k) ++ "*" /\ n <> text (registered_path o k) ++ "*".
Proof.
  intros n H k K. unfold type_named in H. destruct (find _ _) as [e |] eqn:F; [discriminate H |].
  assert (I : forall e, In e (meta_names o (ref_of k)) -> fst e <> n).
  { intros e I E. assert (J : In e (meta_types o (map ref_of program))).
    { unfold meta_types. apply in_flat_map. exists (ref_of k). split; [now apply in_map | exact I]. }
    pose proof (find_none _ _ F e J) as X. cbn in X. rewrite E, String.eqb_refl in X. discriminate X. }
  rewrite (known_names o k extra_part (known_in k K)) in I.
  split; [| split]; intro E; subst n.
  - exact (I _ (or_introl eq_refl) eq_refl).
  - exact (I _ (or_intror (or_introl eq_refl)) eq_refl).
  - exact (I _ (or_intror (or_intror (or_introl eq_refl))) eq_refl).
Qed.

Lemma top_class : forall k, top_level k -> class_at o k = registered_path o k.
Proof. intros [pt at_ nt] T. unfold top_level in T. cbn in T. subst at_. reflexivity. Qed.

Lemma plain_capital : forall s x, (forall y, s <> y ++ "_QtProtobufNested") -> first_capital s <> x ++ "_QtProtobufNested".
Proof.
  intros [| c s] x P E; [destruct x; discriminate E |]. destruct x as [| d x].
  - cbn [first_capital append] in E. assert (C : to_capital c = "_"%char) by congruence. assert (S : s = "QtProtobufNested") by congruence.
    apply (P ""). subst s. cbn. f_equal. clear -C. destruct c as [[] [] [] [] [] [] [] []]; vm_compute in C; congruence.
  - cbn [first_capital append] in E. assert (S : s = x ++ "_QtProtobufNested") by congruence. apply (P (String c x)). now rewrite S.
Qed.

Lemma plain_registered : forall k, In k program -> plain_names (registered_path o k).
Proof.
  intros k K a I x. destruct (known_in k K) as (_ & _ & P). unfold plain_names in P. unfold registered_path in I. apply in_app_or in I.
  destruct I as [I | I].
  - unfold outer_namespaces in I. destruct (o_extra o) as [| c e] eqn:E.
    + apply P. apply in_or_app. now left.
    + destruct I as [<- | I]; [| apply P; apply in_or_app; now left].
      destruct Ok_ as ([X | (_ & _ & X)] & _); [congruence |]. rewrite E in X. apply X. now left.
  - apply in_app_or in I. destruct I as [I | [<- | []]].
    + apply P. apply in_or_app. right. apply in_or_app. now left.
    + apply plain_capital. intro y. apply P. apply in_or_app. right. apply in_or_app. right. now left.
Qed.

Lemma nested_not_registered : forall k k', In k' program -> ~ top_level k -> class_at o k <> registered_path o k'.
Proof.
  intros [pt at_ nt] k' K' T E. unfold top_level in T. cbn [k_around] in T. destruct at_ as [| a at_]; [now apply T |].
  refine (plain_registered k' K' (first_capital a ++ "_QtProtobufNested") _ (first_capital a) eq_refl). rewrite <- E.
  unfold class_at, class_path. cbn [k_parts k_around k_name map]. apply in_or_app. right. now left.
Qed.

(** The name of a class is that of a registered type if the message is not inside of another one. *)
Lemma class_named : forall k, In k program ->
  type_named (meta_types o (map ref_of program)) (meta_class_name (class_at o k))
  = match k_around k with [] => Some (MValue (class_at o k)) | _ :: _ => None end.
Proof.
  intros k K. rewrite concat_text.
  destruct (type_named (meta_types o (map ref_of program)) (text (class_at o k))) as [t |] eqn:H.
  - apply named_some in H. destruct H as (k' & K' & [(E & ->) | ([E | E] & _)]).
    + apply text_inj in E; [| apply part_class; [apply extra_part | now apply known_in] | apply part_registered; [apply extra_part | now apply known_in]].
      destruct (k_around k) as [| a l] eqn:A.
      * rewrite (top_class k A) in E. destruct Ok_ as (_ & _ & U). now rewrite (U k k' K K' E).
      * exfalso. apply (nested_not_registered k k' K'); [unfold top_level; congruence | exact E].
    + exfalso. exact (star_free _ _ (class_free k K) (eq_sym E)).
    + exfalso. exact (star_free _ _ (class_free k K) (eq_sym E)).
  - destruct (k_around k) as [| a l] eqn:A; [| reflexivity]. exfalso. destruct (named_none _ H k K) as (X & _). apply X.
    now rewrite (top_class k A).
Qed.

(** The type of a parameter. *)
Lemma param_named : forall compiled full k, takes o program compiled full k ->
  parameter_type (meta_types o (map ref_of program)) (cpp_type full ++ "*", compiled (cpp_type full)) = Some (MPointer (class_at o k)).
Proof.
  intros compiled full k (K & F & C & X & Cp). pose proof (known_in k K) as ((P & A & N) & _).
  set (p := (k_parts k ++ k_around k ++ [k_name k])%list) in *.
  assert (Pp : Forall part_ok p) by (unfold p; rewrite !Forall_app; repeat split; auto).
  assert (T : cpp_type full = text p).
  { rewrite F. clear -Pp. unfold text. assert (G : forall l, Forall part_ok l -> cpp_type (join "." l) = join "::" l); [| now apply G].
    assert (Fr : forall s, free_of "." s -> cpp_type s = s).
    { induction s as [| c s IH]; intro H; [reflexivity |]. apply free_cons in H. destruct H as [Nc H]. cbn.
      destruct (Ascii.eqb c ".") eqn:E; [apply Ascii.eqb_eq in E; exfalso; exact (Nc E) | now rewrite (IH H)]. }
    assert (Ap : forall a b, cpp_type (a ++ b) = cpp_type a ++ cpp_type b).
    { induction a as [| c a IH]; intro b; [reflexivity |]. cbn. rewrite IH. destruct (Ascii.eqb c "."); reflexivity. }
    induction l as [| x [| y l] IH]; intro H; inversion H as [| ? ? Hx H']; subst; [reflexivity | apply Fr, Hx |].
    rewrite !join_cons, !Ap, IH by exact H'. rewrite (Fr x); [reflexivity | apply Hx]. }
  rewrite T, Cp. unfold parameter_type. cbn [fst snd].
  destruct (type_named _ _) as [t |] eqn:H; [| reflexivity].
  apply named_some in H. destruct H as (k' & K' & H).
  assert (Rp : o_extra o = "" -> p = registered_path o k).
  { intro E. unfold p, registered_path, outer_namespaces. rewrite E. apply Forall_app in C. destruct C as [_ C]. inversion C as [| ? ? Cn _]; subst.
    unfold capital in Cn. now rewrite Cn. }
  assert (Pc : Forall part_ok (class_at o k')) by (apply part_class; [apply extra_part | now apply known_in]).
  assert (Pr : Forall part_ok (registered_path o k')) by (apply part_registered; [apply extra_part | now apply known_in]).
  assert (Ex : o_extra o <> "" -> p <> class_at o k' /\ p <> registered_path o k').
  { intro Ne. destruct X as [X | (_ & X)]; [congruence |].
    assert (Q : forall l, l <> [] -> p <> o_extra o :: l).
    { intros l Nl E. unfold p in E. rewrite app_assoc in E. destruct (k_parts k ++ k_around k)%list as [| y r] eqn:D.
      - cbn in E. injection E as _ E. now apply Nl.
      - cbn in E. injection E as E1 E2. apply (X r). now rewrite E1. }
    unfold class_at, class_path, registered_path, outer_namespaces. destruct (o_extra o) as [| c e]; [congruence |].
    split; (rewrite <- app_comm_cons; apply Q; intro Z0; apply app_eq_nil in Z0; destruct Z0 as [_ Z0]; apply app_eq_nil in Z0; destruct Z0 as [_ Z0]; discriminate Z0). }
  destruct H as [(E & _) | ([E | E] & ->)].
  - exfalso. exact (star_free _ _ (registered_free k' K') E).
  - apply app_inv_tail_s in E. apply text_inj in E; try assumption. destruct (string_dec (o_extra o) "") as [Z0 | Z0]; [| now destruct (Ex Z0)].
    destruct (k_around k') as [| a l] eqn:A'.
    + rewrite (Rp Z0), (top_class k' A') in E. destruct Ok_ as (_ & _ & U). now rewrite (U k k' K K' E).
    + exfalso. apply (nested_not_registered k' k K); [unfold top_level; congruence |]. now rewrite <- E, (Rp Z0).
  - apply app_inv_tail_s in E. apply text_inj in E; try assumption. destruct (string_dec (o_extra o) "") as [Z0 | Z0]; [| now destruct (Ex Z0)].
    rewrite (Rp Z0) in E. destruct Ok_ as (_ & _ & U). now rewrite (U k k' K K' E).
Qed.

(** Names without star are not those of pointers. *)
Lemma value_named : forall n t, free_of "*" n -> type_named (meta_types o (map ref_of program)) n = Some t -> meta_object (Some t) = None.
Proof.
  intros n t F H. apply named_some in H. destruct H as (k & K & [(_ & ->) | ([E | E] & _)]); [reflexivity | |];
    exfalso; exact (star_free _ _ F (eq_sym E)).
Qed.

End Program.

(** * Methods *)

Definition qml_member (x : rpc) : member :=
  mkMember false true (Some (JLibrary true "QGrpcStreamShared")) ("qmlStream" ++ upperCaseName (x_name x) ++ "_p")
    [JPointer (in_type x); JPointer (out_type x)].

Definition meta_of (compiled : string -> option (list string)) (qml : bool) (v : service) (m : member) : meta_method :=
  mkMetaMethod (b_name m) (moc_result (b_result m)) (map (moc_param compiled) (b_params m)) (runs (client_source qml v) m).

(** The methods with Q_INVOKABLE. *)
Lemma invokable_cases : forall qml v m, In m (client_header qml v) -> b_invokable m = true ->
  exists x, In x (v_rpcs v) /\
    ((unary x /\ b_name m = x_name x /\ b_result m = Some JVoid)
     \/ (x_server_streams x = true /\ qml = true /\ m = qml_member x)).
Proof.
  intros qml v m I B. destruct I as [<- | I]; [discriminate B |]. apply in_app_or in I.
  destruct I as [I | I]; apply in_flat_map in I; destruct I as (x & X & I); exists x; (split; [exact X |]).
  - unfold public_declarations in I. destruct (x_server_streams x) eqn:S.
    + destruct I as [<- | [<- | []]]; discriminate B.
    + left. split; [exact S |]. destruct qml; cbn in I; repeat (destruct I as [<- | I]; [first [discriminate B | split; reflexivity] |]); destruct I.
  - right. unfold private_declarations in I. destruct (x_server_streams x) eqn:S; [| destruct I]. destruct qml; [| destruct I].
    destruct I as [<- | []]. auto.
Qed.

Lemma runs_qml : forall v x b, In x (v_rpcs v) -> x_server_streams x = true ->
  runs (client_source true v) (qml_member x) = b ->
  exists y, In y (v_rpcs v) /\ x_server_streams y = true /\ first_capital (x_name y) = first_capital (x_name x)
    /\ in_type y = in_type x /\ out_type y = out_type x /\ b = Some (ScriptStream (x_name y)).
Proof.
  intros v x b X S R. unfold runs in R. destruct (find _ _) as [i |] eqn:F.
  - apply find_some in F. destruct F as [I M]. apply andb_true_iff in M. destruct M as [M1 M2]. apply String.eqb_eq in M1.
    destruct (list_eq_dec _ _ _) as [M3 | _] in M2; [| discriminate M2]. clear M2.
    destruct I as [<- | I]; [discriminate M3 |]. apply in_flat_map in I. destruct I as (y & Y & I). exists y. split; [exact Y |].
    unfold implementations in I. destruct (x_server_streams y) eqn:Sy.
    + cbn in I. destruct I as [<- | [<- | [<- | []]]]; try discriminate M3. split; [reflexivity |]. cbn in M1. injection M1 as M1.
      cbn in M3. injection M3 as M4 M5. split; [rewrite !first_capital_eq; exact (app_inv_tail_s _ _ _ M1) |].
      unfold in_type, out_type. rewrite M4, M5. split; [reflexivity |]. split; [reflexivity |]. now rewrite <- R.
    + exfalso. cbn in I. repeat (destruct I as [<- | I]; [discriminate M3 |]). destruct I.
  - exfalso. assert (I : In (mkImplementation (client_class v) (Some (JLibrary true "QGrpcStreamShared"))
        ("qmlStream" ++ upperCaseName (x_name x) ++ "_p") [JPointer (in_type x); JPointer (out_type x)] (Some (ScriptStream (x_name x))) ["stream"])
        (client_source true v)).
    { right. apply in_flat_map. exists x. split; [exact X |]. unfold implementations. rewrite S. right. right. now left. }
    pose proof (find_none _ _ F _ I) as N. cbn [i_name i_params b_name b_params qml_member] in N. rewrite String.eqb_refl in N. cbn [andb] in N.
    destruct (list_eq_dec _ _ _) as [_ | E] in N; [discriminate N |]. apply E. reflexivity.
Qed.

Lemma inherited_apart : forall method m, In m inherited_methods -> String.eqb (wanted_name method) (mm_name m) = false.
Proof.
  intros method m I. apply String.eqb_neq. cbn in I. repeat (destruct I as [<- | I]; [discriminate |]). destruct I.
Qed.

(** The first of the methods with the name that is looked for. *)
Lemma wanted_found : forall compiled qml v method m,
  find (fun m => String.eqb (wanted_name method) (mm_name m)) (meta_methods compiled qml v) = Some m ->
  exists b, In b (client_header qml v) /\ b_invokable b = true /\ b_name b = wanted_name method /\ m = meta_of compiled qml v b.
Proof.
  intros compiled qml v method m F. apply find_some in F. destruct F as [I E]. unfold meta_methods in I. apply in_app_or in I.
  destruct I as [I | I]; [rewrite (inherited_apart method m I) in E; discriminate E |].
  apply in_map_iff in I. destruct I as (b & <- & I). apply filter_In in I. destruct I as [I B]. cbn [mm_name] in E. apply String.eqb_eq in E.
  exists b. auto.
Qed.

Lemma wanted_missing : forall compiled qml v method,
  find (fun m => String.eqb (wanted_name method) (mm_name m)) (meta_methods compiled qml v) = None ->
  forall b, In b (client_header qml v) -> b_invokable b = true -> b_name b <> wanted_name method.
Proof.
  intros compiled qml v method F b I B E.
  assert (J : In (meta_of compiled qml v b) (meta_methods compiled qml v)).
  { unfold meta_methods. apply in_or_app. right. apply in_map_iff. exists b. split; [reflexivity |]. apply filter_In. auto. }
  pose proof (find_none _ _ F _ J) as N. cbn [meta_of mm_name] in N. rewrite E, String.eqb_refl in N. discriminate N.
Qed.

Lemma qml_member_in : forall v x, In x (v_rpcs v) -> x_server_streams x = true -> In (qml_member x) (client_header true v).
Proof.
  intros v x X S. right. apply in_or_app. right. apply in_flat_map. exists x. split; [exact X |]. unfold private_declarations. rewrite S. now left.
Qed.

Lemma wanted_is : forall compiled v x method, In x (v_rpcs v) -> x_server_streams x = true -> qml_name_free v x ->
  first_capital method = first_capital (x_name x) ->
  exists m, find (fun m => String.eqb (wanted_name method) (mm_name m)) (meta_methods compiled true v) = Some m
    /\ m = mkMetaMethod (wanted_name method) "QtProtobuf::QGrpcStreamShared"
        [(cpp_type (x_input x) ++ "*", compiled (cpp_type (x_input x))); (cpp_type (x_output x) ++ "*", compiled (cpp_type (x_output x)))]
        (Some (ScriptStream (x_name x))).
Proof.
  intros compiled v x method X S (Q1 & Q2) E.
  assert (W : wanted_name method = "qmlStream" ++ first_capital (x_name x) ++ "_p").
  { unfold wanted_name. now rewrite <- first_capital_eq, E. }
  destruct (find _ _) as [m |] eqn:F.
  - exists m. split; [reflexivity |]. destruct (wanted_found _ _ _ _ _ F) as (b & I & B & N & ->).
    destruct (invokable_cases _ _ _ I B) as (y & Y & [(U & Ny & _) | (Sy & _ & ->)]).
    + exfalso. apply (Q2 y Y U). now rewrite <- Ny, N, W.
    + assert (Ey : y = x).
      { apply Q1; [exact Y | unfold unary; congruence |]. cbn [b_name qml_member] in N. rewrite W, <- first_capital_eq in N.
        injection N as N. exact (app_inv_tail_s _ _ _ N). }
      subst y. unfold meta_of. cbn [qml_member b_name b_result b_params moc_result map moc_param in_type out_type show]. rewrite <- N. cbn [b_name].
      f_equal. destruct (runs_qml v x _ X S eq_refl) as (y & Y' & Sy' & Cy & _ & _ & R).
      change (runs (client_source true v) (qml_member x) = Some (ScriptStream (x_name x))). rewrite R.
      rewrite (Q1 y Y'); [reflexivity | unfold unary; congruence | exact Cy].
  - exfalso. apply (wanted_missing _ _ _ _ F _ (qml_member_in v x X S) eq_refl). cbn [b_name qml_member]. now rewrite W, first_capital_eq.
Qed.

(** * What GrpcStream does *)

Lemma same_object_spec : forall a c, same_object a c = true <-> a = Some c.
Proof.
  intros [c' |] c; cbn; [| split; discriminate]. rewrite parts_eqb_spec. split; [now intros -> | now injection 1].
Qed.

Lemma stream_outcome : forall o program compiled v x kin kout method argument,
  program_ok o program -> In x (v_rpcs v) -> x_server_streams x = true -> qml_name_free v x ->
  takes o program compiled (x_input x) kin -> takes o program compiled (x_output x) kout ->
  first_capital method = first_capital (x_name x) ->
  quick_stream (meta_types o (map ref_of program)) (meta_methods compiled true v) method argument
  = if list_eq_dec string_dec (class_at o kin) argument
    then match k_around kin, k_around kout with
         | [], [] => Ok (inr (Some (ScriptStream (x_name x))))
         | _, _ => Ok (inl 3%Z)
         end
    else Ok (inl 3%Z).
Proof.
  intros o program compiled v x kin kout method argument K X S Q Ti To E.
  destruct (wanted_is compiled v x method X S Q E) as (m & F & ->). unfold quick_stream. rewrite F. cbn [mm_params mm_result mm_body].
  rewrite (param_named o program K compiled (x_input x) kin Ti). cbn [meta_object same_object]. unfold parts_eqb at 1.
  destruct (list_eq_dec string_dec (class_at o kin) argument) as [<- | _]; [| reflexivity]. cbn [negb].
  pose proof Ti as (Ki & _). pose proof To as (Ko & _).
  rewrite (class_named o program K kin Ki). destruct (k_around kin); [| reflexivity].
  replace (parts_eqb (class_at o kin) (class_at o kin)) with true by (symmetry; now apply parts_eqb_spec). cbn [negb].
  rewrite (param_named o program K compiled (x_output x) kout To). cbn [meta_object].
  rewrite (class_named o program K kout Ko). destruct (k_around kout); [| reflexivity].
  replace (parts_eqb (class_at o kout) (class_at o kout)) with true by (symmetry; now apply parts_eqb_spec). reflexivity.
Qed.

Lemma stream_only : forall reg compiled qml v method argument b,
  quick_stream reg (meta_methods compiled qml v) method argument = Ok (inr b) ->
  qml = true /\ exists x, In x (v_rpcs v) /\ x_server_streams x = true /\ first_capital (x_name x) = first_capital method
    /\ b = Some (ScriptStream (x_name x))
    /\ parameter_type reg (cpp_type (x_input x) ++ "*", compiled (cpp_type (x_input x))) = Some (MPointer argument).
Proof.
  intros reg compiled qml v method argument b H. unfold quick_stream in H. destruct (find _ _) as [m |] eqn:F; [| discriminate H].
  destruct (wanted_found _ _ _ _ _ F) as (d & I & B & N & ->). cbn [meta_of mm_params mm_result mm_body] in H.
  destruct (invokable_cases _ _ _ I B) as (y & Y & [(U & Ny & R) | (Sy & -> & ->)]).
  - exfalso. rewrite R in H. cbn [moc_result show String.eqb] in H.
    destruct (map (moc_param compiled) (b_params d)) as [| p0 [| p1 ps]]; try discriminate H.
    destruct (negb (same_object _ argument)); [discriminate H |]. destruct (type_named reg (meta_class_name argument)); [| discriminate H].
    destruct (negb _); [discriminate H |]. destruct (parameter_type reg p1) as [t1 |]; [| discriminate H].
    destruct (meta_object (Some t1)); [| discriminate H]. destruct (type_named reg (meta_class_name l)); [| discriminate H].
    destruct (negb _); discriminate H.
  - split; [reflexivity |]. destruct (runs_qml v y _ Y Sy eq_refl) as (z & Z0 & Sz & Cz & Iz & Oz & Rz).
    change (mkMember false true (Some (JLibrary true "QGrpcStreamShared")) ("qmlStream" ++ upperCaseName (x_name y) ++ "_p")
      [JPointer (in_type y); JPointer (out_type y)]) with (qml_member y) in *. rewrite Rz in H.
    cbn [qml_member b_params b_result b_name map moc_param in_type out_type] in H. exists z. split; [exact Z0 |]. split; [exact Sz |].
    destruct (same_object _ argument) eqn:A; [| discriminate H]. cbn [negb] in H. apply same_object_spec in A.
    split; [| split].
    + rewrite Cz. cbn [b_name qml_member] in N. unfold wanted_name in N. injection N as N. apply app_inv_tail_s in N. now rewrite !first_capital_eq.
    + destruct (type_named reg (meta_class_name argument)); [| discriminate H]. destruct (negb _); [discriminate H |].
      destruct (parameter_type reg (cpp_type (x_output y) ++ "*", _)) as [t1 |]; [| discriminate H].
      destruct (meta_object (Some t1)); [| discriminate H]. destruct (type_named reg (meta_class_name l)); [| discriminate H].
      destruct (negb _); [discriminate H |]. cbn in H. congruence.
    + injection Iz as Iz. rewrite Iz. destruct (parameter_type reg _) as [[c | c] |]; try discriminate A. cbn in A. congruence.
Qed.

Lemma stream_missing : forall reg compiled qml v method argument,
  (forall x, In x (v_rpcs v) -> qml = true -> ~ unary x -> first_capital (x_name x) <> first_capital method) ->
  (forall x, In x (v_rpcs v) -> unary x -> x_name x <> "qmlStream" ++ first_capital method ++ "_p") ->
  quick_stream reg (meta_methods compiled qml v) method argument = Ok (inl 12%Z).
Proof.
  intros reg compiled qml v method argument H1 H2. unfold quick_stream. destruct (find _ _) as [m |] eqn:F; [| reflexivity]. exfalso.
  destruct (wanted_found _ _ _ _ _ F) as (d & I & B & N & _).
  destruct (invokable_cases _ _ _ I B) as (y & Y & [(U & Ny & R) | (Sy & Qm & ->)]).
  - apply (H2 y Y U). rewrite <- Ny, N. unfold wanted_name. now rewrite first_capital_eq.
  - apply (H1 y Y Qm); [unfold unary; congruence |]. cbn [b_name qml_member] in N. unfold wanted_name in N. injection N as N.
    apply app_inv_tail_s in N. now rewrite !first_capital_eq.
Qed.

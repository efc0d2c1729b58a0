(** Properties of generated constructors, clients, includes, and of the conversions of Timestamp. *)

From Coq Require Import String Ascii ZArith List Bool Arith Lia.
From Verif Require Import GenModel GenSpec GenStrings GenTypesModel GenTypesSpec GenTypesNames GenTypesClasses.
Import ListNotations.
Open Scope string_scope.

(** * C64: constructors *)

(** There is a constructor for each number of leading fields, and no other one. *)
Theorem C64_all_counts : forall fs count,
  (count <= List.length fs)%nat <-> exists xs, In (count, xs) (constructors fs).
Proof.
  intros fs count. unfold constructors. split.
  - intro L. eexists. apply in_map_iff. exists count. split; [reflexivity |]. apply in_seq. lia.
  - intros (xs & I). apply in_map_iff in I. destruct I as (c & E & I). apply in_seq in I. injection E as -> _. lia.
Qed.

(** The constructor with [count] parameters sets every member: the first ones to the arguments, members of message types to copies
    of them, and the others to their defaults; none is left uninitialized. *)
Theorem C64_members : forall fs count xs,
  In (count, xs) (constructors fs) ->
  List.length (members_from 0 fs xs) = List.length fs
  /\ forall i f, nth_error fs i = Some f ->
       exists x, nth_error (members_from 0 fs xs) i = Some x
         /\ ((i < count)%nat -> argument_member (m_shape f) i x)
         /\ ((count <= i)%nat -> default_member (m_shape f) x)
         /\ x <> Garbage.
Proof.
  intros fs count xs I. unfold constructors in I. apply in_map_iff in I. destruct I as (c & E & _). injection E as -> <-.
  split; [apply members_length |]. intros i f N. destruct (members_spec count fs 0 i f N) as (x & E & A & D).
  exists x. split; [exact E |]. split; [exact A |]. split; [exact D |]. cbn [Nat.add] in *.
  destruct (Nat.lt_ge_cases i count) as [L | L].
  - specialize (A L). unfold argument_member in A. destruct (m_shape f) as [[] | |]; congruence.
  - specialize (D L). unfold default_member in D. destruct (m_shape f) as [[[] | | |] | |]; intuition congruence.
Qed.

(** For arguments of the types of the leading fields there is exactly one constructor to call, unless there is one
    argument and it is of the type of the message itself.  Missing: that case, see the next theorem. *)
Theorem C64_overloads_partial : forall m count,
  (count <= List.length (g_fields m))%nat ->
  map field_parameter (firstn count (g_fields m)) <> [PClass (g_id m)] ->
  exactly_one (fits (map field_parameter (firstn count (g_fields m)))) (declared_constructors m).
Proof. exact overloads. Qed.

(** A message whose first field is of its own type has two constructors that take such a message: the copy of a
    message is ambiguous, and generated code that makes one does not compile. *)
Theorem C64_own_type_first_refuted : forall m f fs,
  g_fields m = f :: fs -> m_shape f = One (Mess (g_id m)) ->
  more_than_one (fits [PClass (g_id m)]) (declared_constructors m).
Proof.
  intros m f fs E S. unfold declared_constructors. rewrite E. cbn [List.length seq map firstn app].
  assert (F : field_parameter f = PClass (g_id m)) by (unfold field_parameter; rewrite S; reflexivity). rewrite F.
  eexists [_], _, _, _, []. split; [cbn [app]; reflexivity |]. split; [right; reflexivity | left; reflexivity].
Qed.

Definition node : message :=
  Message 0 "Node" [ mkMField "left" 1 (One (Mess 0)); mkMField "value" 2 (One (Simple TInt32)); mkMField "kind" 3 (One (Enu 0)) ] [] [].
Definition edge : message :=
  Message 1 "Edge" [ mkMField "weight" 1 (One (Simple TDouble)); mkMField "from" 2 (One (Mess 0)); mkMField "tags" 3 (Many (Simple TString)) ] [] [].
Example C64_case :
  map (fun c => members_from 0 (g_fields node) (snd c)) (constructors (g_fields node))
  = [ [NullPointer; Literal "0"; Enumerator 0]; [CopyOf 0; Literal "0"; Enumerator 0];
      [CopyOf 0; Argument 1; Enumerator 0]; [CopyOf 0; Argument 1; Argument 2] ]
  /\ (exists f fs, g_fields node = f :: fs /\ m_shape f = One (Mess (g_id node)))
  /\ (2 <= List.length (g_fields edge))%nat /\ map field_parameter (firstn 2 (g_fields edge)) <> [PClass (g_id edge)]
  /\ map field_parameter (firstn 1 (g_fields edge)) <> [PClass (g_id edge)].
Proof.
  split; [reflexivity |]. split; [do 2 eexists; split; reflexivity |]. split; [cbn; lia |]. split; discriminate.
Qed.

(** * C65: clients *)

Lemma cpp_type_free : forall s, free_of "." s -> cpp_type s = s.
Proof.
  induction s as [| c s IH]; intro F; [reflexivity |]. apply free_cons in F. destruct F as [N F]. cbn.
  destruct (Ascii.eqb c ".") eqn:E; [apply Ascii.eqb_eq in E; exfalso; exact (N E) | rewrite (IH F); reflexivity].
Qed.

Lemma cpp_type_app : forall a b, cpp_type (a ++ b) = cpp_type a ++ cpp_type b.
Proof.
  induction a as [| c a IH]; intro b; [reflexivity |]. cbn. rewrite IH. destruct (Ascii.eqb c "."); reflexivity.
Qed.

Lemma cpp_type_join : forall l, Forall (free_of ".") l -> cpp_type (join "." l) = join "::" l.
Proof.
  induction l as [| x [| y l] IH]; intro F; inversion F as [| ? ? Fx F']; subst; [reflexivity | apply cpp_type_free; exact Fx |].
  rewrite !join_cons, !cpp_type_app, IH by exact F'. rewrite (cpp_type_free x Fx). reflexivity.
Qed.

(** Each method of a client makes a request of one of the procedures of the service, at the path that gRPC prescribes; it opens a
    stream if and only if the server sends one; and it takes the message to send as its first argument. *)
Theorem C65_requests : forall qml parts v m,
  package_parts parts -> v_package v = package_of parts -> In m (client_methods qml v) ->
  exists x, In x (v_rpcs v)
    /\ request_path v (c_body m) = rpc_path parts v x
    /\ (opens_stream m <-> x_server_streams x = true)
    /\ (forall full, Forall (free_of ".") full -> x_input x = join "." full ->
          exists p ps, c_parameters m = p :: ps /\ sends (class_text full) p).
Proof.
  intros qml parts v m P V I. unfold client_methods in I. apply in_flat_map in I. destruct I as (x & X & I).
  exists x. split; [exact X |].
  assert (Pn : passed_name (c_body m) = x_name x).
  { unfold rpc_methods in I. destruct (x_server_streams x), qml; cbn in I; repeat (destruct I as [<- | I]; [reflexivity |]); destruct I. }
  split; [unfold request_path, rpc_path, service_name; rewrite Pn, V, full_name_join by exact P; reflexivity |].
  split.
  - unfold rpc_methods in I. destruct (x_server_streams x), qml; cbn in I; repeat (destruct I as [<- | I]; [cbn; intuition discriminate |]); destruct I.
  - intros full F E. assert (T : cpp_type (x_input x) = class_text full) by (rewrite E; apply cpp_type_join; exact F).
    unfold rpc_methods in I. rewrite T in I.
    destruct (x_server_streams x), qml; cbn in I;
      repeat (destruct I as [<- | I]; [do 2 eexists; split; [reflexivity | first [left; reflexivity | right; reflexivity]] |]); destruct I.
Qed.

(** Every procedure can be called, in each of the ways. *)
Theorem C65_complete : forall v x, In x (v_rpcs v) ->
  if x_server_streams x then
    (forall b, In b [OpenStream (x_name x); OpenStreamTo (x_name x)] ->
       forall qml, exists m, In m (client_methods qml v) /\ c_body m = b)
    /\ exists m, In m (client_methods true v) /\ c_body m = ScriptStream (x_name x)
  else
    (forall b, In b [BlockingCall (x_name x); AsyncCall (x_name x); CallbackCall (x_name x)] ->
       forall qml, exists m, In m (client_methods qml v) /\ c_body m = b /\ c_name m = x_name x)
    /\ forall b, In b [ScriptCallbackCall (x_name x); ScriptTargetCall (x_name x)] ->
         exists m, In m (client_methods true v) /\ c_body m = b /\ c_name m = x_name x.
Proof.
  intros v x X.
  assert (G : forall qml m, In m (rpc_methods qml x) -> In m (client_methods qml v)).
  { intros qml m I. unfold client_methods. apply in_flat_map. exists x. auto. }
  unfold rpc_methods in G. destruct (x_server_streams x).
  - split.
    + intros b B qml. destruct B as [<- | [<- | []]]; eexists; (split; [apply G; apply in_or_app; left |]);
        [left; reflexivity | reflexivity | right; left; reflexivity | reflexivity].
    + eexists. split; [apply G; apply in_or_app; right; left; reflexivity | reflexivity].
  - split.
    + intros b B qml. destruct B as [<- | [<- | [<- | []]]]; eexists; (split; [apply G; apply in_or_app; left |]);
        [left; reflexivity | split; reflexivity | right; left; reflexivity | split; reflexivity | right; right; left; reflexivity | split; reflexivity].
    + intros b B. destruct B as [<- | [<- | []]]; eexists; (split; [apply G; apply in_or_app; right |]);
        [left; reflexivity | split; reflexivity | right; left; reflexivity | split; reflexivity].
Qed.

(** A procedure to which the client sends a stream gets the methods of one to which it sends one message. *)
Theorem C65_client_stream_refuted : forall qml name input output server_streams,
  rpc_methods qml (mkRpc name input output true server_streams) = rpc_methods qml (mkRpc name input output false server_streams).
Proof. reflexivity. Qed.

(** Names and types of the parameters, by which C++ tells methods apart. *)
Definition signature (m : cmethod) : string * list string := (c_name m, c_parameters m).

(** The name of the methods for a procedure. *)
Definition method_name (x : rpc) : string := if x_server_streams x then "stream" ++ first_capital (x_name x) else x_name x.

Lemma star_not_ref : forall a b, (a ++ " *")%string <> const_ref b.
Proof.
  intros a b E. unfold const_ref in E. apply (f_equal last_char) in E.
  replace (a ++ " *") with ((a ++ " ") ++ String "*" "") in E by (rewrite app_assoc_s; reflexivity).
  replace ("const " ++ b ++ " &") with (("const " ++ b ++ " ") ++ String "&" "") in E by (rewrite !app_assoc_s; reflexivity).
  rewrite !last_char_app in E. discriminate.
Qed.

Lemma nodup_flat : forall (A B : Type) (f : A -> list B) l,
  (forall x, In x l -> NoDup (f x)) ->
  (forall a x b y c z, l = (a ++ x :: b ++ y :: c)%list -> In z (f x) -> In z (f y) -> False) ->
  NoDup (flat_map f l).
Proof.
  intros A B f. induction l as [| x l IH]; intros N D; [constructor |]. cbn [flat_map].
  assert (App : forall u v : list B, NoDup u -> NoDup v -> (forall z, In z u -> In z v -> False) -> NoDup (u ++ v)).
  { induction u as [| z u IHu]; intros v Nu Nv Duv; [exact Nv |]. inversion Nu as [| ? ? Nz Nu']; subst. cbn. constructor.
    - rewrite in_app_iff. intros [I | I]; [contradiction | exact (Duv z (or_introl eq_refl) I)].
    - apply IHu; auto. intros w I J. exact (Duv w (or_intror I) J). }
  apply App.
  - apply N. left. reflexivity.
  - apply IH; [intros y I; apply N; right; exact I |]. intros a y b y' c z E. apply (D (x :: a)%list y b y' c z). rewrite E. reflexivity.
  - intros z I J. apply in_flat_map in J. destruct J as (y & Y & J). apply in_split in Y. destruct Y as (b & c & ->).
    exact (D [] x b y c z eq_refl I J).
Qed.

(** No two methods of a client have the same signature if the names of the methods for its procedures are different, and differ from
    those for QML.  Missing: other services, see the next theorem. *)
Theorem C65_signatures_partial : forall qml v,
  NoDup (map method_name (v_rpcs v)) ->
  (forall x y, In x (v_rpcs v) -> In y (v_rpcs v) -> method_name x <> "qmlStream" ++ first_capital (x_name y) ++ "_p") ->
  NoDup (map signature (client_methods qml v)).
Proof.
  intros qml v N Q. unfold client_methods.
  replace (map signature (flat_map (rpc_methods qml) (v_rpcs v))) with (flat_map (fun x => map signature (rpc_methods qml x)) (v_rpcs v)).
  2: { clear. induction (v_rpcs v) as [| x l IH]; [reflexivity |]. cbn [flat_map]. rewrite map_app, IH. reflexivity. }
  assert (Names : forall x s, In s (map signature (rpc_methods qml x)) ->
    fst s = method_name x \/ (x_server_streams x = true /\ fst s = "qmlStream" ++ first_capital (x_name x) ++ "_p")).
  { intros x s I. apply in_map_iff in I. destruct I as (m & <- & I). unfold rpc_methods in I. unfold method_name.
    rewrite !first_capital_eq. destruct (x_server_streams x), qml; cbn in I;
      repeat (destruct I as [<- | I]; [cbn; auto |]); destruct I. }
  apply nodup_flat.
  - intros x X.
    assert (Sx := star_not_ref). specialize (Q x x X X). unfold method_name in Q. rewrite !first_capital_eq in Q.
    unfold rpc_methods. destruct (x_server_streams x), qml; cbn [app map signature c_name c_parameters];
      repeat (constructor; [cbn [In]; intro I; repeat (destruct I as [I | I]); try discriminate; try contradiction |]); try constructor.
    all: try (injection I; intros; subst; eauto; fail).
    all: try (unfold signature in I; cbn [c_name c_parameters] in I; injection I as I1; exact (Sx _ _ I1)).
    all: try (injection I as I1 I2; first [exact (Sx _ _ I1) | exact (Sx _ _ (eq_sym I1)) | exact (Sx _ _ I2) | exact (Sx _ _ (eq_sym I2))]).
  - intros a x b y c z E I J.
    assert (X : In x (v_rpcs v)) by (rewrite E; apply in_or_app; right; left; reflexivity).
    assert (Y : In y (v_rpcs v)) by (rewrite E; apply in_or_app; right; right; apply in_or_app; right; left; reflexivity).
    assert (D : method_name x <> method_name y).
    { rewrite E, map_app in N. cbn [map] in N. apply NoDup_remove_2 in N. intro M. apply N. rewrite M.
      apply in_or_app. right. rewrite map_app. apply in_or_app. right. left. reflexivity. }
    destruct (Names x z I) as [A | [Sx A]], (Names y z J) as [B | [Sy B]]; rewrite A in B.
    + exact (D B).
    + exact (Q x y X Y B).
    + exact (Q y x Y X (eq_sym B)).
    + apply app_inv_head_s, app_inv_tail_s in B. apply D. unfold method_name. rewrite Sx, Sy, B. reflexivity.
Qed.

(** Two procedures whose methods have one name and take messages of one type clash: the generated class does not compile.  (So for
    procedures "foo" and "Foo" of which the server sends streams, and for "streamFoo" and "Foo".) *)
Theorem C65_signatures_refuted : forall qml v a x b y c,
  v_rpcs v = (a ++ x :: b ++ y :: c)%list ->
  method_name x = method_name y -> x_input x = x_input y -> ~ NoDup (map signature (client_methods qml v)).
Proof.
  intros qml v a x b y c E M T N.
  assert (H : forall z, In (method_name z, [const_ref (cpp_type (x_input z))]) (map signature (rpc_methods qml z))).
  { intro z. unfold method_name, rpc_methods. rewrite first_capital_eq. destruct (x_server_streams z); cbn [app map signature c_name c_parameters];
      [left; reflexivity | right; left; reflexivity]. }
  unfold client_methods in N. rewrite E in N. rewrite flat_map_app in N. cbn [flat_map] in N. rewrite flat_map_app in N. cbn [flat_map] in N.
  rewrite !map_app in N.
  assert (Ix := H x). assert (Iy := H y). rewrite <- M, <- T in Iy.
  apply in_split in Ix. destruct Ix as (p & q & Ep). rewrite Ep in N.
  rewrite <- !app_assoc in N. cbn [app] in N. rewrite app_assoc in N. apply NoDup_remove_2 in N. apply N.
  rewrite !in_app_iff. right. right. right. left. exact Iy.
Qed.

Definition shop : service :=
  mkService "my.shop" "Shop" [ mkRpc "Buy" "my.shop.Order" "my.shop.Bill" false false; mkRpc "watch" "my.shop.Order" "my.shop.Event" false true;
    mkRpc "Upload" "my.shop.Picture" "my.shop.Bill" true false ].
Example C65_case :
  package_parts ["my"; "shop"] /\ v_package shop = package_of ["my"; "shop"]
  /\ map (fun m => (c_name m, request_path shop (c_body m))) (client_methods true shop)
     = [ ("Buy", "/my.shop.Shop/Buy"); ("Buy", "/my.shop.Shop/Buy"); ("Buy", "/my.shop.Shop/Buy"); ("Buy", "/my.shop.Shop/Buy"); ("Buy", "/my.shop.Shop/Buy");
         ("streamWatch", "/my.shop.Shop/watch"); ("streamWatch", "/my.shop.Shop/watch"); ("qmlStreamWatch_p", "/my.shop.Shop/watch");
         ("Upload", "/my.shop.Shop/Upload"); ("Upload", "/my.shop.Shop/Upload"); ("Upload", "/my.shop.Shop/Upload");
         ("Upload", "/my.shop.Shop/Upload"); ("Upload", "/my.shop.Shop/Upload") ]
  /\ NoDup (map method_name (v_rpcs shop))
  /\ (forall x y, In x (v_rpcs shop) -> In y (v_rpcs shop) -> method_name x <> "qmlStream" ++ first_capital (x_name y) ++ "_p")
  /\ Forall (free_of ".") ["my"; "shop"; "Order"] /\ "my.shop.Order" = join "." ["my"; "shop"; "Order"].
Proof.
  assert (Fr : forall s, existsb (Ascii.eqb ".") (list_ascii_of_string s) = false -> free_of "." s).
  { intros s H I. rewrite <- Bool.not_true_iff_false in H. apply H. apply existsb_exists. exists "."%char. split; [exact I | reflexivity]. }
  split; [repeat constructor; try discriminate; apply Fr; reflexivity |]. split; [reflexivity |]. split; [reflexivity |].
  split; [repeat constructor; cbn; intuition discriminate |].
  split; [intros x y [<- | [<- | [<- | []]]] [<- | [<- | [<- | []]]]; discriminate |].
  split; [repeat constructor; apply Fr; reflexivity | reflexivity].
Qed.

Example C65_clash_case : let x := mkRpc "Foo" "A" "B" false true in let y := mkRpc "streamFoo" "A" "B" false false in
  method_name x = method_name y /\ x_input x = x_input y /\ method_name x = method_name (mkRpc "foo" "A" "C" false true).
Proof. repeat split. Qed.

(** * C66: includes *)

(** In the mode with several files, the header of a message includes what its fields need, if no field of a type
    inside of the message comes with one of an enumeration of the top level, and enumerations of other messages are
    those of the same package.  Missing: other messages, see the theorems below. *)
Theorem C66_own_fields_partial : forall own fields inner,
  Forall (right_answers own) fields -> Forall same_directory fields -> names_apart fields ->
  (Forall (fun i => ~ type_inside own i) fields \/ Forall (fun i => ~ needs own i GlobalEnums) fields) ->
  forall i x, In i fields -> needs own i x -> In x (header_includes own fields inner).
Proof.
  intros own fields inner R S A D i x I X. unfold header_includes.
  destruct (print_includes own fields []) as [p seen] eqn:E.
  set (P := fun n => exists j, In j fields /\ In n (fst (names_in j))).
  set (Q := fun n => exists j, In j fields /\ In n (snd (names_in j))).
  assert (Ap : forall n, P n -> Q n -> False).
  { intros n (j & J & Nj) (k & K & Nk). destruct (A j k J K) as (H & _). exact (H n n Nj Nk eq_refl). }
  assert (Pe : ~ P "") by (intros (j & J & Nj); destruct (A j j J J) as (_ & H & _); exact (H Nj)).
  assert (Qe : ~ Q "") by (intros (j & J & Nj); destruct (A j j J J) as (_ & _ & H); exact (H Nj)).
  destruct (print_includes_spec own P Q Ap Pe Qe (exists j, In j fields /\ type_inside own j) fields [] [] p seen) as [_ H]; auto.
  - rewrite Forall_forall. intros j J. split; intros n N; exists j; auto.
  - rewrite Forall_forall. intros j J T. exists j. auto.
  - intros n [].
  - cbn [app] in H. destruct (H i x I X) as [G | [(j & J & T) ->]]; [apply in_or_app; left; exact G |].
    exfalso. rewrite !Forall_forall in D. destruct D as [D | D]; [exact (D j J T) | exact (D i I X)].
Qed.

(** It includes the headers of the messages that its fields and those of the classes inside of it contain. *)
Theorem C66_messages : forall own fields inner,
  names_apart (fields ++ inner) -> Forall (right_answers own) fields -> Forall same_directory fields ->
  forall containing highest nested path, In (InMessage containing highest nested true path) (fields ++ inner) ->
  In (Internal path) (header_includes own fields inner).
Proof.
  intros own fields inner A R S containing highest nested path I. unfold header_includes.
  destruct (print_includes own fields []) as [p seen] eqn:E.
  set (P := fun n => exists j, In j (fields ++ inner) /\ In n (fst (names_in j))).
  set (Q := fun n => exists j, In j (fields ++ inner) /\ In n (snd (names_in j))).
  assert (Ap : forall n, P n -> Q n -> False).
  { intros n (j & J & Nj) (k & K & Nk). destruct (A j k J K) as (H & _). exact (H n n Nj Nk eq_refl). }
  assert (Pe : ~ P "") by (intros (j & J & Nj); destruct (A j j J J) as (_ & H & _); exact (H Nj)).
  assert (Qe : ~ Q "") by (intros (j & J & Nj); destruct (A j j J J) as (_ & _ & H); exact (H Nj)).
  assert (F : forall j, In j fields -> In j (fields ++ inner)) by (intros j J; apply in_or_app; left; exact J).
  destruct (print_includes_spec own P Q Ap Pe Qe (exists j, In j fields /\ type_inside own j) fields [] [] p seen) as [H _]; auto.
  - rewrite Forall_forall. intros j J. split; intros n N; exists j; auto.
  - rewrite Forall_forall. intros j J T. exists j. auto.
  - intros n [].
  - cbn [app] in H. eapply print_paths_spec; [exact Ap | exact Pe | exact Qe | | exact H |].
    + intros n N. apply in_app_iff in N. rewrite !pure_paths_in in N.
      destruct N as [(c & h & ne & N) | (c & h & ne & N)]; (eexists; split; [apply in_or_app; first [left; exact N | right; exact N] | left; reflexivity]).
    + apply in_app_iff. apply in_app_iff in I. rewrite !pure_paths_in. destruct I as [I | I]; eauto.
Qed.

(** A first field of a type inside of the message keeps the header with the enumerations of the top level from being included. *)
Theorem C66_type_inside_first_refuted : forall own containing highest pure path fields inner,
  (containing = Some own \/ highest = own) ->
  ~ In GlobalEnums (header_includes own (InMessage containing highest true pure path :: fields) inner).
Proof.
  intros own containing highest pure path fields inner H I. unfold header_includes in I.
  destruct (print_includes own (InMessage containing highest true pure path :: fields) []) as [p seen] eqn:E.
  cbn [print_includes print_include negb] in E.
  assert (E' : print_new "" [] [] = ([], [""])) by reflexivity.
  assert (B : (if match containing with Some c => Nat.eqb c own | None => false end then print_new "" [] []
     else if Nat.eqb highest own then print_new "" [] [] else print_new path [Internal path] []) = ([], [""])).
  { destruct H as [-> | ->]; rewrite Nat.eqb_refl; [exact E' |].
    destruct (match containing with Some c => Nat.eqb c own | None => false end); exact E'. }
  rewrite B in E. destruct (print_includes own fields [""]) as [b s2] eqn:E2. injection E as <- <-. cbn [app] in I.
  apply in_app_iff in I. destruct I as [I | I].
  - apply (no_global_includes _ _ _ _ _ E2) in I; [exact I | left; reflexivity].
  - apply print_paths_from in I. destruct I as (n & _ & C). discriminate.
Qed.

(** The header of a message does not include the header with the enumerations of the top level for the classes inside of it. *)
Theorem C66_inner_enums_refuted : forall own fields inner,
  (forall i, In i fields -> ~ needs own i GlobalEnums) -> ~ In GlobalEnums (header_includes own fields inner).
Proof.
  intros own fields inner N I. unfold header_includes in I. destruct (print_includes own fields []) as [p seen] eqn:E.
  apply in_app_iff in I. destruct I as [I | I].
  - destruct (global_includes_from _ _ _ _ _ E I) as (i & J & X). exact (N i J X).
  - apply print_paths_from in I. destruct I as (n & _ & C). discriminate.
Qed.

(** It includes no header of a message that is not named for one of its own fields, or for a field of the
    classes inside of it that is a message: so not that of the enumeration of a message of another package, nor those
    for lists and maps of messages in classes inside of it. *)
Theorem C66_headers_refuted : forall own fields inner path,
  (forall i, In i fields -> ~ In path (fst (names_in i))) ->
  (forall containing highest nested, ~ In (InMessage containing highest nested true path) inner) ->
  ~ In (Internal path) (header_includes own fields inner).
Proof.
  intros own fields inner path F N I. unfold header_includes in I. destruct (print_includes own fields []) as [p seen] eqn:E.
  apply in_app_iff in I. destruct I as [I | I].
  - destruct (print_includes_from _ _ _ _ _ _ E I) as (i & J & X). exact (F i J X).
  - apply print_paths_from in I. destruct I as (n & J & C). injection C as <-. apply in_app_iff in J. rewrite !pure_paths_in in J.
    destruct J as [(c & h & ne & J) | (c & h & ne & J)]; [exact (N c h ne J) | exact (F _ J (or_introl eq_refl))].
Qed.

(** A message 0 with fields of a message of another package, of a map, of a Qt type and of an enumeration of the top level; a class inside
    of it has a field of another message, one of an enumeration of another message, and a list. *)
Definition own_fields : list included :=
  [ InMessage None 1 false true "other/pkg/thing"; InMap (InText "QString") (InMessage (Some 2) 2 true false "box");
    InQt "QUrl"; InEnum GLOBAL_ENUM "" ""; InEnum NEIGHBOR_ENUM "" "Box"; InNumber ].
Definition inner_fields : list included :=
  [ InMessage None 3 false true "part"; InEnum NEIGHBOR_ENUM "" "Part2"; InMessage None 4 false false "listed" ].
Example C66_case :
  header_includes 0 own_fields inner_fields
    = [Internal "other/pkg/thing"; External "QString"; Internal "box"; External "QMap"; External "QUrl"; GlobalEnums; Internal "part"]
  /\ Forall (right_answers 0) own_fields /\ Forall same_directory own_fields
  /\ Forall (fun i => ~ type_inside 0 i) own_fields /\ names_apart (own_fields ++ inner_fields).
Proof.
  split; [reflexivity |]. split; [repeat constructor; discriminate |]. split; [repeat constructor |]. split.
  - repeat constructor; cbn; intuition discriminate.
  - intros i j I J. split.
    + intros x y X Y E. subst y. cbn in I, J.
      repeat (destruct I as [<- | I]; [repeat (destruct J as [<- | J]; [cbn in X, Y; intuition (subst; discriminate) |]); destruct J |]); destruct I.
    + cbn in I. split; repeat (destruct I as [<- | I]; [cbn; intuition discriminate |]); destruct I.
Qed.

Example C66_refuted_case :
  header_includes 0 [InMessage (Some 0) 0 true true "own"; InEnum GLOBAL_ENUM "" ""] [] = [Internal "own"]
  /\ header_includes 0 [InEnum NEIGHBOR_ENUM "other/pkg/" "Box"] [] = [Internal "box"]
  /\ needs 0 (InEnum NEIGHBOR_ENUM "other/pkg/" "Box") (Internal "other/pkg/box")
  /\ header_includes 0 [] [InEnum GLOBAL_ENUM "" ""; InMessage None 1 false false "listed"] = [].
Proof. repeat split. Qed.

(** * C67: Timestamp *)

(** A time in milliseconds survives the way through a Timestamp. *)
Theorem C67_round_trip : forall ms, datetime_of (fst (timestamp_of ms)) (snd (timestamp_of ms)) = ms.
Proof.
  intro ms. unfold datetime_of, timestamp_of. cbn [fst snd]. rewrite Z.quot_mul by lia. rewrite Z.mul_comm.
  symmetry. apply Z.quot_rem'.
Qed.

(** What it holds stands for that time if it is one of whole seconds.  Missing: all others, see the next theorem. *)
Theorem C67_meaning_partial : forall ms, (ms mod 1000 = 0)%Z -> stands_for ms (timestamp_of ms).
Proof.
  intros ms H. apply Z.mod_divide in H; [| lia]. destruct H as (k & ->). unfold stands_for, timestamp_of. cbn [fst snd].
  rewrite Z.quot_mul, Z.rem_mul by lia. lia.
Qed.

Theorem C67_meaning_refuted : forall ms, (ms mod 1000 <> 0)%Z -> ~ stands_for ms (timestamp_of ms).
Proof.
  intros ms H (E & B). unfold timestamp_of in E. cbn [fst snd] in E. apply H. assert (Q := Z.quot_rem' ms 1000). 
  assert (R : Z.rem ms 1000 = 0%Z) by lia. rewrite Q, R. rewrite Z.add_0_r, Z.mul_comm. apply Z.mod_mul. lia.
Qed.

(** For a time before 1970 the nanoseconds are negative, which protobuf does not allow. *)
Theorem C67_negative_refuted : forall ms, (ms < 0)%Z -> (ms mod 1000 <> 0)%Z -> (snd (timestamp_of ms) < 0)%Z.
Proof.
  intros ms L H. unfold timestamp_of. cbn [snd]. assert (B := Z.rem_nonpos ms 1000 ltac:(lia) ltac:(lia)).
  assert (N : Z.rem ms 1000 <> 0%Z).
  { intro R. apply H. assert (Q := Z.quot_rem' ms 1000). rewrite Q, R. rewrite Z.add_0_r, Z.mul_comm. apply Z.mod_mul. lia. }
  lia.
Qed.

(** A Timestamp from elsewhere is read as the time it stands for only if it has less than a microsecond above the
    second. Missing: larger parts of a second, which are truncated or read a thousand times too large (see below). *)
Theorem C67_reading_partial : forall s n, (0 <= n < 1000)%Z -> datetime_of s n = milliseconds s n.
Proof.
  intros s n B. unfold datetime_of, milliseconds. rewrite Z.quot_small, Z.div_small by lia. reflexivity.
Qed.

Theorem C67_reading_refuted : forall s n, (1000 <= n)%Z -> datetime_of s n <> milliseconds s n.
Proof.
  intros s n B E. unfold datetime_of, milliseconds in E. rewrite Z.quot_div_nonneg in E by lia.
  assert (D : (n / 1000000 = n / 1000 / 1000)%Z) by (rewrite Z.div_div by lia; reflexivity).
  assert (Q : (1 <= n / 1000)%Z) by (apply Z.div_le_lower_bound; lia).
  assert (L : (n / 1000 / 1000 < n / 1000)%Z) by (apply Z.div_lt; lia). lia.
Qed.

Example C67_case :
  timestamp_of 1500 = (1, 500000)%Z /\ ~ stands_for 1500 (timestamp_of 1500) /\ stands_for 1500 (1, 500000000)%Z
  /\ timestamp_of (-1500) = (-1, -500000)%Z /\ (datetime_of 1 500000000 = 501000)%Z /\ (milliseconds 1 500000000 = 1500)%Z.
Proof.
  split; [reflexivity |]. split; [apply C67_meaning_refuted; discriminate |]. split; [split; cbn; lia |]. repeat split.
Qed.

Print Assumptions C64_all_counts.
Print Assumptions C64_members.
Print Assumptions C64_overloads_partial.
Print Assumptions C64_own_type_first_refuted.
Print Assumptions C65_requests.
Print Assumptions C65_complete.
Print Assumptions C65_client_stream_refuted.
Print Assumptions C65_signatures_partial.
Print Assumptions C65_signatures_refuted.
Print Assumptions C66_own_fields_partial.
Print Assumptions C66_messages.
Print Assumptions C66_type_inside_first_refuted.
Print Assumptions C66_inner_enums_refuted.
Print Assumptions C66_headers_refuted.
Print Assumptions C67_round_trip.
Print Assumptions C67_meaning_partial.
Print Assumptions C67_meaning_refuted.
Print Assumptions C67_negative_refuted.
Print Assumptions C67_reading_partial.
Print Assumptions C67_reading_refuted.

(** C87: which method of a client GrpcStream of QML invokes.  C88: generated clients as classes of C++. *)

From Coq Require Import String Ascii ZArith List Bool Arith Lia Permutation.
From Verif Require Import Base GenModel GenSpec GenStrings GenTypesModel GenTypesSpec GenTypesNames GenLookupModel GenLookupSpec
  GenClassSpec BuildModel ClientModel ClientSpec ClientProofs ClientIncludes ClientQuick.
Import ListNotations.
Open Scope string_scope.

Lemma streams : forall x, ~ unary x -> x_server_streams x = true.
Proof. intros x U. unfold unary in U. destruct (x_server_streams x); [reflexivity | now destruct U]. Qed.

(** * C87 *)

(** With "method" set to the name of a streaming procedure (or its name with the first letter in the other case) and an object of its
    request as argument, GrpcStream opens the stream of this procedure and of no other.  Missing: messages declared inside of others, see
    [C87_nested_refuted]; two streaming procedures that differ in the case of the first letter only, and calls that are named like the
    hidden method of the stream ([qml_name_free]). *)
Theorem C87_opens_partial : forall o program compiled v x kin kout method,
  program_ok o program -> In x (v_rpcs v) -> ~ unary x -> qml_name_free v x ->
  takes o program compiled (x_input x) kin -> takes o program compiled (x_output x) kout -> top_level kin -> top_level kout ->
  first_capital method = first_capital (x_name x) ->
  quick_stream (meta_types o (map ref_of program)) (meta_methods compiled true v) method (class_at o kin)
  = Ok (inr (Some (ScriptStream (x_name x)))).
Proof.
  intros o program compiled v x kin kout method K X U Q Ti To Li Lo E.
  rewrite (stream_outcome o program compiled v x kin kout method _ K X) by
    (assumption || now apply streams).
  destruct (list_eq_dec _ _ _) as [_ | N]; [| now destruct N]. unfold top_level in *. now rewrite Li, Lo.
Qed.

(** If the request or the response of a streaming procedure is a message declared inside of another one, GrpcStream never opens the
    stream: it reports InvalidArgument (3) whatever the argument is. *)
Theorem C87_nested_refuted : forall o program compiled v x kin kout method argument,
  program_ok o program -> In x (v_rpcs v) -> ~ unary x -> qml_name_free v x ->
  takes o program compiled (x_input x) kin -> takes o program compiled (x_output x) kout -> ~ (top_level kin /\ top_level kout) ->
  first_capital method = first_capital (x_name x) ->
  quick_stream (meta_types o (map ref_of program)) (meta_methods compiled true v) method argument = Ok (inl 3%Z).
Proof.
  intros o program compiled v x kin kout method argument K X U Q Ti To L E.
  rewrite (stream_outcome o program compiled v x kin kout method _ K X) by
    (assumption || now apply streams).
  destruct (list_eq_dec _ _ _); [| reflexivity]. unfold top_level in L. destruct (k_around kin), (k_around kout); try reflexivity.
  exfalso. now apply L.
Qed.

(** An object of another class than the request is refused with InvalidArgument. *)
Theorem C87_argument : forall o program compiled v x kin kout method argument,
  program_ok o program -> In x (v_rpcs v) -> ~ unary x -> qml_name_free v x ->
  takes o program compiled (x_input x) kin -> takes o program compiled (x_output x) kout ->
  argument <> class_at o kin -> first_capital method = first_capital (x_name x) ->
  quick_stream (meta_types o (map ref_of program)) (meta_methods compiled true v) method argument = Ok (inl 3%Z).
Proof.
  intros o program compiled v x kin kout method argument K X U Q Ti To A E.
  rewrite (stream_outcome o program compiled v x kin kout method _ K X) by
    (assumption || now apply streams).
  destruct (list_eq_dec _ _ _) as [D | _]; [now rewrite D in A | reflexivity].
Qed.

(** For names that are not of a streaming procedure, and in clients generated without QML for all names, it reports Unimplemented (12). *)
Theorem C87_method : forall reg compiled qml v method argument,
  (qml = false \/ forall x, In x (v_rpcs v) -> ~ unary x -> first_capital (x_name x) <> first_capital method) ->
  (forall x, In x (v_rpcs v) -> unary x -> x_name x <> "qmlStream" ++ first_capital method ++ "_p") ->
  quick_stream reg (meta_methods compiled qml v) method argument = Ok (inl 12%Z).
Proof.
  intros reg compiled qml v method argument H1 H2. apply stream_missing; [| exact H2]. intros x X Q U.
  destruct H1 as [H1 | H1]; [congruence | now apply H1].
Qed.

(** Whatever types are registered and whatever the service is like: if a stream is opened then that of a streaming procedure with the name
    that "method" has, up to the case of the first letter, and with an argument of the class of its parameter. *)
Theorem C87_only : forall reg compiled qml v method argument b,
  quick_stream reg (meta_methods compiled qml v) method argument = Ok (inr b) ->
  exists x, In x (v_rpcs v) /\ ~ unary x /\ first_capital (x_name x) = first_capital method /\ b = Some (ScriptStream (x_name x))
    /\ meta_object (parameter_type reg (cpp_type (x_input x) ++ "*", compiled (cpp_type (x_input x)))) = Some argument.
Proof.
  intros reg compiled qml v method argument b H. destruct (stream_only _ _ _ _ _ _ _ H) as (_ & x & X & S & C & B & P).
  exists x. split; [exact X |]. split; [unfold unary; congruence |]. split; [exact C |]. split; [exact B |]. now rewrite P.
Qed.

(** * C88 *)

(** Each method that the header of a client declares is defined once in its source, as a member of the same class, with the same types;
    and nothing else is defined. *)
Theorem C88_declared_defined : forall qml v,
  Permutation (map declared_as (client_header qml v)) (map defined_as (client_source qml v))
  /\ Forall (fun i => i_class i = client_class v) (client_source qml v).
Proof. intros qml v. split; [apply header_source | apply source_class]. Qed.

(** All ways of calling a procedure are public, but for the methods that GrpcStream looks for; and JavaScript can call those that are for
    it. *)
Theorem C88_access : forall qml v i b, In i (client_source qml v) -> i_body i = Some b ->
  exists m, In m (client_header qml v) /\ declared_as m = defined_as i
    /\ (b_public m = true <-> forall n, b <> ScriptStream n) /\ (for_script b -> b_invokable m = true).
Proof. exact access. Qed.

(** Everyone can make a client: the class has one constructor, which is public and takes the parent object. *)
Theorem C88_constructor : forall qml v, exists m,
  In m (client_header qml v) /\ b_public m = true /\ b_name m = client_class v /\ b_result m = None /\ b_params m = [JPointer (JName "QObject")]
  /\ forall m', In m' (client_header qml v) -> b_result m' = None -> m' = m.
Proof.
  intros qml v. exists (constructor_declaration v). split; [now left|]. repeat (split; [reflexivity|]). intros m' [<- | H] N; [reflexivity|].
  exfalso. apply in_app_iff in H as [H | H]; apply in_flat_map in H as (x & _ & H).
  - unfold public_declarations in H. destruct (x_server_streams x), qml; cbn in H; intuition (subst; discriminate).
  - unfold private_declarations in H. destruct (x_server_streams x), qml; cbn in H; intuition (subst; discriminate).
Qed.

(** Overloads can be told apart.  Missing: pairs of procedures as in [clash]; the theorem shows that with them they cannot. *)
Theorem C88_overloads_partial : forall qml v, NoDup (map x_name (v_rpcs v)) -> (forall x, In x (v_rpcs v) -> free_of ":" (x_input x)) ->
  (NoDup (map signature (client_header qml v)) <-> forall x y, In x (v_rpcs v) -> In y (v_rpcs v) -> clash x y -> x = y).
Proof. exact overloads. Qed.

(** A service with streaming procedures of the same request whose names differ in the case of the first letter has no client that
    compiles; neither one with a streaming procedure and a call named like the method of the stream. *)
Theorem C88_overloads_refuted : forall qml v x y, NoDup (map x_name (v_rpcs v)) -> (forall x, In x (v_rpcs v) -> free_of ":" (x_input x)) ->
  In x (v_rpcs v) -> In y (v_rpcs v) -> x <> y -> clash x y -> ~ NoDup (map signature (client_header qml v)).
Proof. intros qml v x y N F X Y D C H. apply D. now apply (proj1 (overloads qml v N F) H x y). Qed.

(** The functions of the library that methods name are those outside of the class.  Missing: services with a call of that name, see the
    next theorem. *)
Theorem C88_functions_partial : forall qml v i f, service_names_ok v -> In i (client_source qml v) -> In f (i_uses i) ->
  (found_outside qml v f <-> forall x, In x (v_rpcs v) -> unary x -> x_name x <> f).
Proof.
  intros qml v i f N I F.
  assert (O : In f outside_names).
  { assert (U : uses_of qml v f) by now exists i. apply uses_spec in U. unfold outside_names. cbn.
    destruct U as [(-> & _) | ([-> | (_ & [-> | ->])] & _)]; auto. }
  unfold found_outside. rewrite (outside_own qml v f N O). split.
  - intros H x X U E. apply H. now exists x.
  - intros H (x & X & U & E). exact (H x X U E).
Qed.

(** With a call named "call", "stream", "qjsEngine" or "qmlEngine" in the service, the methods find the wrong function: one of the
    class itself, and all of these take a message as their first argument, where the methods give something else. *)
Theorem C88_functions_refuted : forall qml v i f x, service_names_ok v -> In i (client_source qml v) -> In f (i_uses i) ->
  In x (v_rpcs v) -> unary x -> x_name x = f ->
  ~ found_outside qml v f /\ forall m, In m (client_header qml v) -> b_name m = f -> message_first m.
Proof.
  intros qml v i f x N I F X U E.
  assert (O : In f outside_names).
  { assert (Us : uses_of qml v f) by now exists i. apply uses_spec in Us. unfold outside_names. cbn.
    destruct Us as [(-> & _) | ([-> | (_ & [-> | ->])] & _)]; auto. }
  split.
  - intro H. apply H. apply (outside_own qml v f N O). now exists x.
  - intros m M Nm. apply (own_message_first qml v m N M). now rewrite Nm.
Qed.

(** No member has a keyword of C++ as its name.  Missing: calls that are named like one, such as "delete" or "default": the name is
    taken over as it is, and the header does not compile. *)
Theorem C88_keywords_partial : forall qml v, service_names_ok v -> forall k, In k keywords ->
  (In k (own_names qml v) <-> exists x, In x (v_rpcs v) /\ unary x /\ x_name x = k).
Proof. exact keyword_names. Qed.

Theorem C88_keywords_refuted : forall qml v x, service_names_ok v -> In x (v_rpcs v) -> unary x -> In (x_name x) keywords ->
  exists k, In k keywords /\ In k (own_names qml v).
Proof.
  intros qml v x N X U K. exists (x_name x). split; [exact K |]. apply (keyword_names qml v N _ K). now exists x.
Qed.

(** Only the constructor has the name of the class, unless a call has that name. *)
Theorem C88_class_name : forall qml v m, service_names_ok v -> In m (client_header qml v) -> b_name m = client_class v ->
  (forall x, In x (v_rpcs v) -> unary x -> x_name x <> client_class v) -> m = constructor_declaration v.
Proof.
  intros qml v m N M E H. destruct (class_method qml v m N M E) as [C | (x & X & U & Nx)]; [exact C |]. exfalso. exact (H x X U Nx).
Qed.

(** Two services have clients of the same name exactly if their names differ at most in the case of the first letter. *)
Theorem C88_client_names : forall v v', client_class v = client_class v' <-> first_capital (v_name v) = first_capital (v_name v').
Proof. exact class_names. Qed.

(** With one file for each message, the header of a client in the package [ps] includes the header of each message that its procedures take
    or give, for messages of the top level.  Missing: messages of other packages if each package has its folder: then the include does not
    name the header. *)
Theorem C88_includes_partial : forall o ps pm n, package_parts pm -> Forall (free_of "/") (ps ++ pm)%list -> free_of "/" n ->
  (include_gives o ps (tolower n ++ ".h") (multi_file o (package_of pm) n ++ ".h") <-> o_folder o = false \/ pm = ps \/ pm = []).
Proof. exact include_top. Qed.

(** For a message [r] declared inside of another one, the header of the client includes a file that is not generated at all, unless something
    else of the program has that name. *)
Theorem C88_includes_refuted : forall o fs l ps messages r,
  o_multi o = true -> written_files o fs = Some l -> files_ok fs -> free_of "/" (mr_name r) ->
  (exists p, In p messages /\ (fst p = r \/ snd p = r)) ->
  tolower (mr_name r) <> "globalenums" ->
  (forall f m, In f fs -> In m (f_messages f) -> tolower m <> tolower (mr_name r)) ->
  (forall f s, In f fs -> In s (f_services f) -> tolower s ++ "client" <> tolower (mr_name r)) ->
  In (tolower (mr_name r)) (client_includes messages)
  /\ forall file, include_gives o ps (tolower (mr_name r) ++ ".h") file -> ~ In file l.
Proof.
  intros o fs l ps messages r M W Ok Fn (p & P & R) G1 G2 G3. split.
  - unfold client_includes. apply in_flat_map. exists p. split; [exact P |]. destruct R as [<- | <-]; [now left | right; now left].
  - now apply (include_missing o fs l ps (mr_name r)).
Qed.

(** * Cases *)

Definition ex_options : options := mkOptions false true false false false "".
Definition ex_request : known := mkKnown ["chat"] [] "Request".
Definition ex_note : known := mkKnown ["chat"] [] "Note".
Definition ex_page : known := mkKnown ["chat"] ["Note"] "Page".
Definition ex_program : list known := [ex_request; ex_note; ex_page].
Definition ex_compiled (n : string) : option (list string) :=
  if String.eqb n "chat::Request" then Some ["chat"; "Request"]
  else if String.eqb n "chat::Note" then Some ["chat"; "Note"]
  else if String.eqb n "chat::Note::Page" then Some ["chat"; "Note_QtProtobufNested"; "Page"]
  else None.
Definition ex_service : service := mkService "chat" "Board"
  [ mkRpc "post" "chat.Note" "chat.Request" false false; mkRpc "notes" "chat.Request" "chat.Note" false true;
    mkRpc "pages" "chat.Request" "chat.Note.Page" false true ].

Ltac free := let I := fresh "I" in intro I; cbn in I; intuition discriminate.
Lemma ex_plain : forall l, forallb (fun s => Nat.ltb (String.length s) 17) l = true -> plain_names l.
Proof.
  intros l H a I x E. rewrite forallb_forall in H. apply H in I. apply Nat.ltb_lt in I. subst a. rewrite length_app_s in I. cbn in I. lia.
Qed.

Lemma ex_program_ok : program_ok ex_options ex_program.
Proof.
  split; [now left |]. split.
  - assert (P : forall s, In s ["chat"; "Request"; "Note"; "Page"] -> part_ok s /\ free_of "*" s).
    { intros s I. cbn in I. destruct I as [<- | [<- | [<- | [<- | []]]]]; (split; [split; [discriminate |]; split |]); free. }
    assert (A : forall l, (forall s, In s l -> In s ["chat"; "Request"; "Note"; "Page"]) -> Forall part_ok l /\ Forall (free_of "*") l).
    { intros l H. split; apply Forall_forall; intros s I; apply P; now apply H. }
    assert (B : forall k, (forall s, In s (k_parts k ++ k_around k ++ [k_name k])%list -> In s ["chat"; "Request"; "Note"; "Page"]) -> known_ok k).
    { intros k H. destruct (A _ H) as [A1 A2]. rewrite !Forall_app in A1. destruct A1 as (A3 & A4 & A5). split; [| split; [exact A2 |]].
      - split; [| split]; [| exact A4 | now inversion A5]. exact A3.
      - apply ex_plain. apply forallb_forall. intros s I. apply H in I. cbn in I. destruct I as [<- | [<- | [<- | [<- | []]]]]; reflexivity. }
    repeat (apply Forall_cons; [apply B; cbn; tauto |]). apply Forall_nil.
  - intros k k' I I' E. cbn in I, I'. destruct I as [<- | [<- | [<- | []]]], I' as [<- | [<- | [<- | []]]]; (reflexivity || discriminate E).
Qed.

Lemma ex_takes : forall k, In k ex_program ->
  takes ex_options ex_program ex_compiled (join "." (k_parts k ++ k_around k ++ [k_name k])%list) k.
Proof.
  intros k I. split; [exact I |]. split; [reflexivity |]. cbn in I.
  destruct I as [<- | [<- | [<- | []]]]; (split; [repeat constructor |]; split; [now left | reflexivity]).
Qed.

Lemma ex_free : forall x, In x (v_rpcs ex_service) -> ~ unary x -> qml_name_free ex_service x.
Proof.
  intros x X U. split; intros y Y Uy E; cbn in X, Y.
  - destruct X as [<- | [<- | [<- | []]]], Y as [<- | [<- | [<- | []]]]; try reflexivity; try (exfalso; now apply Uy); try (exfalso; now apply U);
      vm_compute in E; discriminate E.
  - destruct Y as [<- | [<- | [<- | []]]]; [| discriminate Uy | discriminate Uy]. discriminate E.
Qed.

(** The method "Notes" or "notes" opens the stream, an argument of another class is refused, "pages" gives an inner message and is never
    opened, "post" is no stream. *)
Example C87_case :
  quick_stream (meta_types ex_options (map ref_of ex_program)) (meta_methods ex_compiled true ex_service) "notes" ["chat"; "Request"]
    = Ok (inr (Some (ScriptStream "notes")))
  /\ quick_stream (meta_types ex_options (map ref_of ex_program)) (meta_methods ex_compiled true ex_service) "Notes" ["chat"; "Note"]
    = Ok (inl 3%Z)
  /\ quick_stream (meta_types ex_options (map ref_of ex_program)) (meta_methods ex_compiled true ex_service) "pages" ["chat"; "Request"]
    = Ok (inl 3%Z)
  /\ quick_stream (meta_types ex_options (map ref_of ex_program)) (meta_methods ex_compiled true ex_service) "post" ["chat"; "Note"]
    = Ok (inl 12%Z).
Proof.
  assert (X1 : In (mkRpc "notes" "chat.Request" "chat.Note" false true) (v_rpcs ex_service)) by (right; now left).
  assert (X2 : In (mkRpc "pages" "chat.Request" "chat.Note.Page" false true) (v_rpcs ex_service)) by (right; right; now left).
  assert (U1 : ~ unary (mkRpc "notes" "chat.Request" "chat.Note" false true)) by discriminate.
  assert (U2 : ~ unary (mkRpc "pages" "chat.Request" "chat.Note.Page" false true)) by discriminate.
  pose proof (ex_takes ex_request (or_introl eq_refl)) as T1. pose proof (ex_takes ex_note (or_intror (or_introl eq_refl))) as T2.
  pose proof (ex_takes ex_page (or_intror (or_intror (or_introl eq_refl)))) as T3.
  split; [| split; [| split]].
  - exact (C87_opens_partial _ _ _ _ _ ex_request ex_note "notes" ex_program_ok X1 U1 (ex_free _ X1 U1) T1 T2 eq_refl eq_refl eq_refl).
  - refine (C87_argument _ _ _ _ _ ex_request ex_note "Notes" _ ex_program_ok X1 U1 (ex_free _ X1 U1) T1 T2 _ eq_refl). discriminate.
  - refine (C87_nested_refuted _ _ _ _ _ ex_request ex_page "pages" _ ex_program_ok X2 U2 (ex_free _ X2 U2) T1 T3 _ eq_refl).
    intros [_ L]. discriminate L.
  - apply C87_method.
    + right. intros x X U E. cbn in X. destruct X as [<- | [<- | [<- | []]]]; [now apply U | |]; vm_compute in E; discriminate E.
    + intros x X U E. cbn in X. destruct X as [<- | [<- | [<- | []]]]; [| discriminate U | discriminate U]. discriminate E.
Qed.

Example C87_only_case :
  exists x, In x (v_rpcs ex_service) /\ ~ unary x /\ first_capital (x_name x) = first_capital "Notes"
    /\ meta_object (parameter_type (meta_types ex_options (map ref_of ex_program)) (cpp_type (x_input x) ++ "*", ex_compiled (cpp_type (x_input x))))
       = Some ["chat"; "Request"].
Proof.
  destruct (C87_only (meta_types ex_options (map ref_of ex_program)) ex_compiled true ex_service "Notes" ["chat"; "Request"] (Some (ScriptStream "notes")))
    as (x & X & U & C & _ & P); [reflexivity |]. now exists x.
Qed.

Lemma ex_service_ok : service_names_ok ex_service.
Proof.
  assert (I : forall s, In s ["Board"; "post"; "notes"; "pages"; "call"; "delete"; "stream"] -> identifier s).
  { intros s H. cbn in H. repeat (destruct H as [<- | H]; [eexists _, _; split; [reflexivity |]; split; [free |];
      cbn; repeat (apply Forall_cons; [unfold name_char; vm_compute; tauto |]); apply Forall_nil |]). destruct H. }
  split; [apply I; now left |]. intros x X. cbn in X.
  destruct X as [<- | [<- | [<- | []]]]; (split; [apply I; cbn; tauto | split; free]).
Qed.

(** Eleven methods and the constructor; all of them defined, and "stream" and "call" found in the base class. *)
Example C88_case :
  length (client_header true ex_service) = 12%nat
  /\ NoDup (map signature (client_header true ex_service))
  /\ found_outside true ex_service "stream" /\ found_outside true ex_service "call"
  /\ (forall k, In k keywords -> ~ In k (own_names true ex_service)).
Proof.
  assert (Names : forall x, In x (v_rpcs ex_service) -> unary x -> x_name x = "post").
  { intros x X U. cbn in X. destruct X as [<- | [<- | [<- | []]]]; [reflexivity | discriminate U | discriminate U]. }
  split; [reflexivity |]. split; [| split; [| split]].
  - apply C88_overloads_partial.
    + cbn. repeat (constructor; [cbn; intuition discriminate |]). constructor.
    + intros x X. cbn in X. destruct X as [<- | [<- | [<- | []]]]; free.
    + intros x y X Y (_ & U & [(U' & E) | (U' & E)]).
      * cbn in X, Y. destruct X as [<- | [<- | [<- | []]]], Y as [<- | [<- | [<- | []]]]; try reflexivity; try (exfalso; now apply U);
          try (exfalso; now apply U'); vm_compute in E; discriminate E.
      * rewrite (Names y Y U') in E. discriminate E.
  - refine (proj2 (C88_functions_partial true ex_service
      (nth 6 (client_source true ex_service) (constructor_definition ex_service)) "stream" ex_service_ok _ _) _).
    + right. right. right. right. right. right. now left.
    + now left.
    + intros x X U. rewrite (Names x X U). discriminate.
  - refine (proj2 (C88_functions_partial true ex_service
      (nth 1 (client_source true ex_service) (constructor_definition ex_service)) "call" ex_service_ok _ _) _).
    + right. now left.
    + now left.
    + intros x X U. rewrite (Names x X U). discriminate.
  - intros k K I. apply (C88_keywords_partial true ex_service ex_service_ok k K) in I. destruct I as (x & X & U & E).
    rewrite (Names x X U) in E. subst k. vm_compute in K. intuition discriminate.
Qed.

(** A service with calls "call" and "delete", and streams "notes" and "Notes". *)
Definition ex_bad : service := mkService "chat" "Board"
  [ mkRpc "call" "chat.Note" "chat.Request" false false; mkRpc "delete" "chat.Note" "chat.Request" false false;
    mkRpc "notes" "chat.Request" "chat.Note" false true; mkRpc "Notes" "chat.Request" "chat.Note" false true ].

Example C88_refuted_case :
  ~ found_outside false ex_bad "call" /\ (exists k, In k keywords /\ In k (own_names false ex_bad))
  /\ ~ NoDup (map signature (client_header false ex_bad)).
Proof.
  assert (Ok : service_names_ok ex_bad).
  { assert (I : forall s, In s ["Board"; "call"; "delete"; "notes"; "Notes"] -> identifier s).
    { intros s H. cbn in H. repeat (destruct H as [<- | H]; [eexists _, _; split; [reflexivity |]; split; [free |];
        cbn; repeat (apply Forall_cons; [unfold name_char; vm_compute; tauto |]); apply Forall_nil |]). destruct H. }
    split; [apply I; now left |]. intros x X. cbn in X.
    destruct X as [<- | [<- | [<- | [<- | []]]]]; (split; [apply I; cbn; tauto | split; free]). }
  split; [| split].
  - apply (C88_functions_refuted false ex_bad (nth 1 (client_source false ex_bad) (constructor_definition ex_bad)) "call"
      (mkRpc "call" "chat.Note" "chat.Request" false false) Ok); [right; now left | now left | now left | reflexivity | reflexivity].
  - apply (C88_keywords_refuted false ex_bad (mkRpc "delete" "chat.Note" "chat.Request" false false) Ok); [right; now left | reflexivity |].
    vm_compute. tauto.
  - apply (C88_overloads_refuted false ex_bad (mkRpc "notes" "chat.Request" "chat.Note" false true) (mkRpc "Notes" "chat.Request" "chat.Note" false true)).
    + cbn. repeat (constructor; [cbn; intuition discriminate |]). constructor.
    + intros x X. cbn in X. destruct X as [<- | [<- | [<- | [<- | []]]]]; free.
    + right. right. now left.
    + right. right. right. now left.
    + discriminate.
    + split; [reflexivity |]. split; [discriminate |]. left. split; [discriminate | reflexivity].
Qed.

(** Only the constructor of the example is called BoardClient; "board" would have the same client. *)
Example C88_class_case :
  (forall m, In m (client_header true ex_service) -> b_name m = "BoardClient" -> m = constructor_declaration ex_service)
  /\ client_class (mkService "chat" "board" []) = client_class ex_service.
Proof.
  split.
  - intros m M E. apply (C88_class_name true ex_service m ex_service_ok M E).
    intros x X U. cbn in X. destruct X as [<- | [<- | [<- | []]]]; discriminate.
  - apply C88_client_names. reflexivity.
Qed.

Example C88_access_case :
  exists m, In m (client_header true ex_service) /\ b_name m = "post" /\ b_public m = true /\ b_invokable m = true.
Proof.
  destruct (C88_access true ex_service (nth 5 (client_source true ex_service) (constructor_definition ex_service)) (ScriptTargetCall "post"))
    as (m & M & D & P & V).
  - right. right. right. right. right. now left.
  - reflexivity.
  - exists m. split; [exact M |]. split; [now injection D |]. split; [apply P; discriminate |]. apply V. exists "post". auto.
Qed.

(** A message of package common of a program with folders is not found from the client in package chat, one of chat is; and for
    the inner message Page there is no header. *)
Definition ex_folders : options := mkOptions true true false true false "".
Definition ex_files : list proto_file := 
  [mkProtoFile "chat.proto" "chat" ["Request"; "Note"] [] ["Board"]; mkProtoFile "common.proto" "common" ["Unit"] [] []].

Example C88_includes_case :
  include_gives ex_folders ["chat"] "note.h" "chat/note.h" /\ ~ include_gives ex_folders ["chat"] "unit.h" "common/unit.h"
  /\ exists l, written_files ex_folders ex_files = Some l /\
       forall file, include_gives ex_folders ["chat"] "page.h" file -> ~ In file l.
Proof.
  assert (P : forall s, In s ["chat"; "common"] -> package_parts [s] /\ Forall (free_of "/") [s]).
  { intros s H. cbn in H. destruct H as [<- | [<- | []]]; (split; [constructor; [split; [discriminate | free] | constructor] | constructor; [free | constructor]]). }
  split; [| split].
  - apply (proj2 (C88_includes_partial ex_folders ["chat"] ["chat"] "Note" (proj1 (P _ (or_introl eq_refl))) ltac:(repeat (constructor; [free |]); constructor) ltac:(free))).
    right. now left.
  - intro H. pose proof (proj1 (C88_includes_partial ex_folders ["chat"] ["common"] "Unit" (proj1 (P _ (or_intror (or_introl eq_refl))))
      ltac:(repeat (constructor; [free |]); constructor) ltac:(free)) H) as [C | [C | C]]; discriminate C.
  - eexists. split; [reflexivity |].
    refine (proj2 (C88_includes_refuted ex_folders ex_files _ ["chat"]
      [(mkMessageRef "chat" [] "Request", mkMessageRef "chat" ["Note"] "Page")]
      (mkMessageRef "chat" ["Note"] "Page") eq_refl eq_refl _ _ _ _ _ _)).
    + intros f I. cbn in I. destruct I as [<- | [<- | []]].
      * split; [exists ["chat"]; split; [apply P; cbn; tauto | reflexivity] |]. cbn. repeat (constructor; [free |]). constructor.
      * split; [exists ["common"]; split; [apply P; cbn; tauto | reflexivity] |]. cbn. repeat (constructor; [free |]). constructor.
    + free.
    + eexists. split; [now left | now right].
    + discriminate.
    + intros f m I J. cbn in I. destruct I as [<- | [<- | []]]; cbn in J.
      * destruct J as [<- | [<- | []]]; discriminate.
      * destruct J as [<- | []]; discriminate.
    + intros f m I J. cbn in I. destruct I as [<- | [<- | []]]; cbn in J; [destruct J as [<- | []]; discriminate | destruct J].
Qed.

Print Assumptions C87_opens_partial.
Print Assumptions C87_nested_refuted.
Print Assumptions C87_argument.
Print Assumptions C87_method.
Print Assumptions C87_only.
Print Assumptions C88_declared_defined.
Print Assumptions C88_access.
Print Assumptions C88_constructor.
Print Assumptions C88_overloads_partial.
Print Assumptions C88_overloads_refuted.
Print Assumptions C88_functions_partial.
Print Assumptions C88_functions_refuted.
Print Assumptions C88_keywords_partial.
Print Assumptions C88_keywords_refuted.
Print Assumptions C88_class_name.
Print Assumptions C88_client_names.
Print Assumptions C88_includes_partial.
Print Assumptions C88_includes_refuted.

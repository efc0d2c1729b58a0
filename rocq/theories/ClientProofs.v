(** Proofs about the classes of generated clients. *)

From Coq Require Import String Ascii ZArith List Bool Arith Lia Permutation.
From Verif Require Import Base GenModel GenSpec GenStrings GenTypesModel GenTypesSpec GenClassSpec ClientModel ClientSpec.
Import ListNotations.
Open Scope string_scope.

Lemma in_source_message : forall x, in_source (in_type x) = in_type x /\ in_source (out_type x) = out_type x.
Proof. intro x. split; reflexivity. Qed.

(** * Declarations and definitions *)

Lemma rpc_declared : forall qml v x,
  map defined_as (implementations qml v x) = (map declared_as (public_declarations qml x) ++ map declared_as (private_declarations qml x))%list.
Proof. intros qml v x. unfold implementations, public_declarations, private_declarations. destruct (x_server_streams x), qml; reflexivity. Qed.

Lemma flat_map_split : forall (A B : Type) (f g : A -> list B) l,
  Permutation (flat_map (fun x => f x ++ g x)%list l) (flat_map f l ++ flat_map g l).
Proof.
  intros A B f g. induction l as [| x l IH]; [constructor |]. cbn [flat_map]. rewrite IH, <- !app_assoc. apply Permutation_app_head.
  rewrite !app_assoc. apply Permutation_app_tail, Permutation_app_comm.
Qed.

Lemma map_flat_map : forall (A B C : Type) (f : A -> list B) (g : B -> C) l, map g (flat_map f l) = flat_map (fun x => map g (f x)) l.
Proof. intros A B C f g. induction l as [| x l IH]; [reflexivity |]. cbn [flat_map]. now rewrite map_app, IH. Qed.

Lemma header_source : forall qml v, Permutation (map declared_as (client_header qml v)) (map defined_as (client_source qml v)).
Proof.
  intros qml v. unfold client_header, client_source. cbn [map]. apply perm_skip. rewrite map_app, !map_flat_map.
  rewrite <- flat_map_split. erewrite flat_map_ext; [apply Permutation_refl |]. intro x. symmetry. apply rpc_declared.
Qed.

Lemma source_class : forall qml v, Forall (fun i => i_class i = client_class v) (client_source qml v).
Proof.
  intros qml v. constructor; [reflexivity |]. apply Forall_forall. intros i I. apply in_flat_map in I. destruct I as (x & _ & I).
  unfold implementations in I. destruct (x_server_streams x), qml; cbn in I; repeat (destruct I as [<- | I]; [reflexivity |]); destruct I.
Qed.

(** * Names *)

(** Which names the members have. *)
Inductive names_of (qml : bool) (v : service) : string -> Prop :=
| name_class : names_of qml v (client_class v)
| name_call x : In x (v_rpcs v) -> unary x -> names_of qml v (x_name x)
| name_stream x : In x (v_rpcs v) -> x_server_streams x = true -> names_of qml v ("stream" ++ first_capital (x_name x))
| name_qml x : In x (v_rpcs v) -> x_server_streams x = true -> qml = true ->
    names_of qml v ("qmlStream" ++ first_capital (x_name x) ++ "_p").

Lemma own_names_spec : forall qml v n, In n (own_names qml v) <-> names_of qml v n.
Proof.
  intros qml v n. unfold own_names, client_header. cbn [map b_name]. rewrite map_app, !map_flat_map. split.
  - intros [<- | I]; [constructor |]. apply in_app_or in I.
    destruct I as [I | I]; apply in_flat_map in I; destruct I as (x & X & I).
    + unfold public_declarations in I. destruct (x_server_streams x) eqn:S.
      * cbn in I. rewrite <- first_capital_eq in I. destruct I as [<- | [<- | []]]; now apply (name_stream qml v x).
      * destruct qml; cbn in I; repeat (destruct I as [<- | I]; [now apply (name_call _ v x) |]); destruct I.
    + unfold private_declarations in I. destruct (x_server_streams x) eqn:S; [| destruct I]. destruct qml eqn:Q; [| destruct I].
      cbn in I. rewrite <- first_capital_eq in I. destruct I as [<- | []]. now apply (name_qml true v x).
  - intros [| x X U | x X S | x X S Q].
    + now left.
    + right. apply in_or_app. left. apply in_flat_map. exists x. split; [exact X |]. unfold public_declarations. unfold unary in U.
      rewrite U. apply in_map_iff. eexists. split; [| now left]. reflexivity.
    + right. apply in_or_app. left. apply in_flat_map. exists x. split; [exact X |]. unfold public_declarations. rewrite S.
      rewrite first_capital_eq. now left.
    + right. apply in_or_app. right. apply in_flat_map. exists x. split; [exact X |]. unfold private_declarations. rewrite S, Q.
      rewrite first_capital_eq. now left.
Qed.

Definition uses_of (qml : bool) (v : service) (f : string) : Prop := exists i, In i (client_source qml v) /\ In f (i_uses i).

Lemma uses_spec : forall qml v f, uses_of qml v f <->
  (f = "stream" /\ exists x, In x (v_rpcs v) /\ x_server_streams x = true)
  \/ ((f = "call" \/ (qml = true /\ (f = "qjsEngine" \/ f = "qmlEngine"))) /\ exists x, In x (v_rpcs v) /\ unary x).
Proof.
  intros qml v f. split.
  - intros (i & I & U). destruct I as [<- | I]; [destruct U |]. apply in_flat_map in I. destruct I as (x & X & I).
    unfold implementations in I. destruct (x_server_streams x) eqn:S.
    + left. split; [| now exists x]. destruct qml; cbn in I; repeat (destruct I as [<- | I]; [cbn in U; destruct U as [<- | []]; reflexivity |]); destruct I.
    + right. split; [| now exists x]. destruct qml; cbn in I;
        repeat (destruct I as [<- | I]; [cbn in U; repeat (destruct U as [<- | U]; [auto 6 |]); destruct U |]); destruct I.
  - intros [(-> & x & X & S) | (F & x & X & U)].
    + eexists. split; [right; apply in_flat_map; exists x; split; [exact X |]; unfold implementations; rewrite S; now left | now left].
    + unfold unary in U. destruct F as [-> | (-> & [-> | ->])].
      * eexists. split; [right; apply in_flat_map; exists x; split; [exact X |]; unfold implementations; rewrite U; now left | now left].
      * eexists. split; [right; apply in_flat_map; exists x; split; [exact X |]; unfold implementations; rewrite U; right; right; right; now left | now left].
      * eexists. split; [right; apply in_flat_map; exists x; split; [exact X |]; unfold implementations; rewrite U; right; right; right; now left |].
        right. right. now left.
Qed.

Fixpoint final (s : string) : option ascii :=
  match s with EmptyString => None | String c EmptyString => Some c | String _ s' => final s' end.
Lemma final_app : forall a c s, final (a ++ String c s) = final (String c s).
Proof.
  induction a as [| d a IH]; intros c s; [reflexivity |]. cbn [append final]. rewrite IH. destruct (a ++ String c s) eqn:E; [| reflexivity].
  destruct a; discriminate E.
Qed.

Lemma class_final : forall v, final (client_class v) = Some "t"%char.
Proof. intro v. unfold client_class. exact (final_app _ "C"%char "lient"). Qed.

Definition outside_names : list string := ["stream"; "call"; "qjsEngine"; "qmlEngine"].

Lemma outside_own : forall qml v f, service_names_ok v -> In f outside_names ->
  (In f (own_names qml v) <-> exists x, In x (v_rpcs v) /\ unary x /\ x_name x = f).
Proof.
  intros qml v f (_ & N) F. rewrite own_names_spec. split.
  - intro O. inversion O as [E | x X U E | x X S E | x X S Q E].
    + exfalso. pose proof (class_final v) as C. rewrite E in C. destruct F as [<- | [<- | [<- | [<- | []]]]]; discriminate C.
    + exists x. auto.
    + exfalso. destruct (N x X) as ((c & s & Ex & _) & _). rewrite Ex in E. destruct F as [<- | [<- | [<- | [<- | []]]]]; discriminate E.
    + exfalso. destruct F as [<- | [<- | [<- | [<- | []]]]]; discriminate E.
  - intros (x & X & U & <-). now constructor.
Qed.

Lemma capital_nonempty : forall s, identifier s -> exists c s', first_capital s = String c s' /\ s = String (match s with String d _ => d | _ => c end) s'.
Proof. intros s (c & s' & -> & _). do 2 eexists. split; reflexivity. Qed.

(** Methods with the name of something that is looked for outside take a message first. *)
Lemma own_message_first : forall qml v m, service_names_ok v -> In m (client_header qml v) -> In (b_name m) outside_names -> message_first m.
Proof.
  intros qml v m (_ & N) I F. destruct I as [<- | I].
  - exfalso. cbn [b_name constructor_declaration] in F. pose proof (class_final v) as C.
    destruct F as [F | [F | [F | [F | []]]]]; rewrite <- F in C; discriminate C.
  - apply in_app_or in I. destruct I as [I | I]; apply in_flat_map in I; destruct I as (x & X & I).
    + unfold public_declarations in I. destruct (x_server_streams x), qml; cbn in I;
        repeat (destruct I as [<- | I]; [unfold message_first; cbn [b_params]; unfold in_type; do 2 eexists; first [left; reflexivity | right; reflexivity] |]);
        destruct I.
    + unfold private_declarations in I. destruct (x_server_streams x), qml; cbn in I; try (destruct I; fail).
      destruct I as [<- | []]. unfold message_first. cbn [b_params]. do 2 eexists. right. reflexivity.
Qed.

(** Keywords. *)
Lemma keyword_class : forall v, identifier (v_name v) -> ~ In (client_class v) keywords.
Proof.
  intros v I K. pose proof (class_final v) as C.
  assert (X : forallb (fun k => match k with
     | String c0 _ => negb (match final k with Some "t"%char => existsb (fun e => String.eqb e (String.substring (String.length k - 6) 6 k)) ["Client"] | _ => false end) | _ => true end) keywords = true)
    by (vm_compute; reflexivity).
  rewrite forallb_forall in X. specialize (X _ K). destruct (client_class v) as [| c s] eqn:E; [discriminate C |]. rewrite C in X.
  rewrite <- E in X. unfold client_class in X.
  assert (S : forall a, String.substring (String.length (a ++ "Client") - 6) 6 (a ++ "Client") = "Client").
  { intro a. rewrite length_app_s. cbn [String.length]. replace (String.length a + 6 - 6)%nat with (String.length a) by lia.
    induction a as [| d a IH]; [reflexivity |]. cbn. exact IH. }
  rewrite S in X. cbn in X. discriminate X.
Qed.

Lemma keyword_prefix : forall p s, forallb (fun k => negb (String.prefix p k)) keywords = true -> ~ In (p ++ s) keywords.
Proof.
  intros p s H K. rewrite forallb_forall in H. specialize (H _ K). apply negb_true_iff in H.
  assert (P : String.prefix p (p ++ s) = true).
  { clear. induction p as [| c p IH]; [now destruct s |]. cbn. destruct (ascii_dec c c); [exact IH | congruence]. }
  congruence.
Qed.

Lemma keyword_names : forall qml v, service_names_ok v ->
  forall k, In k keywords -> (In k (own_names qml v) <-> exists x, In x (v_rpcs v) /\ unary x /\ x_name x = k).
Proof.
  intros qml v (Nv & N) k K. rewrite own_names_spec. split.
  - intro O. inversion O as [E | x X U E | x X S E | x X S Q E]; subst.
    + elim (keyword_class v Nv K).
    + exists x. auto.
    + elim (keyword_prefix "stream" (first_capital (x_name x)) eq_refl K).
    + elim (keyword_prefix "qmlStream" (first_capital (x_name x) ++ "_p") eq_refl K).
  - intros (x & X & U & <-). now constructor.
Qed.

(** The name of the class. *)
Lemma class_head : forall v, identifier (v_name v) -> exists c s, client_class v = String (to_capital c) s.
Proof. intros v (c & s & E & _). unfold client_class. rewrite E, <- first_capital_eq. do 2 eexists. cbn. reflexivity. Qed.

Lemma capital_not_small : forall c, ~ In (to_capital c) small_letters.
Proof. intro c. destruct c as [[] [] [] [] [] [] [] []]; vm_compute; intuition discriminate. Qed.

Lemma class_method : forall qml v m, service_names_ok v -> In m (client_header qml v) -> b_name m = client_class v ->
  m = constructor_declaration v \/ exists x, In x (v_rpcs v) /\ unary x /\ x_name x = client_class v.
Proof.
  intros qml v m (Nv & N) I E. destruct I as [<- | I]; [now left | right].
  destruct (class_head v Nv) as (c & s & H). pose proof (capital_not_small c) as K. set (c' := to_capital c) in *. clearbody c'.
  apply in_app_or in I. destruct I as [I | I]; apply in_flat_map in I; destruct I as (x & X & I).
  - unfold public_declarations in I. destruct (x_server_streams x) eqn:Sx.
    + exfalso. assert (B : b_name m = "stream" ++ upperCaseName (x_name x)) by (cbn in I; destruct I as [<- | [<- | []]]; reflexivity).
      rewrite B, H in E. cbn in E. injection E as <- _. apply K. vm_compute. auto 30.
    + exists x. split; [exact X |]. split; [exact Sx |]. rewrite <- E.
      destruct qml; cbn in I; repeat (destruct I as [<- | I]; [reflexivity |]); destruct I.
  - unfold private_declarations in I. destruct (x_server_streams x) eqn:Sx; [| destruct I]. destruct qml; [| destruct I].
    exfalso. destruct I as [<- | []]. cbn [b_name] in E. rewrite H in E. cbn in E. injection E as <- _. apply K. vm_compute. auto 30.
Qed.

(** * The same methods as in the model of the calls *)
Lemma same_methods : forall qml v,
  map (fun i => (i_name i, map show (i_params i), i_body i)) (tl (client_source qml v))
  = map (fun c => (c_name c, c_parameters c, Some (c_body c))) (client_methods qml v).
Proof.
  intros qml v. unfold client_source, client_methods. cbn [tl]. rewrite !map_flat_map. induction (v_rpcs v) as [| x l IH]; [reflexivity |].
  cbn [flat_map]. rewrite IH. f_equal. unfold implementations, rpc_methods. destruct (x_server_streams x), qml; reflexivity.
Qed.

(** * Access *)
Lemma access : forall qml v i b, In i (client_source qml v) -> i_body i = Some b ->
  exists m, In m (client_header qml v) /\ declared_as m = defined_as i
    /\ (b_public m = true <-> forall n, b <> ScriptStream n) /\ (for_script b -> b_invokable m = true).
Proof.
  intros qml v i b I B. destruct I as [<- | I]; [discriminate B |]. apply in_flat_map in I. destruct I as (x & X & I).
  assert (P : forall m, In m (public_declarations qml x) -> In m (client_header qml v)).
  { intros m M. right. apply in_or_app. left. apply in_flat_map. now exists x. }
  assert (Q : forall m, In m (private_declarations qml x) -> In m (client_header qml v)).
  { intros m M. right. apply in_or_app. right. apply in_flat_map. now exists x. }
  unfold implementations in I. unfold public_declarations in P. unfold private_declarations in Q.
  assert (S : forall n, ~ for_script (OpenStream n) /\ ~ for_script (OpenStreamTo n) /\ ~ for_script (BlockingCall n) /\ ~ for_script (AsyncCall n)).
  { intro n. repeat split; intros (k & [E | [E | E]]); discriminate E. }
  destruct (x_server_streams x), qml; cbn in I, P, Q.
  - destruct I as [<- | [<- | [<- | []]]]; injection B as <-.
    + eexists. split; [apply P; left; reflexivity |]. split; [reflexivity |]. split; [split; [discriminate | reflexivity] |]. intro F. now apply S in F.
    + eexists. split; [apply P; right; left; reflexivity |]. split; [reflexivity |]. split; [split; [discriminate | reflexivity] |]. intro F. now apply S in F.
    + eexists. split; [apply Q; left; reflexivity |]. split; [reflexivity |]. split; [split; [discriminate | intro N; exfalso; exact (N _ eq_refl)] |]. reflexivity.
  - destruct I as [<- | [<- | []]]; injection B as <-.
    + eexists. split; [apply P; left; reflexivity |]. split; [reflexivity |]. split; [split; [discriminate | reflexivity] |]. intro F. now apply S in F.
    + eexists. split; [apply P; right; left; reflexivity |]. split; [reflexivity |]. split; [split; [discriminate | reflexivity] |]. intro F. now apply S in F.
  - destruct I as [<- | [<- | [<- | [<- | [<- | []]]]]]; injection B as <-.
    + eexists. split; [apply P; left; reflexivity |]. split; [reflexivity |]. split; [split; [discriminate | reflexivity] |]. intro F. now apply S in F.
    + eexists. split; [apply P; right; left; reflexivity |]. split; [reflexivity |]. split; [split; [discriminate | reflexivity] |]. intro F. now apply S in F.
    + eexists. split; [apply P; right; right; left; reflexivity |]. split; [reflexivity |]. split; [split; [discriminate | reflexivity] |]. reflexivity.
    + eexists. split; [apply P; right; right; right; left; reflexivity |]. split; [reflexivity |]. split; [split; [discriminate | reflexivity] |]. reflexivity.
    + eexists. split; [apply P; right; right; right; right; left; reflexivity |]. split; [reflexivity |]. split; [split; [discriminate | reflexivity] |]. reflexivity.
  - destruct I as [<- | [<- | [<- | []]]]; injection B as <-.
    + eexists. split; [apply P; left; reflexivity |]. split; [reflexivity |]. split; [split; [discriminate | reflexivity] |]. intro F. now apply S in F.
    + eexists. split; [apply P; right; left; reflexivity |]. split; [reflexivity |]. split; [split; [discriminate | reflexivity] |]. intro F. now apply S in F.
    + eexists. split; [apply P; right; right; left; reflexivity |]. split; [reflexivity |]. split; [split; [discriminate | reflexivity] |]. reflexivity.
Qed.

(** * Overloads *)

Lemma nodup_flat_map : forall (A B : Type) (f : A -> list B) l,
  NoDup l -> (forall x, In x l -> NoDup (f x)) -> (forall x y s, In x l -> In y l -> In s (f x) -> In s (f y) -> x = y) -> NoDup (flat_map f l).
Proof.
  intros A B f l N. induction N as [| x l X N IH]; intros F D; [constructor |]. cbn [flat_map].
  assert (G : forall a b : list B, NoDup a -> NoDup b -> (forall s, In s a -> ~ In s b) -> NoDup (a ++ b)%list).
  { intros a b Na Nb H. induction Na as [| z a Z0 Na IHa]; [exact Nb |]. cbn. constructor.
    - intro I. apply in_app_or in I. destruct I as [I | I]; [now apply Z0 | exact (H z (or_introl eq_refl) I)].
    - apply IHa. intros s I. apply H. now right. }
  apply G.
  - apply F. now left.
  - apply IH; [intros y Y; apply F; now right |]. intros y z s Y Z0. apply D; now right.
  - intros s I J. apply in_flat_map in J. destruct J as (y & Y & J). apply X.
    replace x with y; [exact Y |]. symmetry. apply (D x y s); [now left | now right | exact I | exact J].
Qed.

Lemma nodup_flat_map_inv : forall (A B : Type) (f : A -> list B) l x y s,
  NoDup (flat_map f l) -> In x l -> In y l -> In s (f x) -> In s (f y) -> x = y.
Proof.
  intros A B f l x y s. induction l as [| z l IH]; intros N X Y Sx Sy; [destruct X |]. cbn [flat_map] in N.
  assert (G : forall a b : list B, NoDup (a ++ b)%list -> NoDup b /\ forall s, In s a -> ~ In s b).
  { intros a b. induction a as [| c a IHa]; cbn; intro H; [split; auto |]. inversion H as [| ? ? H1 H2]; subst. destruct (IHa H2) as [Nb H3].
    split; [exact Nb |]. intros t [<- | T] I; [apply H1, in_or_app; now right | exact (H3 t T I)]. }
  destruct (G _ _ N) as [N2 D]. destruct X as [<- | X], Y as [<- | Y]; [reflexivity | | |].
  - exfalso. apply (D s Sx). apply in_flat_map. now exists y.
  - exfalso. apply (D s Sy). apply in_flat_map. now exists x.
  - now apply IH.
Qed.

Definition signatures (qml : bool) (x : rpc) : list (string * list jtype) :=
  (map signature (public_declarations qml x) ++ map signature (private_declarations qml x))%list.

Lemma header_signatures : forall qml v,
  Permutation (map signature (client_header qml v)) (signature (constructor_declaration v) :: flat_map (signatures qml) (v_rpcs v)).
Proof.
  intros qml v. unfold client_header. cbn [map]. apply perm_skip. rewrite map_app, !map_flat_map. symmetry. apply flat_map_split.
Qed.

Lemma cpp_inj : forall a b, free_of ":" a -> free_of ":" b -> cpp_type a = cpp_type b -> a = b.
Proof.
  induction a as [| c a IH]; intros [| d b] A B E.
  - reflexivity.
  - cbn in E. destruct (Ascii.eqb d "."); discriminate E.
  - cbn in E. destruct (Ascii.eqb c "."); discriminate E.
  - apply free_cons in A, B. destruct A as [Ac A], B as [Bd B]. cbn in E. destruct (Ascii.eqb c ".") eqn:C, (Ascii.eqb d ".") eqn:D.
    + apply Ascii.eqb_eq in C, D. subst c d. cbn in E. f_equal. apply IH; congruence.
    + exfalso. cbn in E. apply Bd. congruence.
    + exfalso. cbn in E. apply Ac. congruence.
    + f_equal; [congruence |]. apply IH; congruence.
Qed.

Lemma overloads : forall qml v, NoDup (map x_name (v_rpcs v)) -> (forall x, In x (v_rpcs v) -> free_of ":" (x_input x)) ->
  (NoDup (map signature (client_header qml v)) <-> forall x y, In x (v_rpcs v) -> In y (v_rpcs v) -> clash x y -> x = y).
Proof.
  intros qml v N Fr.
  assert (Inj : forall x y, In x (v_rpcs v) -> In y (v_rpcs v) -> in_type x = in_type y -> x_input x = x_input y).
  { intros x y X Y E. apply cpp_inj; [now apply Fr | now apply Fr |]. unfold in_type in E. congruence. }
  assert (Nn : forall x y, In x (v_rpcs v) -> In y (v_rpcs v) -> x_name x = x_name y -> x = y).
  { clear -N. induction (v_rpcs v) as [| z l IH]; intros x y X Y E; [destruct X |]. cbn in N. inversion N as [| ? ? N1 N2]; subst.
    destruct X as [<- | X], Y as [<- | Y]; [reflexivity | | | now apply IH].
    - exfalso. apply N1. rewrite E. now apply in_map.
    - exfalso. apply N1. rewrite <- E. now apply in_map. }
  assert (Nl : NoDup (v_rpcs v)) by (exact (NoDup_map_inv _ _ N)). split.
  - intros D x y X Y (I & U & C). apply (Permutation_NoDup (header_signatures qml v)) in D. inversion D as [| ? ? _ D']; subst.
    apply (nodup_flat_map_inv _ _ _ _ x y ("stream" ++ upperCaseName (x_name x), [JConstRef (in_type x)]) D' X Y).
    + unfold signatures, public_declarations. unfold unary in U. destruct (x_server_streams x); [| now destruct U]. now left.
    + unfold signatures, public_declarations, in_type. rewrite I. destruct C as [(Uy & C) | (Uy & C)].
      * unfold unary in Uy. destruct (x_server_streams y); [| now destruct Uy]. left. unfold signature, in_type. cbn [b_name b_params].
        now rewrite <- !first_capital_eq, C.
      * unfold unary in Uy. rewrite Uy. rewrite first_capital_eq in C. cbn [map app]. right. left. unfold signature, in_type. cbn [b_name b_params]. now rewrite C.
  - intro C. apply (Permutation_NoDup (Permutation_sym (header_signatures qml v))). constructor.
    + intro I. apply in_flat_map in I. destruct I as (x & _ & I). unfold signatures, public_declarations, private_declarations in I.
      destruct (x_server_streams x), qml; cbn in I; repeat (destruct I as [I | I]; [discriminate I |]); destruct I.
    + apply nodup_flat_map; [exact Nl | |].
      * intros x _. unfold signatures, public_declarations, private_declarations.
        destruct (x_server_streams x), qml; cbn;
          repeat (constructor; [cbn; intro I; repeat (destruct I as [I | I]; [discriminate I |]); destruct I |]); constructor.
      * intros x y s X Y Sx Sy. unfold signatures, public_declarations, private_declarations in Sx, Sy.
        assert (K1 : forall a b, x_server_streams a = true -> x_server_streams b = true -> In a (v_rpcs v) -> In b (v_rpcs v) -> in_type a = in_type b ->
            upperCaseName (x_name a) = upperCaseName (x_name b) -> a = b).
        { intros a b Sa Sb A B Et E. apply C; [exact A | exact B |]. split; [now apply Inj |]. split; [unfold unary; congruence |]. left.
          split; [unfold unary; congruence |]. now rewrite !first_capital_eq. }
        assert (K2 : forall a b, x_server_streams a = true -> x_server_streams b = false -> In a (v_rpcs v) -> In b (v_rpcs v) -> in_type a = in_type b ->
            "stream" ++ upperCaseName (x_name a) = x_name b -> a = b).
        { intros a b Sa Sb A B Et E. apply C; [exact A | exact B |]. split; [now apply Inj |]. split; [unfold unary; congruence |]. right.
          split; [exact Sb |]. now rewrite first_capital_eq, E. }
        destruct (x_server_streams x) eqn:Ux, (x_server_streams y) eqn:Uy.
        -- assert (Z0 : in_type x = in_type y /\ upperCaseName (x_name x) = upperCaseName (x_name y)).
           { destruct qml; cbn in Sx, Sy; repeat (destruct Sx as [<- | Sx]; [| try (now destruct Sx)]);
               repeat (destruct Sy as [Sy | Sy]; [| try (now destruct Sy)]); unfold signature in Sy; cbn [b_name b_params] in Sy;
               try discriminate Sy; injection Sy; intros; split; try (unfold in_type; congruence); try congruence;
               match goal with H : upperCaseName _ ++ "_p" = _ |- _ => now apply app_inv_tail_s in H end. }
           destruct Z0 as [Z1 Z2]. now apply K1.
        -- assert (Z0 : in_type x = in_type y /\ "stream" ++ upperCaseName (x_name x) = x_name y).
           { destruct qml; cbn in Sx, Sy; repeat (destruct Sx as [<- | Sx]; [| try (now destruct Sx)]);
               repeat (destruct Sy as [Sy | Sy]; [| try (now destruct Sy)]); unfold signature in Sy; cbn [b_name b_params] in Sy;
               try discriminate Sy; injection Sy; intros; split; try (unfold in_type; congruence); cbn; congruence. }
           destruct Z0 as [Z1 Z2]. now apply K2.
        -- assert (Z0 : in_type y = in_type x /\ "stream" ++ upperCaseName (x_name y) = x_name x).
           { destruct qml; cbn in Sx, Sy; repeat (destruct Sx as [<- | Sx]; [| try (now destruct Sx)]);
               repeat (destruct Sy as [Sy | Sy]; [| try (now destruct Sy)]); unfold signature in Sy; cbn [b_name b_params] in Sy;
               try discriminate Sy; injection Sy; intros; split; try (unfold in_type; congruence); cbn; congruence. }
           destruct Z0 as [Z1 Z2]. symmetry. now apply K2.
        -- apply Nn; [exact X | exact Y |].
           destruct qml; cbn in Sx, Sy; repeat (destruct Sx as [<- | Sx]; [| try (now destruct Sx)]);
             repeat (destruct Sy as [Sy | Sy]; [| try (now destruct Sy)]); unfold signature in Sy; cbn [b_name b_params] in Sy; congruence.
Qed.

(** Names of classes. *)
Lemma class_names : forall v v', client_class v = client_class v' <-> first_capital (v_name v) = first_capital (v_name v').
Proof.
  intros v v'. unfold client_class. rewrite !first_capital_eq. split; [apply app_inv_tail_s | now intros ->].
Qed.

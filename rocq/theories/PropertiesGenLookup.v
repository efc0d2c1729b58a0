(** The names in generated code, as C++ looks them up (C57, C63). *)

From Coq Require Import String Ascii ZArith List Bool Arith Lia.
From Verif Require Import GenModel GenSpec GenStrings GenOutput GenTypesModel GenTypesSpec GenTypesNames GenLookupModel GenLookupSpec GenLookupProofs.
Import ListNotations.
Open Scope string_scope.

(** * C57: names of the classes of messages *)

(** The type of a field, as it is printed in the class of a message: C++ finds the class of the message that the field is of if
    and only if nothing of the same name as the first part of what is printed is declared closer to the class than
    that first part.  The messages around that message have names with capital letters.
    Missing: names that are hidden, and messages with small letters; see the theorems below. *)
Theorem C57_field_lookup_partial : forall declared o pt at_ nt ps as_ m,
  o_extra o = "" \/ part_ok (o_extra o) ->
  message_names_ok pt at_ nt -> scope_names_ok ps as_ m -> messages_apart o ps as_ pt -> plain_names as_ ->
  Forall capital at_ ->
  closed declared -> declared (class_path o pt at_ nt) ->
  exists outer parts,
    message_scope_type o (mkMessageRef (package_of pt) at_ nt) (scope_of ps as_ m) = text parts
    /\ class_path o pt at_ nt = (outer ++ parts)%list
    /\ (found declared (class_path o ps as_ (g_name m)) parts (class_path o pt at_ nt)
        <-> ~ hidden declared (class_path o ps as_ (g_name m)) outer parts).
Proof.
  intros D o pt at_ nt ps as_ m E M S Ap Pl C Cl Dp.
  destruct (scope_text_found o pt at_ nt ps as_ m (first_capital nt) E M S Ap Pl C) as (outer & parts & inner & Q & T & Ne & P).
  exists outer, parts. unfold message_scope_type. cbn [mr_name]. rewrite <- first_capital_eq. split; [exact Q |]. split; [exact T |].
  change (class_path o pt at_ nt) with (target_path o pt at_ (first_capital nt)) in *. rewrite T in *.
  exact (found_not_hidden D _ outer inner parts Cl Ne P Dp).
Qed.

(** The same for fields with lists of messages, whose type is declared next to the class.
    Missing: as above. *)
Theorem C57_list_lookup_partial : forall declared o pt at_ nt ps as_ m,
  o_extra o = "" \/ part_ok (o_extra o) ->
  message_names_ok pt at_ nt -> scope_names_ok ps as_ m -> messages_apart o ps as_ pt -> plain_names as_ ->
  Forall capital at_ ->
  closed declared -> declared (list_path o pt at_ nt) ->
  exists outer parts,
    message_scope_list_type o (mkMessageRef (package_of pt) at_ nt) (scope_of ps as_ m) = text parts
    /\ list_path o pt at_ nt = (outer ++ parts)%list
    /\ (found declared (class_path o ps as_ (g_name m)) parts (list_path o pt at_ nt)
        <-> ~ hidden declared (class_path o ps as_ (g_name m)) outer parts).
Proof.
  intros D o pt at_ nt ps as_ m E M S Ap Pl C Cl Dp.
  destruct (scope_text_found o pt at_ nt ps as_ m (first_capital nt ++ "Repeated") E M S Ap Pl C) as (outer & parts & inner & Q & T & Ne & P).
  exists outer, parts. unfold message_scope_list_type, list_suffix. cbn [mr_name]. rewrite <- first_capital_eq.
  split; [exact Q |]. split; [exact T |].
  change (list_path o pt at_ nt) with (target_path o pt at_ (first_capital nt ++ "Repeated")) in *. rewrite T in *.
  exact (found_not_hidden D _ outer inner parts Cl Ne P Dp).
Qed.

(** The class of a message inside of one whose name starts with a small letter is never found, wherever the printed name
    is used and whatever else is declared. *)
Theorem C57_small_letter_refuted : forall o pt at_ nt ps as_ m,
  o_extra o = "" \/ part_ok (o_extra o) ->
  message_names_ok pt at_ nt -> scope_names_ok ps as_ m -> messages_apart o ps as_ pt -> plain_names (ps ++ as_)%list ->
  ~ Forall capital at_ ->
  exists parts,
    message_scope_type o (mkMessageRef (package_of pt) at_ nt) (scope_of ps as_ m) = text parts
    /\ forall declared place, ~ found declared place parts (class_path o pt at_ nt).
Proof.
  intros o pt at_ nt ps as_ m E M S Ap Pl C.
  destruct (small_not_found o pt at_ nt ps as_ m (first_capital nt) E M S Ap Pl) as (parts & pre & Q & T).
  exists parts. unfold message_scope_type. cbn [mr_name]. rewrite <- first_capital_eq. split; [exact Q |].
  intros D place F. apply found_suffix in F. destruct F as (outer & F). apply C.
  exact (small_not_suffix o pt at_ (first_capital nt) parts outer pre T F).
Qed.

(** In a package with a part that is not its first one, but the first part of another package, the classes of that
    other package are not found.  (In the schema, such a message is written with a dot in front.) *)
Theorem C57_package_hidden_refuted : forall declared o q b r rest nt m as_,
  o_extra o = "" -> q <> [] ->
  message_names_ok (b :: rest) [] nt -> scope_names_ok (q ++ b :: r)%list as_ m ->
  (forall more, (b :: rest) <> ((q ++ b :: r) ++ as_ ++ more)%list) ->
  closed declared -> declared (class_path o (q ++ b :: r)%list as_ (g_name m)) ->
  exists parts,
    message_scope_type o (mkMessageRef (package_of (b :: rest)) [] nt) (scope_of (q ++ b :: r)%list as_ m) = text parts
    /\ ~ found declared (class_path o (q ++ b :: r)%list as_ (g_name m)) parts (class_path o (b :: rest) [] nt).
Proof.
  intros D o q b r rest nt m as_ E Nq M S Ap Cl Dp. exists ((b :: rest) ++ [first_capital nt])%list.
  assert (T : target_namespaces o (b :: rest) [] = b :: rest) by (cbn; unfold outer_namespaces; rewrite E; reflexivity).
  split.
  - unfold message_scope_type. cbn [mr_name]. rewrite <- first_capital_eq.
    destruct (scope_text_cases o (b :: rest) [] nt (q ++ b :: r)%list as_ m (first_capital nt) (or_introl E) M S)
      as [(Q & _) | (more & _ & H & _)]; rewrite T in *; [exact Q |].
    exfalso. exact (Ap more H).
  - apply (hidden_not_found D _ []).
    + exists q, (b :: r ++ map (fun a => (first_capital a ++ "_QtProtobufNested")%string) as_ ++ [first_capital (g_name m)])%list.
      assert (P : class_path o (q ++ b :: r) as_ (g_name m)
                  = (q ++ b :: r ++ map (fun a => (first_capital a ++ "_QtProtobufNested")%string) as_ ++ [first_capital (g_name m)])%list).
      { unfold class_path, outer_namespaces. rewrite E, <- app_assoc. reflexivity. }
      split; [exact P |]. split; [destruct q; [elim Nq; reflexivity | cbn; lia] |]. cbn [app first_part].
      rewrite P in Dp.
      apply (Cl _ (r ++ map (fun a => (first_capital a ++ "_QtProtobufNested")%string) as_ ++ [first_capital (g_name m)])%list).
      * rewrite <- app_assoc. exact Dp.
      * destruct q; discriminate.
    + unfold class_path, outer_namespaces. rewrite E. reflexivity.
Qed.

(** In the class of a message with a nested message (or anything else in it), the class of a message of the same
    name and of the same package is not found. *)
Theorem C57_nested_hidden_refuted : forall (declared : path -> Prop) o ps nt m,
  o_extra o = "" -> message_names_ok ps [] nt -> scope_names_ok ps [] m ->
  declared (class_path o ps [] (g_name m) ++ [first_capital nt])%list ->
  exists parts,
    message_scope_type o (mkMessageRef (package_of ps) [] nt) (scope_of ps [] m) = text parts
    /\ ~ found declared (class_path o ps [] (g_name m)) parts (class_path o ps [] nt).
Proof.
  intros D o ps nt m E M S Dn. exists [first_capital nt].
  assert (T : target_namespaces o ps [] = ps) by (cbn; unfold outer_namespaces; rewrite E; reflexivity).
  assert (P : forall n, class_path o ps [] n = (ps ++ [first_capital n])%list) by (intro n; unfold class_path, outer_namespaces; rewrite E; reflexivity).
  split.
  - unfold message_scope_type. cbn [mr_name]. rewrite <- first_capital_eq.
    destruct (scope_text_cases o ps [] nt ps [] m (first_capital nt) (or_introl E) M S)
      as [(Q & H) | (more & _ & H & Q)]; rewrite T in *.
    + rewrite app_nil_r in H. destruct H as [-> | H]; [exact Q |]. exfalso. apply (H []). rewrite app_nil_r. reflexivity.
    + cbn [app] in H. assert (more = []) as ->; [| exact Q].
      apply (f_equal (@List.length string)) in H. rewrite app_length in H. destruct more; [reflexivity | cbn in H; lia].
  - apply (hidden_not_found D _ ps); [| apply P]. rewrite P in *. exists (ps ++ [first_capital (g_name m)])%list, [].
    split; [rewrite app_nil_r; reflexivity |]. split; [rewrite app_length; cbn; lia |]. exact Dn.
Qed.

(** The alias that the class of a message has for a message inside of it is one for the class of that message, if the
    name of the first one and of those around it start with capital letters; nothing else can hide it but what is called
    like the namespace for the nested messages. Missing: as for fields. *)
Theorem C57_alias_lookup_partial : forall declared o ps as_ m nt,
  o_extra o = "" \/ part_ok (o_extra o) ->
  message_names_ok ps (as_ ++ [g_name m])%list nt -> scope_names_ok ps as_ m -> messages_apart o ps as_ ps -> plain_names as_ ->
  Forall capital (as_ ++ [g_name m])%list ->
  closed declared -> declared (class_path o ps (as_ ++ [g_name m])%list nt) ->
  exists outer parts,
    message_scope_type o (mkMessageRef (package_of ps) (as_ ++ [g_name m])%list nt) (scope_of ps as_ m) = text parts
    /\ class_path o ps (as_ ++ [g_name m])%list nt = (outer ++ parts)%list
    /\ (found declared (class_path o ps as_ (g_name m)) parts (class_path o ps (as_ ++ [g_name m])%list nt)
        <-> ~ hidden declared (class_path o ps as_ (g_name m)) outer parts).
Proof.
  intros D o ps as_ m nt E M S Ap Pl C Cl Dp. apply C57_field_lookup_partial; assumption.
Qed.

(** The message that a remote procedure takes or gives, in the class of a client (or server) of the package [pv]: C++ finds its
    class, for a nested message through the alias, if and only if nothing hides the first part of the name; all names
    start with capital letters. Missing: names that are hidden, and small letters; see the next theorem. *)
Theorem C57_method_lookup_partial : forall declared o pt at_ nt pv client,
  message_names_ok pt at_ nt -> Forall capital (at_ ++ [nt])%list ->
  closed declared -> declared (alias_path o pt at_ nt) ->
  method_type (mkMessageRef (package_of pt) at_ nt) = text (pt ++ at_ ++ [nt])%list
  /\ (found declared (package_class o pv client) (pt ++ at_ ++ [nt])%list (alias_path o pt at_ nt)
      <-> ~ hidden declared (package_class o pv client) (extra_path o) (pt ++ at_ ++ [nt])%list).
Proof.
  intros D o pt at_ nt pv client M C Cl Dp. split.
  - unfold method_type. rewrite ref_full_parts by exact M. destruct M as (P & A & N). unfold package_of, text.
    assert (F : Forall (free_of ".") (pt ++ at_ ++ [nt])%list).
    { rewrite !Forall_app. repeat split; try (eapply Forall_impl; [| eassumption]; intros a (_ & X & _); exact X).
      constructor; [apply N | constructor]. }
    clear -F. induction (pt ++ at_ ++ [nt])%list as [| x [| y l] IH]; [reflexivity | |].
    + cbn [join]. inversion F as [| ? ? X _]; subst. clear -X.
      induction x as [| c x IH]; [reflexivity |]. apply free_cons in X. destruct X as [X F]. cbn.
      destruct (Ascii.eqb c ".") eqn:E; [apply Ascii.eqb_eq in E; contradiction | rewrite (IH F); reflexivity].
    + inversion F as [| ? ? X F']; subst. rewrite !join_cons.
      assert (Ap : forall a b, cpp_type (a ++ b) = cpp_type a ++ cpp_type b).
      { induction a as [| c a IHa]; intro b; [reflexivity |]. cbn. rewrite IHa. destruct (Ascii.eqb c "."); reflexivity. }
      rewrite !Ap, IH by exact F'. f_equal. clear -X.
      induction x as [| c x IH]; [reflexivity |]. apply free_cons in X. destruct X as [X F]. cbn.
      destruct (Ascii.eqb c ".") eqn:E; [apply Ascii.eqb_eq in E; contradiction | rewrite (IH F); reflexivity].
  - assert (T : alias_path o pt at_ nt = (extra_path o ++ pt ++ at_ ++ [nt])%list).
    { unfold alias_path. rewrite outer_extra, <- app_assoc. f_equal. f_equal. rewrite Forall_app in C. destruct C as [Ca Cn].
      inversion Cn as [| ? ? X _]; subst. rewrite (X : first_capital nt = nt). f_equal.
      clear -Ca. induction at_ as [| a l IH]; [reflexivity |]. inversion Ca as [| ? ? X F]; subst. cbn.
      rewrite (IH F), (X : first_capital a = a). reflexivity. }
    rewrite T in *. unfold package_class. rewrite outer_extra, <- app_assoc.
    eapply found_not_hidden; [exact Cl | destruct pt; [destruct at_ |]; discriminate | reflexivity | exact Dp].
Qed.

(** With a small letter in the name of the message or of one around it, a remote procedure never finds the class, under none of its
    two names. *)
Theorem C57_method_small_refuted : forall o pt at_ nt,
  message_names_ok pt at_ nt -> ~ Forall capital (at_ ++ [nt])%list ->
  forall declared place, ~ found declared place (pt ++ at_ ++ [nt])%list (alias_path o pt at_ nt).
Proof.
  intros o pt at_ nt M C D place F. apply found_suffix in F. destruct F as (outer & F). apply C.
  unfold alias_path in F.
  assert (G : (outer_namespaces o pt ++ map first_capital (at_ ++ [nt]) = (outer ++ pt) ++ (at_ ++ [nt]))%list).
  { rewrite map_app. cbn [map]. rewrite F, <- !app_assoc. reflexivity. }
  assert (L : List.length (map first_capital (at_ ++ [nt])%list) = List.length (at_ ++ [nt])%list) by apply map_length.
  assert (H : map first_capital (at_ ++ [nt])%list = (at_ ++ [nt])%list).
  { destruct (prefix_cases _ _ _ _ _ G) as [(e & Ep & Er) | (e & Nn & Ep & Er)].
    - rewrite Er in L. rewrite app_length in L. destruct e; [exact Er | cbn in L; lia].
    - apply (f_equal (@List.length string)) in Er. rewrite (app_length e), L in Er. destruct e; [elim Nn; reflexivity | cbn [List.length] in Er; lia]. }
  clear -H. induction (at_ ++ [nt])%list as [| a l IH]; [constructor |]. cbn in H. injection H as A B.
  constructor; [exact A | exact (IH B)].
Qed.

(** The name with which a message is made known to the meta type system and to QML, at the outermost place: it is that of the
    class, or of the alias for it, if and only if the names of the messages around it start with capital letters.
    Missing: the others. *)
Theorem C57_full_names_partial : forall o pt at_ nt,
  o_extra o = "" \/ part_ok (o_extra o) -> message_names_ok pt at_ nt ->
  (message_full_type o (mkMessageRef (package_of pt) at_ nt) = text (alias_path o pt at_ nt) <-> Forall capital at_).
Proof.
  intros o pt at_ nt E M. unfold message_full_type, message_namespaces. rewrite ref_full_parts by exact M. destruct M as (P & A & N).
  cbn [mr_name]. rewrite <- first_capital_eq.
  assert (Q : namespaces o (package_of (pt ++ at_ ++ [nt])) = (outer_namespaces o pt ++ at_)%list).
  { unfold namespaces, outer_namespaces. rewrite app_assoc. rewrite getNamespaces_parts; [destruct (o_extra o); reflexivity |].
    apply parts_app; [apply parts_app; apply part_package; assumption | apply part_one; exact N]. }
  rewrite Q, namespaces_string_join. clear Q.
  assert (Po : Forall part_ok (outer_namespaces o pt)) by (apply part_outer; assumption).
  rewrite in_namespace_text by (apply Forall_app; split; assumption).
  unfold alias_path. split.
  - intro H. apply text_inj in H.
    + rewrite <- app_assoc in H. apply app_inv_head in H. apply app_inj_tail in H. destruct H as [H _]. clear -H.
      induction at_ as [| a l IH]; [constructor |]. cbn in H. injection H as X Y. constructor; [symmetry; exact X | exact (IH Y)].
    + rewrite !Forall_app. repeat split; try assumption. constructor; [apply part_capital; exact N | constructor].
    + rewrite !Forall_app. repeat split; try assumption; [| constructor; [apply part_capital; exact N | constructor]].
      clear -A. induction at_ as [| a l IH]; [constructor |]. inversion A; subst. constructor; [apply part_capital; assumption | apply IH; assumption].
  - intro C. rewrite <- app_assoc. f_equal. f_equal. f_equal.
    clear -C. induction at_ as [| a l IH]; [reflexivity |]. inversion C as [| ? ? X F]; subst. cbn.
    rewrite <- (IH F), (X : first_capital a = a). reflexivity.
Qed.

Lemma part_repeated : forall a, part_ok a -> part_ok (first_capital a ++ "Repeated").
Proof.
  intros a P. apply part_capital in P. destruct P as (N & D & C). split; [intro Q; apply N; destruct (first_capital a); [reflexivity | discriminate Q] |].
  split; apply GenStrings.free_app; (split; [assumption |]); intro Q; cbn in Q; intuition discriminate.
Qed.

(** The same for the name of its lists, next to the class or to the alias for it.  Missing: as above. *)
Theorem C57_full_list_names_partial : forall o pt at_ nt,
  o_extra o = "" \/ part_ok (o_extra o) -> message_names_ok pt at_ nt ->
  (message_full_list_type o (mkMessageRef (package_of pt) at_ nt) = text (alias_list_path o pt at_ nt) <-> Forall capital at_).
Proof.
  intros o pt at_ nt E M. unfold message_full_list_type, message_namespaces. rewrite ref_full_parts by exact M. destruct M as (P & A & N).
  cbn [mr_name]. rewrite <- first_capital_eq.
  assert (Q : namespaces o (package_of (pt ++ at_ ++ [nt])) = (outer_namespaces o pt ++ at_)%list).
  { unfold namespaces, outer_namespaces. rewrite app_assoc. rewrite getNamespaces_parts; [destruct (o_extra o); reflexivity |].
    apply parts_app; [apply parts_app; apply part_package; assumption | apply part_one; exact N]. }
  rewrite Q, namespaces_string_join. clear Q.
  assert (Po : Forall part_ok (outer_namespaces o pt)) by (apply part_outer; assumption).
  rewrite in_namespace_text by (apply Forall_app; split; assumption).
  unfold alias_list_path, list_suffix. split.
  - intro H. apply text_inj in H.
    + rewrite <- app_assoc in H. apply app_inv_head in H. apply app_inj_tail in H. destruct H as [H _]. clear -H.
      induction at_ as [| a l IH]; [constructor |]. cbn in H. injection H as X Y. constructor; [symmetry; exact X | exact (IH Y)].
    + rewrite !Forall_app. repeat split; try assumption. constructor; [apply part_repeated; exact N | constructor].
    + rewrite !Forall_app. repeat split; try assumption; [| constructor; [apply part_repeated; exact N | constructor]].
      clear -A. induction at_ as [| a l IH]; [constructor |]. inversion A; subst. constructor; [apply part_capital; assumption | apply IH; assumption].
  - intro C. rewrite <- app_assoc. f_equal. f_equal. f_equal.
    clear -C. induction at_ as [| a l IH]; [reflexivity |]. inversion C as [| ? ? X F]; subst. cbn.
    rewrite <- (IH F), (X : first_capital a = a). reflexivity.
Qed.

(** * C63: enumerations *)

(** A name that means what is declared at [p] (as stated for enumerations elsewhere) is found by C++ if and only if it is not
    hidden. Missing: names that are hidden. *)
Theorem C63_lookup_partial : forall declared place parts p,
  Forall part_ok place -> Forall part_ok parts -> Forall part_ok p -> parts <> [] ->
  closed declared -> declared p -> means place (text parts) p ->
  exists outer, p = (outer ++ parts)%list /\ (found declared place parts p <-> ~ hidden declared place outer parts).
Proof.
  intros D place parts p P1 P2 P3 Ne C Dp M. destruct (means_spec place parts p P1 P2 P3 Ne M) as (inner & outer & E & ->).
  exists outer. split; [reflexivity |]. exact (found_not_hidden D place outer inner parts C Ne E Dp).
Qed.

(** * Cases *)

Ltac part := split; [discriminate | split; vm_compute; intuition discriminate].

Definition ex_declared (l : list path) (p : path) : Prop := exists q r, In q l /\ q = (p ++ r)%list /\ p <> [].
Lemma ex_closed : forall l, closed (ex_declared l).
Proof.
  intros l p q (x & r & I & E & _) N. exists x, (q ++ r)%list. split; [exact I |]. split; [rewrite app_assoc; exact E | exact N].
Qed.

(** package my.pkg; message Outer { message Inner { } Inner inner = 1; } and options with and without an extra
    namespace. *)
Definition ex_user : message := Message 0 "Outer" [] [] [].
Definition ex_extra : options := mkOptions false false false false false "extra".
Definition ex_all (o : options) : path -> Prop :=
  ex_declared [class_path o ["my"; "pkg"] [] "Outer"; class_path o ["my"; "pkg"] ["Outer"] "Inner";
               alias_path o ["my"; "pkg"] ["Outer"] "Inner"; class_path o ["other"] [] "Thing"].

Lemma ex_user_ok : scope_names_ok ["my"; "pkg"] [] ex_user.
Proof. split; [| split; [| split]]; repeat first [part | constructor]. Qed.

Example C57_lookup_case :
  message_names_ok ["my"; "pkg"] ["Outer"] "Inner" /\ scope_names_ok ["my"; "pkg"] [] ex_user
  /\ messages_apart no_options ["my"; "pkg"] [] ["my"; "pkg"] /\ plain_names [] /\ Forall capital ["Outer"]
  /\ closed (ex_all no_options) /\ ex_all no_options (class_path no_options ["my"; "pkg"] ["Outer"] "Inner")
  /\ message_scope_type no_options (mkMessageRef "my.pkg" ["Outer"] "Inner") (scope_of ["my"; "pkg"] [] ex_user)
     = "Outer_QtProtobufNested::Inner"
  /\ message_scope_list_type no_options (mkMessageRef "my.pkg" ["Outer"] "Inner") (scope_of ["my"; "pkg"] [] ex_user)
     = "Outer_QtProtobufNested::InnerRepeated"
  /\ ~ hidden (ex_all no_options) (class_path no_options ["my"; "pkg"] [] "Outer") ["my"; "pkg"] ["Outer_QtProtobufNested"; "Inner"]
  /\ method_type (mkMessageRef "my.pkg" ["Outer"] "Inner") = "my::pkg::Outer::Inner"
  /\ message_full_type no_options (mkMessageRef "my.pkg" ["Outer"] "Inner") = "my::pkg::Outer::Inner"
  /\ message_full_list_type no_options (mkMessageRef "my.pkg" ["Outer"] "Inner") = "my::pkg::Outer::InnerRepeated".
Proof.
  split; [split; [| split]; repeat first [part | constructor] |]. split; [exact ex_user_ok |].
  split; [split; [intros r H; elim H; reflexivity | left; reflexivity] |]. split; [intros a [] |].
  split; [repeat constructor |]. split; [apply ex_closed |].
  split; [exists (class_path no_options ["my"; "pkg"] ["Outer"] "Inner"), []; split; [right; left; reflexivity | split; [reflexivity | discriminate]] |].
  split; [reflexivity |]. split; [reflexivity |]. split; [| repeat split; reflexivity].
  intros (a & b & E & L & (q & r & I & Q & _)).
  assert (a = ["my"; "pkg"; "Outer"]) as ->.
  { destruct a as [| a1 [| a2 [| a3 [| a4 a]]]]; cbn in L; try lia; cbn in E; [congruence |].
    apply (f_equal (@List.length string)) in E. cbn in E. lia. }
  cbn in I, Q. repeat (destruct I as [<- | I]; [discriminate Q |]). destruct I.
Qed.

(** With an extra namespace, from the class of a message in another package. *)
Example C57_extra_case :
  messages_apart ex_extra ["other"] [] ["my"; "pkg"]
  /\ message_scope_type ex_extra (mkMessageRef "my.pkg" ["Outer"] "Inner") (scope_of ["other"] [] ex_user)
     = "my::pkg::Outer_QtProtobufNested::Inner"
  /\ message_scope_type ex_extra (mkMessageRef "my.pkg" [] "Outer") (scope_of ["other"] [] ex_user) = "extra::my::pkg::Outer"
  /\ class_path ex_extra ["my"; "pkg"] ["Outer"] "Inner" = ["extra"; "my"; "pkg"; "Outer_QtProtobufNested"; "Inner"].
Proof.
  split; [split; [intros r H; elim H; reflexivity | right; split; [part | intros r; discriminate]] | repeat split].
Qed.

(** message outer { message Inner { } }: the namespace is Outer_QtProtobufNested. *)
Example C57_small_letter_case :
  ~ Forall capital ["outer"]
  /\ message_scope_type no_options (mkMessageRef "my.pkg" ["outer"] "Inner") (scope_of ["my"; "pkg"] [] ex_user)
     = "outer_QtProtobufNested::Inner"
  /\ class_path no_options ["my"; "pkg"] ["outer"] "Inner" = ["my"; "pkg"; "Outer_QtProtobufNested"; "Inner"]
  /\ ~ Forall capital (["Outer"] ++ ["inner"])%list.
Proof.
  split; [intro F; inversion F as [| ? ? C _]; discriminate C |]. split; [reflexivity |]. split; [reflexivity |].
  intro F. inversion F as [| ? ? _ F']. inversion F' as [| ? ? C _]. discriminate C.
Qed.

(** package foo.bar; message Outer { .bar.Thing thing = 1; } *)
Example C57_package_hidden_case :
  scope_names_ok ["foo"; "bar"] [] ex_user
  /\ message_scope_type no_options (mkMessageRef "bar" [] "Thing") (scope_of ["foo"; "bar"] [] ex_user) = "bar::Thing"
  /\ let declared := ex_declared [["foo"; "bar"; "Outer"]; ["bar"; "Thing"]] in
     closed declared /\ declared (class_path no_options (["foo"] ++ "bar" :: [])%list [] "Outer").
Proof.
  split; [split; [| split; [| split]]; repeat first [part | constructor] |]. split; [reflexivity |]. split; [apply ex_closed |].
  exists ["foo"; "bar"; "Outer"], []. split; [left; reflexivity | split; [reflexivity | discriminate]].
Qed.

(** package my.pkg; message Inner { } message Outer { message Inner { } Inner mine = 1; .my.pkg.Inner other = 2; }: both fields are of
    type my::pkg::Outer::Inner. *)
Example C57_nested_hidden_case :
  message_scope_type no_options (mkMessageRef "my.pkg" [] "Inner") (scope_of ["my"; "pkg"] [] ex_user) = "Inner"
  /\ ex_all no_options (class_path no_options ["my"; "pkg"] [] "Outer" ++ [first_capital "Inner"])%list.
Proof.
  split; [reflexivity |]. exists (alias_path no_options ["my"; "pkg"] ["Outer"] "Inner"), [].
  split; [right; right; left; reflexivity | split; [reflexivity | discriminate]].
Qed.

Example C57_method_case :
  Forall capital (["Outer"] ++ ["Inner"])%list /\ ex_all ex_extra (alias_path ex_extra ["my"; "pkg"] ["Outer"] "Inner")
  /\ ~ hidden (ex_all ex_extra) (package_class ex_extra ["other"] "TestServiceClient") (extra_path ex_extra) ["my"; "pkg"; "Outer"; "Inner"].
Proof.
  split; [repeat constructor |].
  split; [exists (alias_path ex_extra ["my"; "pkg"] ["Outer"] "Inner"), []; split; [right; right; left; reflexivity | split; [reflexivity | discriminate]] |].
  intros (a & b & E & L & (q & r & I & Q & _)).
  assert (D : a = ["extra"; "other"] \/ a = ["extra"; "other"; "TestServiceClient"]).
  { destruct a as [| a1 [| a2 [| a3 [| a4 a]]]]; cbn in L; try lia; cbn in E; [left; congruence | right; congruence |].
    apply (f_equal (@List.length string)) in E. cbn in E. lia. }
  cbn in I, Q. destruct D as [-> | ->]; repeat (destruct I as [<- | I]; [discriminate Q |]); destruct I.
Qed.

Example C63_lookup_case :
  means ["my"; "pkg"; "Outer"] (text ["ColorGadget"; "Color"]) ["my"; "pkg"; "ColorGadget"; "Color"].
Proof. exact (means_relative _ ["my"; "pkg"] ["Outer"] ["ColorGadget"; "Color"] eq_refl ltac:(discriminate)). Qed.

Print Assumptions C57_field_lookup_partial.
Print Assumptions C57_list_lookup_partial.
Print Assumptions C57_small_letter_refuted.
Print Assumptions C57_package_hidden_refuted.
Print Assumptions C57_nested_hidden_refuted.
Print Assumptions C57_alias_lookup_partial.
Print Assumptions C57_method_lookup_partial.
Print Assumptions C57_method_small_refuted.
Print Assumptions C57_full_names_partial.
Print Assumptions C57_full_list_names_partial.
Print Assumptions C63_lookup_partial.

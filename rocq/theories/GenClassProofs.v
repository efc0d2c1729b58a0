(** Proofs about what is inside of generated classes: names. *)

From Coq Require Import String Ascii ZArith List Bool Arith Lia Permutation.
From Verif Require Import GenModel GenSpec GenStrings GenFields GenTypesModel GenClassModel GenClassSpec.
Import ListNotations.
Open Scope string_scope.

(** * Names of fields *)

Definition as_field (f : mfield) : field := mkField (m_name f) 0 "" TInt32 false false None None false.

Lemma pname_property : forall f, pname f = property_name (as_field f).
Proof. reflexivity. Qed.

Lemma known_as_spec : forall f n, known_as f n <-> n = pname f.
Proof. intros f n. rewrite pname_property. exact (called_spec (as_field f) n). Qed.

Lemma known_pname : forall f, known_as f (pname f).
Proof. intro f. apply known_as_spec. reflexivity. Qed.

Lemma pname_key : forall f g, pname f = pname g -> key (m_name f) = key (m_name g).
Proof. intros f g H. exact (property_name_key (as_field f) (as_field g) H). Qed.

(** A name has no underscores, or is one of those that were changed. *)
Lemma pname_cases : forall f, free_of underscore (pname f) \/ In (pname f) ["id_proto"; "property_proto"; "import_proto"].
Proof.
  intro f. unfold pname, cpp_name, qualifiedName. set (c := lowerCaseName (camelcase_name (m_name f))).
  destruct (existsb (String.eqb c) ["id"; "property"; "import"]) eqn:E.
  - right. apply existsb_exists in E. destruct E as (x & I & X). apply String.eqb_eq in X. subst x.
    destruct I as [<- | [<- | [<- | []]]]; cbn; auto.
  - left. exact (plain_free (as_field f)).
Qed.

Lemma lower_upper : forall s, lowerCaseName (upperCaseName s) = lowerCaseName s.
Proof. intros [| c s]; [reflexivity |]. cbn. now rewrite tolower_toupper. Qed.

Lemma lower_qualified : forall n, lowerCaseName n = n -> lowerCaseName (qualifiedName n) = qualifiedName n.
Proof.
  intros n H. unfold qualifiedName. destruct (existsb _ _); [| exact H].
  destruct n as [| c n]; [reflexivity |]. cbn in *. injection H as ->. reflexivity.
Qed.

Lemma lower_pname : forall f, lowerCaseName (pname f) = pname f.
Proof. intro f. unfold pname, cpp_name. apply lower_qualified. unfold camelcase_name. now rewrite !first_small_twice. Qed.

Lemma upper_pname : forall f g, upperCaseName (pname f) = upperCaseName (pname g) -> pname f = pname g.
Proof. intros f g H. apply (f_equal lowerCaseName) in H. rewrite !lower_upper, !lower_pname in H. exact H. Qed.

(** What stands before and behind the last underscore. *)
Definition cut (s : string) : option (string * string) := cut_last underscore s.

Lemma free_append : forall a b, free_of underscore a -> free_of underscore b -> free_of underscore (a ++ b).
Proof. intros a b A B. apply free_app. split; assumption. Qed.

Lemma upper_free : forall s, free_of underscore s -> free_of underscore (upperCaseName s).
Proof.
  intros [| c s] H; [exact H |]. cbn. apply free_cons in H. destruct H as [N F]. apply free_cons. split; [| exact F].
  intro E. apply N. apply Ascii.eqb_eq. rewrite <- toupper_underscore. apply Ascii.eqb_eq. exact E.
Qed.

Ltac free := let H := fresh in intro H; cbn in H; repeat (destruct H as [H | H]; [discriminate H |]); destruct H.

Lemma cut_suffix : forall a b, free_of underscore b -> cut (a ++ String underscore b) = Some (a, b).
Proof. intros a b F. exact (cut_last_app _ _ _ F). Qed.

Lemma cut_pname : forall f, cut (pname f) = None \/ exists c, In c ["id"; "property"; "import"] /\ cut (pname f) = Some (c, "proto").
Proof.
  intro f. destruct (pname_cases f) as [F | [<- | [<- | [<- | []]]]].
  - left. exact (cut_last_free _ _ F).
  - right. exists "id". split; [cbn; auto | reflexivity].
  - right. exists "property". split; [cbn; auto | reflexivity].
  - right. exists "import". split; [cbn; auto | reflexivity].
Qed.

Lemma cut_signal : forall f,
  cut (signal_name f) = None \/ exists c, In c ["id"; "property"; "import"] /\ cut (signal_name f) = Some (c, "protoChanged").
Proof.
  intro f. unfold signal_name. destruct (pname_cases f) as [F | [<- | [<- | [<- | []]]]].
  - left. apply cut_last_free, free_append; [exact F | free].
  - right. exists "id". split; [cbn; auto | reflexivity].
  - right. exists "property". split; [cbn; auto | reflexivity].
  - right. exists "import". split; [cbn; auto | reflexivity].
Qed.

Lemma cut_setter : forall f, cut (setter_name f) = None \/ exists c, cut (setter_name f) = Some (c, "proto").
Proof.
  intro f. unfold setter_name. destruct (pname_cases f) as [F | [<- | [<- | [<- | []]]]].
  - left. apply cut_last_free, free_append; [free | now apply upper_free].
  - right. eexists. reflexivity.
  - right. eexists. reflexivity.
  - right. eexists. reflexivity.
Qed.

Lemma cut_variable : forall f,
  cut (variable_name f) = Some ("m", pname f)
  \/ exists c, In c ["m_id"; "m_property"; "m_import"] /\ cut (variable_name f) = Some (c, "proto").
Proof.
  intro f. unfold variable_name. destruct (pname_cases f) as [F | [<- | [<- | [<- | []]]]].
  - left. exact (cut_suffix "m" (pname f) F).
  - right. exists "m_id". split; [cbn; auto | reflexivity].
  - right. exists "m_property". split; [cbn; auto | reflexivity].
  - right. exists "m_import". split; [cbn; auto | reflexivity].
Qed.

Lemma cut_p : forall s, cut (s ++ "_p") = Some (s, "p").
Proof. intro s. apply (cut_suffix s "p"). free. Qed.

Lemma cut_l : forall s, cut (s ++ "_l") = Some (s, "l").
Proof. intro s. apply (cut_suffix s "l"). free. Qed.

(** * Members of a field *)

Definition signature : Type := option (list vtype * bool * bool).

(** The kinds of members: getter, getter for changes, getter for QML, setter, second getter and setter, signal, variable. *)
Inductive owned (qml : bool) (f : mfield) : nat -> string -> signature -> Prop :=
| own_getter : owned qml f 1 (pname f) (Some ([], true, false))
| own_container : container f -> owned qml f 2 (pname f) (Some ([], false, false))
| own_list : qml = true -> listed f -> owned qml f 3 (pname f ++ "_l") (Some ([], false, false))
| own_setter t : owned qml f 4 (setter_name f) (Some ([t], false, false))
| own_second : second_getter qml f -> owned qml f 5 (pname f ++ "_p") (Some ([], true, false))
| own_second_setter t : owned qml f 6 (setter_name f ++ "_p") (Some ([t], false, false))
| own_signal : owned qml f 7 (signal_name f) (Some ([], false, false))
| own_variable : owned qml f 8 (variable_name f) None.

Ltac params := left; cbn; left; discriminate.
Ltac consts := left; cbn; right; split; [discriminate | split; reflexivity].
Ltac same_kind N := exfalso; destruct N as [N | N]; [now apply N | apply N; apply pname_key].

Ltac cut_clash :=
  exfalso;
  match goal with E : ?a = ?b |- _ => apply (f_equal cut) in E end;
  rewrite ?cut_p, ?cut_l in *;
  repeat match goal with
  | E : context [cut (pname ?f)] |- _ => let C := fresh "C" in let I := fresh "I" in destruct (cut_pname f) as [C | (? & I & C)]; rewrite C in E; clear C
  | E : context [cut (setter_name ?f)] |- _ => let C := fresh "C" in destruct (cut_setter f) as [C | (? & C)]; rewrite C in E; clear C
  | E : context [cut (signal_name ?f)] |- _ => let C := fresh "C" in let I := fresh "I" in destruct (cut_signal f) as [C | (? & I & C)]; rewrite C in E; clear C
  | E : context [cut (variable_name ?f)] |- _ => let C := fresh "C" in let I := fresh "I" in destruct (cut_variable f) as [C | (? & I & C)]; rewrite C in E; clear C
  end;
  try discriminate;
  match goal with E : Some _ = Some _ |- _ => injection E; intros; subst end;
  repeat match goal with I : In _ _ |- _ => repeat (destruct I as [I | I]; [try discriminate I; subst |]); try destruct I end;
  try discriminate.

Lemma setter_inj : forall f g, setter_name f = setter_name g -> pname f = pname g.
Proof. intros f g E. apply upper_pname. unfold setter_name in E. exact (app_inv_head_s _ _ _ E). Qed.

(** Members of one name may stand beside each other, or belong to fields that are in the way of each other. *)
Lemma owned_apart_half : forall qml f g k k' n a b,
  k <= k' -> (k <> k' \/ key (m_name f) <> key (m_name g)) -> owned qml f k n a -> owned qml g k' n b ->
  overloads a b \/ in_the_way qml f g \/ in_the_way qml g f.
Proof.
  intros qml f g k k' n a b K N A B.
  remember n as n' eqn:E in B. destruct A; destruct B; try lia; cbn [overloads]; try params; try consts; symmetry in E.
  - same_kind N. exact E.
  - cut_clash.
  - cut_clash.
  - same_kind N. exact E.
  - cut_clash.
  - right. left. left. exists (pname g). split; [apply known_pname |]. split; [| assumption]. apply known_as_spec. symmetry; exact E.
  - cut_clash.
  - same_kind N. now apply app_inv_tail_s in E.
  - cut_clash.
  - right. left. right. right. apply (f_equal cut) in E. rewrite cut_l in E.
    destruct (cut_variable g) as [C | (c & I & C)]; rewrite C in E; [| discriminate].
    injection E as E1 E2. repeat split; try assumption; apply known_as_spec; auto.
  - same_kind N. now apply setter_inj.
  - cut_clash.
  - exfalso. discriminate E.
  - same_kind N. now apply app_inv_tail_s in E.
  - right. left. right. left. apply (f_equal cut) in E. rewrite cut_p in E.
    destruct (cut_variable g) as [C | (c & I & C)]; rewrite C in E; [| discriminate].
    injection E as E1 E2. repeat split; try assumption; apply known_as_spec; auto.
  - same_kind N. apply app_inv_tail_s in E. now apply setter_inj.
  - exfalso. discriminate E.
  - same_kind N. now apply app_inv_tail_s in E.
  - cut_clash.
  - same_kind N. now apply app_inv_head_s in E.
Qed.

Lemma overloads_sym : forall a b, overloads a b -> overloads b a.
Proof.
  intros [[[p c] s] |] [[[p' c'] s'] |] H; cbn in *; try exact H.
  destruct H as [H | (A & B & C)]; [left; congruence | right; repeat split; congruence].
Qed.

Lemma owned_apart : forall qml f g k k' n a b,
  (k <> k' \/ key (m_name f) <> key (m_name g)) -> owned qml f k n a -> owned qml g k' n b ->
  overloads a b \/ in_the_way qml f g \/ in_the_way qml g f.
Proof.
  intros qml f g k k' n a b N A B. destruct (le_ge_dec k k') as [L | L].
  - exact (owned_apart_half qml f g k k' n a b L N A B).
  - assert (N' : k' <> k \/ key (m_name g) <> key (m_name f)) by (destruct N; [left | right]; congruence).
    destruct (owned_apart_half qml g f k' k n b a L N' B A) as [O | [W | W]]; [left; now apply overloads_sym | right; right; exact W | right; left; exact W].
Qed.

Lemma append_longer : forall (s : string) c t, s <> s ++ String c t.
Proof. intros s c t H. apply (f_equal String.length) in H. rewrite length_app_s in H. cbn in H. lia. Qed.

Lemma not_own_way : forall qml f, ~ in_the_way qml f f.
Proof.
  intros qml f [(n & A & B & _) | [(A & _ & B) | (A & _ & _ & B)]]; apply known_as_spec in A, B.
  - rewrite A in B. symmetry in B. exact (append_longer _ _ _ B).
  - congruence.
  - congruence.
Qed.

(** * Lists without clashes *)

Lemma clashes_sym : forall d e, clashes d e -> clashes e d.
Proof. intros d e (n & a & b & A & B & O). exists n, b, a. repeat split; auto. intro H. apply O. now apply overloads_sym. Qed.

Definition apart (d e : declaration) : Prop := ~ clashes d e.

Lemma apart_sym : forall d e, apart d e -> apart e d.
Proof. intros d e H C. apply H. now apply clashes_sym. Qed.

Lemma pairs_no_clash : forall l, ForallOrdPairs apart l -> no_clash l.
Proof.
  induction 1 as [| x l F _ IH]; intros i j d e N D E; [destruct i; discriminate |].
  rewrite Forall_forall in F.
  destruct i as [| i], j as [| j]; cbn in D, E.
  - congruence.
  - injection D as ->. apply F. exact (nth_error_In _ _ E).
  - injection E as ->. apply apart_sym, F. exact (nth_error_In _ _ D).
  - apply (IH i j); [congruence | exact D | exact E].
Qed.

Lemma pairs_permutation : forall l l', Permutation l l' -> ForallOrdPairs apart l -> ForallOrdPairs apart l'.
Proof.
  induction 1 as [| x l l' P IH | x y l | l1 l2 l3 _ IH1 _ IH2]; intro H; auto.
  - inversion H as [| ? ? F G]; subst. constructor; [| auto].
    rewrite Forall_forall in *. intros z I. apply F. exact (Permutation_in _ (Permutation_sym P) I).
  - inversion H as [| ? ? F G]; subst. inversion G as [| ? ? F' G']; subst. inversion F as [| ? ? A F'']; subst.
    constructor; [constructor; [now apply apart_sym | exact F'] | constructor; assumption].
Qed.

Lemma pairs_app : forall l l', ForallOrdPairs apart l -> ForallOrdPairs apart l' ->
  (forall d e, In d l -> In e l' -> apart d e) -> ForallOrdPairs apart (l ++ l').
Proof.
  induction 1 as [| x l F _ IH]; intros H' C; [exact H' |]. cbn [app]. constructor.
  - apply Forall_app. split; [exact F |]. apply Forall_forall. intros e I. apply C; [now left | exact I].
  - apply IH; [exact H' |]. intros d e D E. apply C; [now right | exact E].
Qed.

Lemma distinct_apart : forall d e, (forall n a b, declared d = Some (n, a) -> declared e = Some (n, b) -> False) -> apart d e.
Proof. intros d e H (n & a & b & A & B & _). exact (H n a b A B). Qed.

Lemma names_pairs : forall l, NoDup (names_declared l) -> ForallOrdPairs apart l.
Proof.
  induction l as [| d l IH]; intro N; [constructor |]. constructor.
  - apply Forall_forall. intros e I. apply distinct_apart. intros n a b A B.
    unfold names_declared in N. cbn [flat_map] in N. rewrite A in N. cbn [app] in N. apply NoDup_cons_iff in N. destruct N as [N _].
    apply N. apply in_flat_map. exists e. split; [exact I |]. rewrite B. now left.
  - apply IH. unfold names_declared in *. cbn [flat_map] in N.
    destruct (declared d) as [[n a] |]; [cbn [app] in N; now apply NoDup_cons_iff in N | exact N].
Qed.

(** * The members of a field *)

Definition own (qml : bool) (f : mfield) : list declaration :=
  (getter_declarations qml f ++ setter_declarations f ++ signal_declarations f ++ private_getter_declarations f
   ++ private_setter_declarations f ++ private_method_declarations qml f ++ variable_declarations f)%list.

Lemma second_spec : forall qml f, second_getter qml f <-> pure_message (m_shape f) = true \/ qml_alias qml (m_shape f) = true.
Proof.
  intros qml f. unfold second_getter, qml_alias. destruct (m_shape f) as [[t | m | e | q] | e | k v]; cbn; split; intro H.
  all: try (destruct H as [H | H]; try discriminate).
  all: try (destruct H as (x & E); discriminate E).
  all: try (rewrite andb_true_iff in H; destruct H as [_ H]; discriminate H).
  - destruct H as (Q & t' & E & I). injection E as ->. right. rewrite Q.
    destruct I as [<- | [<- | [<- | []]]]; reflexivity.
  - rewrite andb_true_iff in H. destruct H as [Q H]. right. split; [exact Q |]. exists t. split; [reflexivity |].
    destruct t; try discriminate H; cbn; auto.
  - now left.
  - left. eexists; reflexivity.
  - left. eexists; reflexivity.
  - destruct H as (_ & t' & E & _). discriminate E.
  - destruct H as (_ & t' & E & _). discriminate E.
  - destruct H as (_ & t' & E & _). discriminate E.
  - destruct H as (_ & t' & E & _). discriminate E.
Qed.

Lemma container_spec : forall f, container f <-> is_repeated (m_shape f) = true.
Proof.
  intro f. unfold container. destruct (m_shape f) as [e | e | k v]; cbn; split; intro H; try discriminate; try reflexivity.
  - destruct H as [(x & H) | (x & y & H)]; discriminate H.
  - left. eexists. reflexivity.
  - right. eexists _, _. reflexivity.
Qed.

Lemma listed_spec : forall f,
  listed f <-> is_repeated (m_shape f) = true /\ message_type (m_shape f) = true /\ is_map (m_shape f) = false.
Proof.
  intro f. unfold listed. destruct (m_shape f) as [e | e | k v]; cbn; split.
  - intros (x & H & _). discriminate H.
  - intros (H & _). discriminate H.
  - intros (x & H & X). injection H as ->. destruct X as [(m & ->) | (q & ->)]; auto.
  - intros (_ & H & _). exists e. split; [reflexivity |].
    destruct e as [t | m | u | q]; try discriminate H; [left | right]; eexists; reflexivity.
  - intros (x & H & _). discriminate H.
  - intros (_ & _ & H). discriminate H.
Qed.

(** The members with their kinds. *)
Definition tagged (qml : bool) (f : mfield) : list (nat * declaration) :=
  let s := m_shape f in
  ((if pure_message s then [(1, DFunction (getter f))] else [(1, DInline (getter f) (Returns (variable_name f)))])
   ++ (if is_repeated s
       then (2, DInline (container_getter f) (Returns (variable_name f)))
            :: (if message_type s && negb (is_map s) && qml then [(3, DFunction (qml_list_getter f))] else [])
       else [])
   ++ (if message_type s || text_type s then [(4, DFunction (setter f))]
       else [(4, DInline (setter f) (Stores (variable_name f) (signal_name f)))])
   ++ [(7, DSignal (signal_name f))]
   ++ (if pure_message s then [(5, DFunction (pointer_getter f))] else [])
   ++ (if pure_message s then [(6, DFunction (pointer_setter f))] else [])
   ++ (if qml_alias qml s
       then [(5, DInline (plain_getter f) (Returns (variable_name f))); (6, DInline (plain_setter f) (Stores (variable_name f) (signal_name f)))]
       else [])
   ++ [(8, DVariable (variable_name f))])%list.

Lemma map_if : forall (A B : Type) (h : A -> B) (c : bool) x y, map h (if c then x else y) = if c then map h x else map h y.
Proof. intros. destruct c; reflexivity. Qed.

Lemma tagged_own : forall qml f, map snd (tagged qml f) = own qml f.
Proof.
  intros qml f. unfold tagged, own, getter_declarations, setter_declarations, signal_declarations, private_getter_declarations,
    private_setter_declarations, private_method_declarations, variable_declarations.
  rewrite !map_app, !map_if. cbn [map snd]. rewrite !map_if. cbn [map snd]. rewrite <- !app_assoc. reflexivity.
Qed.

Lemma tagged_distinct : forall qml f, NoDup (map fst (tagged qml f)).
Proof.
  intros qml f. unfold tagged, qml_alias. destruct (m_shape f) as [[t | m | e | q] | [t | m | e | q] | k v]; destruct qml; try destruct t;
    cbn [pure_message is_repeated message_type is_map text_type andb orb negb app map fst];
    repeat (constructor; [cbn; intuition discriminate |]); constructor.
Qed.

Lemma tagged_owned : forall qml f k d n a, In (k, d) (tagged qml f) -> declared d = Some (n, a) -> owned qml f k n a.
Proof.
  intros qml f k d n a I D. unfold tagged in I. rewrite !in_app_iff in I.
  destruct I as [I | [I | [I | [I | [I | [I | [I | I]]]]]]].
  - destruct (pure_message _); destruct I as [I | []]; injection I as <- <-; injection D as <- <-; constructor.
  - destruct (is_repeated _) eqn:R; [| destruct I]. destruct I as [I | I].
    + injection I as <- <-. injection D as <- <-. constructor. now apply container_spec.
    + destruct (_ && _) eqn:M; [| destruct I]. destruct I as [I | []]. injection I as <- <-. injection D as <- <-.
      apply andb_prop in M. destruct M as [M Q]. apply andb_prop in M. destruct M as [M P]. apply negb_true_iff in P.
      constructor; [exact Q | now apply listed_spec].
  - destruct (_ || _); destruct I as [I | []]; injection I as <- <-; injection D as <- <-; constructor.
  - destruct I as [I | []]. injection I as <- <-. injection D as <- <-. constructor.
  - destruct (pure_message _) eqn:P; [| destruct I]. destruct I as [I | []]. injection I as <- <-. injection D as <- <-.
    constructor. apply second_spec. now left.
  - destruct (pure_message _) eqn:P; [| destruct I]. destruct I as [I | []]. injection I as <- <-. injection D as <- <-. constructor.
  - destruct (qml_alias _ _) eqn:P; [| destruct I]. destruct I as [I | [I | []]]; injection I as <- <-; injection D as <- <-.
    + constructor. apply second_spec. now right.
    + constructor.
  - destruct I as [I | []]. injection I as <- <-. injection D as <- <-. constructor.
Qed.

Lemma own_owned : forall qml f d n a, In d (own qml f) -> declared d = Some (n, a) -> exists k, owned qml f k n a.
Proof.
  intros qml f d n a I D. rewrite <- tagged_own in I. apply in_map_iff in I. destruct I as ([k x] & E & I). cbn in E. subst x.
  exists k. exact (tagged_owned _ _ _ _ _ _ I D).
Qed.

Lemma own_pairs : forall qml f, ForallOrdPairs apart (own qml f).
Proof.
  intros qml f. rewrite <- tagged_own. pose proof (tagged_distinct qml f) as N.
  assert (H : forall k d n a, In (k, d) (tagged qml f) -> declared d = Some (n, a) -> owned qml f k n a) by apply tagged_owned.
  revert N H. induction (tagged qml f) as [| [k d] l IH]; intros N H; [constructor |]. cbn [map fst snd] in *.
  apply NoDup_cons_iff in N. destruct N as [N N']. constructor.
  - apply Forall_forall. intros e I. apply in_map_iff in I. destruct I as ([k' e'] & E & I). cbn in E. subst e'.
    intros (n & a & b & A & B & O).
    assert (K : k <> k' \/ key (m_name f) <> key (m_name f)).
    { left. intros ->. apply N. apply in_map_iff. exists (k', e). auto. }
    destruct (owned_apart qml f f k k' n a b K (H _ _ _ _ (or_introl eq_refl) A) (H _ _ _ _ (or_intror I) B)) as [X | [X | X]].
    + exact (O X).
    + exact (not_own_way _ _ X).
    + exact (not_own_way _ _ X).
  - apply IH; [exact N' |]. intros. eapply H; [right |]; eassumption.
Qed.

Lemma fields_pairs : forall qml fs,
  NoDup (map (fun f => key (m_name f)) fs) -> (forall f g, In f fs -> In g fs -> ~ in_the_way qml f g) ->
  ForallOrdPairs apart (flat_map (own qml) fs).
Proof.
  intros qml. induction fs as [| f fs IH]; intros N W; [constructor |]. cbn [flat_map]. cbn [map] in N. apply NoDup_cons_iff in N.
  destruct N as [N N']. apply pairs_app.
  - apply own_pairs.
  - apply IH; [exact N' |]. intros x y X Y. apply W; now right.
  - intros d e D E. apply in_flat_map in E. destruct E as (g & G & E). intros (n & a & b & A & B & O).
    destruct (own_owned _ _ _ _ _ D A) as (k & K). destruct (own_owned _ _ _ _ _ E B) as (k' & K').
    assert (X : k <> k' \/ key (m_name f) <> key (m_name g)).
    { right. intro X. apply N. apply in_map_iff. exists g. auto. }
    destruct (owned_apart qml f g k k' n a b X K K') as [Y | [Y | Y]]; [exact (O Y) | |].
    + exact (W f g (or_introl eq_refl) (or_intror G) Y).
    + exact (W g f (or_intror G) (or_introl eq_refl) Y).
Qed.

(** * Members that each class has *)

Definition fixed_members : list declaration := (macros ++ [DFunction register_types])%list.

Lemma fixed_pairs : ForallOrdPairs apart fixed_members.
Proof. apply names_pairs. cbn. repeat (constructor; [cbn; intuition discriminate |]). constructor. Qed.

Lemma fixed_names : forall d n a, In d fixed_members -> declared d = Some (n, a) ->
  In n taken \/ cut n <> None \/ (exists p ps c s, a = Some (p :: ps, c, s) /\ In n ["tr"; "trUtf8"; "serialize"; "deserialize"]) \/ n = "QPrivateSignal".
Proof.
  intros d n a I D. cbn in I. repeat (destruct I as [I | I]; [subst d; injection D as <- <-; cbn; auto 8 |]); try destruct I.
  all: try (right; left; discriminate).
  all: right; right; left; do 4 eexists; split; [reflexivity | cbn; auto].
Qed.

Lemma last_append : forall a c s, last_char (a ++ String c s) = last_char (String c s).
Proof. exact last_char_cons. Qed.

Lemma lower_first : forall f, letter_first f -> exists c s, pname f = String c s /\ In c small_letters.
Proof.
  intros f (c & s & K & I). pose proof (lower_pname f) as L.
  assert (P : key (pname f) = key (m_name f) \/ key (pname f) = key (m_name f) ++ "proto").
  { unfold pname, cpp_name. change (lowerCaseName (camelcase_name (m_name f))) with (plain_name (as_field f)).
    pose proof (plain_key (as_field f)) as E. cbn [as_field f_name] in E.
    unfold qualifiedName. destruct (existsb _ _) eqn:X; [right | left; exact E].
    rewrite <- E. apply existsb_exists in X. destruct X as (x & J & X). apply String.eqb_eq in X. rewrite X.
    destruct J as [<- | [<- | [<- | []]]]; reflexivity. }
  rewrite K in P.
  destruct (pname f) as [| x t] eqn:E.
  - destruct P as [P | P]; discriminate P.
  - exists x, t. split; [reflexivity |].
    assert (F : x <> "_"%char).
    { intro F. subst x. destruct (pname_cases f) as [G | G]; rewrite E in G.
      - apply free_cons in G. destruct G as [G _]. now apply G.
      - destruct G as [G | [G | [G | []]]]; discriminate G. }
    cbn [key] in P. destruct (Ascii.eqb_spec x "_") as [X | X]; [contradiction |].
    assert (T : to_small x = c) by (destruct P as [P | P]; injection P; auto).
    rewrite to_small_eq in T. cbn [lowerCaseName] in L. injection L as L. rewrite L in T. subst x. exact I.
Qed.

Lemma capital_not_small : forall c, In c capital_letters -> In c small_letters -> False.
Proof.
  intros c A B. cbn in A. repeat (destruct A as [A | A]; [subst c; cbn in B; repeat (destruct B as [B | B]; [discriminate B |]); destruct B |]). destruct A.
Qed.

Definition starts (s : string) (l : list ascii) : Prop := exists c t, s = String c t /\ In c l.

(** All names of members of fields begin with small letters. *)
Lemma owned_small : forall qml f k n a, letter_first f -> owned qml f k n a -> starts n small_letters.
Proof.
  intros qml f k n a L O. destruct (lower_first f L) as (c & t & P & I).
  destruct O; unfold signal_name, setter_name, variable_name, starts; rewrite ?P; cbn [append].
  all: eexists _, _; split; [reflexivity |]; try exact I; cbn; auto 30.
Qed.

Lemma fixed_own : forall qml f d e, letter_first f -> (forall n, In n taken -> ~ known_as f n) ->
  In d fixed_members -> In e (own qml f) -> apart d e.
Proof.
  intros qml f d e L T D E (n & a & b & A & B & O). destruct (own_owned _ _ _ _ _ E B) as (k & K).
  destruct (fixed_names d n a D A) as [I | [I | [(p & ps & c & s & I & J) | I]]].
  - destruct K.
    + exact (T _ I (known_pname f)).
    + exact (T _ I (known_pname f)).
    + destruct I as [I | [I | [I | [I | [I | []]]]]]; apply (f_equal cut) in I; rewrite cut_l in I; discriminate I.
    + destruct I as [I | [I | [I | [I | [I | []]]]]]; discriminate I.
    + destruct I as [I | [I | [I | [I | [I | []]]]]]; apply (f_equal cut) in I; rewrite cut_p in I; discriminate I.
    + destruct I as [I | [I | [I | [I | [I | []]]]]]; apply (f_equal cut) in I; rewrite cut_p in I; discriminate I.
    + destruct I as [I | [I | [I | [I | [I | []]]]]]; apply (f_equal last_char) in I; unfold signal_name in I; rewrite last_append in I; discriminate I.
    + destruct I as [I | [I | [I | [I | [I | []]]]]]; discriminate I.
  - assert (Q : In n ["qt_metacast"; "qt_metacall"; "qt_static_metacall"]).
    { cbn in D. repeat (destruct D as [D | D]; [subst d; injection A as <- <-; try (exfalso; apply I; reflexivity); cbn; auto |]). destruct D. }
    destruct K.
    + destruct (cut_pname f) as [C | (x & X & C)]; destruct Q as [Q | [Q | [Q | []]]]; rewrite <- Q in C; discriminate C.
    + destruct (cut_pname f) as [C | (x & X & C)]; destruct Q as [Q | [Q | [Q | []]]]; rewrite <- Q in C; discriminate C.
    + pose proof (cut_l (pname f)) as C. destruct Q as [Q | [Q | [Q | []]]]; rewrite <- Q in C; discriminate C.
    + destruct Q as [Q | [Q | [Q | []]]]; discriminate Q.
    + pose proof (cut_p (pname f)) as C. destruct Q as [Q | [Q | [Q | []]]]; rewrite <- Q in C; discriminate C.
    + destruct Q as [Q | [Q | [Q | []]]]; discriminate Q.
    + destruct (cut_signal f) as [C | (x & X & C)]; destruct Q as [Q | [Q | [Q | []]]]; rewrite <- Q in C; discriminate C.
    + destruct Q as [Q | [Q | [Q | []]]]; discriminate Q.
  - subst a. destruct K; try (apply O; cbn; left; discriminate).
    + destruct J as [J | [J | [J | [J | []]]]]; discriminate J.
    + destruct J as [J | [J | [J | [J | []]]]]; discriminate J.
    + destruct J as [J | [J | [J | [J | []]]]]; discriminate J.
  - subst n. destruct (owned_small _ _ _ _ _ L K) as (c & t & E' & I). injection E' as <- _. cbn in I.
    repeat (destruct I as [I | I]; [discriminate I |]). destruct I.
Qed.

(** * Types and enumerators *)

Definition type_members (field_numbers : bool) (m : message) : list declaration :=
  (enum_declarations field_numbers m ++ nested_aliases m ++ map_aliases m)%list.

Lemma upper_capital : forall x, starts x capital_letters -> upperCaseName x = x.
Proof.
  intros x (c & t & -> & I). cbn. f_equal. cbn in I.
  repeat (destruct I as [<- | I]; [reflexivity |]). destruct I.
Qed.

Lemma upper_starts : forall x, starts x small_letters -> starts (upperCaseName x) capital_letters.
Proof.
  intros x (c & t & -> & I). cbn. exists (toupper c), t. split; [reflexivity |]. cbn in I.
  repeat (destruct I as [<- | I]; [vm_compute; auto 30 |]). destruct I.
Qed.

Lemma starts_append : forall x y l, starts x l -> starts (x ++ y) l.
Proof. intros x y l (c & t & -> & I). exists c, (t ++ y). auto. Qed.

(** The names that type members declare, in another order: those of protoc, those of lists, those of field numbers. *)
Definition inner_names (m : message) : list string :=
  (map e_name (g_enums m) ++ flat_map (fun e => map fst (e_values e)) (g_enums m)
   ++ map g_name (filter (goes_into (g_fields m)) (g_nested m))
   ++ flat_map (fun f => match m_shape f with Assoc _ _ => [entry_called f] | _ => [] end) (g_fields m))%list.
Definition listed_names (m : message) : list string :=
  (map e_name (g_enums m) ++ map g_name (filter (goes_into (g_fields m)) (g_nested m)))%list.
Definition number_names (field_numbers : bool) (m : message) : list string :=
  if field_numbers then "QtProtobufFieldEnum" :: map (fun f => upperCaseName (pname f) ++ "ProtoFieldNumber") (g_fields m) else [].

Lemma goes_into_spec : forall m n, In n (filter (goes_into (g_fields m)) (g_nested m)) <-> aliased m n.
Proof.
  intros m n. rewrite filter_In. unfold aliased. apply and_iff_compat_l. unfold goes_into.
  destruct (g_fields m) as [| f fs] eqn:F; [split; auto |]. rewrite existsb_exists. split.
  - intros (g & G & T). right. exists g. split; [exact G |]. unfold has_type in T.
    destruct (m_shape g) as [[| x | |] | [| x | |] | k v]; try discriminate T; apply Nat.eqb_eq in T; subst x; auto.
  - intros [X | (g & G & T)]; [discriminate X |]. exists g. split; [exact G |]. unfold has_type.
    destruct T as [-> | ->]; apply Nat.eqb_refl.
Qed.

Lemma with_list_spec : forall m x, with_list m x <-> In x (listed_names m).
Proof.
  intros m x. unfold with_list, listed_names. rewrite in_app_iff, !in_map_iff. split.
  - intros [(e & I & ->) | (n & A & ->)]; [left; exists e; auto | right; exists n; split; [reflexivity | now apply goes_into_spec]].
  - intros [(e & <- & I) | (n & <- & I)]; [left; exists e; auto | right; exists n; split; [now apply goes_into_spec | reflexivity]].
Qed.

Lemma declared_inside_spec : forall m x, declared_inside m x <-> In x (inner_names m).
Proof.
  intros m x. unfold declared_inside, inner_names. rewrite !in_app_iff, !in_map_iff, !in_flat_map. split.
  - intros [(e & I & [-> | V]) | [(n & A & ->) | (f & k & v & I & S & ->)]].
    + left. exists e. auto.
    + right. left. exists e. auto.
    + right. right. left. exists n. split; [reflexivity | now apply goes_into_spec].
    + right. right. right. exists f. split; [exact I |]. rewrite S. now left.
  - intros [(e & <- & I) | [(e & I & V) | [(n & <- & I) | (f & I & V)]]].
    + left. exists e. auto.
    + left. exists e. auto.
    + right. left. exists n. split; [now apply goes_into_spec | reflexivity].
    + right. right. destruct (m_shape f) as [u | u | k v] eqn:S; [destruct V | destruct V |]. exists f, k, v. split; [exact I |].
      split; [exact S |]. destruct V as [V | []]. symmetry. exact V.
Qed.

Lemma inner_inside : forall m x, In x (inner_names m) -> In x (names_inside m).
Proof.
  intros m x H. unfold inner_names, names_inside in *. rewrite !in_app_iff in *.
  destruct H as [H | [H | [H | H]]]; auto.
  right. right. left. apply in_map_iff in H. destruct H as (n & <- & I). apply filter_In in I. apply in_map. exact (proj1 I).
Qed.

Lemma nodup_filter : forall (A B : Type) (h : A -> B) p (c : list A) l r,
  NoDup (l ++ map h c ++ r) -> NoDup (l ++ map h (filter p c) ++ r).
Proof.
  intros A B h p. induction c as [| x c IH]; intros l r N; [exact N |]. cbn [filter]. destruct (p x).
  - cbn [map app] in *. specialize (IH (l ++ [h x])%list r). rewrite <- !app_assoc in IH. apply IH. exact N.
  - apply IH. cbn [map app] in N. exact (NoDup_remove_1 _ _ _ N).
Qed.

Lemma nodup_inner : forall m, NoDup (names_inside m) -> NoDup (inner_names m).
Proof. intros m N. unfold inner_names, names_inside in *. rewrite app_assoc in *. apply nodup_filter. exact N. Qed.

Lemma flat_split : forall (A B : Type) (h : A -> B) (k : A -> list B) l,
  Permutation (flat_map (fun x => h x :: k x) l) (map h l ++ flat_map k l).
Proof.
  intros A B h k. induction l as [| x l IH]; [constructor |]. cbn [flat_map map app]. constructor.
  rewrite IH. rewrite !app_assoc. apply Permutation_app_tail. apply Permutation_app_comm.
Qed.

Lemma flat_filter : forall (A B : Type) (p : A -> bool) (k : A -> list B) l,
  flat_map (fun x => if p x then k x else []) l = flat_map k (filter p l).
Proof. intros A B p k. induction l as [| x l IH]; [reflexivity |]. cbn [flat_map filter]. destruct (p x); cbn [flat_map app]; now rewrite IH. Qed.

Lemma flat_one : forall (A B : Type) (h : A -> B) l, flat_map (fun x => [h x]) l = map h l.
Proof. intros A B h. induction l as [| x l IH]; [reflexivity |]. cbn. now rewrite IH. Qed.

Lemma names_declared_app : forall a b, names_declared (a ++ b) = (names_declared a ++ names_declared b)%list.
Proof. intros. unfold names_declared. apply flat_map_app. Qed.

Lemma names_flat : forall (A : Type) (k : A -> list declaration) l, names_declared (flat_map k l) = flat_map (fun x => names_declared (k x)) l.
Proof. intros A k. induction l as [| x l IH]; [reflexivity |]. cbn [flat_map]. now rewrite names_declared_app, IH. Qed.

Lemma names_enumerators : forall l, names_declared (enumerator_declarations l) = map fst l.
Proof. induction l as [| x l IH]; [reflexivity |]. unfold names_declared, enumerator_declarations in *. cbn. now rewrite IH. Qed.

Lemma flat_map_same : forall (A B : Type) (h k : A -> list B) l, (forall x, In x l -> h x = k x) -> flat_map h l = flat_map k l.
Proof.
  intros A B h k. induction l as [| x l IH]; intro H; [reflexivity |]. cbn. rewrite (H x) by now left. rewrite IH; [reflexivity |].
  intros y I. apply H. now right.
Qed.

Definition capital_names (m : message) : Prop := Forall (fun x => starts x capital_letters) (names_inside m).

Lemma map_flat : forall (A B C : Type) (h : B -> C) (k : A -> list B) l, map h (flat_map k l) = flat_map (fun x => map h (k x)) l.
Proof. intros A B C h k. induction l as [| x l IH]; [reflexivity |]. cbn [flat_map]. now rewrite map_app, IH. Qed.

Lemma join_nothing : forall x l, join "" (x :: l) = x ++ join "" l.
Proof. intros x [| y l]; [| reflexivity]. cbn. induction x as [| c x IH]; [reflexivity |]. cbn. now rewrite <- IH. Qed.
Lemma camel_words : forall s up, camel up s = match words s with w :: ws => (if up then first_capital w else w) ++ join "" (map first_capital ws) | [] => "" end.
Proof.
  induction s as [| c s IH]; intro up; [now destruct up |]. cbn [camel words]. change underscore with "_"%char. destruct (Ascii.eqb c "_").
  - rewrite IH. destruct (words s) as [| w ws]; [now destruct up |]. cbn [map]. rewrite join_nothing. now destruct up.
  - rewrite IH. destruct (words s) as [| w ws]; destruct up; cbn [first_capital append]; now rewrite ?to_capital_eq.
Qed.
Lemma entry_called_is : forall f, entry_called f = entry_name f.
Proof.
  intro f. unfold entry_called, entry_name. rewrite camel_words. destruct (words (m_name f)) as [| w ws]; [reflexivity |]. cbn [map]. now rewrite join_nothing.
Qed.

Lemma type_names_are : forall field_numbers m,
  names_declared (type_members field_numbers m) =
  (number_names field_numbers m ++ flat_map (fun e => upperCaseName (e_name e) :: map upperCaseName (map fst (e_values e))) (g_enums m)
   ++ map (fun e => list_name (upperCaseName (e_name e))) (g_enums m)
   ++ flat_map (fun n => upperCaseName (g_name n) :: [list_name (upperCaseName (g_name n))]) (filter (goes_into (g_fields m)) (g_nested m))
   ++ flat_map (fun f => map upperCaseName (match m_shape f with Assoc _ _ => [entry_called f] | _ => [] end)) (g_fields m))%list.
Proof.
  intros fn m. unfold type_members, enum_declarations. rewrite !names_declared_app. rewrite <- !app_assoc. f_equal; [| f_equal; [| f_equal; [| f_equal]]].
  - destruct fn; [| reflexivity]. unfold number_names, names_declared. cbn [flat_map declared app]. f_equal.
    change (flat_map _ (enumerator_declarations (field_enum (g_fields m)))) with (names_declared (enumerator_declarations (field_enum (g_fields m)))).
    rewrite names_enumerators. unfold field_enum. rewrite map_map. reflexivity.
  - rewrite names_flat. apply flat_map_same. intros e I. unfold names_declared. cbn [flat_map declared app].
    change (flat_map _ (enumerator_declarations (enumerators e))) with (names_declared (enumerator_declarations (enumerators e))).
    rewrite names_enumerators. unfold enum_class, enumerators. rewrite !map_map. reflexivity.
  - unfold names_declared. rewrite flat_map_concat_map, map_map. cbn [declared]. rewrite <- flat_map_concat_map, flat_one. reflexivity.
  - unfold nested_aliases. rewrite flat_filter, names_flat. apply flat_map_same. intros n I. reflexivity.
  - unfold map_aliases. rewrite names_flat. apply flat_map_same. intros f I. rewrite <- entry_called_is. destruct (m_shape f) as [e | e | k v]; reflexivity.
Qed.

Lemma type_names_general : forall field_numbers m,
  Permutation (names_declared (type_members field_numbers m))
    (number_names field_numbers m ++ map upperCaseName (inner_names m) ++ map list_name (map upperCaseName (listed_names m))).
Proof.
  intros fn m. rewrite type_names_are. apply Permutation_app_head. unfold inner_names, listed_names.
  rewrite (flat_split _ _ (fun e => upperCaseName (e_name e)) (fun e => map upperCaseName (map fst (e_values e))) (g_enums m)).
  rewrite (flat_split _ _ (fun n => upperCaseName (g_name n)) (fun n => [list_name (upperCaseName (g_name n))])). rewrite flat_one.
  rewrite !map_app, !map_flat, !map_map. rewrite <- !app_assoc. apply Permutation_app_head, Permutation_app_head.
  set (F := filter (goes_into (g_fields m)) (g_nested m)). set (M := flat_map _ (g_fields m)).
  set (G := map _ F). set (LG := map (fun n => list_name (upperCaseName (g_name n))) F). set (LA := map _ (g_enums m)).
  transitivity (G ++ LA ++ LG ++ M)%list.
  - apply Permutation_app_swap_app.
  - apply Permutation_app_head. rewrite app_assoc. apply Permutation_app_comm.
Qed.

Lemma inner_capital : forall m x, capital_names m -> In x (inner_names m) -> upperCaseName x = x.
Proof.
  intros m x C I. unfold capital_names in C. rewrite Forall_forall in C. apply upper_capital, C. now apply inner_inside.
Qed.

Lemma listed_inner : forall m x, In x (listed_names m) -> In x (inner_names m).
Proof. intros m x I. unfold listed_names in I. unfold inner_names. rewrite !in_app_iff in *. tauto. Qed.

Lemma type_names_permuted : forall field_numbers m, capital_names m ->
  Permutation (names_declared (type_members field_numbers m))
    (number_names field_numbers m ++ inner_names m ++ map list_name (listed_names m)).
Proof.
  intros fn m C. rewrite type_names_general.
  rewrite (map_ext_in upperCaseName (fun x => x) (inner_names m)) by (intros x I; exact (inner_capital m x C I)).
  rewrite (map_ext_in upperCaseName (fun x => x) (listed_names m)) by (intros x I; exact (inner_capital m x C (listed_inner m x I))).
  now rewrite !map_id.
Qed.

Lemma nodup_append : forall (A : Type) (l l' : list A), NoDup l -> NoDup l' -> (forall x, In x l -> ~ In x l') -> NoDup (l ++ l').
Proof.
  intros A. induction l as [| x l IH]; intros l' N N' D; [exact N' |]. cbn. apply NoDup_cons_iff in N. destruct N as [X N]. constructor.
  - rewrite in_app_iff. intros [H | H]; [exact (X H) | exact (D x (or_introl eq_refl) H)].
  - apply IH; auto. intros y I. apply D. now right.
Qed.

Lemma nodup_map : forall (A B : Type) (h : A -> B) l, NoDup l -> (forall x y, In x l -> In y l -> h x = h y -> x = y) -> NoDup (map h l).
Proof.
  intros A B h. induction l as [| x l IH]; intros N I; [constructor |]. apply NoDup_cons_iff in N. destruct N as [X N]. cbn. constructor.
  - rewrite in_map_iff. intros (y & E & Y). apply X. rewrite (I x y); auto; [now left | now right].
  - apply IH; [exact N |]. intros a b P Q. apply I; now right.
Qed.

Lemma nodup_prefix : forall (A : Type) (l l' : list A), NoDup (l ++ l') -> NoDup l.
Proof. intros A l l' N. induction l' as [| x l' IH]; [now rewrite app_nil_r in N |]. apply IH. exact (NoDup_remove_1 _ _ _ N). Qed.

Lemma nodup_listed : forall m, NoDup (inner_names m) -> NoDup (listed_names m).
Proof.
  intros m N. unfold inner_names, listed_names in *.
  apply (nodup_prefix _ _ (flat_map (fun e => map fst (e_values e)) (g_enums m) ++ flat_map (fun f => match m_shape f with Assoc _ _ => [entry_called f] | _ => [] end) (g_fields m))%list).
  refine (Permutation_NoDup _ N). rewrite <- !app_assoc. apply Permutation_app_head. rewrite !app_assoc.
  apply Permutation_app_tail, Permutation_app_comm.
Qed.

Lemma type_names_distinct : forall field_numbers m,
  fields_distinct m -> Forall letter_first (g_fields m) -> capitals m -> names_free field_numbers m -> NoDup (names_declared (type_members field_numbers m)).
Proof.
  intros fn m FD LF [D C] (L & O & Nb).
  refine (Permutation_NoDup (Permutation_sym (type_names_permuted fn m C)) _).
  assert (NI := nodup_inner m D).
  apply nodup_append.
  - unfold number_names. destruct fn; [| constructor]. constructor.
    + rewrite in_map_iff. intros (f & E & _). apply (f_equal last_char) in E. rewrite last_append in E. discriminate E.
    + unfold fields_distinct in FD. clear - FD. induction (g_fields m) as [| f fs IH]; [constructor |]. cbn [map] in *.
      apply NoDup_cons_iff in FD. destruct FD as [X N]. constructor; [| auto].
      rewrite in_map_iff. intros (g & E & I). apply app_inv_tail_s in E. apply upper_pname, pname_key in E. apply X.
      apply in_map_iff. exists g. auto.
  - apply nodup_append; [exact NI | |].
    + apply nodup_map; [now apply nodup_listed |]. intros x y _ _ E. unfold list_name in E. exact (app_inv_tail_s _ _ _ E).
    + intros x I J. apply in_map_iff in J. destruct J as (y & <- & J). apply with_list_spec in J. apply (L y J). now apply declared_inside_spec.
  - intros x I J. unfold number_names in I. destruct fn; [| destruct I]. destruct (Nb eq_refl) as [Q P].
    apply in_app_or in J. destruct J as [J | J].
    + destruct I as [<- | I]; [apply Q; now apply declared_inside_spec |]. apply in_map_iff in I. destruct I as (f & <- & I).
      apply (P f (pname f) I (known_pname f)). rewrite first_capital_eq. now apply declared_inside_spec.
    + apply in_map_iff in J. destruct J as (y & E & _). unfold list_name, repeated_suffix in E.
      destruct I as [<- | I].
      * apply (f_equal last_char) in E. rewrite last_append in E. discriminate E.
      * apply in_map_iff in I. destruct I as (f & <- & _). apply (f_equal last_char) in E. rewrite !last_append in E. discriminate E.
Qed.

Lemma type_names_capital : forall field_numbers m x, Forall letter_first (g_fields m) -> capital_names m ->
  In x (names_declared (type_members field_numbers m)) -> starts x capital_letters.
Proof.
  intros fn m x LF C I. pose proof C as C'. unfold capital_names in C'. rewrite Forall_forall in C', LF.
  apply (Permutation_in _ (type_names_permuted fn m C)) in I. rewrite !in_app_iff in I. destruct I as [I | [I | I]].
  - unfold number_names in I. destruct fn; [| destruct I]. destruct I as [<- | I].
    + eexists _, _. split; [reflexivity |]. cbn. auto 30.
    + apply in_map_iff in I. destruct I as (f & <- & I). apply starts_append, upper_starts. destruct (lower_first f (LF f I)) as (c & t & E & J).
      exists c, t. auto.
  - apply C'. now apply inner_inside.
  - apply in_map_iff in I. destruct I as (y & <- & I). unfold list_name. apply starts_append, C'.
    unfold listed_names in I. apply inner_inside. unfold inner_names. rewrite !in_app_iff in *. tauto.
Qed.

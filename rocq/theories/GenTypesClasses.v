(** Proofs about constructors and includes. *)

From Coq Require Import String Ascii ZArith List Bool Arith Lia.
From Verif Require Import GenModel GenSpec GenStrings GenTypesModel GenTypesSpec.
Import ListNotations.
Open Scope string_scope.

(** * Constructors *)

Lemma members_spec : forall count fs i k f, nth_error fs k = Some f ->
  exists x, nth_error (members_from i fs (initializers count i fs)) k = Some x
    /\ (i + k < count -> argument_member (m_shape f) (i + k) x)%nat
    /\ (count <= i + k -> default_member (m_shape f) x)%nat.
Proof.
  intros count fs. induction fs as [| g fs IH]; intros i k f N; [destruct k; discriminate |].
  destruct k as [| k]; cbn [nth_error] in N.
  - injection N as ->. cbn [initializers members_from nth_error]. eexists. split; [reflexivity |]. rewrite Nat.add_0_r.
    destruct (Nat.ltb i count) eqn:L; [apply Nat.ltb_lt in L | apply Nat.ltb_ge in L]; split; intro H; try lia;
      destruct (m_shape f) as [[[] | | |] | |]; cbn; auto.
  - cbn [initializers members_from nth_error]. destruct (IH (S i) k f N) as (x & E & A & D). exists x. split; [exact E |].
    rewrite <- Nat.add_succ_comm. auto.
Qed.

Lemma members_length : forall count fs i, List.length (members_from i fs (initializers count i fs)) = List.length fs.
Proof. intros count fs. induction fs as [| f fs IH]; intro i; cbn; [reflexivity | rewrite IH; reflexivity]. Qed.

Lemma no_parent : forall fs, ~ In PParent (map field_parameter fs).
Proof.
  intros fs I. apply in_map_iff in I. destruct I as (f & E & _). unfold field_parameter in E.
  destruct (m_shape f) as [[] | |]; discriminate.
Qed.

Lemma fits_spec : forall fs a b, (a <= List.length fs)%nat -> (b <= List.length fs)%nat ->
  fits (map field_parameter (firstn a fs)) (map field_parameter (firstn b fs) ++ [PParent])%list -> a = b.
Proof.
  intros fs a b A B [E | E].
  - exfalso. apply (no_parent (firstn a fs)). rewrite <- E. apply in_or_app. right. left. reflexivity.
  - apply app_inv_tail in E. apply (f_equal (@List.length parameter)) in E. rewrite !map_length, !firstn_length in E. lia.
Qed.

Lemma seq_split : forall n k, (k <= n)%nat -> seq 0 (S n) = (seq 0 k ++ k :: seq (S k) (n - k))%list.
Proof.
  intros n k L. replace (S n) with (k + S (n - k))%nat by lia. rewrite seq_app. reflexivity.
Qed.

Lemma overloads : forall m count, (count <= List.length (g_fields m))%nat ->
  map field_parameter (firstn count (g_fields m)) <> [PClass (g_id m)] ->
  exactly_one (fits (map field_parameter (firstn count (g_fields m)))) (declared_constructors m).
Proof.
  intros m count L N. unfold declared_constructors. rewrite (seq_split _ _ L), map_app. cbn [map].
  eexists _, _, (_ ++ [[PClass (g_id m)]])%list. split; [rewrite <- app_assoc; cbn [app]; reflexivity |].
  split; [right; reflexivity |]. rewrite !Forall_app, !Forall_forall. split; [| split].
  - intros x I F. apply in_map_iff in I. destruct I as (b & <- & I). apply in_seq in I.
    apply fits_spec in F; lia.
  - intros x I F. apply in_map_iff in I. destruct I as (b & <- & I). apply in_seq in I.
    apply fits_spec in F; lia.
  - intros x [<- | []] [F | F]; [congruence |].
    apply (f_equal (@rev parameter)) in F. rewrite rev_unit in F. discriminate.
Qed.

(** * Includes *)

Section Includes.
  Variable own : nat.
  Variable P Q : string -> Prop.
  Hypothesis apart : forall n, P n -> Q n -> False.
  Hypothesis P_empty : ~ P "".
  Hypothesis Q_empty : ~ Q "".
  Variable inside : Prop.

  (** What was printed, [l], when the names [seen] were remembered. *)
  Definition printed (l : list include) (seen : list string) : Prop :=
    forall n, In n seen -> (P n /\ In (Internal n) l) \/ (Q n /\ In (External n) l) \/ (n = "" /\ (inside \/ In GlobalEnums l)).

  Definition known (i : included) : Prop :=
    (forall n, In n (fst (names_in i)) -> P n) /\ (forall n, In n (snd (names_in i)) -> Q n).

  Lemma printed_more : forall l l' seen, printed l seen -> printed (l ++ l') seen.
  Proof.
    intros l l' seen H n I. destruct (H n I) as [[A B] | [[A B] | [A [B | B]]]];
      [left | right; left | right; right; auto | right; right]; split; auto; try right; apply in_or_app; left; exact B.
  Qed.

  (** What is printed for a name. *)
  Lemma print_new_spec : forall n x l seen p seen',
    print_new n [x] seen = (p, seen') -> printed l seen ->
    (P n -> x = Internal n -> printed (l ++ p) seen' /\ In x (l ++ p))
    /\ (Q n -> x = External n -> printed (l ++ p) seen' /\ In x (l ++ p))
    /\ (n = "" -> x = GlobalEnums -> printed (l ++ p) seen' /\ (inside \/ In x (l ++ p))).
  Proof.
    intros n x l seen p seen' E H. unfold print_new in E. destruct (existsb (String.eqb n) seen) eqn:B; injection E as <- <-.
    - apply existsb_exists in B. destruct B as (n' & I & E). apply String.eqb_eq in E. subst n'. rewrite app_nil_r.
      destruct (H n I) as [[A B] | [[A B] | [A B]]].
      + split; [intros _ ->; auto |]. split; [intros C _; destruct (apart n A C) | intros ->; contradiction].
      + split; [intros C; destruct (apart n C A) |]. split; [intros _ ->; auto | intros ->; contradiction].
      + subst n. split; [contradiction |]. split; [contradiction |]. intros _ ->. auto.
    - assert (W : forall n', In n' seen -> _) by exact (printed_more l [x] seen H).
      assert (X : In x (l ++ [x])) by (apply in_or_app; right; left; reflexivity).
      split; [| split]; intros Pn ->; (split; [intros n' [<- | I]; [| exact (W n' I)] |]); auto.
  Qed.

  Lemma print_empty : forall l seen p seen', inside ->
    print_new "" [] seen = (p, seen') -> printed l seen -> p = [] /\ printed l seen'.
  Proof.
    intros l seen p seen' T E H. unfold print_new in E. destruct (existsb _ _); injection E as <- <-; split; auto.
    intros n [<- | I]; [right; right; auto | exact (H n I)].
  Qed.

  Lemma print_include_spec : forall i l seen p seen',
    known i -> right_answers own i -> same_directory i -> (type_inside own i -> inside) ->
    print_include own i seen = (p, seen') -> printed l seen ->
    printed (l ++ p) seen'
    /\ forall x, needs own i x -> In x (l ++ p) \/ (inside /\ x = GlobalEnums).
  Proof.
    induction i as [containing highest nested pure path | name | v dir owner | name | | key IHk value IHv];
      intros l seen p seen' [Kp Kq] R S T E H; cbn [names_in fst snd app] in Kp, Kq; cbn [print_include] in E.
    - assert (Pp : P path) by (apply Kp; left; reflexivity).
      assert (Normal : print_new path [Internal path] seen = (p, seen') ->
        printed (l ++ p) seen' /\ forall x, needs own (InMessage containing highest nested pure path) x -> In x (l ++ p) \/ (inside /\ x = GlobalEnums)).
      { intro E'. destruct (proj1 (print_new_spec _ _ _ _ _ _ E' H) Pp eq_refl) as [A B]. split; [exact A |].
        intros x [_ ->]. left. exact B. }
      cbn [right_answers] in R. cbn [type_inside] in T.
      destruct nested; cbn [negb] in E; [| exact (Normal E)].
      assert (Inner : highest = own -> print_new "" [] seen = (p, seen') ->
        printed (l ++ p) seen' /\ forall x, needs own (InMessage containing highest true pure path) x -> In x (l ++ p) \/ (inside /\ x = GlobalEnums)).
      { intros Hh E'. destruct (print_empty l seen p seen' (T (conj eq_refl Hh)) E' H) as [-> A]. rewrite app_nil_r. split; [exact A |].
        intros x [C _]. contradiction. }
      destruct containing as [c |].
      + destruct (Nat.eqb c own) eqn:C.
        * apply Nat.eqb_eq in C. subst c. exact (Inner (R eq_refl) E).
        * destruct (Nat.eqb highest own) eqn:C'; [apply Nat.eqb_eq in C'; exact (Inner C' E) | exact (Normal E)].
      + destruct (Nat.eqb highest own) eqn:C'; [apply Nat.eqb_eq in C'; exact (Inner C' E) | exact (Normal E)].
    - assert (Qn : Q name) by (apply Kq; left; reflexivity).
      destruct (proj1 (proj2 (print_new_spec _ _ _ _ _ _ E H)) Qn eq_refl) as [A B]. split; [exact A |]. intros x ->. auto.
    - destruct v.
      + destruct (proj2 (proj2 (print_new_spec _ _ _ _ _ _ E H)) eq_refl eq_refl) as [A [B | B]]; split; try exact A; intros x ->; auto.
      + injection E as <- <-. rewrite app_nil_r. split; [exact H | intros x []].
      + cbn [same_directory] in S. subst dir. cbn [fst names_in] in Kp. rewrite <- in_small_eq in E.
        assert (Pn : P (in_small owner)) by (apply Kp; left; reflexivity).
        destruct (proj1 (print_new_spec _ _ _ _ _ _ E H) Pn eq_refl) as [A B]. split; [exact A |]. intros x ->. auto.
    - assert (Qn : Q name) by (apply Kq; left; reflexivity).
      destruct (proj1 (proj2 (print_new_spec _ _ _ _ _ _ E H)) Qn eq_refl) as [A B]. split; [exact A |]. intros x ->. auto.
    - injection E as <- <-. rewrite app_nil_r. split; [exact H | intros x []].
    - destruct (print_include own key seen) as [a s1] eqn:E1. destruct (print_include own value s1) as [b s2] eqn:E2.
      destruct (print_new "QMap" [External "QMap"] s2) as [c s3] eqn:E3. injection E as <- <-.
      destruct R as [R1 R2], S as [S1 S2]. cbn [type_inside] in T.
      assert (K1 : known key).
      { split; intros n I; [apply Kp | apply Kq; right]; apply in_or_app; left; exact I. }
      assert (K2 : known value).
      { split; intros n I; [apply Kp | apply Kq; right]; apply in_or_app; right; exact I. }
      destruct (IHk l seen a s1 K1 R1 S1 (fun t => T (or_introl t)) E1 H) as [H1 N1].
      destruct (IHv _ _ _ _ K2 R2 S2 (fun t => T (or_intror t)) E2 H1) as [H2 N2].
      assert (Qm : Q "QMap") by (apply Kq; left; reflexivity).
      destruct (proj1 (proj2 (print_new_spec _ _ _ _ _ _ E3 H2)) Qm eq_refl) as [H3 N3].
      rewrite !app_assoc. split; [exact H3 |]. intros x [-> | [X | X]].
      + left. exact N3.
      + destruct (N1 x X) as [I | I]; [left | right; exact I]. apply in_or_app; left. apply in_or_app; left. exact I.
      + destruct (N2 x X) as [I | I]; [left | right; exact I]. apply in_or_app; left. exact I.
  Qed.

  Lemma print_includes_spec : forall fields l seen p seen',
    Forall known fields -> Forall (right_answers own) fields -> Forall same_directory fields ->
    Forall (fun i => type_inside own i -> inside) fields ->
    print_includes own fields seen = (p, seen') -> printed l seen ->
    printed (l ++ p) seen'
    /\ forall i x, In i fields -> needs own i x -> In x (l ++ p) \/ (inside /\ x = GlobalEnums).
  Proof.
    induction fields as [| i fields IH]; intros l seen p seen' K R S T E H; cbn [print_includes] in E.
    - injection E as <- <-. rewrite app_nil_r. split; [exact H | intros i x []].
    - destruct (print_include own i seen) as [a s1] eqn:E1. destruct (print_includes own fields s1) as [b s2] eqn:E2.
      injection E as <- <-. inversion K; inversion R; inversion S; inversion T; subst.
      destruct (print_include_spec i l seen a s1) as [G1 N1]; auto.
      destruct (IH (l ++ a)%list s1 b s2) as [G2 N2]; auto.
      rewrite app_assoc. split; [exact G2 |]. intros j x [<- | I] X; [| exact (N2 j x I X)].
      destruct (N1 x X) as [J | J]; [left; apply in_or_app; left; exact J | right; exact J].
  Qed.

  Lemma print_paths_spec : forall paths l seen, (forall n, In n paths -> P n) -> printed l seen ->
    forall n, In n paths -> In (Internal n) (l ++ print_paths paths seen).
  Proof.
    induction paths as [| m paths IH]; intros l seen K H n I; [destruct I |]. cbn [print_paths].
    destruct (print_new m [Internal m] seen) as [p seen'] eqn:E.
    destruct (proj1 (print_new_spec _ _ _ _ _ _ E H) (K m (or_introl eq_refl)) eq_refl) as [A B].
    rewrite app_assoc. destruct I as [<- | I]; [apply in_or_app; left; exact B |].
    apply IH; auto. intros n' I'. apply K. right. exact I'.
  Qed.

End Includes.

(** Nothing else is printed. *)
Lemma print_new_from : forall n l seen p seen' x, print_new n l seen = (p, seen') -> In x p -> In x l.
Proof. intros n l seen p seen' x E I. unfold print_new in E. destruct (existsb _ _); injection E as <- <-; [destruct I | exact I]. Qed.

Lemma print_include_from : forall own i seen p seen' n, print_include own i seen = (p, seen') -> In (Internal n) p -> In n (fst (names_in i)).
Proof.
  intros own. induction i as [containing highest nested pure path | name | v dir owner | name | | key IHk value IHv];
    intros seen p seen' n E I; cbn [print_include] in E; cbn [names_in fst].
  - assert (G : forall l, print_new path l seen = (p, seen') \/ print_new "" l seen = (p, seen') -> l = [Internal path] \/ l = [] -> In n [path]).
    { intros l [E' | E'] [-> | ->]; apply (print_new_from _ _ _ _ _ _ E') in I; cbn in I; try contradiction;
        destruct I as [I | []]; injection I as ->; left; reflexivity. }
    destruct nested; cbn [negb] in E; [| exact (G _ (or_introl E) (or_introl eq_refl))].
    destruct (match containing with Some c => Nat.eqb c own | None => false end); [exact (G _ (or_intror E) (or_intror eq_refl)) |].
    destruct (Nat.eqb highest own); [exact (G _ (or_intror E) (or_intror eq_refl)) | exact (G _ (or_introl E) (or_introl eq_refl))].
  - apply (print_new_from _ _ _ _ _ _ E) in I. destruct I as [I | []]. discriminate.
  - destruct v.
    + apply (print_new_from _ _ _ _ _ _ E) in I. destruct I as [I | []]. discriminate.
    + injection E as <- <-. destruct I.
    + apply (print_new_from _ _ _ _ _ _ E) in I. destruct I as [I | []]. injection I as <-. rewrite <- in_small_eq. left. reflexivity.
  - apply (print_new_from _ _ _ _ _ _ E) in I. destruct I as [I | []]. discriminate.
  - injection E as <- <-. destruct I.
  - destruct (print_include own key seen) as [a s1] eqn:E1. destruct (print_include own value s1) as [b s2] eqn:E2.
    destruct (print_new "QMap" [External "QMap"] s2) as [c s3] eqn:E3. injection E as <- <-.
    apply in_app_iff in I. destruct I as [I | I]; [apply in_or_app; left; exact (IHk _ _ _ _ E1 I) |].
    apply in_app_iff in I. destruct I as [I | I]; [apply in_or_app; right; exact (IHv _ _ _ _ E2 I) |].
    apply (print_new_from _ _ _ _ _ _ E3) in I. destruct I as [I | []]. discriminate.
Qed.

Lemma print_includes_from : forall own fields seen p seen' n, print_includes own fields seen = (p, seen') -> In (Internal n) p ->
  exists i, In i fields /\ In n (fst (names_in i)).
Proof.
  intros own. induction fields as [| i fields IH]; intros seen p seen' n E I; cbn [print_includes] in E; [injection E as <- <-; destruct I |].
  destruct (print_include own i seen) as [a s1] eqn:E1. destruct (print_includes own fields s1) as [b s2] eqn:E2. injection E as <- <-.
  apply in_app_iff in I. destruct I as [I | I].
  - exists i. split; [left; reflexivity | exact (print_include_from _ _ _ _ _ _ E1 I)].
  - destruct (IH _ _ _ _ E2 I) as (j & J & N). exists j. split; [right; exact J | exact N].
Qed.

Lemma print_paths_from : forall paths seen x, In x (print_paths paths seen) -> exists n, In n paths /\ x = Internal n.
Proof.
  induction paths as [| m paths IH]; intros seen x I; cbn [print_paths] in I; [destruct I |].
  destruct (print_new m [Internal m] seen) as [p seen'] eqn:E. apply in_app_iff in I. destruct I as [I | I].
  - apply (print_new_from _ _ _ _ _ _ E) in I. destruct I as [<- | []]. exists m. split; [left; reflexivity | reflexivity].
  - destruct (IH _ _ I) as (n & N & ->). exists n. split; [right; exact N | reflexivity].
Qed.

Lemma pure_paths_in : forall l n, In n (pure_paths l) <-> exists c h nested, In (InMessage c h nested true n) l.
Proof.
  intros l n. unfold pure_paths. rewrite in_flat_map. split.
  - intros (i & I & N). destruct i as [c h nested [] path | | | | |]; try contradiction. destruct N as [<- | []]. eauto.
  - intros (c & h & nested & I). eexists. split; [exact I | left; reflexivity].
Qed.

(** Once the empty name is remembered, nothing more is printed for it. *)
Lemma no_global_include : forall own i seen p seen', print_include own i seen = (p, seen') ->
  In "" seen -> ~ In GlobalEnums p /\ In "" seen'.
Proof.
  assert (G : forall n l seen p seen', print_new n l seen = (p, seen') -> In "" seen -> (n = "" \/ ~ In GlobalEnums l) -> ~ In GlobalEnums p /\ In "" seen').
  { intros n l seen p seen' E I D. unfold print_new in E. destruct (existsb _ _) eqn:B; injection E as <- <-; [auto |].
    destruct D as [-> | D]; [| auto with datatypes]. exfalso. rewrite <- Bool.not_true_iff_false in B. apply B. apply existsb_exists. exists "". auto. }
  intros own. induction i as [containing highest nested pure path | name | v dir owner | name | | key IHk value IHv];
    intros seen p seen' E I; cbn [print_include] in E.
  - destruct nested; cbn [negb] in E; [destruct (match containing with Some c => Nat.eqb c own | None => false end); [| destruct (Nat.eqb highest own)] |];
      apply (G _ _ _ _ _ E I); right; cbn; intuition discriminate.
  - apply (G _ _ _ _ _ E I); right; cbn; intuition discriminate.
  - destruct v; [apply (G _ _ _ _ _ E I); left; reflexivity | injection E as <- <-; auto | apply (G _ _ _ _ _ E I); right; cbn; intuition discriminate].
  - apply (G _ _ _ _ _ E I); right; cbn; intuition discriminate.
  - injection E as <- <-. auto.
  - destruct (print_include own key seen) as [a s1] eqn:E1. destruct (print_include own value s1) as [b s2] eqn:E2.
    destruct (print_new "QMap" [External "QMap"] s2) as [c s3] eqn:E3. injection E as <- <-.
    destruct (IHk _ _ _ E1 I) as [A I1]. destruct (IHv _ _ _ E2 I1) as [B I2].
    destruct (G _ _ _ _ _ E3 I2) as [C I3]; [right; cbn; intuition discriminate |]. split; [| exact I3].
    rewrite !in_app_iff. tauto.
Qed.

Lemma no_global_includes : forall own fields seen p seen', print_includes own fields seen = (p, seen') ->
  In "" seen -> ~ In GlobalEnums p.
Proof.
  intros own. induction fields as [| i fields IH]; intros seen p seen' E I; cbn [print_includes] in E; [injection E as <- <-; auto |].
  destruct (print_include own i seen) as [a s1] eqn:E1. destruct (print_includes own fields s1) as [b s2] eqn:E2. injection E as <- <-.
  destruct (no_global_include _ _ _ _ _ E1 I) as [A I1]. rewrite in_app_iff. intros [J | J]; [contradiction | exact (IH _ _ _ E2 I1 J)].
Qed.

Lemma global_include_from : forall own i seen p seen', print_include own i seen = (p, seen') -> In GlobalEnums p -> needs own i GlobalEnums.
Proof.
  intros own. induction i as [containing highest nested pure path | name | v dir owner | name | | key IHk value IHv];
    intros seen p seen' E I; cbn [print_include] in E.
  - destruct nested; cbn [negb] in E; [destruct (match containing with Some c => Nat.eqb c own | None => false end); [| destruct (Nat.eqb highest own)] |];
      apply (print_new_from _ _ _ _ _ _ E) in I; cbn in I; intuition discriminate.
  - apply (print_new_from _ _ _ _ _ _ E) in I; cbn in I; intuition discriminate.
  - destruct v; [reflexivity | injection E as <- <-; destruct I | apply (print_new_from _ _ _ _ _ _ E) in I; cbn in I; intuition discriminate].
  - apply (print_new_from _ _ _ _ _ _ E) in I; cbn in I; intuition discriminate.
  - injection E as <- <-. destruct I.
  - destruct (print_include own key seen) as [a s1] eqn:E1. destruct (print_include own value s1) as [b s2] eqn:E2.
    destruct (print_new "QMap" [External "QMap"] s2) as [c s3] eqn:E3. injection E as <- <-. cbn [needs].
    rewrite !in_app_iff in I. destruct I as [I | [I | I]]; [right; left; exact (IHk _ _ _ E1 I) | right; right; exact (IHv _ _ _ E2 I) |].
    apply (print_new_from _ _ _ _ _ _ E3) in I; cbn in I; intuition discriminate.
Qed.

Lemma global_includes_from : forall own fields seen p seen', print_includes own fields seen = (p, seen') -> In GlobalEnums p ->
  exists i, In i fields /\ needs own i GlobalEnums.
Proof.
  intros own. induction fields as [| i fields IH]; intros seen p seen' E I; cbn [print_includes] in E; [injection E as <- <-; destruct I |].
  destruct (print_include own i seen) as [a s1] eqn:E1. destruct (print_includes own fields s1) as [b s2] eqn:E2. injection E as <- <-.
  apply in_app_iff in I. destruct I as [I | I].
  - exists i. split; [left; reflexivity | exact (global_include_from _ _ _ _ _ E1 I)].
  - destruct (IH _ _ _ E2 I) as (j & J & N). exists j. split; [right; exact J | exact N].
Qed.

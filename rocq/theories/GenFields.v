(** Proofs about the properties of the generated classes. *)

From Coq Require Import String Ascii ZArith List Bool Arith Lia.
From Verif Require Import GenModel GenSpec GenStrings.
Import ListNotations.
Open Scope string_scope.

(** * Names *)

Lemma tolower_idem : forall c, tolower_char (tolower_char c) = tolower_char c.
Proof. intros [[] [] [] [] [] [] [] []]; reflexivity. Qed.

Lemma tolower_toupper : forall c, tolower_char (toupper c) = tolower_char c.
Proof. intros [[] [] [] [] [] [] [] []]; reflexivity. Qed.

Lemma tolower_underscore : forall c, Ascii.eqb (tolower_char c) underscore = Ascii.eqb c underscore.
Proof. intros [[] [] [] [] [] [] [] []]; reflexivity. Qed.

Lemma toupper_underscore : forall c, Ascii.eqb (toupper c) underscore = Ascii.eqb c underscore.
Proof. intros [[] [] [] [] [] [] [] []]; reflexivity. Qed.

Lemma key_lower : forall s, key (lowerCaseName s) = key s.
Proof.
  intros [| c s]; [reflexivity |]. cbn [lowerCaseName key]. fold underscore. rewrite !to_small_eq, tolower_underscore, tolower_idem. reflexivity.
Qed.

Lemma key_camel : forall s up, key (camel up s) = key s.
Proof.
  induction s as [| c s IH]; intro up; [reflexivity |].
  cbn [camel key]. fold underscore. destruct (Ascii.eqb c underscore) eqn:E; [apply IH |].
  cbn [key]. fold underscore. rewrite !to_small_eq. destruct up.
  - rewrite toupper_underscore, E, tolower_toupper, IH. reflexivity.
  - rewrite E, IH. reflexivity.
Qed.

Lemma camel_free : forall s up, free_of underscore (camel up s).
Proof.
  induction s as [| c s IH]; intro up; [apply free_nil |].
  cbn. destruct (Ascii.eqb_spec c underscore) as [E | E]; [apply IH |].
  apply free_cons; split; [| apply IH].
  destruct up; [| exact E]. intro Q. apply (f_equal (fun x => Ascii.eqb x underscore)) in Q.
  rewrite toupper_underscore in Q. rewrite Ascii.eqb_refl in Q. apply Ascii.eqb_eq in Q. contradiction.
Qed.

Lemma lower_free : forall s, free_of underscore s -> free_of underscore (lowerCaseName s).
Proof.
  intros [| c s] F; [exact F |]. cbn. apply free_cons in F; destruct F as [N F].
  apply free_cons; split; [| exact F].
  intro Q. apply (f_equal (fun x => Ascii.eqb x underscore)) in Q.
  rewrite tolower_underscore in Q. rewrite Ascii.eqb_refl in Q. apply Ascii.eqb_eq in Q. contradiction.
Qed.

Definition plain_name (f : field) : string := lowerCaseName (camelcase_name (f_name f)).

Lemma plain_key : forall f, key (plain_name f) = key (f_name f).
Proof. intro f. unfold plain_name, camelcase_name. now rewrite !key_lower, key_camel. Qed.

Lemma plain_free : forall f, free_of underscore (plain_name f).
Proof. intro f. unfold plain_name, camelcase_name. apply lower_free, lower_free, camel_free. Qed.

(** A name is without underscores or ends with "_proto". *)
Lemma qualified_cases : forall n,
  qualifiedName n = n \/ qualifiedName n = n ++ "_proto".
Proof. intro n. unfold qualifiedName. destruct (existsb _ _); auto. Qed.

Lemma last_char_cons : forall a c s, last_char (a ++ String c s) = last_char (String c s).
Proof.
  induction a as [| x a IH]; intros c s; [reflexivity |].
  cbn [append]. rewrite <- (IH c s). cbn [last_char].
  destruct (a ++ String c s) eqn:E; [destruct a; discriminate | reflexivity].
Qed.

Lemma has_underscore : forall a s, ~ free_of underscore (a ++ String underscore s).
Proof. intros a s H. apply free_app in H. destruct H as [_ H]. apply free_cons in H. destruct H; congruence. Qed.

Lemma qualified_inj : forall x y,
  free_of underscore x -> free_of underscore y -> qualifiedName x = qualifiedName y -> x = y.
Proof.
  intros x y Fx Fy H.
  destruct (qualified_cases x) as [Ex | Ex], (qualified_cases y) as [Ey | Ey]; rewrite Ex, Ey in H.
  - exact H.
  - subst x. exfalso. exact (has_underscore _ _ Fx).
  - subst y. exfalso. exact (has_underscore _ _ Fy).
  - exact (app_inv_tail_s _ _ _ H).
Qed.

Lemma property_name_key : forall f g, property_name f = property_name g -> key (f_name f) = key (f_name g).
Proof.
  intros f g H. rewrite <- (plain_key f), <- (plain_key g). f_equal.
  apply qualified_inj; [apply plain_free | apply plain_free | exact H].
Qed.

Lemma name_p_not_name : forall f g, property_name f ++ "_p" <> property_name g.
Proof.
  intros f g H. change (property_name g) with (qualifiedName (plain_name g)) in H.
  destruct (qualified_cases (plain_name g)) as [E | E]; rewrite E in H.
  - pose proof (plain_free g) as F. rewrite <- H in F. exact (has_underscore _ _ F).
  - apply (f_equal last_char) in H. rewrite !last_char_cons in H. discriminate H.
Qed.

Lemma name_p_not_data : forall a b, a ++ "_p" <> b ++ "Data".
Proof. intros a b H. apply (f_equal last_char) in H. rewrite !last_char_cons in H. discriminate H. Qed.

Lemma join_empty : forall a l, join "" (a :: l) = a ++ join "" l.
Proof. intros a [| b l]; cbn; [now rewrite app_nil_s | reflexivity]. Qed.

Lemma camel_words : forall w ws up, Forall (free_of underscore) (w :: ws) ->
  camel up (join "_" (w :: ws)) = (if up then first_capital w else w) ++ join "" (map first_capital ws).
Proof.
  assert (W : forall w rest up, free_of underscore w ->
            camel up (w ++ rest) = (if up then first_capital w else w) ++ camel (match w with EmptyString => up | _ => false end) rest).
  { intros [| c w] rest up F; [now destruct up |]. apply free_cons in F as [Nc F]. cbn [append camel].
    destruct (Ascii.eqb_spec c underscore); [contradiction |].
    assert (V : forall w, free_of underscore w -> camel false (w ++ rest) = w ++ camel false rest).
    { clear. induction w as [| c w IH]; intro F; [reflexivity |]. apply free_cons in F as [Nc F]. cbn [append camel].
      destruct (Ascii.eqb_spec c underscore); [contradiction |]. now rewrite IH. }
    rewrite (V w F). destruct up; cbn [first_capital append]; [now rewrite to_capital_eq | reflexivity]. }
  intros w ws. revert w. induction ws as [| v ws IH]; intros w up F; inversion F as [| x l Fw Fs]; subst.
  - cbn [join map]. rewrite <- (app_nil_s w) at 1. rewrite (W w "" up Fw). cbn [camel]. reflexivity.
  - rewrite join_cons, (W w _ up Fw). f_equal. change ("_" ++ join "_" (v :: ws)) with (String underscore (join "_" (v :: ws))).
    cbn [camel]. rewrite Ascii.eqb_refl, (IH v true Fs). cbn [map]. now rewrite join_empty.
Qed.

Lemma words_exist : forall s, exists w ws, s = join "_" (w :: ws) /\ Forall (free_of underscore) (w :: ws).
Proof.
  induction s as [| c s (w & ws & E & F)].
  - exists "", []. split; [reflexivity | repeat constructor; apply free_nil].
  - destruct (Ascii.eqb_spec c underscore) as [-> | N].
    + exists "", (w :: ws). rewrite join_cons. split; [now rewrite E | constructor; [apply free_nil | exact F]].
    + exists (String c w), ws. inversion F as [| x l Fw Fs]; subst. split; [| constructor; [apply free_cons; auto | exact Fs]].
      destruct ws; reflexivity.
Qed.

Lemma first_small_twice : forall s, lowerCaseName (lowerCaseName s) = lowerCaseName s.
Proof. intros [| c s]; [reflexivity |]. cbn [lowerCaseName]. now rewrite tolower_idem. Qed.

Lemma camel_case_spec : forall f c, camel_case (f_name f) c <-> c = plain_name f.
Proof.
  intros f c. unfold plain_name, camelcase_name. rewrite first_small_twice. split.
  - intros (w & ws & E & F & ->). rewrite E, (camel_words w ws false F), first_small_eq. reflexivity.
  - intros ->. destruct (words_exist (f_name f)) as (w & ws & E & F). exists w, ws. split; [exact E |]. split; [exact F |].
    now rewrite E, (camel_words w ws false F), first_small_eq.
Qed.

Lemma called_spec : forall f n, called f n <-> n = property_name f.
Proof.
  intros f n. unfold called. change (property_name f) with (qualifiedName (plain_name f)). unfold qualifiedName.
  assert (X : existsb (String.eqb (plain_name f)) ["id"; "property"; "import"] = true <-> In (plain_name f) ["id"; "property"; "import"]).
  { rewrite existsb_exists. split; [intros (x & I & E); apply String.eqb_eq in E; now rewrite E |].
    intro I. exists (plain_name f). split; [exact I | apply String.eqb_refl]. }
  split.
  - intros (c & C & H). apply camel_case_spec in C. subst c. destruct (existsb _ _) eqn:B; destruct H as [[H ->] | [H ->]]; try reflexivity.
    + exfalso. apply H, X. reflexivity.
    + apply X in H. discriminate H.
  - intro E. exists (plain_name f). split; [now apply camel_case_spec |]. destruct (existsb _ _).
    + left. split; [now apply X | exact E].
    + right. split; [intro I; apply X in I; discriminate I | exact E].
Qed.

Lemma clash_spec : forall qml fs, clash qml fs <->
  exists f g, In f fs /\ In g fs /\ repeated_message f
    /\ property_name g = property_name f ++ "Data" /\ (qml = true \/ ~ repeated_message g).
Proof.
  intros qml fs. split.
  - intros (f & g & n & A & B & C & D & E & F). apply called_spec in D, E. subst n. exists f, g. auto 10.
  - intros (f & g & A & B & C & D & E). exists f, g, (property_name f). rewrite !called_spec. auto 10.
Qed.

(** * The properties of a class *)

Lemma field_property_cases : forall qml i f,
  (field_property qml i f = mkProperty (property_name f) i Stored
     /\ ~ repeated_message f /\ extra_property qml i f = [])
  \/ (field_property qml i f = mkProperty (property_name f ++ "_p") i Stored
     /\ ~ repeated_message f /\ qml = true /\ extra_property qml i f = [mkProperty (property_name f) i Alias])
  \/ (field_property qml i f = mkProperty (property_name f ++ "Data") i Stored
     /\ repeated_message f
     /\ extra_property qml i f = if qml then [mkProperty (property_name f) i QmlList] else []).
Proof.
  intros qml i f.
  unfold field_property, extra_property, isPureMessage, hasQmlAlias, repeated_message.
  destruct (f_type f) eqn:T, (f_map f) eqn:M, (f_repeated f) eqn:R, (f_qt f) eqn:Q, qml; cbn;
    try (left; repeat split; [intros (A & B & C); discriminate]);
    try (right; left; repeat split; [intros (A & B & C); discriminate]);
    try (right; right; repeat split).
Qed.

Lemma in_field_properties : forall qml fs k p,
  In p (field_properties qml k fs) <-> exists i f, nth_error fs i = Some f /\ p = field_property qml (k + i) f.
Proof.
  induction fs as [| f fs IH]; intros k p; cbn.
  - split; [intros [] |]. intros (i & f & H & _). destruct i; discriminate.
  - rewrite IH. split.
    + intros [E | (i & g & H & E)].
      * exists 0, f. rewrite Nat.add_0_r. auto.
      * exists (S i), g. rewrite Nat.add_succ_r. auto.
    + intros (i & g & H & E). destruct i as [| i]; cbn in H.
      * injection H as <-. rewrite Nat.add_0_r in E. auto.
      * right. exists i, g. rewrite Nat.add_succ_r in E. auto.
Qed.

Lemma in_extra_properties : forall qml fs k p,
  In p (extra_properties qml k fs) <-> exists i f, nth_error fs i = Some f /\ In p (extra_property qml (k + i) f).
Proof.
  induction fs as [| f fs IH]; intros k p; cbn.
  - split; [intros [] |]. intros (i & f & H & _). destruct i; discriminate.
  - rewrite in_app_iff, IH. split.
    + intros [E | (i & g & H & E)].
      * exists 0, f. rewrite Nat.add_0_r. auto.
      * exists (S i), g. rewrite Nat.add_succ_r. auto.
    + intros (i & g & H & E). destruct i as [| i]; cbn in H.
      * injection H as <-. rewrite Nat.add_0_r in E. auto.
      * right. exists i, g. rewrite Nat.add_succ_r in E. auto.
Qed.

Lemma field_properties_nth : forall qml fs k i f,
  nth_error fs i = Some f -> nth_error (field_properties qml k fs) i = Some (field_property qml (k + i) f).
Proof.
  induction fs as [| g fs IH]; intros k i f H; [destruct i; discriminate |].
  destruct i as [| i]; cbn in *.
  - injection H as <-. now rewrite Nat.add_0_r.
  - rewrite (IH (S k) i f H). now rewrite Nat.add_succ_r.
Qed.

Lemma class_properties_nth : forall qml fs i f,
  nth_error fs i = Some f -> nth_error (class_properties qml fs) i = Some (field_property qml i f).
Proof.
  intros qml fs i f H. unfold class_properties. rewrite nth_error_app1.
  - rewrite (field_properties_nth qml fs 0 i f H). reflexivity.
  - apply nth_error_Some. rewrite (field_properties_nth qml fs 0 i f H). discriminate.
Qed.

Lemma find_number_nth : forall fs k i f,
  NoDup (map f_number fs) -> nth_error fs i = Some f ->
  find_number (f_number f) (fields_ordering k fs) = Some (k + i + 1).
Proof.
  induction fs as [| g fs IH]; intros k i f N H; [destruct i; discriminate |].
  cbn [map] in N. inversion N as [| x l Hx Hn]; subst.
  destruct i as [| i]; cbn in H |- *.
  - injection H as <-. rewrite Z.eqb_refl. now rewrite Nat.add_0_r.
  - destruct (Z.eqb_spec (f_number g) (f_number f)) as [E | E].
    + exfalso. apply Hx. rewrite E. apply in_map. eapply nth_error_In; eassumption.
    + rewrite (IH (S k) i f Hn H). f_equal. lia.
Qed.

Lemma find_number_none : forall fs k n,
  ~ In n (map f_number fs) -> find_number n (fields_ordering k fs) = None.
Proof.
  induction fs as [| g fs IH]; intros k n H; [reflexivity |].
  cbn in *. destruct (Z.eqb_spec (f_number g) n) as [E | E]; [tauto |]. apply IH. tauto.
Qed.

Lemma deserialized_nth : forall qml fs i f,
  NoDup (map f_number fs) -> nth_error fs i = Some f ->
  deserialized_property qml fs (f_number f) = Some (field_property qml i f).
Proof.
  intros qml fs i f N H. unfold deserialized_property. rewrite (find_number_nth fs 0 i f N H).
  cbn [Nat.add]. rewrite Nat.add_1_r. cbn [meta_property]. apply class_properties_nth; exact H.
Qed.

Lemma field_property_belongs : forall qml i f, belongs_to (field_property qml i f) i.
Proof.
  intros qml i f. destruct (field_property_cases qml i f) as [(E & _) | [(E & _) | (E & _)]]; rewrite E;
    split; reflexivity.
Qed.

(** * Lookup by name *)

Lemma by_name_unique : forall ps p,
  In p ps -> (forall q, In q ps -> p_name q = p_name p -> q = p) -> by_name ps (p_name p) = Some p.
Proof.
  intros ps p I U. unfold by_name.
  destruct (find (fun q => String.eqb (p_name q) (p_name p)) (rev ps)) as [q |] eqn:F.
  - apply find_some in F. destruct F as [J E]. apply in_rev in J. apply String.eqb_eq in E.
    f_equal. apply U; assumption.
  - pose proof (find_none _ _ F p (proj1 (in_rev ps p) I)) as X. cbn in X. rewrite String.eqb_refl in X.
    discriminate.
Qed.

Lemma by_name_some : forall ps p, In p ps -> exists q, by_name ps (p_name p) = Some q /\ In q ps.
Proof.
  intros ps p I. unfold by_name.
  destruct (find (fun q => String.eqb (p_name q) (p_name p)) (rev ps)) as [q |] eqn:F.
  - exists q. split; [reflexivity |]. apply find_some in F. apply in_rev. tauto.
  - pose proof (find_none _ _ F p (proj1 (in_rev ps p) I)) as X. cbn in X. rewrite String.eqb_refl in X.
    discriminate.
Qed.

Lemma find_app : forall A (t : A -> bool) l m,
  find t (l ++ m)%list = match find t l with Some x => Some x | None => find t m end.
Proof. induction l as [| x l IH]; intro m; cbn; [reflexivity |]. destruct (t x); [reflexivity | apply IH]. Qed.

(** A property for QML is found before all that belong to fields. *)
Lemma by_name_extra : forall qml fs q,
  In q (extra_properties qml 0 fs) ->
  exists w, by_name (class_properties qml fs) (p_name q) = Some w /\ In w (extra_properties qml 0 fs).
Proof.
  intros qml fs q I. unfold by_name, class_properties. rewrite rev_app_distr, find_app.
  destruct (by_name_some (extra_properties qml 0 fs) q I) as (w & W & J). unfold by_name in W.
  rewrite W. exists w; auto.
Qed.

Lemma extra_not_stored : forall qml i f p, In p (extra_property qml i f) -> p_access p <> Stored.
Proof.
  intros qml i f p H.
  destruct (field_property_cases qml i f) as [(_ & _ & E) | [(_ & _ & _ & E) | (_ & _ & E)]]; rewrite E in H;
    [destruct H | | destruct qml; [| destruct H]]; destruct H as [<- | []]; discriminate.
Qed.

Lemma same_key_same_field : forall fs i j f g,
  NoDup (map (fun f => key (f_name f)) fs) -> nth_error fs i = Some f -> nth_error fs j = Some g ->
  key (f_name f) = key (f_name g) -> i = j.
Proof.
  intros fs i j f g N Hi Hj E.
  rewrite NoDup_nth_error in N. apply N.
  - rewrite map_length. apply nth_error_Some. rewrite Hi. discriminate.
  - rewrite (map_nth_error _ _ _ Hi), (map_nth_error _ _ _ Hj). now rewrite E.
Qed.

(** The name of the property of a field is taken by no other, unless there is a clash. *)
Lemma names_unique : forall qml fs i f q,
  NoDup (map (fun f => key (f_name f)) fs) -> ~ clash qml fs -> nth_error fs i = Some f ->
  In q (class_properties qml fs) -> p_name q = p_name (field_property qml i f) -> q = field_property qml i f.
Proof.
  intros qml fs i f q N C Hi Iq E.
  assert (S1 : forall j g, nth_error fs j = Some g -> property_name f = property_name g -> j = i /\ g = f).
  { intros j g Hj X. pose proof (same_key_same_field fs i j f g N Hi Hj (property_name_key f g X)) as Y.
    subst j. rewrite Hi in Hj. injection Hj as <-. auto. }
  pose proof (nth_error_In _ _ Hi) as If.
  unfold class_properties in Iq. apply in_app_or in Iq. destruct Iq as [Iq | Iq].
  - apply in_field_properties in Iq. destruct Iq as (j & g & Hj & Q). cbn [Nat.add] in Q. subst q.
    pose proof (nth_error_In _ _ Hj) as Ig.
    destruct (field_property_cases qml i f) as [(A & B & _) | [(A & B & _ & _) | (A & B & _)]];
    destruct (field_property_cases qml j g) as [(A' & B' & _) | [(A' & B' & _ & _) | (A' & B' & _)]];
    rewrite A, A' in E; cbn [p_name] in E.
    + destruct (S1 j g Hj (eq_sym E)); subst; reflexivity.
    + exfalso. exact (name_p_not_name _ _ E).
    + exfalso. apply C, clash_spec. exists g, f. repeat split; try apply B'; auto.
    + exfalso. exact (name_p_not_name _ _ (eq_sym E)).
    + apply app_inv_tail_s in E. destruct (S1 j g Hj (eq_sym E)); subst; reflexivity.
    + exfalso. exact (name_p_not_data _ _ (eq_sym E)).
    + exfalso. apply C, clash_spec. exists f, g. repeat split; try apply B; auto.
    + exfalso. exact (name_p_not_data _ _ E).
    + apply app_inv_tail_s in E. destruct (S1 j g Hj (eq_sym E)); subst; reflexivity.
  - apply in_extra_properties in Iq. destruct Iq as (j & g & Hj & Q). cbn [Nat.add] in Q.
    pose proof (nth_error_In _ _ Hj) as Ig.
    assert (Y : p_name q = property_name g /\ qml = true /\ extra_property qml j g <> []).
    { destruct (field_property_cases qml j g) as [(_ & _ & X) | [(_ & _ & T & X) | (_ & _ & X)]]; rewrite X in Q.
      - destruct Q.
      - destruct Q as [<- | []]. rewrite X. repeat split; [exact T | discriminate].
      - rewrite X. destruct qml; [| destruct Q]. destruct Q as [<- | []]. repeat split; discriminate. }
    destruct Y as (Y & T & Ne). rewrite Y in E.
    destruct (field_property_cases qml i f) as [(A & B & X) | [(A & B & _ & X) | (A & B & X)]];
    rewrite A in E; cbn [p_name] in E.
    + destruct (S1 j g Hj (eq_sym E)); subst. congruence.
    + exfalso. exact (name_p_not_name _ _ (eq_sym E)).
    + exfalso. apply C, clash_spec. exists f, g. repeat split; try apply B; auto.
Qed.

(** The lookup of the name of a field. *)
Lemma by_name_called : forall qml fs i f,
  valid_fields fs -> ~ clash qml fs -> nth_error fs i = Some f -> qml = true \/ ~ repeated_message f ->
  by_name (class_properties qml fs) (property_name f) =
  Some (match extra_property qml i f with q :: _ => q | [] => field_property qml i f end).
Proof.
  intros qml fs i f (N & K) C Hi X.
  assert (P : exists p, p = match extra_property qml i f with q :: _ => q | [] => field_property qml i f end
              /\ p_name p = property_name f /\ p_field p = i
              /\ (forall q, In q (field_property qml i f :: extra_property qml i f) -> p_name q = property_name f -> q = p)).
  { eexists. split; [reflexivity |].
    destruct (field_property_cases qml i f) as [(A & B & E) | [(A & B & T & E) | (A & B & E)]]; rewrite E, A.
    - repeat split. intros q [<- | []] _. reflexivity.
    - repeat split. intros q [<- | [<- | []]] Y; [exfalso | reflexivity]. cbn [p_name] in Y. exact (name_p_not_name _ _ Y).
    - destruct X as [-> | X]; [| contradiction]. repeat split. intros q [<- | [<- | []]] Y; [exfalso | reflexivity].
      cbn [p_name] in Y. apply (f_equal String.length) in Y. rewrite length_app_s in Y. cbn in Y. lia. }
  destruct P as (p & Ep & Np & Fp & U). rewrite <- Ep, <- Np. apply by_name_unique.
  - subst p. unfold class_properties. apply in_or_app. destruct (extra_property qml i f) as [| q l] eqn:E.
    + left. apply in_field_properties. exists i, f. auto.
    + right. apply in_extra_properties. exists i, f. split; [exact Hi |]. cbn [Nat.add]. rewrite E. left. reflexivity.
  - intros q Iq E. rewrite Np in E.
    assert (J : exists j g, nth_error fs j = Some g /\ In q (field_property qml j g :: extra_property qml j g)).
    { unfold class_properties in Iq. apply in_app_or in Iq as [Iq | Iq].
      - apply in_field_properties in Iq as (j & g & Hj & ->). exists j, g. split; [exact Hj | left; reflexivity].
      - apply in_extra_properties in Iq as (j & g & Hj & Q). exists j, g. split; [exact Hj | right; exact Q]. }
    destruct J as (j & g & Hj & Q).
    assert (Y : p_name q = property_name g \/ p_name q = property_name g ++ "_p" \/ (p_name q = property_name g ++ "Data" /\ repeated_message g)).
    { destruct (field_property_cases qml j g) as [(A & B & E') | [(A & B & T & E') | (A & B & E')]]; rewrite E', A in Q.
      - destruct Q as [<- | []]. now left.
      - destruct Q as [<- | [<- | []]]; [right; left | left]; reflexivity.
      - destruct Q as [<- | Q]; [right; right; split; [reflexivity | exact B] |]. destruct qml; [| destruct Q]. destruct Q as [<- | []]. now left. }
    destruct Y as [Y | [Y | [Y R]]]; rewrite Y in E.
    + pose proof (same_key_same_field fs j i g f K Hj Hi (property_name_key g f E)) as <-. rewrite Hi in Hj. injection Hj as <-.
      apply U; [exact Q | exact Y].
    + exfalso. exact (name_p_not_name _ _ E).
    + exfalso. apply C, clash_spec. exists g, f. repeat split; try apply R; eauto using nth_error_In.
Qed.

Lemma serialized_right : forall qml fs i f,
  valid_fields fs -> ~ clash qml fs -> nth_error fs i = Some f ->
  serialized_property qml fs (f_number f) = Some (field_property qml i f).
Proof.
  intros qml fs i f (N & K) C H. unfold serialized_property. rewrite (deserialized_nth qml fs i f N H).
  apply by_name_unique.
  - eapply nth_error_In. apply class_properties_nth. exact H.
  - intros q I E. exact (names_unique qml fs i f q K C H I E).
Qed.

Lemma serialized_wrong : forall qml fs,
  valid_fields fs -> clash qml fs ->
  exists i f p, nth_error fs i = Some f /\ serialized_property qml fs (f_number f) = Some p /\ ~ belongs_to p i.
Proof.
  intros qml fs (N & K) Cl. apply clash_spec in Cl. destruct Cl as (f & g & If & Ig & R & E & X).
  apply In_nth_error in If. destruct If as [i Hi]. apply In_nth_error in Ig. destruct Ig as [j Hj].
  assert (D : i <> j).
  { intro Q. subst j. rewrite Hi in Hj. injection Hj as <-.
    apply (f_equal String.length) in E. rewrite length_app_s in E. cbn in E. lia. }
  assert (Pf : field_property qml i f = mkProperty (property_name f ++ "Data") i Stored).
  { destruct (field_property_cases qml i f) as [(_ & B & _) | [(_ & B & _) | (A & _)]]; tauto. }
  assert (Sf : serialized_property qml fs (f_number f) = by_name (class_properties qml fs) (property_name f ++ "Data")).
  { unfold serialized_property. rewrite (deserialized_nth qml fs i f N Hi), Pf. reflexivity. }
  assert (If : In (field_property qml i f) (class_properties qml fs))
    by (eapply nth_error_In; apply class_properties_nth; exact Hi).
  destruct (by_name_some _ _ If) as (w & W & Iw). rewrite Pf in W. cbn [p_name] in W.
  assert (Extra : forall a, In (mkProperty (property_name g) j a) (extra_property qml j g) ->
    exists i0 f0 p, nth_error fs i0 = Some f0 /\ serialized_property qml fs (f_number f0) = Some p
      /\ ~ belongs_to p i0).
  { intros a Ia.
    assert (J : In (mkProperty (property_name g) j a) (extra_properties qml 0 fs))
      by (apply in_extra_properties; exists j, g; auto).
    destruct (by_name_extra qml fs _ J) as (v & V & Jv). cbn [p_name] in V. rewrite E in V.
    exists i, f, v. repeat split; [exact Hi | congruence |].
    intros (_ & Y). apply in_extra_properties in Jv. destruct Jv as (k & h & _ & Jv).
    exact (extra_not_stored _ _ _ _ Jv Y). }
  destruct (field_property_cases qml j g) as [(A & _) | [(_ & _ & _ & Y) | (_ & B & Y)]].
  - destruct (Nat.eq_dec (p_field w) i) as [F | F].
    + exists j, g, w. repeat split; [exact Hj | |].
      * unfold serialized_property. rewrite (deserialized_nth qml fs j g N Hj), A. cbn [p_name].
        rewrite E. exact W.
      * intros (G & _). congruence.
    + exists i, f, w. repeat split; [exact Hi | congruence |]. intros (G & _). contradiction.
  - apply (Extra Alias). rewrite Y. left; reflexivity.
  - destruct X as [X | X]; [| contradiction]. apply (Extra QmlList). rewrite Y, X. left; reflexivity.
Qed.

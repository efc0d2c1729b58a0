(** Whatever text is read with the JSON serializer, the object stays well typed. *)

From Coq Require Import String ZArith List Bool Lia.
From Verif Require Import Base Values WireSpec MessageSpec MessageModel MessageProofs SerializeProofs MessageFacts PropFacts ObjectModel ObjectSpec ObjectProofs TypedProofs JsonSpec
  JsonReadModel.
Import ListNotations.
Open Scope Z_scope.

(** Microjson makes bytes of bytes, whether the text is JSON or not. *)
Definition gives_bytes (mj : microjson) : Prop :=
  (forall s, bytes s -> Forall (fun p => bytes (fst p) /\ bytes (snd (snd p))) (parseJsonObject mj s)) /\
  (forall s, bytes s -> Forall (fun v => bytes (snd v)) (parseJsonArray mj s)) /\
  (forall s c i v, bytes s -> extractValue mj s c = Some (i, v) -> bytes (snd v)) /\
  (forall s c i n v, bytes s -> extractProperty mj s c = Some (i, (n, v)) -> bytes n /\ bytes (snd v)).

(** The conversions of Qt give floats and doubles. *)
Definition gives_floats (conv : conversions) : Prop :=
  forall t s, is_float t = true -> scalar_ok t (SNum (fst (conv t s))).

(** The values of enumerators are of type int32. *)
Definition enum_values (nm : names) : Prop := forall m i p, In p (n_enum nm m i) -> in_s 32 (snd p).

Lemma update_ok sch m i v : forall obj, object_ok sch m obj -> val_ok sch (f_ty (field_at sch m i)) v -> object_ok sch m (update i v obj).
Proof.
  intros obj O V. apply object_ok_spec. apply object_ok_spec in O. unfold field_at in V. revert i V.
  induction O as [| f x fs xs Hx O IH]; intros [| i] V; cbn [update nth] in *; try constructor; auto.
Qed.

Lemma nth_ok sch m i obj : object_ok sch m obj -> (i < length (md_fields (msg_at sch m)))%nat -> val_ok sch (f_ty (field_at sch m i)) (nth i obj VNull).
Proof.
  intros O L. apply object_ok_spec in O. unfold field_at. revert i L.
  induction O as [| f x fs xs Hx O IH]; intros [| i] L; cbn [length nth] in *; try lia; auto. apply IH. lia.
Qed.

Section Typed.
  Variable mj : microjson.
  Variable conv : conversions.
  Variable sch : schema.
  Variable nm : names.
  Hypothesis Mj : gives_bytes mj.
  Hypothesis Cv : gives_floats conv.

  Lemma unescape_bytes s : bytes s -> bytes (unescape s).
  Proof.
    assert (G : forall n s, (length s <= n)%nat -> bytes s -> bytes (unescape s)).
    { induction n as [| n IH]; intros [| c [| d s']] L B; cbn [unescape length] in *; try lia; auto.
      inversion B as [| ? ? Bc B']; subst. inversion B' as [| ? ? Bd B'']; subst.
      destruct ((c =? 92) && (d =? 34)).
      - constructor; [unfold is_byte; lia |]. apply IH; [lia | exact B''].
      - change (bytes (c :: unescape (d :: s'))). constructor; [exact Bc |]. apply IH; [cbn [length]; lia | exact B']. }
    intro B. now apply (G (length s)).
  Qed.

  Lemma base64_bytes s : forall buf nbits, bytes (fromBase64 buf nbits s).
  Proof.
    induction s as [| c s IH]; intros buf nbits; cbn [fromBase64]; [constructor |].
    destruct (base64_value c); [| apply IH]. cbv zeta. destruct (8 <=? nbits + 6); [| apply IH]. constructor; [| apply IH].
    unfold is_byte. apply Z.mod_pos_bound. lia.
  Qed.

  Lemma toInteger_ok t s z : toInteger t s = Some z -> is_integer t = true -> scalar_ok t (SNum z).
  Proof.
    unfold toInteger. intros H I.
    destruct (match s with [] => _ | _ => _ end) as [neg ds]. destruct ds as [| d ds]; [discriminate |].
    destruct (digits_value 0 (d :: ds)) as [n |]; [| discriminate]. cbv zeta in H.
    destruct (lowest t <=? (if neg then - n else n)) eqn:E1; [| discriminate]. destruct ((if neg then - n else n) <=? highest t) eqn:E2; [| discriminate].
    injection H as <-. apply Z.leb_le in E1, E2. destruct t; try discriminate I; cbn [scalar_ok lowest highest] in *; unfold in_s, in_u; lia.
  Qed.

  Lemma key_value_ok en key : (forall p, In p en -> in_s 32 (snd p)) -> in_s 32 (keyToValue en key).
  Proof.
    intro E. unfold keyToValue. destruct (find _ en) as [p |] eqn:F; [| unfold in_s; lia]. apply find_some in F. now apply E.
  Qed.

  Lemma read_scalar_ok en t v s : (forall p, In p en -> in_s 32 (snd p)) -> bytes (snd v) ->
    fst (read_scalar conv en t v) = Some s -> scalar_ok t s.
  Proof.
    intros E B H. destruct v as [type data]. cbn [snd] in B. destruct t; cbn [read_scalar] in H;
      try (destruct (toInteger _ data) as [z |] eqn:I; injection H as <-; [now apply (toInteger_ok _ data) | cbn; unfold in_s, in_u; lia]).
    all: match goal with
      | |- scalar_ok TBool _ => destruct (is_bool type); [| discriminate H]; injection H as <-; cbn; destruct (same_bytes data _); auto
      | |- scalar_ok TEnum _ => destruct data; [discriminate H |]; injection H as <-; cbn; now apply key_value_ok
      | |- scalar_ok TString _ => destruct (is_string type); [| discriminate H]; injection H as <-; split; [now apply unescape_bytes | discriminate]
      | |- scalar_ok TBytes _ => destruct (is_string type); [| discriminate H]; injection H as <-; split; [apply base64_bytes | discriminate]
      | |- scalar_ok ?t _ =>
          destruct (not_finite data); [discriminate H |]; pose proof (Cv t data eq_refl) as C; destruct (conv t data); now injection H as <-
      end.
  Qed.

  Lemma or_default_ok t x : (forall s, fst x = Some s -> scalar_ok t s) -> scalar_ok t (value_or_default t x).
  Proof. intro H. unfold value_or_default. destruct (fst x) eqn:E; [now apply H | apply default_scalar_ok]. Qed.

  Lemma read_element_ok en t v : (forall p, In p en -> in_s 32 (snd p)) -> bytes (snd v) -> scalar_ok t (read_element conv en t v).
  Proof.
    intros E B. unfold read_element. destruct (is_enum t) eqn:T.
    - destruct t; try discriminate T. destruct (same_bytes (snd v) _); cbn [scalar_ok]; [| now apply key_value_ok].
      destruct en as [| p en]; [unfold in_s; lia | apply E; now left].
    - apply or_default_ok. intros s. now apply read_scalar_ok.
  Qed.

  Lemma elements_ok en t l : (forall p, In p en -> in_s 32 (snd p)) -> Forall (fun v => bytes (snd v)) l ->
    every (elem_ok sch (ES t)) (map (fun x => VScalar (read_element conv en t x)) l).
  Proof. intros E F. induction F; cbn [map every elem_ok]; auto. split; [now apply read_element_ok | auto]. Qed.

  Lemma read_scalars_ok en t v w : (forall p, In p en -> in_s 32 (snd p)) -> bytes (snd v) -> fst (read_scalars mj conv en t v) = Some w ->
    val_ok sch (FRep (ES t)) w.
  Proof.
    intros E B H. destruct Mj as (_ & M & _).
    assert (G : forall w, Some (VList (map (fun x => VScalar (read_element conv en t x)) (parseJsonArray mj (snd v)))) = Some w ->
      val_ok sch (FRep (ES t)) w).
    { intros w' H'. injection H' as <-. cbn [val_ok]. apply elements_ok; auto. }
    unfold read_scalars in H. destruct t; try discriminate H; try (destruct (is_array (fst v)); [now apply G | discriminate H]).
    destruct (snd v) eqn:D; [discriminate H |]. rewrite <- D in *. now apply G.
  Qed.

  Variable rec : nat -> list Z -> res (list value).
  Hypothesis Rec : forall m data obj, bytes data -> rec m data = Ok obj -> object_ok sch m obj.

  Lemma skip_open_bytes c s : bytes s -> bytes (skip_open c s).
  Proof. intro B. destruct s as [| x s]; cbn [skip_open]; auto. destruct (x =? c); auto. now inversion B. Qed.

  Lemma read_messages_ok m : forall n s acc l, bytes s -> every (elem_ok sch (EM m)) acc -> read_messages mj rec n m s acc = Ok l ->
    every (elem_ok sch (EM m)) l.
  Proof.
    destruct Mj as (_ & _ & M & _).
    induction n as [| n IH]; intros s acc l B A H; cbn [read_messages] in H; [discriminate |].
    destruct s as [| c s]; [injection H as <-; exact A |]. cbv zeta in H.
    assert (B1 : bytes (skip_open 91 (c :: s))) by now apply skip_open_bytes. revert H B1. generalize (skip_open 91 (c :: s)). intros s1 H B1.
    destruct (extractValue mj s1 93) as [[i v] |] eqn:X; [| injection H as <-; exact A].
    apply bind_Ok in H. destruct H as (obj & R & H). destruct (i <=? length s1)%nat; [| discriminate H].
    apply IH in H; auto; [now apply bytes_skipn |]. apply every_Forall. apply every_Forall in A. apply Forall_app. split; [exact A |]. constructor; [| constructor].
    exact (Rec m (snd v) obj (M _ _ _ _ B1 X) R).
  Qed.

  Lemma entry_value_ok en e v w : (forall p, In p en -> in_s 32 (snd p)) -> bytes (snd v) -> read_entry_value conv rec en e v = Ok w -> elem_ok sch e w.
  Proof.
    intros E B H. destruct e as [t | m]; cbn [read_entry_value] in H.
    - injection H as <-. cbn [elem_ok]. apply or_default_ok. intros s. destruct (snd (read_scalar conv en t v)); [| discriminate]. now apply read_scalar_ok.
    - destruct (snd v) eqn:D; [injection H as <-; exact Logic.I |]. rewrite <- D in *. apply bind_Ok in H. destruct H as (obj & R & H). injection H as <-.
      exact (Rec m _ obj B R).
  Qed.

  Lemma read_key_ok k name : bytes name -> scalar_ok k (read_key conv k name).
  Proof.
    intro B. unfold read_key. apply or_default_ok. intros s. destruct (snd (read_scalar conv [] k (StringType, name))); [| discriminate].
    apply read_scalar_ok; [intros p [] | exact B].
  Qed.

  Lemma read_pairs_ok en k e : (forall p, In p en -> in_s 32 (snd p)) -> forall n s acc l, bytes s -> val_ok sch (FMap k e) (VMap acc) ->
    read_pairs mj conv rec n en k e s acc = Ok l -> val_ok sch (FMap k e) (VMap l).
  Proof.
    intro E. destruct Mj as (_ & _ & _ & M).
    induction n as [| n IH]; intros s acc l B A H; cbn [read_pairs] in H; [discriminate |].
    destruct s as [| c s]; [injection H as <-; exact A |]. cbv zeta in H.
    assert (B1 : bytes (skip_open 123 (c :: s))) by now apply skip_open_bytes. revert H B1. generalize (skip_open 123 (c :: s)). intros s1 H B1.
    destruct (extractProperty mj s1 125) as [[i [name v]] |] eqn:X; [| injection H as <-; exact A].
    apply bind_Ok in H. destruct H as (val & R & H). destruct (i <=? length s1)%nat; [| discriminate H].
    destruct (M _ _ _ _ _ B1 X) as [Bn Bv].
    apply IH in H; auto; [now apply bytes_skipn |]. cbn [val_ok] in A |- *. destruct A as [A1 A2]. split; [now apply insert_sorted |].
    assert (Ev : elem_ok sch e val) by now apply (entry_value_ok en e v).
    apply insert_every; cbn [fst snd]; auto. { intros a w []. auto. } split; [now apply read_key_ok | exact Ev].
  Qed.

  Hypothesis En : enum_values nm.

  Lemma read_value_ok n m i v x : bytes (snd v) -> read_value mj conv sch nm rec n m i v = Ok x ->
    forall w, fst x = Some w -> val_ok sch (f_ty (field_at sch m i)) w.
  Proof.
    intros B H w W. unfold read_value in H. destruct (f_ty (field_at sch m i)) as [[t | m'] | [t | m'] | k e].
    - injection H as <-. cbn [fst] in W. destruct (fst (read_scalar conv (n_enum nm m i) t v)) as [s |] eqn:R; [| discriminate W]. injection W as <-.
      cbn [val_ok elem_ok]. now apply (read_scalar_ok (n_enum nm m i) t v); [apply En | |].
    - destruct (snd v) as [| c0 d0] eqn:D; [injection H as <-; discriminate W |]. rewrite <- D in *. apply bind_Ok in H. destruct H as (obj & R & H). injection H as <-.
      injection W as <-. exact (Rec m' _ obj B R).
    - injection H as <-. apply (read_scalars_ok (n_enum nm m i) t v w); auto. apply En.
    - destruct (snd v) as [| c0 d0] eqn:D; [injection H as <-; discriminate W |]. rewrite <- D in *. apply bind_Ok in H. destruct H as (l & R & H). injection H as <-.
      injection W as <-. cbn [val_ok]. eapply read_messages_ok; [exact B | | exact R]. exact Logic.I.
    - destruct (snd v) as [| c0 d0] eqn:D; [injection H as <-; discriminate W |]. rewrite <- D in *. apply bind_Ok in H. destruct H as (l & R & H). injection H as <-.
      injection W as <-. eapply read_pairs_ok; [apply En | exact B | | exact R]. cbn. auto.
  Qed.

  Lemma default_field_ok ty : val_ok sch ty (default_field ty).
  Proof. destruct ty as [[t | m] | e | k e]; cbn; auto. apply default_scalar_ok. Qed.

  Lemma write_ok ty old new : val_ok sch ty old -> (forall w, new = Some w -> val_ok sch ty w) -> val_ok sch ty (write_property ty old new).
  Proof.
    intros O N. set (v := match new with Some v => v | None => default_field ty end).
    assert (V : val_ok sch ty v) by (unfold v; destruct new; [now apply N | apply default_field_ok]).
    assert (G : val_ok sch ty match ty with
        | FSing (ES t) => VScalar (store_scalar t (scalar_of old) (scalar_of v))
        | FSing (EM _) => v
        | FRep (ES t) => VList (store_scalars t (list_of old) (list_of v))
        | FRep (EM _) => v
        | FMap k e => VMap (store_map k e (map_of old) (map_of v))
        end).
    { clearbody v. clear N. destruct ty as [[t | m] | [t | m] | k e]; auto.
      - cbn [val_ok elem_ok] in *. destruct old; try contradiction. destruct v; try contradiction. cbn [scalar_of]. unfold store_scalar.
        destruct (scalar_eqb _ _ _); auto.
      - cbn [val_ok] in *. destruct old; try contradiction. destruct v; try contradiction. cbn [list_of]. unfold store_scalars.
        destruct (list_eqb _ _ _); auto.
      - cbn [val_ok] in *. destruct old; try contradiction. destruct v; try contradiction. cbn [map_of]. unfold store_map.
        destruct e; auto. destruct (list_eqb _ _ _); auto. }
    unfold write_property. fold v. destruct ty as [[t | m] | e | k e]; try exact G. destruct t; try exact G. destruct new; [exact G | exact O].
  Qed.

  Lemma read_members_ok n m : schema_ok sch -> forall l obj r, Forall (fun p => bytes (snd (snd p))) l -> object_ok sch m obj ->
    read_members mj conv sch nm rec n m l obj = Ok r -> object_ok sch m r.
  Proof.
    intro S. induction l as [| [name v] l IH]; intros obj r F O H; cbn [read_members] in H; [now injection H as <- |].
    inversion F as [| ? ? Fv Fl]; subst. cbn [snd] in Fv.
    destruct (find _ _) as [i |] eqn:D; [| now apply (IH obj)]. apply find_some in D. destruct D as [D _].
    assert (L : (i < length (md_fields (msg_at sch m)))%nat) by (destruct (msg_at_ok sch m S) as (_ & _ & _ & Cov); now apply Cov).
    cbv zeta in H. destruct (_ && _).
    - apply (IH _ _ Fl) in H; auto. apply update_ok; auto. apply write_ok; [now apply nth_ok | discriminate].
    - apply bind_Ok in H. destruct H as (x & R & H). destruct (snd x); [| now apply (IH obj)].
      apply (IH _ _ Fl) in H; auto. apply update_ok; auto. apply write_ok; [now apply nth_ok |]. now apply (read_value_ok n m i v x).
  Qed.
End Typed.

Lemma read_object_ok mj conv sch nm : gives_bytes mj -> gives_floats conv -> enum_values nm -> schema_ok sch -> forall fuel m data obj r,
  bytes data -> object_ok sch m obj -> read_object fuel mj conv sch nm m data obj = Ok r -> object_ok sch m r.
Proof.
  intros Mj Cv En S. induction fuel as [| fuel IH]; intros m data obj r B O H; cbn [read_object] in H; [discriminate |].
  eapply (read_members_ok mj conv sch nm Mj Cv); [| exact En | exact S | | exact O | exact H].
  - intros m' data' obj' B' R'. apply (IH m' data' _ _ B' (default_ok sch m') R').
  - destruct Mj as (M & _). eapply Forall_impl; [| exact (M data B)]. intros p []. auto.
Qed.

(** ** Null pointers *)

Lemma update_nulls i v : forall obj, every no_nulls obj -> no_nulls v -> every no_nulls (update i v obj).
Proof. induction i as [| i IH]; intros [| x obj] O V; cbn [update every] in *; auto; destruct O; split; auto. Qed.

Lemma nth_nulls i : forall obj, every no_nulls obj -> no_nulls (nth i obj VNull).
Proof. induction i as [| i IH]; intros [| x obj] O; cbn [nth every] in *; try exact Logic.I; [now destruct O | apply IH; now destruct O]. Qed.

Section Nulls.
  Variable mj : microjson.
  Variable conv : conversions.
  Variable sch : schema.
  Variable nm : names.
  Variable rec : nat -> list Z -> res (list value).
  Hypothesis Rec : forall m data obj, rec m data = Ok obj -> no_nulls (VMsg obj).

  Lemma scalars_nulls {A} (f : A -> scalar) l : every (fun x => x <> VNull /\ no_nulls x) (map (fun x => VScalar (f x)) l).
  Proof. induction l; cbn [map every]; auto. repeat split; auto. discriminate. Qed.

  Lemma read_messages_nulls m : forall n s acc l, every (fun x => x <> VNull /\ no_nulls x) acc -> read_messages mj rec n m s acc = Ok l ->
    every (fun x => x <> VNull /\ no_nulls x) l.
  Proof.
    induction n as [| n IH]; intros s acc l A H; cbn [read_messages] in H; [discriminate |].
    destruct s as [| c s]; [injection H as <-; exact A |]. cbv zeta in H. revert H. generalize (skip_open 91 (c :: s)). intros s1 H.
    destruct (extractValue mj s1 93) as [[i v] |] eqn:X; [| injection H as <-; exact A].
    apply bind_Ok in H. destruct H as (obj & R & H). destruct (i <=? length s1)%nat; [| discriminate H].
    apply IH in H; auto. apply every_Forall. apply every_Forall in A. apply Forall_app. split; [exact A |]. constructor; [| constructor].
    split; [discriminate | exact (Rec m (snd v) obj R)].
  Qed.

  Lemma read_pairs_nulls en k t : forall n s acc l, every (fun p => snd p <> VNull /\ no_nulls (snd p)) acc ->
    read_pairs mj conv rec n en k (ES t) s acc = Ok l -> every (fun p => snd p <> VNull /\ no_nulls (snd p)) l.
  Proof.
    induction n as [| n IH]; intros s acc l A H; cbn [read_pairs] in H; [discriminate |].
    destruct s as [| c s]; [injection H as <-; exact A |]. cbv zeta in H. revert H. generalize (skip_open 123 (c :: s)). intros s1 H.
    destruct (extractProperty mj s1 125) as [[i [name v]] |] eqn:X; [| injection H as <-; exact A].
    apply bind_Ok in H. destruct H as (val & R & H). destruct (i <=? length s1)%nat; [| discriminate H].
    apply IH in H; auto. cbn [read_entry_value] in R. injection R as <-. apply insert_every; cbn [snd]; auto; [intros _ _ _ |]; (split; [discriminate | exact Logic.I]).
  Qed.

  Lemma read_value_nulls n m i v x : (forall k m', f_ty (field_at sch m i) <> FMap k (EM m')) -> read_value mj conv sch nm rec n m i v = Ok x ->
    forall w, fst x = Some w -> no_nulls w.
  Proof.
    intros N H w W. unfold read_value in H. destruct (f_ty (field_at sch m i)) as [[t | m'] | [t | m'] | k [t | m']].
    - injection H as <-. cbn [fst] in W. destruct (fst (read_scalar conv (n_enum nm m i) t v)); [| discriminate W]. injection W as <-. exact Logic.I.
    - destruct (snd v); [injection H as <-; discriminate W |]. apply bind_Ok in H. destruct H as (obj & R & H). injection H as <-.
      injection W as <-. exact (Rec m' _ obj R).
    - injection H as <-. unfold read_scalars in W.
      destruct t; try discriminate W; try (destruct (is_array (fst v)); [| discriminate W]; injection W as <-; apply scalars_nulls).
      destruct (snd v); [discriminate W |]. injection W as <-. apply scalars_nulls.
    - destruct (snd v); [injection H as <-; discriminate W |]. apply bind_Ok in H. destruct H as (l' & R & H). injection H as <-.
      injection W as <-. cbn [no_nulls]. eapply read_messages_nulls; [| exact R]. exact Logic.I.
    - destruct (snd v); [injection H as <-; discriminate W |]. apply bind_Ok in H. destruct H as (l' & R & H). injection H as <-.
      injection W as <-. cbn [no_nulls]. eapply read_pairs_nulls; [| exact R]. exact Logic.I.
    - now destruct (N k m').
  Qed.

  Lemma write_nulls ty old new : no_nulls old -> (forall w, new = Some w -> no_nulls w) -> no_nulls (write_property ty old new).
  Proof.
    intros O N. set (v := match new with Some v => v | None => default_field ty end).
    assert (V : no_nulls v) by (unfold v; destruct new; [now apply N | destruct ty as [[t | m] | e | k e]; exact Logic.I]).
    assert (L : forall x, no_nulls x -> no_nulls (VList (list_of x))) by (intros [] X; try exact Logic.I; exact X).
    assert (M : forall x, no_nulls x -> no_nulls (VMap (map_of x))) by (intros [] X; try exact Logic.I; exact X).
    assert (G : no_nulls match ty with
        | FSing (ES t) => VScalar (store_scalar t (scalar_of old) (scalar_of v))
        | FSing (EM _) => v
        | FRep (ES t) => VList (store_scalars t (list_of old) (list_of v))
        | FRep (EM _) => v
        | FMap k e => VMap (store_map k e (map_of old) (map_of v))
        end).
    { clearbody v. clear N. destruct ty as [[t | m] | [t | m] | k e]; try exact V; try exact Logic.I.
      - unfold store_scalars. destruct (list_eqb _ _ _); now apply L.
      - unfold store_map. destruct e; [| now apply M]. destruct (list_eqb _ _ _); now apply M. }
    unfold write_property. fold v. destruct ty as [[t | m] | e | k e]; try exact G. destruct t; try exact G. destruct new; [exact G | exact O].
  Qed.

  Lemma read_members_nulls n m : schema_ok sch -> no_message_maps sch -> forall l obj r, no_nulls (VMsg obj) ->
    read_members mj conv sch nm rec n m l obj = Ok r -> no_nulls (VMsg r).
  Proof.
    intros S NM. induction l as [| [name v] l IH]; intros obj r O H; cbn [read_members] in H; [now injection H as <- |].
    destruct (find _ _) as [i |] eqn:D; [| now apply (IH obj)]. apply find_some in D. destruct D as [D _].
    assert (L : (i < length (md_fields (msg_at sch m)))%nat) by (destruct (msg_at_ok sch m S) as (_ & _ & _ & Cov); now apply Cov).
    cbv zeta in H. destruct (_ && _).
    - apply IH in H; auto. apply update_nulls; auto. apply write_nulls; [now apply nth_nulls | discriminate].
    - apply bind_Ok in H. destruct H as (x & R & H). destruct (snd x); [| now apply (IH obj)].
      apply IH in H; auto. apply update_nulls; auto. apply write_nulls; [now apply nth_nulls |]. apply (read_value_nulls n m i v x); auto.
      intros k m'. apply NM with (m := m). now apply nth_In.
  Qed.
End Nulls.

Lemma read_object_nulls mj conv sch nm : schema_ok sch -> no_message_maps sch -> forall fuel m data obj r,
  no_nulls (VMsg obj) -> read_object fuel mj conv sch nm m data obj = Ok r -> no_nulls (VMsg r).
Proof.
  intros S NM. induction fuel as [| fuel IH]; intros m data obj r O H; cbn [read_object] in H; [discriminate |].
  eapply (read_members_nulls mj conv sch nm); [| exact S | exact NM | exact O | exact H].
  intros m' data' obj' R'. apply (IH m' data' _ _) in R'; auto. unfold default_obj. cbn [no_nulls].
  induction (md_fields (msg_at sch m')) as [| f fs IHf]; cbn [map every]; auto. split; auto. destruct (f_ty f) as [[t | m1] | e | k e]; exact Logic.I.
Qed.

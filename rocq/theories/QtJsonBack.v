(** Proofs: messages that hold values of Qt types arrive in JSON texts. *)

From Coq Require Import String ZArith List Bool Lia Arith Permutation.
From Verif Require Import Base WireModel Values MessageModel WireSpec WireProofs MessageSpec MessageProofs SerializeProofs
  MessageFacts TypedProofs ObjectProofs RunFacts PropFacts QtTypesModel QtTypesSpec QtTypesProofs QtFieldsModel QtFieldsSpec QtFieldsProofs
  QtFieldsTrack JsonSpec JsonModel JsonProofs JsonUnique JsonReadModel JsonReadSpec JsonReadProofs JsonReadFacts JsonTyped QtJsonModel QtJsonSpec QtJsonProofs.
Import ListNotations.
Open Scope Z_scope.

(** ** What is read from a text that the serializer writes has all its messages *)

Section Set_.
  Variable sch : schema.

  Inductive all_set : nat -> list value -> Prop :=
  | all_set_intro m r :
      (forall i m', (i < length (md_fields (msg_at sch m)))%nat -> f_ty (field_at sch m i) = FSing (EM m') ->
         exists r', nth i r VNull = VMsg r' /\ all_set m' r') ->
      (forall i m' x, (i < length (md_fields (msg_at sch m)))%nat -> f_ty (field_at sch m i) = FRep (EM m') ->
         In x (list_of (nth i r VNull)) -> exists r', x = VMsg r' /\ all_set m' r') ->
      (forall i k m' p, (i < length (md_fields (msg_at sch m)))%nat -> f_ty (field_at sch m i) = FMap k (EM m') ->
         In p (map_of (nth i r VNull)) -> exists r', snd p = VMsg r' /\ all_set m' r') ->
      all_set m r.

  (** The same for one field. *)
  Definition field_set (ty : fty) (v : value) : Prop :=
    match ty with
    | FSing (EM m') => exists r', v = VMsg r' /\ all_set m' r'
    | FRep (EM m') => forall x, In x (list_of v) -> exists r', x = VMsg r' /\ all_set m' r'
    | FMap k (EM m') => forall p, In p (map_of v) -> exists r', snd p = VMsg r' /\ all_set m' r'
    | _ => True
    end.

  Lemma fields_set m r : (forall i, (i < length (md_fields (msg_at sch m)))%nat -> field_set (f_ty (field_at sch m i)) (nth i r VNull)) -> all_set m r.
  Proof.
    intro H. constructor.
    - intros i m' L T. specialize (H i L). rewrite T in H. exact H.
    - intros i m' x L T I. specialize (H i L). rewrite T in H. exact (H x I).
    - intros i k m' p L T I. specialize (H i L). rewrite T in H. exact (H p I).
  Qed.
  Lemma set_fields m r i : all_set m r -> (i < length (md_fields (msg_at sch m)))%nat -> field_set (f_ty (field_at sch m i)) (nth i r VNull).
  Proof.
    intros H L. inversion H as [m0 r0 H1 H2 H3]; subst. unfold field_set.
    destruct (f_ty (field_at sch m i)) as [[t|m']|[t|m']|k [t|m']] eqn:T; auto.
    - intros x I. exact (H2 i m' x L T I).
    - intros p I. exact (H3 i k m' p L T I).
  Qed.

  Variable nm : names.
  Variable mj : microjson.
  Variable ok : list Z -> Prop.
  Variable conv : conversions.
  Variable floating : sty -> Z -> list Z -> Prop.
  Variable naming : list (list Z * Z) -> Z -> list Z -> Prop.
  Hypothesis R : right_on mj ok.
  Hypothesis Q : forall t, ok t -> quotes_only t.
  Hypothesis N : names_ok sch nm.
  Hypothesis Sch : schema_ok sch.

  Definition shows_members (m : nat) (obj : list value) (l : list (list Z * json)) : Prop :=
    Forall2 (fun i p => fst p = n_json nm m i /\ shows_field sch nm floating naming m i (nth i obj VNull) (snd p)) (md_order (msg_at sch m)) l.

  Lemma shown_object en m v j : shows sch nm floating naming en (EM m) v j -> exists obj l, j = JObj l /\ shows_members m obj l.
  Proof.
    intro H. remember (EM m) as e eqn:E. revert E. induction H as [en t v j S|en m0 obj l F|en m0 v j Nv S IH] using shows_ind; intro E; try discriminate E.
    - injection E as ->. exists obj, l. split; [reflexivity | exact F].
    - exact (IH E).
  Qed.

  Section Step.
    Variable rec : nat -> list Z -> res (list value).
    Variable n : nat.
    Hypothesis REC : forall m l u obj r, shows_members m obj l -> ok u -> text (JObj l) u -> rec m u = Ok r -> all_set m r.

    Lemma messages_set m : forall vs js t, values mj t vs -> Forall2 (handed ok) js vs ->
      (forall j, In j js -> exists obj l, j = JObj l /\ shows_members m obj l) -> forall k acc r,
      (forall x, In x acc -> exists r', x = VMsg r' /\ all_set m r') ->
      read_messages mj rec k m t acc = Ok r -> forall x, In x r -> exists r', x = VMsg r' /\ all_set m r'.
    Proof.
      induction vs as [|v vs IH]; intros js t V H J k acc r A E; destruct k as [|k]; try discriminate E; cbn [read_messages] in E.
      - inversion V as [|s Ne X|]; subst; [injection E as <-; exact A|]. destruct t; [contradiction|]. cbv zeta in E.
        rewrite skip_open_spec, X in E. injection E as <-. exact A.
      - inversion V as [| |s i v' vs' Ne X Le V']; subst. destruct t as [|c t]; [contradiction|]. cbv zeta in E. rewrite skip_open_spec, X in E.
        inversion H as [|j v' js' vs' Hj Hjs]; subst. destruct (J j (or_introl eq_refl)) as (obj & l & -> & Sh).
        destruct (handed_object ok _ _ Hj) as (u & -> & Ou & Tu & _ & _). cbn [snd] in E.
        apply bind_Ok in E. destruct E as (o & Eo & E). apply Nat.leb_le in Le. rewrite Le in E.
        eapply (IH js' _ V' Hjs (fun j I => J j (or_intror I)) k); [|exact E].
        intros x I. apply in_app_or in I. destruct I as [I|[<-|[]]]; [exact (A x I)|]. exists o. split; [reflexivity|].
        exact (REC _ _ _ _ _ Sh Ou Tu Eo).
    Qed.

    Lemma insert_set (P : value -> Prop) k key v : P v -> forall l, (forall p, In p l -> P (snd p)) ->
      forall p, In p (map_insert k key v l) -> P (snd p).
    Proof.
      intro Pv. induction l as [|[a w] l IH]; intros H p I; cbn [map_insert] in I.
      - destruct I as [<-|[]]. exact Pv.
      - destruct (key_ltb k key a); [destruct I as [<-|I]; [exact Pv | exact (H p I)]|].
        destruct (key_ltb k a key).
        + destruct I as [<-|I]; [exact (H (a, w) (or_introl eq_refl))|]. apply IH; [|exact I]. intros q Iq. apply H. now right.
        + destruct I as [<-|I]; [exact Pv|]. apply H. now right.
    Qed.

    Lemma pairs_set en k m : forall ps l t, properties mj t ps -> Forall2 (handed_member ok) l ps ->
      (forall p, In p l -> exists obj l', snd p = JObj l' /\ shows_members m obj l') -> forall f acc r,
      (forall p, In p acc -> exists r', snd p = VMsg r' /\ all_set m r') ->
      read_pairs mj conv rec f en k (EM m) t acc = Ok r -> forall p, In p r -> exists r', snd p = VMsg r' /\ all_set m r'.
    Proof.
      induction ps as [|[name v] ps IH]; intros l t V H J f acc r A E; destruct f as [|f]; try discriminate E; cbn [read_pairs] in E.
      - inversion V as [|s Ne X|]; subst; [injection E as <-; exact A|]. destruct t; [contradiction|]. cbv zeta in E.
        rewrite skip_open_spec, X in E. injection E as <-. exact A.
      - inversion V as [| |s i v' vs' Ne X Le V']; subst. destruct t as [|c t]; [contradiction|]. cbv zeta in E. rewrite skip_open_spec, X in E.
        inversion H as [|q q' l' ps' Hq Hl]; subst. destruct (J q (or_introl eq_refl)) as (obj & l1 & Eq & Sh).
        destruct Hq as (_ & _ & Hq). cbn [snd] in Hq. rewrite Eq in Hq.
        destruct (handed_object ok _ _ Hq) as (u & -> & Ou & Tu & Nu & _). cbn [read_entry_value snd] in E.
        destruct u as [|cu u]; [contradiction|].
        apply bind_Ok in E. destruct E as (val & Ev & E). apply bind_Ok in Ev. destruct Ev as (o & Eo & Ev). injection Ev as <-.
        apply Nat.leb_le in Le. rewrite Le in E.
        eapply (IH l' _ V' Hl (fun j I => J j (or_intror I)) f); [|exact E].
        apply (insert_set (fun x => exists r', x = VMsg r' /\ all_set m r')); [|exact A]. exists o. split; [reflexivity|].
        exact (REC _ _ _ _ _ Sh Ou Tu Eo).
    Qed.

    Definition with_messages (ty : fty) : bool := match ty with FSing (EM _) | FRep (EM _) | FMap _ (EM _) => true | _ => false end.

    Lemma value_set m i v j x y b : shows_field sch nm floating naming m i v j -> handed ok j x -> with_messages (f_ty (field_at sch m i)) = true ->
      read_value mj conv sch nm rec n m i x = Ok (y, b) ->
      same_bytes (snd x) (bytes_of "null") && is_object (fst x) = false /\ b = true /\
      forall old, field_set (f_ty (field_at sch m i)) (write_property (f_ty (field_at sch m i)) old y).
    Proof.
      intros Sh H W E. unfold read_value in E.
      destruct Sh as [m i e v j Ty Sy|m i t v l Ty Sy|m i m' v l Ty Sy|m i k e v l Ty Sy]; rewrite Ty in *; try discriminate W.
      - destruct e as [t|m']; [discriminate W|]. destruct (shown_object _ _ _ _ Sy) as (obj & l & -> & Sm).
        destruct (handed_object ok _ _ H) as (u & -> & Ou & Tu & Nu & Nn). cbn [fst snd is_object] in *.
        destruct (same_bytes u (bytes_of "null")) eqn:X; [apply same_bytes_spec in X; contradiction|]. split; [reflexivity|].
        destruct u as [|c u]; [contradiction|]. apply bind_Ok in E. destruct E as (o & Eo & E). injection E as <- <-. split; [reflexivity|].
        intro old. cbn [write_property field_set]. exists o. split; [reflexivity|]. exact (REC _ _ _ _ _ Sm Ou Tu Eo).
      - destruct (handed_array ok _ _ H) as (u & -> & Ou & Tu & Nu). cbn [fst snd is_object] in *. split; [apply andb_false_r|].
        destruct u as [|c u]; [contradiction|]. apply bind_Ok in E. destruct E as (vs & Ev & E). injection E as <- <-. split; [reflexivity|].
        intros old. cbn [write_property field_set list_of].
        assert (J : forall j, In j l -> exists obj l', j = JObj l' /\ shows_members m' obj l').
        { intros j I. clear - Sy I. induction Sy as [|a b la lb Sa Sl IH]; [contradiction|]. destruct I as [<-|I]; [|now apply IH].
          exact (shown_object _ _ _ _ Sa). }
        destruct R as (_ & _ & R3 & _). destruct (R3 l _ Ou Tu) as (xs & V & Hx).
        { apply Forall_forall. intros j I. destruct (J j I) as (o & l' & -> & _). exact Logic.I. }
        apply (messages_set m' xs l _ V Hx J n [] vs); [intros x []|exact Ev].
      - destruct e as [t|m']; [discriminate W|].
        destruct (handed_object ok _ _ H) as (u & -> & Ou & Tu & Nu & Nn). cbn [fst snd is_object] in *.
        destruct (same_bytes u (bytes_of "null")) eqn:X; [apply same_bytes_spec in X; contradiction|]. split; [reflexivity|].
        destruct u as [|c u]; [contradiction|]. apply bind_Ok in E. destruct E as (vs & Ev & E). injection E as <- <-. split; [reflexivity|].
        intros old. cbn [write_property field_set map_of store_map].
        assert (J : forall p, In p l -> exists obj l', snd p = JObj l' /\ shows_members m' obj l').
        { intros p I. clear - Sy I. induction Sy as [|a b la lb [_ Sa] Sl IH]; [contradiction|]. destruct I as [<-|I]; [|now apply IH].
          exact (shown_object _ _ _ _ Sa). }
        destruct R as (_ & _ & _ & R4). destruct (R4 l _ Ou Tu) as (ps & V & Hp).
        apply (pairs_set (n_enum nm m i) k m' ps l _ V Hp J n [] vs); [intros x []|exact Ev].
    Qed.

    Lemma null_members m i v j x : shows_field sch nm floating naming m i v j -> handed ok j x -> with_messages (f_ty (field_at sch m i)) = true ->
      same_bytes (snd x) (bytes_of "null") && is_object (fst x) = false.
    Proof.
      intros Sh H W.
      destruct Sh as [m i e v j Ty Sy|m i t v l Ty Sy|m i m' v l Ty Sy|m i k e v l Ty Sy]; rewrite Ty in *; try discriminate W.
      - destruct e as [t|m']; [discriminate W|]. destruct (shown_object _ _ _ _ Sy) as (obj & l & -> & Sm).
        destruct (handed_object ok _ _ H) as (u & -> & Ou & Tu & Nu & Nn). cbn [fst snd is_object] in *.
        destruct (same_bytes u (bytes_of "null")) eqn:X; [apply same_bytes_spec in X; contradiction|]. reflexivity.
      - destruct (handed_array ok _ _ H) as (u & -> & Ou & Tu & Nu). cbn [fst snd is_object] in *. apply andb_false_r.
      - destruct (handed_object ok _ _ H) as (u & -> & Ou & Tu & Nu & Nn). cbn [fst snd is_object] in *.
        destruct (same_bytes u (bytes_of "null")) eqn:X; [apply same_bytes_spec in X; contradiction|]. reflexivity.
    Qed.

    Local Notation found m name := (find (fun i => same_bytes (n_json nm m i) name) (md_order (msg_at sch m))).

    Lemma members_set m : forall ps obj r,
      (forall name x i, In (name, x) ps -> found m name = Some i -> exists v j, shows_field sch nm floating naming m i v j /\ handed ok j x) ->
      length obj = length (md_fields (msg_at sch m)) ->
      read_members mj conv sch nm rec n m ps obj = Ok r -> forall i, (i < length obj)%nat ->
      with_messages (f_ty (field_at sch m i)) = true ->
      field_set (f_ty (field_at sch m i)) (nth i obj VNull) \/ (exists name x, In (name, x) ps /\ found m name = Some i) ->
      field_set (f_ty (field_at sch m i)) (nth i r VNull).
    Proof.
      induction ps as [|[name x] ps IH]; intros obj r G L E i Li W D; cbn [read_members] in E.
      - injection E as <-. destruct D as [D|(name & x & [] & _)]. exact D.
      - assert (G' : forall name x i, In (name, x) ps -> found m name = Some i -> exists v j, shows_field sch nm floating naming m i v j /\ handed ok j x)
          by (intros a b c I; apply G; now right).
        destruct (found m name) as [i0|] eqn:Fi.
        + destruct (G name x i0 (or_introl eq_refl) Fi) as (v & j & Sh & H). cbv zeta in E.
          destruct (Nat.eq_dec i0 i) as [->|Ne].
          * rewrite (null_members _ _ _ _ _ Sh H W) in E. apply bind_Ok in E. destruct E as ([y b] & Ev & E). cbn [fst snd] in E.
            destruct (value_set _ _ _ _ _ _ _ Sh H W Ev) as (_ & -> & Fs).
            refine (IH _ r G' _ E i _ W _); [now rewrite MessageProofs.update_length | now rewrite MessageProofs.update_length |].
            left. rewrite nth_update, Nat.eqb_refl. apply Nat.ltb_lt in Li. rewrite Li. apply Fs.
          * assert (K : forall w, field_set (f_ty (field_at sch m i)) (nth i (update i0 w obj) VNull) \/ (exists name x, In (name, x) ps /\ found m name = Some i)).
            { intro w. destruct D as [D|(name' & x' & [I|I] & F)]; [|injection I as -> ->; congruence|right; eauto].
              left. rewrite nth_update. apply Nat.eqb_neq in Ne. now rewrite Ne. }
            destruct (_ && _).
            { refine (IH _ r G' _ E i _ W _); [now rewrite MessageProofs.update_length | now rewrite MessageProofs.update_length | apply K]. }
            apply bind_Ok in E. destruct E as ([y b] & Ev & E). cbn [fst snd] in E. destruct b.
            { refine (IH _ r G' _ E i _ W _); [now rewrite MessageProofs.update_length | now rewrite MessageProofs.update_length | apply K]. }
            refine (IH _ r G' L E i Li W _).
            destruct D as [D|(name' & x' & [I|I] & F)]; [now left|injection I as -> ->; congruence|right; eauto].
        + refine (IH _ r G' L E i Li W _).
          destruct D as [D|(name' & x' & [I|I] & F)]; [now left|injection I as -> ->; congruence|right; eauto].
    Qed.
  End Step.

  Lemma NoDup_map_eq {A B : Type} (f : A -> B) l : NoDup (map f l) -> forall a b, In a l -> In b l -> f a = f b -> a = b.
  Proof.
    induction l as [|x l IH]; intros H a b Ia Ib E; [contradiction|]. cbn [map] in H. inversion H as [|y l' Nx H']; subst.
    destruct Ia as [<-|Ia], Ib as [<-|Ib]; auto.
    - exfalso. apply Nx. rewrite E. now apply in_map.
    - exfalso. apply Nx. rewrite <- E. now apply in_map.
  Qed.

  Lemma Forall2_right {A B : Type} (P : A -> B -> Prop) l l' : Forall2 P l l' -> forall y, In y l' -> exists x, In x l /\ P x y.
  Proof. induction 1 as [|a b l l' H F IH]; intros y [].  - subst. exists a. split; [now left | exact H]. - destruct (IH y H0) as (x & I & X). exists x. split; [now right | exact X]. Qed.
  Lemma Forall2_left {A B : Type} (P : A -> B -> Prop) l l' : Forall2 P l l' -> forall x, In x l -> exists y, In y l' /\ P x y.
  Proof. induction 1 as [|a b l l' H F IH]; intros y [].  - subst. exists b. split; [now left | exact H]. - destruct (IH y H0) as (x & I & X). exists x. split; [now right | exact X]. Qed.

  Lemma object_set : forall fuel m l u obj base r, shows_members m obj l -> ok u -> text (JObj l) u ->
    length base = length (md_fields (msg_at sch m)) ->
    read_object fuel mj conv sch nm m u base = Ok r -> all_set m r.
  Proof.
    induction fuel as [|fuel IH]; intros m l u obj base r Sh Ou Tu Lb E; [discriminate E|]. cbn [read_object] in E.
    pose proof R as (R1 & _). destruct N as (N1 & N2 & _).
    assert (Nl : NoDup (map fst l)).
    { replace (map fst l) with (map (n_json nm m) (md_order (msg_at sch m))); [apply N1|].
      clear - Sh. unfold shows_members in Sh. induction Sh as [|a b la lb [Sa _] Sl IHl]; [reflexivity|]. cbn [map]. now rewrite Sa, IHl. }
    destruct (R1 l u Ou Tu Nl) as (ps & Pe & Hp).
    assert (Member : forall q, In q ps -> exists i, In i (md_order (msg_at sch m)) /\ fst q = n_json nm m i /\
              exists j, shows_field sch nm floating naming m i (nth i obj VNull) j /\ handed ok j (snd q)).
    { intros q I. destruct (Forall2_right _ _ _ Hp q I) as (p & Ip & (H1 & H2 & H3)).
      destruct (Forall2_right _ _ _ Sh p Ip) as (i & Ii & Ei & Si). exists i. split; [exact Ii|]. split; [|eauto].
      rewrite <- Ei. symmetry. symmetry. rewrite Ei in *. apply quoted_plain_eq; [|apply N2]. apply chars_quoted; [exact H2|].
      exact (quotes_tail 34 _ (Q _ H1)). }
    assert (Found : forall i, In i (md_order (msg_at sch m)) ->
              find (fun i' => same_bytes (n_json nm m i') (n_json nm m i)) (md_order (msg_at sch m)) = Some i).
    { intros i I. destruct (find _ _) as [i'|] eqn:F.
      - apply find_some in F. destruct F as [I' F]. apply same_bytes_spec in F. f_equal. exact (NoDup_map_eq _ _ (N1 m) _ _ I' I F).
      - exfalso. pose proof (find_none _ _ F i I) as X. cbn in X. rewrite same_bytes_refl in X. discriminate X. }
    apply fields_set. intros i Li.
    destruct (with_messages (f_ty (field_at sch m i))) eqn:W.
    2: { unfold with_messages in W. unfold field_set. destruct (f_ty (field_at sch m i)) as [[t|m']|[t|m']|k [t|m']]; try discriminate W; exact Logic.I. }
    refine (members_set _ fuel _ m _ base r _ Lb E i _ W _).
    - intros m' l' u' obj' r' Sh' Ou' Tu' E'. apply (IH m' l' u' obj' _ r' Sh' Ou' Tu' (default_obj_length sch m') E').
    - intros name x i' I F. apply (Permutation_in _ Pe) in I. destruct (Member _ I) as (i0 & I0 & E0 & j & Sj & Hj). cbn [fst snd] in *.
      subst name. rewrite (Found i0 I0) in F. injection F as <-. eauto.
    - rewrite Lb. exact Li.
    - right. pose proof (msg_at_ok sch m Sch) as (_ & _ & _ & Cov). apply Cov in Li.
      destruct (Forall2_left _ _ _ Sh i Li) as (p & Ip & _). destruct (Forall2_left _ _ _ Sh i Li) as (p' & Ip' & Ei & _).
      destruct (Forall2_left _ _ _ Hp p' Ip') as ([name x] & Iq & Hq). destruct Hq as (H1 & H2 & H3). cbn [fst snd] in *.
      assert (name = n_json nm m i) as ->.
      { rewrite Ei in H2. apply quoted_plain_eq; [|apply N2]. apply chars_quoted; [exact H2|]. exact (quotes_tail 34 _ (Q _ H1)). }
      exists (n_json nm m i), x. split; [apply (Permutation_in _ (Permutation_sym Pe)); exact Iq | now apply Found].
  Qed.
End Set_.

(** ** The round trip *)

Section Back.
  Variables Url Image : Type.
  Variable url_string : Url -> list Z.
  Variable url_parse : list Z -> Url.
  Variable png_save : Image -> list Z.
  Variable image_load : list Z -> list Z -> Image.
  Variable to_rgb : Z -> Z * Z * Z * Z -> Z * Z * Z * Z.
  Local Notation qtval := (qtval Url Image).
  Local Notation mvalue := (mvalue Url Image).
  Variable qt_eq : qtval -> qtval -> bool.
  Variable new_qt : kind -> qtval.
  Variable sch : schema.
  Variable qt_field : nat -> nat -> option kind.
  Hypothesis Sch : schema_ok sch.
  Hypothesis Lib : has_library sch.
  Hypothesis Qok : qt_fields_ok sch qt_field.
  Local Notation sendable := (sendable url_string url_parse png_save image_load new_qt sch qt_field).
  Local Notation alike := (alike qt_eq new_qt sch qt_field).
  Local Notation alike_member := (alike_member qt_eq new_qt sch qt_field).
  Local Notation stands_for := (stands_for url_string png_save to_rgb new_qt sch qt_field).
  Local Notation json_read_as := (json_read_as url_parse image_load qt_eq new_qt sch qt_field).
  Local Notation json_read_member := (json_read_member url_parse image_load qt_eq new_qt sch qt_field).

  Definition back (m : nat) (obj : list mvalue) : Prop := forall p r rp,
    stands_for m obj p -> object_ok sch m p -> object_ok sch m rp -> all_set sch m rp ->
    same sch m rp (map drop_nulls p) -> json_read_as m r rp -> alike m r obj.

  Lemma message_back m' o p' gs r : back m' o -> stands_for m' o p' -> object_ok sch m' p' -> object_ok sch m' gs -> all_set sch m' gs ->
    canon_field sch (FSing (EM m')) (VMsg gs) = canon_field sch (FSing (EM m')) (drop_nulls (VMsg p')) ->
    json_read_as m' r gs -> alike m' r o.
  Proof.
    intros B S Op Og St C H. apply (B p' r gs S Op Og St); [|exact H].
    exact (proj1 (same_message sch m' (VMsg gs) (VMsg (map drop_nulls p')) Og (JsonReadFacts.drop_object sch m' p' Op)) C).
  Qed.

  Lemma element_back m' o p' gs r : back m' o -> stands_for m' o p' -> object_ok sch m' p' -> object_ok sch m' gs -> all_set sch m' gs ->
    canon_elem sch (EM m') (VMsg gs) = canon_elem sch (EM m') (drop_nulls (VMsg p')) -> json_read_as m' r gs -> alike m' r o.
  Proof.
    intros B S Op Og St C H. apply (B p' r gs S Op Og St); [|exact H]. cbn [drop_nulls] in C. rewrite !canon_elem_msg in C.
    injection C as C. exact C.
  Qed.

  Lemma list_back m' l l' :
    Forall2 (fun x y => x = MNull /\ y = VNull \/ exists obj p, x = MMsg obj /\ y = VMsg p /\ stands_for m' obj p) l l' ->
    (forall x, In x l -> x = MNull \/ exists o, x = MMsg o /\ back m' o) -> (forall y, In y l' -> elem_ok sch (EM m') y) ->
    forall rl gl, Forall2 (fun x y => exists r p, x = MMsg r /\ y = VMsg p /\ json_read_as m' r p) rl gl ->
    (forall y, In y gl -> elem_ok sch (EM m') y /\ exists g, y = VMsg g /\ all_set sch m' g) ->
    map (canon_elem sch (EM m')) gl = map (canon_elem sch (EM m')) (flat_map (fun x => match x with VNull => [] | _ => [drop_nulls x] end) l') ->
    Forall2 (fun x y => exists r obj, x = MMsg r /\ y = MMsg obj /\ alike m' r obj) rl (set_elements l).
  Proof.
    induction 1 as [|x y l l' D F IH]; intros B O rl gl G Og C.
    - destruct G; [constructor|]. discriminate C.
    - specialize (IH (fun a I => B a (or_intror I)) (fun a I => O a (or_intror I))).
      destruct D as [[-> ->]|(o & p & -> & -> & S)].
      + cbn [flat_map app] in C. exact (IH rl gl G Og C).
      + cbn [flat_map app map] in C. destruct G as [|a b rl gl (r & g & -> & -> & H) G]; [discriminate C|].
        cbn [map] in C. pose proof (f_equal (hd VNull) C) as C1. pose proof (f_equal (@tl value) C) as C2. cbn [hd tl] in C1, C2.
        cbn [set_elements filter]. constructor.
        * exists r, o. split; [reflexivity|]. split; [reflexivity|].
          destruct (B (MMsg o) (or_introl eq_refl)) as [X|(o' & X & Bo)]; [discriminate X|]. injection X as <-.
          destruct (Og (VMsg g) (or_introl eq_refl)) as [Og1 (g' & X & Sg)]. injection X as <-.
          exact (element_back m' o p g r Bo S (O _ (or_introl eq_refl)) Og1 Sg C1 H).
        * exact (IH rl gl G (fun a I => Og a (or_intror I)) C2).
  Qed.

  Lemma entries_back k m' l l' :
    Forall2 (fun x y => fst x = fst y /\ (snd x = MNull /\ snd y = VNull \/
      exists obj p, snd x = MMsg obj /\ snd y = VMsg p /\ stands_for m' obj p)) l l' ->
    (forall a x, In (a, x) l -> x = MNull \/ exists o, x = MMsg o /\ back m' o) -> (forall y, In y l' -> elem_ok sch (EM m') (snd y)) ->
    forall rl gl, Forall2 (fun x y => fst x = fst y /\ (snd x = MNull /\ snd y = VNull \/
      exists r p, snd x = MMsg r /\ snd y = VMsg p /\ json_read_as m' r p)) rl gl ->
    (forall y, In y gl -> elem_ok sch (EM m') (snd y) /\ exists g, snd y = VMsg g /\ all_set sch m' g) ->
    map (fun p => (canon_scalar k (fst p), canon_elem sch (EM m') (snd p))) gl =
    map (fun p => (canon_scalar k (fst p), canon_elem sch (EM m') (snd p)))
      (flat_map (fun p => match snd p with VNull => [] | _ => [(fst p, drop_nulls (snd p))] end) l') ->
    Forall2 (fun p q => canon_scalar k (fst p) = canon_scalar k (fst q) /\
      exists r obj, snd p = MMsg r /\ snd q = MMsg obj /\ alike m' r obj) rl (set_entries l).
  Proof.
    induction 1 as [|[a x] [b y] l l' [E D] F IH]; intros B O rl gl G Og C.
    - destruct G; [constructor|]. discriminate C.
    - specialize (IH (fun a x I => B a x (or_intror I)) (fun a I => O a (or_intror I))). cbn [fst snd] in E, D. subst b.
      destruct D as [[-> ->]|(o & p & -> & -> & S)].
      + cbn [flat_map app snd] in C. exact (IH rl gl G Og C).
      + cbn [flat_map app map fst snd] in C. destruct G as [|[c u] [d v] rl gl [Ek G1] G]; [discriminate C|].
        cbn [map fst snd] in *. subst d.
        pose proof (f_equal (fun l => fst (hd (SNum 0, VNull) l)) C) as C1. pose proof (f_equal (fun l => snd (hd (SNum 0, VNull) l)) C) as C2.
        pose proof (f_equal (@tl (scalar * value)) C) as C3. cbn [hd tl fst snd] in C1, C2, C3. cbn [set_entries filter snd].
        destruct (Og (c, v) (or_introl eq_refl)) as [Og1 (g & Eg & Sg)]. cbn [snd] in Og1, Eg. subst v.
        destruct G1 as [[_ X]|(r & g' & -> & X & H)]; [discriminate X|]. injection X as <-.
        constructor.
        * cbn [fst snd]. split; [exact C1|]. exists r, o. split; [reflexivity|]. split; [reflexivity|].
          destruct (B a (MMsg o) (or_introl eq_refl)) as [X|(o' & X & Bo)]; [discriminate X|]. injection X as <-.
          refine (element_back m' o p g r Bo S (O _ (or_introl eq_refl)) Og1 Sg _ H). exact C2.
        * exact (IH rl gl G (fun a I => Og a (or_intror I)) C3).
  Qed.

  Lemma every_in {A : Type} (P : A -> Prop) l : every P l -> forall x, In x l -> P x.
  Proof. intros H x I. apply every_Forall in H. rewrite Forall_forall in H. now apply H. Qed.

  Lemma sendable_back : forall m obj, sendable m obj -> back m obj.
  Proof.
    fix SS 3. intros m obj Sd. destruct Sd as [m obj L M]. intros p r rp S Op Og St Sm H.
    inversion H as [m0 r0 p0 L1 L2 HM E1 E2 E3]; subst m0 r0 p0. constructor; [exact L1|]. intros i Li.
    assert (Lo : (i < length obj)%nat) by lia. assert (Lf : (i < length (md_fields (msg_at sch m)))%nat) by lia.
    specialize (M i Lo). specialize (HM i Li).
    assert (SM : stands_member url_string png_save to_rgb new_qt sch qt_field m i (nth i obj MNull) (nth i p VNull)).
    { inversion S as [m0 o0 p0 X E1 E2 E3]; subst m0 o0 p0. now apply X. }
    pose proof (nth_ok sch m i p Op Lf) as Vp. pose proof (nth_ok sch m i rp Og Lf) as Vg.
    pose proof (set_fields sch m rp i St Lf) as Fs.
    assert (C : canon_field sch (f_ty (field_at sch m i)) (nth i rp VNull) = canon_field sch (f_ty (field_at sch m i)) (drop_nulls (nth i p VNull))).
    { unfold same in Sm. rewrite !canon_obj_spec in Sm. apply (f_equal (fun l => nth i l VNull)) in Sm.
      assert (Lp : length p = length (md_fields (msg_at sch m))).
      { apply object_ok_spec in Op. symmetry. clear - Op. induction Op; cbn [length]; auto. }
      rewrite !canon_fields_nth in Sm by (rewrite ?map_length; lia).
      change VNull with (drop_nulls VNull) in Sm at 2. rewrite map_nth in Sm. exact Sm. }
    clear S Op Og St Sm H L L1 L2 Li Lo Lf.
    set (x := nth i obj MNull) in *. set (y := nth i p VNull) in *. set (z := nth i r MNull) in *. set (g := nth i rp VNull) in *.
    clearbody x y z g. clear obj p r rp.
    destruct M as [m i q Q F|m i v Q W Ty|m i m' o Q T Sd|m i m' Q T Sd|m i m' l Q T El|m i k m' l Q T As El].
    - inversion SM as [? ? k q' fs Q' T E1 E2 E3 E4 | | | | |]; subst; try congruence.
      rewrite (Qok _ _ _ Q) in *. destruct Fs as (gs & -> & _).
      inversion HM as [? ? k' x w fs' Q'' W D | | | | | |]; subst; try congruence.
      rewrite Q in Q''. injection Q'' as <-.
      destruct (to_message_ok Url Image url_string url_parse png_save image_load to_rgb sch Lib q F) as (fs0 & T0 & Of & Df).
      rewrite T in T0. injection T0 as <-.
      assert (Sg : same sch (index (kind_of Url Image q)) gs fs).
      { cbn [drop_nulls] in C. rewrite Df in C. exact (proj1 (same_message sch _ (VMsg gs) (VMsg fs) Vg Of) C). }
      destruct (of_message_back Url Image url_string url_parse png_save image_load to_rgb sch Lib q fs gs F T Vg Sg) as (w' & W' & Sw).
      rewrite W in W'. injection W' as <-. eapply alike_qt; eauto.
    - inversion SM; subst; try congruence; try (match goal with E : f_ty _ = _ |- _ => rewrite E in W; contradiction end).
      inversion HM; subst; try congruence; try (match goal with E : f_ty _ = _ |- _ => rewrite E in W; contradiction end).
      apply alike_plain. unfold same_field. rewrite C. f_equal. exact (typed_drop _ _ W Ty).
    - inversion SM as [| |? ? m1 ? p' _ T1 S1| | |]; subst; try congruence.
      rewrite T in *. injection T1 as <-. destruct Fs as (gs & -> & Sg).
      inversion HM as [| | ? ? ? ? W | |? ? m2 r' ? _ T2 H2| |]; subst; try congruence; [rewrite T in W; contradiction|].
      rewrite T in T2. injection T2 as <-. eapply alike_message; [exact T|].
      exact (message_back m' o p' gs r' (SS m' o Sd) S1 Vp Vg Sg C H2).
    - inversion SM as [| | |? ? m1 p' _ T1 S1| |]; subst; try congruence.
      rewrite T in *. injection T1 as <-. destruct Fs as (gs & -> & Sg).
      inversion HM as [| | ? ? ? ? W | |? ? m2 r' ? _ T2 H2| |]; subst; try congruence; [rewrite T in W; contradiction|].
      rewrite T in T2. injection T2 as <-. eapply alike_unset; [exact T|].
      exact (message_back m' _ p' gs r' (SS m' _ Sd) S1 Vp Vg Sg C H2).
    - inversion SM as [| | | |? ? m1 ? l' _ T1 F1|]; subst; try congruence.
      rewrite T in *. injection T1 as <-.
      inversion HM as [| | ? ? ? ? W | | |? ? m2 rl gl _ T2 F2|]; subst; try congruence; [rewrite T in W; contradiction|].
      rewrite T in T2. injection T2 as <-. eapply alike_list; [exact T|].
      cbn [val_ok] in Vp, Vg. cbn [field_set list_of] in Fs. cbn [drop_nulls canon_field list_of] in C. injection C as C.
      apply (list_back m' l l' F1) with (gl := gl).
      + intros x J. destruct (El x J) as [E|(o & E & Sd)]; [left; exact E|]. right. exists o. split; [exact E|]. exact (SS m' o Sd).
      + exact (every_in _ _ Vp).
      + exact F2.
      + intros y J. split; [exact (every_in _ _ Vg y J) | exact (Fs y J)].
      + exact C.
    - inversion SM as [| | | | |? ? k1 m1 ? l' _ T1 F1]; subst; try congruence.
      rewrite T in *. injection T1 as <- <-.
      inversion HM as [| | ? ? ? ? W | | | |? ? k2 m2 rl gl _ T2 F2]; subst; try congruence; [rewrite T in W; contradiction|].
      rewrite T in T2. injection T2 as <- <-. eapply alike_map; [exact T|].
      cbn [val_ok] in Vp, Vg. cbn [field_set map_of] in Fs. cbn [drop_nulls canon_field map_of] in C. injection C as C.
      destruct Vp as [_ Vp]. destruct Vg as [_ Vg].
      apply (entries_back k m' l l' F1) with (gl := gl).
      + intros a x J. destruct (El a x J) as [_ [E|(o & E & Sd)]]; [left; exact E|]. right. exists o. split; [exact E|]. exact (SS m' o Sd).
      + intros y J. exact (proj2 (every_in _ _ Vp y J)).
      + exact F2.
      + intros y J. split; [exact (proj2 (every_in _ _ Vg y J)) | exact (Fs y J)].
      + exact C.
  Qed.
End Back.

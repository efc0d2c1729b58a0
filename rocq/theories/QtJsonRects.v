(** Proofs: rectangles in the JSON texts of messages that are sent faithfully do not overflow. *)

From Coq Require Import String ZArith List Bool Lia Arith Permutation.
From Verif Require Import Base WireModel Values MessageModel WireSpec WireProofs MessageSpec MessageProofs SerializeProofs
  MessageFacts TypedProofs ObjectProofs RunFacts PropFacts QtTypesModel QtTypesSpec QtTypesProofs QtFieldsModel QtFieldsSpec QtFieldsProofs
  QtFieldsTrack JsonSpec JsonModel JsonProofs JsonUnique JsonReadModel JsonReadSpec JsonReadProofs JsonReadFacts JsonTyped PropertiesJsonRead
  QtJsonModel QtJsonSpec QtJsonProofs QtJsonBack.
Import ListNotations.
Open Scope Z_scope.

Section Rects.
  Variables Url Image : Type.
  Variable url_string : Url -> list Z.
  Variable url_parse : list Z -> Url.
  Variable png_save : Image -> list Z.
  Variable image_load : list Z -> list Z -> Image.
  Variable to_rgb : Z -> Z * Z * Z * Z -> Z * Z * Z * Z.
  Local Notation qtval := (qtval Url Image).
  Local Notation mvalue := (mvalue Url Image).
  Variable qt_eq : qtval -> qtval -> bool.
  Variable new_qt : kind -> qtval.
  Variable sch : schema.
  Variable qt_field : nat -> nat -> option kind.
  Variable nm : names.
  Variable mj : microjson.
  Variable ok : list Z -> Prop.
  Variable conv : conversions.
  Hypothesis R : right_on mj ok.
  Hypothesis Q : forall t, ok t -> quotes_only t.
  Hypothesis Gb : gives_bytes mj.
  Hypothesis Gf : gives_floats conv.
  Hypothesis N : names_ok sch nm.
  Hypothesis En : enum_values nm.
  Hypothesis Sch : schema_ok sch.
  Hypothesis Lib : has_library sch.
  Hypothesis Qok : qt_fields_ok sch qt_field.
  Hypothesis Nb : forall m i e, f_ty (field_at sch m i) <> FMap TBool e.
  Local Notation sendable := (sendable url_string url_parse png_save image_load new_qt sch qt_field).
  Local Notation sendable_member := (sendable_member url_string url_parse png_save image_load new_qt sch qt_field).
  Local Notation stands_for := (stands_for url_string png_save to_rgb new_qt sch qt_field).
  Local Notation stands_member := (stands_member url_string png_save to_rgb new_qt sch qt_field).
  Local Notation shows_members := (shows_members sch nm (reads_as conv) named).
  Local Notation shows_field := (shows_field sch nm (reads_as conv) named).
  Local Notation mixed_json_read := (mixed_json_read Url Image url_parse image_load qt_eq new_qt sch nm qt_field mj conv).

  (** A text for a message that is sent faithfully. *)
  Definition faithful_json (m : nat) (j : json) : Prop :=
    exists obj p l, j = JObj l /\ sendable m obj /\ stands_for m obj p /\ object_ok sch m p /\ shows_members m p l.

  Lemma shows_object en m p j : shows sch nm (reads_as conv) named en (EM m) (VMsg p) j -> exists l, j = JObj l /\ shows_members m p l.
  Proof.
    intro H. inversion H as [|en' m' obj l F|en' m' v j' Nv S]; subst.
    - exists l. auto.
    - exfalso. exact (Nv p eq_refl).
  Qed.

  Section Step.
    Variable fuel : nat.
    Variable rec : nat -> list Z -> res (list mvalue).
    Local Notation plain := (fun m' data' => read_object fuel mj conv sch nm m' data' (default_obj sch m')).
    Hypothesis REC : forall m j u r, faithful_json m j -> ok u -> bytes u -> text j u -> plain m u = Ok r -> rec m u <> UB SignedOverflow.

    Lemma bytes_unopened c s : bytes s -> bytes (unopened c s).
    Proof. intro B. unfold unopened. destruct (_ =? _); [|exact B]. destruct s; [exact B|]. now inversion B. Qed.
    Lemma bytes_skipn i s : bytes s -> bytes (skipn i s).
    Proof. intro B. unfold bytes in *. rewrite <- (firstn_skipn i s) in B. apply Forall_app in B. apply B. Qed.

    Lemma messages_calm m : forall vs js t, values mj t vs -> Forall2 (handed ok) js vs -> bytes t ->
      (forall j, In j js -> faithful_json m j) -> forall k acc acc' r,
      read_messages mj plain k m t acc' = Ok r -> mixed_messages Url Image mj rec k m t acc <> UB SignedOverflow.
    Proof.
      induction vs as [|v vs IH]; intros js t V H B J k acc acc' r E; destruct k as [|k]; try discriminate E;
        cbn [read_messages] in E; cbn [QtJsonModel.mixed_messages].
      - inversion V as [|s Ne X|]; subst; [discriminate|]. destruct t; [contradiction|]. cbv zeta. rewrite skip_open_spec, X. discriminate.
      - inversion V as [| |s i v' vs' Ne X Le V']; subst. destruct t as [|c t]; [contradiction|]. cbv zeta in *. rewrite skip_open_spec, X in *.
        inversion H as [|j v' js' vs' Hj Hjs]; subst. pose proof (J j (or_introl eq_refl)) as Fj.
        pose proof (bytes_unopened 91 _ B) as B1. pose proof (proj1 (proj2 (proj2 Gb)) _ _ _ _ B1 X) as Bv.
        assert (exists l, j = JObj l) as (l & ->) by (destruct Fj as (o & p & l & -> & _); eauto).
        destruct (handed_object ok _ _ Hj) as (u & -> & Ou & Tu & _ & _). cbn [snd] in *.
        apply bind_Ok in E. destruct E as (o & Eo & E). apply Nat.leb_le in Le. rewrite Le in *.
        pose proof (REC _ _ _ _ Fj Ou Bv Tu Eo) as C. destruct (rec m u) as [w|e|ub|]; try discriminate; [|cbn [bind]; intro X0; injection X0 as ->; now apply C]. cbn [bind].
        eapply (IH js' _ V' Hjs); [now apply bytes_skipn | intros j I; apply J; now right | exact E].
    Qed.

    Lemma pairs_calm en k m : forall ps l t, properties mj t ps -> Forall2 (handed_member ok) l ps -> bytes t ->
      (forall p, In p l -> faithful_json m (snd p)) -> forall f acc acc' r,
      read_pairs mj conv plain f en k (EM m) t acc' = Ok r -> mixed_pairs Url Image mj conv rec f k m t acc <> UB SignedOverflow.
    Proof.
      induction ps as [|[name v] ps IH]; intros l t V H B J f acc acc' r E; destruct f as [|f]; try discriminate E;
        cbn [read_pairs] in E; cbn [QtJsonModel.mixed_pairs].
      - inversion V as [|s Ne X|]; subst; [discriminate|]. destruct t; [contradiction|]. cbv zeta. rewrite skip_open_spec, X. discriminate.
      - inversion V as [| |s i v' vs' Ne X Le V']; subst. destruct t as [|c t]; [contradiction|]. cbv zeta in *. rewrite skip_open_spec, X in *.
        inversion H as [|q q' l' ps' Hq Hl]; subst. pose proof (J q (or_introl eq_refl)) as Fq.
        pose proof (bytes_unopened 123 _ B) as B1. pose proof (proj2 (proj2 (proj2 Gb)) _ _ _ _ _ B1 X) as [_ Bv].
        destruct Hq as (_ & _ & Hq). cbn [snd] in *.
        assert (exists l1, snd q = JObj l1) as (l1 & Eq) by (destruct Fq as (o & p & l1 & -> & _); eauto).
        rewrite Eq in *. destruct (handed_object ok _ _ Hq) as (u & -> & Ou & Tu & Nu & _). cbn [read_entry_value snd] in *.
        destruct u as [|cu u]; [contradiction|].
        apply bind_Ok in E. destruct E as (val & Ev & E). apply bind_Ok in Ev. destruct Ev as (o & Eo & Ev). injection Ev as <-.
        apply Nat.leb_le in Le. rewrite Le in *.
        pose proof (REC _ _ _ _ Fq Ou Bv Tu Eo) as C. destruct (rec m (cu :: u)) as [w|e|ub|]; try discriminate; [|cbn [bind]; intro X0; injection X0 as ->; now apply C]. cbn [bind].
        eapply (IH l' _ V' Hl); [now apply bytes_skipn | intros j I; apply J; now right | exact E].
    Qed.

    Lemma rect_calm q fs l u gs : faithful url_string url_parse png_save image_load q -> to_message Url Image url_string png_save to_rgb q = Ok fs ->
      shows_members (index (kind_of Url Image q)) fs l -> ok u -> bytes u -> text (JObj l) u ->
      plain (index (kind_of Url Image q)) u = Ok gs ->
      exists w, of_message Url Image url_parse image_load (kind_of Url Image q) gs = Ok w.
    Proof.
      intros F T Sh Ou Bu Tu E.
      destruct (to_message_ok Url Image url_string url_parse png_save image_load to_rgb sch Lib q F) as (fs0 & T0 & Of & Df).
      rewrite T in T0. injection T0 as <-.
      pose proof (read_object_ok mj conv sch nm Gb Gf En Sch _ _ _ _ _ Bu (default_ok sch _) E) as Og.
      pose proof (shows_says_object sch nm (reads_as conv) N Sch Nb (jsize (JObj l)) _ fs l (default_obj sch (index (kind_of Url Image q))) (le_n _) Sh Of) as Sy.
      rewrite Df in Sy.
      destruct (C60_reads_partial mj ok conv sch nm _ (default_obj sch (index (kind_of Url Image q))) fs l u R Q N Sch Of) as (r & (f & Er) & Sm); auto.
      { rewrite default_obj_length. symmetry. now apply object_ok_length. }
      assert (r = gs) as ->.
      { apply (read_mono _ _ _ _ _ (Nat.max f fuel)) in Er; [|lia]. apply (read_mono _ _ _ _ _ (Nat.max f fuel)) in E; [|lia]. congruence. }
      destruct (of_message_back Url Image url_string url_parse png_save image_load to_rgb sch Lib q fs gs F T Og Sm) as (w & W & _). eauto.
    Qed.

    Lemma value_calm m i x v j y z : sendable_member m i x -> stands_member m i x v -> val_ok sch (f_ty (field_at sch m i)) v ->
      shows_field m i v j -> handed ok j y -> bytes (snd y) ->
      read_value mj conv sch nm plain fuel m i y = Ok z ->
      mixed_json_value Url Image url_parse image_load sch nm qt_field mj conv fuel rec m i y <> UB SignedOverflow.
    Proof.
      intros Sd St Vo Sh Hy By E. unfold mixed_json_value.
      destruct Sd as [m i q Qf F|m i v0 Qf W Ty|m i m' o Qf T Sd|m i m' Qf T Sd|m i m' l Qf T El|m i k m' l Qf T As El]; rewrite Qf.
      - inversion St as [? ? k q' fs Q' T E1 E2 E3 E4 | | | | |]; subst; try congruence.
        unfold read_value in E. rewrite (Qok _ _ _ Qf) in E. pose proof (Qok _ _ _ Qf) as Tf.
        inversion Sh as [? ? e ? ? Ty Sy| ? ? ? ? ? Ty|? ? ? ? ? Ty|? ? ? ? ? ? Ty]; subst; rewrite Tf in Ty; try discriminate Ty. injection Ty as <-.
        destruct (shows_object _ _ _ _ Sy) as (l & -> & Sm).
        destruct (handed_object ok _ _ Hy) as (u & -> & Ou & Tu & Nu & _). cbn [snd] in *. destruct u as [|c u]; [contradiction|].
        apply bind_Ok in E. destruct E as (gs & Eg & _). rewrite Eg. cbn [bind].
        destruct (rect_calm q fs l (c :: u) gs F T Sm Ou By Tu Eg) as (w & ->). discriminate.
      - destruct (f_ty (field_at sch m i)) as [[t|m']|[t|m']|k [t|m']] eqn:Ef; try contradiction; rewrite E; discriminate.
      - inversion St as [| |? ? m1 ? p' _ T1 S1| | |]; subst; try congruence. rewrite T in *. injection T1 as <-.
        unfold read_value in E. rewrite T in E.
        inversion Sh as [? ? e ? ? Ty Sy| ? ? ? ? ? Ty|? ? ? ? ? Ty|? ? ? ? ? ? Ty]; subst; rewrite T in Ty; try discriminate Ty. injection Ty as <-.
        destruct (shows_object _ _ _ _ Sy) as (l & -> & Sm).
        destruct (handed_object ok _ _ Hy) as (u & -> & Ou & Tu & Nu & _). cbn [snd] in *. destruct u as [|c u]; [contradiction|].
        apply bind_Ok in E. destruct E as (gs & Eg & _).
        assert (Fj : faithful_json m' (JObj l)) by (exists o, p', l; auto).
        pose proof (REC _ _ _ _ Fj Ou By Tu Eg) as C. destruct (rec m' (c :: u)); try discriminate. cbn [bind]. intro X0. injection X0 as ->. now apply C.
      - inversion St as [| | |? ? m1 p' _ T1 S1| |]; subst; try congruence. rewrite T in *. injection T1 as <-.
        unfold read_value in E. rewrite T in E.
        inversion Sh as [? ? e ? ? Ty Sy| ? ? ? ? ? Ty|? ? ? ? ? Ty|? ? ? ? ? ? Ty]; subst; rewrite T in Ty; try discriminate Ty. injection Ty as <-.
        destruct (shows_object _ _ _ _ Sy) as (l & -> & Sm).
        destruct (handed_object ok _ _ Hy) as (u & -> & Ou & Tu & Nu & _). cbn [snd] in *. destruct u as [|c u]; [contradiction|].
        apply bind_Ok in E. destruct E as (gs & Eg & _).
        assert (Fj : faithful_json m' (JObj l)) by (eexists _, p', l; eauto).
        pose proof (REC _ _ _ _ Fj Ou By Tu Eg) as C. destruct (rec m' (c :: u)); try discriminate. cbn [bind]. intro X0. injection X0 as ->. now apply C.
      - inversion St as [| | | |? ? m1 ? l' _ T1 F1|]; subst; try congruence. rewrite T in *. injection T1 as <-.
        unfold read_value in E. rewrite T in E.
        inversion Sh as [? ? e ? ? Ty Sy| ? ? ? ? ? Ty|? ? ? ? js Ty Sy|? ? ? ? ? ? Ty]; subst; rewrite T in Ty; try discriminate Ty. injection Ty as <-.
        destruct (handed_array ok _ _ Hy) as (u & -> & Ou & Tu & Nu). cbn [snd] in *. destruct u as [|c u]; [contradiction|].
        apply bind_Ok in E. destruct E as (vs & Ev & _).
        assert (J : forall j, In j js -> faithful_json m' j).
        { intros j I. destruct (Forall2_right _ _ _ Sy j I) as (y & Iy & Sj). apply filter_In in Iy. destruct Iy as [Iy Yn]. cbn [list_of] in Iy.
          assert (exists p', y = VMsg p') as (p' & ->) by (destruct y; try discriminate Yn; eauto). destruct (Forall2_right _ _ _ F1 _ Iy) as (x & Ix & [[_ X]|(o & p1 & -> & X & S1)]); [discriminate X|].
          injection X as <-. destruct (El _ Ix) as [X|(o' & X & Sd)]; [discriminate X|]. injection X as <-.
          destruct (shows_object _ _ _ _ Sj) as (l1 & -> & Sm). exists o, p', l1. split; [reflexivity|]. split; [exact Sd|]. split; [exact S1|]. split; [|exact Sm].
          cbn [val_ok] in Vo. exact (every_in _ _ Vo _ Iy). }
        destruct R as (_ & _ & R3 & _). destruct (R3 js _ Ou Tu) as (xs & V & Hx).
        { apply Forall_forall. intros j I. destruct (J j I) as (o & p' & l1 & -> & _). exact Logic.I. }
        pose proof (messages_calm m' xs js _ V Hx By J fuel [] [] vs Ev) as C.
        destruct (mixed_messages _ _ _ _ _ _ _ _); try discriminate. cbn [bind]. intro X0. injection X0 as ->. now apply C.
      - inversion St as [| | | | |? ? k1 m1 ? l' _ T1 F1]; subst; try congruence. rewrite T in *. injection T1 as <- <-.
        unfold read_value in E. rewrite T in E.
        inversion Sh as [? ? e ? ? Ty Sy| ? ? ? ? ? Ty|? ? ? ? ? Ty|? ? ? ? ? js Ty Sy]; subst; rewrite T in Ty; try discriminate Ty. injection Ty as <- <-.
        destruct (handed_object ok _ _ Hy) as (u & -> & Ou & Tu & Nu & _). cbn [snd] in *. destruct u as [|c u]; [contradiction|].
        apply bind_Ok in E. destruct E as (vs & Ev & _).
        assert (J : forall p, In p js -> faithful_json m' (snd p)).
        { intros j I. destruct (Forall2_right _ _ _ Sy j I) as ([a y] & Iy & _ & Sj). apply filter_In in Iy. destruct Iy as [Iy Yn]. cbn [map_of fst snd] in *.
          destruct (Forall2_right _ _ _ F1 _ Iy) as ([a' x] & Ix & _ & [[_ X]|(o & p1 & X & Y & S1)]); cbn [fst snd] in *; subst; [discriminate Yn|].
          destruct (El _ _ Ix) as [_ [X|(o' & X & Sd)]]; [discriminate X|]. injection X as <-.
          destruct (shows_object _ _ _ _ Sj) as (l1 & E1 & Sm). exists o, p1, l1. split; [exact E1|]. split; [exact Sd|]. split; [exact S1|]. split; [|exact Sm].
          cbn [val_ok] in Vo. destruct Vo as [_ Vo]. exact (proj2 (every_in _ _ Vo _ Iy)). }
        destruct R as (_ & _ & _ & R4). destruct (R4 js _ Ou Tu) as (ps & V & Hp).
        pose proof (pairs_calm (n_enum nm m i) k m' ps js _ V Hp By J fuel [] [] vs Ev) as C.
        destruct (mixed_pairs _ _ _ _ _ _ _ _ _ _); try discriminate. cbn [bind]. intro X0. injection X0 as ->. now apply C.
    Qed.

    Lemma members_calm m : forall ps base base' r,
      (forall name y i, In (name, y) ps -> find (fun i => same_bytes (n_json nm m i) name) (md_order (msg_at sch m)) = Some i ->
         exists x v j, sendable_member m i x /\ stands_member m i x v /\ val_ok sch (f_ty (field_at sch m i)) v /\
           shows_field m i v j /\ handed ok j y /\ bytes (snd y)) ->
      read_members mj conv sch nm plain fuel m ps base' = Ok r ->
      mixed_members Url Image url_parse image_load qt_eq new_qt sch nm qt_field mj conv fuel rec m ps base <> UB SignedOverflow.
    Proof.
      induction ps as [|[name y] ps IH]; intros base base' r G E; cbn [read_members] in E; cbn [mixed_members]; [discriminate|].
      assert (G' := fun a b c I => G a b c (or_intror I)).
      destruct (find _ _) as [i|] eqn:Fi; [|exact (IH _ _ _ G' E)]. cbv zeta in E.
      destruct (_ && _); [exact (IH _ _ _ G' E)|].
      apply bind_Ok in E. destruct E as ([z b] & Ev & E).
      destruct (G name y i (or_introl eq_refl) Fi) as (x & v & j & Sd & St & Vo & Sh & Hy & By).
      pose proof (value_calm m i x v j y _ Sd St Vo Sh Hy By Ev) as C.
      destruct (mixed_json_value _ _ _ _ _ _ _ _ _ _ _ _ _ _) as [[w b']|e|ub|]; try discriminate; [|cbn [bind]; intro X0; injection X0 as ->; now apply C]. cbn [bind fst snd] in *.
      destruct b, b'; eapply IH; eauto.
    Qed.
  End Step.

  Lemma object_calm : forall fuel m j u base base' r, faithful_json m j -> ok u -> bytes u -> text j u ->
    read_object fuel mj conv sch nm m u base' = Ok r -> mixed_json_read fuel m u base <> UB SignedOverflow.
  Proof.
    induction fuel as [|fuel IH]; intros m j u base base' r Fj Ou Bu Tu E; [discriminate E|].
    cbn [read_object] in E. cbn [QtJsonModel.mixed_json_read].
    destruct Fj as (obj & p & l & -> & Sd & St & Op & Sh).
    pose proof R as (R1 & _). destruct N as (N1 & N2 & _).
    assert (Nl : NoDup (map fst l)).
    { replace (map fst l) with (map (n_json nm m) (md_order (msg_at sch m))); [apply N1|].
      clear - Sh. unfold QtJsonBack.shows_members in Sh. induction Sh as [|a b la lb [Sa _] Sl IHl]; [reflexivity|]. cbn [map]. now rewrite Sa, IHl. }
    destruct (R1 l u Ou Tu Nl) as (ps & Pe & Hp).
    eapply members_calm; [intros m' j' u' r' F' O' B' T' E'; exact (IH m' j' u' _ _ r' F' O' B' T' E') | | exact E].
    intros name y i I F. pose proof (proj1 Gb u Bu) as Ba. rewrite Forall_forall in Ba. pose proof (proj2 (Ba _ I)) as By. cbn [snd] in By.
    apply (Permutation_in _ Pe) in I. destruct (Forall2_right _ _ _ Hp _ I) as (q & Iq & (H1 & H2 & H3)).
    destruct (Forall2_right _ _ _ Sh q Iq) as (i0 & I0 & E0 & Si). cbn [fst snd] in *.
    assert (name = n_json nm m i0) as ->.
    { rewrite E0 in *. apply quoted_plain_eq; [|apply N2]. apply chars_quoted; [exact H2|]. exact (quotes_tail 34 _ (Q _ H1)). }
    apply find_some in F. destruct F as [Ii F]. apply same_bytes_spec in F.
    assert (i = i0) as -> by exact (NoDup_map_eq _ _ (N1 m) _ _ Ii I0 F).
    pose proof (msg_at_ok sch m Sch) as (_ & _ & _ & Cov). apply Cov in I0.
    inversion Sd as [m0 o0 L M E1 E2]; subst m0 o0. inversion St as [m0 o0 p0 X E1 E2 E3]; subst m0 o0 p0.
    exists (nth i0 obj MNull), (nth i0 p VNull), (snd q). split; [apply M; lia|]. split; [now apply X|]. split; [now apply nth_ok|]. auto.
  Qed.
End Rects.

(** Proofs about JSON texts for messages that hold values of Qt types. *)

From Coq Require Import String ZArith List Bool Lia Arith.
From Verif Require Import Base WireModel Values MessageModel WireSpec WireProofs MessageSpec MessageProofs SerializeProofs
  MessageFacts TypedProofs ObjectProofs RunFacts QtTypesModel QtTypesSpec QtTypesProofs QtFieldsModel QtFieldsSpec QtFieldsProofs
  QtFieldsTrack JsonSpec JsonModel JsonReadModel QtJsonModel QtJsonSpec.
Import ListNotations.
Open Scope Z_scope.

Section Write.
  Variables Url Image : Type.
  Variable url_string : Url -> list Z.
  Variable png_save : Image -> list Z.
  Variable to_rgb : Z -> Z * Z * Z * Z -> Z * Z * Z * Z.
  Variable new_qt : kind -> qtval Url Image.
  Variable sch : schema.
  Variable nm : names.
  Variable fm : formats.
  Variable qt_field : nat -> nat -> option kind.
  Hypothesis Sch : schema_ok sch.
  Hypothesis Qok : qt_fields_ok sch qt_field.
  Local Notation mixed_json := (mixed_json Url Image url_string png_save to_rgb new_qt sch nm qt_field fm).
  Local Notation stands_for := (stands_for url_string png_save to_rgb new_qt sch qt_field).

  Lemma stands_json fuel : forall m obj p, stands_for m obj p -> mixed_json fuel m obj = json_object fuel sch nm fm m p.
  Proof.
    induction fuel as [|fuel IH]; intros m obj p H; [reflexivity|].
    inversion H as [m0 obj0 p0 M E1 E2 E3]; subst m0 obj0 p0.
    cbn [QtJsonModel.mixed_json json_object]. f_equal. f_equal. apply map_ext_in. intros i I.
    pose proof (msg_at_ok sch m Sch) as (_ & _ & _ & Cov). apply Cov in I. specialize (M i I).
    unfold QtJsonModel.mixed_json_property, json_property. f_equal.
    unfold QtJsonModel.mixed_json_field. set (x := nth i obj MNull) in *. set (y := nth i p VNull) in *.
    clearbody x y. destruct M as [m i k q fs Q T | m i v Q W | m i m' o p' Q T S | m i m' p' Q T S
      | m i m' l l' Q T F | m i k m' l l' Q T F]; rewrite Q.
    - rewrite T. cbn [bind]. unfold json_field. rewrite (Qok _ _ _ Q). reflexivity.
    - destruct (f_ty (field_at sch m i)) as [[t|m']|[t|m']|k [t|m']] eqn:E; try contradiction;
        unfold json_field; rewrite E; reflexivity.
    - rewrite T. unfold json_field. rewrite T. cbn [json_value]. now apply IH.
    - rewrite T. unfold json_field. rewrite T. cbn [json_value]. now apply IH.
    - rewrite T. unfold json_field. rewrite T. cbn [objects_of list_of]. f_equal. f_equal.
      clear - F IH. induction F as [|a b l l' [[-> ->]|(o & p' & -> & -> & S)] F IHF]; cbn [map]; [reflexivity| |];
        rewrite IHF; f_equal. cbn [QtJsonModel.mixed_json_element json_list_object]. now rewrite (IH _ _ _ S).
    - rewrite T. unfold json_field. rewrite T. cbn [entries_of map_of]. f_equal. f_equal.
      clear - F IH. induction F as [|[a x] [b y] l l' [E D] F IHF]; cbn [map]; [reflexivity|].
      rewrite IHF. f_equal. cbn [fst snd] in *. subst b.
      destruct D as [[-> ->]|(o & p' & -> & -> & S)]; [reflexivity|].
      unfold QtJsonModel.mixed_json_pair, json_map_pair. cbn [fst snd json_value]. now rewrite (IH _ _ _ S).
  Qed.
End Write.

Section Read.
  Variables Url Image : Type.
  Variable url_parse : list Z -> Url.
  Variable image_load : list Z -> list Z -> Image.
  Local Notation qtval := (qtval Url Image).
  Local Notation mvalue := (mvalue Url Image).
  Local Notation of_message := (of_message Url Image url_parse image_load).
  Variable qt_eq : qtval -> qtval -> bool.
  Variable new_qt : kind -> qtval.
  Variable sch : schema.
  Variable nm : names.
  Variable qt_field : nat -> nat -> option kind.
  Hypothesis Sch : schema_ok sch.
  Hypothesis Lib : has_library sch.
  Hypothesis Qok : qt_fields_ok sch qt_field.
  Variable mj : microjson.
  Variable conv : conversions.

  Local Notation new_object := (new_object Url Image new_qt sch qt_field).
  Local Notation mixed_update := (mixed_update Url Image).
  Local Notation mixed_insert := (mixed_insert Url Image).
  Local Notation mixed_messages := (mixed_messages Url Image mj).
  Local Notation mixed_pairs := (mixed_pairs Url Image mj conv).
  Local Notation mixed_json_value := (mixed_json_value Url Image url_parse image_load sch nm qt_field mj conv).
  Local Notation mixed_write := (mixed_write Url Image qt_eq new_qt sch qt_field).
  Local Notation mixed_members := (mixed_members Url Image url_parse image_load qt_eq new_qt sch nm qt_field mj conv).
  Local Notation mixed_json_read := (mixed_json_read Url Image url_parse image_load qt_eq new_qt sch nm qt_field mj conv).
  Local Notation json_read_as := (json_read_as url_parse image_load qt_eq new_qt sch qt_field).
  Local Notation json_read_member := (json_read_member url_parse image_load qt_eq new_qt sch qt_field).
  Local Notation tracks := (tracks qt_field).
  Local Notation full := (full sch).

  (** ** Lists of messages that were read hold no null pointers *)

  Lemma members_full n rec m : forall l obj r, full m obj -> read_members mj conv sch nm rec n m l obj = Ok r -> full m r.
  Proof.
    assert (U : forall i v obj, full m obj ->
      (forall m', f_ty (field_at sch m i) = FRep (EM m') -> Forall (fun x => exists p, x = VMsg p) (list_of v)) -> full m (update i v obj)).
    { intros i v obj F V j m' T. rewrite nth_update. destruct (Nat.eqb_spec i j) as [<-|N]; [|exact (F j m' T)].
      destruct (i <? length obj)%nat; [exact (V m' T) | constructor]. }
    induction l as [|[name v] l IH]; intros obj r F H; [injection H as <-; exact F|].
    cbn [read_members] in H. destruct (find _ _) as [i|]; [|exact (IH _ _ F H)].
    destruct (_ && _).
    - apply IH in H; [exact H|]. apply U; [exact F|]. intros m' T. rewrite T. constructor.
    - apply bind_Ok in H. destruct H as ([x b] & X & H). cbn [fst snd] in H. destruct b; [|exact (IH _ _ F H)].
      apply IH in H; [exact H|]. apply U; [exact F|]. intros m' T. rewrite T. unfold read_value in X. rewrite T in X.
      destruct (snd v) as [|c s]; [discriminate X|]. apply bind_Ok in X. destruct X as (vs & X & E). injection E as <-.
      cbn [write_property list_of]. clear - X.
      assert (G : forall k s acc vs, Forall (fun x => exists p, x = VMsg p) acc -> read_messages mj rec k m' s acc = Ok vs ->
                  Forall (fun x => exists p, x = VMsg p) vs).
      { induction k as [|k IH]; intros s' acc vs' A H; [discriminate H|]. cbn [read_messages] in H.
        destruct s' as [|c' s']; [injection H as <-; exact A|]. cbv zeta in H.
        destruct (extractValue _ _ _) as [[i v]|]; [|injection H as <-; exact A].
        apply bind_Ok in H. destruct H as (o & _ & H). destruct (_ <=? _)%nat; [|discriminate H].
        apply IH in H; [exact H|]. apply Forall_app. split; [exact A|]. constructor; [eauto | constructor]. }
      exact (G _ _ _ _ (Forall_nil _) X).
  Qed.

  (** ** One member *)

  Section Rec.
    Variable fuel : nat.
    Variable rec : nat -> list Z -> res (list mvalue).
    Local Notation plain := (fun m' data' => read_object fuel mj conv sch nm m' data' (default_obj sch m')).
    Hypothesis R : forall m data, tracks (json_read_as m) (rec m data) (plain m data).

    Lemma messages_track m : forall n s acc acc',
      Forall2 (fun x y => exists r p, x = MMsg r /\ y = VMsg p /\ json_read_as m r p) acc acc' ->
      tracks (Forall2 (fun x y => exists r p, x = MMsg r /\ y = VMsg p /\ json_read_as m r p))
        (mixed_messages rec n m s acc) (read_messages mj plain n m s acc').
    Proof.
      induction n as [|n IH]; intros s acc acc' A; [right; exact Logic.I|].
      cbn [QtJsonModel.mixed_messages read_messages]. destruct s as [|c s]; [right; exact A|]. cbv zeta.
      destruct (extractValue mj _ 93) as [[i v]|]; [|right; exact A].
      eapply tracks_bind; [apply R|]. intros r p H. destruct (_ <=? _)%nat; [|right; reflexivity].
      apply IH. apply Forall2_app; [exact A|]. constructor; [eauto | constructor].
    Qed.

    Lemma pairs_track en k m : forall n s acc acc',
      Forall2 (fun x y => fst x = fst y /\ (snd x = MNull /\ snd y = VNull \/
        exists r p, snd x = MMsg r /\ snd y = VMsg p /\ json_read_as m r p)) acc acc' ->
      tracks (Forall2 (fun x y => fst x = fst y /\ (snd x = MNull /\ snd y = VNull \/
        exists r p, snd x = MMsg r /\ snd y = VMsg p /\ json_read_as m r p)))
        (mixed_pairs rec n k m s acc) (read_pairs mj conv plain n en k (EM m) s acc').
    Proof.
      induction n as [|n IH]; intros s acc acc' A; [right; exact Logic.I|].
      cbn [QtJsonModel.mixed_pairs read_pairs]. destruct s as [|c s]; [right; exact A|]. cbv zeta.
      destruct (extractProperty mj _ 125) as [[i [name v]]|]; [|right; exact A].
      eapply (tracks_bind _ (fun x y => x = MNull /\ y = VNull \/ exists r p, x = MMsg r /\ y = VMsg p /\ json_read_as m r p)).
      - cbn [read_entry_value]. destruct (snd v); [right; left; auto|]. eapply tracks_bind; [apply R|]. intros r p H. right. right. eauto.
      - intros x y H. destruct (_ <=? _)%nat; [|right; reflexivity].
        apply IH. apply (insert_tracks _ _ k _ _ x y (fun a b => a = MNull /\ b = VNull \/ exists r p, a = MMsg r /\ b = VMsg p /\ json_read_as m r p) eq_refl H).
        exact A.
    Qed.

    (** The values read for a field, before they are stored. *)
    Definition read_alike (m i : nat) (x : variant mvalue) (y : variant value) : Prop :=
      snd x = snd y /\ (snd x = true -> forall old old', json_read_member m i old old' ->
        json_read_member m i (mixed_write m i old (fst x)) (write_property (f_ty (field_at sch m i)) old' (fst y))).

    Lemma null_alike m i old old' : json_read_member m i old old' ->
      json_read_member m i (mixed_write m i old None) (write_property (f_ty (field_at sch m i)) old' None).
    Proof.
      intro H. unfold QtJsonModel.mixed_write. destruct (qt_field m i) as [k|] eqn:Q.
      - rewrite (Qok _ _ _ Q). cbn [write_property default_field].
        destruct old as [| | | | |o]; try (eapply json_read_null_qt; [exact Q | now left]).
        eapply json_read_null_qt; [exact Q|]. destruct (qt_eq o (new_qt k)) eqn:E; auto.
      - destruct (f_ty (field_at sch m i)) as [[t|m']|[t|m']|k [t|m']] eqn:E;
          inversion H as [? ? ? ? ? ? Q' | ? ? ? ? Q' | ? ? ? _ W | ? ? ? _ T | ? ? ? ? ? _ T S | ? ? ? ? ? _ T F | ? ? ? ? ? ? _ T F]; subst;
          rewrite ?E in *; try congruence; try contradiction; cbn [plain_of option_map];
          try (apply json_read_plain; [exact Q | rewrite E; exact Logic.I]);
          try (destruct t; apply json_read_plain; [exact Q | rewrite E; exact Logic.I]);
          cbn [write_property default_field map_of store_map].
        + eapply json_read_unset; eauto.
        + eapply json_read_unset; eauto.
        + eapply json_read_list; eauto.
        + eapply json_read_map; eauto.
    Qed.

    Lemma value_tracks m i v :
      tracks (read_alike m i) (mixed_json_value fuel rec m i v) (read_value mj conv sch nm plain fuel m i v).
    Proof.
      unfold QtJsonModel.mixed_json_value. destruct (qt_field m i) as [k|] eqn:Q.
      - unfold read_value. rewrite (Qok _ _ _ Q). destruct (snd v) as [|c s] eqn:V.
        { right. split; [reflexivity | discriminate]. }
        rewrite <- V. apply tracks_same. intros fs E.
        assert (F : full (index k) fs).
        { destruct fuel as [|f]; [discriminate E|]. cbn [read_object] in E. exact (members_full _ _ _ _ _ _ (default_full sch _) E). }
        destruct (conversion Url Image url_parse image_load sch Lib k fs F) as [(w & W)|[-> W]]; rewrite W; cbn [bind].
        + right. split; [reflexivity|]. intros _ old old' H. cbn [fst]. unfold QtJsonModel.mixed_write. rewrite Q, (Qok _ _ _ Q).
          cbn [write_property]. destruct old as [| | | | |o]; try (eapply json_read_qt; [exact Q | exact W | now left]).
          eapply json_read_qt; [exact Q | exact W |]. destruct (qt_eq o w) eqn:Eq; auto.
        + left. split; [exists m, i; exact Q | reflexivity].
      - destruct (f_ty (field_at sch m i)) as [[t|m']|[t|m']|k [t|m']] eqn:E.
        1, 3, 5: match goal with |- tracks _ (bind ?a _) _ => destruct a as [[y b]| | |]; cbn [bind]; right; auto end;
          (split; [reflexivity|]); intros _ old old' H; cbn [fst]; unfold QtJsonModel.mixed_write; rewrite Q, E;
          inversion H as [? ? ? ? ? ? Q' | ? ? ? ? Q' | ? ? ? _ W | ? ? ? _ T | ? ? ? ? ? _ T S | ? ? ? ? ? _ T F | ? ? ? ? ? ? _ T F]; subst;
          rewrite ?E in *; try congruence; try contradiction; cbn [plain_of];
          replace (option_map (plain_of Url Image) (option_map MPlain y)) with y by (now destruct y);
          apply json_read_plain; [exact Q | rewrite E; exact Logic.I].
        + unfold read_value. rewrite E. destruct (snd v) as [|c s]; [right; split; [reflexivity | discriminate]|].
          eapply tracks_bind; [apply R|]. intros r p H. right. split; [reflexivity|]. intros _ old old' _.
          unfold QtJsonModel.mixed_write. rewrite Q, E. cbn [fst write_property]. eapply json_read_message; eauto.
        + unfold read_value. rewrite E. destruct (snd v) as [|c s]; [right; split; [reflexivity | discriminate]|].
          eapply tracks_bind; [apply messages_track; constructor|]. intros r p H. right. split; [reflexivity|]. intros _ old old' _.
          unfold QtJsonModel.mixed_write. rewrite Q, E. cbn [fst write_property]. eapply json_read_list; eauto.
        + unfold read_value. rewrite E. destruct (snd v) as [|c s]; [right; split; [reflexivity | discriminate]|].
          eapply tracks_bind; [apply pairs_track; constructor|]. intros r p H. right. split; [reflexivity|]. intros _ old old' _.
          unfold QtJsonModel.mixed_write. rewrite Q, E. cbn [fst write_property map_of store_map]. eapply json_read_map; eauto.
    Qed.

    Lemma update_json m r p i x y : json_read_as m r p -> json_read_member m i x y -> json_read_as m (mixed_update i x r) (update i y p).
    Proof.
      intros H X. inversion H as [m0 r0 p0 L1 L2 M E1 E2 E3]; subst m0 r0 p0.
      constructor; [now rewrite QtFieldsProofs.update_length | now rewrite MessageProofs.update_length, QtFieldsProofs.update_length |].
      intros j L. rewrite QtFieldsProofs.update_length in L. destruct (Nat.eq_dec i j) as [<-|N].
      - rewrite QtFieldsProofs.update_eq by exact L. rewrite nth_update, Nat.eqb_refl. replace (i <? length p)%nat with true; [exact X|].
        symmetry. apply Nat.ltb_lt. lia.
      - rewrite QtFieldsProofs.update_neq by exact N. rewrite nth_update. apply Nat.eqb_neq in N. rewrite N. now apply M.
    Qed.

    Lemma member_json m r p i : json_read_as m r p -> (i < length (md_fields (msg_at sch m)))%nat ->
      json_read_member m i (nth i r MNull) (nth i p VNull).
    Proof. intros H L. inversion H as [m0 r0 p0 L1 L2 M E1 E2 E3]; subst m0 r0 p0. apply M. lia. Qed.

    Lemma members_track m : forall l r p, json_read_as m r p ->
      tracks (json_read_as m) (mixed_members fuel rec m l r) (read_members mj conv sch nm plain fuel m l p).
    Proof.
      induction l as [|[name v] l IH]; intros r p H; [right; exact H|].
      cbn [QtJsonModel.mixed_members read_members]. destruct (find _ _) as [i|] eqn:Fi; [|now apply IH].
      assert (L : (i < length (md_fields (msg_at sch m)))%nat).
      { apply find_some in Fi. pose proof (msg_at_ok sch m Sch) as (_ & _ & _ & Cov). apply Cov, Fi. }
      pose proof (member_json _ _ _ i H L) as M. cbv zeta.
      destruct (_ && _); [apply IH, update_json; [exact H | now apply null_alike]|].
      eapply tracks_bind; [apply value_tracks|]. intros [x b] [y b'] [E W]. cbn [fst snd] in *. subst b'.
      destruct b; [|now apply IH]. apply IH, update_json; [exact H|]. now apply W.
    Qed.
  End Rec.

  (** ** Whole messages *)

  Lemma new_json m : json_read_as m (new_object m) (default_obj sch m).
  Proof.
    constructor; [apply new_object_length | rewrite new_object_length; apply default_obj_length |].
    intros i L. rewrite new_object_length in L. rewrite new_object_nth by exact L.
    replace (nth i (default_obj sch m) VNull) with (default_field (f_ty (field_at sch m i))).
    2: { unfold default_obj, field_at. set (fs := md_fields (msg_at sch m)) in *. clearbody fs. clear - L. revert i L.
         induction fs as [|f fs IH]; intros [|i] L; cbn [length nth map] in *; try lia; [reflexivity|]. rewrite IH by lia. reflexivity. }
    unfold QtFieldsModel.new_member. destruct (qt_field m i) as [k|] eqn:Q.
    - rewrite (Qok _ _ _ Q). cbn [default_field]. apply (json_read_null_qt _ _ _ _ _ _ _ _ _ _ Q). now left.
    - destruct (f_ty (field_at sch m i)) as [[t|m']|[t|m']|k [t|m']] eqn:E; cbn [default_field];
        try (apply json_read_plain; [exact Q | rewrite E; exact Logic.I]).
      + eapply json_read_unset; eauto.
      + eapply json_read_list; eauto.
      + eapply json_read_map; eauto.
  Qed.

  Lemma json_tracks fuel : forall m data r p, json_read_as m r p ->
    tracks (json_read_as m) (mixed_json_read fuel m data r) (read_object fuel mj conv sch nm m data p).
  Proof.
    induction fuel as [|fuel IH]; intros m data r p H; [right; exact Logic.I|].
    cbn [QtJsonModel.mixed_json_read read_object]. apply members_track; [|exact H].
    intros m' data'. apply IH, new_json.
  Qed.
End Read.

(** Proofs about messages that hold values of Qt types. *)

From Coq Require Import ZArith List Bool Lia Arith Relations.
From Verif Require Import Base WireModel Values MessageModel WireSpec WireProofs MessageSpec MessageProofs
  SerializeProofs MessageFacts RunFacts ObjectProofs TypedProofs QtTypesModel QtDateProofs QtTypesSpec
  QtTypesProofs CycleSpec CycleProofs QtFieldsModel QtFieldsSpec.
Import ListNotations.
Open Scope Z_scope.

Section Fields.
  Variables Url Image : Type.
  Variable url_string : Url -> list Z.
  Variable url_parse : list Z -> Url.
  Variable png_save : Image -> list Z.
  Variable image_load : list Z -> list Z -> Image.
  Variable to_rgb : Z -> Z * Z * Z * Z -> Z * Z * Z * Z.
  Local Notation qtval := (qtval Url Image).
  Local Notation mvalue := (mvalue Url Image).
  Local Notation to_message := (to_message Url Image url_string png_save to_rgb).
  Local Notation of_message := (of_message Url Image url_parse image_load).
  Local Notation faithful := (faithful url_string url_parse png_save image_load).
  Local Notation kind_of := (kind_of Url Image).
  Variable qt_eq : qtval -> qtval -> bool.
  Variable new_qt : kind -> qtval.
  Variable sch : schema.
  Variable qt_field : nat -> nat -> option kind.
  Hypothesis Sch : schema_ok sch.
  Hypothesis Lib : has_library sch.
  Hypothesis Qok : qt_fields_ok sch qt_field.

  Local Notation new_object := (new_object Url Image new_qt sch qt_field).
  Local Notation new_member := (new_member Url Image new_qt sch qt_field).
  Local Notation mixed_serialize := (mixed_serialize Url Image url_string png_save to_rgb new_qt sch qt_field).
  Local Notation mixed_property := (mixed_property Url Image url_string png_save to_rgb new_qt sch qt_field).
  Local Notation mixed_object := (mixed_object Url Image).
  Local Notation mixed_list_element := (mixed_list_element Url Image).
  Local Notation mixed_map_element := (mixed_map_element Url Image).
  Local Notation mixed_update := (mixed_update Url Image).
  Local Notation mixed_insert := (mixed_insert Url Image).
  Local Notation mixed_read_object := (mixed_read_object Url Image).
  Local Notation mixed_map_loop := (mixed_map_loop Url Image).
  Local Notation mixed_map_pair := (mixed_map_pair Url Image).
  Local Notation mixed_field := (mixed_field Url Image url_parse image_load qt_eq sch qt_field).
  Local Notation mixed_read_property := (mixed_read_property Url Image url_parse image_load qt_eq sch qt_field).
  Local Notation mixed_loop := (mixed_loop Url Image url_parse image_load qt_eq new_qt sch qt_field).
  Local Notation mixed_deserialize := (mixed_deserialize Url Image url_parse image_load qt_eq new_qt sch qt_field).
  Local Notation sendable := (sendable url_string url_parse png_save image_load new_qt sch qt_field).
  Local Notation sendable_member := (sendable_member url_string url_parse png_save image_load new_qt sch qt_field).
  Local Notation alike := (alike qt_eq new_qt sch qt_field).
  Local Notation alike_member := (alike_member qt_eq new_qt sch qt_field).
  Local Notation stands_for := (stands_for url_string png_save to_rgb new_qt sch qt_field).
  Local Notation stands_member := (stands_member url_string png_save to_rgb new_qt sch qt_field).

  (** ** What programs without the Qt types see *)

  Lemma stands_serialize fuel : forall m obj p, stands_for m obj p ->
    mixed_serialize fuel m obj = serializeMessage fuel sch m p.
  Proof.
    induction fuel as [|fuel IH]; intros m obj p H; [reflexivity|].
    inversion H as [m0 obj0 p0 M E1 E2 E3]; subst m0 obj0 p0.
    cbn [QtFieldsModel.mixed_serialize serializeMessage]. f_equal. apply map_ext_in. intros i I.
    pose proof (msg_at_ok sch m Sch) as (_ & _ & _ & Cov). apply Cov in I. specialize (M i I).
    unfold QtFieldsModel.mixed_property. set (x := nth i obj MNull) in *. set (y := nth i p VNull) in *.
    clearbody x y. destruct M as [m i k q fs Q T | m i v Q W | m i m' o p' Q T S | m i m' p' Q T S
      | m i m' l l' Q T F | m i k m' l l' Q T F]; rewrite Q.
    - rewrite T. cbn [bind]. unfold serializeProperty. rewrite (Qok _ _ _ Q). reflexivity.
    - destruct (f_ty (field_at sch m i)) as [[t|m']|[t|m']|k [t|m']] eqn:E; try contradiction;
        unfold serializeProperty; rewrite E; reflexivity.
    - rewrite T. unfold serializeProperty. rewrite T. cbn [serializeElement]. unfold QtFieldsModel.mixed_object, serializeObject.
      now rewrite (IH _ _ _ S).
    - rewrite T. unfold serializeProperty. rewrite T. cbn [serializeElement]. unfold QtFieldsModel.mixed_object, serializeObject.
      now rewrite (IH _ _ _ S).
    - rewrite T. unfold serializeProperty. rewrite T. cbn [objects_of list_of]. f_equal.
      clear - F IH. induction F as [|a b l l' [[-> ->]|(o & p' & -> & -> & S)] F IHF]; cbn [map]; [reflexivity| |];
        rewrite IHF; f_equal. cbn [QtFieldsModel.mixed_list_element serializeListElement].
      unfold QtFieldsModel.mixed_object, serializeObject. now rewrite (IH _ _ _ S).
    - rewrite T. unfold serializeProperty. rewrite T. cbn [entries_of map_of]. f_equal.
      clear - F IH. induction F as [|[a x] [b y] l l' [E D] F IHF]; cbn [map]; [reflexivity|].
      rewrite IHF. f_equal. cbn [fst snd] in *. subst b.
      destruct D as [[-> ->]|(o & p' & -> & -> & S)]; [reflexivity|].
      unfold QtFieldsModel.mixed_map_element, serializeMapElement. cbn [fst snd serializeElement].
      unfold QtFieldsModel.mixed_object, serializeObject. now rewrite (IH _ _ _ S).
  Qed.

  (** ** Members *)

  Lemma update_length i v : forall l, length (mixed_update i v l) = length l.
  Proof. revert i. induction i as [|i IH]; intros [|x l]; cbn; auto. Qed.
  Lemma update_eq i v : forall l, (i < length l)%nat -> nth i (mixed_update i v l) MNull = v.
  Proof. induction i as [|i IH]; intros [|x l] L; cbn in *; try lia; auto. apply IH. lia. Qed.
  Lemma update_neq i j v : i <> j -> forall l, nth j (mixed_update i v l) MNull = nth j l MNull.
  Proof. revert j. induction i as [|i IH]; intros [|j] N [|x l]; cbn; auto; congruence. Qed.
  Lemma update_same i : forall l, mixed_update i (nth i l MNull) l = l.
  Proof. induction i as [|i IH]; intros [|x l]; cbn; auto. now rewrite IH. Qed.
  Lemma update_twice i a b : forall l, mixed_update i a (mixed_update i b l) = mixed_update i a l.
  Proof. induction i as [|i IH]; intros [|x l]; cbn; auto. now rewrite IH. Qed.

  Lemma new_object_length m : length (new_object m) = length (md_fields (msg_at sch m)).
  Proof. unfold QtFieldsModel.new_object. now rewrite map_length, seq_length. Qed.
  Lemma new_object_nth m i : (i < length (md_fields (msg_at sch m)))%nat ->
    nth i (new_object m) MNull = new_member m i.
  Proof.
    intro L. unfold QtFieldsModel.new_object. rewrite nth_indep with (d' := new_member m 0%nat) by (now rewrite map_length, seq_length).
    rewrite map_nth, seq_nth by exact L. reflexivity.
  Qed.

  (** ** Reading the records of one field

      [reads m i a old P]: the loop reads [a] as records of field [i] of [m], which holds [old] before
      and a value with [P] afterwards. *)
  Definition reads (m i : nat) (a : list Z) (old : mvalue) (P : mvalue -> Prop) : Prop :=
    forall fuel pre b obj, length obj = length (md_fields (msg_at sch m)) -> nth i obj MNull = old ->
    Zlen (a ++ b) <= INT_MAX -> (length (a ++ b) < fuel)%nat ->
    exists fuel' x, (length b < fuel')%nat /\ P x /\
      mixed_loop fuel m (pre ++ a ++ b) (cur pre (a ++ b)) obj
      = mixed_loop fuel' m (pre ++ a ++ b) (cur (pre ++ a) b) (mixed_update i x obj).

  Lemma reads_nil m i old (P : mvalue -> Prop) : P old -> reads m i [] old P.
  Proof.
    intros H fuel pre b obj L E B F. exists fuel, old. split; [exact F|]. split; [exact H|].
    cbn [app]. rewrite app_nil_r. now rewrite <- E, update_same.
  Qed.

  Lemma reads_weak m i a old (P P' : mvalue -> Prop) : (forall x, P x -> P' x) -> reads m i a old P -> reads m i a old P'.
  Proof.
    intros H R fuel pre b obj L E B F. destruct (R fuel pre b obj L E B F) as (f & x & A1 & A2 & A3). exists f, x. auto.
  Qed.

  Lemma reads_app m i a a' old (P P' : mvalue -> Prop) : (i < length (md_fields (msg_at sch m)))%nat ->
    reads m i a old P -> (forall x, P x -> reads m i a' x P') -> reads m i (a ++ a') old P'.
  Proof.
    intros Li R R' fuel pre b obj L E B F. rewrite <- app_assoc in *.
    destruct (R fuel pre (a' ++ b) obj L E B F) as (f & x & A1 & A2 & A3).
    destruct (R' x A2 f (pre ++ a) b (mixed_update i x obj)) as (f' & y & C1 & C2 & C3).
    - now rewrite update_length.
    - apply update_eq. lia.
    - rewrite Zlen_app in B. pose proof (Zlen_nonneg a). lia.
    - exact A1.
    - exists f', y. split; [exact C1|]. split; [exact C2|]. rewrite A3. rewrite (app_assoc pre a (a' ++ b)), C3.
      rewrite update_twice. now rewrite <- !app_assoc.
  Qed.

  Definition sub (fuel : nat) : nat -> list Z -> list mvalue * res unit :=
    fun m' data' => mixed_loop fuel m' data' (it_begin data') (new_object m').

  Lemma reads_one m i num wt tag pl old (P : mvalue -> Prop) : field_number num -> In wt wire_types -> is_tag num wt tag ->
    find_field (msg_at sch m) num = Some i ->
    (forall fuel pre b, Zlen (pl ++ b) <= INT_MAX -> (length pl < fuel)%nat -> exists x, P x /\
       mixed_field fuel (sub fuel) m i old (pre ++ pl ++ b) (cur pre (pl ++ b)) = Ok (x, cur (pre ++ pl) b)) ->
    reads m i (tag ++ pl) old P.
  Proof.
    intros N W T Fi H fuel pre b obj L E B F. rewrite <- app_assoc in *.
    pose proof (varint_enc_nonempty _ _ T) as NE. rewrite !app_length in F.
    destruct fuel as [|fuel]; [lia|].
    assert (B2 : Zlen (pl ++ b) <= INT_MAX) by (rewrite Zlen_app in B; pose proof (Zlen_nonneg tag); lia).
    destruct (H fuel (pre ++ tag) b B2 ltac:(lia)) as (x & Px & Hx).
    exists fuel, x. split; [lia|]. split; [exact Px|].
    cbn [QtFieldsModel.mixed_loop].
    replace (it_pos (cur pre (tag ++ pl ++ b)) =? Zlen (pre ++ tag ++ pl ++ b)) with false.
    2: { symmetry. apply Z.eqb_neq. cbn [cur it_pos]. rewrite !Zlen_app. pose proof (Zlen_nonneg pl). pose proof (Zlen_nonneg b). unfold Zlen at 3. lia. }
    unfold QtFieldsModel.mixed_read_property. rewrite (tag_read_ok num wt tag pre (pl ++ b) N W T). cbn [bind negb].
    rewrite Fi, E. fold (sub fuel). rewrite (app_assoc pre tag (pl ++ b)), Hx. cbn [bind].
    now rewrite <- !app_assoc.
  Qed.

  (** ** Nested objects *)

  Section Level.
    Variable n : nat.
    Hypothesis IH : forall m obj body, sendable m obj -> mixed_serialize n m obj = Ok body -> Zlen body <= INT_MAX ->
      forall fuel, (length body < fuel)%nat -> exists r, mixed_deserialize fuel m body = (r, Ok tt) /\ alike m r obj.

    Lemma object_back m obj bs num : sendable m obj -> field_number num ->
      mixed_object (mixed_serialize n) num m obj = Ok bs -> Zlen bs <= INT_MAX ->
      exists tag pl, bs = tag ++ pl /\ is_tag num 2 tag /\ (0 < length tag)%nat /\
      forall fuel pre b, Zlen (pl ++ b) <= INT_MAX -> (length pl < fuel)%nat -> exists r, alike m r obj /\
        mixed_read_object (sub fuel) m (pre ++ pl ++ b) (cur pre (pl ++ b)) = Ok (r, cur (pre ++ pl) b).
    Proof.
      intros S N H B. unfold QtFieldsModel.mixed_object in H.
      destruct (mixed_serialize n m obj) as [body| | |] eqn:E; cbn [bind] in H; try discriminate H. injection H as <-.
      assert (T : is_tag num WLengthDelimitedT (encodeHeader num WLengthDelimitedT))
        by (apply encodeHeader_tag; [exact N | unfold WLengthDelimitedT; lia]).
      exists (encodeHeader num WLengthDelimitedT), (prependLengthDelimitedSize body).
      split; [reflexivity|]. split; [exact T|]. split; [eapply varint_enc_nonempty; exact T|].
      intros fuel pre b Bp L. apply app_bound in B. destruct B as [_ B]. apply prepend_enc_bound in B.
      pose proof (prepend_delimited body B) as D. pose proof (delimited_nonempty _ _ D) as Ld.
      destruct (IH m obj body S E B fuel ltac:(lia)) as (r & R & A).
      exists r. split; [exact A|]. unfold QtFieldsModel.mixed_read_object.
      rewrite (delimited_read false body _ pre b D Bp). cbn [bind].
      unfold sub. unfold QtFieldsModel.mixed_deserialize in R. rewrite R. reflexivity.
    Qed.

    Lemma sing_back m i m' obj bs num old :
      qt_field m i = None -> f_ty (field_at sch m i) = FSing (EM m') ->
      field_number num -> find_field (msg_at sch m) num = Some i -> sendable m' obj ->
      mixed_object (mixed_serialize n) num m' obj = Ok bs -> Zlen bs <= INT_MAX ->
      reads m i bs old (fun x => exists r, x = MMsg r /\ alike m' r obj).
    Proof.
      intros Q T N Fi S H B. destruct (object_back m' obj bs num S N H B) as (tag & pl & -> & Tg & _ & R).
      apply (reads_one m i num 2); auto; [cbn; auto|].
      intros fuel pre b Bp L. destruct (R fuel pre b Bp L) as (r & A & E).
      exists (MMsg r). split; [eauto|]. unfold QtFieldsModel.mixed_field. rewrite Q, T, E. reflexivity.
    Qed.

    Lemma list_back m i m' num : qt_field m i = None -> f_ty (field_at sch m i) = FRep (EM m') ->
      (i < length (md_fields (msg_at sch m)))%nat ->
      field_number num -> find_field (msg_at sch m) num = Some i -> forall l bs acc,
      (forall x, In x l -> x = MNull \/ exists obj, x = MMsg obj /\ sendable m' obj) ->
      concat_res (map (mixed_list_element (mixed_serialize n) num m') l) = Ok bs -> Zlen bs <= INT_MAX ->
      reads m i bs (MList acc) (fun x => exists l', x = MList (acc ++ l') /\
        Forall2 (fun x y => exists r obj, x = MMsg r /\ y = MMsg obj /\ alike m' r obj) l' (set_elements l)).
    Proof.
      intros Q T Li N Fi. induction l as [|x l IHl]; intros bs acc El H B.
      - cbn in H. injection H as <-. apply reads_nil. exists []. rewrite app_nil_r. split; [reflexivity | constructor].
      - cbn [map] in H. apply concat_res_cons in H. destruct H as (a & b & Ha & Hb & ->).
        apply app_bound in B. destruct B as [Ba Bb].
        assert (El' : forall x, In x l -> x = MNull \/ exists obj, x = MMsg obj /\ sendable m' obj) by (intros; apply El; now right).
        destruct (El x (or_introl eq_refl)) as [->|(obj & -> & S)].
        + cbn [QtFieldsModel.mixed_list_element] in Ha. injection Ha as <-. cbn [app]. exact (IHl b acc El' Hb Bb).
        + cbn [QtFieldsModel.mixed_list_element] in Ha.
          apply (reads_app m i a b _ (fun x => exists r, x = MList (acc ++ [MMsg r]) /\ alike m' r obj)); [exact Li| |].
          * destruct (object_back m' obj a num S N Ha Ba) as (tag & pl & -> & Tg & _ & R).
            apply (reads_one m i num 2); auto; [cbn; auto|].
            intros fuel pre b' Bp L. destruct (R fuel pre b' Bp L) as (r & A & E).
            exists (MList (acc ++ [MMsg r])). split; [eauto|]. unfold QtFieldsModel.mixed_field. rewrite Q, T, E. reflexivity.
          * intros x (r & -> & A). eapply reads_weak; [|exact (IHl b (acc ++ [MMsg r]) El' Hb Bb)].
            intros y (l' & -> & F). exists (MMsg r :: l'). rewrite <- app_assoc. split; [reflexivity|].
            cbn [set_elements filter]. constructor; [|exact F]. eauto.
    Qed.

    (** Map entries. *)
    Lemma insert_last k key v acc : Forall (fun p => key_ltb k (fst p) key = true) acc ->
      mixed_insert k key v acc = acc ++ [(key, v)].
    Proof.
      induction 1 as [|[a w] acc H F IHa]; [reflexivity|]. cbn [QtFieldsModel.mixed_insert app fst] in *.
      rewrite H. rewrite (key_asym k a key H). now rewrite IHa.
    Qed.

    Lemma entry_back m' k a obj bs num : scalar_ok k a -> sendable m' obj -> field_number num ->
      mixed_map_element (mixed_serialize n) num k m' (a, MMsg obj) = Ok bs -> Zlen bs <= INT_MAX ->
      exists tag pl, bs = tag ++ pl /\ is_tag num 2 tag /\ (0 < length tag)%nat /\
      forall fuel pre b, Zlen (pl ++ b) <= INT_MAX -> (length pl < fuel)%nat -> exists key r,
        canon_scalar k key = canon_scalar k a /\ alike m' r obj /\
        mixed_map_pair fuel (sub fuel) k m' (pre ++ pl ++ b) (cur pre (pl ++ b)) = Ok (key, MMsg r, cur (pre ++ pl) b).
    Proof.
      intros Sa S N H B. unfold QtFieldsModel.mixed_map_element in H. cbn [fst snd] in H.
      destruct (mixed_object (mixed_serialize n) 2 m' obj) as [vb| | |] eqn:E; cbn [bind] in H; try discriminate H.
      injection H as <-.
      assert (T : is_tag num WLengthDelimitedT (encodeHeader num WLengthDelimitedT))
        by (apply encodeHeader_tag; [exact N | unfold WLengthDelimitedT; lia]).
      exists (encodeHeader num WLengthDelimitedT), (prependLengthDelimitedSize (serializeScalar k a 1 ++ vb)).
      split; [reflexivity|]. split; [exact T|]. split; [eapply varint_enc_nonempty; exact T|].
      intros fuel pre b Bp L. apply app_bound in B. destruct B as [_ B]. apply prepend_enc_bound in B.
      set (content := serializeScalar k a 1 ++ vb) in *.
      pose proof (prepend_delimited content B) as D. pose proof (delimited_nonempty _ _ D) as Ld.
      destruct D as (len & V & De). rewrite De in *. clear De.
      unfold QtFieldsModel.mixed_map_pair. rewrite <- (app_assoc len content b) in *.
      rewrite (varint_read 32 _ _ _ _ ltac:(lia) V). cbn [bind].
      assert (B2 : Zlen (content ++ b) <= INT_MAX)
        by (rewrite Zlen_app in Bp; pose proof (Zlen_nonneg len); lia).
      rewrite (count_small content b) by exact B2.
      rewrite plus_cur by exact B2. cbn [bind].
      change (it_pos (cur ((pre ++ len) ++ content) b)) with (Zlen ((pre ++ len) ++ content)).
      rewrite (app_assoc pre len (content ++ b)), (app_assoc pre len content).
      set (pre' := pre ++ len). clearbody pre'. unfold content in *. clear content.
      assert (N1 : field_number 1) by (unfold field_number; lia).
      assert (N2 : field_number 2) by (unfold field_number; lia).
      apply app_bound in B. destruct B as [B1 Bv].
      destruct (object_back m' obj vb 2 S N2 E Bv) as (tag & pl & -> & Tg & Lt & R).
      rewrite !app_length in Ld, L.
      assert (Val : forall n' pre'' key val, (2 <= n')%nat -> exists r, alike m' r obj /\
        mixed_map_loop (sub fuel) n' k m' (pre'' ++ (tag ++ pl) ++ b) (cur pre'' ((tag ++ pl) ++ b))
          (Zlen (pre'' ++ tag ++ pl)) key val = Ok (key, MMsg r, cur (pre'' ++ tag ++ pl) b)).
      { intros n' pre'' key val Ln. destruct n' as [|[|n']]; try lia.
        assert (Bp' : Zlen (pl ++ b) <= INT_MAX).
        { rewrite !Zlen_app in *. pose proof (Zlen_nonneg tag). pose proof (Zlen_nonneg (serializeScalar k a 1)). lia. }
        destruct (R fuel (pre'' ++ tag) b Bp' ltac:(lia)) as (r & A & Er).
        exists r. split; [exact A|]. cbn [QtFieldsModel.mixed_map_loop].
        replace (it_pos (cur pre'' ((tag ++ pl) ++ b)) =? Zlen (pre'' ++ tag ++ pl)) with false.
        2: { symmetry. apply Z.eqb_neq. cbn [cur it_pos]. rewrite !Zlen_app. pose proof (Zlen_nonneg pl). unfold Zlen at 3. lia. }
        rewrite <- (app_assoc tag pl b).
        rewrite (tag_read_ok 2 2 tag pre'' (pl ++ b) N2 ltac:(cbn; auto) Tg). cbn [bind Z.eqb Pos.eqb].
        rewrite (app_assoc pre'' tag (pl ++ b)), Er. cbn [bind].
        rewrite (app_assoc pre'' tag pl).
        cbn [cur it_pos]. rewrite Z.eqb_refl. reflexivity. }
      pose proof (serializeScalar_enc k a 1 Sa N1 B1) as Ek.
      set (ks := serializeScalar k a 1) in *. clearbody ks.
      destruct (omitted k a) eqn:Om.
      - inversion Ek; subst. cbn [app length] in *.
        destruct (Val fuel pre' (default_scalar k) MNull ltac:(lia)) as (r & A & Er).
        exists (default_scalar k), r. split; [symmetry; now apply omitted_default|]. split; [exact A|]. exact Er.
      - inversion Ek as [|num0 w0 rs0 ktag kb krest Nk Tk Ev Er0]; subst. inversion Er0; subst. rewrite app_nil_r in *.
        pose proof (varint_enc_nonempty _ _ Tk) as NEk. rewrite !app_length in Ld, L.
        destruct fuel as [|fuel0]; [lia|].
        destruct (Val fuel0 (pre' ++ ktag ++ kb) (mean_scalar k (wv k a)) MNull ltac:(lia)) as (r & A & Er).
        exists (mean_scalar k (wv k a)), r.
        split; [rewrite wv_mean by exact Sa; apply clear_null_canon|]. split; [exact A|].
        cbn [QtFieldsModel.mixed_map_loop].
        replace (it_pos (cur pre' (((ktag ++ kb) ++ tag ++ pl) ++ b)) =? Zlen (pre' ++ (ktag ++ kb) ++ tag ++ pl)) with false.
        2: { symmetry. apply Z.eqb_neq. cbn [cur it_pos]. rewrite !Zlen_app.
             pose proof (Zlen_nonneg pl). pose proof (Zlen_nonneg kb). pose proof (Zlen_nonneg tag). unfold Zlen at 3. lia. }
        replace (((ktag ++ kb) ++ tag ++ pl) ++ b) with (ktag ++ kb ++ (tag ++ pl) ++ b) by (now rewrite <- !app_assoc).
        rewrite (tag_read_ok 1 _ ktag pre' (kb ++ (tag ++ pl) ++ b) N1 (wtype_ok _) Tk). cbn [bind Z.eqb Pos.eqb].
        rewrite (app_assoc pre' ktag (kb ++ (tag ++ pl) ++ b)).
        rewrite (MessageProofs.scalar_read false k (wv k a) kb (pre' ++ ktag) ((tag ++ pl) ++ b) Ev (wv_fits k a Sa)).
        2: { rewrite !Zlen_app in *. pose proof (Zlen_nonneg ktag). lia. }
        cbn [bind]. rewrite <- !app_assoc in *. rewrite Er. reflexivity.
    Qed.

    Lemma map_back m i k m' num : qt_field m i = None -> f_ty (field_at sch m i) = FMap k (EM m') -> key_type k ->
      (i < length (md_fields (msg_at sch m)))%nat ->
      field_number num -> find_field (msg_at sch m) num = Some i -> forall l bs acc,
      ascending k l ->
      Forall (fun q => Forall (fun p => key_ltb k (fst q) (fst p) = true) l) acc ->
      (forall a x, In (a, x) l -> scalar_ok k a /\ (x = MNull \/ exists obj, x = MMsg obj /\ sendable m' obj)) ->
      concat_res (map (mixed_map_element (mixed_serialize n) num k m') l) = Ok bs -> Zlen bs <= INT_MAX ->
      reads m i bs (MMap acc) (fun x => exists l', x = MMap (acc ++ l') /\
        Forall2 (fun p q => canon_scalar k (fst p) = canon_scalar k (fst q) /\
                 exists r obj, snd p = MMsg r /\ snd q = MMsg obj /\ alike m' r obj) l' (set_entries l)).
    Proof.
      intros Q T K Li N Fi. induction l as [|[a x] l IHl]; intros bs acc As Lt El H B.
      - cbn in H. injection H as <-. apply reads_nil. exists []. rewrite app_nil_r. split; [reflexivity | constructor].
      - cbn [map] in H. apply concat_res_cons in H. destruct H as (ab & b & Ha & Hb & ->).
        apply app_bound in B. destruct B as [Ba Bb]. destruct As as [As1 As2].
        assert (El' : forall a x, In (a, x) l -> scalar_ok k a /\ (x = MNull \/ exists obj, x = MMsg obj /\ sendable m' obj))
          by (intros; apply El; now right).
        assert (Lt' : Forall (fun q => Forall (fun p => key_ltb k (fst q) (fst p) = true) l) acc).
        { eapply Forall_impl; [|exact Lt]. intros q Hq. now inversion Hq. }
        destruct (El a x (or_introl eq_refl)) as [Sa [->|(obj & -> & S)]].
        + cbn [QtFieldsModel.mixed_map_element snd] in Ha. injection Ha as <-. cbn [app]. exact (IHl b acc As2 Lt' El' Hb Bb).
        + apply (reads_app m i ab b _ (fun x => exists key r, x = MMap (acc ++ [(key, MMsg r)])
              /\ canon_scalar k key = canon_scalar k a /\ alike m' r obj)); [exact Li| |].
          * destruct (entry_back m' k a obj ab num Sa S N Ha Ba) as (tag & pl & -> & Tg & _ & R).
            apply (reads_one m i num 2); auto; [cbn; auto|].
            intros fuel pre b' Bp L. destruct (R fuel pre b' Bp L) as (key & r & C & A & E).
            exists (MMap (acc ++ [(key, MMsg r)])). split; [eauto 6|].
            unfold QtFieldsModel.mixed_field. rewrite Q, T, E. cbn [bind entries_of].
            rewrite insert_last; [reflexivity|].
            eapply Forall_impl; [|exact Lt]. intros q Hq. inversion Hq as [|? ? Hk _]; subst. cbn [fst] in Hk.
            rewrite <- (key_ltb_canon k (fst q) key K), C, (key_ltb_canon k (fst q) a K). exact Hk.
          * intros x (key & r & -> & C & A). eapply reads_weak; [|apply (IHl b (acc ++ [(key, MMsg r)]) As2); auto].
            -- intros y (l' & -> & F). exists ((key, MMsg r) :: l'). rewrite <- app_assoc. split; [reflexivity|].
               cbn [set_entries filter snd]. constructor; [|exact F]. cbn [fst snd]. split; [exact C|]. eauto.
            -- apply Forall_app. split; [exact Lt'|]. constructor; [|constructor]. cbn [fst].
               eapply Forall_impl; [|exact As1]. intros q Hq. cbn beta in Hq.
               rewrite <- (key_ltb_canon k key (fst q) K), C, (key_ltb_canon k a (fst q) K). exact Hq.
    Qed.
  End Level.

  (** ** Fields without messages *)

  Lemma typed_val ty v : without_messages ty -> well_typed ty v -> val_ok sch ty v.
  Proof.
    destruct ty as [[t|m]|[t|m]|k [t|m]]; try contradiction; intros _ W; destruct v as [s| | |l|l]; try contradiction;
      cbn [well_typed val_ok elem_ok] in *.
    - exact W.
    - apply every_Forall. eapply Forall_impl; [|exact W]. intros x (s & -> & H). exact H.
    - destruct W as [K W]. split; [exact K|]. apply every_Forall. eapply Forall_impl; [|exact W].
      intros [a x] (A & s & E & H). cbn [fst snd] in *. subst x. auto.
  Qed.

  Lemma typed_drop ty v : without_messages ty -> well_typed ty v -> drop_nulls v = v.
  Proof.
    destruct ty as [[t|m]|[t|m]|k [t|m]]; try contradiction; intros _ W; destruct v as [s| | |l|l]; try contradiction;
      cbn [well_typed drop_nulls] in *; [reflexivity| |].
    - f_equal. apply scalars_drop. intros x I. rewrite Forall_forall in W. destruct (W x I) as (s & -> & _). eauto.
    - f_equal. destruct W as [_ W]. induction W as [|[a x] l (A & s & E & H) W IHl]; [reflexivity|].
      cbn [flat_map fst snd] in *. subst x. cbn [app drop_nulls]. now rewrite IHl.
  Qed.

  Lemma rec_reads fuel n : (n <= fuel)%nat -> rec_ok sch (fun m' data' => deserializeMessage fuel false sch m' data') n.
  Proof.
    intros L m rs bs E F Lb B. destruct (deserialize_read false sch Sch fuel m rs bs E F ltac:(lia) B) as (r & R & _ & Sm).
    exists r. split; [exact R | exact Sm].
  Qed.

  Lemma records_back m i : (i < length (md_fields (msg_at sch m)))%nat -> qt_field m i = None ->
    without_messages (f_ty (field_at sch m i)) -> forall ws bs old old',
    enc_recs (map (pair (f_num (field_at sch m i))) ws) bs -> Forall (fits_field sch (f_ty (field_at sch m i))) ws ->
    canon_field sch (f_ty (field_at sch m i)) old = canon_field sch (f_ty (field_at sch m i)) old' ->
    reads m i bs (MPlain old) (fun x => exists v, x = MPlain v /\
      canon_field sch (f_ty (field_at sch m i)) v
      = canon_field sch (f_ty (field_at sch m i)) (fold_left (mean_field sch (f_ty (field_at sch m i))) ws old')).
  Proof.
    intros Li Q W. pose proof (field_at_ok sch m i Sch Li) as [N FO].
    pose proof (find_field_at sch m i Sch Li) as Fi.
    induction ws as [|w ws IHw]; intros bs old old' E F C.
    - inversion E; subst. apply reads_nil. exists old. auto.
    - cbn [map] in E. inversion E as [|num0 w0 rs0 tag wb more Nk Tk Ev Er0]; subst.
      inversion F as [|? ? F1 F2]; subst.
      replace (tag ++ wb ++ more) with ((tag ++ wb) ++ more) by (now rewrite <- app_assoc).
      apply (reads_app m i (tag ++ wb) more _ (fun x => exists v, x = MPlain v /\
        canon_field sch (f_ty (field_at sch m i)) v
        = canon_field sch (f_ty (field_at sch m i)) (mean_field sch (f_ty (field_at sch m i)) old' w))); [exact Li| |].
      + apply (reads_one m i (f_num (field_at sch m i)) (wtype w)); auto using wtype_ok.
        intros fuel pre b Bp L.
        destruct (field_read fuel false sch (fun m' data' => deserializeMessage fuel false sch m' data')
          (f_ty (field_at sch m i)) old old' w wb pre b) as (v & R & Cv); auto; try lia.
        { destruct (f_ty (field_at sch m i)) as [e|e|k e]; auto. }
        { apply rec_reads. lia. }
        exists (MPlain v). split; [eauto|]. unfold QtFieldsModel.mixed_field. rewrite Q.
        destruct (f_ty (field_at sch m i)) as [[t|m']|[t|m']|k [t|m']]; try contradiction; cbn [plain_of]; rewrite R; reflexivity.
      + intros x (v & -> & Cv). cbn [fold_left]. apply IHw; auto.
  Qed.

  Lemma plain_back n m i v bs : (i < length (md_fields (msg_at sch m)))%nat -> qt_field m i = None ->
    without_messages (f_ty (field_at sch m i)) -> well_typed (f_ty (field_at sch m i)) v ->
    serializeProperty sch (serializeMessage n sch) (field_at sch m i) v = Ok bs -> Zlen bs <= INT_MAX ->
    reads m i bs (MPlain (default_field (f_ty (field_at sch m i))))
      (fun x => exists v', x = MPlain v' /\ same_field sch (f_ty (field_at sch m i)) v' v).
  Proof.
    intros Li Q W Ty H B. pose proof (field_at_ok sch m i Sch Li) as FO.
    destruct (field_write sch (serializeMessage n sch)) with (f := field_at sch m i) (v := v) (bs := bs)
      as (ws & E & F & C & _); auto using typed_val.
    { intros m1 obj1 bs1 O1 H1 B1. destruct (message_write sch Sch n m1 obj1 bs1 O1 H1 B1) as (g & A1 & A2 & A3 & _). eauto. }
    rewrite (typed_drop _ v W Ty) in C.
    eapply reads_weak; [|apply (records_back m i Li Q W ws bs _ _ E F eq_refl)].
    intros x (v' & -> & Cv). exists v'. split; [reflexivity|]. unfold same_field. congruence.
  Qed.

  (** ** Fields of Qt types *)

  Lemma qt_back n m i q bs old : (i < length (md_fields (msg_at sch m)))%nat -> qt_field m i = Some (kind_of q) -> faithful q ->
    (fs <- to_message q ;; serializeObject (serializeMessage n sch) (f_num (field_at sch m i)) (index (kind_of q)) fs) = Ok bs ->
    Zlen bs <= INT_MAX ->
    reads m i bs old (fun x => exists y w, x = MQt y /\ same_qt w q /\ (y = w \/ qt_eq y w = true)).
  Proof.
    intros Li Q F H B. pose proof (field_at_ok sch m i Sch Li) as [N _].
    pose proof (find_field_at sch m i Sch Li) as Fi.
    destruct (to_message_ok Url Image url_string url_parse png_save image_load to_rgb sch Lib q F) as (fs & T & O & D).
    rewrite T in H. cbn [bind] in H. unfold serializeObject in H.
    destruct (serializeMessage n sch (index (kind_of q)) fs) as [body| | |] eqn:Sb; cbn [bind] in H; try discriminate H.
    injection H as <-. apply app_bound in B. destruct B as [_ B]. apply prepend_enc_bound in B.
    pose proof (prepend_delimited body B) as Dl. pose proof (delimited_nonempty _ _ Dl) as Ld.
    apply (reads_one m i (f_num (field_at sch m i)) WLengthDelimitedT); auto.
    { unfold WLengthDelimitedT. cbn. auto. }
    { apply encodeHeader_tag; [exact N | unfold WLengthDelimitedT; lia]. }
    intros fuel pre b Bp L.
    destruct (round_trip sch Sch n fuel (index (kind_of q)) fs body O Sb B ltac:(lia)) as (r & R & _ & Sm).
    rewrite D in Sm.
    assert (Or : object_ok sch (index (kind_of q)) r).
    { destruct (message_write sch Sch n _ fs body O Sb B) as (g & E & _). apply enc_recs_bytes in E.
      pose proof (loop_read_ok sch false fuel (index (kind_of q)) body (it_begin body) _ E (default_read_ok sch _)) as X.
      unfold deserializeMessage in R. rewrite R in X. exact (proj1 (obj_read_spec sch _ _ X)). }
    destruct (of_message_back Url Image url_string url_parse png_save image_load to_rgb sch Lib q fs r F T Or Sm) as (w & W & Sw).
    unfold QtFieldsModel.mixed_field. rewrite Q. unfold deserializeObject.
    rewrite (delimited_read false body _ pre b Dl Bp). cbn [bind]. rewrite R. cbn [bind]. rewrite W. cbn [bind].
    eexists. split; [|reflexivity]. destruct old as [| | | | |o]; eauto 8.
    destruct (qt_eq o w) eqn:Eq; eauto 8.
  Qed.

  (** ** Whole messages *)

  Section Step.
    Variable n : nat.
    Hypothesis IH : forall m obj body, sendable m obj -> mixed_serialize n m obj = Ok body -> Zlen body <= INT_MAX ->
      forall fuel, (length body < fuel)%nat -> exists r, mixed_deserialize fuel m body = (r, Ok tt) /\ alike m r obj.

    Lemma property_back m i v bs : (i < length (md_fields (msg_at sch m)))%nat -> sendable_member m i v ->
      mixed_property n (mixed_serialize n) m i v = Ok bs -> Zlen bs <= INT_MAX ->
      reads m i bs (new_member m i) (fun x => alike_member m i x v).
    Proof.
      intros Li S H B. pose proof (field_at_ok sch m i Sch Li) as [N FO].
      pose proof (find_field_at sch m i Sch Li) as Fi.
      unfold QtFieldsModel.mixed_property in H. unfold QtFieldsModel.new_member.
      destruct S as [m i q Q F|m i v Q W Ty|m i m' obj Q T S|m i m' Q T S|m i m' l Q T El|m i k m' l Q T As El]; rewrite Q in *.
      - eapply reads_weak; [|apply (qt_back n m i q bs _ Li Q F H B)].
        intros x (y & w & -> & Sw & D). econstructor; eauto.
      - assert (H' : serializeProperty sch (serializeMessage n sch) (field_at sch m i) v = Ok bs).
        { destruct (f_ty (field_at sch m i)) as [[t|m']|[t|m']|k [t|m']]; try contradiction; exact H. }
        pose proof (plain_back n m i v bs Li Q W Ty H' B) as R.
        destruct (f_ty (field_at sch m i)) as [[t|m']|[t|m']|k [t|m']] eqn:E; try contradiction;
          (eapply reads_weak; [|exact R]; intros x (v' & -> & Sm); constructor; rewrite E; exact Sm).
      - rewrite T in *. eapply reads_weak; [|apply (sing_back n IH m i m' obj bs _ MNull Q T N Fi S H B)].
        intros x (r & -> & A). econstructor; eauto.
      - rewrite T in *. eapply reads_weak; [|apply (sing_back n IH m i m' _ bs _ MNull Q T N Fi S H B)].
        intros x (r & -> & A). econstructor; eauto.
      - rewrite T in *. eapply reads_weak; [|apply (list_back n IH m i m' _ Q T Li N Fi l bs [] El H B)].
        intros x (l' & -> & A). econstructor; eauto.
      - rewrite T in *. eapply reads_weak; [|apply (map_back n IH m i k m' _ Q T FO Li N Fi l bs [] As (Forall_nil _) El H B)].
        intros x (l' & -> & A). econstructor; eauto.
    Qed.

    Lemma members_back m obj : sendable m obj -> forall os fuel pre bs vals, NoDup os ->
      (forall i, In i os -> (i < length (md_fields (msg_at sch m)))%nat) ->
      concat_res (map (fun i => mixed_property n (mixed_serialize n) m i (nth i obj MNull)) os) = Ok bs ->
      Zlen bs <= INT_MAX -> (length bs < fuel)%nat -> length vals = length (md_fields (msg_at sch m)) ->
      (forall i, In i os -> nth i vals MNull = new_member m i) ->
      exists r, mixed_loop fuel m (pre ++ bs) (cur pre bs) vals = (r, Ok tt) /\ length r = length vals /\
        (forall i, ~ In i os -> nth i r MNull = nth i vals MNull) /\
        (forall i, In i os -> alike_member m i (nth i r MNull) (nth i obj MNull)).
    Proof.
      intro S. inversion S as [m0 obj0 Lo So E1 E2]; subst m0 obj0.
      induction os as [|i os IHo]; intros fuel pre bs vals ND In_ H B L Lv Nv.
      - cbn [map concat_res] in H. injection H as <-. destruct fuel as [|fuel]; [cbn in L; lia|].
        exists vals. split; [|split; [reflexivity|split; [auto|intros i []]]].
        cbn [QtFieldsModel.mixed_loop]. cbn [cur it_pos]. rewrite app_nil_r, Z.eqb_refl. reflexivity.
      - cbn [map] in H. apply concat_res_cons in H as (a & b & Ha & Hb & ->).
        inversion ND as [|? ? Ni ND']; subst. pose proof (In_ i (or_introl eq_refl)) as Li.
        pose proof (app_bound _ _ B) as [Ba Bb].
        assert (Si : sendable_member m i (nth i obj MNull)) by (apply So; lia).
        destruct (property_back m i _ a Li Si Ha Ba fuel pre b vals Lv (Nv i (or_introl eq_refl)) B L)
          as (f' & x & Lf & Px & Ex).
        rewrite Ex. rewrite (app_assoc pre a b).
        destruct (IHo f' (pre ++ a) b (mixed_update i x vals)) as (r & R1 & R2 & R3 & R4); auto.
        { intros j J. apply In_. now right. }
        { now rewrite update_length. }
        { intros j J. rewrite update_neq by (intros ->; contradiction). apply Nv. now right. }
        exists r. split; [exact R1|]. split; [rewrite R2; apply update_length|]. split.
        + intros j J. rewrite R3 by (intro; apply J; now right). apply update_neq. intros ->. apply J. now left.
        + intros j [<-|J]; [|now apply R4]. rewrite R3 by exact Ni. rewrite update_eq by lia. exact Px.
    Qed.
  End Step.

  Lemma mixed_back n : forall m obj body, sendable m obj -> mixed_serialize n m obj = Ok body -> Zlen body <= INT_MAX ->
    forall fuel, (length body < fuel)%nat -> exists r, mixed_deserialize fuel m body = (r, Ok tt) /\ alike m r obj.
  Proof.
    induction n as [|n IHn]; intros m obj body S H B fuel L; [discriminate H|].
    cbn [QtFieldsModel.mixed_serialize] in H. pose proof (msg_at_ok sch m Sch) as (_ & _ & ND & Cov).
    destruct (members_back n IHn m obj S _ fuel [] body (new_object m) ND (fun i => proj1 (Cov i)) H B L
      (new_object_length m)) as (r & R1 & R2 & _ & R4).
    { intros i I. apply new_object_nth. now apply Cov. }
    exists r. split; [exact R1|]. rewrite new_object_length in R2. constructor; [exact R2|].
    intros i I. apply R4. apply Cov. lia.
  Qed.

  (** ** Every such message can be sent *)

  Lemma library_no_cycle k : ~ can_hold_cycle sch (index k).
  Proof.
    assert (Ref : forall k m', refers sch (index k) m' -> exists k', m' = index k').
    { clear k. intros k m' (f & I & D). rewrite (Lib k) in I.
      destruct k; cbn in I; repeat (destruct I as [<-|I]; [cbn in D; destruct D as [D|[D|[k' D]]]; try discriminate D; injection D as <-;
        first [now exists KDate | now exists KTime | now exists KPoint | now exists KSize | now exists KPointF | now exists KSizeF | now exists KVector3D]|]); contradiction. }
    assert (Rt : forall x, clos_refl_trans nat (refers sch) (index k) x -> exists k', x = index k').
    { intros x R. apply clos_rt_rtn1 in R. induction R as [|y z R1 R2 (k' & ->)]; [eauto|]. eapply Ref; eauto. }
    intros (x & R & C). destruct (Rt x R) as (k' & ->). clear R Rt k.
    set (rank := fun m => match m with 5%nat => 1%nat | 10%nat => 1%nat | 11%nat => 1%nat | 20%nat => 1%nat | _ => 0%nat end).
    assert (Lt : forall y z, clos_trans nat (singular sch) y z -> forall k, y = index k -> (rank z < rank y)%nat /\ exists k', z = index k').
    { clear C k'. induction 1 as [y z H|y z u _ IH1 _ IH2]; intros k ->.
      - split; [|apply (Ref k); destruct H as (f & I & D); exists f; auto].
        destruct H as (f & I & D). rewrite (Lib k) in I.
        destruct k; cbn in I; repeat (destruct I as [<-|I]; [cbn in D; try discriminate D; injection D as <-; cbn; lia|]); contradiction.
      - destruct (IH1 k eq_refl) as [A (k' & ->)]. destruct (IH2 k' eq_refl) as [A' B']. split; [lia | exact B']. }
    destruct (Lt _ _ C k' eq_refl) as [A _]. lia.
  Qed.

  Definition sent (r : nat -> res (list Z)) : Prop := exists fuel bs, forall fuel', (fuel <= fuel')%nat -> r fuel' = Ok bs.

  Lemma sent_concat {A : Type} (r : nat -> A -> res (list Z)) l : (forall x, In x l -> sent (fun f => r f x)) ->
    sent (fun f => concat_res (map (r f) l)).
  Proof.
    induction l as [|x l IHl]; intro H; [exists O, []; reflexivity|].
    destruct (H x (or_introl eq_refl)) as (f1 & b1 & H1). destruct IHl as (f2 & b2 & H2); [intros; apply H; now right|].
    exists (Nat.max f1 f2), (b1 ++ b2). intros f L. cbn [map concat_res]. rewrite H1 by lia. cbn [bind]. now rewrite H2 by lia.
  Qed.

  Lemma sent_object num m obj : sent (fun f => mixed_serialize f m obj) -> sent (fun f => mixed_object (mixed_serialize f) num m obj).
  Proof.
    intros (f1 & b1 & H1). exists f1. eexists. intros f L. unfold QtFieldsModel.mixed_object. rewrite H1 by exact L. reflexivity.
  Qed.

  Lemma sent_message m obj : (forall i, (i < length (md_fields (msg_at sch m)))%nat ->
      sent (fun f => mixed_property f (mixed_serialize f) m i (nth i obj MNull))) ->
    sent (fun f => mixed_serialize f m obj).
  Proof.
    intro H. pose proof (msg_at_ok sch m Sch) as (_ & _ & _ & Cov).
    destruct (sent_concat (fun f i => mixed_property f (mixed_serialize f) m i (nth i obj MNull)) (md_order (msg_at sch m)))
      as (f & bs & E).
    { intros i I. apply H. now apply Cov. }
    exists (Datatypes.S f), bs. intros f' L. destruct f' as [|f']; [lia|]. cbn [QtFieldsModel.mixed_serialize]. apply E. lia.
  Qed.

  Lemma sent_member m i v :
    match qt_field m i with
    | Some k => exists q, v = MQt q /\ k = kind_of q /\ faithful q
    | None =>
        match f_ty (field_at sch m i) with
        | FSing (EM m') => sent (fun f => mixed_serialize f m' (match v with MMsg obj => obj | _ => new_object m' end))
        | FRep (EM m') => forall x, In x (objects_of _ _ v) -> x = MNull \/ exists obj, x = MMsg obj /\ sent (fun f => mixed_serialize f m' obj)
        | FMap k (EM m') => forall a x, In (a, x) (entries_of _ _ v) -> x = MNull \/ exists obj, x = MMsg obj /\ sent (fun f => mixed_serialize f m' obj)
        | _ => True
        end
    end -> sent (fun f => mixed_property f (mixed_serialize f) m i v).
  Proof.
    intro H. unfold QtFieldsModel.mixed_property. destruct (qt_field m i) as [k|].
    - destruct H as (q & -> & -> & F).
      destruct (to_message_ok Url Image url_string url_parse png_save image_load to_rgb sch Lib q F) as (fs & T & _).
      destruct (no_cycle_terminates sch (index (kind_of q)) fs Sch (library_no_cycle _)) as (f & bs & E).
      exists f. eexists. intros f' L. rewrite T. cbn [bind]. unfold serializeObject. rewrite E by exact L. reflexivity.
    - destruct (f_ty (field_at sch m i)) as [[t|m']|[t|m']|k [t|m']] eqn:T.
      + exists O. eexists. intros f _. unfold serializeProperty. rewrite T. reflexivity.
      + apply sent_object. exact H.
      + exists O. eexists. intros f _. unfold serializeProperty. rewrite T. reflexivity.
      + apply sent_concat. intros x I. destruct (H x I) as [->|(obj & -> & S)]; [exists O, []; reflexivity|]. now apply sent_object.
      + unfold serializeProperty. rewrite T. apply sent_concat. intros [a x] I. unfold serializeMapElement. cbn [fst snd].
        exists O. destruct x; eexists; intros f _; reflexivity.
      + apply sent_concat. intros [a x] I. destruct (H a x I) as [->|(obj & -> & S)]; [exists O, []; reflexivity|].
        destruct (sent_object 2 m' obj S) as (f & bs & E). exists f. eexists. intros f' L.
        unfold QtFieldsModel.mixed_map_element. cbn [fst snd]. rewrite E by exact L. reflexivity.
  Qed.

  Lemma sendable_sent : forall m obj, sendable m obj -> sent (fun f => mixed_serialize f m obj).
  Proof.
    fix SS 3. intros m obj S. destruct S as [m obj L M]. apply sent_message. intros i I.
    assert (I' : (i < length obj)%nat) by lia. specialize (M i I'). apply sent_member. clear I I' L.
    destruct M as [m i q Q F|m i v Q W Ty|m i m' o Q T S|m i m' Q T S|m i m' l Q T El|m i k m' l Q T As El]; rewrite Q.
    - eauto.
    - destruct (f_ty (field_at sch m i)) as [[t|m']|[t|m']|k [t|m']]; try contradiction; exact I.
    - rewrite T. exact (SS m' o S).
    - rewrite T. exact (SS m' _ S).
    - rewrite T. cbn [objects_of]. intros x J. destruct (El x J) as [E|(o & E & S)]; [left; exact E|].
      right. exists o. split; [exact E|]. exact (SS m' o S).
    - rewrite T. cbn [entries_of]. intros a x J. destruct (El a x J) as [_ [E|(o & E & S)]]; [left; exact E|].
      right. exists o. split; [exact E|]. exact (SS m' o S).
  Qed.
End Fields.

(** Proofs: what a program with Qt types reads from arbitrary bytes. *)

From Coq Require Import ZArith List Bool Lia Arith.
From Verif Require Import Base WireModel Values MessageModel WireSpec WireProofs MessageSpec MessageProofs
  SerializeProofs MessageFacts TypedProofs ObjectProofs RunFacts QtTypesModel QtTypesSpec QtTypesProofs QtFieldsModel QtFieldsSpec QtFieldsProofs.
Import ListNotations.
Open Scope Z_scope.

Section Track.
  Variables Url Image : Type.
  Variable url_parse : list Z -> Url.
  Variable image_load : list Z -> list Z -> Image.
  Local Notation qtval := (qtval Url Image).
  Local Notation mvalue := (mvalue Url Image).
  Local Notation of_message := (of_message Url Image url_parse image_load).
  Variable qt_eq : qtval -> qtval -> bool.
  Variable new_qt : kind -> qtval.
  Variable sch : schema.
  Variable qt_field : nat -> nat -> option kind.
  Hypothesis Lib : has_library sch.
  Hypothesis Qok : qt_fields_ok sch qt_field.

  Local Notation new_object := (new_object Url Image new_qt sch qt_field).
  Local Notation new_member := (new_member Url Image new_qt sch qt_field).
  Local Notation mixed_update := (mixed_update Url Image).
  Local Notation mixed_insert := (mixed_insert Url Image).
  Local Notation mixed_read_object := (mixed_read_object Url Image).
  Local Notation mixed_map_loop := (mixed_map_loop Url Image).
  Local Notation mixed_map_pair := (mixed_map_pair Url Image).
  Local Notation mixed_field := (mixed_field Url Image url_parse image_load qt_eq sch qt_field).
  Local Notation mixed_read_property := (mixed_read_property Url Image url_parse image_load qt_eq sch qt_field).
  Local Notation mixed_loop := (mixed_loop Url Image url_parse image_load qt_eq new_qt sch qt_field).
  Local Notation mixed_deserialize := (mixed_deserialize Url Image url_parse image_load qt_eq new_qt sch qt_field).
  Local Notation read_as := (read_as url_parse image_load qt_eq new_qt sch qt_field).
  Local Notation read_member := (read_member url_parse image_load qt_eq new_qt sch qt_field).

  (** Some field is a rectangle. *)
  Definition rects : Prop := exists m i, qt_field m i = Some KRect.

  (** The same outcome, except that a rectangle may overflow. *)
  Definition tracks {A B : Type} (R : A -> B -> Prop) (a : res A) (b : res B) : Prop :=
    rects /\ a = UB SignedOverflow \/
    match a, b with
    | Ok x, Ok y => R x y
    | Throw e, Throw e' => e = e'
    | UB r, UB r' => r = r'
    | OutOfFuel, OutOfFuel => True
    | _, _ => False
    end.

  Lemma tracks_bind {A B A' B' : Type} (R : A -> B -> Prop) (R' : A' -> B' -> Prop) a b f g :
    tracks R a b -> (forall x y, R x y -> tracks R' (f x) (g y)) -> tracks R' (bind a f) (bind b g).
  Proof.
    intros [[X ->]|H] F; [left; split; [exact X | reflexivity]|].
    destruct a, b; try contradiction; cbn [bind]; [now apply F| | |]; right; exact H.
  Qed.

  Lemma tracks_same {A A' B' : Type} (R' : A' -> B' -> Prop) (a : res A) f g :
    (forall x, a = Ok x -> tracks R' (f x) (g x)) -> tracks R' (bind a f) (bind a g).
  Proof. intro F. destruct a; cbn [bind]; [now apply F| | |]; right; auto. Qed.

  (** ** Lists of messages that were read hold no null pointers *)

  Definition full (m : nat) (obj : list value) : Prop :=
    forall i m', f_ty (field_at sch m i) = FRep (EM m') ->
    Forall (fun x => exists p, x = VMsg p) (list_of (nth i obj VNull)).

  Lemma default_full m : full m (default_obj sch m).
  Proof.
    intros i m' T. unfold default_obj. unfold field_at in T. set (fs := md_fields (msg_at sch m)) in *. clearbody fs.
    revert i T. induction fs as [|f fs IH]; intros [|i] T; cbn [map nth list_of] in *; try (constructor; fail).
    - rewrite T. constructor.
    - now apply IH.
  Qed.

  Lemma nth_update i j v : forall l, nth j (update i v l) VNull = if Nat.eqb i j then (if (i <? length l)%nat then v else VNull) else nth j l VNull.
  Proof.
    revert j. induction i as [|i IH]; intros [|j] [|x l]; try reflexivity.
    - cbn [update nth length]. destruct (S i =? S j)%nat; reflexivity.
    - cbn [update nth length]. rewrite IH. reflexivity.
  Qed.

  Lemma loop_full fuel : forall m data it obj, full m obj -> full m (fst (deserialize_loop fuel false sch m data it obj)).
  Proof.
    induction fuel as [|fuel IH]; intros m data it obj F; [exact F|]. cbn [deserialize_loop].
    destruct (it_pos it =? Zlen data); [exact F|].
    match goal with |- context [deserializeProperty fuel false sch ?rc m data it obj] => set (rec := rc); clearbody rec end.
    destruct (deserializeProperty fuel false sch rec m data it obj) as [[obj' it']| | |] eqn:E; try exact F.
    apply IH. unfold deserializeProperty in E.
    apply bind_Ok in E. destruct E as ([[[num wt] valid] it1] & _ & E). destruct (negb valid); [discriminate E|].
    destruct (find_field (msg_at sch m) num) as [i|].
    - apply bind_Ok in E. destruct E as ([v it2] & E1 & E). injection E as <- <-.
      intros j m' T. rewrite nth_update. destruct (Nat.eqb_spec i j) as [<-|N]; [|exact (F j m' T)].
      destruct (i <? length obj)%nat; [|constructor].
      rewrite T in E1. cbn [deserializeField] in E1. apply bind_Ok in E1. destruct E1 as ([o it3] & _ & E1).
      injection E1 as <- _. cbn [list_of]. apply Forall_app. split; [exact (F i m' T)|]. constructor; [eauto | constructor].
    - apply bind_Ok in E. destruct E as (it2 & _ & E). injection E as <- <-. exact F.
  Qed.

  Lemma points_full l : Forall (fun x => exists p, x = VMsg p) l -> exists ps, points_of l = Ok ps.
  Proof.
    induction 1 as [|x l (p & ->) F (ps & IH)]; [now exists []|]. cbn [points_of]. rewrite IH. cbn [bind]. eauto.
  Qed.

  (** The conversion of what was read succeeds, unless a rectangle overflows. *)
  Lemma conversion k fs : full (index k) fs ->
    (exists w, of_message k fs = Ok w) \/ k = KRect /\ of_message k fs = UB SignedOverflow.
  Proof.
    intro F. destruct k; cbn [QtTypesModel.of_message]; try (left; eexists; reflexivity).
    - destruct (uuid_parse (text_at 0 fs)) as [[[d1 d2] d3] d4]. left. eexists. reflexivity.
    - assert (I : forall z, int_op z = Ok z \/ int_op z = UB SignedOverflow).
      { intro z. unfold int_op. destruct (_ && _); auto. }
      repeat match goal with
      | |- context [int_op ?z] => destruct (I z) as [-> | ->]; cbn [bind]; [|right; split; reflexivity]
      end.
      left. eexists. reflexivity.
    - assert (P : Forall (fun x => exists p, x = VMsg p) (list_of (nth 0 fs VNull))).
      { apply (F 0%nat (index KPoint)). unfold field_at. rewrite (Lib KPolygon). reflexivity. }
      destruct (points_full _ P) as (ps & ->). left. eexists. reflexivity.
    - assert (P : Forall (fun x => exists p, x = VMsg p) (list_of (nth 0 fs VNull))).
      { apply (F 0%nat (index KPointF)). unfold field_at. rewrite (Lib KPolygonF). reflexivity. }
      destruct (points_full _ P) as (ps & ->). left. eexists. reflexivity.
  Qed.

  (** ** One field *)

  Section Rec.
    Variable fuel : nat.
    Variable rec : nat -> list Z -> list mvalue * res unit.
    Local Notation plain := (fun m' data' => deserializeMessage fuel false sch m' data').
    Hypothesis R : forall m data, rects /\ snd (rec m data) = UB SignedOverflow \/
      snd (rec m data) = snd (plain m data) /\ read_as m (fst (rec m data)) (fst (plain m data)).

    Lemma object_tracks m data it :
      tracks (fun x y => read_as m (fst x) (fst y) /\ snd x = snd y)
        (mixed_read_object rec m data it) (deserializeObject false plain m data it).
    Proof.
      unfold QtFieldsModel.mixed_read_object, deserializeObject. apply tracks_same. intros [array it'] _.
      destruct (R m array) as [[X H]|[H1 H2]]; destruct (rec m array) as [r o]; cbn [fst snd] in *.
      - subst o. left. auto.
      - destruct (deserializeMessage fuel false sch m array) as [p o']. cbn [fst snd] in *. subst o'.
        right. destruct o; cbn [fst snd]; auto.
    Qed.

    Lemma map_tracks k m data last : forall n it key val val',
      val = MNull /\ val' = VNull \/ (exists r p, val = MMsg r /\ val' = VMsg p /\ read_as m r p) ->
      tracks (fun x y => fst (fst x) = fst (fst y) /\ snd x = snd y /\
               (snd (fst x) = MNull /\ snd (fst y) = VNull \/
                exists r p, snd (fst x) = MMsg r /\ snd (fst y) = VMsg p /\ read_as m r p))
        (mixed_map_loop rec n k m data it last key val) (map_loop false plain n k (EM m) data it last key val').
    Proof.
      induction n as [|n IH]; intros it key val val' V; [right; exact Logic.I|].
      cbn [QtFieldsModel.mixed_map_loop map_loop].
      destruct (it_pos it =? last); [right; cbn [fst snd]; auto|].
      apply tracks_same. intros [[[num wt] valid] it1] _. destruct (num =? 1).
      - apply tracks_same. intros [key' it2] _. now apply IH.
      - cbn [deserializeElement].
        apply (tracks_bind (fun x y => (exists r p, fst x = r /\ fst y = VMsg p /\ read_as m r p) /\ snd x = snd y)).
        + pose proof (object_tracks m data it1) as T. unfold tracks in T |- *.
          destruct (mixed_read_object rec m data it1) as [[r i1]| | |];
            destruct (deserializeObject false plain m data it1) as [[p i2]| | |]; cbn [bind fst snd] in *; try exact T.
          destruct T as [[_ T]|[T1 T2]]; [discriminate T|]. right. split; [eauto | exact T2].
        + intros [r i1] [v i2] [(r0 & p & <- & E & A) Ei]. cbn [fst snd] in *. subst v i2. apply IH. right. eauto.
    Qed.

    Lemma insert_tracks k key key' v v' (P : mvalue -> value -> Prop) : key = key' -> P v v' -> forall l l',
      Forall2 (fun x y => fst x = fst y /\ P (snd x) (snd y)) l l' ->
      Forall2 (fun x y => fst x = fst y /\ P (snd x) (snd y)) (mixed_insert k key v l) (map_insert k key' v' l').
    Proof.
      intros <- Pv. induction 1 as [|[a x] [b y] l l' [E Px] F IHl]; cbn [QtFieldsModel.mixed_insert map_insert fst snd] in *.
      - constructor; [auto | constructor].
      - subst b. destruct (key_ltb k key a); [constructor; [auto|]; constructor; auto|].
        destruct (key_ltb k a key); constructor; auto.
    Qed.

    Lemma field_tracks m i old old' data it : read_member m i old old' ->
      tracks (fun x y => read_member m i (fst x) (fst y) /\ snd x = snd y)
        (mixed_field fuel rec m i old data it) (deserializeField fuel false plain (f_ty (field_at sch m i)) old' data it).
    Proof.
      intro O. unfold QtFieldsModel.mixed_field. destruct (qt_field m i) as [k|] eqn:Q.
      - rewrite (Qok _ _ _ Q). cbn [deserializeField]. apply tracks_same. intros [fs it'] E.
        assert (F : full (index k) fs).
        { unfold deserializeObject in E. apply bind_Ok in E. destruct E as ([array it1] & _ & E).
          pose proof (loop_full fuel (index k) array (it_begin array) _ (default_full (index k))) as F.
          unfold deserializeMessage in E. destruct (deserialize_loop _ _ _ _ _ _ _) as [p [u| | |]]; try discriminate E.
          injection E as <- <-. exact F. }
        destruct (conversion k fs F) as [(w & W)|[-> W]]; rewrite W; cbn [bind].
        + right. cbn [fst snd]. split; [|reflexivity].
          destruct old as [| | | | |o]; try (eapply read_qt; [exact Q | exact W | now left]).
          eapply read_qt; [exact Q | exact W |]. destruct (qt_eq o w) eqn:Eq; auto.
        + left. split; [exists m, i; exact Q | reflexivity].
      - destruct O as [m i k x w fs Q' _ _|m i k Q'|m i v _ W|m i m' _ T|m i m' r p _ T S|m i m' l l' _ T F|m i k m' l l' _ T F];
          try (rewrite Q' in Q; discriminate Q).
        + destruct (f_ty (field_at sch m i)) as [[t|m']|[t|m']|k [t|m']] eqn:E; try contradiction; cbn [plain_of];
            match goal with |- tracks _ (bind ?a _) ?b => change b with a; destruct a as [[y it']| | |]; cbn [bind]; right; auto; cbn [fst snd];
              (split; [|reflexivity]); apply read_plain; [exact Q | rewrite E; exact Logic.I] end.
        + rewrite T. cbn [deserializeField]. eapply tracks_bind; [apply object_tracks|].
          intros [r i1] [p i2] [A Ei]. cbn [fst snd] in Ei. subst i2. right. cbn [fst snd] in *. split; [|reflexivity]. eapply read_message; eauto.
        + rewrite T. cbn [deserializeField]. eapply tracks_bind; [apply object_tracks|].
          intros [r' i1] [p' i2] [A Ei]. cbn [fst snd] in Ei. subst i2. right. cbn [fst snd] in *. split; [|reflexivity]. eapply read_message; eauto.
        + rewrite T. cbn [deserializeField]. eapply tracks_bind; [apply object_tracks|].
          intros [r i1] [p i2] [A Ei]. cbn [fst snd] in Ei. subst i2. right. cbn [fst snd] in *. split; [|reflexivity]. eapply read_list; eauto.
          cbn [objects_of list_of]. apply Forall2_app; [exact F|]. constructor; [eauto | constructor].
        + rewrite T. cbn [deserializeField]. unfold QtFieldsModel.mixed_map_pair, deserializeMapPair. cbn [default_element].
          eapply tracks_bind.
          { apply tracks_same. intros [count it1] _. apply tracks_same. intros last _. apply map_tracks. now left. }
          intros [[key v] i1] [[key' v'] i2] (E1 & E2 & V). cbn [fst snd] in *. subst i2. right. cbn [fst snd]. split; [|reflexivity].
          eapply read_map; eauto. cbn [entries_of map_of store_map].
          apply (insert_tracks k key key' v v' (fun a b => a = MNull /\ b = VNull \/ exists r p, a = MMsg r /\ b = VMsg p /\ read_as m' r p) E1 V); exact F.
    Qed.
  End Rec.

  (** ** Whole messages *)

  Lemma new_read m : read_as m (new_object m) (default_obj sch m).
  Proof.
    constructor; [apply new_object_length | rewrite new_object_length; apply default_obj_length |].
    intros i L. rewrite new_object_length in L. rewrite new_object_nth by exact L.
    replace (nth i (default_obj sch m) VNull) with (default_field (f_ty (field_at sch m i))).
    2: { unfold default_obj, field_at. set (fs := md_fields (msg_at sch m)) in *. clearbody fs. clear - L. revert i L.
         induction fs as [|f fs IH]; intros [|i] L; cbn [length nth map] in *; try lia; [reflexivity|]. rewrite IH by lia. reflexivity. }
    unfold QtFieldsModel.new_member. destruct (qt_field m i) as [k|] eqn:Q.
    - rewrite (Qok _ _ _ Q). cbn [default_field]. now apply read_new_qt.
    - destruct (f_ty (field_at sch m i)) as [[t|m']|[t|m']|k [t|m']] eqn:E; cbn [default_field];
        try (apply read_plain; [exact Q | rewrite E; exact Logic.I]).
      + eapply read_unset; eauto.
      + eapply read_list; eauto.
      + eapply read_map; eauto.
  Qed.

  Lemma update_read m r p i x y : read_as m r p -> read_member m i x y -> read_as m (mixed_update i x r) (update i y p).
  Proof.
    intros H X. inversion H as [m0 r0 p0 L1 L2 M E1 E2 E3]; subst m0 r0 p0.
    constructor; [now rewrite update_length | now rewrite MessageProofs.update_length, update_length |].
    intros j L. rewrite update_length in L. destruct (Nat.eq_dec i j) as [<-|N].
    - rewrite update_eq by exact L. rewrite nth_update, Nat.eqb_refl. replace (i <? length p)%nat with true; [exact X|].
      symmetry. apply Nat.ltb_lt. lia.
    - rewrite update_neq by exact N. rewrite nth_update. apply Nat.eqb_neq in N. rewrite N. now apply M.
  Qed.

  Lemma member_read m r p i : read_as m r p -> (i < length (md_fields (msg_at sch m)))%nat -> read_member m i (nth i r MNull) (nth i p VNull).
  Proof. intros H L. inversion H as [m0 r0 p0 L1 L2 M E1 E2 E3]; subst m0 r0 p0. apply M. lia. Qed.

  Lemma loop_tracks fuel : forall m data it obj p, read_as m obj p ->
    let a := mixed_loop fuel m data it obj in let b := deserialize_loop fuel false sch m data it p in
    rects /\ snd a = UB SignedOverflow \/ snd a = snd b /\ read_as m (fst a) (fst b).
  Proof.
    induction fuel as [|fuel IH]; intros m data it obj p H; [right; split; [reflexivity | exact H]|].
    cbv zeta. cbn [QtFieldsModel.mixed_loop deserialize_loop]. destruct (it_pos it =? Zlen data); [right; split; [reflexivity | exact H]|].
    assert (T : tracks (fun x y => read_as m (fst x) (fst y) /\ snd x = snd y)
      (mixed_read_property fuel (fun m' data' => mixed_loop fuel m' data' (it_begin data') (new_object m')) m data it obj)
      (deserializeProperty fuel false sch (fun m' data' => deserialize_loop fuel false sch m' data' (it_begin data') (default_obj sch m')) m data it p)).
    { unfold QtFieldsModel.mixed_read_property, deserializeProperty. apply tracks_same. intros [[[num wt] valid] it1] _.
      destruct (negb valid); [right; reflexivity|]. destruct (find_field (msg_at sch m) num) as [i|] eqn:Fi.
      - apply find_field_range in Fi. destruct Fi as [Fi _]. eapply tracks_bind.
        + apply (field_tracks fuel (fun m' data' => mixed_loop fuel m' data' (it_begin data') (new_object m'))).
          * intros m' data'. exact (IH m' data' (it_begin data') _ _ (new_read m')).
          * now apply member_read.
        + intros [x i1] [y i2] [A Ei]. cbn [fst snd] in Ei. subst i2. right. cbn [fst snd] in *. split; [now apply update_read | reflexivity].
      - apply tracks_same. intros it2 _. right. auto. }
    destruct T as [[X T]|T]; [rewrite T; left; auto|].
    destruct (mixed_read_property _ _ _ _ _ _) as [[obj' it']| | |]; destruct (deserializeProperty _ _ _ _ _ _ _ _) as [[p' it2]| | |];
      try contradiction; cbn [fst snd] in *.
    - destruct T as [T Ei]. subst it2. now apply IH.
    - right. split; [congruence | exact H].
    - right. split; [congruence | exact H].
    - right. split; [congruence | exact H].
  Qed.
End Track.

(** Programs from the same .proto files that exchange messages with Qt types as JSON texts: C104, continued. *)

From Coq Require Import String ZArith List Bool Arith Lia.
From Verif Require Import Base WireModel Values MessageModel WireSpec MessageSpec MessageProofs QtTypesModel QtTypesSpec QtFieldsModel QtFieldsSpec
  JsonSpec JsonModel PropertiesJson JsonReadModel JsonReadSpec JsonScan PropertiesJsonRead JsonTyped QtJsonModel QtJsonSpec QtJsonOrder PropertiesQtJson.
From Verif Require GenTypesSpec LinkModel LinkSpec LinkProofs LinkQtModel LinkQtSpec LinkQtProofs PropertiesQtFields PropertiesLinkQt.
Import ListNotations.

(** Two programs have the same names for fields and enumerators. *)
Definition same_names (nm nm' : names) : Prop := forall m i, n_json nm m i = n_json nm' m i /\ n_enum nm m i = n_enum nm' m i.

(** Whatever text arrives and into whatever object it is read: programs from the same files, with the same names, read the same from it.
    They may differ in QML support, the order of registrations, the order of all tables, and in Qt types that are registered
    but not used.

    Missing: classes that are not usable (C98_unusable_refuted).  That the names in the tables of both are those of the files, and so the same, is C105. *)
Theorem C104_same_reader_partial : forall (Url Image : Type) url_parse image_load qt_eq new_qt
  ps qt qt' p q order order' sch sch' qt_field qt_field' nm nm' mj conv fuel m t (base : list (mvalue Url Image)),
  LinkSpec.files_valid ps ->
  LinkSpec.program_of ps qt p -> LinkQtSpec.of_library qt -> LinkQtSpec.any_order order -> LinkQtSpec.usable_with_qt ps qt (LinkModel.pr_qml p) ->
  LinkQtModel.runs_with_qt p order sch qt_field ->
  LinkSpec.program_of ps qt' q -> LinkQtSpec.of_library qt' -> LinkQtSpec.any_order order' -> LinkQtSpec.usable_with_qt ps qt' (LinkModel.pr_qml q) ->
  LinkQtModel.runs_with_qt q order' sch' qt_field' ->
  names_ok sch nm -> same_names nm nm' ->
  mixed_json_read Url Image url_parse image_load qt_eq new_qt sch' nm' qt_field' mj conv fuel m t base =
  mixed_json_read Url Image url_parse image_load qt_eq new_qt sch nm qt_field mj conv fuel m t base.
Proof.
  intros Url Image up il qe nq ps qt qt' p q o o' sch sch' qf qf' nm nm' mj conv fuel m t base V Pp Lp Op Up Rp Pq Lq Oq Uq Rq No Sn.
  destruct (PropertiesLinkQt.C98_as_declared_partial ps qt p o sch qf V Pp Lp Op Up Rp) as (Dp & Sp & Hp & _).
  destruct (PropertiesLinkQt.C98_as_declared_partial ps qt' q o' sch' qf' V Pq Lq Oq Uq Rq) as (Dq & Sq & Hq & _).
  destruct (LinkQtProofs.declared_same (GenTypesSpec.classes_of ps) sch sch' qf qf' (proj1 V) (proj1 (LinkQtProofs.declared_said _ _ _) Dp)
    (proj1 (LinkQtProofs.declared_said _ _ _) Dq)) as (SF & SQ).
  - intro k. now rewrite Hp, Hq.
  - apply Rp.
  - apply Rq.
  - symmetry. apply read_alike; auto; [intros; apply Sn|]. apply finds_alike; auto. intros; apply Sn.
Qed.
Print Assumptions C104_same_reader_partial.

(** The text that one program writes for a message is read by every other program from the same files, into a new object, as the
    same message: every value of a Qt type, at any depth, is the one that was sent up to the sign of zeros (or Qt's comparison
    takes it for such a value), and every other field is the same, but for null pointers in lists and maps.

    Missing: as above, and what is missing in C104_round_trip_partial. *)
Theorem C104_exchange_partial : forall (Url Image : Type) url_string url_parse png_save image_load to_rgb qt_eq new_qt
  ps qt qt' p q order order' sch sch' qt_field qt_field' nm nm' mj ok conv fm m (obj : list (mvalue Url Image)) plain t,
  right_on mj ok -> (forall t, ok t -> quotes_only t) -> gives_bytes mj -> gives_floats conv ->
  LinkSpec.files_valid ps ->
  LinkSpec.program_of ps qt p -> LinkQtSpec.of_library qt -> LinkQtSpec.any_order order -> LinkQtSpec.usable_with_qt ps qt (LinkModel.pr_qml p) ->
  LinkQtModel.runs_with_qt p order sch qt_field ->
  LinkSpec.program_of ps qt' q -> LinkQtSpec.of_library qt' -> LinkQtSpec.any_order order' -> LinkQtSpec.usable_with_qt ps qt' (LinkModel.pr_qml q) ->
  LinkQtModel.runs_with_qt q order' sch' qt_field' ->
  names_ok sch nm -> enum_values nm -> same_names nm nm' -> (forall m i e, f_ty (field_at sch m i) <> FMap TBool e) ->
  sendable url_string url_parse png_save image_load new_qt sch qt_field m obj ->
  stands_for url_string png_save to_rgb new_qt sch qt_field m obj plain -> object_ok sch m plain ->
  fine sch nm fm numbered (fun t x s => number s /\ reads_as conv t x s) m plain -> nowhere_empty sch m plain ->
  mixed_json_serializes url_string png_save to_rgb new_qt sch nm qt_field fm m obj t -> ok t -> bytes t ->
  exists fuel r,
    (forall fuel', (fuel <= fuel')%nat ->
       mixed_json_read Url Image url_parse image_load qt_eq new_qt sch' nm' qt_field' mj conv fuel' m t
         (new_object Url Image new_qt sch' qt_field' m) = Ok r) /\ alike qt_eq new_qt sch qt_field m r obj.
Proof.
  intros Url Image us up ps' il rgb qe nq ps qt qt' p q o o' sch sch' qf qf' nm nm' mj ok conv fm m obj plain t
    Ro Qo Gb Gf V Pp Lp Op Up Rp Pq Lq Oq Uq Rq No Ev Sn Nb S St Ok Fi Ne Se Ot Bt.
  pose proof (fun fuel base => C104_same_reader_partial Url Image up il qe nq ps qt qt' p q o o' sch sch' qf qf' nm nm' mj conv fuel m t base
    V Pp Lp Op Up Rp Pq Lq Oq Uq Rq No Sn) as Same.
  destruct (PropertiesLinkQt.C98_as_declared_partial ps qt p o sch qf V Pp Lp Op Up Rp) as (Dp & Sp & Hp & Fp).
  destruct (PropertiesLinkQt.C98_as_declared_partial ps qt' q o' sch' qf' V Pq Lq Oq Uq Rq) as (Dq & Sq & Hq & _).
  destruct (LinkQtProofs.declared_same (GenTypesSpec.classes_of ps) sch sch' qf qf' (proj1 V) (proj1 (LinkQtProofs.declared_said _ _ _) Dp)
    (proj1 (LinkQtProofs.declared_said _ _ _) Dq)) as (SF & SQ).
  - intro k. now rewrite Hp, Hq.
  - apply Rp.
  - apply Rq.
  - destruct (C104_round_trip_partial Url Image us up ps' il rgb qe nq sch nm qf mj ok conv fm m obj plain t
      Ro Qo Gb Gf No Ev Sp Hp Fp Nb S St Ok Fi Ne Se Ot Bt) as (fuel & r & D & Al).
    exists fuel, r. split; [|exact Al]. intros fuel' L. rewrite Same, <- (LinkQtProofs.new_object_congr Url Image nq sch sch' qf qf' SF SQ). exact (D fuel' L).
Qed.
Print Assumptions C104_exchange_partial.

(** The text of the program for QML with all Qt types, and the program without QML that has only two of them and everything
    backwards.  What these programs run with is shown in C98_case, and all that is assumed about the message and its text in C104_case. *)
Example C104_exchange_case : exists t,
  let sch' := LinkQtProofs.qt_program_schema PropertiesLinkQt.guest_program PropertiesLinkQt.library_backwards in
  let qt_field' := LinkQtProofs.qt_program_field PropertiesLinkQt.guest_program in
  LinkQtModel.runs_with_qt PropertiesLinkQt.hotel_program PropertiesLinkQt.library_in_order PropertiesQtFields.ex_booking_schema PropertiesQtFields.ex_qt_field /\
  LinkQtModel.runs_with_qt PropertiesLinkQt.guest_program PropertiesLinkQt.library_backwards sch' qt_field' /\
  names_ok PropertiesQtFields.ex_booking_schema booking_names /\ same_names booking_names booking_names /\
  md_order (msg_at PropertiesQtFields.ex_booking_schema 22) <> md_order (msg_at sch' 22) /\
  mixed_json (list Z) (list Z) (fun u => u) (fun i => i) (fun _ c => c) PropertiesQtFields.ex_new_qt PropertiesQtFields.ex_booking_schema booking_names
    PropertiesQtFields.ex_qt_field json_formats 5 22 PropertiesQtFields.ex_booking = Ok t /\
  mixed_json_read (list Z) (list Z) (fun u => u) (fun i _ => i) (fun _ _ => false) PropertiesQtFields.ex_new_qt sch' booking_names qt_field'
    scanner no_floats 9 22 t (new_object _ _ PropertiesQtFields.ex_new_qt sch' qt_field' 22) = Ok PropertiesQtFields.ex_received.
Proof.
  pose proof PropertiesLinkQt.C98_case as (_ & _ & _ & _ & _ & R & _ & _ & _ & _ & R' & _).
  eexists. split; [exact R|]. split; [exact R'|]. split; [exact booking_names_ok|]. split; [now intros m i|]. split; [vm_compute; discriminate|].
  split; [vm_compute; reflexivity|]. vm_compute. reflexivity.
Qed.
Print Assumptions C104_exchange_case.

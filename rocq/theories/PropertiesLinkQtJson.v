(** Programs with fields of Qt types that exchange JSON texts: C105. *)

From Coq Require Import String ZArith List Bool Arith Permutation Lia.
From Verif Require Import Base WireModel Values MessageModel WireSpec MessageSpec MessageProofs QtTypesModel QtTypesSpec QtFieldsModel QtFieldsSpec
  JsonSpec JsonModel JsonProofs JsonUnique PropertiesJson JsonReadModel JsonReadSpec JsonReadProofs JsonScan PropertiesJsonRead JsonTyped QtJsonModel QtJsonSpec
  PropertiesQtJson PropertiesQtJsonLink.
From Verif Require GenModel GenSpec GenTypesModel.
From Verif Require Import GenTypesSpec LinkModel LinkSpec LinkQtModel LinkQtSpec LinkJsonModel LinkJsonSpec LinkQtJsonModel LinkQtJsonSpec.
From Verif Require LinkQtProofs LinkJsonProofs LinkQtJsonProofs PropertiesQtFields PropertiesLinkQt PropertiesLinkJson.
Import ListNotations.

(** C105.  The JSON serializer finds its way through the generated classes by the names in the tables also if messages have fields of Qt types and the
    Qt types library is used, whether the classes are generated for QML or not, in whatever order types were registered and tables are
    traversed.  Missing: messages with which C98_runs_partial does not deal either, among them lists and maps of Qt types
    (C98_unusable_refuted), and JSON names and enumerators that are not [json_valid] (C93_json_name_refuted). *)
Theorem C105_runs_partial : forall json_name ps qt p library_order,
  files_valid ps -> json_valid json_name ps -> program_of ps qt p -> of_library qt -> usable_with_qt ps qt (pr_qml p) ->
  exists sch nm qt_field, json_runs_with_qt json_name p library_order sch nm qt_field.
Proof.
  intros jn ps qt p lib V J P L U.
  exists (LinkQtProofs.qt_program_schema p lib), (LinkQtJsonProofs.qt_program_names jn p), (LinkQtProofs.qt_program_field p).
  exact (LinkQtJsonProofs.json_runs_qt jn ps qt p V J P L U lib).
Qed.
Print Assumptions C105_runs_partial.

(** What it finds there is what the files say: all messages and their fields with their types, Qt types among them, the JSON names of fields, and the
    enumerators, whose first letter becomes a capital.  The theorems about JSON texts of messages with Qt types apply to it.  It is also
    what the serializer for the binary format finds.  Missing: as above. *)
Theorem C105_as_declared_partial : forall json_name ps qt p library_order sch nm qt_field,
  files_valid ps -> json_valid json_name ps -> program_of ps qt p -> of_library qt -> any_order library_order -> usable_with_qt ps qt (pr_qml p) ->
  json_runs_with_qt json_name p library_order sch nm qt_field ->
  declared (classes_of ps) sch qt_field /\ names_said json_name ps nm /\
  schema_ok sch /\ has_library sch /\ qt_fields_ok sch qt_field /\ JsonReadSpec.names_ok sch nm /\
  runs_with_qt p library_order sch qt_field.
Proof.
  intros jn ps qt p lib sch nm qf V J P L O U R.
  pose proof (LinkQtJsonProofs.json_runs_qt_binary jn ps qt p V J P L U lib sch nm qf R) as B.
  destruct (PropertiesLinkQt.C98_as_declared_partial ps qt p lib sch qf V P L O U B) as (D & S & H & F).
  split; [exact D|]. split; [exact (LinkQtJsonProofs.json_runs_qt_said jn ps qt p V J P L U lib sch nm qf R)|]. split; [exact S|]. split; [exact H|].
  split; [exact F|]. split; [exact (LinkQtJsonProofs.json_runs_qt_ok jn ps qt p V J P L U lib sch nm qf R O) | exact B].
Qed.
Print Assumptions C105_as_declared_partial.

(** Otherwise the JSON serializer takes another value than that of the field, or there is no way to write it: as for a list or a map of a Qt type, or a Qt type
    that is not registered.  (Examples: C98_unusable_case.) *)
Theorem C105_unusable_refuted : forall json_name ps qt p c,
  files_valid ps -> program_of ps qt p -> In c (classes_of ps) ->
  names_clash (pr_qml p) (GenTypesModel.g_fields c) \/ (exists f, In f (GenTypesModel.g_fields c) /\ ~ shape_supported ps qt (GenTypesModel.m_shape f)) ->
  ~ exists library_order sch nm qt_field, json_runs_with_qt json_name p library_order sch nm qt_field.
Proof.
  intros jn ps qt p c V Pr Ic H (lib & sch & nm & qf & R).
  destruct (LinkQtJsonProofs.does_not_run_json jn ps qt p lib sch nm qf c V Pr R Ic) as (NC & F).
  destruct H as [H | (f & If & H)]; [exact (NC H) | exact (F f If H)].
Qed.
Print Assumptions C105_unusable_refuted.

(** Whatever text arrives, JSON or not, whatever microjson makes of it and into whatever object it is read: programs from the same files read the same from
    it, with the same outcome.  They may differ in QML support, the order of registrations, the order of all tables, and in Qt types
    that are registered but not used.  Missing: as above. *)
Theorem C105_any_text_partial : forall (Url Image : Type) url_parse image_load qt_eq new_qt json_name
  ps qt qt' p q order order' sch sch' nm nm' qt_field qt_field' mj conv fuel m t (base : list (mvalue Url Image)),
  files_valid ps -> json_valid json_name ps ->
  program_of ps qt p -> of_library qt -> any_order order -> usable_with_qt ps qt (pr_qml p) -> json_runs_with_qt json_name p order sch nm qt_field ->
  program_of ps qt' q -> of_library qt' -> any_order order' -> usable_with_qt ps qt' (pr_qml q) -> json_runs_with_qt json_name q order' sch' nm' qt_field' ->
  mixed_json_read Url Image url_parse image_load qt_eq new_qt sch' nm' qt_field' mj conv fuel m t base =
  mixed_json_read Url Image url_parse image_load qt_eq new_qt sch nm qt_field mj conv fuel m t base.
Proof.
  intros Url Image up il qe nq jn ps qt qt' p q o o' sch sch' nm nm' qf qf' mj conv fuel m t base V J Pp Lp Op Up Rp Pq Lq Oq Uq Rq.
  destruct (C105_as_declared_partial jn ps qt p o sch nm qf V J Pp Lp Op Up Rp) as (_ & _ & _ & _ & _ & No & Bp).
  destruct (C105_as_declared_partial jn ps qt' q o' sch' nm' qf' V J Pq Lq Oq Uq Rq) as (_ & _ & _ & _ & _ & _ & Bq).
  apply (C104_same_reader_partial Url Image up il qe nq ps qt qt' p q o o' sch sch' qf qf' nm nm' mj conv fuel m t base); auto.
  intros m' i. exact (LinkQtJsonProofs.two_names_qt jn ps qt qt' p q o o' sch sch' nm nm' qf qf' V J Pp Lp Up Rp Pq Lq Uq Rq m' i).
Qed.
Print Assumptions C105_any_text_partial.

(** The text that one program writes for a message is read by every other program from the same files, into a new object, as the same message: every
    value of a Qt type, at any depth, is the one that was sent up to the sign of zeros (or Qt's comparison takes it for such a value), and
    every other field is the same, but for null pointers in lists and maps.  Missing: as above, and what is missing in
    C104_round_trip_partial. *)
Theorem C105_exchange_partial : forall (Url Image : Type) url_string url_parse png_save image_load to_rgb qt_eq new_qt json_name
  ps qt qt' p q order order' sch sch' nm nm' qt_field qt_field' mj ok conv fm m (obj : list (mvalue Url Image)) plain t,
  right_on mj ok -> (forall t, ok t -> quotes_only t) -> gives_bytes mj -> gives_floats conv ->
  files_valid ps -> json_valid json_name ps -> enums_small ps -> PropertiesLinkJson.no_bool_keys ps ->
  program_of ps qt p -> of_library qt -> any_order order -> usable_with_qt ps qt (pr_qml p) -> json_runs_with_qt json_name p order sch nm qt_field ->
  program_of ps qt' q -> of_library qt' -> any_order order' -> usable_with_qt ps qt' (pr_qml q) -> json_runs_with_qt json_name q order' sch' nm' qt_field' ->
  sendable url_string url_parse png_save image_load new_qt sch qt_field m obj ->
  QtFieldsSpec.stands_for url_string png_save to_rgb new_qt sch qt_field m obj plain -> object_ok sch m plain ->
  fine sch nm fm numbered (fun t x s => number s /\ reads_as conv t x s) m plain -> nowhere_empty sch m plain ->
  mixed_json_serializes url_string png_save to_rgb new_qt sch nm qt_field fm m obj t -> ok t -> bytes t ->
  exists fuel r,
    (forall fuel', (fuel <= fuel')%nat ->
       mixed_json_read Url Image url_parse image_load qt_eq new_qt sch' nm' qt_field' mj conv fuel' m t
         (new_object Url Image new_qt sch' qt_field' m) = Ok r) /\ alike qt_eq new_qt sch qt_field m r obj.
Proof.
  intros Url Image us up ps' il rgb qe nq jn ps qt qt' p q o o' sch sch' nm nm' qf qf' mj ok conv fm m obj plain t
    Ro Qo Gb Gf V J Es Nb Pp Lp Op Up Rp Pq Lq Oq Uq Rq S St Ok Fi Ne Se Ot Bt.
  destruct (C105_as_declared_partial jn ps qt p o sch nm qf V J Pp Lp Op Up Rp) as (Dp & _ & Sp & Hp & Fp & No & Bp).
  destruct (C105_as_declared_partial jn ps qt' q o' sch' nm' qf' V J Pq Lq Oq Uq Rq) as (_ & _ & _ & _ & _ & _ & Bq).
  apply (C104_exchange_partial Url Image us up ps' il rgb qe nq ps qt qt' p q o o' sch sch' qf qf' nm nm' mj ok conv fm m obj plain t); auto.
  - exact (LinkQtJsonProofs.json_runs_qt_enums jn ps qt p V J Pp Lp Up o sch nm qf Rp Es).
  - intros m' i. exact (LinkQtJsonProofs.two_names_qt jn ps qt qt' p q o o' sch sch' nm nm' qf qf' V J Pp Lp Up Rp Pq Lq Uq Rq m' i).
  - apply (LinkQtJsonProofs.no_bool_fields ps sch qf); auto. now apply LinkQtProofs.declared_said.
Qed.
Print Assumptions C105_exchange_partial.

(** ** The bookings of C98 as JSON *)

Definition hotel_names (m : nat) (n : Z) : list Z :=
  bytes_of
    (if Nat.eqb m 0 then
       (if (n =? 1)%Z then "id" else if (n =? 4)%Z then "place" else if (n =? 2)%Z then "guest" else if (n =? 7)%Z then "guests"
        else if (n =? 16)%Z then "byName" else "spare")
     else if (n =? 2)%Z then "born" else if (n =? 1)%Z then "name" else "flags").

Lemma hotel_json_valid : json_valid hotel_names [PropertiesLinkQt.booking_file].
Proof.
  split; [|split].
  - unfold classes_of. cbn [flat_map app GenTypesModel.o_messages PropertiesLinkQt.booking_file]. vm_compute.
    repeat (apply Forall_cons || apply Forall_nil); split;
      repeat (apply NoDup_cons; [intro I; repeat (destruct I as [E | I]; [discriminate|]); destruct I |] || apply NoDup_nil);
      repeat (apply Forall_cons || apply Forall_nil); repeat split; discriminate.
  - constructor.
  - constructor.
Qed.

Lemma hotel_fine ok fl : fine PropertiesQtFields.ex_booking_schema (LinkQtJsonProofs.qt_program_names hotel_names PropertiesLinkQt.hotel_program)
  json_formats ok fl user_message PropertiesQtFields.ex_plain_booking.
Proof.
  intros M O P i Hi. apply booking_parts in P as [[-> ->]|[->|[->|[-> G]]]].
  - destruct Hi as [<-|[<-|[<-|[<-|[<-|[<-|[]]]]]]]; (split; [plains|]); unfold fine_field; cbn; try exact Logic.I.
    repeat (apply Forall_cons; [split; [plains | exact Logic.I]|]). apply Forall_nil.
  - destruct Hi as [<-|[<-|[]]]; (split; [plains|]); exact Logic.I.
  - destruct Hi as [<-|[<-|[<-|[]]]]; (split; [plains|]); exact Logic.I.
  - destruct G as (y & m & d & b & n & l & -> & H). destruct Hi as [<-|[<-|[<-|[]]]]; (split; [plains|]); unfold fine_field; cbn; try exact Logic.I; try exact H.
    split; [discriminate|]. clear. induction l; constructor; auto. exact Logic.I.
Qed.

Lemma json_runs_field json_name p lib sch nm qf qf' : (forall m i, qf m i = qf' m i) ->
  json_runs_with_qt json_name p lib sch nm qf -> json_runs_with_qt json_name p lib sch nm qf'.
Proof.
  intros E (A & B & C & D & F). split; [exact A|]. split; [exact B|]. split; [exact C|]. split.
  - intros k c K. destruct (D k c K) as (D1 & D2 & D3 & D4). split; [exact D1|]. split; [exact D2|]. split.
    + intros i f N. rewrite <- E. now apply D3.
    + intro name. rewrite D4. unfold json_found_with_qt. destruct (find _ _) as [i|]; cbn [option_map]; [now rewrite E | reflexivity].
  - intros m i. rewrite <- E. apply F.
Qed.

Lemma hotel_json_runs : json_runs_with_qt hotel_names PropertiesLinkQt.hotel_program PropertiesLinkQt.library_in_order PropertiesQtFields.ex_booking_schema
  (LinkQtJsonProofs.qt_program_names hotel_names PropertiesLinkQt.hotel_program) PropertiesQtFields.ex_qt_field.
Proof.
  apply (json_runs_field _ _ _ _ _ (LinkQtProofs.qt_program_field PropertiesLinkQt.hotel_program)).
  - intros m i. do 24 (destruct m as [|m]; [do 6 (destruct i as [|i]; [reflexivity|]); try reflexivity; destruct i; reflexivity|]).
    unfold LinkQtProofs.qt_program_field, PropertiesQtFields.ex_qt_field. destruct (_ <? _)%nat; [reflexivity|]. cbn. now destruct m.
  - replace PropertiesQtFields.ex_booking_schema with (LinkQtProofs.qt_program_schema PropertiesLinkQt.hotel_program PropertiesLinkQt.library_in_order)
      by (vm_compute; reflexivity).
    apply (LinkQtJsonProofs.json_runs_qt hotel_names [PropertiesLinkQt.booking_file] PropertiesLinkQt.all_names);
      [apply PropertiesLinkQt.booking_valid | apply hotel_json_valid | apply PropertiesLinkQt.hotel_of | apply PropertiesLinkQt.all_of_library|].
    apply PropertiesLinkQt.booking_usable; cbn; auto 30.
Qed.

Lemma guest_json_runs : json_runs_with_qt hotel_names PropertiesLinkQt.guest_program PropertiesLinkQt.library_backwards
  (LinkQtProofs.qt_program_schema PropertiesLinkQt.guest_program PropertiesLinkQt.library_backwards)
  (LinkQtJsonProofs.qt_program_names hotel_names PropertiesLinkQt.guest_program) (LinkQtProofs.qt_program_field PropertiesLinkQt.guest_program).
Proof.
  apply (LinkQtJsonProofs.json_runs_qt hotel_names [PropertiesLinkQt.booking_file] PropertiesLinkQt.two_names);
    [apply PropertiesLinkQt.booking_valid | apply hotel_json_valid | apply PropertiesLinkQt.guest_of | apply PropertiesLinkQt.two_of_library|].
  apply PropertiesLinkQt.booking_usable; cbn; auto 30.
Qed.

(** A text, what it says about the point and the first guest, and the program without QML that has only two of the Qt types and everything backwards.  That the
    programs are from the file is shown in C98_case, and what is assumed about the message in C104_case. *)
Example C105_case : exists t,
  let nm := LinkQtJsonProofs.qt_program_names hotel_names PropertiesLinkQt.hotel_program in
  let sch' := LinkQtProofs.qt_program_schema PropertiesLinkQt.guest_program PropertiesLinkQt.library_backwards in
  let nm' := LinkQtJsonProofs.qt_program_names hotel_names PropertiesLinkQt.guest_program in
  let qt_field' := LinkQtProofs.qt_program_field PropertiesLinkQt.guest_program in
  json_valid hotel_names [PropertiesLinkQt.booking_file] /\ enums_small [PropertiesLinkQt.booking_file] /\
  PropertiesLinkJson.no_bool_keys [PropertiesLinkQt.booking_file] /\
  json_runs_with_qt hotel_names PropertiesLinkQt.hotel_program PropertiesLinkQt.library_in_order PropertiesQtFields.ex_booking_schema nm PropertiesQtFields.ex_qt_field /\
  json_runs_with_qt hotel_names PropertiesLinkQt.guest_program PropertiesLinkQt.library_backwards sch' nm' qt_field' /\
  fine PropertiesQtFields.ex_booking_schema nm json_formats numbered (fun t x s => number s /\ reads_as no_floats t x s) 22 PropertiesQtFields.ex_plain_booking /\
  mixed_json (list Z) (list Z) (fun u => u) (fun i => i) (fun _ c => c) PropertiesQtFields.ex_new_qt PropertiesQtFields.ex_booking_schema nm
    PropertiesQtFields.ex_qt_field json_formats 5 22 PropertiesQtFields.ex_booking = Ok t /\
  firstn 100 t = bytes_of "{""id"":-7,""guest"":{""name"":""Ann"",""born"":{""year"":2000,""month"":1,""day"":1},""flags"":[1,2,300]},""place"":{""x" /\
  quotes_only t /\ bytes t /\
  mixed_json_read (list Z) (list Z) (fun u => u) (fun i _ => i) (fun _ _ => false) PropertiesQtFields.ex_new_qt sch' nm' qt_field'
    scanner no_floats 9 22 t (new_object _ _ PropertiesQtFields.ex_new_qt sch' qt_field' 22) = Ok PropertiesQtFields.ex_received.
Proof.
  eexists. split; [exact hotel_json_valid|]. split; [constructor|].
  split; [vm_compute; repeat (apply Forall_cons || apply Forall_nil); discriminate|].
  split; [exact hotel_json_runs|]. split; [exact guest_json_runs|]. split; [apply hotel_fine|].
  split; [vm_compute; reflexivity|]. split; [vm_compute; reflexivity|]. split; [apply quotes_checked; vm_compute; reflexivity|].
  split; [vm_compute; repeat (apply Forall_cons; [split; congruence |]); apply Forall_nil|].
  vm_compute. reflexivity.
Qed.
Print Assumptions C105_case.

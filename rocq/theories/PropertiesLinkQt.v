(** Programs with fields of Qt types: C98. *)

From Coq Require Import String ZArith List Bool Arith Permutation Lia.
From Verif Require Values.
From Verif Require Import Base WireModel MessageModel WireSpec MessageSpec MessageProofs.
From Verif Require Import GenModel GenSpec GenTypesModel GenBodyModel GenTypesSpec LinkModel LinkSpec LinkProofs.
From Verif Require Import QtTypesModel QtTypesSpec QtFieldsModel QtFieldsSpec LinkQtModel LinkQtSpec LinkQtProofs.
From Verif Require PropertiesQtFields PropertiesLink.
Import ListNotations.
Open Scope nat_scope.

(** C98.  The serializer finds its way through the generated classes also if messages have fields of Qt types and the Qt types library
    is used, whether the classes are generated for QML or not, in whatever order types were registered and tables are traversed, if the fields of
    all messages can be serialized and their names do not clash.  Missing: other messages, see C98_unusable_refuted; they are
    those with lists and maps of Qt types, among others. *)
Theorem C98_runs_partial : forall ps qt p library_order,
  files_valid ps -> program_of ps qt p -> of_library qt -> usable_with_qt ps qt (pr_qml p) ->
  exists sch qt_field, runs_with_qt p library_order sch qt_field.
Proof. intros ps qt p lib V Pr L U. exists (qt_program_schema p lib), (qt_program_field p). now apply (runs_qt ps qt). Qed.

(** What it finds there is what the files say: all messages, each with its fields, by number and type, and the Qt types.  The theorems
    about messages with Qt types apply to it.  Missing: as above. *)
Theorem C98_as_declared_partial : forall ps qt p library_order sch qt_field,
  files_valid ps -> program_of ps qt p -> of_library qt -> any_order library_order -> usable_with_qt ps qt (pr_qml p) ->
  runs_with_qt p library_order sch qt_field ->
  declared (classes_of ps) sch qt_field /\ schema_ok sch /\ has_library sch /\ qt_fields_ok sch qt_field.
Proof.
  intros ps qt p lib sch qf V Pr L O U R. split; [|split; [|split]].
  - now apply (runs_declared ps qt p V Pr L lib).
  - now apply (runs_qt_ok ps qt p V Pr L lib sch qf).
  - now apply (runs_has_library p lib sch qf).
  - now apply (runs_qt_fields_ok ps qt p V Pr L lib).
Qed.

(** Otherwise the serializer takes another value than that of the field, or there is no way to serialize it: as for a list or a map of a
    Qt type, or a Qt type that is not registered. *)
Theorem C98_unusable_refuted : forall ps qt p c,
  files_valid ps -> program_of ps qt p -> In c (classes_of ps) ->
  names_clash (pr_qml p) (g_fields c) \/ (exists f, In f (g_fields c) /\ ~ shape_supported ps qt (m_shape f)) ->
  ~ exists library_order sch qt_field, runs_with_qt p library_order sch qt_field.
Proof.
  intros ps qt p c V Pr Ic H (lib & sch & qf & R). destruct (does_not_run_qt ps qt p V Pr lib sch qf R c Ic) as (NC & F).
  destruct H as [H | (f & If & H)]; [exact (NC H) | exact (F f If H)].
Qed.

(** A message that one program sends is received by every other program from the same files: every value of a Qt type, at any depth, is
    the one that was sent up to the sign of zeros (or Qt's comparison takes it for such a value), and every other field is the same.
    The programs may differ in QML support, the order of registrations, the order of all tables and with it that of fields in the
    message, and in Qt types that are registered but not used.  Missing: as above, and the values of Qt types that are not sent
    faithfully (see C97). *)
Theorem C98_exchange_partial : forall (Url Image : Type) url_string url_parse png_save image_load to_rgb qt_eq new_qt
  ps qt qt' p q order order' sch sch' qt_field qt_field' m obj,
  files_valid ps ->
  program_of ps qt p -> of_library qt -> any_order order -> usable_with_qt ps qt (pr_qml p) -> runs_with_qt p order sch qt_field ->
  program_of ps qt' q -> of_library qt' -> any_order order' -> usable_with_qt ps qt' (pr_qml q) -> runs_with_qt q order' sch' qt_field' ->
  sendable url_string url_parse png_save image_load new_qt sch qt_field m obj ->
  exists fuel bs,
    (forall fuel', fuel <= fuel' ->
       mixed_serialize Url Image url_string png_save to_rgb new_qt sch qt_field fuel' m obj = Ok bs) /\
    ((Zlen bs <= INT_MAX)%Z -> forall fuel', List.length bs < fuel' -> exists r,
       mixed_deserialize Url Image url_parse image_load qt_eq new_qt sch' qt_field' fuel' m bs = (r, Ok tt) /\
       alike qt_eq new_qt sch qt_field m r obj).
Proof.
  intros Url Image us up ps' il rgb qe nq ps qt qt' p q o o' sch sch' qf qf' m obj V Pp Lp Op Up Rp Pq Lq Oq Uq Rq S.
  destruct (C98_as_declared_partial ps qt p o sch qf V Pp Lp Op Up Rp) as (Dp & Sp & Hp & Fp).
  destruct (C98_as_declared_partial ps qt' q o' sch' qf' V Pq Lq Oq Uq Rq) as (Dq & _ & Hq & _).
  destruct (PropertiesQtFields.C97_round_trip_partial Url Image us up ps' il rgb qe nq sch qf m obj Sp Hp S) as (fuel & bs & A & B).
  exists fuel, bs. split; [exact A|]. intros Bd fuel' Lf. destruct (B Bd fuel' Lf) as (r & D & Al). exists r. split; [|exact Al].
  rewrite <- D. symmetry.
  destruct (declared_same (classes_of ps) sch sch' qf qf' (proj1 V) (proj1 (declared_said _ _ _) Dp) (proj1 (declared_said _ _ _) Dq)) as (SF & SQ).
  - intro k. now rewrite Hp, Hq.
  - apply Rp.
  - apply Rq.
  - now apply mixed_congr.
Qed.

(** What a program sends is what any implementation of protobuf without Qt types, which has the messages of the library in their
    place, writes for the same values in the same order of fields, and what it writes in any case is received as the Qt values it stands for.
    Missing: as above. *)
Theorem C98_others_partial : forall (Url Image : Type) url_string url_parse png_save image_load to_rgb qt_eq new_qt
  ps qt p order sch qt_field m obj plain,
  files_valid ps -> program_of ps qt p -> of_library qt -> any_order order -> usable_with_qt ps qt (pr_qml p) ->
  runs_with_qt p order sch qt_field ->
  sendable url_string url_parse png_save image_load new_qt sch qt_field m obj ->
  stands_for url_string png_save to_rgb new_qt sch qt_field m obj plain -> forall bs,
  ((exists fuel, mixed_serialize Url Image url_string png_save to_rgb new_qt sch qt_field fuel m obj = Ok bs) <-> serializes sch m plain bs)
  /\ (serializes sch m plain bs -> (Zlen bs <= INT_MAX)%Z -> forall fuel, List.length bs < fuel -> exists r,
        mixed_deserialize Url Image url_parse image_load qt_eq new_qt sch qt_field fuel m bs = (r, Ok tt) /\
        alike qt_eq new_qt sch qt_field m r obj).
Proof.
  intros Url Image us up ps' il rgb qe nq ps qt p o sch qf m obj plain V Pp Lp Op Up Rp S St bs.
  destruct (C98_as_declared_partial ps qt p o sch qf V Pp Lp Op Up Rp) as (_ & Sp & Hp & Fp). split.
  - now apply (PropertiesQtFields.C97_same_bytes Url Image us ps' rgb nq).
  - intros Se B. now apply (PropertiesQtFields.C97_from_others_partial Url Image us up ps' il rgb qe nq sch qf m obj plain bs).
Qed.

(** ** An example

    The bookings of C97 as a file.  A program for QML with all Qt types; one without QML with two of them only, with registrations and
    tables backwards. *)
Open Scope string_scope.
Definition booking_file : proto :=
  mkProto "hotel"
    [ Message 0 "Booking"
        [ mkMField "id" 1 (One (Simple TInt32)); mkMField "place" 4 (One (Qt "QPoint")); mkMField "guest" 2 (One (Mess 1));
          mkMField "guests" 7 (Many (Mess 1)); mkMField "by_name" 16 (Assoc TString (Mess 1)); mkMField "spare" 17 (One (Mess 1)) ] [] [];
      Message 1 "Guest"
        [ mkMField "born" 2 (One (Qt "QDate")); mkMField "name" 1 (One (Simple TString)); mkMField "flags" 3 (Many (Simple TUInt32)) ] [] [] ]
    [].
Definition all_names : list string := map fst qt_names.
Definition two_names : list string := ["QDate"; "QPoint"].
Definition library_in_order (m : nat) : list nat := match nth_error all_kinds m with Some k => seq 0 (List.length (field_types k)) | None => [] end.
Definition library_backwards (m : nat) : list nat := rev (library_in_order m).
Definition hotel_program : program :=
  mkProgram [booking_file] true (registrations [booking_file] all_names) (fun k => if Nat.eqb k 0 then [0; 2; 1; 3; 4; 5] else [1; 0; 2]).
Definition guest_program : program :=
  mkProgram [booking_file] false (rev (registrations [booking_file] two_names)) (fun k => if Nat.eqb k 0 then rev (seq 0 6) else rev (seq 0 3)).

Lemma booking_valid : files_valid [booking_file].
Proof.
  split; [cbn; repeat constructor; cbn; intuition discriminate|].
  cbn [classes_of flat_map booking_file o_messages classes app]. repeat (apply Forall_cons; [PropertiesLink.easy_message|]). apply Forall_nil.
Qed.

Lemma booking_usable qt qml : In "QPoint" qt -> In "QDate" qt -> usable_with_qt [booking_file] qt qml.
Proof.
  intros Q1 Q2. repeat (apply Forall_cons; [split; [PropertiesLink.no_clashes|]|]); [| |apply Forall_nil];
    repeat (apply Forall_cons; [|]); try apply Forall_nil; cbn; unfold has_class, key_type, simple; cbn; auto 20;
    repeat split; try discriminate; auto; try (intros (q & E); discriminate).
Qed.

Lemma all_of_library : of_library all_names.
Proof. intros q I. apply in_map_iff in I as ((q' & k) & <- & I). now exists k. Qed.
Lemma two_of_library : of_library two_names.
Proof. intros q [<- | [<- | []]]; [exists KDate | exists KPoint]; apply library_names; reflexivity. Qed.

Lemma in_order : any_order library_in_order.
Proof. intro k. unfold library_in_order. rewrite library_index. apply Permutation_refl. Qed.
Lemma backwards : any_order library_backwards.
Proof. intro k. eapply perm_trans; [apply Permutation_sym, Permutation_rev | apply in_order]. Qed.

Lemma hotel_of : program_of [booking_file] all_names hotel_program.
Proof.
  split; [reflexivity|]. split; [apply Permutation_refl|].
  intros [|[|k]] c K; cbn in K; try (destruct k; discriminate); injection K as <-; cbn.
  - apply perm_skip. apply perm_swap.
  - apply perm_swap.
Qed.
Lemma guest_of : program_of [booking_file] two_names guest_program.
Proof.
  split; [reflexivity|]. split; [apply Permutation_sym, Permutation_rev|].
  intros [|[|k]] c K; cbn in K; try (destruct k; discriminate); injection K as <-; apply Permutation_sym; exact (Permutation_rev _).
Qed.

Lemma runs_field p lib sch qf qf' : (forall m i, qf m i = qf' m i) -> runs_with_qt p lib sch qf -> runs_with_qt p lib sch qf'.
Proof.
  intros E (A & B & C & D). split; [exact A|]. split; [exact B|]. split.
  - intros k c K. destruct (C k c K) as (C1 & C2 & C3). split; [exact C1|]. split; [exact C2|]. intro n. destruct (C3 n) as (-> & ->).
    unfold found. destruct (Values.find_field _ n) as [i|]; cbn [option_map]; [rewrite E|]; now split.
  - intros m i. rewrite <- E. apply D.
Qed.

Lemma hotel_runs : runs_with_qt hotel_program library_in_order PropertiesQtFields.ex_booking_schema PropertiesQtFields.ex_qt_field.
Proof.
  apply (runs_field _ _ _ (qt_program_field hotel_program)).
  - intros m i. do 24 (destruct m as [|m]; [do 6 (destruct i as [|i]; [reflexivity|]); try reflexivity; destruct i; reflexivity|]).
    unfold qt_program_field, PropertiesQtFields.ex_qt_field. destruct (_ <? _)%nat; [reflexivity|].
    cbn. now destruct m.
  - replace PropertiesQtFields.ex_booking_schema with (qt_program_schema hotel_program library_in_order) by (vm_compute; reflexivity).
    apply (runs_qt [booking_file] all_names); [apply booking_valid | apply hotel_of | apply all_of_library|].
    apply booking_usable; cbn; auto 30.
Qed.

Example C98_case :
  let sch' := qt_program_schema guest_program library_backwards in
  files_valid [booking_file]
  /\ program_of [booking_file] all_names hotel_program /\ of_library all_names /\ any_order library_in_order
  /\ usable_with_qt [booking_file] all_names true
  /\ runs_with_qt hotel_program library_in_order PropertiesQtFields.ex_booking_schema PropertiesQtFields.ex_qt_field
  /\ program_of [booking_file] two_names guest_program /\ of_library two_names /\ any_order library_backwards
  /\ usable_with_qt [booking_file] two_names false
  /\ runs_with_qt guest_program library_backwards sch' (qt_program_field guest_program)
  /\ sendable (fun u => u) (fun u => u) (fun i => i) (fun i _ => i) PropertiesQtFields.ex_new_qt PropertiesQtFields.ex_booking_schema
       PropertiesQtFields.ex_qt_field 22 PropertiesQtFields.ex_booking
  /\ exists bs,
       mixed_serialize (list Z) (list Z) (fun u => u) (fun i => i) (fun _ c => c) PropertiesQtFields.ex_new_qt
         PropertiesQtFields.ex_booking_schema PropertiesQtFields.ex_qt_field 5 22 PropertiesQtFields.ex_booking = Ok bs
       /\ mixed_deserialize (list Z) (list Z) (fun u => u) (fun i _ => i) (fun _ _ => false) PropertiesQtFields.ex_new_qt sch'
            (qt_program_field guest_program) 200 22 bs = (PropertiesQtFields.ex_received, Ok tt).
Proof.
  split; [apply booking_valid|]. split; [apply hotel_of|]. split; [apply all_of_library|]. split; [apply in_order|].
  split; [apply booking_usable; cbn; auto 30|]. split; [apply hotel_runs|]. split; [apply guest_of|]. split; [apply two_of_library|].
  split; [apply backwards|]. assert (U : usable_with_qt [booking_file] two_names false) by (apply booking_usable; cbn; auto).
  split; [exact U|]. split; [apply (runs_qt [booking_file] two_names); auto; [apply booking_valid | apply guest_of | apply two_of_library]|].
  split; [apply PropertiesQtFields.C97_case|].
  eexists. split; [vm_compute; reflexivity|]. vm_compute. reflexivity.
Qed.

(** A file with a list of points and a map of dates, and one that uses a Qt type that is not registered. *)
Definition points_file : proto := mkProto "" [ Message 0 "A" [ mkMField "points" 1 (Many (Qt "QPoint")) ] [] [] ] [].
Definition dates_file : proto := mkProto "" [ Message 0 "A" [ mkMField "dates" 1 (Assoc TString (Qt "QDate")) ] [] [] ] [].
Example C98_unusable_case :
  files_valid [points_file] /\ ~ shape_supported [points_file] all_names (Many (Qt "QPoint"))
  /\ files_valid [dates_file] /\ ~ shape_supported [dates_file] all_names (Assoc TString (Qt "QDate"))
  /\ ~ shape_supported [booking_file] [] (One (Qt "QDate")).
Proof.
  split; [|split; [|split; [|split]]].
  - split; [cbn; repeat constructor; cbn; intuition discriminate|].
    cbn [classes_of flat_map points_file o_messages classes app]. repeat (apply Forall_cons; [PropertiesLink.easy_message|]). apply Forall_nil.
  - intros (_ & N & _). apply N. now eexists.
  - split; [cbn; repeat constructor; cbn; intuition discriminate|].
    cbn [classes_of flat_map dates_file o_messages classes app]. repeat (apply Forall_cons; [PropertiesLink.easy_message|]). apply Forall_nil.
  - intros (_ & _ & N). apply N. now eexists.
  - intros [].
Qed.

Print Assumptions C98_runs_partial.
Print Assumptions C98_as_declared_partial.
Print Assumptions C98_unusable_refuted.
Print Assumptions C98_exchange_partial.
Print Assumptions C98_others_partial.

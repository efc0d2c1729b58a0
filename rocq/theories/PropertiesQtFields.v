(** Messages that hold values of Qt types: C97. *)

From Coq Require Import ZArith List Bool Lia Arith.
From Verif Require Import Base WireModel Values MessageModel WireSpec WireProofs MessageSpec MessageProofs
  SerializeProofs MessageFacts RunFacts QtTypesModel QtDateProofs QtTypesSpec QtTypesProofs QtFieldsModel QtFieldsSpec
  QtFieldsProofs QtFieldsTrack PropertiesQtTypes.
Import ListNotations.
Open Scope Z_scope.

(** C97.  A message whose fields, or those of messages in it at any depth, alone, in lists or in maps,
    are of Qt types can be sent, next to fields of all other types.  Unless the result is too long, the
    receiver gets the same message: every value of a Qt type is the one that was sent up to the sign of
    zeros (or Qt's comparison takes it for such a value), every other field is the same, and list
    elements and map values that are null pointers are missing.

    Missing: values of Qt types that are not sent faithfully (see the theorems of C42; that Qt reads back
    the URLs and images it writes is a hypothesis, part of [faithful]), and lists and maps of Qt types
    themselves, which have no handlers (C62). *)
Theorem C97_round_trip_partial : forall (Url Image : Type) url_string url_parse png_save image_load to_rgb qt_eq new_qt
  sch qt_field m obj,
  schema_ok sch -> has_library sch ->
  sendable url_string url_parse png_save image_load new_qt sch qt_field m obj ->
  exists fuel bs,
    (forall fuel', (fuel <= fuel')%nat ->
       mixed_serialize Url Image url_string png_save to_rgb new_qt sch qt_field fuel' m obj = Ok bs) /\
    (Zlen bs <= INT_MAX -> forall fuel', (length bs < fuel')%nat -> exists r,
       mixed_deserialize Url Image url_parse image_load qt_eq new_qt sch qt_field fuel' m bs = (r, Ok tt) /\
       alike qt_eq new_qt sch qt_field m r obj).
Proof.
  intros Url Image us up ps il rgb qe new sch qf m obj Sch Lib S.
  destruct (sendable_sent Url Image us up ps il rgb qe new sch qf Sch Lib m obj S) as (fuel & bs & H).
  exists fuel, bs. split; [exact H|]. intros B fuel' L.
  exact (mixed_back Url Image us up ps il rgb qe new sch qf Sch Lib fuel m obj bs S (H fuel (le_n _)) B fuel' L).
Qed.

(** The bytes are those that a program without the Qt types, in which these fields are messages of the
    library, writes for the same values. *)
Theorem C97_same_bytes : forall (Url Image : Type) url_string png_save to_rgb new_qt sch qt_field m obj p,
  schema_ok sch -> qt_fields_ok sch qt_field ->
  stands_for url_string png_save to_rgb new_qt sch qt_field m obj p -> forall bs,
  (exists fuel, mixed_serialize Url Image url_string png_save to_rgb new_qt sch qt_field fuel m obj = Ok bs)
  <-> serializes sch m p bs.
Proof.
  intros Url Image us ps rgb new sch qf m obj p Sch Qok S bs. unfold serializes.
  split; intros (fuel & H); exists fuel.
  - now rewrite <- (stands_serialize Url Image us ps rgb new sch qf Sch Qok fuel m obj p S).
  - now rewrite (stands_serialize Url Image us ps rgb new sch qf Sch Qok fuel m obj p S).
Qed.

(** So what such a program sends is read as the Qt values it stands for.

    Missing: as in the round trip, the Qt values that are not sent faithfully. *)
Theorem C97_from_others_partial : forall (Url Image : Type) url_string url_parse png_save image_load to_rgb qt_eq new_qt
  sch qt_field m obj p bs,
  schema_ok sch -> has_library sch -> qt_fields_ok sch qt_field ->
  sendable url_string url_parse png_save image_load new_qt sch qt_field m obj ->
  stands_for url_string png_save to_rgb new_qt sch qt_field m obj p ->
  serializes sch m p bs -> Zlen bs <= INT_MAX -> forall fuel, (length bs < fuel)%nat -> exists r,
    mixed_deserialize Url Image url_parse image_load qt_eq new_qt sch qt_field fuel m bs = (r, Ok tt) /\
    alike qt_eq new_qt sch qt_field m r obj.
Proof.
  intros Url Image us up ps il rgb qe new sch qf m obj p bs Sch Lib Qok S St (f & H) B fuel L.
  rewrite <- (stands_serialize Url Image us ps rgb new sch qf Sch Qok f m obj p St) in H.
  exact (mixed_back Url Image us up ps il rgb qe new sch qf Sch Lib f m obj bs S H B fuel L).
Qed.

(** And what is sent with Qt types is read by such a program as the messages of the library that stand
    for the values, whatever these are. *)
Theorem C97_to_others : forall (Url Image : Type) url_string png_save to_rgb new_qt sch qt_field m obj p fuel bs,
  schema_ok sch -> qt_fields_ok sch qt_field ->
  stands_for url_string png_save to_rgb new_qt sch qt_field m obj p -> object_ok sch m p ->
  mixed_serialize Url Image url_string png_save to_rgb new_qt sch qt_field fuel m obj = Ok bs ->
  Zlen bs <= INT_MAX -> exists r, deserializes sch m bs r (Ok tt) /\ same sch m r (map drop_nulls p).
Proof.
  intros Url Image us ps rgb new sch qf m obj p fuel bs Sch Qok St O H B.
  rewrite (stands_serialize Url Image us ps rgb new sch qf Sch Qok fuel m obj p St) in H.
  destruct (run_round_trip sch Sch m p bs O (ex_intro _ fuel H) B) as (r & D & _ & Sm). eauto.
Qed.

(** Whatever bytes arrive, a program with Qt types reads what a program without them reads, with the same
    outcome: each Qt value is the one that its message stands for.  The only difference is a rectangle whose
    edges leave the range of int, which is undefined behaviour in the former. *)
Theorem C97_any_bytes : forall (Url Image : Type) url_parse image_load qt_eq new_qt sch qt_field fuel m data r o p o',
  has_library sch -> qt_fields_ok sch qt_field ->
  mixed_deserialize Url Image url_parse image_load qt_eq new_qt sch qt_field fuel m data = (r, o) ->
  deserializeMessage fuel false sch m data = (p, o') ->
  (o = UB SignedOverflow /\ exists m i, qt_field m i = Some KRect) \/
  (o = o' /\ read_as url_parse image_load qt_eq new_qt sch qt_field m r p).
Proof.
  intros Url Image up il qe new sch qf fuel m data r o p o' Lib Qok H H'.
  pose proof (loop_tracks Url Image up il qe new sch qf Lib Qok fuel m data (it_begin data) _ _ (new_read Url Image up il qe new sch qf Qok m)) as T.
  cbv zeta in T. unfold mixed_deserialize in H. unfold deserializeMessage in H'. rewrite H, H' in T. cbn [fst snd] in T.
  destruct T as [[X T]|T]; [left | right]; auto.
Qed.

(** ** An example

    A booking with a number, a QPoint, a guest that has a QDate, a name and flags, a list of guests and a map from
    names to guests. *)
Definition guest : nat := 23%nat.
Definition booking_fields : list field :=
  [ mkField 1 (FSing (ES TInt32)); mkField 4 (FSing (EM (index KPoint))); mkField 2 (FSing (EM guest));
    mkField 7 (FRep (EM guest)); mkField 16 (FMap TString (EM guest)); mkField 17 (FSing (EM guest)) ].
Definition guest_fields : list field :=
  [ mkField 2 (FSing (EM (index KDate))); mkField 1 (FSing (ES TString)); mkField 3 (FRep (ES TUInt32)) ].
Definition ex_booking_schema : schema :=
  map (fun k => mkMsg (number_from 1 (field_types k)) (seq 0 (length (field_types k)))) all_kinds
  ++ [ mkMsg booking_fields [0; 2; 1; 3; 4; 5]%nat; mkMsg guest_fields [1; 0; 2]%nat ].
Definition ex_qt_field (m i : nat) : option kind :=
  match m, i with 22%nat, 1%nat => Some KPoint | 23%nat, 0%nat => Some KDate | _, _ => None end.
Definition ex_new_qt (k : kind) : qtval (list Z) (list Z) :=
  match k with KDate => QDate _ _ nullJd | _ => QPoint _ _ 0 0 end.

Definition ex_guest (jd : Z) (name : list Z) (flags : list Z) : list (mvalue (list Z) (list Z)) :=
  [ MQt (QDate _ _ jd); MPlain (VScalar (SStr false name)); MPlain (VList (map (fun z => VScalar (SNum z)) flags)) ].
Definition ex_booking : list (mvalue (list Z) (list Z)) :=
  [ MPlain (VScalar (SNum (-7))); MQt (QPoint _ _ (-3) 4); MMsg (ex_guest 2451545 [65; 110; 110] [1; 2; 300]);
    MList [ MMsg (ex_guest 2440588 [66] []); MNull; MMsg (ex_guest nullJd [67] [9]) ];
    MMap [ (SStr false [], MMsg (ex_guest 2451545 [68] [])); (SStr false [120], MMsg (ex_guest 2460000 [69; 70] [0])) ];
    MNull ].
Definition ex_received : list (mvalue (list Z) (list Z)) :=
  [ MPlain (VScalar (SNum (-7))); MQt (QPoint _ _ (-3) 4); MMsg (ex_guest 2451545 [65; 110; 110] [1; 2; 300]);
    MList [ MMsg (ex_guest 2440588 [66] []); MMsg (ex_guest nullJd [67] [9]) ];
    MMap [ (SStr false [], MMsg (ex_guest 2451545 [68] [])); (SStr false [120], MMsg (ex_guest 2460000 [69; 70] [0])) ];
    MMsg [ MQt (QDate _ _ nullJd); MPlain (VScalar (SStr true [])); MPlain (VList []) ] ].

Lemma ex_booking_schema_ok : schema_ok ex_booking_schema.
Proof.
  assert (Gen : forall fs os, NoDup (map f_num fs) -> Forall field_ok fs -> NoDup os ->
    (forall i, In i os <-> (i < length fs)%nat) -> msg_ok (mkMsg fs os)) by (intros; repeat split; auto; apply H2).
  unfold schema_ok, ex_booking_schema. apply Forall_app. split.
  - apply Forall_forall. intros md I. apply in_map_iff in I. destruct I as (k & <- & _).
    apply Gen; [| |apply seq_NoDup|].
    + assert (X : forall l n, NoDup (map f_num (number_from n l)) /\ forall z, In z (map f_num (number_from n l)) -> n <= z).
      { induction l as [|ty l IH]; intro n; cbn [number_from map f_num].
        - split; [constructor | intros z []].
        - destruct (IH (n + 1)) as [A B]. split.
          + constructor; [intro J; specialize (B n J); lia | exact A].
          + intros z [<-|J]; [lia|]. specialize (B z J). lia. }
      apply X.
    + destruct k; cbn [field_types number_from repeat]; repeat (apply Forall_cons; [split; [unfold field_number; cbn [f_num]; lia | exact Logic.I]|]); apply Forall_nil.
    + intro i. rewrite in_seq. destruct k; cbn; lia.
  - constructor; [|constructor; [|constructor]]; apply Gen.
    + cbn. repeat (constructor; [cbn; lia|]). constructor.
    + repeat (constructor; [split; [unfold field_number; cbn; lia | exact Logic.I]|]). constructor.
    + repeat (constructor; [cbn; lia|]). constructor.
    + intro i. cbn. lia.
    + cbn. repeat (constructor; [cbn; lia|]). constructor.
    + repeat (constructor; [split; [unfold field_number; cbn; lia | exact Logic.I]|]). constructor.
    + repeat (constructor; [cbn; lia|]). constructor.
    + intro i. cbn. lia.
Qed.

Lemma ex_guest_sendable jd name flags : minJd <= jd <= maxJd \/ jd = nullJd -> bytes name -> name <> [] -> Forall (in_u 32) flags ->
  sendable (fun u => u) (fun u => u) (fun i => i) (fun i _ => i) ex_new_qt ex_booking_schema ex_qt_field guest (ex_guest jd name flags).
Proof.
  intros J B N F. constructor; [reflexivity|]. intros [|[|[|i]]] L; [| | |cbn in L; lia]; cbn [nth ex_guest].
  - apply sendable_qt; [reflexivity | exact J].
  - apply sendable_plain; [reflexivity | exact Logic.I |]. cbn. split; [exact B | discriminate].
  - apply sendable_plain; [reflexivity | exact Logic.I |]. cbn. apply Forall_forall. intros x I. apply in_map_iff in I.
    destruct I as (z & <- & I). exists (SNum z). split; [reflexivity|]. rewrite Forall_forall in F. exact (F z I).
Qed.

Lemma new_guest_sendable :
  sendable (fun u => u) (fun u => u) (fun i => i) (fun i _ => i) ex_new_qt ex_booking_schema ex_qt_field guest
    (new_object (list Z) (list Z) ex_new_qt ex_booking_schema ex_qt_field guest).
Proof.
  constructor; [reflexivity|]. intros [|[|[|i]]] L; [| | |cbn in L; lia]; cbn.
  - apply sendable_qt; [reflexivity | now right].
  - apply sendable_plain; [reflexivity | exact Logic.I |]. cbn. split; [constructor | reflexivity].
  - apply sendable_plain; [reflexivity | exact Logic.I |]. cbn. constructor.
Qed.

Example C97_case :
  schema_ok ex_booking_schema /\ has_library ex_booking_schema /\ qt_fields_ok ex_booking_schema ex_qt_field /\
  sendable (fun u => u) (fun u => u) (fun i => i) (fun i _ => i) ex_new_qt ex_booking_schema ex_qt_field user_message ex_booking /\
  exists bs,
    mixed_serialize (list Z) (list Z) (fun u => u) (fun i => i) (fun _ c => c) ex_new_qt ex_booking_schema ex_qt_field
      5 user_message ex_booking = Ok bs /\ Zlen bs = 106 /\
    mixed_deserialize (list Z) (list Z) (fun u => u) (fun i _ => i) (fun _ _ => false) ex_new_qt ex_booking_schema
      ex_qt_field 200 user_message bs = (ex_received, Ok tt).
Proof.
  split; [exact ex_booking_schema_ok|]. split; [intro k; destruct k; reflexivity|].
  split; [|split; [|eexists; split; [vm_compute; reflexivity|]; split; vm_compute; reflexivity]].
  - intros m i k H. unfold ex_qt_field in H.
    do 22 (destruct m as [|m]; [discriminate H|]). destruct m as [|[|m]]; [| |discriminate H].
    + destruct i as [|[|i]]; try discriminate H. injection H as <-. reflexivity.
    + destruct i as [|i]; try discriminate H. injection H as <-. reflexivity.
  - assert (G : forall jd name flags, (minJd <=? jd) && (jd <=? maxJd) || (jd =? nullJd) = true ->
      forallb (fun b => (0 <=? b) && (b <? 256)) name = true -> name <> [] ->
      forallb (fun z => (0 <=? z) && (z <? 2 ^ 32)) flags = true ->
      sendable (fun u => u) (fun u => u) (fun i => i) (fun i _ => i) ex_new_qt ex_booking_schema ex_qt_field guest (ex_guest jd name flags)).
    { intros jd name flags J B N F. apply ex_guest_sendable; auto.
      - apply orb_true_iff in J. rewrite andb_true_iff in J. lia.
      - apply Forall_forall. intros x I. rewrite forallb_forall in B. specialize (B x I). apply andb_true_iff in B. unfold is_byte. lia.
      - apply Forall_forall. intros x I. rewrite forallb_forall in F. specialize (F x I). apply andb_true_iff in F. unfold in_u. lia. }
    constructor; [reflexivity|]. intros [|[|[|[|[|[|i]]]]]] L; [| | | | | |cbn in L; lia]; cbn [nth ex_booking].
    + apply sendable_plain; [reflexivity | exact Logic.I |]. cbn. unfold in_s. lia.
    + apply sendable_qt; [reflexivity|]. cbn. unfold in_s. lia.
    + apply sendable_message with (m' := guest); [reflexivity | reflexivity |]. apply G; (reflexivity || discriminate).
    + apply sendable_list with (m' := guest); [reflexivity | reflexivity |].
      intros x [<-|[<-|[<-|[]]]]; [right|now left|right]; eexists; (split; [reflexivity|]); apply G; (reflexivity || discriminate).
    + apply sendable_map with (k := TString) (m' := guest); [reflexivity | reflexivity | |].
      * cbn. repeat constructor.
      * intros a x [E|[E|[]]]; injection E as <- <-; (split; [cbn; split; [repeat constructor; unfold is_byte; lia | discriminate]|]);
          right; eexists; (split; [reflexivity|]); apply G; (reflexivity || discriminate).
    + apply sendable_unset with (m' := guest); [reflexivity | reflexivity |]. exact new_guest_sendable.
Qed.

(** The same booking in a program without the Qt types. *)
Definition ex_plain_date (y m d : Z) : value := VMsg [VScalar (SNum y); VScalar (SNum m); VScalar (SNum d)].
Definition ex_plain_guest (date : value) (name : list Z) (flags : list Z) : value :=
  VMsg [ date; VScalar (SStr false name); VList (map (fun z => VScalar (SNum z)) flags) ].
Definition ex_plain_booking : list value :=
  [ VScalar (SNum (-7)); VMsg [VScalar (SNum (-3)); VScalar (SNum 4)];
    ex_plain_guest (ex_plain_date 2000 1 1) [65; 110; 110] [1; 2; 300];
    VList [ ex_plain_guest (ex_plain_date 1970 1 1) [66] []; VNull; ex_plain_guest (ex_plain_date 0 0 0) [67] [9] ];
    VMap [ (SStr false [], ex_plain_guest (ex_plain_date 2000 1 1) [68] []);
           (SStr false [120], ex_plain_guest (ex_plain_date 2023 2 24) [69; 70] [0]) ];
    VMsg [ ex_plain_date 0 0 0; VScalar (SStr true []); VList [] ] ].

Example C97_others_case :
  stands_for (fun u => u) (fun i => i) (fun _ c => c) ex_new_qt ex_booking_schema ex_qt_field user_message ex_booking ex_plain_booking /\
  object_ok ex_booking_schema user_message ex_plain_booking.
Proof.
  assert (G : forall jd y m d name flags,
    to_message (list Z) (list Z) (fun u => u) (fun i => i) (fun _ c => c) (QDate _ _ jd)
      = Ok [VScalar (SNum y); VScalar (SNum m); VScalar (SNum d)] ->
    exists p, ex_plain_guest (ex_plain_date y m d) name flags = VMsg p /\
    stands_for (fun u => u) (fun i => i) (fun _ c => c) ex_new_qt ex_booking_schema ex_qt_field guest
      (ex_guest jd name flags) p).
  { intros jd y m d name flags T. eexists. split; [reflexivity|]. constructor.
    intros [|[|[|i]]] L; [| | |cbn in L; lia]; cbn [nth ex_guest].
    - eapply stands_qt; [reflexivity | exact T].
    - apply stands_plain; [reflexivity | exact Logic.I].
    - apply stands_plain; [reflexivity | exact Logic.I]. }
  split.
  - constructor. intros [|[|[|[|[|[|i]]]]]] L; [| | | | | |cbn in L; lia]; cbn [nth ex_booking ex_plain_booking].
    + apply stands_plain; [reflexivity | exact Logic.I].
    + eapply stands_qt; reflexivity.
    + edestruct G as (p & -> & S); [|apply stands_message with (m' := guest); [reflexivity | reflexivity | exact S]]. reflexivity.
    + apply stands_list with (m' := guest); [reflexivity | reflexivity |].
      constructor; [|constructor; [now left|constructor; [|constructor]]]; right;
        (edestruct G as (p & -> & S); [|eexists; eexists; split; [reflexivity|split; [reflexivity | exact S]]]); reflexivity.
    + apply stands_map with (k := TString) (m' := guest); [reflexivity | reflexivity |].
      constructor; [|constructor; [|constructor]]; (split; [reflexivity|]); right; cbn [snd];
        (edestruct G as (p & -> & S); [|eexists; eexists; split; [reflexivity|split; [reflexivity | exact S]]]); reflexivity.
    + apply stands_unset with (m' := guest); [reflexivity | reflexivity |]. constructor.
      intros [|[|[|i]]] L2; [| | |cbn in L2; lia]; cbn [nth].
      * eapply stands_qt; reflexivity.
      * apply (stands_plain _ _ _ _ _ _ guest 1 (VScalar (SStr true []))); [reflexivity | exact Logic.I].
      * apply (stands_plain _ _ _ _ _ _ guest 2 (VList [])); [reflexivity | exact Logic.I].
  - vm_compute. repeat match goal with |- _ /\ _ => split | |- Forall _ _ => constructor end; try reflexivity; try discriminate; exact Logic.I.
Qed.

(** A message with an unknown field, two values of the QPoint, two entries of a map with the same key, the first
    without a value, and the second member of a QDate only. *)
Definition ex_odd_bytes : list Z :=
  [40; 5;  34; 2; 8; 1;  34; 4; 8; 5; 16; 6;  130; 1; 3; 10; 1; 120;
   130; 1; 9; 10; 1; 120; 18; 4; 18; 2; 16; 4].

Example C97_any_bytes_case :
  mixed_deserialize (list Z) (list Z) (fun u => u) (fun i _ => i) (fun _ _ => false) ex_new_qt ex_booking_schema
    ex_qt_field 200 user_message ex_odd_bytes
  = ([ MPlain (VScalar (SNum 0)); MQt (QPoint _ _ (-3) 3); MNull; MList [];
       MMap [ (SStr false [120], MMsg [ MQt (QDate _ _ nullJd); MPlain (VScalar (SStr true [])); MPlain (VList []) ]) ]; MNull ], Ok tt) /\
  deserializeMessage 200 false ex_booking_schema user_message ex_odd_bytes
  = ([ VScalar (SNum 0); VMsg [VScalar (SNum (-3)); VScalar (SNum 3)]; VNull; VList [];
       VMap [ (SStr false [120], VMsg [ ex_plain_date 0 2 0; VScalar (SStr true []); VList [] ]) ]; VNull ], Ok tt).
Proof. split; vm_compute; reflexivity. Qed.

Print Assumptions C97_round_trip_partial.
Print Assumptions C97_any_bytes.
Print Assumptions C97_same_bytes.
Print Assumptions C97_from_others_partial.
Print Assumptions C97_to_others.

(** Messages that hold values of Qt types as JSON texts: C104. *)

From Coq Require Import String ZArith List Bool Lia Arith.
From Verif Require Import Base WireModel Values MessageModel WireSpec WireProofs MessageSpec MessageProofs SerializeProofs MessageFacts TypedProofs ObjectProofs
  RunFacts PropFacts QtTypesModel QtDateProofs QtTypesSpec QtTypesProofs QtFieldsModel QtFieldsSpec QtFieldsProofs QtFieldsTrack PropertiesQtTypes
  PropertiesQtFields JsonSpec JsonModel JsonProofs JsonUnique PropertiesJson JsonReadModel JsonReadSpec JsonReadProofs JsonReadFacts JsonScan
  PropertiesJsonRead JsonTyped JsonDigits PropertiesJsonDigits PropertiesRelay QtJsonModel QtJsonSpec QtJsonProofs QtJsonBack QtJsonRects QtJsonFacts.
Import ListNotations.
Open Scope Z_scope.

(** serialize with the JSON serializer returns the text [t] for the object. *)
Definition mixed_json_serializes {Url Image : Type} url_string png_save to_rgb new_qt sch nm qt_field fm m (obj : list (mvalue Url Image)) (t : list Z) : Prop :=
  exists fuel, mixed_json Url Image url_string png_save to_rgb new_qt sch nm qt_field fm fuel m obj = Ok t.

(** C104.  The JSON text for a message with values of Qt types is the one that a program without the Qt types, in which
    these fields are messages of the library, writes for the same values. *)
Theorem C104_same_text : forall (Url Image : Type) url_string png_save to_rgb new_qt sch nm qt_field fm m (obj : list (mvalue Url Image)) p,
  schema_ok sch -> qt_fields_ok sch qt_field ->
  stands_for url_string png_save to_rgb new_qt sch qt_field m obj p -> forall t,
  mixed_json_serializes url_string png_save to_rgb new_qt sch nm qt_field fm m obj t <-> json_serializes sch nm fm m p t.
Proof.
  intros Url Image us ps rgb new_qt sch nm qf fm m obj p Sch Qok S t. unfold mixed_json_serializes, json_serializes.
  split; intros (fuel & H); exists fuel; [rewrite <- (stands_json Url Image us ps rgb new_qt sch nm fm qf Sch Qok fuel m obj p S)
    | rewrite (stands_json Url Image us ps rgb new_qt sch nm fm qf Sch Qok fuel m obj p S)]; exact H.
Qed.

(** Whatever text arrives, JSON or not, and whatever microjson makes of it, a program with Qt types that reads it into an
    object reads what a program without them reads into an object with the same values, with the same outcome: each Qt
    value is the one that its message stands for.  The only difference is a rectangle whose edges leave the range of int,
    which is undefined behaviour in the former. *)
Theorem C104_any_text : forall (Url Image : Type) url_parse image_load qt_eq new_qt sch nm qt_field mj conv fuel m data
  (base : list (mvalue Url Image)) base',
  schema_ok sch -> has_library sch -> qt_fields_ok sch qt_field ->
  json_read_as url_parse image_load qt_eq new_qt sch qt_field m base base' ->
  match mixed_json_read Url Image url_parse image_load qt_eq new_qt sch nm qt_field mj conv fuel m data base,
        read_object fuel mj conv sch nm m data base' with
  | UB SignedOverflow, o => o = UB SignedOverflow \/ exists m i, qt_field m i = Some KRect
  | Ok r, o => exists p, o = Ok p /\ json_read_as url_parse image_load qt_eq new_qt sch qt_field m r p
  | Throw e, o => o = Throw e
  | UB reason, o => o = UB reason
  | OutOfFuel, o => o = OutOfFuel
  end.
Proof.
  intros Url Image up il qe new_qt sch nm qf mj conv fuel m data base base' Sch Lib Qok H.
  pose proof (json_tracks Url Image up il qe new_qt sch nm qf Sch Lib Qok mj conv fuel m data base base' H) as [[X E]|T].
  - rewrite E. right. exact X.
  - destruct (mixed_json_read _ _ _ _ _ _ _ _ _ _ _ _ _ _ _) as [r|e|u|]; destruct (read_object _ _ _ _ _ _ _ _) as [p|e'|u'|]; try contradiction; try (subst; reflexivity).
    + eauto.
    + subst u'. destruct u; try reflexivity. now left.
Qed.

(** New objects have the same values in this sense. *)
Lemma new_objects_alike : forall (Url Image : Type) url_parse image_load qt_eq new_qt sch qt_field m, qt_fields_ok sch qt_field ->
  json_read_as url_parse image_load qt_eq new_qt sch qt_field m (new_object Url Image new_qt sch qt_field m) (default_obj sch m).
Proof. intros. now apply new_json. Qed.

(** A message whose fields, or those of messages in it at any depth, alone, in lists or in maps, are of Qt types comes back
    from its JSON text, next to fields of all other types: every value of a Qt type is the one that was sent up to the sign of
    zeros (or Qt's comparison takes it for such a value), every other field is the same, and list elements and map values
    that are null pointers are missing.  The text may also come from a program without the Qt types, which writes the
    same one.

    Missing: values of Qt types that are not sent faithfully (C42), lists and maps of Qt types themselves (C62), and what
    JSON cannot transport (C43, C60), among it most floating point numbers, see C104_digits_refuted. *)
Theorem C104_round_trip_partial : forall (Url Image : Type) url_string url_parse png_save image_load to_rgb qt_eq new_qt sch nm qt_field
  mj ok conv fm m (obj : list (mvalue Url Image)) p t,
  right_on mj ok -> (forall t, ok t -> quotes_only t) -> gives_bytes mj -> gives_floats conv ->
  names_ok sch nm -> enum_values nm -> schema_ok sch -> has_library sch -> qt_fields_ok sch qt_field ->
  (forall m i e, f_ty (field_at sch m i) <> FMap TBool e) ->
  sendable url_string url_parse png_save image_load new_qt sch qt_field m obj ->
  stands_for url_string png_save to_rgb new_qt sch qt_field m obj p -> object_ok sch m p ->
  fine sch nm fm numbered (fun t x s => number s /\ reads_as conv t x s) m p -> nowhere_empty sch m p ->
  mixed_json_serializes url_string png_save to_rgb new_qt sch nm qt_field fm m obj t -> ok t -> bytes t ->
  exists fuel r,
    (forall fuel', (fuel <= fuel')%nat ->
       mixed_json_read Url Image url_parse image_load qt_eq new_qt sch nm qt_field mj conv fuel' m t
         (new_object Url Image new_qt sch qt_field m) = Ok r) /\ alike qt_eq new_qt sch qt_field m r obj.
Proof.
  intros Url Image us up ps il rgb qe new_qt sch nm qf mj ok conv fm m obj p t R Q Gb Gf N En Sch Lib Qok Nb Sd St Op F E Sr Ot Bt.
  apply (C104_same_text Url Image us ps rgb new_qt sch nm qf fm m obj p Sch Qok St) in Sr.
  assert (Lp : length (default_obj sch m) = length p).
  { rewrite default_obj_length. apply object_ok_spec in Op. clear - Op. induction Op; cbn [length]; auto. }
  destruct (C60_round_trip_partial mj ok conv sch nm fm m (default_obj sch m) p t R Q N Sch Op Lp Sr Ot F E Nb) as (rp & D & Sm).
  pose proof (C53_json_well_typed mj conv sch nm m t _ rp Gb Gf En Sch Bt (default_ok sch m) D) as Or.
  destruct Sr as (f0 & H0).
  destruct (object_text sch nm fm named numbered (reads_as conv) (fun t x s => number s /\ reads_as conv t x s)
              (fun t x s _ X => conj (proj2 X) (proj1 X)) numbered_ok _ _ _ _ H0 F E) as (l & Sh & T).
  destruct D as (fuel & D). exists fuel.
  pose proof (object_set sch nm mj ok conv (reads_as conv) named R Q N Sch fuel m l t p _ rp Sh Ot T (default_obj_length sch m) D) as Set_.
  pose proof (json_tracks Url Image up il qe new_qt sch nm qf Sch Lib Qok mj conv fuel m t _ _ (new_json Url Image up il qe new_qt sch qf Qok m))
    as [[X Eo]|Tr].
  { exfalso. refine (object_calm Url Image us up ps il rgb qe new_qt sch qf nm mj ok conv R Q Gb Gf N En Sch Lib Qok Nb fuel m (JObj l) t _ _ rp _ Ot Bt T D Eo).
    exists obj, p, l. auto. }
  rewrite D in Tr. destruct (mixed_json_read _ _ _ _ _ _ _ _ _ _ _ _ _ _ _) as [r|e|u|] eqn:Er; try contradiction. exists r.
  split; [intros fuel' L; exact (mixed_read_mono Url Image up il qe new_qt sch nm qf mj conv fuel fuel' m t _ r L Er)|].
  exact (sendable_back Url Image us up ps il rgb qe new_qt sch qf Lib Qok m obj Sd p r rp St Op Or Set_ Sm Tr).
Qed.

(** No text has two results: what is read into an object does not depend on the fuel. *)
Theorem C104_one_result : forall (Url Image : Type) url_parse image_load qt_eq new_qt sch nm qt_field mj conv fuel fuel' m t
  (base r r' : list (mvalue Url Image)),
  mixed_json_read Url Image url_parse image_load qt_eq new_qt sch nm qt_field mj conv fuel m t base = Ok r ->
  mixed_json_read Url Image url_parse image_load qt_eq new_qt sch nm qt_field mj conv fuel' m t base = Ok r' -> r = r'.
Proof.
  intros Url Image up il qe nq sch nm qf mj conv f f' m t base r r' H H'.
  pose proof (mixed_read_mono Url Image up il qe nq sch nm qf mj conv f (Nat.max f f') m t base r ltac:(lia) H) as E.
  pose proof (mixed_read_mono Url Image up il qe nq sch nm qf mj conv f' (Nat.max f f') m t base r' ltac:(lia) H') as E'. congruence.
Qed.
Print Assumptions C104_one_result.

(** And a program without the Qt types reads the text as the messages of the library that stand for the values.

    Missing: what JSON cannot transport, as above. *)
Theorem C104_to_others_partial : forall (Url Image : Type) url_string png_save to_rgb new_qt sch nm qt_field mj ok conv fm m
  (obj : list (mvalue Url Image)) p t base,
  right_on mj ok -> (forall t, ok t -> quotes_only t) -> names_ok sch nm -> schema_ok sch -> qt_fields_ok sch qt_field ->
  (forall m i e, f_ty (field_at sch m i) <> FMap TBool e) ->
  stands_for url_string png_save to_rgb new_qt sch qt_field m obj p -> object_ok sch m p -> length base = length p ->
  fine sch nm fm numbered (fun t x s => number s /\ reads_as conv t x s) m p -> nowhere_empty sch m p ->
  mixed_json_serializes url_string png_save to_rgb new_qt sch nm qt_field fm m obj t -> ok t ->
  exists r, json_deserializes mj conv sch nm m t base r /\ same sch m r (map drop_nulls p).
Proof.
  intros Url Image us ps rgb new_qt sch nm qf mj ok conv fm m obj p t base R Q N Sch Qok Nb St Op L F E Sr Ot.
  apply (C104_same_text Url Image us ps rgb new_qt sch nm qf fm m obj p Sch Qok St) in Sr.
  exact (C60_round_trip_partial mj ok conv sch nm fm m base p t R Q N Sch Op L Sr Ot F E Nb).
Qed.

(** The members of vectors, quaternions and matrices are floats, which JSON shows with six digits: there are two QVector2D
    that are not equal whose texts are the same in any message, so no reader brings both back. *)
Theorem C104_digits_refuted : forall fm, qt_formats fm -> exists x y, finite_float x /\ finite_float y /\ x <> y /\
  forall (Url Image : Type) url_string png_save to_rgb new_qt sch nm qt_field fuel m a b c,
  has_library sch -> qt_field m (length a) = Some KVector2D ->
  mixed_json Url Image url_string png_save to_rgb new_qt sch nm qt_field fm fuel m (a ++ MQt (QVector2D _ _ x c) :: b) =
  mixed_json Url Image url_string png_save to_rgb new_qt sch nm qt_field fm fuel m (a ++ MQt (QVector2D _ _ y c) :: b).
Proof.
  intros fm [(texts & H) _].
  destruct (texts_collide (fmt_float fm) texts (255 * 2 ^ 23) (10 ^ 6) (-45) 84) as (x & y & X & Y & N & E); try lia.
  { intros x X. destruct (H x X) as (s & d & e & D & Ee & F). exists s, d, e. repeat split; auto; lia. }
  exists x, y. split; [exact X|]. split; [exact Y|]. split; [exact N|].
  intros Url Image us ps rgb new_qt sch nm qf fuel m a b c Lib Q. destruct fuel as [|fuel]; [reflexivity|]. cbn [mixed_json].
  f_equal. f_equal. apply map_ext. intro i. destruct (Nat.eq_dec i (length a)) as [->|Ne].
  - rewrite !app_nth2 by lia. rewrite Nat.sub_diag. cbn [nth]. unfold mixed_json_property. f_equal.
    unfold mixed_json_field. rewrite Q. cbn [to_message bind]. destruct fuel as [|fuel]; [reflexivity|]. cbn [json_object].
    f_equal. f_equal. apply map_ext. intros [|[|i]]; try reflexivity.
    unfold json_property, json_field, field_at. rewrite (Lib KVector2D). cbn [field_types repeat number_from nth f_ty json_value num scalar_of json_scalar num_of].
    now rewrite E.
  - destruct (Nat.lt_ge_cases i (length a)) as [Lt|Ge]; [now rewrite !app_nth1 by exact Lt|].
    rewrite !app_nth2 by lia. destruct (i - length a)%nat as [|j] eqn:Ej; [lia|]. reflexivity.
Qed.

(** ** The example of PropertiesQtFields.v as JSON *)

Definition booking_names : names :=
  mkNames (fun m i =>
    match m with
    | 22%nat => nth i [bytes_of "number"; bytes_of "place"; bytes_of "guest"; bytes_of "guests"; bytes_of "named"; bytes_of "spare"] []
    | 23%nat => nth i [bytes_of "birthday"; bytes_of "name"; bytes_of "flags"] []
    | _ => [97 + Z.of_nat (i mod 26)]
    end) (fun _ _ => []).

Lemma booking_names_ok : names_ok ex_booking_schema booking_names.
Proof.
  split; [|split].
  - intro m. do 24 (destruct m as [|m]; [repeat constructor; vm_compute; intuition discriminate|]).
    destruct m; cbn; constructor.
  - intros m i. unfold booking_names. cbn [n_json].
    assert (G : Forall plain [97 + Z.of_nat (i mod 26)]).
    { constructor; [|constructor]. pose proof (Nat.mod_upper_bound i 26). unfold plain. lia. }
    do 22 (destruct m as [|m]; [exact G|]). destruct m as [|[|m]]; [| | exact G].
    + do 6 (destruct i as [|i]; [plains|]). destruct i; constructor.
    + do 3 (destruct i as [|i]; [plains|]). destruct i; constructor.
  - intros m i. split; [constructor | intros p []].
Qed.

Definition some_guest (O : list value) : Prop :=
  exists y m d b n l, O = [ex_plain_date y m d; VScalar (SStr b n); VList (map (fun z => VScalar (SNum z)) l)] /\ Forall plain n.

Lemma booking_parts M O : part ex_booking_schema user_message ex_plain_booking M O ->
  (M = user_message /\ O = ex_plain_booking) \/ M = index KPoint \/ M = index KDate \/ (M = guest /\ some_guest O).
Proof.
  assert (Lp : forall O M O', part ex_booking_schema (index KPoint) O M O' -> M = index KPoint).
  { intros O1 M1 O2 P. inversion P as [|? ? ? ? ? ? I Ty Q|? ? ? ? ? ? ? I Ty ? Q|? ? ? ? ? ? ? ? I Ty ? ? Q]; subst; [reflexivity|..]; destruct I as [<-|[<-|[]]]; discriminate Ty. }
  assert (Ld : forall O M O', part ex_booking_schema (index KDate) O M O' -> M = index KDate).
  { intros O1 M1 O2 P. inversion P as [|? ? ? ? ? ? I Ty Q|? ? ? ? ? ? ? I Ty ? Q|? ? ? ? ? ? ? ? I Ty ? ? Q]; subst; [reflexivity|..]; destruct I as [<-|[<-|[<-|[]]]]; discriminate Ty. }
  assert (Lg : forall O M O', some_guest O -> part ex_booking_schema guest O M O' -> M = index KDate \/ (M = guest /\ some_guest O')).
  { intros O1 M1 O2 G P. inversion P as [|? ? ? ? ? ? I Ty Q|? ? ? ? ? ? ? I Ty ? Q|? ? ? ? ? ? ? ? I Ty ? ? Q]; subst; [auto|..]; destruct I as [<-|[<-|[<-|[]]]]; try discriminate Ty.
    injection Ty as <-. left. eapply Ld. exact Q. }
  assert (G : forall O M O', some_guest O -> part ex_booking_schema guest O M O' ->
    M = user_message /\ O' = ex_plain_booking \/ M = index KPoint \/ M = index KDate \/ (M = guest /\ some_guest O')).
  { intros O1 M1 O2 Gu P. destruct (Lg _ _ _ Gu P); auto. }
  assert (Pl : forall y m d n l, Forall plain n -> some_guest [ex_plain_date y m d; VScalar (SStr false n); VList (map (fun z => VScalar (SNum z)) l)]).
  { intros y m d n l H. exists y, m, d, false, n, l. auto. }
  intro P. inversion P as [|m0 o0 i m' M0 O0 I Ty Q|m0 o0 i m' sub M0 O0 I Ty Is Q|m0 o0 i k m' kv M0 O0 I Ty Is Nn Q]; subst; [auto|..];
    destruct I as [<-|[<-|[<-|[<-|[<-|[<-|[]]]]]]]; try discriminate Ty.
  - injection Ty as <-. eapply G; [|exact Q]. apply (Pl 2000 1 1 [65; 110; 110] [1; 2; 300]). plains.
  - injection Ty as <-. right. left. eapply Lp. exact Q.
  - injection Ty as <-. eapply G; [|exact Q]. exists 0, 0, 0, true, [], []. auto.
  - injection Ty as <-. destruct Is as [Is|[Is|[Is|[]]]]; [| discriminate Is |].
    + injection Is as <-. eapply G; [|exact Q]. apply (Pl 1970 1 1 [66] []). plains.
    + injection Is as <-. eapply G; [|exact Q]. apply (Pl 0 0 0 [67] [9]). plains.
  - injection Ty as _ <-. destruct Is as [Is|[Is|[]]]; subst kv.
    + eapply G; [|exact Q]. apply (Pl 2000 1 1 [68] []). plains.
    + eapply G; [|exact Q]. apply (Pl 2023 2 24 [69; 70] [0]). plains.
Qed.

Lemma booking_fine ok fl : fine ex_booking_schema booking_names json_formats ok fl user_message ex_plain_booking.
Proof.
  intros M O P i Hi. apply booking_parts in P as [[-> ->]|[->|[->|[-> G]]]].
  - destruct Hi as [<-|[<-|[<-|[<-|[<-|[<-|[]]]]]]]; (split; [plains|]); unfold fine_field; cbn; try exact Logic.I.
    repeat (apply Forall_cons; [split; [plains | exact Logic.I]|]). apply Forall_nil.
  - destruct Hi as [<-|[<-|[]]]; (split; [plains|]); exact Logic.I.
  - destruct Hi as [<-|[<-|[<-|[]]]]; (split; [plains|]); exact Logic.I.
  - destruct G as (y & m & d & b & n & l & -> & H). destruct Hi as [<-|[<-|[<-|[]]]]; (split; [plains|]); unfold fine_field; cbn; try exact Logic.I; try exact H.
    split; [discriminate|]. clear. induction l; constructor; auto. exact Logic.I.
Qed.

Lemma booking_nowhere_empty : nowhere_empty ex_booking_schema user_message ex_plain_booking.
Proof. intros M O P. apply booking_parts in P as [[-> _]|[->|[->|[-> _]]]]; discriminate. Qed.

Lemma booking_keys : forall m i e, f_ty (field_at ex_booking_schema m i) <> FMap TBool e.
Proof.
  intros m i e. unfold field_at.
  do 22 (destruct m as [|m]; [do 16 (destruct i as [|i]; [vm_compute; discriminate|]); destruct i; vm_compute; discriminate|]).
  destruct m as [|[|m]].
  - do 6 (destruct i as [|i]; [discriminate|]). destruct i; discriminate.
  - do 3 (destruct i as [|i]; [discriminate|]). destruct i; discriminate.
  - unfold msg_at, ex_booking_schema. destruct m, i; discriminate.
Qed.

Example C104_case : exists t,
  (right_on scanner quotes_only /\ gives_bytes scanner /\ gives_floats no_floats /\ names_ok ex_booking_schema booking_names /\
   enum_values booking_names /\ (forall m i e, f_ty (field_at ex_booking_schema m i) <> FMap TBool e)) /\
  (schema_ok ex_booking_schema /\ has_library ex_booking_schema /\ qt_fields_ok ex_booking_schema ex_qt_field /\
   sendable (fun u => u) (fun u => u) (fun i => i) (fun i _ => i) ex_new_qt ex_booking_schema ex_qt_field user_message ex_booking /\
   stands_for (fun u => u) (fun i => i) (fun _ c => c) ex_new_qt ex_booking_schema ex_qt_field user_message ex_booking ex_plain_booking /\
   object_ok ex_booking_schema user_message ex_plain_booking) /\
  fine ex_booking_schema booking_names json_formats numbered (fun t x s => number s /\ reads_as no_floats t x s) user_message ex_plain_booking /\
  nowhere_empty ex_booking_schema user_message ex_plain_booking /\
  mixed_json (list Z) (list Z) (fun u => u) (fun i => i) (fun _ c => c) ex_new_qt ex_booking_schema booking_names ex_qt_field json_formats
    5 user_message ex_booking = Ok t /\
  Zlen t = 434 /\ quotes_only t /\ bytes t /\
  mixed_json_read (list Z) (list Z) (fun u => u) (fun i _ => i) (fun _ _ => false) ex_new_qt ex_booking_schema booking_names ex_qt_field
    scanner no_floats 9 user_message t (new_object _ _ ex_new_qt ex_booking_schema ex_qt_field user_message) = Ok ex_received.
Proof.
  eexists. split; [split; [exact scanner_right|]; split; [exact scanner_bytes|]; split;
    [intros t s H; destruct t; try discriminate H; vm_compute; split; (reflexivity || discriminate)|];
    split; [exact booking_names_ok|]; split; [intros m i p []|exact booking_keys]|].
  pose proof C97_case as (A & B & C & D & _). pose proof C97_others_case as (F & G).
  split; [repeat (split; [assumption|]); assumption|]. split; [apply booking_fine|]. split; [exact booking_nowhere_empty|].
  split; [vm_compute; reflexivity|]. split; [vm_compute; reflexivity|]. split; [apply quotes_checked; vm_compute; reflexivity|].
  split; [vm_compute; repeat (apply Forall_cons; [split; congruence |]); apply Forall_nil|].
  vm_compute. reflexivity.
Qed.

(** A text that no serializer writes: an unknown name, a Qt field that is null and comes again without all its members, and
    a guest with half a date. *)
Definition odd_text : list Z := bytes_of
  "{""place"":null, ""x"":[1,{}],
    ""guest"":{""birthday"":{""b"":2}, ""name"":null}, ""place"":{""b"":5}, ""spare"":{""birthday"":null}}".

Example C104_any_text_case :
  mixed_json_read (list Z) (list Z) (fun u => u) (fun i _ => i) (fun _ _ => false) ex_new_qt ex_booking_schema booking_names ex_qt_field
    scanner no_floats 9 user_message odd_text (new_object _ _ ex_new_qt ex_booking_schema ex_qt_field user_message) =
  Ok [ MPlain (VScalar (SNum 0)); MQt (QPoint _ _ 0 5); MMsg [ MQt (QDate _ _ nullJd); MPlain (VScalar (SStr true [])); MPlain (VList []) ];
       MList []; MMap []; MMsg [ MQt (QDate _ _ nullJd); MPlain (VScalar (SStr true [])); MPlain (VList []) ] ] /\
  read_object 9 scanner no_floats ex_booking_schema booking_names user_message odd_text (default_obj ex_booking_schema user_message) =
  Ok [ VScalar (SNum 0); VMsg [VScalar (SNum 0); VScalar (SNum 5)]; VMsg [ ex_plain_date 0 2 0; VScalar (SStr true []); VList [] ];
       VList []; VMap []; VMsg [ VNull; VScalar (SStr true []); VList [] ] ].
Proof. vm_compute. split; reflexivity. Qed.

(** A schema with a QVector2D in a message, and two of them that look the same. *)
Example C104_digits_case :
  let sch := map (fun k => mkMsg (number_from 1 (field_types k)) (seq 0 (length (field_types k)))) all_kinds ++ [mkMsg [mkField 1 (FSing (EM (index KVector2D)))] [0%nat]] in
  let qt_field (m i : nat) := match m, i with 22%nat, 0%nat => Some KVector2D | _, _ => None end in
  let json x := mixed_json (list Z) (list Z) (fun u => u) (fun i => i) (fun _ c => c) ex_new_qt sch booking_names qt_field ex_formats 3 22
    ([] ++ [MQt (QVector2D _ _ x 1069547520)]) in
  qt_formats ex_formats /\ has_library sch /\ qt_fields_ok sch qt_field /\
  json 1065353216 = Ok (bytes_of "{""number"":{""a"":106535,""b"":106954}}") /\ json 1065353217 = json 1065353216.
Proof.
  cbn zeta. split; [exact (proj1 C56_digits_case)|]. split; [intro k; destruct k; reflexivity|]. split; [|vm_compute; split; reflexivity].
  intros m i k. do 22 (destruct m as [|m]; [discriminate|]). destruct m; [|discriminate]. destruct i; [|discriminate].
  intro H. injection H as <-. reflexivity.
Qed.

Print Assumptions C104_same_text.
Print Assumptions C104_any_text.
Print Assumptions C104_round_trip_partial.
Print Assumptions C104_to_others_partial.
Print Assumptions C104_digits_refuted.

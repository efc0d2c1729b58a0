(** Fields of Qt types: C42. *)

From Coq Require Import ZArith List Bool Lia Arith.
From Verif Require Import Base WireModel Values MessageModel WireSpec WireProofs MessageSpec MessageProofs
  SerializeProofs MessageFacts QtTypesModel QtDateProofs QtTypesSpec QtTypesProofs.
Import ListNotations.
Open Scope Z_scope.

(** C42.  A message with fields of Qt types, holding values that are sent faithfully, can be
    serialized.  Unless the result is too long, reading it into any other message of the type gives
    every field the value that was sent, up to the sign of zeros, except where Qt's comparison takes
    the value for the one the field held before: then that one stays.

    Missing: null times, time specifications other than local time, colours that are not RGB with 8
    bits per channel, and rectangles whose extents leave the range of int; the theorems below show
    that these are not sent faithfully.  That Qt reads back the URLs and images it writes is a
    hypothesis, part of [faithful]. *)
Theorem C42_round_trip_partial : forall (Url Image : Type) url_string url_parse png_save image_load to_rgb qt_eq
  order fields vs old,
  schema_ok (qt_schema order fields) ->
  map (kind_of Url Image) vs = map snd fields -> map (kind_of Url Image) old = map snd fields ->
  Forall (faithful url_string url_parse png_save image_load) vs ->
  exists fuel bs,
    (forall fuel', (fuel <= fuel')%nat ->
       qt_serialize Url Image url_string png_save to_rgb fuel' order fields vs = Ok bs) /\
    (Zlen bs <= INT_MAX -> forall fuel', (length bs < fuel')%nat -> exists vs',
       qt_deserialize Url Image url_parse image_load qt_eq fuel' order fields bs (it_begin bs) old = Ok vs' /\
       length vs' = length vs /\
       forall i v o, nth_error vs i = Some v -> nth_error old i = Some o ->
         exists w, same_qt w v /\ nth_error vs' i = Some (if qt_eq o w then o else w)).
Proof.
  intros Url Image us up ps il rgb qe order fields vs old Sch K Ko F.
  destruct (qt_serialize_total Url Image us up ps il rgb order fields Sch vs F) as (fuel & bs & S).
  exists fuel, bs. split; [exact S|]. intros B fuel' L.
  assert (Lv : length vs = length fields) by (rewrite <- (map_length (kind_of Url Image)), K; apply map_length).
  assert (Lo : length old = length fields) by (rewrite <- (map_length (kind_of Url Image)), Ko; apply map_length).
  destruct (msg_at_ok _ user_message Sch) as (_ & _ & ND & Cov).
  assert (Lf : length (md_fields (msg_at (qt_schema order fields) user_message)) = length fields)
    by (rewrite user_fields; apply map_length).
  rewrite Lf in Cov. change (md_order (msg_at (qt_schema order fields) user_message)) with (order user_message) in *.
  destruct (loop_back Url Image us up ps il rgb order fields qe Sch fuel vs K F (order user_message) fuel' [] bs old)
    as (vs' & D & L' & _ & I); auto.
  { intros i. apply Cov. }
  { exact (S fuel (le_n _)). }
  exists vs'. split; [exact D|]. split; [congruence|]. intros i v o Hv Ho.
  assert (Li : (i < length fields)%nat) by (rewrite <- Lv; apply nth_error_Some; congruence).
  destruct (I i) as (v1 & o1 & w & x & E1 & E2 & E3 & Sw & ->); [now apply Cov|].
  rewrite Hv in E1. rewrite Ho in E2. injection E1 as ->. injection E2 as ->. eauto.
Qed.

(** Fields in the order of their declaration. *)
Definition declared (fields : list (Z * kind)) (m : nat) : list nat :=
  seq 0 (length (md_fields (msg_at (qt_schema (fun _ => []) fields) m))).

(** The hypothesis on the schema holds whenever the field numbers are distinct and in range. *)
Lemma qt_schema_ok fields : NoDup (map fst fields) -> Forall (fun p => field_number (fst p)) fields ->
  schema_ok (qt_schema (declared fields) fields).
Proof.
  intros ND F.
  assert (Gen : forall fs, NoDup (map f_num fs) -> Forall field_ok fs ->
    msg_ok (mkMsg fs (seq 0 (length fs)))).
  { intros fs N Fo. split; [exact N|]. split; [exact Fo|]. split; [apply seq_NoDup|].
    intro i. cbn [md_order md_fields]. rewrite in_seq. lia. }
  unfold schema_ok, qt_schema. apply Forall_app. split.
  - apply Forall_forall. intros md I. apply in_map_iff in I. destruct I as (k & <- & _).
    unfold declared. rewrite kind_fields. apply Gen.
    + assert (X : forall l n, NoDup (map f_num (number_from n l)) /\ forall z, In z (map f_num (number_from n l)) -> n <= z).
      { induction l as [|ty l IH]; intro n; cbn [number_from map f_num].
        - split; [constructor | intros z []].
        - destruct (IH (n + 1)) as [A B]. split.
          + constructor; [intro J; specialize (B n J); lia | exact A].
          + intros z [<-|J]; [lia|]. specialize (B z J). lia. }
      apply X.
    + destruct k; cbn [field_types number_from repeat]; repeat (apply Forall_cons; [split; [unfold field_number; cbn [f_num]; lia | exact Logic.I]|]); apply Forall_nil.
  - constructor; [|constructor]. unfold declared. change 22%nat with user_message. rewrite user_fields.
    apply Gen.
    + rewrite map_map. exact ND.
    + apply Forall_forall. intros f I. apply in_map_iff in I. destruct I as (p & <- & I).
      rewrite Forall_forall in F. split; [exact (F p I) | exact Logic.I].
Qed.

(** URLs and images that are their own bytes; a comparison that takes nothing for equal. *)
Definition ex_fields : list (Z * kind) :=
  [(3, KTime); (1, KRect); (7, KColor); (2, KDateTime); (9, KPolygonF); (12, KUuid); (15, KUrl); (16, KMatrix4x4)].
Definition ex_values : list (qtval (list Z) (list Z)) :=
  [ QTime _ _ 3723004; QRect _ _ (-5) 7 90 6; QColor _ _ Rgb 65535 (18 * 257) 0 (200 * 257);
    QDateTime _ _ LocalTime 2451545 43200000;
    QPolygonF _ _ [(4607182418800017408, 0); (4611686018427387904, 13830554455654793216)];
    QUuid _ _ 1742839012 4097 65535 [0; 1; 2; 3; 4; 5; 6; 255]; QUrl _ _ [104; 116; 116; 112; 58];
    QMatrix4x4 _ _ [1; 2; 3; 4; 5; 6; 7; 8; 9; 10; 11; 12; 13; 14; 15; 16] ].
Definition ex_old : list (qtval (list Z) (list Z)) :=
  [ QTime _ _ (-1); QRect _ _ 0 0 (-1) (-1); QColor _ _ InvalidColor 65535 0 0 0;
    QDateTime _ _ LocalTime nullJd nullTime; QPolygonF _ _ []; QUuid _ _ 0 0 0 (repeat 0 8); QUrl _ _ [];
    QMatrix4x4 _ _ (repeat 0 16) ].

Example C42_case :
  schema_ok (qt_schema (declared ex_fields) ex_fields) /\
  map (kind_of (list Z) (list Z)) ex_values = map snd ex_fields /\
  map (kind_of (list Z) (list Z)) ex_old = map snd ex_fields /\
  Forall (faithful (fun u => u) (fun u => u) (fun i => i) (fun i _ => i)) ex_values /\
  exists bs, qt_serialize (list Z) (list Z) (fun u => u) (fun i => i) (fun _ c => c) 5 (declared ex_fields)
    ex_fields ex_values = Ok bs /\ (length bs < 300)%nat /\
    qt_deserialize (list Z) (list Z) (fun u => u) (fun i _ => i) (fun _ _ => false) 300 (declared ex_fields)
      ex_fields bs (it_begin bs) ex_old = Ok ex_values.
Proof.
  split; [|split; [reflexivity|split; [reflexivity|split]]].
  - apply qt_schema_ok.
    + cbn. repeat (constructor; [cbn; lia|]). constructor.
    + repeat (constructor; [unfold field_number; cbn; lia|]). constructor.
  - unfold ex_values. repeat match goal with |- Forall _ (_ :: _) => constructor | |- Forall _ [] => constructor end;
      cbn [faithful]; unfold extent, in_s, in_u, bytes, nullTime, minJd, maxJd, is_byte; cbn [fst snd];
      repeat match goal with |- _ /\ _ => split | |- Forall _ (_ :: _) => constructor | |- Forall _ [] => constructor end;
      try reflexivity; cbn [fst snd]; try lia.
    all: try (match goal with |- exists _, _ /\ 65535 = _ => exists 255 | |- exists _, _ /\ 0 = _ => exists 0
                | |- exists _, _ /\ ?a * 257 = _ => exists a end; lia).
    all: match goal with |- ?G => idtac G end.
  - eexists. split; [vm_compute; reflexivity|]. split; [cbn; lia|]. vm_compute. reflexivity.
Qed.

(** ** What is not sent faithfully *)

(** Two values of a field that give the same bytes in every message: the receiver cannot tell them
    apart. *)
Definition sent_alike {Url Image} url_string png_save to_rgb (v v' : qtval Url Image) : Prop :=
  forall fuel order fields before after,
    qt_serialize Url Image url_string png_save to_rgb fuel order fields (before ++ v :: after)
    = qt_serialize Url Image url_string png_save to_rgb fuel order fields (before ++ v' :: after).

Lemma same_message_alike {Url Image} url_string png_save to_rgb (v v' : qtval Url Image) :
  to_message Url Image url_string png_save to_rgb v = to_message Url Image url_string png_save to_rgb v' ->
  sent_alike url_string png_save to_rgb v v'.
Proof.
  intros E fuel order fields before after. unfold qt_serialize. f_equal. apply map_ext. intro i.
  destruct (nth_error fields i) as [[number k]|]; [|reflexivity].
  destruct (Nat.lt_trichotomy i (length before)) as [L|[L|L]].
  - rewrite !nth_error_app1 by exact L. reflexivity.
  - rewrite !nth_error_app2 by lia. replace (i - length before)%nat with O by lia. cbn [nth_error]. now rewrite E.
  - rewrite !nth_error_app2 by lia. destruct (i - length before)%nat eqn:D; [lia|]. reflexivity.
Qed.

(** The null time arrives as midnight, alone or in a date and time. *)
Theorem C42_null_time_refuted : forall Url Image us ps rgb,
  sent_alike us ps rgb (QTime Url Image nullTime) (QTime Url Image 0) /\
  forall spec jd, sent_alike us ps rgb (QDateTime Url Image spec jd nullTime) (QDateTime Url Image spec jd 0).
Proof.
  intros. split; [apply same_message_alike; reflexivity|].
  intros spec jd. apply same_message_alike. cbn [to_message]. destruct (date_parts jd) as [[y m] d]. reflexivity.
Qed.

(** The time specification is not sent: a time in UTC arrives as the same time of day in the local
    time of the receiver. *)
Theorem C42_time_spec_refuted : forall Url Image us ps rgb spec spec' jd mds,
  sent_alike us ps rgb (QDateTime Url Image spec jd mds) (QDateTime Url Image spec' jd mds).
Proof.
  intros. apply same_message_alike. cbn [to_message]. destruct (date_parts jd) as [[y m] d]. reflexivity.
Qed.

(** An invalid colour arrives as a valid one, and only the upper 8 bits of every channel are sent. *)
Theorem C42_colour_refuted : forall Url Image us ps rgb a r g b a' r' g' b',
  sent_alike us ps rgb (QColor Url Image InvalidColor a r g b) (QColor Url Image Rgb a r g b) /\
  (a / 256 = a' / 256 -> r / 256 = r' / 256 -> g / 256 = g' / 256 -> b / 256 = b' / 256 ->
   sent_alike us ps rgb (QColor Url Image Rgb a r g b) (QColor Url Image Rgb a' r' g' b')).
Proof.
  intros. split; [apply same_message_alike; reflexivity|].
  intros A R G B. apply same_message_alike. cbn [to_message rgba]. now rewrite A, R, G, B.
Qed.

(** The different values above do arrive as the second one. *)
Example C42_alike_witness :
  let send v := match qt_serialize Z Z (fun _ => []) (fun _ => []) (fun _ c => c) 5
                  (declared [(1, kind_of Z Z v)]) [(1, kind_of Z Z v)] [v] with
                | Ok bs => qt_deserialize Z Z (fun _ => 0) (fun _ _ => 0) (fun _ _ => false) 50
                  (declared [(1, kind_of Z Z v)]) [(1, kind_of Z Z v)] bs (it_begin bs) [v]
                | _ => OutOfFuel
                end in
  send (QTime Z Z nullTime) = Ok [QTime Z Z 0] /\
  send (QDateTime Z Z UTC 2451545 3600000) = Ok [QDateTime Z Z LocalTime 2451545 3600000] /\
  send (QColor Z Z InvalidColor 65535 0 0 0) = Ok [QColor Z Z Rgb 65535 0 0 0] /\
  send (QColor Z Z Rgb 65535 511 0 0) = Ok [QColor Z Z Rgb 65535 257 0 0].
Proof. repeat split; vm_compute; reflexivity. Qed.

(** A rectangle whose width or height is not an int cannot be sent: the computation overflows. *)
Theorem C42_rect_width_refuted : forall Url Image us ps rgb order fields vs i x1 y1 x2 y2,
  nth_error vs i = Some (QRect Url Image x1 y1 x2 y2) -> (i < length fields)%nat -> In i (order user_message) ->
  ~ in_s 32 (x2 - x1 + 1) \/ ~ in_s 32 (y2 - y1 + 1) ->
  to_message Url Image us ps rgb (QRect Url Image x1 y1 x2 y2) = UB SignedOverflow /\
  forall fuel bs, qt_serialize Url Image us ps rgb fuel order fields vs <> Ok bs.
Proof.
  intros Url Image us ps rgb order fields vs i x1 y1 x2 y2 Hv Hf Ho B.
  assert (T : to_message Url Image us ps rgb (QRect Url Image x1 y1 x2 y2) = UB SignedOverflow).
  { cbn [to_message]. unfold in_s in B. change (2 ^ (32 - 1)) with (2 ^ 31) in B.
    assert (I : forall z k, int_op z = Ok z \/ (bind (int_op z) k = UB SignedOverflow (A := list value))).
    { intros z k. unfold int_op. destruct (_ && _); [left|right]; reflexivity. }
    assert (N : forall z, ~ (- 2 ^ 31 <= z < 2 ^ 31) -> int_op z = UB SignedOverflow).
    { intros z Z. unfold int_op. destruct (Z.leb_spec (- 2 ^ 31) z), (Z.ltb_spec z (2 ^ 31)); cbn [andb]; auto. lia. }
    match goal with |- bind (int_op (x2 - x1)) ?k = _ => destruct (I (x2 - x1) k) as [E|E]; [rewrite E; cbn [bind]; clear E | exact E] end.
    match goal with |- bind (int_op (x2 - x1 + 1)) ?k = _ => destruct (I (x2 - x1 + 1) k) as [E|E]; [|exact E] end.
    destruct B as [B|B]; [rewrite (N _ B) in E; discriminate E|]. rewrite E; cbn [bind]; clear E.
    match goal with |- bind (int_op (y2 - y1)) ?k = _ => destruct (I (y2 - y1) k) as [E|E]; [rewrite E; cbn [bind]; clear E | exact E] end.
    now rewrite (N _ B). }
  split; [exact T|]. intros fuel bs H. unfold qt_serialize in H. revert bs H.
  induction (order user_message) as [|j os IH]; intros bs H; [destruct Ho|].
  cbn [map] in H. apply concat_res_cons in H as (a & b & Ha & Hb & ->).
  destruct Ho as [<-|Ho]; [|exact (IH Ho b Hb)].
  destruct (nth_error fields j) as [[number k]|] eqn:E; [|apply nth_error_None in E; lia].
  rewrite Hv, T in Ha. discriminate Ha.
Qed.

Example C42_rect_width_witness : ~ in_s 32 (2000000000 - (-1000000000) + 1).
Proof. unfold in_s. lia. Qed.

(** A rectangle that ends at the largest int is sent, but reading it overflows. *)
Theorem C42_rect_edge_refuted : forall Url Image us up ps il rgb qe number order x1 y1 y2 old,
  let fields := [(number, KRect)] in
  let v := QRect Url Image x1 y1 (2 ^ 31 - 1) y2 in
  schema_ok (qt_schema order fields) -> 1 <= x1 < 2 ^ 31 -> extent y1 y2 ->
  exists fuel bs,
    (forall fuel', (fuel <= fuel')%nat -> qt_serialize Url Image us ps rgb fuel' order fields [v] = Ok bs) /\
    (Zlen bs <= INT_MAX -> forall fuel', (length bs < fuel')%nat ->
     qt_deserialize Url Image up il qe fuel' order fields bs (it_begin bs) old = UB SignedOverflow).
Proof.
  intros Url Image us up ps il rgb qe number order x1 y1 y2 old fields v Sch X (A1 & A2 & A3 & A4 & A5).
  set (sch := qt_schema order fields) in *.
  set (fs := [VMsg [num x1; num y1]; VMsg [num (2 ^ 31 - 1 - x1 + 1); num (y2 - y1 + 1)]]).
  assert (T : to_message Url Image us ps rgb v = Ok fs).
  { unfold v. cbn [to_message].
    rewrite (int_op_ok (2 ^ 31 - 1 - x1)) by (unfold in_s in *; lia). cbn [bind].
    rewrite (int_op_ok (2 ^ 31 - 1 - x1 + 1)) by (unfold in_s in *; lia). cbn [bind].
    rewrite (int_op_ok (y2 - y1) A4). cbn [bind]. rewrite (int_op_ok _ A5). reflexivity. }
  assert (O : object_ok sch (index KRect) fs).
  { apply (typed_object sch (kind_fields order fields)). constructor; [|constructor; [|constructor]]; cbn [val_ok].
    - apply (typed_object sch (kind_fields order fields) KPoint). constructor; [cbn [val_ok elem_ok num scalar_ok]; unfold in_s; lia|]. constructor; [exact A1|]. constructor.
    - apply (typed_object sch (kind_fields order fields) KSize). constructor; [cbn [val_ok elem_ok num scalar_ok]; unfold in_s; lia|]. constructor; [exact A5|]. constructor. }
  destruct (msg_at_ok _ user_message Sch) as (_ & _ & ND & Cov).
  assert (Ord : order user_message = [0%nat]).
  { change (md_order (msg_at sch user_message)) with (order user_message) in *.
    change (length (md_fields (msg_at sch user_message))) with 1%nat in Cov.
    pose proof (proj2 (Cov 0%nat) ltac:(lia)) as I.
    destruct (order user_message) as [|a [|b l]]; [destruct I| |].
    - destruct I as [->|[]]. reflexivity.
    - exfalso. inversion ND as [|? ? N _]; subst. apply N.
      pose proof (proj1 (Cov a) (or_introl eq_refl)). pose proof (proj1 (Cov b) (or_intror (or_introl eq_refl))).
      replace a with b by lia. now left. }
  destruct (serialize_terminates sch (qt_acyclic order fields) Sch (index KRect) fs) as (fuel & body & H).
  assert (S : forall fuel', (fuel <= fuel')%nat ->
    serializeObject (serializeMessage fuel' sch) number (index KRect) fs
    = Ok (encodeHeader number WLengthDelimitedT ++ prependLengthDelimitedSize body)).
  { intros f L. unfold serializeObject. now rewrite (H f L). }
  exists fuel. exists (encodeHeader number WLengthDelimitedT ++ prependLengthDelimitedSize body).
  set (bs := _ ++ _) in *. split.
  - intros f L. unfold qt_serialize. rewrite Ord. cbn [map nth_error fields]. rewrite T. cbn [bind].
    fold fields sch. rewrite (S f L). cbn [concat_res bind]. now rewrite app_nil_r.
  - intros B f L. destruct f as [|f]; [lia|].
    destruct (record_parse Url Image us up ps il rgb order fields qe Sch fuel f 0 number KRect fs old bs [] []
                eq_refl O eq_refl (S fuel (le_n _))) as (L2 & r & Or & Sm & P).
    { now rewrite app_nil_r. }
    { lia. }
    rewrite app_nil_r in P. cbn [app] in P. cbn [qt_deserialize].
    replace (it_pos (it_begin bs) =? Zlen bs) with false.
    2: { symmetry. apply Z.eqb_neq. cbn [it_begin it_pos]. unfold Zlen. lia. }
    rewrite cur_begin, P. cbn [of_message].
    destruct (same_nested sch (kind_fields order fields) KRect r _ 0%nat KPoint _ Or O Sm ltac:(cbn; lia) eq_refl eq_refl) as (Or0 & Of0 & Sm0).
    destruct (same_nested sch (kind_fields order fields) KRect r _ 1%nat KSize _ Or O Sm ltac:(cbn; lia) eq_refl eq_refl) as (Or1 & Of1 & Sm1).
    pose proof (same_at sch (kind_fields order fields) _ _ _ 0%nat Or0 Of0 Sm0 ltac:(cbn; lia)) as C0. cbn [nth field_types] in C0.
    pose proof (same_at sch (kind_fields order fields) _ _ _ 0%nat Or1 Of1 Sm1 ltac:(cbn; lia)) as C1. cbn [nth field_types] in C1.
    unfold number_at.
    rewrite (canon_num sch TSInt32 _ _ eq_refl ltac:(discriminate) ltac:(discriminate) C0).
    rewrite (canon_num sch TSInt32 _ _ eq_refl ltac:(discriminate) ltac:(discriminate) C1).
    cbn [scalar_of num_of num]. replace (x1 + (2 ^ 31 - 1 - x1 + 1)) with (2 ^ 31) by lia. reflexivity.
Qed.

Example C42_rect_edge_witness : schema_ok (qt_schema (declared [(1, KRect)]) [(1, KRect)]) /\ extent 0 0 /\
  match qt_serialize Z Z (fun _ => []) (fun _ => []) (fun _ c => c) 5 (declared [(1, KRect)]) [(1, KRect)]
    [QRect Z Z 1 0 (2 ^ 31 - 1) 0] with Ok bs => length bs = 16%nat | _ => False end.
Proof.
  split; [|split].
  - apply qt_schema_ok; [cbn; repeat (constructor; [cbn; lia|]); constructor|].
    repeat (constructor; [unfold field_number; cbn; lia|]). constructor.
  - unfold extent, in_s. lia.
  - vm_compute. reflexivity.
Qed.

Print Assumptions C42_round_trip_partial.
Print Assumptions C42_null_time_refuted.
Print Assumptions C42_time_spec_refuted.
Print Assumptions C42_colour_refuted.
Print Assumptions C42_rect_width_refuted.
Print Assumptions C42_rect_edge_refuted.

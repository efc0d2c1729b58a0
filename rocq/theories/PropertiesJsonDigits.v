(** Properties C56 and C60, continued: the digits of floating point numbers in JSON. *)

From Coq Require Import String ZArith List Bool Lia.
From Verif Require Import Base Values MessageModel MessageSpec JsonSpec JsonModel JsonReadModel JsonDigits PropertiesJson PropertiesJsonRead.
Import ListNotations.
Open Scope Z_scope.

(** The bits of the finite floating point numbers that are not negative. *)
Definition finite_float (x : Z) : Prop := 0 <= x < 255 * 2 ^ 23.
Definition finite_double (x : Z) : Prop := 0 <= x < 2047 * 2 ^ 52.

(** A text of six digits, as of QString::number with the format 'g': it depends on no more than the sign, the six digits and the
    decimal exponent of the first of them. *)
Definition six_digits (finite : Z -> Prop) (least greatest : Z) (fmt : Z -> list Z) : Prop :=
  exists texts : bool -> Z -> Z -> list Z, forall x, finite x ->
  exists s digits e, 0 <= digits < 10 ^ 6 /\ least <= e <= greatest /\ fmt x = texts s digits e.

(** The formats of float fields and lists, and of lists of doubles.  The exponents are those of the least and greatest numbers. *)
Definition qt_formats (fm : formats) : Prop :=
  six_digits finite_float (-45) 38 (fmt_float fm) /\ six_digits finite_double (-324) 308 (fmt_double6 fm).

(** There are floats that no JSON text tells apart: in any field of any message, the output is the same. *)
Theorem C56_float_refuted : forall fm, qt_formats fm -> exists x y, finite_float x /\ finite_float y /\ x <> y /\
  forall sch nm m a b t, f_ty (field_at sch m (length a)) = FSing (ES TFloat) ->
  json_serializes sch nm fm m (a ++ VScalar (SNum x) :: b) t -> json_serializes sch nm fm m (a ++ VScalar (SNum y) :: b) t.
Proof.
  intros fm [(texts & H) _].
  destruct (texts_collide (fmt_float fm) texts (255 * 2 ^ 23) (10 ^ 6) (-45) 84) as (x & y & X & Y & N & E); try lia.
  - intros x X. destruct (H x X) as (s & d & e & D & Ee & F). exists s, d, e. repeat split; auto; lia.
  - exists x, y. repeat split; auto; try lia. intros sch nm m a b t T. apply serializes_same. intro rec. unfold json_field. rewrite T. cbn [json_value scalar_of json_scalar num_of].
    now rewrite E.
Qed.

(** The same for lists of doubles. *)
Theorem C56_double_refuted : forall fm, qt_formats fm -> exists x y, finite_double x /\ finite_double y /\ x <> y /\
  forall sch nm m a b l l' t, f_ty (field_at sch m (length a)) = FRep (ES TDouble) ->
  json_serializes sch nm fm m (a ++ VList (l ++ VScalar (SNum x) :: l') :: b) t ->
  json_serializes sch nm fm m (a ++ VList (l ++ VScalar (SNum y) :: l') :: b) t.
Proof.
  intros fm [_ (texts & H)].
  destruct (texts_collide (fmt_double6 fm) texts (2047 * 2 ^ 52) (10 ^ 6) (-324) 633) as (x & y & X & Y & N & E); try lia.
  - intros x X. destruct (H x X) as (s & d & e & D & Ee & F). exists s, d, e. repeat split; auto; lia.
  - exists x, y. repeat split; auto; try lia. intros sch nm m a b l l' t T. apply serializes_same. intro rec. unfold json_field. rewrite T. cbn [list_of].
    rewrite !map_app. cbn [map scalar_of]. now rewrite (list_same fm (n_enum nm m (length a)) (map scalar_of l) (map scalar_of l') x y E).
Qed.

(** So no reader brings both back, whatever Qt's conversions do. *)
Theorem C60_float_refuted : forall fm, qt_formats fm -> exists x y, finite_float x /\ finite_float y /\
  forall mj conv sch nm m a b t base r, f_ty (field_at sch m (length a)) = FSing (ES TFloat) -> (length a < length (md_fields (msg_at sch m)))%nat ->
  json_serializes sch nm fm m (a ++ VScalar (SNum x) :: b) t -> json_deserializes mj conv sch nm m t base r ->
  json_serializes sch nm fm m (a ++ VScalar (SNum y) :: b) t /\
  ~ (same sch m r (a ++ VScalar (SNum x) :: b) /\ same sch m r (a ++ VScalar (SNum y) :: b)).
Proof.
  intros fm Q. destruct (C56_float_refuted fm Q) as (x & y & X & Y & N & H). exists x, y. split; [exact X|]. split; [exact Y|].
  intros mj conv sch nm m a b t base r T L S _. split; [now apply (H sch nm m a b t T)|]. intros [E1 E2].
  apply (float_differs sch m a b x y L T); auto.
  - unfold finite_float in X. lia.
  - unfold finite_float in Y. lia.
  - unfold same in *. congruence.
Qed.

Theorem C60_double_refuted : forall fm, qt_formats fm -> exists x y, finite_double x /\ finite_double y /\
  forall mj conv sch nm m a b l l' t base r, f_ty (field_at sch m (length a)) = FRep (ES TDouble) -> (length a < length (md_fields (msg_at sch m)))%nat ->
  json_serializes sch nm fm m (a ++ VList (l ++ VScalar (SNum x) :: l') :: b) t -> json_deserializes mj conv sch nm m t base r ->
  json_serializes sch nm fm m (a ++ VList (l ++ VScalar (SNum y) :: l') :: b) t /\
  ~ (same sch m r (a ++ VList (l ++ VScalar (SNum x) :: l') :: b) /\ same sch m r (a ++ VList (l ++ VScalar (SNum y) :: l') :: b)).
Proof.
  intros fm Q. destruct (C56_double_refuted fm Q) as (x & y & X & Y & N & H). exists x, y. split; [exact X|]. split; [exact Y|].
  intros mj conv sch nm m a b l l' t base r T L S _. split; [now apply (H sch nm m a b l l' t T)|]. intros [E1 E2].
  apply (double_differs sch m a b l l' x y L T); auto.
  - unfold finite_double in X. lia.
  - unfold finite_double in Y. lia.
  - unfold same in *. congruence.
Qed.

(** ** Cases *)

(** Formats with six digits: here the first digits of the bits as a decimal number. *)
Definition ex_formats : formats := mkFormats (fun x => decimal (x / 10 ^ 4)) (fun x => decimal (x / 10 ^ 13)) decimal.

Example C56_digits_case : qt_formats ex_formats /\ finite_float 1069547520 /\
  exists t r, json_serializes (single TFloat) (single_names (bytes_of "f") []) ex_formats 0 ([] ++ VScalar (SNum 1069547520) :: []) t /\
    json_deserializes JsonScan.scanner no_floats (single TFloat) (single_names (bytes_of "f") []) 0 t [VScalar (SNum 0)] r /\
    f_ty (field_at (single TFloat) 0 (@length value [])) = FSing (ES TFloat) /\ (@length value [] < length (md_fields (msg_at (single TFloat) 0)))%nat.
Proof.
  split; [split|split].
  - exists (fun _ d _ => decimal d). intros x X. exists true, (x / 10 ^ 4), 0. unfold finite_float in X. cbn [fmt_float ex_formats]. split; [|split; [lia | reflexivity]].
    split; [apply Z.div_pos; lia | apply Z.div_lt_upper_bound; lia].
  - exists (fun _ d _ => decimal d). intros x X. exists true, (x / 10 ^ 13), 0. unfold finite_double in X. cbn [fmt_double6 ex_formats]. split; [|split; [lia | reflexivity]].
    split; [apply Z.div_pos; lia | apply Z.div_lt_upper_bound; lia].
  - unfold finite_float. lia.
  - eexists. eexists. split; [exists 1%nat; vm_compute; reflexivity|]. split; [exists 1%nat; vm_compute; reflexivity|]. split; [reflexivity | cbn; lia].
Qed.

Print Assumptions C56_float_refuted.
Print Assumptions C56_double_refuted.
Print Assumptions C60_float_refuted.
Print Assumptions C60_double_refuted.

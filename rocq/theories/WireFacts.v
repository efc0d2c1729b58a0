(** Facts about single wire values, stated with [it_at]; used by PropertiesWire. *)

From Coq Require Import ZArith List Bool Lia ZifyBool.
From Verif Require Import Base WireModel Values MessageModel WireSpec WireProofs MessageSpec
  MessageProofs SerializeProofs ReaderProofs MessageFacts.
Import ListNotations.
Open Scope Z_scope.
Ltac Zify.zify_post_hook ::= Z.div_mod_to_equations.

Lemma at_cur pre rest : it_at (pre ++ rest) (Zlen pre) = cur pre rest.
Proof. unfold it_at, cur. zlen. f_equal; lia. Qed.

Lemma at_cur2 pre x rest : it_at (pre ++ x ++ rest) (Zlen (pre ++ x)) = cur (pre ++ x) rest.
Proof. rewrite app_assoc. apply at_cur. Qed.

Lemma varint_back w v pre rest : w = 32 \/ w = 64 -> in_u w v ->
  deserializeVarintCommon w (pre ++ serializeVarintCommon v ++ rest)
    (it_at (pre ++ serializeVarintCommon v ++ rest) (Zlen pre))
  = Ok (v, it_at (pre ++ serializeVarintCommon v ++ rest) (Zlen (pre ++ serializeVarintCommon v))).
Proof.
  intros W V. assert (U : in_u 64 v) by (apply (in_u_mono w); [lia | exact V]).
  rewrite at_cur, at_cur2.
  rewrite (varint_read w v _ pre rest ltac:(lia) (serializeVarint_wire v U)).
  now rewrite wrapU_small.
Qed.

Lemma sent_scalar t s num : scalar_ok t s -> field_number num ->
  serializeScalar t s num = [] \/
  serializeScalar t s num = encodeHeader num (wire_of t) ++ list_element t s.
Proof.
  intros O N. rewrite serializeScalar_cases by assumption. rewrite wv_wtype.
  destruct (omitted t s); auto.
Qed.

Lemma scalar_back t s pre rest : scalar_ok t s -> Zlen (list_element t s ++ rest) <= INT_MAX ->
  deserializeBasic false t (pre ++ list_element t s ++ rest)
    (it_at (pre ++ list_element t s ++ rest) (Zlen pre))
  = Ok (clear_null s, it_at (pre ++ list_element t s ++ rest) (Zlen (pre ++ list_element t s))).
Proof.
  intros O B. rewrite at_cur, at_cur2.
  assert (Bx : Zlen (list_element t s) <= INT_MAX).
  { zlen_in B. pose proof (Zlen_nonneg rest). lia. }
  rewrite (scalar_read false t (wv t s)); auto.
  - now rewrite wv_mean.
  - now apply list_element_enc.
  - now apply wv_fits.
Qed.

(** A whole singular field: tag and payload. *)
Lemma scalar_field_back t s num pre rest : scalar_ok t s -> field_number num ->
  omitted t s = false -> Zlen (serializeScalar t s num ++ rest) <= INT_MAX ->
  let data := pre ++ serializeScalar t s num ++ rest in
  exists it1, decodeHeader data (it_at data (Zlen pre)) = Ok (num, wire_of t, true, it1)
    /\ deserializeBasic false t data it1
       = Ok (clear_null s, it_at data (Zlen (pre ++ serializeScalar t s num))).
Proof.
  intros O N Om B. cbv zeta.
  assert (E : serializeScalar t s num = encodeHeader num (wire_of t) ++ list_element t s).
  { rewrite serializeScalar_cases, wv_wtype by assumption. now rewrite Om. }
  rewrite E in *. clear E.
  rewrite <- app_assoc in *. rewrite at_cur.
  assert (W : In (wire_of t) wire_types) by (clear; destruct t; vm_compute; auto).
  assert (W2 : 0 <= wire_of t < 8) by (clear; destruct t; vm_compute; split; congruence).
  rewrite (tag_read_ok num (wire_of t) _ pre _ N W (proj1 (encodeHeader_tag num (wire_of t) N W2))).
  eexists. split; [reflexivity|].
  pose proof (scalar_back t s (pre ++ encodeHeader num (wire_of t)) rest O (Zlen_le_app _ _ B)) as R.
  rewrite at_cur, <- !app_assoc in R. exact R.
Qed.

(** The payload of a varint typed value. *)
Lemma payload_unsigned t v : In t [TUInt32; TUInt64; TBool] -> scalar_ok t (SNum v) ->
  list_element t (SNum v) = serializeVarintCommon v.
Proof.
  intros H O. unfold list_element.
  assert (U : in_u 64 v).
  { destruct H as [<-|[<-|[<-|[]]]]; cbn in O; unfold in_u in *; lia. }
  destruct H as [<-|[<-|[<-|[]]]]; now apply varint_element.
Qed.

Lemma payload_zigzag t w v : (t, w) = (TSInt32, 32) \/ (t, w) = (TSInt64, 64) ->
  in_s w v -> list_element t (SNum v) = serializeVarintCommon (zigzag v).
Proof.
  intros H O.
  assert (U : in_u 64 (zigzag v)).
  { destruct H as [H|H]; injection H as -> ->;
      (apply (in_u_mono w); [lia|]) || (apply (in_u_mono 32); [lia|apply (zigzag_range 32); [lia|exact O]])
      || apply (zigzag_range 64); try lia; exact O. }
  unfold list_element.
  destruct H as [H|H]; injection H as -> ->; cbn [serializeBasic num_of]; unfold serializeZigZag;
    rewrite zigzag_model by (try lia; exact O); now apply varint_element.
Qed.

Lemma payload_int t w v : (t, w) = (TInt32, 32) \/ (t, w) = (TInt64, 64) \/ (t, w) = (TEnum, 64) ->
  list_element t (SNum v) = serializeVarintCommon (v mod 2 ^ w).
Proof.
  intros H.
  assert (U : in_u 64 (v mod 2 ^ w)).
  { destruct H as [H|[H|H]]; injection H as -> ->.
    - apply (in_u_mono 32); [lia|]. now apply mod_in_u.
    - now apply mod_in_u.
    - now apply mod_in_u. }
  unfold list_element.
  destruct H as [H|[H|H]]; injection H as -> ->; cbn [serializeBasic num_of]; unfold serializeInt;
    now apply varint_element.
Qed.

Lemma payload_fixed t n v :
  (In t [TFixed32; TSFixed32; TFloat] /\ n = 4%nat) \/ (In t [TFixed64; TSFixed64; TDouble] /\ n = 8%nat) ->
  list_element t (SNum v) = le_bytes n v.
Proof.
  intros [[H ->]|[H ->]]; destruct H as [<-|[<-|[<-|[]]]]; reflexivity.
Qed.

(** ** Invalid tags *)

Section Prefix.
  Variable sch : schema.
  Hypothesis Sch : schema_ok sch.

  (** The loop first reads the well-formed records at the start of the input. *)
  Lemma loop_records hard : forall fuel m rs bs pre rest obj obj',
    enc_recs rs bs -> fits sch m rs -> (length bs + length rest < fuel)%nat ->
    Zlen (bs ++ rest) <= INT_MAX ->
    length obj = length (md_fields (msg_at sch m)) ->
    length obj' = length (md_fields (msg_at sch m)) ->
    same sch m obj obj' ->
    exists fuel1 r,
      deserialize_loop fuel hard sch m (pre ++ bs ++ rest) (cur pre (bs ++ rest)) obj
      = deserialize_loop fuel1 hard sch m (pre ++ bs ++ rest) (cur (pre ++ bs) rest) r
      /\ (length rest < fuel1)%nat
      /\ length r = length (md_fields (msg_at sch m))
      /\ same sch m r (fold_left (mean_record sch m) rs obj').
  Proof.
    induction fuel as [|fuel IH]; intros m rs bs pre rest obj obj' E F L B L1 L2 Sm; [lia|].
    destruct rs as [|[num w] rs].
    { inversion E; subst. exists (Datatypes.S fuel), obj. cbn [app fold_left].
      rewrite app_nil_r. split; [reflexivity|]. split; [simpl in L; lia|]. auto. }
    inversion E as [| ? ? ? tag pl bs' N T V E']; subst.
    apply fits_spec in F. inversion F as [|? ? F1 F2]; subst.
    pose proof (enc_val_nonempty w pl V) as Vn.
    pose proof (is_varint_nonnil _ _ (proj1 T)) as Tn.
    rewrite !app_length in L. rewrite <- !app_assoc in *.
    destruct (property_read hard sch Sch fuel
      (fun m' data' => deserialize_loop fuel hard sch m' data' (it_begin data') (default_obj sch m'))
      m num w tag pl pre (bs' ++ rest) obj obj')
      as (obj1 & P1 & P2 & P3); auto.
    { intros m' rs1 bs1 E1 F1' Lb1 B1.
      destruct (deserialize_read hard sch Sch fuel m' rs1 bs1 E1 F1' ltac:(lia) B1)
        as (r1 & R1 & _ & R3). exists r1. split; [exact R1 | exact R3]. }
    { lia. }
    cbn [deserialize_loop].
    replace (it_pos _ =? _) with false.
    2:{ cbn [cur it_pos]. zlen. pose proof (Zlen_nonneg bs'). pose proof (Zlen_nonneg rest).
        unfold Zlen at 1. unfold Zlen in *. lia. }
    rewrite P1.
    destruct (IH m rs bs' (pre ++ tag ++ pl) rest obj1 (mean_record sch m obj' (num, w)) E')
      as (fuel1 & r & A1 & A2 & A3 & A4); auto.
    { now apply fits_spec. }
    { lia. }
    { rewrite app_assoc in B. now apply Zlen_le_app in B. }
    { unfold mean_record. destruct (find_field _ _); [rewrite update_length|]; exact L2. }
    exists fuel1, r. rewrite <- !app_assoc in A1. rewrite A1. auto.
  Qed.

  Lemma bad_tag_read hard fuel m rs bs h hd rest :
    enc_recs rs bs -> fits sch m rs -> wire_varint h hd -> 0 <= h < 2 ^ 32 ->
    ~ (field_number (h / 8) /\ In (h mod 8) wire_types) ->
    Zlen (bs ++ hd ++ rest) <= INT_MAX -> (length (bs ++ hd ++ rest) < fuel)%nat ->
    exists r, deserializeMessage fuel hard sch m (bs ++ hd ++ rest) = (r, Throw InvalidArgument)
      /\ same sch m r (mean sch m rs).
  Proof.
    intros E F V H Bad B L. unfold deserializeMessage. rewrite cur_begin.
    destruct (loop_records hard fuel m rs bs [] (hd ++ rest) (default_obj sch m) (default_obj sch m))
      as (f1 & r & A1 & A2 & A3 & A4); auto.
    { rewrite app_length in L. lia. }
    { apply default_obj_length. }
    { apply default_obj_length. }
    { reflexivity. }
    cbn [app] in A1. rewrite A1. exists r. rewrite mean_spec. split; [|exact A4].
    pose proof (is_varint_nonnil _ _ (proj1 V)) as Hn.
    destruct f1 as [|f1]; [lia|]. cbn [deserialize_loop].
    replace (it_pos _ =? _) with false.
    2:{ cbn [cur it_pos]. zlen. destruct hd; [congruence|]. zlen. pose proof (Zlen_nonneg hd).
        pose proof (Zlen_nonneg rest). lia. }
    unfold deserializeProperty. rewrite (tag_read h hd bs rest V H). cbn [bind].
    replace (valid_tag (h / 8) (h mod 8)) with false; [reflexivity|].
    unfold valid_tag, field_number, wire_types in *. cbn [In] in Bad. lia.
  Qed.
End Prefix.

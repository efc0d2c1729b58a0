(** Properties C01 - C07: single values on the wire. *)

From Coq Require Import ZArith List Bool Lia ZifyBool.
From Verif Require Import Base WireModel Values MessageModel WireSpec WireProofs MessageSpec
  MessageProofs SerializeProofs ReaderProofs MessageFacts WireFacts RunFacts TagFacts.
Import ListNotations.
Open Scope Z_scope.
Ltac Zify.zify_post_hook ::= Z.div_mod_to_equations.

(** [reads op bs x]: wherever the bytes [bs] stand in a buffer, and whatever follows, the reader
    [op] started in front of them returns [x] and stops exactly behind them.  (The part of a buffer that
    is still to be read never exceeds INT_MAX bytes, the limit of QByteArray.) *)
Definition reads {A : Type} (op : list Z -> iter -> res (A * iter)) (bs : list Z) (x : A) : Prop :=
  forall pre rest, Zlen (bs ++ rest) <= INT_MAX ->
  op (pre ++ bs ++ rest) (it_at (pre ++ bs ++ rest) (Zlen pre))
  = Ok (x, it_at (pre ++ bs ++ rest) (Zlen (pre ++ bs))).

(** ** C01 Unsigned integers survive the varint encoding *)

Theorem C01_varint_round_trip : forall w v,
  w = 32 \/ w = 64 -> in_u w v ->
  reads (deserializeVarintCommon w) (serializeVarintCommon v) v.
Proof. intros w v W V pre rest _. now apply varint_back. Qed.

(** The same for whole fields: the record of a uint32, uint64 or bool field is found by
    its number and yields the value. *)
Theorem C01_unsigned_field_round_trip : forall t v num pre rest,
  In t [TUInt32; TUInt64; TBool] -> scalar_ok t (SNum v) -> v <> 0 -> field_number num ->
  Zlen (serializeScalar t (SNum v) num ++ rest) <= INT_MAX ->
  let data := pre ++ serializeScalar t (SNum v) num ++ rest in
  exists it1, decodeHeader data (it_at data (Zlen pre)) = Ok (num, 0, true, it1)
    /\ deserializeBasic false t data it1
       = Ok (SNum v, it_at data (Zlen (pre ++ serializeScalar t (SNum v) num))).
Proof.
  intros t v num pre rest Ht O NZ N B data.
  assert (W : wire_of t = 0) by (destruct Ht as [<-|[<-|[<-|[]]]]; reflexivity).
  rewrite <- W. apply (scalar_field_back t (SNum v) num pre rest O N); [|exact B].
  destruct Ht as [<-|[<-|[<-|[]]]]; cbn; lia.
Qed.

Example C01_case : in_u 64 (2 ^ 64 - 1) /\
  serializeVarintCommon (2 ^ 64 - 1) = [255; 255; 255; 255; 255; 255; 255; 255; 255; 1].
Proof. vm_compute. repeat split; congruence. Qed.
Example C01_field_case : scalar_ok TUInt32 (SNum 300) /\ field_number 15 /\
  serializeScalar TUInt32 (SNum 300) 15 = [120; 172; 2].
Proof. vm_compute. repeat split; congruence. Qed.

(** ** C02 Varint encodings are canonical *)

Theorem C02_varint_canonical : forall v, in_u 64 v ->
  shortest_varint v (serializeVarintCommon v) /\
  (length (serializeVarintCommon v) <= 10)%nat /\
  (in_u 32 v -> (length (serializeVarintCommon v) <= 5)%nat).
Proof.
  intros v V. split; [now apply serializeVarint_shortest|].
  split; [apply serializeVarint_length|].
  intro V32. apply serializeVarint_bound; [lia|]. unfold in_u in V32. lia.
Qed.

(** The payload of a uint32, uint64 or bool field is this encoding. *)
Theorem C02_unsigned_payload : forall t v num,
  In t [TUInt32; TUInt64; TBool] -> scalar_ok t (SNum v) -> v <> 0 -> field_number num ->
  exists payload, serializeScalar t (SNum v) num = encodeHeader num 0 ++ payload
    /\ shortest_varint v payload.
Proof.
  intros t v num Ht O NZ N. exists (serializeVarintCommon v).
  assert (U : in_u 64 v).
  { destruct Ht as [<-|[<-|[<-|[]]]]; cbn in O; unfold in_u in *; lia. }
  split; [|now apply serializeVarint_shortest].
  rewrite <- (payload_unsigned t v Ht O).
  destruct (sent_scalar t (SNum v) num O N) as [E|E].
  - exfalso. assert (Om : omitted t (SNum v) = false)
      by (destruct Ht as [<-|[<-|[<-|[]]]]; cbn; lia).
    rewrite serializeScalar_cases in E by assumption. rewrite Om in E.
    pose proof (encodeHeader_tag num (wtype (wv t (SNum v))) N) as T.
    destruct (encodeHeader num _) eqn:EH; [|discriminate].
    rewrite wv_wtype in T.
    assert (W2 : 0 <= wire_of t < 8) by (clear; destruct t; vm_compute; split; congruence).
    destruct (T W2) as [[T1 _] _]. now apply is_varint_nonnil in T1.
  - rewrite E. destruct Ht as [<-|[<-|[<-|[]]]]; reflexivity.
Qed.

Example C02_case : is_varint 300 [172; 2] /\ is_varint 300 [172; 130; 0] /\
  serializeVarintCommon 300 = [172; 2].
Proof.
  split; [|split; [|reflexivity]].
  - apply (varint_more 44 2 [2]); [lia|]. constructor. lia.
  - apply (varint_more 44 2 [130; 0]); [lia|]. apply (varint_more 2 0 [0]); [lia|]. constructor. lia.
Qed.

(** ** C03 sint32 and sint64 *)

Theorem C03_zigzag_payload : forall t w v,
  (t, w) = (TSInt32, 32) \/ (t, w) = (TSInt64, 64) -> in_s w v ->
  shortest_varint (if v <? 0 then -2 * v - 1 else 2 * v) (list_element t (SNum v)).
Proof.
  intros t w v H O. rewrite (payload_zigzag t w v H O). fold (zigzag v).
  apply serializeVarint_shortest.
  destruct H as [H|H]; injection H as -> ->.
  - apply (in_u_mono 32); [lia|]. apply zigzag_range; [lia|exact O].
  - apply zigzag_range; [lia|exact O].
Qed.

Theorem C03_zigzag_bijection : forall w, 0 < w ->
  (forall v, in_s w v -> in_u w (zigzag v)) /\
  (forall a b, in_s w a -> in_s w b -> zigzag a = zigzag b -> a = b) /\
  (forall u, in_u w u -> exists v, in_s w v /\ zigzag v = u).
Proof.
  intros w W. split; [intros; now apply zigzag_range|]. split; [intros; now apply zigzag_inj|].
  intros u U. exists (unzz u). now apply zigzag_onto.
Qed.

Theorem C03_zigzag_round_trip : forall t w v,
  (t, w) = (TSInt32, 32) \/ (t, w) = (TSInt64, 64) -> in_s w v ->
  reads (deserializeBasic false t) (list_element t (SNum v)) (SNum v).
Proof.
  intros t w v H O pre rest B. apply (scalar_back t (SNum v)); [|exact B].
  destruct H as [H|H]; injection H as -> ->; exact O.
Qed.

(** The same value in a singular field: no record for 0, else tag and the payload above. *)
Theorem C03_zigzag_field : forall t w v num,
  (t, w) = (TSInt32, 32) \/ (t, w) = (TSInt64, 64) -> in_s w v -> field_number num ->
  serializeScalar t (SNum v) num
  = if v =? 0 then [] else encodeHeader num 0 ++ list_element t (SNum v).
Proof.
  intros t w v num H O N.
  assert (Ok : scalar_ok t (SNum v)) by (destruct H as [H|H]; injection H as -> ->; exact O).
  rewrite serializeScalar_cases by assumption. rewrite wv_wtype.
  destruct H as [H|H]; injection H as -> ->; reflexivity.
Qed.

Example C03_case : in_s 32 (- 2 ^ 31) /\ zigzag (- 2 ^ 31) = 2 ^ 32 - 1 /\
  list_element TSInt32 (SNum (- 2 ^ 31)) = [255; 255; 255; 255; 15].
Proof. vm_compute. repeat split; congruence. Qed.

(** ** C04 int32 and int64 *)

Theorem C04_int_round_trip : forall t w v,
  (t, w) = (TInt32, 32) \/ (t, w) = (TInt64, 64) -> in_s w v ->
  reads (deserializeBasic false t) (list_element t (SNum v)) (SNum v).
Proof.
  intros t w v H O pre rest B. apply (scalar_back t (SNum v)); [|exact B].
  destruct H as [H|H]; injection H as -> ->; exact O.
Qed.

(** The encoding prescribed by protobuf (the 64-bit two's complement, in any varint form of at most
    ten bytes) is read as the value as well. *)
Theorem C04_accepts_prescribed_encoding : forall t w v bs,
  (t, w) = (TInt32, 32) \/ (t, w) = (TInt64, 64) -> in_s w v ->
  wire_varint (v mod 2 ^ 64) bs ->
  reads (deserializeBasic false t) bs (SNum v).
Proof.
  intros t w v bs H O V pre rest _. rewrite at_cur, at_cur2.
  destruct H as [H|H]; injection H as -> ->; cbn [deserializeBasic];
    [ rewrite (varint_read 32 _ _ _ _ ltac:(lia) V) | rewrite (varint_read 64 _ _ _ _ ltac:(lia) V) ];
    cbn [bind]; f_equal; f_equal; f_equal.
  - rewrite <- (toS_small 32 v) at 2 by (try lia; exact O).
    rewrite toS_wrap by lia. apply toS_mod_eq.
    lia.
  - rewrite <- (toS_small 64 v) at 2 by (try lia; exact O).
    rewrite toS_wrap by lia. apply toS_mod_eq. now rewrite Z.mod_mod by lia.
Qed.

(** What is sent is what protobuf prescribes, for int64, enums and non-negative int32.  Missing for the
    full statement: negative int32 values, see [C04_negative_int32_refuted]. *)
Theorem C04_prescribed_bytes_partial : forall t w v,
  (t, w) = (TInt32, 32) /\ 0 <= v \/ (t, w) = (TInt64, 64) \/ (t, w) = (TEnum, 32) ->
  in_s w v ->
  shortest_varint (v mod 2 ^ 64) (list_element t (SNum v)).
Proof.
  intros t w v H O.
  assert (E : list_element t (SNum v) = serializeVarintCommon (v mod 2 ^ 64)).
  { destruct H as [[H P]|[H|H]]; injection H as -> ->.
    - rewrite (payload_int TInt32 32) by auto. unfold in_s in O.
      rewrite !Z.mod_small by lia. reflexivity.
    - apply payload_int. auto.
    - apply payload_int. auto. }
  rewrite E. apply serializeVarint_shortest. now apply mod_in_u.
Qed.

(** Every negative int32 is sent as the varint of another number than protobuf prescribes (which would be that of its
    64 bit two's complement). *)
Theorem C04_negative_int32_refuted : forall v bs, in_s 32 v -> v < 0 ->
  wire_varint (v mod 2 ^ 64) bs ->
  list_element TInt32 (SNum v) <> bs /\ wire_varint (v mod 2 ^ 32) (list_element TInt32 (SNum v)).
Proof.
  intros v bs O N [V L].
  assert (V' : wire_varint (v mod 2 ^ 32) (list_element TInt32 (SNum v))).
  { rewrite (payload_int TInt32 32) by auto. apply serializeVarint_wire.
    now apply (in_u_mono 32); [lia|]; apply mod_in_u. }
  split; [|exact V']. intro E. destruct V' as [V' _].
  rewrite E in V'. destruct (varint_prefix_free _ _ V _ _ [] [] V' eq_refl) as [D _].
  unfold in_s in O. lia.
Qed.

Example C04_case : in_s 32 (-1) /\ list_element TInt32 (SNum (-1)) = [255; 255; 255; 255; 15] /\
  wire_varint (-1 mod 2 ^ 64) [255; 255; 255; 255; 255; 255; 255; 255; 255; 1].
Proof.
  split; [unfold in_s; lia|]. split; [reflexivity|].
  change [255; 255; 255; 255; 255; 255; 255; 255; 255; 1]
    with (serializeVarintCommon (-1 mod 2 ^ 64)).
  apply serializeVarint_wire. now apply mod_in_u.
Qed.

(** ** C05 Fixed-width integers and floating point numbers *)

Definition width_of (t : sty) : nat :=
  match t with TFixed32 | TSFixed32 | TFloat => 4 | _ => 8 end.

Definition fixed_types : list sty := [TFixed32; TSFixed32; TFloat; TFixed64; TSFixed64; TDouble].

(** Tag, then exactly 4 or 8 little-endian bytes, also for the value 0; for a float or double
    the value [v] is its bit pattern. *)
Theorem C05_fixed_bytes : forall t v num, In t fixed_types -> scalar_ok t (SNum v) ->
  field_number num ->
  exists payload,
    serializeScalar t (SNum v) num
      = encodeHeader num (if Nat.eqb (width_of t) 4 then 5 else 1) ++ payload
    /\ list_element t (SNum v) = payload
    /\ is_le (width_of t) (v mod 2 ^ (8 * Z.of_nat (width_of t))) payload.
Proof.
  intros t v num Ht O N.
  assert (E : list_element t (SNum v) = le_bytes (width_of t) v).
  { apply payload_fixed. unfold fixed_types in Ht. cbn in Ht.
    destruct Ht as [<-|[<-|[<-|[<-|[<-|[<-|[]]]]]]]; cbn; auto 10. }
  exists (le_bytes (width_of t) v). split; [|split; [exact E|apply le_bytes_is_le]].
  rewrite serializeScalar_cases by assumption. rewrite wv_wtype, <- E.
  destruct Ht as [<-|[<-|[<-|[<-|[<-|[<-|[]]]]]]]; reflexivity.
Qed.

Theorem C05_fixed_round_trip : forall t v, In t fixed_types -> scalar_ok t (SNum v) ->
  reads (deserializeBasic false t) (list_element t (SNum v)) (SNum v).
Proof. intros t v _ O pre rest B. now apply (scalar_back t (SNum v)). Qed.

(** All bit patterns of a float: none is out of range. *)
Example C05_case : scalar_ok TFloat (SNum (2 ^ 31)) /\ scalar_ok TDouble (SNum (2 ^ 64 - 1)) /\
  list_element TFloat (SNum (2 ^ 31)) = [0; 0; 0; 128].
Proof. vm_compute. repeat split; congruence. Qed.

(** ** C06 Field tags *)

Theorem C06_tag_round_trip : forall num wt, field_number num -> In wt wire_types ->
  reads (fun data it => '(n, t, valid, it') <- decodeHeader data it ;; Ok ((n, t, valid), it'))
    (encodeHeader num wt) (num, wt, true).
Proof.
  intros num wt N W pre rest _. rewrite at_cur, at_cur2.
  assert (W2 : 0 <= wt < 8) by (cbn in W; lia).
  rewrite (tag_read_ok num wt _ pre rest N W (proj1 (encodeHeader_tag num wt N W2))). reflexivity.
Qed.

(** The tag is the shortest varint of number * 8 + wire type. *)
Theorem C06_tag_bytes : forall num wt, field_number num -> In wt wire_types ->
  shortest_varint (8 * num + wt) (encodeHeader num wt).
Proof. intros num wt N W. apply encodeHeader_tag; [exact N|]. cbn in W. lia. Qed.

Theorem C06_tags_prefix_free : forall num wt num' wt' rest rest',
  field_number num -> In wt wire_types -> field_number num' -> In wt' wire_types ->
  encodeHeader num wt ++ rest = encodeHeader num' wt' ++ rest' ->
  num = num' /\ wt = wt' /\ rest = rest'.
Proof.
  intros num wt num' wt' rest rest' N W N' W' E.
  assert (W2 : 0 <= wt < 8) by (cbn in W; lia). assert (W2' : 0 <= wt' < 8) by (cbn in W'; lia).
  destruct (encodeHeader_tag num wt N W2) as [[V _] _].
  destruct (encodeHeader_tag num' wt' N' W2') as [[V' _] _].
  destruct (varint_prefix_free _ _ V _ _ rest rest' V' E) as (E1 & _ & E3).
  split; [lia|]. split; [lia|]. exact E3.
Qed.

(** After any well-formed records of a message, a tag that is not one of the above
    (32 bit value with field number 0 or another wire type) raises invalid_argument, and nothing but
    the records before it was stored. *)
Theorem C06_invalid_tag_rejected : forall sch m rs bs h tag rest fuel,
  schema_ok sch -> enc_recs rs bs -> fits sch m rs ->
  wire_varint h tag -> 0 <= h < 2 ^ 32 -> ~ (field_number (h / 8) /\ In (h mod 8) wire_types) ->
  Zlen (bs ++ tag ++ rest) <= INT_MAX -> (length (bs ++ tag ++ rest) < fuel)%nat ->
  exists obj, deserializeMessage fuel false sch m (bs ++ tag ++ rest) = (obj, Throw InvalidArgument)
    /\ same sch m obj (mean sch m rs).
Proof. intros. eapply bad_tag_read; eauto. Qed.

(** A varint tag of more than 32 bits is not rejected: whenever data that begin with a valid tag are accepted, they are
    also accepted, with the same result, after adding any multiple of 2^32 to this tag. *)
Theorem C06_wide_tag_refuted : forall sch m num wt h tag tag' rest r,
  field_number num -> In wt wire_types -> is_tag num wt tag ->
  wire_varint h tag' -> h mod 2 ^ 32 = 8 * num + wt ->
  Zlen (tag ++ rest) <= INT_MAX -> Zlen (tag' ++ rest) <= INT_MAX -> no_negative_length sch m (tag ++ rest) ->
  deserializes sch m (tag ++ rest) r (Ok tt) -> deserializes sch m (tag' ++ rest) r (Ok tt).
Proof.
  intros sch m num wt h tag tag' rest r N W T V E B B' Nn D. unfold field_number, wire_types, is_tag in *.
  assert (0 <= wt < 8) by (simpl in W; lia).
  assert (X : (8 * num + wt) mod 2 ^ 32 = 8 * num + wt) by (rewrite Z.mod_small; lia).
  apply (alike_tags sch m tag tag' rest (8 * num + wt) h r); auto.
  - now rewrite E, X.
  - rewrite E. unfold valid_tag. replace ((8 * num + wt) / 8) with num by lia.
    replace (h mod 8) with wt by lia. simpl in W. lia.
  - intros _. lia.
Qed.

(** 2^32 + 8 counts as the tag 8 of an int32 field 1. *)
Definition tag_sch : schema := [mkMsg [mkField 1 (FSing (ES TInt32))] [0%nat]].
Example C06_wide_tag_case : is_tag 1 0 [8] /\ wire_varint (2 ^ 32 + 8) [136; 128; 128; 128; 16] /\
  no_negative_length tag_sch 0 ([8] ++ [7]) /\ deserializes tag_sch 0 ([8] ++ [7]) [VScalar (SNum 7)] (Ok tt).
Proof.
  split; [split; [constructor; lia | cbn; lia]|]. split.
  { change [136; 128; 128; 128; 16] with (serializeVarintCommon (2 ^ 32 + 8)). apply serializeVarint_wire. unfold in_u. lia. }
  split.
  - intro fuel. do 3 (destruct fuel as [|fuel]; [discriminate|]). discriminate.
  - split; [discriminate|]. exists 9%nat. reflexivity.
Qed.

Example C06_case : field_number (2 ^ 29 - 1) /\ In 5 wire_types /\
  encodeHeader (2 ^ 29 - 1) 5 = [253; 255; 255; 255; 15] /\
  ~ (field_number (3 / 8) /\ In (3 mod 8) wire_types) /\ wire_varint 3 [3].
Proof.
  unfold field_number, wire_types. cbn [In].
  split; [lia|]. split; [lia|]. split; [reflexivity|]. split; [lia|].
  split; [constructor; lia | cbn; lia].
Qed.

(** ** C07 Strings and bytes *)

Theorem C07_blob_round_trip : forall t null content, In t [TString; TBytes] ->
  scalar_ok t (SStr null content) ->
  reads (deserializeBasic false t) (serializeLengthDelimited content) (SStr false content).
Proof.
  intros t null content Ht O pre rest B.
  assert (Bx : Zlen (serializeLengthDelimited content) <= INT_MAX).
  { zlen_in B. pose proof (Zlen_nonneg rest). lia. }
  assert (Bc : Zlen content <= INT_MAX).
  { unfold serializeLengthDelimited, prependLengthDelimitedSize in Bx. zlen_in Bx.
    pose proof (Zlen_nonneg (serializeVarintCommon (wrapU 32 (Zlen content)))). lia. }
  rewrite at_cur, at_cur2. destruct Ht as [<-|[<-|[]]]; cbn [deserializeBasic];
    unfold serializeLengthDelimited;
    rewrite (delimited_read false content _ _ _ (prepend_delimited content Bc) B); reflexivity.
Qed.

(** A field: nothing is sent for a null string, every other one (the empty one
    included) is sent as tag, length and the unchanged content. *)
Theorem C07_blob_field : forall t null content num, In t [TString; TBytes] ->
  scalar_ok t (SStr null content) -> field_number num -> Zlen content <= INT_MAX ->
  (null = true -> serializeScalar t (SStr null content) num = []) /\
  (null = false -> exists len, serializeScalar t (SStr null content) num
                     = encodeHeader num 2 ++ len ++ content
                   /\ shortest_varint (Zlen content) len).
Proof.
  intros t null content num Ht O N Bc.
  assert (E : serializeScalar t (SStr null content) num
    = if null then [] else encodeHeader num 2 ++ prependLengthDelimitedSize content).
  { rewrite serializeScalar_cases by assumption. rewrite wv_wtype.
    assert (Ne : prependLengthDelimitedSize content <> []).
    { unfold prependLengthDelimitedSize. intro C. apply app_eq_nil in C. destruct C as [C _].
      pose proof (serializeVarint_varint (wrapU 32 (Zlen content))) as V. rewrite C in V.
      assert (U : in_u 64 (wrapU 32 (Zlen content))).
      { pose proof (wrapU_range 32 (Zlen content) ltac:(lia)). unfold in_u. lia. }
      apply (is_varint_nonnil _ _ (V U)). reflexivity. }
    destruct Ht as [<-|[<-|[]]]; cbn [omitted]; destruct null; auto; unfold list_element;
      cbn [serializeBasic fst blob_of]; unfold serializeLengthDelimited;
      change (wire_of TString) with 2; change (wire_of TBytes) with 2;
      destruct (prependLengthDelimitedSize content); congruence. }
  split; intros ->; rewrite E; [reflexivity|].
  exists (serializeVarintCommon (Zlen content)).
  assert (U : in_u 32 (Zlen content)).
  { pose proof (Zlen_nonneg content). unfold INT_MAX in Bc. unfold in_u. lia. }
  split.
  - unfold prependLengthDelimitedSize. now rewrite wrapU_small.
  - apply serializeVarint_shortest. now apply (in_u_mono 32); [lia|].
Qed.

Example C07_case : scalar_ok TBytes (SStr false [0; 8; 0; 255]) /\
  serializeLengthDelimited [0; 8; 0; 255] = [4; 0; 8; 0; 255] /\
  serializeScalar TString (SStr false []) 1 = [10; 0].
Proof.
  split; [|split; reflexivity]. split; [|discriminate].
  repeat constructor; vm_compute; congruence.
Qed.

Print Assumptions C01_varint_round_trip.
Print Assumptions C01_unsigned_field_round_trip.
Print Assumptions C02_varint_canonical.
Print Assumptions C02_unsigned_payload.
Print Assumptions C03_zigzag_payload.
Print Assumptions C03_zigzag_bijection.
Print Assumptions C03_zigzag_round_trip.
Print Assumptions C03_zigzag_field.
Print Assumptions C04_int_round_trip.
Print Assumptions C04_accepts_prescribed_encoding.
Print Assumptions C04_prescribed_bytes_partial.
Print Assumptions C04_negative_int32_refuted.
Print Assumptions C05_fixed_bytes.
Print Assumptions C05_fixed_round_trip.
Print Assumptions C06_tag_round_trip.
Print Assumptions C06_tag_bytes.
Print Assumptions C06_tags_prefix_free.
Print Assumptions C06_invalid_tag_rejected.
Print Assumptions C06_wide_tag_refuted.
Print Assumptions C07_blob_round_trip.
Print Assumptions C07_blob_field.

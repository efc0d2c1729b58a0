(** Properties C20, C21, C50, C51, C52: the reader on arbitrary and unusual input. *)

From Coq Require Import ZArith List Bool Lia ZifyBool.
From Verif Require Import Base WireModel Values MessageModel WireSpec WireProofs MessageSpec
  MessageProofs SerializeProofs ReaderProofs MessageFacts WireFacts RunFacts ReaderSpec ReaderCalm ReaderHostile
  PropFacts TagFacts Examples PropertiesMessage.
Import ListNotations.
Open Scope Z_scope.
Ltac Zify.zify_post_hook ::= Z.div_mod_to_equations.

(** ** C20 Termination *)

(** Deserialization into a message does not end on any input of this shape: well-formed records [p1] and
    [p2], then an unknown field whose length, taken as an int, leads back to the end of [p1], then
    anything. *)
Theorem C20_negative_length_refuted : forall sch m num tag len rs1 p1 rs2 p2 rest,
  schema_ok sch ->
  enc_recs rs1 p1 -> fits sch m rs1 -> enc_recs rs2 p2 -> fits sch m rs2 ->
  field_number num -> no_field sch m num -> is_tag num 2 tag ->
  wire_varint (2 ^ 32 - Zlen (p2 ++ tag ++ len)) len ->
  Zlen (p1 ++ p2 ++ tag ++ len ++ rest) <= INT_MAX ->
  ~ exists r o, deserializes sch m (p1 ++ p2 ++ tag ++ len ++ rest) r o.
Proof.
  intros sch m num tag len rs1 p1 rs2 p2 rest S E1 F1 E2 F2 N U T V B (r & o & No & fuel & D). apply no_field_none in U.
  pose proof (jump_diverges sch S m num _ tag len rs1 p1 rs2 p2 rest E1 F1 E2 F2 N U T eq_refl V B fuel) as H.
  rewrite D in H. auto.
Qed.

(** Six bytes on which deserialization into an empty message does not end: an unknown field with length -6. *)
Definition empty_sch : schema := [mkMsg [] []].
Definition loop_bytes : list Z := [10; 250; 255; 255; 255; 15].

Lemma empty_sch_ok : schema_ok empty_sch.
Proof. constructor; [|constructor]. repeat split; try constructor; cbn; try tauto; lia. Qed.

Example C20_refuted_case : schema_ok empty_sch /\ no_field empty_sch 0 1 /\
  is_tag 1 2 [10] /\ wire_varint (2 ^ 32 - Zlen loop_bytes) [250; 255; 255; 255; 15] /\
  ~ exists r o, deserializes empty_sch 0 loop_bytes r o.
Proof.
  assert (T : is_tag 1 2 [10]) by (split; [constructor; lia | cbn; lia]).
  assert (V : wire_varint (2 ^ 32 - Zlen loop_bytes) [250; 255; 255; 255; 15]).
  { split; [|cbn; lia]. change (2 ^ 32 - Zlen loop_bytes)
      with (122 + 128 * (127 + 128 * (127 + 128 * (127 + 128 * 15)))).
    change [250; 255; 255; 255; 15] with [122 + 128; 127 + 128; 127 + 128; 127 + 128; 15].
    repeat constructor; lia. }
  split; [exact empty_sch_ok|]. split; [constructor|]. split; [exact T|]. split; [exact V|].
  apply (C20_negative_length_refuted empty_sch 0 1 [10] [250; 255; 255; 255; 15] [] [] [] [] []);
    [exact empty_sch_ok | apply enc_recs_nil | constructor | apply enc_recs_nil | constructor
    | unfold field_number; lia | constructor | exact T | exact V | vm_compute; discriminate].
Qed.

(** Without a place that can be taken for a negative length it ends, whatever the bytes are.
    Missing: inputs with such a place, for instance in the middle of a text; for some of them
    the claim is false. *)
Theorem C20_termination_partial : forall sch m data,
  Zlen data <= INT_MAX -> bytes data -> ~ has_negative_length data ->
  exists r o, deserializes sch m data r o.
Proof.
  intros sch m data B Y N.
  destruct (run_total sch m data B (safe_no_negative_length sch m data B Y N)) as (r & o & D & _). eauto.
Qed.

(** A negative length that is skipped or lies in the middle of a value does no harm: it is enough that the
    run meets none ([no_negative_length]). Missing: runs that meet one. *)
Theorem C20_run_partial : forall sch m data,
  Zlen data <= INT_MAX -> no_negative_length sch m data ->
  exists r o, deserializes sch m data r o.
Proof. intros sch m data B N. destruct (run_total sch m data B N) as (r & o & D & _). eauto. Qed.

(** ** C21 No undefined behaviour *)

(** A text, byte string or message announced with a length that exceeds the rest of the input by more than
    one byte makes the reader read behind the buffer, wherever it stands. *)
Theorem C21_over_read_refuted : forall sch m rs bs i num tag v len content,
  schema_ok sch -> enc_recs rs bs -> fits sch m rs ->
  field_number num -> field_is sch m num i -> is_tag num 2 tag ->
  holds_bytes (f_ty (field_at sch m i)) ->
  wire_varint v len -> Zlen content + 1 < v < 2 ^ 31 ->
  Zlen (bs ++ tag ++ len ++ content) <= INT_MAX ->
  exists r, deserializes sch m (bs ++ tag ++ len ++ content) r (UB OverRead).
Proof.
  intros sch m rs bs i num tag v len content S E F N Fi. apply (field_is_some _ _ _ _ S) in Fi. now apply (over_out sch S m rs bs i).
Qed.

(** Ten bytes with the top bit set in place of a tag make it shift by more than the width of the type. *)
Theorem C21_shift_refuted : forall sch m rs bs x rest,
  schema_ok sch -> enc_recs rs bs -> fits sch m rs ->
  length x = 10%nat -> Forall (fun b => 128 <= b < 256) x ->
  Zlen (bs ++ x ++ rest) <= INT_MAX ->
  exists r, deserializes sch m (bs ++ x ++ rest) r (UB ShiftOverflow).
Proof. intros sch m rs bs x rest S. now apply shift_out. Qed.

(** An unknown field with a length that leads back behind the start of the buffer makes a pointer leave it, or
    an int overflow. *)
Theorem C21_jump_refuted : forall sch m rs bs num tag v len rest,
  schema_ok sch -> enc_recs rs bs -> fits sch m rs ->
  field_number num -> no_field sch m num -> is_tag num 2 tag ->
  wire_varint v len -> 2 ^ 31 <= v < 2 ^ 32 - Zlen (bs ++ tag ++ len) ->
  Zlen (bs ++ tag ++ len ++ rest) <= INT_MAX ->
  exists r u, (u = PtrOutOfArray \/ u = SignedOverflow) /\
    deserializes sch m (bs ++ tag ++ len ++ rest) r (UB u).
Proof.
  intros sch m rs bs num tag v len rest S E F N U T V Hv B.
  apply no_field_none in U. destruct (jump_out sch S m num v tag len rs bs rest E F N U T V Hv B) as (r & D).
  exists r. eexists. split; [|exact D]. destruct (INT_MAX <? _); auto.
Qed.

(** On every input: reading succeeds, throws one of two exceptions, or is undefined in one of these four ways. *)
Theorem C21_kinds : forall sch m data r o, deserializes sch m data r o ->
  o = Ok tt \/ o = Throw OutOfRange \/ o = Throw InvalidArgument
  \/ exists u, o = UB u /\ In u [OverRead; ShiftOverflow; SignedOverflow; PtrOutOfArray].
Proof. exact run_usual. Qed.

(** Without a place that can be taken for a negative length or for a varint of more than ten bytes only
    over-reads are left. Missing: inputs cut short. *)
Theorem C21_only_over_read_partial : forall sch m data,
  Zlen data <= INT_MAX -> bytes data -> ~ has_negative_length data -> ~ has_long_varint data ->
  exists r o, deserializes sch m data r o /\
    (o = Ok tt \/ (exists e, o = Throw e) \/ o = UB OverRead).
Proof. exact run_safe. Qed.

(** In particular without four bytes in a row that have the top bit set. Missing: bytes with such a run, which may
    make the reader shift too far or run forever (see below), and over-reads. *)
Theorem C21_no_run_partial : forall sch m data,
  Zlen data <= INT_MAX -> bytes data -> ~ has_run 4 data ->
  exists r o, deserializes sch m data r o /\
    (o = Ok tt \/ (exists e, o = Throw e) \/ o = UB OverRead).
Proof. intros sch m data B Y N. destruct (no_run_safe data N). now apply run_safe. Qed.

(** If the run meets no length of 2^31 or more, over-reads and shifts are left. Missing: lengths of 2^31 and more, and
    that nothing undefined happens at all. *)
Theorem C21_only_two_kinds_partial : forall sch m data,
  Zlen data <= INT_MAX -> no_negative_length sch m data ->
  exists r o, deserializes sch m data r o /\
    (o = Ok tt \/ (exists e, o = Throw e) \/ o = UB OverRead \/ o = UB ShiftOverflow).
Proof. intros. now apply run_total. Qed.

(** Well-formed input is read without any. *)
Theorem C21_well_formed_safe : forall sch m rs bs,
  schema_ok sch -> enc_recs rs bs -> fits sch m rs -> Zlen bs <= INT_MAX ->
  exists r, deserializes sch m bs r (Ok tt).
Proof. intros sch m rs bs S E F B. destruct (run_read sch S m rs bs E F B) as (r & D & _). eauto. Qed.

Example C20_C21_case : no_negative_length back_sch 0 [16; 5; 10; 2; 1; 1; 10; 9; 1] /\
  deserializes back_sch 0 [16; 5; 10; 2; 1; 1; 7] [VScalar (SStr false [1; 1]); VScalar (SNum 5)]
    (Throw InvalidArgument).
Proof.
  split; [|split; [discriminate|]; exists 9%nat; vm_compute; reflexivity].
  intro fuel. do 6 (destruct fuel as [|fuel]; [vm_compute; discriminate|]).
  vm_compute. discriminate.
Qed.

Lemma back_sch_ok : schema_ok back_sch.
Proof.
  constructor; [|constructor]. split; [|split; [|split]].
  - repeat constructor; cbn; lia.
  - repeat constructor; cbn; lia.
  - repeat constructor; cbn; lia.
  - intro i. cbn. lia.
Qed.

Example C21_refuted_case :
  (exists r, deserializes back_sch 0 [10; 3; 1] r (UB OverRead)) /\
  (exists r, deserializes back_sch 0 [16; 128; 128; 128; 128; 128; 128; 128; 128; 128; 128; 0] r
     (UB ShiftOverflow)) /\
  (exists r, deserializes back_sch 0 [26; 128; 128; 128; 128; 15] r (UB PtrOutOfArray)) /\
  holds_bytes (f_ty (field_at back_sch 0 0)) /\ field_is back_sch 0 1 0%nat /\
  no_field back_sch 0 3.
Proof.
  repeat split; try reflexivity; try (eexists; split; [discriminate|]; exists 9%nat; vm_compute; reflexivity).
  - cbn. auto.
  - eexists. split; reflexivity.
  - repeat constructor; discriminate.
Qed.

Example C21_no_run_case : ~ has_run 4 [16; 5; 10; 2; 200; 201; 10; 9; 1].
Proof.
  intros (x & (a & b & E) & L & F).
  destruct x as [|x1 [|x2 [|x3 [|x4 [|]]]]]; try discriminate.
  inversion F as [|? ? F1 F']; inversion F' as [|? ? F2 F'']; inversion F'' as [|? ? F3 _]; subst.
  assert (X : nth (length a) (a ++ [x1; x2; x3; x4] ++ b) 0 >= 128
           /\ nth (S (length a)) (a ++ [x1; x2; x3; x4] ++ b) 0 >= 128
           /\ nth (S (S (length a))) (a ++ [x1; x2; x3; x4] ++ b) 0 >= 128).
  { split; [|split].
    - rewrite app_nth2, Nat.sub_diag by lia. cbn. lia.
    - rewrite app_nth2 by lia. replace (S (length a) - length a)%nat with 1%nat by lia. cbn. lia.
    - rewrite app_nth2 by lia. replace (S (S (length a)) - length a)%nat with 2%nat by lia. cbn. lia. }
  rewrite <- E in X. clear - X. revert X. generalize (length a) as n. intros n X.
  do 12 (destruct n as [|n]; [cbn in X; lia|]). cbn in X. lia.
Qed.

(** ** C50 Wire types of known fields *)

(** The wire type in the tag of a known field is not looked at: data that begin with a record of such a field are read
    in the same way whatever wire type the tag states.  (And tags of the same field with any upper bits, see C06.) *)
Theorem C50_wire_type_refuted : forall sch m i wt wt' tag tag' rest r,
  schema_ok sch -> (i < length (md_fields (msg_at sch m)))%nat ->
  let num := f_num (field_at sch m i) in
  In wt wire_types -> In wt' wire_types -> is_tag num wt tag -> is_tag num wt' tag' ->
  Zlen (tag ++ rest) <= INT_MAX -> Zlen (tag' ++ rest) <= INT_MAX -> no_negative_length sch m (tag ++ rest) ->
  deserializes sch m (tag ++ rest) r (Ok tt) -> deserializes sch m (tag' ++ rest) r (Ok tt).
Proof.
  intros sch m i wt wt' tag tag' rest r S Hi num W W' T T' B B' Nn D.
  pose proof (field_at_ok sch m i S Hi) as [N _]. fold num in N. unfold field_number, wire_types, is_tag in *.
  assert (0 <= wt < 8 /\ 0 <= wt' < 8) as [] by (simpl in W, W'; lia).
  assert (X : forall w, 0 <= w < 8 -> (8 * num + w) mod 2 ^ 32 / 8 = num) by (intros; rewrite Z.mod_small; lia).
  apply (alike_tags sch m tag tag' rest (8 * num + wt) (8 * num + wt') r); auto.
  - now rewrite !X.
  - rewrite X by assumption. unfold valid_tag. replace ((8 * num + wt') mod 8) with wt' by lia. simpl in W'. lia.
  - rewrite X by assumption. unfold num. rewrite find_field_at by assumption. discriminate.
Qed.

(** A number of a repeated field that a peer sends unpacked is not read: the list stays empty. *)
Theorem C50_unpacked_refuted : forall sch m i t v bs r o,
  schema_ok sch -> (i < length (md_fields (msg_at sch m)))%nat ->
  f_ty (field_at sch m i) = FRep (ES t) -> fits_scalar t (WVarint v) ->
  enc_recs [(f_num (field_at sch m i), WVarint v)] bs -> deserializes sch m bs r o ->
  nth i r VNull = VList [].
Proof. intros sch m i t v bs r o. apply unpacked_single. Qed.

(** The records (1, varint 2), (1, varint 3) of a repeated int32 field are even read as one list [8; 3]; protobuf
    prescribes [2; 3]. *)
Example C50_unpacked_case : exists rs bs r,
  schema_ok num_sch /\ enc_recs rs bs /\ deserializes num_sch 0 bs r (Ok tt) /\
  Forall (fun x => fst x = 1 /\ fits_scalar TInt32 (snd x)) rs /\
  nth 0 r VNull <> VList (map (fun x => VScalar (mean_scalar TInt32 (snd x))) rs) /\
  enc_recs [(1, WVarint 0)] [8; 0] /\ deserializes num_sch 0 [8; 0] [VList []] (Ok tt).
Proof.
  exists [(1, WVarint 2); (1, WVarint 3)], [8; 2; 8; 3], [VList [VScalar (SNum 8); VScalar (SNum 3)]].
  split; [exact num_sch_ok|]. split; [|split; [|split; [|split; [|split]]]].
  - apply (enc_small 1 2); [unfold field_number; lia..|].
    apply (enc_small 1 3); [unfold field_number; lia..|constructor].
  - split; [discriminate|]. exists 9%nat. vm_compute. reflexivity.
  - repeat constructor.
  - discriminate.
  - apply (enc_small 1 0); [unfold field_number; lia..|constructor].
  - split; [discriminate|]. exists 9%nat. vm_compute. reflexivity.
Qed.

(** A length-delimited record for a field with varints is neither skipped nor rejected: its length is taken as
    the value and its content, here any fitting records [rs], as further records of the message. *)
Theorem C50_mismatch_refuted : forall sch m i t content rs bs,
  schema_ok sch -> (i < length (md_fields (msg_at sch m)))%nat ->
  let num := f_num (field_at sch m i) in
  f_ty (field_at sch m i) = FSing (ES t) -> fits_scalar t (WVarint (Zlen content)) ->
  enc_recs rs content -> fits sch m rs -> enc_recs [(num, WBytes content)] bs -> Zlen bs <= INT_MAX - 10 ->
  exists r, deserializes sch m bs r (Ok tt) /\ same sch m r (mean sch m ((num, WVarint (Zlen content)) :: rs)).
Proof.
  intros sch m i t content rs bs S Hi num Ty Ft E F Eb B. inversion Eb as [|? ? ? tag pl rest N T V Er]; subst. inversion Er; subst.
  inversion V as [| | |? ? Hb De| |]; subst. destruct De as (len & Vl & ->). rewrite app_nil_r in *.
  assert (W : wire_varint (8 * num + 0) (serializeVarintCommon (8 * num + 0))).
  { apply serializeVarint_wire. unfold field_number in N. fold num in N. unfold in_u. lia. }
  set (tag0 := serializeVarintCommon (8 * num + 0)) in *.
  assert (B0 : Zlen (tag0 ++ len ++ content) <= INT_MAX).
  { destruct W as [_ W]. rewrite !Zlen_app in *. pose proof (Zlen_nonneg tag). unfold Zlen in *. lia. }
  assert (E0 : enc_recs ((num, WVarint (Zlen content)) :: rs) (tag0 ++ len ++ content)).
  { constructor; auto. constructor; [|exact Vl]. pose proof (Zlen_nonneg content).
    rewrite !Zlen_app in B0. pose proof (Zlen_nonneg tag0). pose proof (Zlen_nonneg len). unfold in_u, INT_MAX in *. lia. }
  assert (F0 : fits sch m ((num, WVarint (Zlen content)) :: rs)).
  { apply fits_spec. constructor; [|now apply fits_spec]. unfold fits_record. cbn [fst snd]. unfold num.
    rewrite find_field_at by assumption. rewrite Ty. exact Ft. }
  destruct (deserialize_read false sch S (Datatypes.S (length (tag0 ++ len ++ content))) m _ _ E0 F0 ltac:(lia) B0)
    as (r & D & L & Sm).
  exists r. split; [|exact Sm].
  apply (C50_wire_type_refuted sch m i 0 2 tag0 tag (len ++ content) r S Hi); [| |exact W|exact T|exact B0| | |].
  - unfold wire_types. simpl. tauto.
  - unfold wire_types. simpl. tauto.
  - lia.
  - intro fuel. destruct (deserialize_read true sch S (Nat.max fuel (Datatypes.S (length (tag0 ++ len ++ content)))) m _ _ E0 F0
      ltac:(lia) B0) as (r' & D' & _).
    intro C. destruct (deserializeMessage fuel true sch m (tag0 ++ len ++ content)) as [r1 o1] eqn:E1. cbn [snd] in C. subst o1.
    apply (deserialize_ext _ _ _ (Nat.max fuel (Datatypes.S (length (tag0 ++ len ++ content))))) in E1; [|lia|discriminate].
    rewrite D' in E1. discriminate.
  - split; [discriminate|]. eauto.
Qed.

Example C50_mismatch_case : schema_ok back_sch /\ enc_recs [(2, WVarint 7)] [16; 7] /\ fits back_sch 0 [(2, WVarint 7)] /\
  enc_recs [(2, WBytes [16; 7])] [18; 2; 16; 7] /\
  deserializes back_sch 0 [18; 2; 16; 7] [VScalar (SStr true []); VScalar (SNum 7)] (Ok tt).
Proof.
  split; [|split; [|split; [|split]]].
  - constructor; [|constructor]. split; [|split; [|split]].
    + repeat constructor; cbn; lia.
    + repeat constructor; cbn; lia.
    + repeat constructor; cbn; lia.
    + intro i. cbn. lia.
  - apply (enc_small 2 7); [unfold field_number; lia..|constructor].
  - cbn. auto.
  - change [18; 2; 16; 7] with ([18] ++ [2; 16; 7] ++ []). constructor; try constructor.
    + cbn. lia.
    + cbn. lia.
    + constructor. cbn. lia.
    + cbn. lia.
    + repeat constructor; lia.
    + exists [2]. split; [|reflexivity]. split; [constructor; cbn; lia | cbn; lia].
  - split; [discriminate|]. exists 9%nat. vm_compute. reflexivity.
Qed.

(** Records whose wire type fits are interpreted as prescribed, packed lists with any varint forms
    included. Missing: the records that do not fit. *)
Theorem C50_fitting_records_partial : forall sch m rs bs r o,
  schema_ok sch -> enc_recs rs bs -> fits sch m rs -> Zlen bs <= INT_MAX ->
  deserializes sch m bs r o ->
  o = Ok tt /\ same sch m r (mean sch m rs).
Proof.
  intros sch m rs bs r o S E F B D. destruct (run_read_result sch S m rs bs r o E F B D) as (-> & _ & Sm).
  auto.
Qed.

Lemma varint_step c v w bs : 128 <= c < 256 -> w = c - 128 + 128 * v -> is_varint v bs ->
  is_varint w (c :: bs).
Proof.
  intros C -> V. replace c with (c - 128 + 128) at 2 by lia. constructor; [lia|exact V].
Qed.

(** A packed list whose only element is the five byte form of 1. *)
Example C50_case : enc_recs [(1, WPacked [WVarint 1])] [10; 5; 129; 128; 128; 128; 0] /\
  fits num_sch 0 [(1, WPacked [WVarint 1])] /\
  deserializes num_sch 0 [10; 5; 129; 128; 128; 128; 0] [VList [VScalar (SNum 1)]] (Ok tt).
Proof.
  split; [|split].
  - apply (enc_packed_small 1 [WVarint 1] [129; 128; 128; 128; 0]) with (rs := []) (bs := []);
      try (unfold field_number; lia); try reflexivity; try constructor.
    change [129; 128; 128; 128; 0] with ([129; 128; 128; 128; 0] ++ []). constructor; [|constructor].
    constructor; [unfold in_u; lia|]. split; [|cbn; lia].
    do 4 (apply varint_step with (v := 0); [lia|reflexivity|]). constructor. lia.
  - cbn. repeat split. repeat constructor.
  - split; [discriminate|]. exists 9%nat. vm_compute. reflexivity.
Qed.

(** ** C51 Map entries *)

(** An entry made of any number of keys and values, in any order, means the last key and the last value, and
    the default ones if there is none.  Missing: further fields, and entries without value for maps to
    messages. *)
Theorem C51_entry_parts_partial : forall sch m es bs r o i k e,
  schema_ok sch -> (i < length (md_fields (msg_at sch m)))%nat -> f_ty (field_at sch m i) = FMap k e ->
  let rs := [(f_num (field_at sch m i), WMsg es)] in
  enc_recs rs bs -> fits sch m rs -> Zlen bs <= INT_MAX -> deserializes sch m bs r o ->
  o = Ok tt /\
  same_field sch (FMap k e) (nth i r VNull)
    (VMap [(last (map (mean_scalar k) (occurrences 1 es)) (default_scalar k),
            last (map (mean_elem sch e) (occurrences 2 es)) (default_elem sch e))]).
Proof.
  intros sch m es bs r o i k e S Hi Ty rs E F B D.
  destruct (run_read_result sch S m rs bs r o E F B D) as (-> & _ & _). split; [reflexivity|].
  pose proof (run_field sch S m rs bs r _ i E F B D Hi) as Sf. rewrite mean_occ in Sf by assumption.
  pose proof (fits_occurrences sch m i rs S Hi F) as Fo. rewrite Ty in *. cbn [default_field] in Sf.
  rewrite fold_map in Sf by exact Fo. unfold rs, occurrences in Sf. cbn [filter fst map] in Sf.
  rewrite Z.eqb_refl in Sf. exact Sf.
Qed.

Definition map_sch : schema :=
  [ mkMsg [mkField 1 (FMap TInt32 (ES TInt32)); mkField 2 (FMap TInt32 (EM 1))] [0; 1]%nat;
    mkMsg [mkField 1 (FSing (ES TInt32))] [0%nat] ].
Lemma map_sch_ok : schema_ok map_sch.
Proof.
  constructor; [|constructor; [|constructor]]; (split; [|split; [|split]]).
  - repeat constructor; cbn; lia.
  - repeat constructor; cbn; lia.
  - repeat constructor; cbn; lia.
  - intro i. cbn. lia.
  - repeat constructor; cbn; lia.
  - repeat constructor; cbn; lia.
  - repeat constructor; cbn; lia.
  - intro i. cbn. lia.
Qed.

(** Unknown fields of an entry are not skipped: every record but those with number 1 that can be read as value is taken
    as the value, the last one wins.  So whenever an unknown field comes last and has another value than the entry
    should have, the map gets the wrong value. *)
Theorem C51_unknown_part_refuted : forall sch m es num w bs r o i k e,
  schema_ok sch -> (i < length (md_fields (msg_at sch m)))%nat -> f_ty (field_at sch m i) = FMap k e ->
  Forall (fun x => fst x = 1 /\ fits_scalar k (snd x) \/ fst x = 2 /\ fits_elem sch e (snd x)) es ->
  2 < num -> fits_elem sch e w ->
  enc_recs [(f_num (field_at sch m i), WMsg (es ++ [(num, w)]))] bs -> Zlen bs <= INT_MAX -> deserializes sch m bs r o ->
  o = Ok tt /\
  same_field sch (FMap k e) (nth i r VNull)
    (VMap [(last (map (mean_scalar k) (occurrences 1 es)) (default_scalar k), mean_elem sch e w)]).
Proof.
  intros sch m es num w bs r o i k e S Hi Ty F N Fw E B D.
  destruct (entry_read sch m i k e (es ++ [(num, w)]) bs r o S Hi Ty) as (-> & val & Hv & _ & Hn); auto.
  { apply Forall_app. split.
    - eapply Forall_impl; [|exact F]. intros x [[X1 X2]|[X1 X2]]; [left; auto|]. right. split; [lia | exact X2].
    - constructor; [|constructor]. right. cbn. split; [lia | exact Fw]. }
  split; [reflexivity|]. unfold same_field. rewrite Hv.
  assert (Eo : others (es ++ [(num, w)]) = others es ++ [w]).
  { unfold others. rewrite filter_app, map_app. cbn [filter fst]. replace (num =? 1) with false by lia. reflexivity. }
  assert (E1 : occurrences 1 (es ++ [(num, w)]) = occurrences 1 es).
  { unfold occurrences. rewrite filter_app, map_app. cbn [filter fst]. replace (num =? 1) with false by lia. apply app_nil_r. }
  rewrite Eo, last_last in Hn. rewrite E1. cbn [canon_field map_of map fst snd]. rewrite Hn; [reflexivity|].
  intro C. apply app_eq_nil in C. destruct C as [_ C]. discriminate.
Qed.

(** The entry {1: 5, 3: 9}: the unknown field 3 is taken as the value. *)
Example C51_unknown_part_case : schema_ok map_sch /\ f_ty (field_at map_sch 0 0) = FMap TInt32 (ES TInt32) /\
  Forall (fun x => fst x = 1 /\ fits_scalar TInt32 (snd x) \/ fst x = 2 /\ fits_elem map_sch (ES TInt32) (snd x)) [(1, WVarint 5)] /\
  enc_recs [(1, WMsg ([(1, WVarint 5)] ++ [(3, WVarint 9)]))] [10; 4; 8; 5; 24; 9] /\
  deserializes map_sch 0 [10; 4; 8; 5; 24; 9] [VMap [(SNum 5, VScalar (SNum 9))]; VMap []] (Ok tt).
Proof.
  split; [exact map_sch_ok|]. split; [reflexivity|]. split; [constructor; [left; cbn; auto|constructor]|]. split.
  { apply (enc_msg_small 1 _ [8; 5; 24; 9]) with (rs' := []) (bs := []);
      try (unfold field_number; lia); try reflexivity; try constructor.
    apply (enc_small 1 5); [unfold field_number; lia..|].
    apply (enc_small 3 9); [unfold field_number; lia..|constructor]. }
  split; [discriminate|]. exists 9%nat. vm_compute. reflexivity.
Qed.

(** The value of an entry without value in a map to messages is a null pointer, not a default message. *)
Theorem C51_missing_message_refuted : forall sch m es bs r o i k m',
  schema_ok sch -> (i < length (md_fields (msg_at sch m)))%nat -> f_ty (field_at sch m i) = FMap k (EM m') ->
  Forall (fun x => fst x = 1 /\ fits_scalar k (snd x)) es ->
  enc_recs [(f_num (field_at sch m i), WMsg es)] bs -> Zlen bs <= INT_MAX -> deserializes sch m bs r o ->
  o = Ok tt /\
  nth i r VNull = VMap [(last (map (mean_scalar k) (occurrences 1 es)) (default_scalar k), VNull)].
Proof.
  intros sch m es bs r o i k m' S Hi Ty F E B D.
  destruct (entry_read sch m i k (EM m') es bs r o S Hi Ty) as (-> & val & Hv & Hn & _); auto.
  { eapply Forall_impl; [|exact F]. intros x X. left. exact X. }
  split; [reflexivity|]. rewrite Hv, Hn; [reflexivity|]. unfold others. clear - F.
  induction F as [|x es [X _] F IH]; [reflexivity|]. cbn [filter]. rewrite X. cbn. exact IH.
Qed.

(** The entry {1: 5}. *)
Example C51_missing_message_case : schema_ok map_sch /\ f_ty (field_at map_sch 0 1) = FMap TInt32 (EM 1) /\
  enc_recs [(2, WMsg [(1, WVarint 5)])] [18; 2; 8; 5] /\
  deserializes map_sch 0 [18; 2; 8; 5] [VMap []; VMap [(SNum 5, VNull)]] (Ok tt).
Proof.
  split; [exact map_sch_ok|]. split; [reflexivity|]. split.
  { apply (enc_msg_small 2 _ [8; 5]) with (rs' := []) (bs := []);
      try (unfold field_number; lia); try reflexivity; try constructor.
    apply (enc_small 1 5); [unfold field_number; lia..|constructor]. }
  split; [discriminate|]. exists 9%nat. vm_compute. reflexivity.
Qed.

(** An entry without key, with two values. *)
Example C51_case : enc_recs [(1, WMsg [(2, WVarint 5); (2, WVarint 6)])] [10; 4; 16; 5; 16; 6] /\
  fits map_sch 0 [(1, WMsg [(2, WVarint 5); (2, WVarint 6)])] /\
  deserializes map_sch 0 [10; 4; 16; 5; 16; 6] [VMap [(SNum 0, VScalar (SNum 6))]; VMap []] (Ok tt).
Proof.
  split; [|split].
  - apply (enc_msg_small 1 _ [16; 5; 16; 6]) with (rs' := []) (bs := []);
      try (unfold field_number; lia); try reflexivity; try constructor.
    apply (enc_small 2 5); [unfold field_number; lia..|].
    apply (enc_small 2 6); [unfold field_number; lia..|constructor].
  - cbn. repeat split; right; auto.
  - split; [discriminate|]. exists 9%nat. vm_compute. reflexivity.
Qed.

(** ** C52 Bool fields *)

Definition bool_sch : schema := [mkMsg [mkField 1 (FSing (ES TBool))] [0%nat]].
Lemma bool_sch_ok : schema_ok bool_sch.
Proof.
  constructor; [|constructor]. split; [|split; [|split]].
  - repeat constructor; cbn; lia.
  - repeat constructor; cbn; lia.
  - repeat constructor; cbn; lia.
  - intro i. cbn. lia.
Qed.

(** Any varint sent for a bool field is read as "is not zero", unless it is a multiple of 2^32 other than zero. Missing: these, see below. *)
Theorem C52_bool_truth_partial : forall sch m v bs r o i,
  schema_ok sch -> (i < length (md_fields (msg_at sch m)))%nat ->
  f_ty (field_at sch m i) = FSing (ES TBool) -> v = 0 \/ v mod 2 ^ 32 <> 0 ->
  enc_recs [(f_num (field_at sch m i), WVarint v)] bs -> Zlen bs <= INT_MAX ->
  deserializes sch m bs r o ->
  o = Ok tt /\ num_of (scalar_of (nth i r VNull)) = if v =? 0 then 0 else 1.
Proof.
  intros sch m v bs r o i S Hi Ty V E B D.
  assert (F : fits sch m [(f_num (field_at sch m i), WVarint v)]).
  { apply fits_spec. constructor; [|constructor]. unfold fits_record. cbn [fst snd].
    rewrite find_field_at by assumption. rewrite Ty. exact V. }
  destruct (run_read_result sch S m _ bs r o E F B D) as (-> & _ & _). split; [reflexivity|].
  pose proof (run_field sch S m _ bs r _ i E F B D Hi) as Sf. rewrite mean_occ in Sf by assumption.
  unfold occurrences in Sf. cbn [filter fst map] in Sf. rewrite Z.eqb_refl in Sf.
  cbn [map snd fold_left] in Sf. rewrite Ty in Sf.
  unfold same_field in Sf. cbn [canon_field mean_field] in Sf. cbn [mean_elem] in Sf.
  rewrite !canon_elem_scalar in Sf. cbn [collapse] in Sf. injection Sf as Sf. exact Sf.
Qed.

(** Of larger varints only the lower 32 bits count: every multiple of 2^32 is read as false, also if it is not zero. *)
Theorem C52_bool_truth_refuted : forall sch m v bs r o i,
  schema_ok sch -> (i < length (md_fields (msg_at sch m)))%nat -> f_ty (field_at sch m i) = FSing (ES TBool) ->
  enc_recs [(f_num (field_at sch m i), WVarint v)] bs -> deserializes sch m bs r o ->
  o = Ok tt /\ num_of (scalar_of (nth i r VNull)) = if v mod 2 ^ 32 =? 0 then 0 else 1.
Proof. intros sch m v bs r o i. apply bool_single. Qed.

(** 2^32 is read as false; protobuf prescribes true. *)
Example C52_refuted_case : enc_recs [(1, WVarint (2 ^ 32))] [8; 128; 128; 128; 128; 16] /\
  deserializes bool_sch 0 [8; 128; 128; 128; 128; 16] [VScalar (SNum 0)] (Ok tt).
Proof.
  split.
  - change [8; 128; 128; 128; 128; 16] with ([8] ++ [128; 128; 128; 128; 16] ++ []).
    constructor; [unfold field_number; cbn; lia| | |constructor].
    + split; [constructor; cbn; lia | cbn; lia].
    + constructor; [unfold in_u; lia|]. split; [|cbn; lia].
      apply varint_step with (v := 2 ^ 25); [lia|reflexivity|].
      apply varint_step with (v := 2 ^ 18); [lia|reflexivity|].
      apply varint_step with (v := 2 ^ 11); [lia|reflexivity|].
      apply varint_step with (v := 2 ^ 4); [lia|reflexivity|].
      apply varint_last. lia.
  - split; [discriminate|]. exists 9%nat. vm_compute. reflexivity.
Qed.

Example C52_case : enc_recs [(1, WVarint 100)] [8; 100] /\
  deserializes bool_sch 0 [8; 100] [VScalar (SNum 1)] (Ok tt).
Proof.
  split; [apply (enc_small 1 100); [unfold field_number; lia..|constructor]|].
  split; [discriminate|]. exists 9%nat. vm_compute. reflexivity.
Qed.

Print Assumptions C20_negative_length_refuted.
Print Assumptions C20_termination_partial.
Print Assumptions C20_run_partial.
Print Assumptions C21_over_read_refuted.
Print Assumptions C21_shift_refuted.
Print Assumptions C21_jump_refuted.
Print Assumptions C21_kinds.
Print Assumptions C21_only_over_read_partial.
Print Assumptions C21_no_run_partial.
Print Assumptions C21_only_two_kinds_partial.
Print Assumptions C21_well_formed_safe.
Print Assumptions C50_wire_type_refuted.
Print Assumptions C50_unpacked_refuted.
Print Assumptions C50_mismatch_refuted.
Print Assumptions C50_fitting_records_partial.
Print Assumptions C51_entry_parts_partial.
Print Assumptions C51_unknown_part_refuted.
Print Assumptions C51_missing_message_refuted.
Print Assumptions C52_bool_truth_partial.
Print Assumptions C52_bool_truth_refuted.

(** Properties C08 - C19 and C22, C23: fields and whole messages.

    [serializes sch m obj bs] and [deserializes sch m bs obj outcome] are complete runs of the model;
    [enc_recs], [fits], [mean], [same] are the specification in MessageSpec. *)

From Coq Require Import Relations ZArith List Bool Lia ZifyBool Permutation.
From Verif Require Import Base WireModel Values MessageModel WireSpec WireProofs MessageSpec
  MessageProofs SerializeProofs ReaderProofs MessageFacts WireFacts RunFacts PropFacts Examples
  PropertiesWire
  ReaderSpec ReaderCalm CycleSpec CycleProofs ObjectProofs TagFacts.
Import ListNotations.
Open Scope Z_scope.
Ltac Zify.zify_post_hook ::= Z.div_mod_to_equations.

(** ** C08 Packed repeated numeric fields *)

(** The record of a non-empty list of numbers; the elements come back unchanged, bit for bit. *)
Theorem C08_packed_record_round_trip : forall t l num fuel,
  is_blob t = false -> Forall (scalar_ok t) l -> l <> [] -> field_number num ->
  exists payload, serializeScalarList t l num = encodeHeader num 2 ++ payload /\
    ((length payload <= fuel)%nat -> reads (deserializeListNumeric fuel false t) payload l).
Proof.
  intros t l num fuel Bl F N Num.
  exists (prependLengthDelimitedSize (concat (map (list_element t) l))). split.
  - unfold serializeScalarList. rewrite Bl. unfold serializeListNumeric, with_header.
    destruct l; [congruence|]. cbn [snd fst].
    unfold field_number in Num. replace (num =? NotUsedFieldIndex) with false; [reflexivity|].
    unfold NotUsedFieldIndex. lia.
  - intros Hf pre rest B. now apply packed_exact.
Qed.

Theorem C08_empty_list_not_sent : forall t num, serializeScalarList t [] num = [].
Proof. intros t num. unfold serializeScalarList. now destruct (is_blob t). Qed.

(** In a whole message: same length, same order, same numbers (floating point numbers are
    compared by [canon_scalar]: bit pattern, but not the sign of a zero). *)
Theorem C08_list_field_round_trip : forall sch m obj bs i t,
  schema_ok sch -> object_ok sch m obj -> serializes sch m obj bs -> Zlen bs <= INT_MAX ->
  (i < length (md_fields (msg_at sch m)))%nat ->
  f_ty (field_at sch m i) = FRep (ES t) -> is_blob t = false ->
  exists r, deserializes sch m bs r (Ok tt) /\
    map (fun v => canon_scalar t (scalar_of v)) (list_of (nth i r VNull))
    = map (fun v => canon_scalar t (scalar_of v)) (list_of (nth i obj VNull)).
Proof.
  intros sch m obj bs i t S O H B Hi Ty Bl.
  destruct (run_round_trip sch S m obj bs O H B) as (r & D & _).
  exists r. split; [exact D|].
  destruct (run_field_back sch S m obj bs r _ i O H B D Hi) as [_ E]. rewrite Ty in E.
  unfold same_field in E. cbn [canon_field] in E. injection E as E.
  apply (f_equal (map scalar_of)) in E. rewrite !map_map in E.
  rewrite !(map_ext _ _ (fun v => f_equal scalar_of (canon_elem_scalar sch t v))) in E.
  cbn [scalar_of] in E. rewrite E. clear E.
  pose proof (object_ok_field sch m obj i O Hi) as Oi. rewrite Ty in Oi.
  destruct (nth i obj VNull); try contradiction. cbn [list_of drop_nulls].
  assert (X : flat_map (fun x => match x with VNull => [] | _ => [drop_nulls x] end) l = l).
  { clear -Oi. induction l as [|x l IH]; [reflexivity|]. destruct Oi as [Ox Ol].
    destruct x; try contradiction. cbn [flat_map app drop_nulls]. now rewrite IH. }
  now rewrite X.
Qed.

Example C08_case : Forall (scalar_ok TSInt32) [SNum 0; SNum (-1); SNum (2 ^ 31 - 1)] /\
  serializeScalarList TSInt32 [SNum 0; SNum (-1); SNum (2 ^ 31 - 1)] 4
    = [34; 7; 0; 1; 254; 255; 255; 255; 15] /\
  f_ty (field_at ex_sch 0 1) = FRep (ES TDouble) /\
  list_of (nth 1 ex_obj VNull) = [VScalar (SNum 0); VScalar (SNum 4607182418800017408)].
Proof.
  split; [repeat constructor; unfold in_s; lia|]. repeat split; reflexivity.
Qed.

(** ** C09 Repeated strings, bytes and messages *)

Theorem C09_blob_list_round_trip : forall sch m obj bs i t,
  schema_ok sch -> object_ok sch m obj -> serializes sch m obj bs -> Zlen bs <= INT_MAX ->
  (i < length (md_fields (msg_at sch m)))%nat ->
  f_ty (field_at sch m i) = FRep (ES t) -> is_blob t = true ->
  exists r, deserializes sch m bs r (Ok tt) /\
    map (fun v => blob_of (scalar_of v)) (list_of (nth i r VNull))
    = map (fun v => blob_of (scalar_of v)) (list_of (nth i obj VNull)).
Proof.
  intros sch m obj bs i t S O H B Hi Ty Bl.
  destruct (run_round_trip sch S m obj bs O H B) as (r & D & _).
  exists r. split; [exact D|].
  destruct (run_field_back sch S m obj bs r _ i O H B D Hi) as [_ E]. rewrite Ty in E.
  unfold same_field in E. cbn [canon_field] in E. injection E as E.
  apply (f_equal (map (fun v => blob_of (scalar_of v)))) in E. rewrite !map_map in E.
  assert (X : forall v, blob_of (scalar_of (canon_elem sch (ES t) v)) = blob_of (scalar_of v)).
  { intro v. rewrite canon_elem_scalar. cbn [scalar_of]. unfold canon_scalar. now rewrite Bl. }
  rewrite !(map_ext _ _ X) in E. rewrite E. clear E.
  pose proof (object_ok_field sch m obj i O Hi) as Oi. rewrite Ty in Oi.
  destruct (nth i obj VNull); try contradiction. cbn [list_of drop_nulls].
  assert (Y : flat_map (fun x => match x with VNull => [] | _ => [drop_nulls x] end) l = l).
  { clear -Oi. induction l as [|x l IH]; [reflexivity|]. destruct Oi as [Ox Ol].
    destruct x; try contradiction. cbn [flat_map app drop_nulls]. now rewrite IH. }
  now rewrite Y.
Qed.

(** Messages: the non-null elements, in order, each with the same value. *)
Theorem C09_message_list_round_trip : forall sch m obj bs i m',
  schema_ok sch -> object_ok sch m obj -> serializes sch m obj bs -> Zlen bs <= INT_MAX ->
  (i < length (md_fields (msg_at sch m)))%nat ->
  f_ty (field_at sch m i) = FRep (EM m') ->
  exists r, deserializes sch m bs r (Ok tt) /\
    Forall2 (fun a b => canon_elem sch (EM m') a = canon_elem sch (EM m') (drop_nulls b))
      (list_of (nth i r VNull))
      (filter (fun v => match v with VNull => false | _ => true end) (list_of (nth i obj VNull))).
Proof.
  intros sch m obj bs i m' S O H B Hi Ty.
  destruct (run_round_trip sch S m obj bs O H B) as (r & D & _).
  exists r. split; [exact D|].
  destruct (run_field_back sch S m obj bs r _ i O H B D Hi) as [_ E]. rewrite Ty in E.
  unfold same_field in E. cbn [canon_field] in E. injection E as E.
  pose proof (object_ok_field sch m obj i O Hi) as Oi. rewrite Ty in Oi.
  destruct (nth i obj VNull) as [s| |fs|l|l]; try contradiction. cbn [list_of drop_nulls] in *.
  assert (X : flat_map (fun x => match x with VNull => [] | _ => [drop_nulls x] end) l
    = map drop_nulls (filter (fun v => match v with VNull => false | _ => true end) l)).
  { clear. induction l as [|x l IH]; [reflexivity|]. destruct x; cbn [flat_map filter map app];
      now rewrite IH. }
  rewrite X, map_map in E. clear X Oi. revert E.
  generalize (list_of (nth i r VNull)) as a.
  generalize (filter (fun v => match v with VNull => false | _ => true end) l) as b.
  induction b as [|y b IH]; intros [|x a] E; try discriminate; [constructor|].
  cbn [map] in E. injection E as E1 E2. constructor; [exact E1 | now apply IH].
Qed.

(** Every element is its own record. *)
Theorem C09_one_record_per_element : forall sch m obj bs i e,
  schema_ok sch -> object_ok sch m obj -> serializes sch m obj bs -> Zlen bs <= INT_MAX ->
  (i < length (md_fields (msg_at sch m)))%nat ->
  f_ty (field_at sch m i) = FRep e ->
  match e with ES t => is_blob t = true | EM _ => True end ->
  exists rs, enc_recs rs bs /\ fits sch m rs /\
    length (occurrences (f_num (field_at sch m i)) rs)
    = length (filter (fun v => match v with VNull => false | _ => true end)
                (list_of (nth i obj VNull))).
Proof.
  intros sch m obj bs i e S O H B Hi Ty He.
  destruct (run_write sch S m obj bs O H B) as (g & E & F & Sm & _).
  set (rs := groups sch m (md_order (msg_at sch m)) g) in *.
  exists rs. split; [exact E|]. split; [exact F|].
  pose proof (same_nth sch m (mean sch m rs) (map drop_nulls obj) i ltac:(now apply mean_length)
    ltac:(rewrite map_length; now apply object_ok_length) Sm Hi) as Eq.
  rewrite mean_occ in Eq by assumption. pose proof (fits_occurrences sch m i rs S Hi F) as Fo.
  rewrite Ty in *. cbn [default_field] in Eq.
  rewrite fold_append in Eq; [|destruct e; [now rewrite He|exact I]|exact Fo].
  cbn [app canon_field list_of] in Eq. injection Eq as Eq.
  apply (f_equal (@length value)) in Eq. rewrite !map_length in Eq.
  assert (L1 : length (flat_map (elements sch e) (occurrences (f_num (field_at sch m i)) rs))
    = length (occurrences (f_num (field_at sch m i)) rs)).
  { clear -Fo He. induction Fo as [|w ws Fw Fo IH]; [reflexivity|]. cbn [flat_map length].
    rewrite app_length, IH. f_equal. destruct e as [t|m']; [|now destruct w].
    cbn [fits_field] in Fw. rewrite He in Fw. destruct w; try reflexivity.
    destruct t; cbn in Fw; contradiction. }
  rewrite L1 in Eq. rewrite Eq. clear.
  change VNull with (drop_nulls VNull) at 1. rewrite map_nth.
  destruct (nth i obj VNull) as [s| |fs|l|l]; try reflexivity. cbn [drop_nulls list_of].
  induction l as [|x l IH]; [reflexivity|]. destruct x; cbn [flat_map filter app length]; now rewrite IH.
Qed.

Example C09_case : f_ty (field_at ex_sch 0 2) = FRep (ES TString) /\
  f_ty (field_at ex_sch 0 5) = FRep (EM 1) /\
  length (list_of (nth 5 ex_obj VNull)) = 3%nat /\
  length (list_of (nth 5 (fst (deserializeMessage 200 false ex_sch 0 ex_bytes)) VNull)) = 2%nat /\
  schema_ok ex_sch /\ object_ok ex_sch 0 ex_obj /\ serializes ex_sch 0 ex_obj ex_bytes.
Proof.
  split; [reflexivity|]. split; [reflexivity|]. split; [reflexivity|]. split; [vm_compute; reflexivity|].
  split; [exact ex_sch_ok|]. split; [exact ex_obj_ok | exact ex_serializes].
Qed.

(** ** C10 Maps *)

(** Entries with a null message as value are not sent; all others come back with the same key
    and the same value. *)
Theorem C10_map_round_trip : forall sch m obj bs i k e,
  schema_ok sch -> object_ok sch m obj -> serializes sch m obj bs -> Zlen bs <= INT_MAX ->
  (i < length (md_fields (msg_at sch m)))%nat ->
  f_ty (field_at sch m i) = FMap k e ->
  exists r, deserializes sch m bs r (Ok tt) /\
    Forall2 (fun a b => canon_scalar k (fst a) = canon_scalar k (fst b) /\
                        canon_elem sch e (snd a) = canon_elem sch e (drop_nulls (snd b)))
      (map_of (nth i r VNull))
      (filter (fun p => match snd p with VNull => false | _ => true end) (map_of (nth i obj VNull))).
Proof.
  intros sch m obj bs i k e S O H B Hi Ty.
  destruct (run_round_trip sch S m obj bs O H B) as (r & D & _).
  exists r. split; [exact D|].
  destruct (run_field_back sch S m obj bs r _ i O H B D Hi) as [_ E].
  pose proof (field_at_ok sch m i S Hi) as FO. destruct FO as [_ FO]. rewrite Ty in *.
  unfold same_field in E. cbn [canon_field] in E. injection E as E.
  pose proof (object_ok_field sch m obj i O Hi) as Oi. rewrite Ty in Oi.
  destruct (nth i obj VNull) as [s| |fs|l|l]; try contradiction. cbn [map_of drop_nulls] in *.
  assert (X : flat_map (fun p => match snd p with VNull => [] | _ => [(fst p, drop_nulls (snd p))] end) l
    = map (fun p => (fst p, drop_nulls (snd p)))
        (filter (fun p : scalar * value => match snd p with VNull => false | _ => true end) l)).
  { clear. induction l as [|[a x] l IH]; [reflexivity|]. destruct x; cbn [flat_map filter map app fst snd];
      now rewrite IH. }
  rewrite X, map_map in E. clear X Oi. revert E.
  generalize (map_of (nth i r VNull)) as a.
  generalize (filter (fun p : scalar * value => match snd p with VNull => false | _ => true end) l) as b.
  induction b as [|y b IH]; intros [|x a] E; try discriminate; [constructor|].
  cbn [map fst snd] in E. injection E as E1 E2 E3. constructor; [|now apply IH].
  split; [exact E1 | exact E2].
Qed.

Example C10_case : f_ty (field_at ex_sch 0 3) = FMap TString (EM 1) /\
  f_ty (field_at ex_sch 0 8) = FMap TSInt32 (ES TBytes) /\
  map fst (map_of (nth 8 (fst (deserializeMessage 200 false ex_sch 0 ex_bytes)) VNull))
    = [SNum (-7); SNum 0].
Proof. repeat split; vm_compute; reflexivity. Qed.

(** ** C11 Enums *)

Theorem C11_enum_round_trip : forall sch m obj bs i,
  schema_ok sch -> object_ok sch m obj -> serializes sch m obj bs -> Zlen bs <= INT_MAX ->
  (i < length (md_fields (msg_at sch m)))%nat ->
  f_ty (field_at sch m i) = FSing (ES TEnum) ->
  exists r, deserializes sch m bs r (Ok tt) /\
    num_of (scalar_of (nth i r VNull)) = num_of (scalar_of (nth i obj VNull)).
Proof.
  intros sch m obj bs i S O H B Hi Ty.
  destruct (run_round_trip sch S m obj bs O H B) as (r & D & _).
  exists r. split; [exact D|].
  destruct (run_field_back sch S m obj bs r _ i O H B D Hi) as [_ E]. rewrite Ty in E.
  unfold same_field in E. cbn [canon_field] in E. rewrite !canon_elem_scalar in E.
  cbn [collapse] in E. unfold canon_scalar in E. cbn [is_blob] in E. injection E as ->.
  pose proof (object_ok_field sch m obj i O Hi) as Oi. rewrite Ty in Oi.
  now destruct (nth i obj VNull).
Qed.

Theorem C11_enum_list_round_trip : forall sch m obj bs i,
  schema_ok sch -> object_ok sch m obj -> serializes sch m obj bs -> Zlen bs <= INT_MAX ->
  (i < length (md_fields (msg_at sch m)))%nat ->
  f_ty (field_at sch m i) = FRep (ES TEnum) ->
  exists r, deserializes sch m bs r (Ok tt) /\
    map (fun v => num_of (scalar_of v)) (list_of (nth i r VNull))
    = map (fun v => num_of (scalar_of v)) (list_of (nth i obj VNull)).
Proof.
  intros sch m obj bs i S O H B Hi Ty.
  destruct (C08_list_field_round_trip sch m obj bs i TEnum S O H B Hi Ty eq_refl) as (r & D & E).
  exists r. split; [exact D|]. apply (f_equal (map num_of)) in E. rewrite !map_map in E. exact E.
Qed.

Theorem C11_zero_not_sent : forall num, serializeScalar TEnum (SNum 0) num = [].
Proof. reflexivity. Qed.

Example C11_case : scalar_ok TEnum (SNum (-1)) /\
  f_ty (field_at ex_sch 0 6) = FSing (ES TEnum) /\ f_ty (field_at ex_sch 0 7) = FRep (ES TEnum) /\
  nth 7 (fst (deserializeMessage 200 false ex_sch 0 ex_bytes)) VNull
    = VList [VScalar (SNum (-1)); VScalar (SNum 0)].
Proof. split; [cbn; unfold in_s; lia|]. repeat split; vm_compute; reflexivity. Qed.

(** ** C12 Whole messages *)

(** Every value of every type that cannot hold a cycle of singular message fields is serialized, and the
    bytes deserialize to the same value ([same] is finer than operator==, see PropertiesObject).
    Null elements of repeated message fields and of maps are not sent. *)
Theorem C12_message_round_trip : forall sch m obj,
  schema_ok sch -> ~ can_hold_cycle sch m -> object_ok sch m obj ->
  exists bs, serializes sch m obj bs /\
    (Zlen bs <= INT_MAX ->
     exists r, deserializes sch m bs r (Ok tt) /\ same sch m r (map drop_nulls obj)).
Proof.
  intros sch m obj S A O. destruct (no_cycle_terminates sch m obj S A) as (f & bs & H).
  assert (Sr : serializes sch m obj bs) by (exists f; apply H; lia).
  exists bs. split; [exact Sr|]. intro B.
  destruct (run_round_trip sch S m obj bs O Sr B) as (r & D & _ & Sm). eauto.
Qed.

Example C12_case : schema_ok ex_sch /\ ~ can_hold_cycle ex_sch 0 /\ object_ok ex_sch 0 ex_obj /\
  serializes ex_sch 0 ex_obj ex_bytes /\ Zlen ex_bytes = 112 /\
  snd (deserializeMessage 200 false ex_sch 0 ex_bytes) = Ok tt /\
  same ex_sch 0 (fst (deserializeMessage 200 false ex_sch 0 ex_bytes)) (map drop_nulls ex_obj) /\
  ~ same ex_sch 0 ex_obj (default_obj ex_sch 0).
Proof.
  split; [exact ex_sch_ok|]. split; [exact (acyclic_no_cycle _ _ ex_sch_acyclic)|]. split; [exact ex_obj_ok|].
  split; [exact ex_serializes|]. split; [exact ex_bytes_long|].
  split; [vm_compute; reflexivity|]. split; [vm_compute; reflexivity|]. vm_compute. discriminate.
Qed.

(** ** C13 Serialized data is well formed *)

Theorem C13_output_well_formed : forall sch m obj bs,
  schema_ok sch -> object_ok sch m obj -> serializes sch m obj bs -> Zlen bs <= INT_MAX ->
  exists rs, enc_recs rs bs /\ fits sch m rs /\
    (forall r, In r rs -> exists i, (i < length (md_fields (msg_at sch m)))%nat /\
       fst r = f_num (field_at sch m i) /\
       wtype (snd r) = prescribed_wire (f_ty (field_at sch m i))) /\
    (forall i, (i < length (md_fields (msg_at sch m)))%nat ->
       unset_field (f_ty (field_at sch m i)) (nth i obj VNull) = true ->
       occurrences (f_num (field_at sch m i)) rs = []) /\
    same sch m (mean sch m rs) (map drop_nulls obj).
Proof.
  intros sch m obj bs S O H B.
  destruct (run_write sch S m obj bs O H B) as (g & E & F & Sm & U).
  exists (groups sch m (md_order (msg_at sch m)) g).
  pose proof (msg_at_ok sch m S) as (_ & _ & _ & Cov).
  split; [exact E|]. split; [exact F|]. split; [|split; [|exact Sm]].
  - intros r Hr. destruct (groups_declared sch m g _ r (fun i => proj1 (Cov i)) Hr) as (i & Hi & Ei).
    exists i. split; [exact Hi|]. split; [exact Ei|]. apply fits_spec in F. rewrite Forall_forall in F.
    now apply fits_wire; auto.
  - intros i Hi Un. specialize (U i Hi Un). unfold occurrences.
    destruct (filter _ _) as [|r l] eqn:Ef; [reflexivity|]. exfalso.
    assert (Hr : In r (r :: l)) by now left. rewrite <- Ef in Hr. apply filter_In in Hr.
    destruct Hr as [Hr Eq]. apply Z.eqb_eq in Eq. revert Eq.
    apply (groups_empty sch m g (md_order (msg_at sch m)) i r Hi S (fun j => proj1 (Cov j)) U Hr).
Qed.

(** Which values count as unset. *)
Example C13_unset : unset_field (FSing (ES TInt32)) (VScalar (SNum 0)) = true /\
  unset_field (FSing (ES TString)) (VScalar (SStr true [])) = true /\
  unset_field (FRep (ES TFloat)) (VList []) = true /\
  unset_field (FMap TInt32 (EM 0)) (VMap []) = true.
Proof. repeat split. Qed.

Example C13_case : schema_ok ex_sch /\ object_ok ex_sch 0 (default_obj ex_sch 0) /\
  serializes ex_sch 0 (default_obj ex_sch 0) [42; 0].
Proof.
  split; [exact ex_sch_ok|]. split; [|now exists 3%nat].
  unfold object_ok. cbn. unfold in_s. repeat split; lia.
Qed.

(** ** C14 Field order *)

Theorem C14_order_irrelevant : forall sch m rs rs' bs bs' r r' o o',
  schema_ok sch -> fits sch m rs -> Permutation rs rs' -> NoDup (map fst rs) ->
  enc_recs rs bs -> enc_recs rs' bs' -> Zlen bs <= INT_MAX -> Zlen bs' <= INT_MAX ->
  deserializes sch m bs r o -> deserializes sch m bs' r' o' ->
  o = Ok tt /\ o' = Ok tt /\ same sch m r r'.
Proof.
  intros sch m rs rs' bs bs' r r' o o' S F P ND E E' B B' D D'.
  assert (F' : fits sch m rs').
  { rewrite fits_spec in *. rewrite Forall_forall in *. intros x Hx. apply F.
    now apply (Permutation_in _ (Permutation_sym P)). }
  destruct (run_read_result sch S m rs bs r o E F B D) as (-> & _ & Sm).
  destruct (run_read_result sch S m rs' bs' r' o' E' F' B' D') as (-> & _ & Sm').
  split; [reflexivity|]. split; [reflexivity|]. unfold same in *. rewrite Sm, Sm'. f_equal.
  apply mean_filter; [exact S|]. intros i Hi.
  apply filter_nodup_perm with (num := f_num (field_at sch m i)); auto.
Qed.

(** More generally the relative order of records of different fields does not matter. *)
Theorem C14_interleaving_irrelevant : forall sch m rs rs' bs bs' r r' o o',
  schema_ok sch -> fits sch m rs -> fits sch m rs' ->
  (forall num, occurrences num rs = occurrences num rs') ->
  enc_recs rs bs -> enc_recs rs' bs' -> Zlen bs <= INT_MAX -> Zlen bs' <= INT_MAX ->
  deserializes sch m bs r o -> deserializes sch m bs' r' o' ->
  o = Ok tt /\ o' = Ok tt /\ same sch m r r'.
Proof.
  intros sch m rs rs' bs bs' r r' o o' S F F' Oc E E' B B' D D'.
  destruct (run_read_result sch S m rs bs r o E F B D) as (-> & _ & Sm).
  destruct (run_read_result sch S m rs' bs' r' o' E' F' B' D') as (-> & _ & Sm').
  split; [reflexivity|]. split; [reflexivity|]. unfold same in *. rewrite Sm, Sm'. f_equal.
  apply nth_ext with (d := VNull) (d' := VNull); [now rewrite !mean_length|].
  intros i Hi. rewrite mean_length in Hi by exact S. rewrite !mean_occ by assumption. now rewrite Oc.
Qed.

Definition ex_rs1 : list (Z * wval) := [(7, WVarint 3); (1, WVarint 5)].
Definition ex_rs2 : list (Z * wval) := [(1, WVarint 5); (7, WVarint 3)].

Lemma enc_small num v : field_number num -> 8 * num < 128 -> 0 <= v < 128 ->
  forall rs bs, enc_recs rs bs -> enc_recs ((num, WVarint v) :: rs) (8 * num :: v :: bs).
Proof.
  intros N N8 V rs bs E. change (8 * num :: v :: bs) with ([8 * num] ++ [v] ++ bs).
  unfold field_number in N. constructor; auto.
  - split; [|cbn; lia]. cbn [wtype]. replace (8 * num + 0) with (8 * num) by lia. constructor. lia.
  - constructor; [unfold in_u; lia|]. split; [constructor; lia | cbn; lia].
Qed.

Example C14_case : fits ex_sch 0 ex_rs1 /\ Permutation ex_rs1 ex_rs2 /\ NoDup (map fst ex_rs1) /\
  enc_recs ex_rs1 [56; 3; 8; 5] /\ enc_recs ex_rs2 [8; 5; 56; 3] /\
  deserializes ex_sch 0 [56; 3; 8; 5] (fst (deserializeMessage 9 false ex_sch 0 [8; 5; 56; 3])) (Ok tt).
Proof.
  split; [cbn; auto|]. split; [apply perm_swap|].
  split; [repeat constructor; cbn; lia|].
  split; [|split].
  - apply (enc_small 7 3); [unfold field_number; lia..|]. apply (enc_small 1 5); [unfold field_number; lia..|constructor].
  - apply (enc_small 1 5); [unfold field_number; lia..|]. apply (enc_small 7 3); [unfold field_number; lia..|constructor].
  - split; [discriminate|]. exists 9%nat. vm_compute. reflexivity.
Qed.

(** ** C15 Unknown fields *)

Theorem C15_unknown_fields_skipped : forall sch m rs1 unknown rs2 bs bs' r r' o o',
  schema_ok sch -> fits sch m (rs1 ++ rs2) ->
  Forall (fun x => no_field sch m (fst x) /\ fits_unknown (snd x)) unknown ->
  enc_recs (rs1 ++ rs2) bs -> enc_recs (rs1 ++ unknown ++ rs2) bs' ->
  Zlen bs <= INT_MAX -> Zlen bs' <= INT_MAX ->
  deserializes sch m bs r o -> deserializes sch m bs' r' o' ->
  o = Ok tt /\ o' = Ok tt /\ same sch m r r'.
Proof.
  intros sch m rs1 u rs2 bs bs' r r' o o' S F U E E' B B' D D'.
  assert (F' : fits sch m (rs1 ++ u ++ rs2)).
  { rewrite !fits_app in *. destruct F as [F1 F2]. split; [exact F1|]. split; [|exact F2].
    apply fits_spec. eapply Forall_impl; [|exact U]. intros x [Hx1 Hx2]. unfold fits_record.
    now rewrite (no_field_none _ _ _ Hx1). }
  destruct (run_read_result sch S m _ bs r o E F B D) as (-> & _ & Sm).
  destruct (run_read_result sch S m _ bs' r' o' E' F' B' D') as (-> & _ & Sm').
  split; [reflexivity|]. split; [reflexivity|]. unfold same in *. rewrite Sm, Sm'. f_equal.
  apply mean_filter; [exact S|]. intros i Hi. symmetry. apply filter_app_unknown; auto.
  eapply Forall_impl; [|exact U]. intros x [Hx _]. now apply no_field_none.
Qed.

Example C15_case : no_field ex_sch 0 4 /\ fits_unknown (WVarint 100) /\
  enc_recs ([(1, WVarint 5)] ++ [(4, WVarint 100)] ++ [(7, WVarint 3)]) [8; 5; 32; 100; 56; 3] /\
  deserializes ex_sch 0 [8; 5; 32; 100; 56; 3]
    (fst (deserializeMessage 9 false ex_sch 0 [8; 5; 56; 3])) (Ok tt).
Proof.
  split; [repeat constructor; discriminate|]. split; [exact I|]. split.
  - apply (enc_small 1 5); [unfold field_number; lia..|].
    apply (enc_small 4 100); [unfold field_number; lia..|].
    apply (enc_small 7 3); [unfold field_number; lia..|constructor].
  - split; [discriminate|]. exists 9%nat. vm_compute. reflexivity.
Qed.

(** ** C17 Fields that are absent *)

(** A field without a record in the input has the default value of protobuf. *)
Theorem C17_absent_default : forall sch m rs bs r o i,
  schema_ok sch -> enc_recs rs bs -> fits sch m rs -> Zlen bs <= INT_MAX ->
  deserializes sch m bs r o -> (i < length (md_fields (msg_at sch m)))%nat ->
  ~ In (f_num (field_at sch m i)) (map fst rs) ->
  o = Ok tt /\ exists d, protobuf_default (f_ty (field_at sch m i)) d /\ same_field sch (f_ty (field_at sch m i)) (nth i r VNull) d.
Proof.
  intros sch m rs bs r o i S E F B D Hi A.
  destruct (run_read_result sch S m rs bs r o E F B D) as (-> & _ & _). split; [reflexivity|].
  pose proof (run_field sch S m rs bs r _ i E F B D Hi) as Sf. rewrite mean_occ in Sf by assumption.
  assert (N : occurrences (f_num (field_at sch m i)) rs = []).
  { unfold occurrences. clear - A. induction rs as [|x rs IH]; [reflexivity|]. cbn [filter map In] in *.
    destruct (Z.eqb_spec (fst x) (f_num (field_at sch m i))) as [Q|Q]; [elim A; now left|]. apply IH. tauto. }
  rewrite N in Sf. eexists. split; [|exact Sf]. cbn. destruct (f_ty (field_at sch m i)) as [[t|m']|e|k e]; cbn; try reflexivity.
  destruct t; cbn; try reflexivity; eexists; reflexivity.
Qed.

Example C17_absent_case : enc_recs [(1, WVarint 5)] [8; 5] /\ ~ In (f_num (field_at ex_sch 0 1)) (map fst [(1, WVarint 5)]) /\
  protobuf_default (f_ty (field_at ex_sch 0 1)) (nth 1 (fst (deserializeMessage 9 false ex_sch 0 [8; 5])) VNull) /\
  deserializes ex_sch 0 [8; 5] (fst (deserializeMessage 9 false ex_sch 0 [8; 5])) (Ok tt).
Proof.
  split; [apply (enc_small 1 5); [unfold field_number; lia..|constructor]|]. split; [cbn; intuition discriminate|].
  split; [vm_compute; try reflexivity; eexists; reflexivity|]. split; [discriminate|]. exists 9%nat. vm_compute. reflexivity.
Qed.

(** ** C16 Several occurrences of a field *)

Theorem C16_last_one_wins : forall sch m rs bs r o i e,
  schema_ok sch -> enc_recs rs bs -> fits sch m rs -> Zlen bs <= INT_MAX ->
  deserializes sch m bs r o -> (i < length (md_fields (msg_at sch m)))%nat ->
  f_ty (field_at sch m i) = FSing e ->
  occurrences (f_num (field_at sch m i)) rs <> [] ->
  o = Ok tt /\
  same_field sch (FSing e) (nth i r VNull)
    (mean_elem sch e (last (occurrences (f_num (field_at sch m i)) rs) (WVarint 0))).
Proof.
  intros sch m rs bs r o i e S E F B D Hi Ty N.
  destruct (run_read_result sch S m rs bs r o E F B D) as (-> & _ & _). split; [reflexivity|].
  pose proof (run_field sch S m rs bs r _ i E F B D Hi) as Sf. rewrite mean_occ in Sf by assumption.
  rewrite Ty in *. now rewrite fold_last_single in Sf.
Qed.

Theorem C16_lists_append : forall sch m rs bs r o i e,
  schema_ok sch -> enc_recs rs bs -> fits sch m rs -> Zlen bs <= INT_MAX ->
  deserializes sch m bs r o -> (i < length (md_fields (msg_at sch m)))%nat ->
  f_ty (field_at sch m i) = FRep e ->
  (match e with ES t => t = TString \/ t = TBytes \/ t = TEnum | EM _ => True end) ->
  o = Ok tt /\
  same_field sch (FRep e) (nth i r VNull)
    (VList (flat_map (elements sch e) (occurrences (f_num (field_at sch m i)) rs))).
Proof.
  intros sch m rs bs r o i e S E F B D Hi Ty He.
  destruct (run_read_result sch S m rs bs r o E F B D) as (-> & _ & _). split; [reflexivity|].
  pose proof (run_field sch S m rs bs r _ i E F B D Hi) as Sf. rewrite mean_occ in Sf by assumption.
  pose proof (fits_occurrences sch m i rs S Hi F) as Fo. rewrite Ty in *. cbn [default_field] in Sf.
  rewrite fold_append in Sf; [exact Sf| |exact Fo].
  destruct e as [t|]; [|exact I]. destruct He as [ -> | [ -> | -> ]]; reflexivity.
Qed.

(** A map holds, for every key, the value of the last record with this key. *)
Theorem C16_map_last_entry : forall sch m rs bs r o i k e key,
  schema_ok sch -> enc_recs rs bs -> fits sch m rs -> Zlen bs <= INT_MAX ->
  deserializes sch m bs r o -> (i < length (md_fields (msg_at sch m)))%nat ->
  f_ty (field_at sch m i) = FMap k e ->
  o = Ok tt /\
  option_map (canon_elem sch e) (lookup k key (map_of (nth i r VNull)))
  = option_map (canon_elem sch e)
      (lookup k key (rev (map (entry_of sch k e) (occurrences (f_num (field_at sch m i)) rs)))).
Proof.
  intros sch m rs bs r o i k e key S E F B D Hi Ty.
  destruct (run_read_result sch S m rs bs r o E F B D) as (-> & _ & _). split; [reflexivity|].
  pose proof (run_field sch S m rs bs r _ i E F B D Hi) as Sf. rewrite mean_occ in Sf by assumption.
  pose proof (fits_occurrences sch m i rs S Hi F) as Fo.
  pose proof (field_at_ok sch m i S Hi) as [_ FO]. rewrite Ty in *. cbn [default_field] in Sf.
  rewrite fold_map in Sf by exact Fo. unfold same_field in Sf. cbn [canon_field map_of] in Sf.
  injection Sf as Sf. rewrite (lookup_canon sch k e key _ _ FO Sf).
  rewrite lookup_fold by exact FO. cbn [lookup].
  now destruct (lookup k key (rev _)).
Qed.

(** Packed numeric lists: the last record replaces the others. Protobuf prescribes concatenation, see the refutation
    below. Missing: all records but the last. *)
Theorem C16_packed_numbers_partial : forall sch m rs bs r o i t,
  schema_ok sch -> enc_recs rs bs -> fits sch m rs -> Zlen bs <= INT_MAX ->
  deserializes sch m bs r o -> (i < length (md_fields (msg_at sch m)))%nat ->
  f_ty (field_at sch m i) = FRep (ES t) -> is_blob t = false -> t <> TEnum ->
  occurrences (f_num (field_at sch m i)) rs <> [] ->
  o = Ok tt /\
  same_field sch (FRep (ES t)) (nth i r VNull)
    (VList (elements sch (ES t) (last (occurrences (f_num (field_at sch m i)) rs) (WVarint 0)))).
Proof.
  intros sch m rs bs r o i t S E F B D Hi Ty Bl En N.
  destruct (run_read_result sch S m rs bs r o E F B D) as (-> & _ & _). split; [reflexivity|].
  pose proof (run_field sch S m rs bs r _ i E F B D Hi) as Sf. rewrite mean_occ in Sf by assumption.
  pose proof (fits_occurrences sch m i rs S Hi F) as Fo. rewrite Ty in *.
  rewrite fold_packed in Sf; auto. now destruct t.
Qed.

Definition num_sch : schema := [mkMsg [mkField 1 (FRep (ES TInt32))] [0%nat]].
Lemma num_sch_ok : schema_ok num_sch.
Proof.
  constructor; [|constructor]. split; [|split; [|split]].
  - repeat constructor. cbn. tauto.
  - repeat constructor; cbn; lia.
  - repeat constructor. cbn. tauto.
  - intro i. cbn. lia.
Qed.

Lemma enc_packed_small num ws content : field_number num -> 8 * num + 2 < 128 ->
  enc_elems ws content -> Zlen content < 128 -> forall rs bs, enc_recs rs bs ->
  enc_recs ((num, WPacked ws) :: rs) ([8 * num + 2] ++ (Zlen content :: content) ++ bs).
Proof.
  intros N N8 E L rs bs R. unfold field_number in N. pose proof (Zlen_nonneg content).
  constructor; auto.
  - split; [constructor; cbn [wtype]; lia | cbn; lia].
  - apply enc_packed with (content := content); [exact E|]. exists [Zlen content].
    split; [|reflexivity]. split; [constructor; lia | cbn; lia].
Qed.

Lemma enc_elem_small v ws bs : 0 <= v < 128 -> enc_elems ws bs -> enc_elems (WVarint v :: ws) (v :: bs).
Proof.
  intros V E. change (v :: bs) with ([v] ++ bs). constructor; [|exact E].
  constructor; [unfold in_u; lia|]. split; [constructor; lia | cbn; lia].
Qed.

(** Whenever a record with elements precedes the last one, the list is not the concatenation protobuf prescribes. *)
Theorem C16_packed_concat_refuted : forall sch m rs bs r o i t w,
  schema_ok sch -> enc_recs rs bs -> fits sch m rs -> Zlen bs <= INT_MAX ->
  deserializes sch m bs r o -> (i < length (md_fields (msg_at sch m)))%nat ->
  f_ty (field_at sch m i) = FRep (ES t) -> is_blob t = false -> t <> TEnum ->
  In w (removelast (occurrences (f_num (field_at sch m i)) rs)) -> elements sch (ES t) w <> [] ->
  ~ same_field sch (FRep (ES t)) (nth i r VNull)
      (VList (flat_map (elements sch (ES t)) (occurrences (f_num (field_at sch m i)) rs))).
Proof.
  intros sch m rs bs r o i t w S E F B D Hi Ty Bl En Hw Nw C.
  set (ws := occurrences (f_num (field_at sch m i)) rs) in *.
  assert (N : ws <> []) by (intros N; rewrite N in Hw; contradiction).
  destruct (C16_packed_numbers_partial sch m rs bs r o i t S E F B D Hi Ty Bl En N) as [_ P]. fold ws in P.
  unfold same_field in *. rewrite P in C. cbn [canon_field list_of] in C. injection C as C.
  apply (f_equal (@length value)) in C. rewrite !map_length in C.
  rewrite (app_removelast_last (WVarint 0) N) in C at 2. rewrite flat_map_app, app_length in C. cbn [flat_map] in C.
  rewrite app_nil_r in C. apply in_split in Hw. destruct Hw as (a & b & Hw). rewrite Hw, flat_map_app, app_length in C.
  cbn [flat_map] in C. rewrite app_length in C. destruct (elements sch (ES t) w); [congruence|]. cbn [length] in C. fold (elements sch (ES t) (last ws (WVarint 0))) in C. lia.
Qed.

(** The two packed records [1] and [2] of the same field give [2], not [1; 2]. *)
Example C16_packed_case : exists rs bs r,
  schema_ok num_sch /\ enc_recs rs bs /\ fits num_sch 0 rs /\ deserializes num_sch 0 bs r (Ok tt) /\
  In (WPacked [WVarint 1]) (removelast (occurrences 1 rs)) /\ elements num_sch (ES TInt32) (WPacked [WVarint 1]) <> [].
Proof.
  exists [(1, WPacked [WVarint 1]); (1, WPacked [WVarint 2])], [10; 1; 1; 10; 1; 2], [VList [VScalar (SNum 2)]].
  split; [exact num_sch_ok|]. split.
  { apply (enc_packed_small 1 [WVarint 1] [1]); try (unfold field_number; lia); try reflexivity.
    - apply enc_elem_small; [lia|constructor].
    - apply (enc_packed_small 1 [WVarint 2] [2]); try (unfold field_number; lia); try reflexivity.
      + apply enc_elem_small; [lia|constructor].
      + constructor. }
  split; [cbn; repeat split; repeat constructor|].
  split; [split; [discriminate|]; exists 9%nat; vm_compute; reflexivity|].
  split; [cbn; auto | discriminate].
Qed.

Example C16_case : schema_ok ex_sch /\ fits ex_sch 0 [(1, WVarint 5); (1, WVarint 6)] /\
  enc_recs [(1, WVarint 5); (1, WVarint 6)] [8; 5; 8; 6] /\
  occurrences 1 [(1, WVarint 5); (1, WVarint 6)] = [WVarint 5; WVarint 6] /\
  nth 0 (fst (deserializeMessage 9 false ex_sch 0 [8; 5; 8; 6])) VNull = VScalar (SNum 6).
Proof.
  split; [exact ex_sch_ok|]. split; [cbn; auto|]. split.
  - apply (enc_small 1 5); [unfold field_number; lia..|].
    apply (enc_small 1 6); [unfold field_number; lia..|constructor].
  - split; [reflexivity|]. vm_compute. reflexivity.
Qed.

(** ** C18 Failing deserialization *)

(** The object left behind by a failing run is the result of the longest prefix of the input
    that is accepted.  Missing: inputs with a place that can be taken for a length of 2^31 or more, see the
    refutation. *)
Theorem C18_failure_keeps_prefix_partial : forall sch m data r e,
  Zlen data <= INT_MAX -> bytes data -> ~ has_negative_length data ->
  deserializes sch m data r (Throw e) ->
  exists x rest, data = x ++ rest /\ deserializes sch m x r (Ok tt) /\
    forall z z' r', rest = z ++ z' -> z <> [] -> ~ deserializes sch m (x ++ z) r' (Ok tt).
Proof.
  intros sch m data r e B Y N. apply run_failure; [exact B|]. now apply safe_no_negative_length.
Qed.

(** It is enough that the run meets no such length ([no_negative_length]).  Missing: runs that meet one. *)
Theorem C18_run_partial : forall sch m data r e,
  Zlen data <= INT_MAX -> no_negative_length sch m data ->
  deserializes sch m data r (Throw e) ->
  exists x rest, data = x ++ rest /\ deserializes sch m x r (Ok tt) /\
    forall z z' r', rest = z ++ z' -> z <> [] -> ~ deserializes sch m (x ++ z) r' (Ok tt).
Proof. intros. eapply run_failure; eauto. Qed.

Definition back_sch : schema :=
  [mkMsg [mkField 1 (FSing (ES TBytes)); mkField 2 (FSing (ES TInt32))] [0; 1]%nat].

(** A negative length jumps back into the bytes of field 1 and sets field 2 although no record of field 2
    precedes the failing one: the object is the result of no prefix of the input. *)
Theorem C18_negative_length_refuted : exists sch m data r e,
  deserializes sch m data r (Throw e) /\
  forall x rest r', data = x ++ rest -> deserializes sch m x r' (Ok tt) -> r' <> r.
Proof.
  (* 0A 03 [10 05 07]   1A F7 FF FF FF 0F: unknown field 3, length -9 *)
  exists back_sch, 0%nat, [10; 3; 16; 5; 7; 26; 247; 255; 255; 255; 15],
    [VScalar (SStr false [16; 5; 7]); VScalar (SNum 5)], InvalidArgument.
  split.
  { split; [discriminate|]. exists 50%nat. vm_compute. reflexivity. }
  intros x rest r' E D.
  assert (Hx : exists n, (n <= 11)%nat /\ x = firstn n [10; 3; 16; 5; 7; 26; 247; 255; 255; 255; 15]).
  { exists (length x). split.
    - apply (f_equal (@length Z)) in E. rewrite app_length in E. cbn in E. lia.
    - rewrite E. rewrite firstn_app, Nat.sub_diag, firstn_all. cbn. now rewrite app_nil_r. }
  destruct Hx as (n & Hn & ->). clear E.
  assert (K : deserializes back_sch 0
      (firstn n [10; 3; 16; 5; 7; 26; 247; 255; 255; 255; 15])
      (fst (deserializeMessage 50 false back_sch 0
              (firstn n [10; 3; 16; 5; 7; 26; 247; 255; 255; 255; 15])))
      (snd (deserializeMessage 50 false back_sch 0
              (firstn n [10; 3; 16; 5; 7; 26; 247; 255; 255; 255; 15])))).
  { split.
    - do 12 (destruct n as [|n]; [vm_compute; discriminate|]). lia.
    - exists 50%nat. now destruct (deserializeMessage _ _ _ _ _). }
  destruct (deserializes_fun _ _ _ _ _ _ _ D K) as [-> O]. clear D K.
  do 12 (destruct n as [|n]; [vm_compute in O |- *; try discriminate; discriminate|]). lia.
Qed.

Example C18_case : no_negative_length back_sch 0 [16; 5; 10; 9; 1] /\
  deserializes back_sch 0 [16; 5; 7; 1]
    [VScalar (SStr true []); VScalar (SNum 5)] (Throw InvalidArgument) /\
  deserializes back_sch 0 [16; 5] [VScalar (SStr true []); VScalar (SNum 5)] (Ok tt).
Proof.
  split; [|split; (split; [discriminate|]; exists 9%nat; vm_compute; reflexivity)].
  intro fuel. do 4 (destruct fuel as [|fuel]; [vm_compute; discriminate|]).
  vm_compute. discriminate.
Qed.

(** ** C19 Truncation *)

(** A prefix of well-formed input is accepted only if the cut is between two records. *)
Theorem C19_truncation_not_accepted : forall sch m rs bs x y r,
  schema_ok sch -> enc_recs rs bs -> fits sch m rs -> Zlen bs <= INT_MAX ->
  bs = x ++ y -> deserializes sch m x r (Ok tt) ->
  exists rs1 rs2, rs = rs1 ++ rs2 /\ enc_recs rs1 x /\ enc_recs rs2 y.
Proof. intros. eapply run_cut; eauto. Qed.

(** In particular for what serialize produces. *)
Theorem C19_truncated_message_not_accepted : forall sch m obj bs x y r,
  schema_ok sch -> object_ok sch m obj -> serializes sch m obj bs -> Zlen bs <= INT_MAX ->
  bs = x ++ y -> deserializes sch m x r (Ok tt) ->
  exists rs1 rs2, enc_recs rs1 x /\ enc_recs rs2 y /\ fits sch m (rs1 ++ rs2).
Proof.
  intros sch m obj bs x y r S O H B Hxy D.
  destruct (run_write sch S m obj bs O H B) as (g & E & F & _).
  destruct (run_cut sch S m _ bs x y r E F B Hxy D) as (rs1 & rs2 & Ers & E1 & E2).
  exists rs1, rs2. rewrite <- Ers. auto.
Qed.

(** The three bytes of a length-delimited record, cut after one, two or no bytes of content. *)
Example C19_case :
  snd (deserializeMessage 9 false back_sch 0 [10; 3; 1; 2; 3]) = Ok tt /\
  snd (deserializeMessage 9 false back_sch 0 [10; 3; 1; 2]) = Throw OutOfRange /\
  snd (deserializeMessage 9 false back_sch 0 [10; 3; 1]) = UB OverRead /\
  snd (deserializeMessage 9 false back_sch 0 [10]) = Throw OutOfRange.
Proof. repeat split; vm_compute; reflexivity. Qed.

(** ** C22 Serialization terminates *)

(** For all values of types that cannot hold a cycle of singular message fields, with one result; and for no
    other types: they have a value whose serialization never ends. *)
Theorem C22_serialization_terminates : forall sch m, schema_ok sch ->
  (~ can_hold_cycle sch m ->
   forall obj, exists bs, serializes sch m obj bs /\ forall bs', serializes sch m obj bs' -> bs' = bs) /\
  (can_hold_cycle sch m ->
   exists obj, object_ok sch m obj /\ forall bs, ~ serializes sch m obj bs).
Proof.
  intros sch m S. split.
  - intros A obj. destruct (no_cycle_terminates sch m obj S A) as (f & bs & H).
    assert (Sr : serializes sch m obj bs) by (exists f; apply H; lia).
    exists bs. split; [exact Sr|]. intros bs' H'. eapply serializes_fun; eauto.
  - now apply cycle_holder.
Qed.

(** With such a cycle (here: a message with a field of its own type) serialization of every value diverges. *)
Definition cyclic_sch : schema := [mkMsg [mkField 1 (FSing (EM 0))] [0%nat]].
Theorem C22_recursive_type_refuted : exists sch m, schema_ok sch /\
  forall obj fuel, serializeMessage fuel sch m obj = OutOfFuel.
Proof.
  exists cyclic_sch, 0%nat. split.
  { constructor; [|constructor]. split; [|split; [|split]].
    - repeat constructor. cbn. tauto.
    - repeat constructor; cbn; lia.
    - repeat constructor. cbn. tauto.
    - intro i. cbn. lia. }
  intros obj fuel. apply (serialize_cycle cyclic_sch (fun m => m = 0%nat)); [|reflexivity].
  intros m ->. exists 0%nat, 0%nat. cbn. auto.
Qed.

(** In general: every type from which a cycle of singular message fields is reachable. *)
Theorem C22_cycle_diverges : forall sch (C : nat -> Prop),
  (forall m, C m -> exists i m', In i (md_order (msg_at sch m)) /\
     f_ty (field_at sch m i) = FSing (EM m') /\ C m') ->
  forall m obj bs, C m -> ~ serializes sch m obj bs.
Proof.
  intros sch C HC m obj bs Hm (f & H). rewrite (serialize_cycle sch C HC f m obj Hm) in H. discriminate.
Qed.

(** A list of trees [1] can hold itself, but not through singular fields; with a singular field [2] of the
    tree it can. *)
Definition tree_sch (closed : bool) : schema :=
  [mkMsg [mkField 1 (FRep (EM 1))] [0%nat];
   mkMsg (mkField 1 (FRep (EM 1)) :: if closed then [mkField 2 (FSing (EM 1))] else [])
         (0%nat :: if closed then [1%nat] else [])].

Example C22_case : schema_ok ex_sch /\ ~ can_hold_cycle ex_sch 0 /\
  schema_ok (tree_sch false) /\ ~ can_hold_cycle (tree_sch false) 0 /\ refers (tree_sch false) 1 1 /\
  schema_ok (tree_sch true) /\ can_hold_cycle (tree_sch true) 0.
Proof.
  split; [exact ex_sch_ok|]. split; [exact (acyclic_no_cycle _ _ ex_sch_acyclic)|].
  assert (T : forall b, schema_ok (tree_sch b)).
  { intro b. destruct b; (constructor; [|constructor; [|constructor]]); (split; [|split; [|split]]);
      try (intro i; cbn; lia); repeat constructor; cbn; lia. }
  split; [apply T|]. split; [|split; [|split; [apply T|]]].
  - apply acyclic_no_cycle. exists (fun m => m). intros m f m' H E.
    destruct m as [|[|[|m]]]; cbn in H; repeat (destruct H as [<-|H]; [discriminate E|]); destruct H.
  - exists (mkField 1 (FRep (EM 1))). cbn. auto.
  - exists 1%nat. split; [apply rt_step|apply t_step].
    + exists (mkField 1 (FRep (EM 1))). cbn. auto.
    + exists (mkField 2 (FSing (EM 1))). cbn. auto.
Qed.

(** ** C23 Merging *)

(** The concatenation of two encodings is read as one after the other: a field not present in the second
    one keeps its value; of a field present in both, one of scalar type takes the second value, a list of strings,
    byte arrays, enums or messages is the first list followed by the second one, and a map has the entries of both,
    those of the second one for common keys.  Missing: a message replaces the first one instead of being merged into
    it, and a list of numbers does so too instead of being appended. *)
Theorem C23_concatenation_partial : forall sch m rs1 rs2 bs1 bs2 r1 r2 r12 o1 o2 o12 i,
  schema_ok sch -> enc_recs rs1 bs1 -> enc_recs rs2 bs2 -> fits sch m rs1 -> fits sch m rs2 ->
  Zlen (bs1 ++ bs2) <= INT_MAX ->
  deserializes sch m bs1 r1 o1 -> deserializes sch m bs2 r2 o2 ->
  deserializes sch m (bs1 ++ bs2) r12 o12 ->
  (i < length (md_fields (msg_at sch m)))%nat ->
  let ty := f_ty (field_at sch m i) in let num := f_num (field_at sch m i) in
  o12 = Ok tt /\
  (occurrences num rs2 = [] -> same_field sch ty (nth i r12 VNull) (nth i r1 VNull)) /\
  (occurrences num rs1 = [] -> same_field sch ty (nth i r12 VNull) (nth i r2 VNull)) /\
  (forall t, ty = FSing (ES t) -> occurrences num rs2 <> [] ->
     same_field sch ty (nth i r12 VNull) (nth i r2 VNull)) /\
  (forall e, ty = FRep e -> match e with ES t => In t [TString; TBytes; TEnum] | EM _ => True end ->
     same_field sch ty (nth i r12 VNull) (VList (list_of (nth i r1 VNull) ++ list_of (nth i r2 VNull)))) /\
  (forall k e key, ty = FMap k e ->
     option_map (canon_elem sch e) (lookup k key (map_of (nth i r12 VNull)))
     = option_map (canon_elem sch e)
         (match lookup k key (map_of (nth i r2 VNull)) with
          | Some v => Some v
          | None => lookup k key (map_of (nth i r1 VNull))
          end)).
Proof.
  intros sch m rs1 rs2 bs1 bs2 r1 r2 r12 o1 o2 o12 i S E1 E2 F1 F2 B D1 D2 D12 Hi ty num.
  assert (B1 : Zlen bs1 <= INT_MAX) by (zlen_in B; pose proof (Zlen_nonneg bs2); lia).
  assert (B2 : Zlen bs2 <= INT_MAX) by (zlen_in B; pose proof (Zlen_nonneg bs1); lia).
  pose proof (enc_recs_app _ _ E1 _ _ E2) as E.
  assert (F : fits sch m (rs1 ++ rs2)) by (apply fits_app; auto).
  destruct (run_read_result sch S m _ _ _ _ E F B D12) as (-> & _ & _). split; [reflexivity|].
  pose proof (run_field sch S m _ _ _ _ i E F B D12 Hi) as X.
  pose proof (run_field sch S m _ _ _ _ i E1 F1 B1 D1 Hi) as X1.
  pose proof (run_field sch S m _ _ _ _ i E2 F2 B2 D2 Hi) as X2.
  pose proof (fits_occurrences sch m i rs1 S Hi F1) as Fo1. pose proof (fits_occurrences sch m i rs2 S Hi F2) as Fo2.
  pose proof (field_at_ok sch m i S Hi) as [_ FO].
  rewrite mean_occ in X, X1, X2 by assumption. fold ty num in X, X1, X2, Fo1, Fo2, FO.
  assert (Oc : occurrences num (rs1 ++ rs2) = occurrences num rs1 ++ occurrences num rs2)
    by (unfold occurrences; now rewrite filter_app, map_app).
  rewrite Oc in X. unfold same_field in *. split; [|split; [|split; [|split]]].
  - intro N. rewrite N, app_nil_r in X. congruence.
  - intro N. rewrite N in X. cbn [app] in X. congruence.
  - intros t Ty N. rewrite Ty in *. rewrite fold_last_single in X2 by exact N.
    rewrite fold_last_single in X by (intro C; apply app_eq_nil in C; tauto).
    rewrite X, X2. do 2 f_equal. clear -N. induction (occurrences num rs1) as [|w ws IH]; [reflexivity|].
    cbn [app]. rewrite <- IH. destruct (ws ++ occurrences num rs2) eqn:C; [|reflexivity].
    apply app_eq_nil in C. tauto.
  - intros e Ty He. rewrite Ty in *. cbn [default_field] in *.
    assert (Ha : match e with ES t => is_blob t || is_enum t = true | EM _ => True end).
    { destruct e as [t|]; [|exact I]. destruct He as [ <- | [ <- | [ <- | [] ]]]; reflexivity. }
    rewrite fold_append in X, X1, X2 by (auto; apply Forall_app; auto). cbn [app canon_field list_of] in *.
    injection X as X. injection X1 as X1. injection X2 as X2.
    rewrite X, map_app, X1, X2, flat_map_app, map_app. reflexivity.
  - intros k e key Ty. rewrite Ty in *. cbn [default_field] in *.
    rewrite fold_map in X, X1, X2 by (auto; apply Forall_app; auto). cbn [canon_field map_of] in *.
    injection X as X. injection X1 as X1. injection X2 as X2.
    pose proof (lookup_canon sch k e key _ _ FO X) as Y. pose proof (lookup_canon sch k e key _ _ FO X1) as Y1.
    pose proof (lookup_canon sch k e key _ _ FO X2) as Y2.
    rewrite map_app, fold_left_app in Y. rewrite lookup_fold in Y, Y1, Y2 by exact FO. cbn [lookup] in Y1, Y2.
    rewrite Y. rewrite lookup_fold by exact FO. cbn [lookup].
    destruct (lookup k key (rev (map (entry_of sch k e) (occurrences num rs2)))) as [v2|];
      destruct (lookup k key (map_of (nth i r2 VNull))) as [v2'|]; cbn [option_map] in *; try discriminate; auto.
Qed.

Definition nest_sch : schema :=
  [ mkMsg [mkField 1 (FSing (EM 1))] [0%nat];
    mkMsg [mkField 1 (FSing (ES TInt32)); mkField 2 (FSing (ES TInt32))] [0; 1]%nat ].

Lemma enc_msg_small num rs content : field_number num -> 8 * num + 2 < 128 ->
  enc_recs rs content -> Zlen content < 128 -> forall rs' bs, enc_recs rs' bs ->
  enc_recs ((num, WMsg rs) :: rs') ([8 * num + 2] ++ (Zlen content :: content) ++ bs).
Proof.
  intros N N8 E L rs' bs R. unfold field_number in N. pose proof (Zlen_nonneg content).
  constructor; auto.
  - split; [constructor; cbn [wtype]; lia | cbn; lia].
  - apply enc_msg with (content := content); [exact E|]. exists [Zlen content].
    split; [|reflexivity]. split; [constructor; lia | cbn; lia].
Qed.

(** Two occurrences of a singular message field: what only the first one sets is lost, although protobuf prescribes the
    meaning of one occurrence with the contents of both. *)
Theorem C23_merge_refuted : forall sch m i m' rs1 rs2 bs r o j,
  schema_ok sch -> (i < length (md_fields (msg_at sch m)))%nat -> f_ty (field_at sch m i) = FSing (EM m') ->
  (j < length (md_fields (msg_at sch m')))%nat ->
  let num := f_num (field_at sch m i) in let ty := f_ty (field_at sch m' j) in
  enc_recs [(num, WMsg rs1); (num, WMsg rs2)] bs -> fits sch m [(num, WMsg rs1); (num, WMsg rs2)] ->
  Zlen bs <= INT_MAX -> deserializes sch m bs r o ->
  occurrences (f_num (field_at sch m' j)) rs2 = [] ->
  ~ same_field sch ty (nth j (mean sch m' rs1) VNull) (default_field ty) ->
  ~ same sch m r (mean sch m [(num, WMsg (rs1 ++ rs2))]).
Proof.
  intros sch m i m' rs1 rs2 bs r o j S Hi Ty Hj num ty E F B D N Nd C.
  pose proof (run_field sch S m _ _ _ _ i E F B D Hi) as X. rewrite mean_occ in X by assumption.
  destruct (run_read_result sch S m _ _ _ _ E F B D) as (_ & L & _).
  pose proof (same_nth sch m r _ i L (mean_length sch m _) C Hi) as Y. rewrite mean_occ in Y by assumption.
  unfold same_field in *. rewrite X in Y. fold num in Y. unfold occurrences in Y at 1 2. cbn [filter fst] in Y.
  rewrite Z.eqb_refl in Y. cbn [map snd] in Y. rewrite Ty in Y. cbn [fold_left mean_field canon_field] in Y.
  rewrite !mean_elem_msg, !canon_elem_msg in Y. cbn [collapse] in Y.
  assert (K : forall rs, nth j (canon_obj sch m' (mean sch m' rs)) VNull = canon_field sch ty (nth j (mean sch m' rs) VNull)).
  { intro rs. rewrite canon_obj_spec. unfold ty, field_at. apply canon_fields_nth; [now apply mean_length | exact Hj]. }
  assert (K2 : canon_field sch ty (nth j (mean sch m' rs2) VNull) = canon_field sch ty (default_field ty)).
  { rewrite mean_occ by assumption. rewrite N. reflexivity. }
  assert (K12 : canon_field sch ty (nth j (mean sch m' (rs1 ++ rs2)) VNull) = canon_field sch ty (nth j (mean sch m' rs1) VNull)).
  { rewrite !mean_occ by assumption. unfold occurrences in *. rewrite filter_app, map_app, N, app_nil_r. reflexivity. }
  destruct (forallb is_default (canon_obj sch m' (mean sch m' rs2))) eqn:D2,
           (forallb is_default (canon_obj sch m' (mean sch m' (rs1 ++ rs2)))) eqn:D12; try discriminate.
  - apply Nd. rewrite <- K12. apply canon_field_default. rewrite <- K. rewrite forallb_forall in D12. apply D12. apply nth_In.
    rewrite canon_obj_spec, canon_fields_length; [exact Hj | now apply mean_length].
  - injection Y as Y. apply Nd. rewrite <- K12, <- K, <- Y, K. exact K2.
Qed.

(** {a: 5} and {b: 6}: field a is lost. *)
Example C23_merge_case : schema_ok nest_sch /\
  enc_recs [(1, WMsg [(1, WVarint 5)]); (1, WMsg [(2, WVarint 6)])] [10; 2; 8; 5; 10; 2; 16; 6] /\
  fits nest_sch 0 [(1, WMsg [(1, WVarint 5)]); (1, WMsg [(2, WVarint 6)])] /\
  deserializes nest_sch 0 [10; 2; 8; 5; 10; 2; 16; 6] [VMsg [VScalar (SNum 0); VScalar (SNum 6)]] (Ok tt) /\
  occurrences 1 [(2, WVarint 6)] = [] /\
  ~ same_field nest_sch (FSing (ES TInt32)) (nth 0 (mean nest_sch 1 [(1, WVarint 5)]) VNull) (VScalar (SNum 0)).
Proof.
  split.
  { constructor; [|constructor; [|constructor]]; (split; [|split; [|split]]).
    - repeat constructor. cbn. tauto.
    - repeat constructor; cbn; lia.
    - repeat constructor. cbn. tauto.
    - intro i. cbn. lia.
    - repeat constructor; cbn; lia.
    - repeat constructor; cbn; lia.
    - repeat constructor; cbn; lia.
    - intro i. cbn. lia. }
  split.
  { apply (enc_msg_small 1 [(1, WVarint 5)] [8; 5]); try (unfold field_number; lia); try reflexivity.
    - apply (enc_small 1 5); [unfold field_number; lia..|constructor].
    - apply (enc_msg_small 1 [(2, WVarint 6)] [16; 6]); try (unfold field_number; lia); try reflexivity.
      + apply (enc_small 2 6); [unfold field_number; lia..|constructor].
      + constructor. }
  split; [cbn; auto 10|]. split; [split; [discriminate|]; exists 9%nat; vm_compute; reflexivity|].
  split; [reflexivity|]. vm_compute. discriminate.
Qed.

Example C23_case : enc_recs [(1, WVarint 5)] [8; 5] /\ enc_recs [(7, WVarint 3)] [56; 3] /\
  fits ex_sch 0 [(1, WVarint 5)] /\ fits ex_sch 0 [(7, WVarint 3)] /\
  snd (deserializeMessage 9 false ex_sch 0 ([8; 5] ++ [56; 3])) = Ok tt.
Proof.
  split; [apply (enc_small 1 5); [unfold field_number; lia..|constructor]|].
  split; [apply (enc_small 7 3); [unfold field_number; lia..|constructor]|].
  split; [cbn; auto|]. split; [cbn; auto|]. vm_compute. reflexivity.
Qed.

Print Assumptions C08_packed_record_round_trip.
Print Assumptions C08_empty_list_not_sent.
Print Assumptions C08_list_field_round_trip.
Print Assumptions C09_blob_list_round_trip.
Print Assumptions C09_message_list_round_trip.
Print Assumptions C09_one_record_per_element.
Print Assumptions C10_map_round_trip.
Print Assumptions C11_enum_round_trip.
Print Assumptions C11_enum_list_round_trip.
Print Assumptions C11_zero_not_sent.
Print Assumptions C12_message_round_trip.
Print Assumptions C13_output_well_formed.
Print Assumptions C14_order_irrelevant.
Print Assumptions C14_interleaving_irrelevant.
Print Assumptions C15_unknown_fields_skipped.
Print Assumptions C17_absent_default.
Print Assumptions C16_last_one_wins.
Print Assumptions C16_lists_append.
Print Assumptions C16_map_last_entry.
Print Assumptions C16_packed_numbers_partial.
Print Assumptions C16_packed_concat_refuted.
Print Assumptions C18_failure_keeps_prefix_partial.
Print Assumptions C18_run_partial.
Print Assumptions C18_negative_length_refuted.
Print Assumptions C19_truncation_not_accepted.
Print Assumptions C19_truncated_message_not_accepted.
Print Assumptions C22_serialization_terminates.
Print Assumptions C22_recursive_type_refuted.
Print Assumptions C22_cycle_diverges.
Print Assumptions C23_concatenation_partial.
Print Assumptions C23_merge_refuted.

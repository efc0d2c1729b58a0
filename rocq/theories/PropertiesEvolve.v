(** Property C84: programs with different versions of a schema understand each other. *)

From Coq Require Import ZArith List Bool Lia ZifyBool.
From Verif Require Import Base WireModel Values MessageModel WireSpec WireProofs MessageSpec
  MessageProofs SerializeProofs ReaderProofs MessageFacts RunFacts TagFacts EvolveSpec EvolveProofs.
Import ListNotations.
Open Scope Z_scope.
Ltac Zify.zify_post_hook ::= Z.div_mod_to_equations.

(** A program with the schema [sch] serializes a message; a program with another version [sch'] of the schema deserializes it: this
    succeeds, and the message it gets is what the protobuf documentation says it becomes: numbers of a compatible type are cast, texts
    may become bytes, messages may become bytes, single texts and messages may become lists and the other way round, new fields have
    their default values and removed fields are ignored.  At any depth of nesting, in lists and in maps.  Missing: negative int32 in
    a field that has become int64 or uint64 ([lost] in EvolveSpec.v), bool in place of int64, uint64 and enums, numbers that become
    lists (see below). *)
Theorem C84_versions_partial : forall sch sch' related m m' obj bs,
  schema_ok sch -> schema_ok sch' -> versions sch sch' related -> related m m' ->
  object_ok sch m obj -> serializes sch m obj bs -> Zlen bs <= INT_MAX ->
  exists r r', deserializes sch' m' bs r (Ok tt) /\ same sch' m' r r' /\ becomes sch sch' (EM m) (EM m') (VMsg obj) (VMsg r').
Proof.
  intros sch sch' related m m' obj bs S S' V R O (fuel & Se) B.
  destruct (message_becomes sch sch' related S S' V fuel m m' obj bs R O Se B) as (rs & E & F & Bc).
  destruct (run_read sch' S' m' rs bs E F B) as (r & D & _ & Sm). exists r, (mean sch' m' rs). auto.
Qed.

(** Corollaries on the fields of the message that was read, whatever run is considered. *)
Lemma version_field sch sch' related m m' obj bs r o : schema_ok sch -> schema_ok sch' -> versions sch sch' related -> related m m' ->
  object_ok sch m obj -> serializes sch m obj bs -> Zlen bs <= INT_MAX -> deserializes sch' m' bs r o ->
  o = Ok tt /\ exists r', becomes sch sch' (EM m) (EM m') (VMsg obj) (VMsg r') /\
    forall i', (i' < length (md_fields (msg_at sch' m')))%nat -> same_field sch' (f_ty (field_at sch' m' i')) (nth i' r VNull) (nth i' r' VNull).
Proof.
  intros S S' V R O (fuel & Se) B D.
  destruct (message_becomes sch sch' related S S' V fuel m m' obj bs R O Se B) as (rs & E & F & Bc).
  destruct (run_read_result sch' S' m' rs bs r o E F B D) as (Eo & _ & _). split; [exact Eo|]. exists (mean sch' m' rs). split; [exact Bc|].
  intros i' Hi'. exact (run_field sch' S' m' rs bs r o i' E F B D Hi').
Qed.

(** A field the sender does not know has its default value. *)
Theorem C84_new_field : forall sch sch' related m m' obj bs r o i',
  schema_ok sch -> schema_ok sch' -> versions sch sch' related -> related m m' ->
  object_ok sch m obj -> serializes sch m obj bs -> Zlen bs <= INT_MAX -> deserializes sch' m' bs r o ->
  (i' < length (md_fields (msg_at sch' m')))%nat ->
  (forall i, (i < length (md_fields (msg_at sch m)))%nat -> f_num (field_at sch m i) <> f_num (field_at sch' m' i')) ->
  o = Ok tt /\ same_field sch' (f_ty (field_at sch' m' i')) (nth i' r VNull) (default_field (f_ty (field_at sch' m' i'))).
Proof.
  intros sch sch' related m m' obj bs r o i' S S' V R O Se B D Hi' No.
  destruct (version_field sch sch' related m m' obj bs r o S S' V R O Se B D) as (-> & r' & Bc & Sf). split; [reflexivity|].
  inversion Bc as [| ? ? ? ? L _ Nw | |]; subst. rewrite <- (Nw i' Hi' No). now apply Sf.
Qed.

Lemma number_field sch sch' related m m' obj bs r o i i' t t' z :
  schema_ok sch -> schema_ok sch' -> versions sch sch' related -> related m m' ->
  object_ok sch m obj -> serializes sch m obj bs -> Zlen bs <= INT_MAX -> deserializes sch' m' bs r o ->
  (i < length (md_fields (msg_at sch m)))%nat -> (i' < length (md_fields (msg_at sch' m')))%nat ->
  f_num (field_at sch m i) = f_num (field_at sch' m' i') ->
  f_ty (field_at sch m i) = FSing (ES t) -> f_ty (field_at sch' m' i') = FSing (ES t') -> nth i obj VNull = VScalar (SNum z) ->
  t' <> TFloat -> t' <> TDouble ->
  o = Ok tt /\ num_of (scalar_of (nth i' r VNull)) = arrives t t' z.
Proof.
  intros S S' V R O Se B D Hi Hi' Nu Ty Ty' Ev Nf Nd.
  destruct (version_field sch sch' related m m' obj bs r o S S' V R O Se B D) as (-> & r' & Bc & Sf). split; [reflexivity|].
  inversion Bc as [| ? ? ? ? L Bf _ | |]; subst. specialize (Bf i i' Hi Hi' Nu). specialize (Sf i' Hi'). rewrite Ty, Ty' in Bf. rewrite Ty' in Sf. rewrite Ev in Bf.
  set (y := nth i' r' VNull) in *. clearbody y.
  inversion Bf as [? ? ? ? Be| | | | | |]; subst. inversion Be as [? ? ? s' Sb| | |]; subst. destruct s' as [z'|]; [|contradiction]. cbn [scalar_becomes] in Sb. subst z'.
  unfold same_field in Sf. cbn [canon_field] in Sf. rewrite !canon_elem_scalar in Sf. cbn [collapse] in Sf.
  pose proof (f_equal (fun v => num_of (scalar_of v)) Sf) as X. cbn [scalar_of] in X.
  pose proof (V m m' R i i' Hi Hi' Nu) as M. rewrite Ty, Ty' in M. cbn in M. destruct M as [Fa _].
  assert (Bl : is_blob t' = false).
  { rewrite <- (family_blob t t' Fa). pose proof O as O'. apply object_ok_spec in O'.
    assert (Ov : val_ok sch (f_ty (field_at sch m i)) (nth i obj VNull)).
    { unfold field_at. clear - O' Hi. revert i Hi. induction O' as [|f x fl ol Hx HF IH]; intros i Hi; simpl in Hi; [lia|]. destruct i; cbn [nth]; [exact Hx|]. apply IH. lia. }
    rewrite Ty, Ev in Ov. cbn in Ov. destruct t; try reflexivity; contradiction. }
  unfold canon_scalar in X. rewrite Bl in X. destruct t'; try congruence; exact X.
Qed.

(** An integer in a field whose type has changed is read as the number cast to the new type, so it keeps its value if it fits. Missing:
    the numbers of the next theorem. *)
Theorem C84_number_partial : forall sch sch' related m m' obj bs r o i i' t t' z,
  schema_ok sch -> schema_ok sch' -> versions sch sch' related -> related m m' ->
  object_ok sch m obj -> serializes sch m obj bs -> Zlen bs <= INT_MAX -> deserializes sch' m' bs r o ->
  (i < length (md_fields (msg_at sch m)))%nat -> (i' < length (md_fields (msg_at sch' m')))%nat ->
  f_num (field_at sch m i) = f_num (field_at sch' m' i') ->
  f_ty (field_at sch m i) = FSing (ES t) -> f_ty (field_at sch' m' i') = FSing (ES t') -> nth i obj VNull = VScalar (SNum z) ->
  t' <> TFloat -> t' <> TDouble -> ~ (t = TInt32 /\ (t' = TInt64 \/ t' = TUInt64) /\ z < 0) ->
  o = Ok tt /\ num_of (scalar_of (nth i' r VNull)) = cast t t' z /\ (scalar_ok t' (SNum z) -> num_of (scalar_of (nth i' r VNull)) = z).
Proof.
  intros sch sch' related m m' obj bs r o i i' t t' z S S' V R O Se B D Hi Hi' Nu Ty Ty' Ev Nf Nd Nl.
  destruct (number_field sch sch' related m m' obj bs r o i i' t t' z S S' V R O Se B D Hi Hi' Nu Ty Ty' Ev Nf Nd) as (-> & E). split; [reflexivity|].
  assert (L : arrives t t' z = cast t t' z).
  { unfold arrives. replace (lost t t' z) with false; [reflexivity|]. destruct t; try reflexivity. destruct t'; try reflexivity; cbn [lost]; symmetry; apply Z.ltb_ge; destruct (Z_lt_le_dec z 0); auto; exfalso; apply Nl; auto. }
  rewrite E, L. split; [reflexivity|]. intro Ok'. destruct t'; cbn [scalar_ok] in Ok'; try contradiction; cbn [cast]; try reflexivity.
  - now apply (toS_small 32).
  - now apply (toS_small 64).
  - unfold in_u in Ok'. now apply Z.mod_small.
  - unfold in_u in Ok'. now apply Z.mod_small.
  - destruct t; try reflexivity. unfold in_s in Ok'. replace ((- 2 ^ 31 <=? z) && (z <? 2 ^ 31)) with true by lia. reflexivity.
  - unfold in_u in Ok'. now apply Z.mod_small.
  - unfold in_u in Ok'. now apply Z.mod_small.
  - now apply (toS_small 32).
  - now apply (toS_small 64).
  - destruct Ok' as [-> | ->]; reflexivity.
  - now apply (toS_small 32).
Qed.

(** A negative int32 in a field that has become int64 or uint64 is read as the number plus 2^32, instead of the number itself (int64)
    or the number plus 2^64 (uint64): -1 becomes 4294967295. The sender does not extend the sign. *)
Theorem C84_widened_refuted : forall sch sch' related m m' obj bs r o i i' t' z,
  schema_ok sch -> schema_ok sch' -> versions sch sch' related -> related m m' ->
  object_ok sch m obj -> serializes sch m obj bs -> Zlen bs <= INT_MAX -> deserializes sch' m' bs r o ->
  (i < length (md_fields (msg_at sch m)))%nat -> (i' < length (md_fields (msg_at sch' m')))%nat ->
  f_num (field_at sch m i) = f_num (field_at sch' m' i') ->
  f_ty (field_at sch m i) = FSing (ES TInt32) -> f_ty (field_at sch' m' i') = FSing (ES t') -> t' = TInt64 \/ t' = TUInt64 ->
  nth i obj VNull = VScalar (SNum z) -> z < 0 ->
  o = Ok tt /\ num_of (scalar_of (nth i' r VNull)) = z + 2 ^ 32 /\ num_of (scalar_of (nth i' r VNull)) <> cast TInt32 t' z.
Proof.
  intros sch sch' related m m' obj bs r o i i' t' z S S' V R O Se B D Hi Hi' Nu Ty Ty' T Ev Neg.
  destruct (number_field sch sch' related m m' obj bs r o i i' TInt32 t' z S S' V R O Se B D Hi Hi' Nu Ty Ty' Ev ltac:(destruct T; congruence) ltac:(destruct T; congruence)) as (-> & E). split; [reflexivity|].
  pose proof O as O'. apply object_ok_spec in O'.
  assert (Ov : val_ok sch (f_ty (field_at sch m i)) (nth i obj VNull)).
  { unfold field_at. clear - O' Hi. revert i Hi. induction O' as [|f x fl ol Hx HF IH]; intros i Hi; simpl in Hi; [lia|]. destruct i; cbn [nth]; [exact Hx|]. apply IH. lia. }
  rewrite Ty, Ev in Ov. cbn in Ov. unfold in_s in Ov.
  assert (A : arrives TInt32 t' z = z + 2 ^ 32) by (unfold arrives; destruct T as [-> | ->]; cbn [lost]; apply Z.ltb_lt in Neg; now rewrite Neg).
  rewrite E, A. split; [reflexivity|]. destruct T as [-> | ->]; cbn [cast].
  - change (twos 64 z) with (toS 64 z). rewrite (toS_small 64) by (unfold in_s; lia). lia.
  - lia.
Qed.

(** A message with a single number, from the bytes to its record. *)
Lemma single_number sch m f t z bs : schema_ok sch -> md_fields (msg_at sch m) = [f] -> f_ty f = FSing (ES t) -> scalar_ok t (SNum z) ->
  omitted t (SNum z) = false -> serializes sch m [VScalar (SNum z)] bs -> Zlen bs <= INT_MAX -> enc_recs [(f_num f, wv t (SNum z))] bs.
Proof.
  intros S Fs Ty Ok1 Om (fuel & Se) B.
  destruct fuel as [|fuel]; [discriminate|]. cbn [serializeMessage] in Se.
  pose proof (msg_at_ok sch m S) as (_ & _ & ND & Cov). rewrite Fs in Cov. cbn [length] in Cov.
  assert (Or : md_order (msg_at sch m) = [0%nat]).
  { destruct (md_order (msg_at sch m)) as [|a l]; [exfalso; apply (proj2 (Cov 0%nat)); lia|].
    assert (a = 0%nat) by (pose proof (proj1 (Cov a) (or_introl eq_refl)); lia). subst a. destruct l as [|b l]; [reflexivity|].
    assert (b = 0%nat) by (pose proof (proj1 (Cov b) (or_intror (or_introl eq_refl))); lia). subst b. inversion ND as [|? ? X _]. exfalso. apply X. now left. }
  rewrite Or in Se. cbn [map nth] in Se. apply concat_res_cons in Se. destruct Se as (a & b & Se & Nl & ->). cbn in Nl. injection Nl as <-. rewrite app_nil_r in *.
  assert (Fa : field_at sch m 0 = f) by (unfold field_at; now rewrite Fs). rewrite Fa in Se. unfold serializeProperty in Se. rewrite Ty in Se. cbn [serializeElement scalar_of] in Se. injection Se as <-.
  assert (Fo : field_ok f) by (rewrite <- Fa; apply field_at_ok; [exact S | rewrite Fs; cbn; lia]). destruct Fo as [N _].
  pose proof (serializeScalar_enc t (SNum z) (f_num f) Ok1 N B) as E. now rewrite Om in E.
Qed.

(** A number in a field that has become a bool is read as false if its lower 32 bits are zero, also if it is not zero. *)
Theorem C84_bool_refuted : forall sch sch' m m' f t z bs r o i',
  schema_ok sch -> schema_ok sch' -> md_fields (msg_at sch m) = [f] -> f_ty f = FSing (ES t) -> t = TInt64 \/ t = TUInt64 ->
  scalar_ok t (SNum z) -> z <> 0 -> z mod 2 ^ 32 = 0 -> serializes sch m [VScalar (SNum z)] bs -> Zlen bs <= INT_MAX ->
  (i' < length (md_fields (msg_at sch' m')))%nat -> f_num (field_at sch' m' i') = f_num f -> f_ty (field_at sch' m' i') = FSing (ES TBool) ->
  deserializes sch' m' bs r o -> o = Ok tt /\ num_of (scalar_of (nth i' r VNull)) = 0.
Proof.
  intros sch sch' m m' f t z bs r o i' S S' Fs Ty T Ok1 Nz Lo Se B Hi' Nu Ty' D.
  assert (Om : omitted t (SNum z) = false) by (destruct T as [-> | ->]; cbn [omitted num_of]; lia).
  pose proof (single_number sch m f t z bs S Fs Ty Ok1 Om Se B) as E. rewrite <- Nu in E.
  assert (exists v, wv t (SNum z) = WVarint v /\ v mod 2 ^ 32 = 0) as (v & Wv & Lv).
  { destruct T as [-> | ->]; cbn [wv num_of]; eexists; (split; [reflexivity|]); lia. }
  rewrite Wv in E. destruct (bool_single sch' m' i' v _ r o S' Hi' Ty' E D) as (-> & X). split; [reflexivity|]. rewrite X, Lv. reflexivity.
Qed.

(** Numbers that are sent as varints. *)
Definition varint_number (t : sty) : Prop := (family t <= 1)%nat.

(** A number in a field that has become a list of numbers is lost: protobuf prescribes the list with this number, since readers accept single
    numbers also for lists that are packed. *)
Theorem C84_list_refuted : forall sch sch' m m' f t t' z bs r o i',
  schema_ok sch -> schema_ok sch' -> md_fields (msg_at sch m) = [f] -> f_ty f = FSing (ES t) -> varint_number t ->
  scalar_ok t (SNum z) -> z <> 0 -> serializes sch m [VScalar (SNum z)] bs -> Zlen bs <= INT_MAX ->
  (i' < length (md_fields (msg_at sch' m')))%nat -> f_num (field_at sch' m' i') = f_num f ->
  f_ty (field_at sch' m' i') = FRep (ES t') -> varint_number t' -> deserializes sch' m' bs r o -> nth i' r VNull = VList [].
Proof.
  intros sch sch' m m' f t t' z bs r o i' S S' Fs Ty T Ok1 Nz Se B Hi' Nu Ty' T' D.
  assert (Om : omitted t (SNum z) = false) by (destruct t; cbv in T; try (exfalso; clear - T; lia); cbn [omitted num_of]; lia).
  pose proof (single_number sch m f t z bs S Fs Ty Ok1 Om Se B) as E. rewrite <- Nu in E.
  assert (exists v, wv t (SNum z) = WVarint v) as (v & Wv) by (destruct t; cbv in T; try (exfalso; clear - T; lia); eexists; reflexivity).
  rewrite Wv in E. apply (unpacked_number sch' m' i' t' v bs r o S' Hi' Ty'); [|exact E | exact D]. destruct t'; cbv in T'; try (exfalso; clear - T'; lia); exact Logic.I.
Qed.

(** ** A schema and its next version

    Version 1: Person { int32 id = 1; string name = 2; repeated sint32 marks = 3; Place home = 4; map<string, Place> places = 5;
    bool old = 6; Place work = 8 }, Place { uint32 zip = 1 }.
    Version 2: Place { string street = 2; uint64 zip = 1 }, Person { Place work = 8; repeated bytes names = 2; int64 id = 1;
    repeated sint64 marks = 3; bytes home = 4; map<string, Place> places = 5; double height = 7 }. *)
Definition people1 : schema :=
  [mkMsg [mkField 1 (FSing (ES TInt32)); mkField 2 (FSing (ES TString)); mkField 3 (FRep (ES TSInt32)); mkField 4 (FSing (EM 1));
          mkField 5 (FMap TString (EM 1)); mkField 6 (FSing (ES TBool)); mkField 8 (FSing (EM 1))] [0; 1; 2; 3; 4; 5; 6]%nat;
   mkMsg [mkField 1 (FSing (ES TUInt32))] [0%nat]].
Definition people2 : schema :=
  [mkMsg [mkField 2 (FSing (ES TString)); mkField 1 (FSing (ES TUInt64))] [1; 0]%nat;
   mkMsg [mkField 8 (FSing (EM 0)); mkField 2 (FRep (ES TBytes)); mkField 1 (FSing (ES TInt64)); mkField 3 (FRep (ES TSInt64));
          mkField 4 (FSing (ES TBytes)); mkField 5 (FMap TString (EM 0)); mkField 7 (FSing (ES TDouble))] [2; 1; 3; 4; 5; 6; 0]%nat].
Definition next_version (m m' : nat) : Prop := (m = 0 /\ m' = 1 \/ m = 1 /\ m' = 0)%nat.

Ltac ok_schema := repeat (constructor; [split; [|split; [|split]]; [repeat constructor; cbn; try lia; try (intros [E|E]; try discriminate E; tauto); auto 10 ..| intro i; cbn; lia]|]); constructor.

Lemma people1_ok : schema_ok people1. Proof. ok_schema. Qed.
Lemma people2_ok : schema_ok people2. Proof. ok_schema. Qed.

Lemma people_versions : versions people1 people2 next_version.
Proof.
  intros m m' [[-> ->]|[-> ->]] i i' Hi Hi' E; cbn in Hi, Hi';
    (repeat (destruct i as [|i]; [|try (exfalso; lia)])); (repeat (destruct i' as [|i']; [|try (exfalso; lia)])); cbn in E; try discriminate E; cbn; unfold may_become, next_version; cbn; auto;
    repeat split; auto; try discriminate.
Qed.

Definition ann : list value :=
  [VScalar (SNum 7); VScalar (SStr false [65; 110; 110]); VList [VScalar (SNum (-1)); VScalar (SNum 5)]; VMsg [VScalar (SNum 1010)];
   VMap [(SStr false [97], VMsg [VScalar (SNum 3)])]; VScalar (SNum 1); VNull].
Definition ann_bytes : list Z := [8; 7; 18; 3; 65; 110; 110; 26; 2; 1; 10; 34; 3; 8; 242; 7; 42; 7; 10; 1; 97; 18; 2; 8; 3; 48; 1; 66; 0].

Example C84_case : schema_ok people1 /\ schema_ok people2 /\ versions people1 people2 next_version /\ next_version 0 1 /\
  object_ok people1 0 ann /\ serializes people1 0 ann ann_bytes /\
  deserializes people2 1 ann_bytes
    [VMsg [VScalar (SStr true []); VScalar (SNum 0)]; VList [VScalar (SStr false [65; 110; 110])]; VScalar (SNum 7);
     VList [VScalar (SNum (-1)); VScalar (SNum 5)]; VScalar (SStr false [8; 242; 7]);
     VMap [(SStr false [97], VMsg [VScalar (SStr true []); VScalar (SNum 3)])]; VScalar (SNum 0)] (Ok tt).
Proof.
  split; [exact people1_ok|]. split; [exact people2_ok|]. split; [exact people_versions|]. split; [left; auto|]. split; [|split].
  - cbn. unfold in_s, in_u. repeat split; try lia; try discriminate; repeat constructor; lia.
  - exists 9%nat. vm_compute. reflexivity.
  - split; [discriminate|]. exists 9%nat. vm_compute. reflexivity.
Qed.

(** With -1 as id, the second program gets 4294967295. *)
Example C84_widened_case :
  object_ok people1 0 [VScalar (SNum (-1)); VScalar (SStr true []); VList []; VNull; VMap []; VScalar (SNum 0); VNull] /\
  serializes people1 0 [VScalar (SNum (-1)); VScalar (SStr true []); VList []; VNull; VMap []; VScalar (SNum 0); VNull]
    [8; 255; 255; 255; 255; 15; 34; 0; 66; 0] /\
  deserializes people2 1 [8; 255; 255; 255; 255; 15; 34; 0; 66; 0]
    [VMsg [VScalar (SStr true []); VScalar (SNum 0)]; VList []; VScalar (SNum 4294967295); VList []; VScalar (SStr true []); VMap []; VScalar (SNum 0)] (Ok tt).
Proof.
  split; [|split].
  - cbn. unfold in_s, in_u. repeat split; try lia; try discriminate; repeat constructor; lia.
  - exists 9%nat. vm_compute. reflexivity.
  - split; [discriminate|]. exists 9%nat. vm_compute. reflexivity.
Qed.

(** 2^32 in an int64 field that has become a bool. *)
Definition count1 : schema := [mkMsg [mkField 1 (FSing (ES TInt64))] [0%nat]].
Definition count2 : schema := [mkMsg [mkField 1 (FSing (ES TBool))] [0%nat]].
Example C84_bool_case : schema_ok count1 /\ schema_ok count2 /\ scalar_ok TInt64 (SNum (2 ^ 32)) /\
  serializes count1 0 [VScalar (SNum (2 ^ 32))] [8; 128; 128; 128; 128; 16] /\
  deserializes count2 0 [8; 128; 128; 128; 128; 16] [VScalar (SNum 0)] (Ok tt).
Proof.
  split; [ok_schema|]. split; [ok_schema|]. split; [cbn; unfold in_s; lia|]. split.
  - exists 9%nat. vm_compute. reflexivity.
  - split; [discriminate|]. exists 9%nat. vm_compute. reflexivity.
Qed.

(** 5 in an int32 field that has become a list: the reader throws and the list is empty. *)
Definition count3 : schema := [mkMsg [mkField 1 (FSing (ES TInt32))] [0%nat]].
Definition count4 : schema := [mkMsg [mkField 1 (FRep (ES TInt32))] [0%nat]].
Example C84_list_case : schema_ok count3 /\ schema_ok count4 /\ scalar_ok TInt32 (SNum 5) /\ serializes count3 0 [VScalar (SNum 5)] [8; 5] /\
  deserializes count4 0 [8; 5] [VList []] (Throw OutOfRange).
Proof.
  split; [ok_schema|]. split; [ok_schema|]. split; [cbn; unfold in_s; lia|]. split.
  - exists 9%nat. vm_compute. reflexivity.
  - split; [discriminate|]. exists 9%nat. vm_compute. reflexivity.
Qed.

(** An enum in a field that has become a bool. *)
Definition flag1 : schema := [mkMsg [mkField 1 (FSing (ES TEnum))] [0%nat]].
Example C84_enum_bool_case : schema_ok flag1 /\ versions flag1 count2 (fun m m' => m = m' /\ m = 0%nat) /\
  serializes flag1 0 [VScalar (SNum (-1))] [8; 255; 255; 255; 255; 255; 255; 255; 255; 255; 1] /\
  deserializes count2 0 [8; 255; 255; 255; 255; 255; 255; 255; 255; 255; 1] [VScalar (SNum 1)] (Ok tt).
Proof.
  split; [ok_schema|]. split.
  { intros m m' (<- & ->) i i' Hi Hi' _. cbn in Hi, Hi'. destruct i; [|lia]. destruct i'; [|lia]. split; [reflexivity | now right; right; right]. }
  split.
  - exists 9%nat. vm_compute. reflexivity.
  - split; [discriminate|]. exists 9%nat. vm_compute. reflexivity.
Qed.

Print Assumptions C84_list_refuted.
Print Assumptions C84_versions_partial.
Print Assumptions C84_new_field.
Print Assumptions C84_number_partial.
Print Assumptions C84_widened_refuted.
Print Assumptions C84_bool_refuted.

(** Properties C05, C08, C10 and C12 at the level of whole messages, bit for bit.

    [arrives sch m obj r] (ExactSpec) says what exactly a receiver should hold for the sender's member values [obj];
    floating point numbers are bit patterns. *)

From Coq Require Import Relations ZArith List Bool Lia.
From Verif Require Import Base WireModel Values MessageModel WireSpec MessageSpec MessageProofs
  SerializeProofs MessageFacts RunFacts Examples CycleSpec CycleProofs ExactSpec ExactProofs ExactWrite ExactFacts
  PropertiesWire.
Import ListNotations.
Open Scope Z_scope.

(** ** C12 Whole messages *)

(** Everything that arrives, for every type that cannot hold a cycle of singular message fields. *)
Theorem C12_exact_round_trip : forall sch m obj,
  schema_ok sch -> ~ can_hold_cycle sch m -> object_ok sch m obj ->
  exists bs, serializes sch m obj bs /\
    (Zlen bs <= INT_MAX -> exists r, deserializes sch m bs r (Ok tt) /\ arrives sch m obj r).
Proof.
  intros sch m obj S A O. destruct (no_cycle_terminates sch m obj S A) as (f & bs & H).
  assert (Sr : serializes sch m obj bs) by (exists f; apply H; lia).
  exists bs. split; [exact Sr|]. now apply run_arrives.
Qed.

(** There is only one such result. *)
Theorem C12_exact_unique : forall sch m obj r r', arrives sch m obj r -> arrives sch m obj r' -> r = r'.
Proof. intros sch m obj r r' H H'. exact (arrives_fun sch m obj r H r' H'). Qed.

(** A message that was read is sent on without any change: the next receiver gets the identical member values. *)
Theorem C12_forwarded_unchanged : forall sch m obj bs r o bs' r' o',
  schema_ok sch -> object_ok sch m obj -> serializes sch m obj bs -> Zlen bs <= INT_MAX ->
  deserializes sch m bs r o -> serializes sch m r bs' -> Zlen bs' <= INT_MAX ->
  deserializes sch m bs' r' o' -> o = Ok tt /\ o' = Ok tt /\ r' = r.
Proof.
  intros sch m obj bs r o bs' r' o' S O H B D H' B' D'.
  destruct (run_arrives sch m obj bs S O H B) as (r1 & D1 & A1).
  destruct (deserializes_fun _ _ _ _ _ _ _ D D1) as [-> ->].
  destruct (run_arrives sch m r1 bs' S (arrives_ok sch m obj r1 A1 O) H' B') as (r2 & D2 & A2).
  destruct (deserializes_fun _ _ _ _ _ _ _ D' D2) as [-> ->].
  repeat split. symmetry. exact (arrives_fun sch m r1 r1 (arrives_again sch m obj r1 A1) r2 A2).
Qed.

(** Message 0: float, list of floats, map to doubles, string, nested message 1 with a double. *)
Definition fl_sch : schema :=
  [ mkMsg
      [ mkField 1 (FSing (ES TFloat));
        mkField 2 (FRep (ES TFloat));
        mkField 3 (FMap TString (ES TDouble));
        mkField 4 (FSing (ES TString));
        mkField 5 (FSing (EM 1));
        mkField 6 (FRep (EM 1)) ]
      [5; 4; 0; 1; 3; 2]%nat;
    mkMsg [ mkField 1 (FSing (ES TDouble)) ] [0]%nat ].

(** Negative zeros everywhere, a NaN with a payload in the list, an empty string, no nested message. *)
Definition fl_obj : list value :=
  [ VScalar (SNum (2 ^ 31));
    VList [VScalar (SNum (2 ^ 31)); VScalar (SNum 2143289345)];
    VMap [(SStr true [], VScalar (SNum (2 ^ 63)))];
    VScalar (SStr false []);
    VNull;
    VList [VNull; VMsg [VScalar (SNum (2 ^ 63))]] ].

Definition fl_back : list value :=
  [ VScalar (SNum 0);
    VList [VScalar (SNum (2 ^ 31)); VScalar (SNum 2143289345)];
    VMap [(SStr true [], VScalar (SNum (2 ^ 63)))];
    VScalar (SStr true []);
    VMsg [VScalar (SNum 0)];
    VList [VMsg [VScalar (SNum 0)]] ].

Lemma fl_sch_ok : schema_ok fl_sch.
Proof.
  unfold schema_ok, fl_sch.
  constructor; [|constructor; [|constructor]]; unfold msg_ok; cbn [md_fields md_order map f_num].
  - split; [|split; [|split]].
    + repeat (apply NoDup_cons; [cbn; lia|]). apply NoDup_nil.
    + repeat (apply Forall_cons; [split; [vm_compute; split; congruence | cbn; exact Logic.I]|]).
      apply Forall_nil.
    + repeat (apply NoDup_cons; [cbn; lia|]). apply NoDup_nil.
    + intro i. cbn. lia.
  - split; [|split; [|split]].
    + repeat (apply NoDup_cons; [cbn; lia|]). apply NoDup_nil.
    + repeat (apply Forall_cons; [split; [vm_compute; split; congruence | cbn; exact Logic.I]|]).
      apply Forall_nil.
    + repeat (apply NoDup_cons; [cbn; lia|]). apply NoDup_nil.
    + intro i. cbn. lia.
Qed.

Lemma fl_obj_ok : object_ok fl_sch 0 fl_obj.
Proof.
  unfold object_ok, fl_obj. cbn -[Z.pow in_s in_u bytes Z.opp].
  repeat split; try (intro; discriminate); try (unfold in_s, in_u; lia); repeat constructor.
Qed.

Definition fl_bytes : list Z :=
  match serializeMessage 3 fl_sch 0 fl_obj with Ok bs => bs | _ => [] end.

Lemma fl_serializes : serializes fl_sch 0 fl_obj fl_bytes.
Proof. exists 3%nat. vm_compute. reflexivity. Qed.

Lemma fl_reads : deserializes fl_sch 0 fl_bytes fl_back (Ok tt).
Proof. split; [discriminate|]. exists 200%nat. vm_compute. reflexivity. Qed.

Lemma fl_short : Zlen fl_bytes <= INT_MAX.
Proof. vm_compute. discriminate. Qed.

Lemma fl_acyclic : acyclic fl_sch.
Proof.
  exists (fun m => match m with O => 1%nat | _ => 0%nat end). intros m f m' Hin Ty.
  destruct m as [|[|m]]; cbn in Hin.
  - repeat (destruct Hin as [<-|Hin]; [cbn in Ty; try discriminate; injection Ty as <-; lia|]).
    contradiction.
  - repeat (destruct Hin as [<-|Hin]; [discriminate|]). contradiction.
  - destruct m; contradiction.
Qed.

Example C12_exact_case : schema_ok fl_sch /\ ~ can_hold_cycle fl_sch 0 /\ object_ok fl_sch 0 fl_obj /\
  serializes fl_sch 0 fl_obj fl_bytes /\ Zlen fl_bytes <= INT_MAX /\
  deserializes fl_sch 0 fl_bytes fl_back (Ok tt) /\ arrives fl_sch 0 fl_obj fl_back /\
  (exists bs', serializes fl_sch 0 fl_back bs' /\ bs' <> fl_bytes /\ Zlen bs' <= INT_MAX).
Proof.
  split; [exact fl_sch_ok|]. split; [exact (acyclic_no_cycle _ _ fl_acyclic)|]. split; [exact fl_obj_ok|].
  split; [exact fl_serializes|]. split; [exact fl_short|]. split; [exact fl_reads|]. split.
  - destruct (run_arrives fl_sch 0 fl_obj fl_bytes fl_sch_ok fl_obj_ok fl_serializes fl_short) as (r & D & A).
    destruct (deserializes_fun _ _ _ _ _ _ _ D fl_reads) as [-> _]. exact A.
  - exists (match serializeMessage 3 fl_sch 0 fl_back with Ok bs => bs | _ => [] end).
    split; [exists 3%nat; vm_compute; reflexivity|]. split; vm_compute; discriminate.
Qed.

(** ** C05 Floating point numbers and fixed-width integers in messages *)

(** The negative zero of a float or double. *)
Definition negative_zero (t : sty) (v : Z) : Prop :=
  t = TFloat /\ v = 2 ^ 31 \/ t = TDouble /\ v = 2 ^ 63.

(** A singular field arrives with the same bits.  Missing: fields holding a negative zero, see the refutation. *)
Theorem C05_single_field_partial : forall sch m obj bs r o i t v,
  schema_ok sch -> object_ok sch m obj -> serializes sch m obj bs -> Zlen bs <= INT_MAX ->
  deserializes sch m bs r o -> (i < length (md_fields (msg_at sch m)))%nat ->
  In t fixed_types -> f_ty (field_at sch m i) = FSing (ES t) -> nth i obj VNull = VScalar (SNum v) ->
  ~ negative_zero t v ->
  o = Ok tt /\ nth i r VNull = VScalar (SNum v).
Proof.
  intros sch m obj bs r o i t v S O H B D Hi Ht Ty V NZ.
  destruct (run_arrives sch m obj bs S O H B) as (r1 & D1 & A).
  destruct (deserializes_fun _ _ _ _ _ _ _ D D1) as [-> ->]. split; [reflexivity|].
  pose proof (arrives_nth sch m obj r1 i A Hi) as F. rewrite Ty, V in F.
  inversion F as [? ? E1 E2 E3| | | |]; subst. f_equal. unfold negative_zero in NZ.
  unfold fixed_types in Ht. cbn in Ht.
  destruct Ht as [<-|[<-|[<-|[<-|[<-|[<-|[]]]]]]]; cbn [single_back]; try reflexivity.
  - destruct (Z.eqb_spec v (2 ^ 31)); [|reflexivity]. exfalso. apply NZ. now left.
  - destruct (Z.eqb_spec v (2 ^ 63)); [|reflexivity]. exfalso. apply NZ. now right.
Qed.

(** A negative zero in a singular field always arrives as positive zero: it is written, but the setter compares it with
    the zero of the new message by operator== and leaves that. *)
Theorem C05_negative_zero_refuted : forall sch m obj bs r o i t v,
  schema_ok sch -> object_ok sch m obj -> serializes sch m obj bs -> Zlen bs <= INT_MAX ->
  deserializes sch m bs r o -> (i < length (md_fields (msg_at sch m)))%nat ->
  f_ty (field_at sch m i) = FSing (ES t) -> nth i obj VNull = VScalar (SNum v) ->
  negative_zero t v ->
  o = Ok tt /\ nth i r VNull = VScalar (SNum 0) /\ v <> 0.
Proof.
  intros sch m obj bs r o i t v S O H B D Hi Ty V NZ.
  destruct (run_arrives sch m obj bs S O H B) as (r1 & D1 & A).
  destruct (deserializes_fun _ _ _ _ _ _ _ D D1) as [-> ->]. split; [reflexivity|].
  pose proof (arrives_nth sch m obj r1 i A Hi) as F. rewrite Ty, V in F.
  inversion F as [? ? E1 E2 E3| | | |]; subst.
  destruct NZ as [[-> ->] | [-> ->]]; split; try reflexivity; lia.
Qed.

Example C05_single_case : schema_ok fl_sch /\ object_ok fl_sch 0 fl_obj /\ serializes fl_sch 0 fl_obj fl_bytes /\
  Zlen fl_bytes <= INT_MAX /\ deserializes fl_sch 0 fl_bytes fl_back (Ok tt) /\
  f_ty (field_at fl_sch 0 0) = FSing (ES TFloat) /\ nth 0 fl_obj VNull = VScalar (SNum (2 ^ 31)) /\
  negative_zero TFloat (2 ^ 31) /\ ~ negative_zero TFloat 2143289345 /\ In TFloat fixed_types.
Proof.
  split; [exact fl_sch_ok|]. split; [exact fl_obj_ok|]. split; [exact fl_serializes|].
  split; [exact fl_short|]. split; [exact fl_reads|]. split; [reflexivity|]. split; [reflexivity|].
  split; [left; split; reflexivity|]. split; [|cbn; auto].
  intros [[_ E] | [E _]]; discriminate E.
Qed.

(** ** C05, C08 Lists of numbers arrive as they are, bit for bit *)

Theorem C08_list_exact : forall sch m obj bs r o i t,
  schema_ok sch -> object_ok sch m obj -> serializes sch m obj bs -> Zlen bs <= INT_MAX ->
  deserializes sch m bs r o -> (i < length (md_fields (msg_at sch m)))%nat ->
  f_ty (field_at sch m i) = FRep (ES t) -> is_blob t = false ->
  o = Ok tt /\ nth i r VNull = nth i obj VNull.
Proof.
  intros sch m obj bs r o i t S O H B D Hi Ty Bl.
  destruct (run_arrives sch m obj bs S O H B) as (r1 & D1 & A).
  destruct (deserializes_fun _ _ _ _ _ _ _ D D1) as [-> ->]. split; [reflexivity|].
  pose proof (arrives_nth sch m obj r1 i A Hi) as F. rewrite Ty in F.
  pose proof (object_val_ok sch m obj i O Hi) as Ov. rewrite Ty in Ov.
  inversion F as [| | |e l l' Al E1 E2 E3|]; subst.
  match goal with E : VList _ = nth i obj VNull |- _ => rewrite <- E in * end.
  cbn [val_ok] in Ov. f_equal. eapply arrives_numbers; eauto.
Qed.

(** ** C05, C10 Maps to numbers or strings arrive as they are, bit for bit *)

Theorem C10_scalar_map_exact : forall sch m obj bs r o i k t,
  schema_ok sch -> object_ok sch m obj -> serializes sch m obj bs -> Zlen bs <= INT_MAX ->
  deserializes sch m bs r o -> (i < length (md_fields (msg_at sch m)))%nat ->
  f_ty (field_at sch m i) = FMap k (ES t) ->
  o = Ok tt /\ nth i r VNull = nth i obj VNull.
Proof.
  intros sch m obj bs r o i k t S O H B D Hi Ty.
  destruct (run_arrives sch m obj bs S O H B) as (r1 & D1 & A).
  destruct (deserializes_fun _ _ _ _ _ _ _ D D1) as [-> ->]. split; [reflexivity|].
  pose proof (arrives_nth sch m obj r1 i A Hi) as F. rewrite Ty in F.
  inversion F as [| | | |k1 e l l' Al E1 E2 E3]; subst.
  match goal with E : VMap _ = nth i obj VNull |- _ => rewrite <- E in * end.
  f_equal. eapply arrives_scalar_map; eauto.
Qed.

Example C08_C10_exact_case :
  f_ty (field_at fl_sch 0 1) = FRep (ES TFloat) /\ f_ty (field_at fl_sch 0 2) = FMap TString (ES TDouble) /\
  nth 1 fl_obj VNull = VList [VScalar (SNum (2 ^ 31)); VScalar (SNum 2143289345)] /\
  is_nan 32 8 2143289345 = true /\
  nth 2 fl_obj VNull = VMap [(SStr true [], VScalar (SNum (2 ^ 63)))] /\
  deserializes fl_sch 0 fl_bytes fl_back (Ok tt).
Proof.
  split; [reflexivity|]. split; [reflexivity|]. split; [reflexivity|]. split; [reflexivity|].
  split; [reflexivity|]. exact fl_reads.
Qed.

Print Assumptions C12_exact_round_trip.
Print Assumptions C12_exact_unique.
Print Assumptions C12_forwarded_unchanged.
Print Assumptions C05_single_field_partial.
Print Assumptions C05_negative_zero_refuted.
Print Assumptions C08_list_exact.
Print Assumptions C10_scalar_map_exact.

(** Properties C12 (comparison), C17 and C24 - C27, C53: objects of the generated message classes.

    [denotes sch h m xs vs]: the object with the members [xs] in the heap [h] has the value [vs];
    [same]: the values are the same up to the sign of zeros, null against empty strings and not yet
    created against default nested messages; [proper]: well typed, no NaN, no null elements in
    repeated message fields and maps.  [returns], [crashes]: outcome of a call. *)

From Coq Require Import ZArith List Bool Lia.
From Verif Require Import Base WireModel Values MessageModel WireSpec MessageSpec MessageProofs SerializeProofs
  MessageFacts RunFacts PropFacts Examples ObjectModel ObjectSpec ObjectProofs ObjectTotal AssignProofs
  ObjectFacts ObjectClash ObjectShare TagFacts TypedProofs CycleSpec CycleProofs.
Import ListNotations.
Open Scope Z_scope.

(** ** Schemas and objects of the examples *)

(** Message 0 has fields of all kinds but maps to messages. *)
Definition pr_sch : schema :=
  [ mkMsg [ mkField 1 (FSing (ES TInt32)); mkField 2 (FSing (ES TFloat)); mkField 3 (FSing (ES TString));
            mkField 4 (FSing (EM 1)); mkField 5 (FRep (EM 1)); mkField 6 (FRep (ES TInt32));
            mkField 7 (FMap TString (ES TBytes)) ] [0; 1; 2; 3; 4; 5; 6]%nat;
    mkMsg [ mkField 1 (FSing (ES TSInt64)); mkField 2 (FSing (ES TString)) ] [0; 1]%nat ].

Ltac msg_tac :=
  unfold msg_ok; cbn [md_fields md_order map f_num];
  split; [|split; [|split]];
  [ repeat (apply NoDup_cons; [cbn; lia|]); apply NoDup_nil
  | repeat (apply Forall_cons; [split; [vm_compute; split; congruence | cbn; exact I]|]); apply Forall_nil
  | repeat (apply NoDup_cons; [cbn; lia|]); apply NoDup_nil
  | intro i; cbn; lia ].
Ltac schema_tac := repeat (apply Forall_cons; [msg_tac|]); apply Forall_nil.

Lemma pr_sch_ok : schema_ok pr_sch.
Proof. schema_tac. Qed.

Lemma pr_no_maps : no_message_maps pr_sch.
Proof.
  intros [|[|m]] f k m' I; cbn in I; [| |destruct m; contradiction];
    repeat (destruct I as [<-|I]; [discriminate|]); contradiction.
Qed.

(** Two objects in the heap, used as elements of a repeated field. *)
Definition pr_heap : heap :=
  [ [MScalar (SNum 7); MScalar (str [97])]; [MScalar (SNum (-1)); MScalar (str [])] ].
Definition pr_mems : list mem :=
  [ MScalar (SNum 5); MScalar (SNum 1065353216); MScalar (str [98; 99]);
    MOwn (Some [MScalar (SNum 3); MScalar (str [])]); MPtrs [Some 0%nat; Some 1%nat];
    MScalars [SNum 1; SNum (-2)]; MScalarMap [(str [97], str [1; 2])] ].
Definition pr_obj : list value :=
  [ VScalar (SNum 5); VScalar (SNum 1065353216); VScalar (str [98; 99]);
    inner 3 []; VList [inner 7 [97]; inner (-1) []];
    VList [VScalar (SNum 1); VScalar (SNum (-2))]; VMap [(str [97], VScalar (str [1; 2]))] ].
(** The same type: default values, nested message not created. *)
Definition pr_mems0 : list mem := default_mems pr_sch 0.
Definition pr_obj0 : list value := default_obj pr_sch 0.

Lemma pr_denotes : denotes pr_sch pr_heap 0 pr_mems pr_obj.
Proof. repeat econstructor. Qed.
Lemma pr_denotes0 : denotes pr_sch pr_heap 0 pr_mems0 pr_obj0.
Proof. apply den_default. Qed.
Lemma pr_proper : proper pr_sch 0 pr_obj.
Proof.
  split; [|split].
  - unfold object_ok, pr_obj, inner, str. cbn -[Z.pow in_s in_u bytes Z.opp].
    repeat split; try (intro; discriminate); try (unfold in_s, in_u; lia);
      repeat constructor; unfold is_byte; lia.
  - cbn. repeat split; discriminate.
  - cbn. repeat split; discriminate.
Qed.
Lemma pr_proper0 : proper pr_sch 0 pr_obj0.
Proof. split; [apply default_ok | split; [apply default_nan_free | apply default_no_nulls]]. Qed.

(** A nested message with a map to messages: message 0 contains message 1, which has a map to
    message 2. *)
Definition mm_sch : schema :=
  [ mkMsg [mkField 1 (FSing (EM 1))] [0%nat];
    mkMsg [mkField 1 (FMap TInt32 (EM 2))] [0%nat];
    mkMsg [mkField 1 (FSing (ES TInt32))] [0%nat] ].
Lemma mm_sch_ok : schema_ok mm_sch.
Proof. schema_tac. Qed.
Definition mm_heap : heap := [ [MScalar (SNum 1)]; [MScalar (SNum 2)] ].
(** {1: x} and {2: y} in the nested message. *)
Definition mm_a : list mem := [MOwn (Some [MPtrMap [(SNum 1, Some 0%nat)]])].
Definition mm_b : list mem := [MOwn (Some [MPtrMap [(SNum 2, Some 1%nat)]])].
Definition mm_va : list value := [VMsg [VMap [(SNum 1, VMsg [VScalar (SNum 1)])]]].
Definition mm_vb : list value := [VMsg [VMap [(SNum 2, VMsg [VScalar (SNum 2)])]]].
Lemma mm_denotes_a : denotes mm_sch mm_heap 0 mm_a mm_va.
Proof. repeat econstructor. Qed.
Lemma mm_denotes_b : denotes mm_sch mm_heap 0 mm_b mm_vb.
Proof. repeat econstructor. Qed.
Lemma mm_proper_a : proper mm_sch 0 mm_va.
Proof.
  split; [|split]; cbn; repeat split; try discriminate; try (constructor); unfold in_s; cbn; lia.
Qed.
Lemma mm_proper_b : proper mm_sch 0 mm_vb.
Proof.
  split; [|split]; cbn; repeat split; try discriminate; try (constructor); unfold in_s; cbn; lia.
Qed.

(** {1: x}, with another x than [mm_a], and the conditions on maps to messages. *)
Definition mm_c : list mem := [MOwn (Some [MPtrMap [(SNum 1, Some 1%nat)]])].
Definition mm_vc : list value := [VMsg [VMap [(SNum 1, VMsg [VScalar (SNum 2)])]]].
Lemma mm_denotes_c : denotes mm_sch mm_heap 0 mm_c mm_vc.
Proof. repeat econstructor. Qed.
Lemma mm_proper_c : proper mm_sch 0 mm_vc.
Proof.
  split; [|split]; cbn; repeat split; try discriminate; try (constructor); unfold in_s; cbn; lia.
Qed.
Lemma mm_comparable : comparable mm_sch 0 mm_va mm_vc.
Proof.
  constructor. intros [|i] v w L A B; cbn in A, B; [|destruct i; discriminate].
  injection A as <-. injection B as <-. apply comparable_nested. constructor.
  intros [|i] v w L' A B; cbn in A, B; [|destruct i; discriminate]. injection A as <-. injection B as <-.
  apply comparable_map; [intros _ c; reflexivity|].
  intros a a' vs ws _ [A|[]] [B|[]] _. injection A as <- <-. injection B as <- <-.
  constructor. intros [|i] v w L'' A B; cbn in A, B; [|destruct i; discriminate]. now apply comparable_plain.
Qed.
Lemma mm_clash : clash mm_sch 1 [VMap [(SNum 1, VMsg [VScalar (SNum 1)])]] [VMap [(SNum 2, VMsg [VScalar (SNum 2)])]].
Proof.
  exists 0%nat, TInt32, 2%nat, [(SNum 1, VMsg [VScalar (SNum 1)])], [(SNum 2, VMsg [VScalar (SNum 2)])], (SNum 1).
  split; [cbn; lia|]. do 4 (split; [reflexivity|]). split; [now left|].
  split; [intros [H|[]]; discriminate|]. split; [|intros; lia].
  intros b b' v v' [A|[]] [B|[]] E. injection A as <- <-. injection B as <- <-. discriminate.
Qed.
Lemma mm_nested_clash : nested_clash mm_sch 0 0 1 mm_va mm_vb.
Proof.
  split; [cbn; lia|]. split; [reflexivity|]. eexists. eexists. split; [reflexivity|]. split; [reflexivity|].
  split; [exact mm_clash|]. intros; lia.
Qed.
Lemma pr_no_map_nested : no_map_nested pr_sch 0.
Proof.
  intros f m I T. exists (fun m => m = 1%nat). cbn in I.
  repeat (destruct I as [<-|I]; [cbn in T; try discriminate|]); try contradiction. injection T as <-.
  split; [reflexivity|]. intros m' f -> I'. cbn in I'. repeat (destruct I' as [<-|I']; [exact Logic.I|]). contradiction.
Qed.
Lemma pr_nested_comparable : nested_comparable pr_sch 0 pr_obj pr_obj0.
Proof. apply nested_default_right. Qed.

(** ** C12 Whole messages, in terms of operator== *)

(** Serialize, deserialize: operator== of the result and the original says true. *)
Theorem C12_compares_equal : forall sch h m xs obj,
  schema_ok sch -> ~ can_hold_cycle sch m -> denotes sch h m xs obj -> proper sch m obj ->
  exists bs, serializes sch m obj bs /\
    (Zlen bs <= INT_MAX ->
     exists r, deserializes sch m bs r (Ok tt) /\
       forall ys, denotes sch h m ys r -> returns (fun fuel => eq_obj fuel sch h m ys xs) true).
Proof.
  intros sch h m xs obj S A D (O & N & Nn). destruct (no_cycle_terminates sch m obj S A) as (f & bs & H).
  assert (Sr : serializes sch m obj bs) by (exists f; apply H; lia).
  exists bs. split; [exact Sr|]. intro B.
  destruct (run_round_trip sch S m obj bs O Sr B) as (r & Dr & _ & Sm).
  exists r. split; [exact Dr|]. intros ys Dy. rewrite drop_nulls_obj in Sm by exact Nn.
  destruct (run_write sch S m obj bs O Sr B) as (g & E & _).
  destruct (deserialize_typed sch m bs r (Ok tt) (enc_recs_bytes _ _ E) Dr) as [Or _].
  eapply returns_mono; [intro; apply eq_obj_mono1|].
  apply (eq_obj_same sch h S (1 + odepth r + odepth obj) m ys xs r obj); auto; try lia.
  eapply same_nan_free; eauto.
Qed.

Example C12_compare_case : schema_ok pr_sch /\ ~ can_hold_cycle pr_sch 0 /\ denotes pr_sch pr_heap 0 pr_mems pr_obj /\
  proper pr_sch 0 pr_obj /\
  eq_obj 5 pr_sch pr_heap 0 pr_mems pr_mems = Ok true /\ eq_obj 5 pr_sch pr_heap 0 pr_mems pr_mems0 = Ok false.
Proof.
  split; [exact pr_sch_ok|]. split; [|split; [exact pr_denotes | split; [exact pr_proper | split; reflexivity]]].
  apply acyclic_no_cycle. exists (fun m => match m with O => 1%nat | _ => 0%nat end). intros m f m' Hin Ty.
  destruct m as [|[|m]]; cbn in Hin; [| |destruct m; contradiction];
    repeat (destruct Hin as [<-|Hin]; [cbn in Ty; try discriminate; injection Ty as <-; lia|]); contradiction.
Qed.

(** ** C53 Deserialization yields well-typed objects *)

(** Whatever the input is and however reading it ends, every member of the object has a value of
    its type; keys of maps are in order and distinct. *)
Theorem C53_result_well_typed : forall sch m data r o, bytes data -> deserializes sch m data r o ->
  object_ok sch m r.
Proof. intros sch m data r o B D. now destruct (deserialize_typed sch m data r o B D). Qed.

(** Elements of repeated message fields are never null. *)
Theorem C53_no_null_elements : forall sch m data r o, bytes data -> no_message_maps sch ->
  deserializes sch m data r o -> no_nulls (VMsg r).
Proof. intros sch m data r o B NM D. destruct (deserialize_typed sch m data r o B D). auto. Qed.

(** Not so for the values of a map to messages: an entry without value is stored with a null pointer. *)
Theorem C53_null_map_value_refuted : forall sch m es bs r o i k m',
  schema_ok sch -> (i < length (md_fields (msg_at sch m)))%nat -> f_ty (field_at sch m i) = FMap k (EM m') ->
  Forall (fun x => fst x = 1 /\ fits_scalar k (snd x)) es ->
  enc_recs [(f_num (field_at sch m i), WMsg es)] bs -> Zlen bs <= INT_MAX -> deserializes sch m bs r o ->
  o = Ok tt /\ ~ no_nulls (VMsg r).
Proof.
  intros sch m es bs r o i k m' S Hi Ty F E B D.
  destruct (entry_read sch m i k (EM m') es bs r o S Hi Ty) as (-> & val & Hv & Hn & _); auto.
  { eapply Forall_impl; [|exact F]. intros x X. left. exact X. }
  split; [reflexivity|]. rewrite Hn in Hv.
  2:{ unfold others. clear - F. induction F as [|x es [X _] F IH]; [reflexivity|]. cbn [filter]. rewrite X. cbn. exact IH. }
  intro C. assert (I : In (VMap [(last (map (mean_scalar k) (occurrences 1 es)) (default_scalar k), VNull)]) r).
  { cbn [default_element] in Hv. rewrite <- Hv. apply nth_In. destruct (Nat.lt_ge_cases i (length r)) as [L|L]; [exact L|].
    rewrite nth_overflow in Hv by assumption. discriminate. }
  clear - C I. induction r as [|v r IH]; [contradiction|]. cbn in C. destruct C as [C1 C2]. destruct I as [->|I].
  - cbn in C1. destruct C1 as [[C1 _] _]. now apply C1.
  - apply IH; assumption.
Qed.

(** The entry {1: 5}. *)
Example C53_null_map_value_case : f_ty (field_at mm_sch 1 0) = FMap TInt32 (EM 2) /\
  fits_scalar TInt32 (WVarint 5) /\ enc_recs [(1, WMsg [(1, WVarint 5)])] [10; 2; 8; 5] /\
  deserializes mm_sch 1 [10; 2; 8; 5] [VMap [(SNum 5, VNull)]] (Ok tt).
Proof.
  split; [reflexivity|]. split; [exact I|]. split.
  - change [10; 2; 8; 5] with ([10] ++ [2; 8; 5] ++ []). constructor; [unfold field_number; cbn; lia| | |constructor].
    + split; [constructor; cbn; lia | cbn; lia].
    + apply enc_msg with (content := [8; 5]).
      * change [8; 5] with ([8] ++ [5] ++ []). constructor; [unfold field_number; cbn; lia| | |constructor].
        -- split; [constructor; cbn; lia | cbn; lia].
        -- constructor; [unfold in_u; lia|]. split; [constructor; cbn; lia | cbn; lia].
      * exists [2]. split; [|reflexivity]. split; [constructor; cbn; lia | cbn; lia].
  - split; [discriminate|]. exists 10%nat. reflexivity.
Qed.

Example C53_case : deserializes pr_sch 0 [8; 5; 42; 2; 8; 13; 50; 1; 7; 99]
    [VScalar (SNum 5); VScalar (SNum 0); VScalar (SStr true []); VNull;
     VList [VMsg [VScalar (SNum (-7)); VScalar (SStr true [])]]; VList [VScalar (SNum 7)]; VMap []]
    (Throw InvalidArgument) /\
  bytes [8; 5; 42; 2; 8; 13; 50; 1; 7; 99] /\ no_message_maps pr_sch.
Proof.
  split; [split; [discriminate | exists 12%nat; vm_compute; reflexivity]|].
  split; [repeat constructor; lia | exact pr_no_maps].
Qed.

(** ** C17 The previous content of the target *)

(** deserialize(target, data): [ys] are the members of the newly built object with the value [r] read from the data,
    which is then assigned to the target, also if an exception passes. The target gets this value, whatever it held.
    Condition on maps to messages: those in the nested messages of the target and of the new object can be compared,
    see below, and have no null values. Missing: maps to messages that cannot be compared or have null values (see
    below). *)
Theorem C17_target_replaced_partial : forall sch h m data r o xs old ys,
  schema_ok sch -> bytes data -> deserializes sch m data r o -> denotes sch h m ys r -> no_nulls (VMsg r) ->
  denotes sch h m xs old -> object_ok sch m old -> no_nulls (VMsg old) -> nested_comparable sch m old r ->
  exists xs' us, returns (fun fuel => deserialize_into fuel sch h m xs ys) xs' /\
    denotes sch h m xs' us /\ same sch m us r.
Proof.
  intros sch h m data r o xs old ys S B Dr Dy Nr Dx Oo No C.
  destruct (deserialize_typed sch m data r o B Dr) as [Or _].
  set (n := (1 + odepth old + odepth r)%nat).
  destruct (assign_returns sch h S n m xs ys old r Dx Dy Oo Or C No Nr ltac:(unfold n; lia) ltac:(unfold n; lia))
    as [[xs' sg] E].
  destruct (assign_sound sch h S n m xs ys old r xs' sg Dx Dy Oo Or No Nr E) as (us & Du & _ & _ & Su).
  exists xs', us. split; [|split; [exact Du | exact Su]]. unfold deserialize_into.
  apply (returns_bind (fun fuel => assign fuel sch h m xs ys) (fun _ p => let '(x, _) := p in Ok x) (xs', sg));
    [|apply returns_const].
  eapply returns_mono; [intro; apply assign_mono | exact E].
Qed.

(** The new object exists: [e] are the objects added to the heap for its elements; the objects that were there keep
    their values. *)
Theorem C17_read_object : forall sch h m data r o, bytes data -> deserializes sch m data r o ->
  exists e ys, denotes sch (h ++ e) m ys r /\
    (forall m' xs old, denotes sch h m' xs old -> denotes sch (h ++ e) m' xs old).
Proof.
  intros sch h m data r o B Dr. destruct (deserialize_typed sch m data r o B Dr) as [Or _].
  destruct (realize sch (1 + odepth r) m r ltac:(lia) Or h) as (e & ys & D).
  exists e, ys. split; [exact D|]. intros m' xs old Do. now apply den_extend.
Qed.

(** Two targets end up with the same value. Missing: as above. *)
Theorem C17_independent_of_target_partial : forall sch h m data r o xs1 old1 xs2 old2 ys,
  schema_ok sch -> bytes data -> deserializes sch m data r o -> denotes sch h m ys r -> no_nulls (VMsg r) ->
  denotes sch h m xs1 old1 -> object_ok sch m old1 -> no_nulls (VMsg old1) -> nested_comparable sch m old1 r ->
  denotes sch h m xs2 old2 -> object_ok sch m old2 -> no_nulls (VMsg old2) -> nested_comparable sch m old2 r ->
  exists r1 us1 r2 us2, returns (fun fuel => deserialize_into fuel sch h m xs1 ys) r1 /\
    returns (fun fuel => deserialize_into fuel sch h m xs2 ys) r2 /\
    denotes sch h m r1 us1 /\ denotes sch h m r2 us2 /\ same sch m us1 us2.
Proof.
  intros sch h m data r o xs1 old1 xs2 old2 ys S B Dr Dy Nr D1 O1 N1 C1 D2 O2 N2 C2.
  destruct (C17_target_replaced_partial sch h m data r o xs1 old1 ys) as (r1 & us1 & A1 & A2 & A3); auto.
  destruct (C17_target_replaced_partial sch h m data r o xs2 old2 ys) as (r2 & us2 & B1 & B2 & B3); auto.
  exists r1, us1, r2, us2. split; [exact A1|]. split; [exact B1|]. split; [exact A2|]. split; [exact B2|].
  unfold same in *. congruence.
Qed.

(** Without maps to messages there is no condition. *)
Theorem C17_without_message_maps : forall sch h m data r o xs old ys,
  schema_ok sch -> no_message_maps sch -> bytes data -> deserializes sch m data r o -> denotes sch h m ys r ->
  denotes sch h m xs old -> object_ok sch m old -> no_nulls (VMsg old) ->
  exists xs' us, returns (fun fuel => deserialize_into fuel sch h m xs ys) xs' /\
    denotes sch h m xs' us /\ same sch m us r.
Proof.
  intros sch h m data r o xs old ys S NM B Dr Dy Dx Oo No.
  destruct (deserialize_typed sch m data r o B Dr) as [Or Nr].
  eapply C17_target_replaced_partial; eauto.
  apply comparable_nested_of. apply no_map_comparable; auto. exists (fun _ => True). split; [exact Logic.I|].
  intros m' f _ I. specialize (NM m' f). destruct (f_ty f) as [[]|[]|k []] eqn:T; auto. now apply (NM k m0).
Qed.

(** Nor is there one on a new target, whatever its type. *)
Theorem C17_new_target : forall sch h m data r o ys,
  schema_ok sch -> bytes data -> deserializes sch m data r o -> denotes sch h m ys r -> no_nulls (VMsg r) ->
  exists xs' us, returns (fun fuel => deserialize_into fuel sch h m (default_mems sch m) ys) xs' /\
    denotes sch h m xs' us /\ same sch m us r.
Proof.
  intros sch h m data r o ys S B Dr Dy Nr.
  eapply C17_target_replaced_partial; eauto using den_default, default_ok, default_no_nulls, nested_default_left.
Qed.

(** Missing: targets with maps to messages in their nested messages, if the new map has as many entries but other
    keys.  There deserialize crashes: the assignment compares the old and the new map, and looks up the keys of one
    in the other. *)
Theorem C17_message_map_refuted : forall sch h m data r o xs old ys i m',
  schema_ok sch -> bytes data -> deserializes sch m data r o -> denotes sch h m ys r -> proper sch m r ->
  denotes sch h m xs old -> proper sch m old -> nested_clash sch m i m' old r ->
  crashes (fun fuel => deserialize_into fuel sch h m xs ys).
Proof.
  intros sch h m data r o xs old ys i m' S B Dr Dy Pr Dx Po C.
  exists (1 + odepth old + odepth r)%nat, NullDeref. intros fuel L. unfold deserialize_into.
  destruct (nested_clash_crashes sch h S fuel m i m' xs ys old r) as [-> _]; auto; lia.
Qed.

Example C17_message_map_case : schema_ok mm_sch /\ bytes [10; 8; 10; 6; 8; 2; 18; 2; 8; 2] /\
  deserializes mm_sch 0 [10; 8; 10; 6; 8; 2; 18; 2; 8; 2] mm_vb (Ok tt) /\
  denotes mm_sch mm_heap 0 mm_b mm_vb /\ proper mm_sch 0 mm_vb /\
  denotes mm_sch mm_heap 0 mm_a mm_va /\ proper mm_sch 0 mm_va /\ nested_clash mm_sch 0 0 1 mm_va mm_vb /\
  nested_comparable mm_sch 0 mm_va mm_vc /\ denotes mm_sch mm_heap 0 mm_c mm_vc.
Proof.
  split; [exact mm_sch_ok|]. split; [repeat constructor; lia|].
  split; [split; [discriminate|]; exists 20%nat; vm_compute; reflexivity|].
  split; [exact mm_denotes_b|]. split; [exact mm_proper_b|]. split; [exact mm_denotes_a|]. split; [exact mm_proper_a|].
  split; [exact mm_nested_clash|]. split; [apply comparable_nested_of, mm_comparable | exact mm_denotes_c].
Qed.

(** The case: reading an empty input into an object that has every field set. *)
Example C17_case : deserializes pr_sch 0 [] pr_obj0 (Ok tt) /\
  denotes pr_sch pr_heap 0 pr_mems pr_obj /\ proper pr_sch 0 pr_obj /\
  denotes pr_sch pr_heap 0 pr_mems0 pr_obj0 /\
  exists xs, deserialize_into 5 pr_sch pr_heap 0 pr_mems pr_mems0 = Ok xs /\
    eq_obj 5 pr_sch pr_heap 0 xs pr_mems0 = Ok true /\
    eq_obj 5 pr_sch pr_heap 0 pr_mems pr_mems0 = Ok false.
Proof.
  split; [split; [discriminate | exists 1%nat; reflexivity]|].
  split; [exact pr_denotes|]. split; [exact pr_proper|]. split; [exact pr_denotes0|].
  eexists. split; [vm_compute; reflexivity|]. split; reflexivity.
Qed.

(** ** C24 Setters *)

(** Setter of a field that is a scalar, a list of scalars or a map to scalars: the object
    has the value with the argument in place, nothing else changes; the signal is emitted
    if and only if this is a different value. *)
Theorem C24_plain_setter : forall sch h m xs vs i new w fuel,
  schema_ok sch -> denotes sch h m xs vs -> proper sch m vs ->
  (i < length (md_fields (msg_at sch m)))%nat ->
  match f_ty (field_at sch m i) with FSing (ES _) | FRep (ES _) | FMap _ (ES _) => True | _ => False end ->
  den_field sch h (f_ty (field_at sch m i)) new w -> proper sch m (upd i w vs) ->
  exists xs' s us, set_field fuel sch h m xs i new = Ok (xs', s) /\ denotes sch h m xs' us /\
    same sch m us (upd i w vs) /\ (s = true <-> ~ same sch m vs (upd i w vs)) /\
    (forall j, j <> i -> nth j xs' (MOwn None) = nth j xs (MOwn None)).
Proof.
  intros sch h m xs vs i new w fuel S D P L T Dw Pw.
  assert (Lv : length vs = length (md_fields (msg_at sch m))) by (apply object_ok_length, P).
  assert (Pf : field_proper sch (f_ty (field_at sch m i)) w).
  { pose proof (proper_nth sch m _ i Pw L) as X. rewrite upd_nth_same in X; [exact X | lia]. }
  destruct (set_field_plain sch h S fuel m xs vs i new w D P L) as (x & s & u & R & Du & Pu & Su & _ & Sg); auto.
  { destruct (f_ty (field_at sch m i)) as [[]|[]|? []]; auto; contradiction. }
  assert (Sg' : s = false <-> same_field sch (f_ty (field_at sch m i)) (nth i vs VNull) w).
  { apply Sg. destruct (f_ty (field_at sch m i)) as [[]|[]|? []]; auto; contradiction. }
  exists (upd i x xs), s, (upd i u vs). split; [exact R|]. inversion D; subst.
  split; [constructor; now apply den_upd|]. split; [now apply same_upd|]. split.
  - rewrite same_upd_old by auto. destruct s; split; intro X; try discriminate; auto.
    + intro Y. apply Sg' in Y. discriminate.
    + exfalso. now apply X, Sg'.
  - intros j N. apply upd_nth_other; congruence.
Qed.

Example C24_plain_case :
  set_field 0 pr_sch pr_heap 0 pr_mems 0 (MScalar (SNum 6)) = Ok (upd 0 (MScalar (SNum 6)) pr_mems, true) /\
  set_field 0 pr_sch pr_heap 0 pr_mems 0 (MScalar (SNum 5)) = Ok (pr_mems, false) /\
  proper pr_sch 0 (upd 0 (VScalar (SNum 6)) pr_obj).
Proof.
  split; [reflexivity|]. split; [reflexivity|]. apply proper_upd; [exact pr_proper | cbn; lia|].
  repeat split; cbn; unfold in_s; lia.
Qed.

(** A NaN differs from everything, also from itself: it is always stored and the signal emitted. *)
Theorem C24_nan_setter : forall sch h m xs i t b fuel,
  (i < length (md_fields (msg_at sch m)))%nat -> f_ty (field_at sch m i) = FSing (ES t) ->
  ~ not_nan t (SNum b) ->
  set_field fuel sch h m xs i (MScalar (SNum b)) = Ok (upd i (MScalar (SNum b)) xs, true).
Proof.
  intros sch h m xs i t b fuel L T N. unfold set_field. rewrite T. unfold set_plain.
  replace (mem_eqb (FSing (ES t)) (nth i xs (MOwn None)) (MScalar (SNum b))) with false; [reflexivity|].
  destruct (nth i xs (MOwn None)) as [s| | | | |]; cbn [mem_eqb]; auto.
  destruct t; try (exfalso; now apply N); rewrite ?not_nan_float, ?not_nan_double in N; cbn [scalar_eqb num_of] in *; unfold feqb;
    destruct (is_nan _ _ b); try (exfalso; now apply N); cbn [negb]; now rewrite andb_false_r.
Qed.

Example C24_nan_case : ~ not_nan TFloat (SNum 2143289344) /\ f_ty (field_at pr_sch 0 1) = FSing (ES TFloat).
Proof. split; [intro H; vm_compute in H; now apply H | reflexivity]. Qed.

(** Setter of a message field, if maps to messages in the old and the new message can be compared. Missing: maps to
    messages that cannot be compared, where the setter crashes (see below). *)
Theorem C24_message_setter_partial : forall sch h m xs vs i m' new w,
  schema_ok sch -> comparable_at sch (FSing (EM m')) (nth i vs VNull) w -> denotes sch h m xs vs -> proper sch m vs ->
  (i < length (md_fields (msg_at sch m)))%nat -> f_ty (field_at sch m i) = FSing (EM m') ->
  den_field sch h (FSing (EM m')) new w -> proper sch m (upd i w vs) ->
  exists xs' s us, returns (fun fuel => set_field fuel sch h m xs i new) (xs', s) /\
    denotes sch h m xs' us /\ same sch m us (upd i w vs) /\
    (s = true <-> ~ same sch m vs (upd i w vs)) /\
    (forall j, j <> i -> nth j xs' (MOwn None) = nth j xs (MOwn None)).
Proof.
  intros sch h m xs vs i m' new w S Cm D P L T Dw Pw.
  assert (Lv : length vs = length (md_fields (msg_at sch m))) by (apply object_ok_length, P).
  assert (C : call_ok sch h m (i, new) (i, w)).
  { repeat split; auto; cbn [fst snd]; try (rewrite T; exact Dw);
      pose proof (proper_nth sch m _ i Pw L) as X; rewrite upd_nth_same in X by lia; apply X. }
  destruct (set_field_step sch h S m xs vs (i, new) (i, w)) as (x & s & u & R & Du & Pu & Su & Sg); auto.
  { intros m'' T'. cbn [fst snd] in *. rewrite T in T'. injection T' as <-. exact Cm. }
  cbn [fst snd] in *.
  assert (Sg' : s = false <-> same_field sch (f_ty (field_at sch m i)) (nth i vs VNull) w).
  { apply Sg. rewrite T. reflexivity. }
  exists (upd i x xs), s, (upd i u vs). split; [exact R|]. inversion D; subst.
  split; [constructor; now apply den_upd|]. split; [now apply same_upd|]. split.
  - rewrite same_upd_old by auto. destruct s; split; intro X; try discriminate; auto.
    + intro Y. apply Sg' in Y. discriminate.
    + exfalso. now apply X, Sg'.
  - intros j N. apply upd_nth_other; congruence.
Qed.

Example C24_message_case : exists xs',
  set_field 5 pr_sch pr_heap 0 pr_mems 3 (MOwn (Some [MScalar (SNum 3); MScalar (str [1])])) = Ok (xs', true) /\
  set_field 5 pr_sch pr_heap 0 pr_mems 3 (MOwn (Some [MScalar (SNum 3); MScalar (str [])])) = Ok (pr_mems, false) /\
  set_field 5 pr_sch pr_heap 0 pr_mems0 3 (MOwn (Some (default_mems pr_sch 1))) = Ok (pr_mems0, false) /\
  proper pr_sch 0 (upd 3 (inner 3 [1]) pr_obj).
Proof.
  eexists. split; [vm_compute; reflexivity|]. split; [reflexivity|]. split; [reflexivity|].
  apply proper_upd; [exact pr_proper | cbn; lia|].
  repeat split; cbn; unfold in_s; try lia; try discriminate; repeat constructor; unfold is_byte; lia.
Qed.

(** Missing: messages with maps to messages that have as many entries but other keys, where the setter crashes. *)
Theorem C24_message_setter_refuted : forall sch h m xs vs i m' new us us',
  schema_ok sch -> denotes sch h m xs vs -> proper sch m vs ->
  (i < length (md_fields (msg_at sch m)))%nat -> f_ty (field_at sch m i) = FSing (EM m') ->
  nth_error vs i = Some (VMsg us) -> den_field sch h (FSing (EM m')) new (VMsg us') ->
  proper sch m (upd i (VMsg us') vs) -> clash sch m' us us' ->
  crashes (fun fuel => set_field fuel sch h m xs i new).
Proof.
  intros sch h m xs vs i m' new us us' S D P L T E Dn Pn C.
  exists (1 + odepth us + odepth us')%nat, NullDeref. intros fuel Lf.
  assert (Lv : length vs = length (md_fields (msg_at sch m))) by (apply object_ok_length, P).
  eapply (set_field_clash sch h S fuel m m' xs vs i new us us'); eauto; try lia.
  pose proof (proper_nth sch m _ i Pn L) as X. rewrite upd_nth_same in X by lia. now rewrite T in X.
Qed.

Example C24_message_setter_crash_case : schema_ok mm_sch /\ denotes mm_sch mm_heap 0 mm_a mm_va /\ proper mm_sch 0 mm_va /\
  den_field mm_sch mm_heap (FSing (EM 1)) (nth 0 mm_b (MOwn None)) (nth 0 mm_vb VNull) /\
  proper mm_sch 0 (upd 0 (nth 0 mm_vb VNull) mm_va) /\
  clash mm_sch 1 [VMap [(SNum 1, VMsg [VScalar (SNum 1)])]] [VMap [(SNum 2, VMsg [VScalar (SNum 2)])]] /\
  comparable_at mm_sch (FSing (EM 1)) (nth 0 mm_va VNull) (nth 0 mm_vc VNull).
Proof.
  split; [exact mm_sch_ok|]. split; [exact mm_denotes_a|]. split; [exact mm_proper_a|].
  split; [repeat econstructor|]. split; [exact mm_proper_b|]. split; [exact mm_clash|].
  pose proof mm_comparable as C. inversion C as [m vs ws F]; subst. exact (F 0%nat _ _ ltac:(cbn; lia) eq_refl eq_refl).
Qed.

(** Setter of a repeated message field or a map to messages: the argument is stored; without a
    signal the value was the same before. *)
Theorem C24_container_setter_partial : forall sch h m xs vs i new w fuel,
  schema_ok sch -> denotes sch h m xs vs -> proper sch m vs ->
  (i < length (md_fields (msg_at sch m)))%nat ->
  match f_ty (field_at sch m i) with FRep (EM _) | FMap _ (EM _) => True | _ => False end ->
  den_field sch h (f_ty (field_at sch m i)) new w -> proper sch m (upd i w vs) ->
  exists xs' s us, set_field fuel sch h m xs i new = Ok (xs', s) /\ denotes sch h m xs' us /\
    same sch m us (upd i w vs) /\ (s = false -> same sch m vs (upd i w vs) /\ xs' = xs).
Proof.
  intros sch h m xs vs i new w fuel S D P L T Dw Pw.
  assert (Lv : length vs = length (md_fields (msg_at sch m))) by (apply object_ok_length, P).
  assert (M : is_message (f_ty (field_at sch m i)) = false).
  { destruct (f_ty (field_at sch m i)) as [[]|[]|? []]; auto; contradiction. }
  inversion D; subst.
  pose proof (den_nth sch h _ _ _ i H L) as Di. fold (field_at sch m i) in Di.
  pose proof (field_key sch S m i L) as K.
  destruct (set_plain (f_ty (field_at sch m i)) (nth i xs (MOwn None)) new) as [x s] eqn:E.
  destruct (set_plain_spec sch h _ _ _ _ _ x s K M Di Dw E) as (u & Du & Su & _ & C).
  exists (upd i x xs), s, (upd i u vs). split.
  - unfold set_field. destruct (f_ty (field_at sch m i)) as [[]|[]|? []]; try contradiction; now rewrite E.
  - split; [constructor; now apply den_upd|]. split; [now apply same_upd|].
    intro F. destruct (C F) as [C1 ->]. split; [now apply same_upd_old | apply upd_self].
Qed.

(** Missing: the signal is also emitted for equal messages: always when the pointers to the messages are not the same,
    whatever the messages contain. *)
Theorem C24_container_setter_refuted : forall sch h m xs i new fuel,
  match f_ty (field_at sch m i) with
  | FRep (EM _) => ptrs_of (nth i xs (MOwn None)) <> ptrs_of new
  | FMap _ (EM _) => map snd (ptr_map_of (nth i xs (MOwn None))) <> map snd (ptr_map_of new)
  | _ => False
  end ->
  set_field fuel sch h m xs i new = Ok (upd i new xs, true).
Proof. intros. now apply set_other_pointers. Qed.

(** Two equal messages at different addresses. *)
Example C24_container_setter_case :
  let h := [ [MScalar (SNum 7); MScalar (str [97])]; [MScalar (SNum 7); MScalar (str [97])] ] in
  let xs := upd 4 (MPtrs [Some 0%nat]) pr_mems0 in
  let vs := upd 4 (VList [inner 7 [97]]) pr_obj0 in
  denotes pr_sch h 0 xs vs /\ proper pr_sch 0 vs /\
  den_field pr_sch h (f_ty (field_at pr_sch 0 4)) (MPtrs [Some 1%nat]) (VList [inner 7 [97]]) /\
  same pr_sch 0 vs (upd 4 (VList [inner 7 [97]]) vs) /\
  ptrs_of (nth 4 xs (MOwn None)) <> ptrs_of (MPtrs [Some 1%nat]) /\
  set_field 0 pr_sch h 0 xs 4 (MPtrs [Some 1%nat]) = Ok (upd 4 (MPtrs [Some 1%nat]) xs, true).
Proof.
  cbv zeta. split; [repeat econstructor|].
  split.
  { apply proper_upd; [exact pr_proper0 | cbn; lia|].
    repeat split; cbn; unfold in_s; try lia; try discriminate; repeat constructor; unfold is_byte; lia. }
  split; [repeat econstructor|]. split; [reflexivity|]. split; [cbn; discriminate | reflexivity].
Qed.

(** Any sequence of setter calls: every field ends with its last argument, and the number of its
    signals is the number of calls whose argument differed from the value before
    (containers of messages excepted, see above).  Missing: nested messages with maps to messages, see above. *)
Theorem C24_setter_sequence_partial : forall sch h m calls args xs vs,
  schema_ok sch -> no_map_nested sch m -> denotes sch h m xs vs -> proper sch m vs ->
  Forall2 (call_with sch h m) calls args ->
  exists xs' vs' sigs, returns (fun fuel => set_fields fuel sch h m xs calls) (xs', sigs) /\
    denotes sch h m xs' vs' /\ proper sch m vs' /\
    (forall i, (i < length (md_fields (msg_at sch m)))%nat ->
       same_field sch (f_ty (field_at sch m i)) (nth i vs' VNull) (last (args_for i args) (nth i vs VNull)) /\
       (match f_ty (field_at sch m i) with FRep (EM _) | FMap _ (EM _) => False | _ => True end ->
          changes (same_field sch (f_ty (field_at sch m i))) (nth i vs VNull) (args_for i args)
            (count_occ Nat.eq_dec sigs i))).
Proof.
  intros sch h m calls args xs vs S NM D P F.
  assert (F' : Forall2 (call_ok sch h m) calls args) by (clear - F; induction F; auto using call_with_ok).
  destruct (set_fields_calls sch h S m NM calls args xs vs F' D P) as (xs' & vs' & sg & R & D' & P' & C).
  exists xs', vs', sg. split; [exact R|]. split; [exact D'|]. split; [exact P'|]. intros i L.
  destruct (C i L) as [C1 C2]. split; [exact C1|]. intro V. apply C2.
  destruct (f_ty (field_at sch m i)) as [[]|[]|? []]; try reflexivity; contradiction.
Qed.

Example C24_sequence_case : exists xs',
  set_fields 5 pr_sch pr_heap 0 pr_mems
    [(0%nat, MScalar (SNum 6)); (2%nat, MScalar (str [])); (0%nat, MScalar (SNum 6)); (0%nat, MScalar (SNum 5))]
  = Ok (xs', [0; 2; 0]%nat) /\ no_map_nested pr_sch 0 /\
  changes (same_field pr_sch (FSing (ES TInt32))) (VScalar (SNum 5))
    [VScalar (SNum 6); VScalar (SNum 6); VScalar (SNum 5)] 2 /\
  call_with pr_sch pr_heap 0 (0%nat, MScalar (SNum 6)) (0%nat, VScalar (SNum 6)).
Proof.
  eexists. split; [vm_compute; reflexivity|]. split; [exact pr_no_map_nested|]. split.
  - apply changes_diff; [intro H; vm_compute in H; discriminate|].
    apply changes_same; [reflexivity|]. apply changes_diff; [intro H; vm_compute in H; discriminate|]. constructor.
  - split; [reflexivity|]. split; [cbn; lia|]. split; [constructor|].
    exists (upd 0 (VScalar (SNum 6)) pr_obj). split; [apply C24_plain_case | reflexivity].
Qed.

(** Copy assignment emits the change signals of exactly the fields whose values differ, once each; for containers of
    messages it does so at least for those. Condition: maps to messages in nested messages can be compared. Missing:
    maps to messages that cannot be compared (see below); containers of messages are also notified for equal values.
    *)
Theorem C24_assignment_signals_partial : forall sch h m xs ys vs ws, schema_ok sch -> nested_comparable sch m vs ws ->
  denotes sch h m xs vs -> denotes sch h m ys ws -> proper sch m vs -> proper sch m ws ->
  exists xs' sigs, returns (fun fuel => assign fuel sch h m xs ys) (xs', sigs) /\ NoDup sigs /\
    (forall j, In j sigs -> (j < length (md_fields (msg_at sch m)))%nat) /\
    (forall j, (j < length (md_fields (msg_at sch m)))%nat ->
       (~ same_field sch (f_ty (field_at sch m j)) (nth j vs VNull) (nth j ws VNull) -> In j sigs) /\
       (match f_ty (field_at sch m j) with FRep (EM _) | FMap _ (EM _) => False | _ => True end ->
        In j sigs -> ~ same_field sch (f_ty (field_at sch m j)) (nth j vs VNull) (nth j ws VNull))).
Proof.
  intros sch h m xs ys vs ws S NM D1 D2 P1 P2. pose proof P1 as (O1 & N1 & M1). pose proof P2 as (O2 & N2 & M2).
  set (n := (odepth vs + odepth ws)%nat).
  destruct (assign_returns sch h S (Datatypes.S n) m xs ys vs ws D1 D2 O1 O2 NM M1 M2 ltac:(unfold n; lia) ltac:(unfold n; lia))
    as [[xs' sg] E].
  exists xs', sg. split; [eapply returns_mono; [intro; apply assign_mono | exact E]|].
  cbn [assign] in E. inversion D1 as [? ? ? F1]; subst. inversion D2 as [? ? ? F2]; subst.
  destruct (den_fields_length sch h _ _ _ F1) as [L1 _]. destruct (den_fields_length sch h _ _ _ F2) as [L2 _].
  destruct (assign_fields_signals sch h n _ (assign_sound sch h S n) _ _ _ _ _ _ E) as (Nd & Rg & Sg); [congruence | congruence |].
  split; [exact Nd|]. split; [intros j I; apply Rg in I; lia|]. intros j L.
  destruct (Sg j L) as (s & x' & A & _ & I). rewrite Nat.add_0_l in I. fold (field_at sch m j) in A.
  pose proof (den_nth sch h _ _ _ j F1 L) as Dx. pose proof (den_nth sch h _ _ _ j F2 L) as Dy.
  fold (field_at sch m j) in Dx, Dy. pose proof (field_key sch S m j L) as K.
  destruct (proper_nth sch m vs j P1 L) as (Ox & Nx & Fx). destruct (proper_nth sch m ws j P2 L) as (Oy & Ny & Fy).
  destruct (is_message (f_ty (field_at sch m j))) eqn:M.
  - destruct (f_ty (field_at sch m j)) as [[t|m']|e|k e] eqn:T; try discriminate M. cbn [assign_field] in A.
    apply bind_Ok in A. destruct A as ([o s'] & A & A'). injection A' as <- <-.
    unfold assign_message in A. apply bind_Ok in A. destruct A as (r & Er & A). destruct r.
    + injection A as <- <-. split; [|intros _ J; apply I in J; discriminate].
      intro H. exfalso. apply H. eapply lazy_eq_true; eauto; split; auto.
    + apply bind_Ok in A. destruct A as ([o' sg'] & _ & A). injection A as <- <-.
      split; [intros _; apply I; reflexivity|]. intros _ _. eapply lazy_eq_false; eauto.
  - assert (A' : set_plain (f_ty (field_at sch m j)) (nth j xs (MOwn None)) (nth j ys (MOwn None)) = (x', s)).
    { destruct (f_ty (field_at sch m j)) as [[t|m']|e|k e]; try discriminate M; cbn [assign_field] in A; congruence. }
    split.
    + intro H. apply I. destruct s; [reflexivity|]. exfalso.
      destruct (set_plain_spec sch h _ _ _ _ _ _ _ K M Dx Dy A') as (u & _ & _ & _ & Z). destruct (Z eq_refl). contradiction.
    + intros V J. apply I in J. subst s.
      assert (Pl : is_plain (f_ty (field_at sch m j)) = true).
      { destruct (f_ty (field_at sch m j)) as [[]|[]|? []]; auto; contradiction || discriminate M. }
      apply (set_plain_signal sch h _ _ _ _ _ K Pl Dx Dy Fx Fy). rewrite A'. reflexivity.
Qed.

Example C24_assignment_case : exists xs',
  assign 5 pr_sch pr_heap 0 pr_mems
    (upd 0 (MScalar (SNum 6)) (upd 3 (MOwn (Some [MScalar (SNum 44); MScalar (str [])])) pr_mems)) = Ok (xs', [0; 3]%nat)
  /\ proper pr_sch 0 pr_obj /\ denotes pr_sch pr_heap 0 pr_mems pr_obj /\
  nested_comparable pr_sch 0 pr_obj pr_obj0 /\ nested_comparable mm_sch 0 mm_va mm_vc.
Proof.
  eexists. split; [vm_compute; reflexivity|]. split; [exact pr_proper|]. split; [exact pr_denotes|].
  split; [exact pr_nested_comparable | apply comparable_nested_of, mm_comparable].
Qed.

(** ** C25 Equality *)

(** operator== says whether the values are the same, if maps to messages in them can be compared. *)
Theorem C25_equality_decides_partial : forall sch h m xs ys vs ws,
  schema_ok sch -> comparable sch m vs ws ->
  denotes sch h m xs vs -> denotes sch h m ys ws -> proper sch m vs -> proper sch m ws ->
  exists b, returns (fun fuel => eq_obj fuel sch h m xs ys) b /\
    returns (fun fuel => ne_obj fuel sch h m xs ys) (negb b) /\ (b = true <-> same sch m vs ws).
Proof.
  intros sch h m xs ys vs ws S NM D1 D2 (O1 & N1 & M1) (O2 & N2 & M2).
  set (n := (1 + odepth vs + odepth ws)%nat).
  destruct (eq_obj_returns sch h S n m xs ys vs ws D1 D2 O1 O2 NM M1 M2 ltac:(unfold n; lia) ltac:(unfold n; lia))
    as [b E]. exists b.
  assert (R : returns (fun fuel => eq_obj fuel sch h m xs ys) b)
    by (eapply returns_mono; [intro; apply eq_obj_mono1 | exact E]).
  split; [exact R|]. split.
  - unfold ne_obj. eapply returns_bind; [exact R | apply returns_const].
  - split; intro H.
    + subst b. eapply eq_obj_sound; eauto.
    + rewrite (eq_obj_same sch h S n m xs ys vs ws) in E; auto; try (unfold n; lia). congruence.
Qed.

(** Missing: maps to messages with as many entries but other keys.  Comparing them crashes. *)
Theorem C25_different_keys_refuted : forall sch h m xs ys vs ws,
  schema_ok sch -> denotes sch h m xs vs -> denotes sch h m ys ws -> proper sch m vs -> proper sch m ws ->
  clash sch m vs ws -> crashes (fun fuel => eq_obj fuel sch h m xs ys).
Proof.
  intros sch h m xs ys vs ws S D1 D2 P1 P2 C. exists (1 + odepth vs + odepth ws)%nat, NullDeref.
  intros fuel L. apply (eq_obj_clash sch h S fuel m xs ys vs ws); auto; lia.
Qed.

(** Types without maps to messages, at any depth: operator== decides. *)
Theorem C25_decides_without_maps : forall sch h m xs ys vs ws,
  schema_ok sch -> no_map_inside sch m ->
  denotes sch h m xs vs -> denotes sch h m ys ws -> proper sch m vs -> proper sch m ws ->
  exists b, returns (fun fuel => eq_obj fuel sch h m xs ys) b /\
    returns (fun fuel => ne_obj fuel sch h m xs ys) (negb b) /\ (b = true <-> same sch m vs ws).
Proof.
  intros sch h m xs ys vs ws S NM D1 D2 P1 P2.
  apply C25_equality_decides_partial; auto. apply no_map_comparable; [exact NM | apply P1 | apply P2].
Qed.

Example C25_keys_case :
  clash mm_sch 1 [VMap [(SNum 1, VMsg [VScalar (SNum 1)])]] [VMap [(SNum 2, VMsg [VScalar (SNum 2)])]] /\
  comparable mm_sch 0 mm_va mm_vc /\ eq_obj 5 mm_sch mm_heap 0 mm_a mm_c = Ok false /\
  eq_obj 5 mm_sch mm_heap 1 [MPtrMap [(SNum 1, Some 0%nat)]] [MPtrMap [(SNum 2, Some 1%nat)]] = UB NullDeref /\
  no_map_inside pr_sch 0.
Proof.
  split; [exact mm_clash|]. split; [exact mm_comparable|]. split; [reflexivity|]. split; [reflexivity|].
  exists (fun _ => True). split; [exact Logic.I|]. intros [|[|m]] f _ I; cbn in I; try (destruct m; contradiction);
    repeat (destruct I as [<-|I]; [exact Logic.I|]); contradiction.
Qed.

(** And maps with as many entries compare equal, whatever their keys are, if the values are null pointers. *)
Theorem C25_null_values_refuted : forall sch h m xs vs i k m' l l',
  schema_ok sch -> denotes sch h m xs vs -> object_ok sch m vs -> nan_free sch (EM m) (VMsg vs) ->
  (i < length (md_fields (msg_at sch m)))%nat -> f_ty (field_at sch m i) = FMap k (EM m') ->
  length l = length l' -> Forall (fun p => snd p = None) l -> Forall (fun p => snd p = None) l' ->
  returns (fun fuel => eq_obj fuel sch h m (upd i (MPtrMap l) xs) (upd i (MPtrMap l') xs)) true.
Proof. intros. eapply null_maps_equal; eauto. Qed.

Example C25_null_values_case :
  denotes mm_sch [] 1 [MPtrMap [(SNum 1, None)]] [VMap [(SNum 1, VNull)]] /\
  denotes mm_sch [] 1 [MPtrMap [(SNum 2, None)]] [VMap [(SNum 2, VNull)]] /\
  object_ok mm_sch 1 [VMap [(SNum 1, VNull)]] /\ object_ok mm_sch 1 [VMap [(SNum 2, VNull)]] /\
  ~ same mm_sch 1 [VMap [(SNum 1, VNull)]] [VMap [(SNum 2, VNull)]] /\
  nan_free mm_sch (EM 1) (VMsg [VMap [(SNum 1, VNull)]]) /\ f_ty (field_at mm_sch 1 0) = FMap TInt32 (EM 2) /\
  eq_obj 3 mm_sch [] 1 [MPtrMap [(SNum 1, None)]] [MPtrMap [(SNum 2, None)]] = Ok true.
Proof.
  split; [repeat econstructor|]. split; [repeat econstructor|].
  split; [cbn; repeat split; try constructor; unfold in_s; cbn; lia|].
  split; [cbn; repeat split; try constructor; unfold in_s; cbn; lia|].
  split; [intro H; vm_compute in H; discriminate|]. split; [cbn; auto|]. split; reflexivity.
Qed.

(** A null element in one of two repeated message fields of the same length crashes the comparison with an object that
    is equal before it. *)
Theorem C25_null_element_refuted : forall sch h m xs vs i m' ps qs qs' a,
  schema_ok sch -> denotes sch h m xs vs -> object_ok sch m vs -> nan_free sch (EM m) (VMsg vs) ->
  (i < length (md_fields (msg_at sch m)))%nat -> f_ty (field_at sch m i) = FRep (EM m') ->
  length qs = length qs' ->
  crashes (fun fuel => eq_obj fuel sch h m (upd i (MPtrs (ps ++ None :: qs)) xs) (upd i (MPtrs (ps ++ Some a :: qs')) xs)) /\
  crashes (fun fuel => eq_obj fuel sch h m (upd i (MPtrs (ps ++ Some a :: qs)) xs) (upd i (MPtrs (ps ++ None :: qs')) xs)).
Proof. intros. eapply null_element_crashes; eauto. Qed.

Example C25_null_element_case :
  denotes pr_sch pr_heap 0 (upd 4 (MPtrs [Some 1; None]%nat) pr_mems0) (upd 4 (VList [inner (-1) []; VNull]) pr_obj0) /\
  object_ok pr_sch 0 (upd 4 (VList [inner (-1) []; VNull]) pr_obj0) /\
  denotes pr_sch pr_heap 0 (upd 4 (MPtrs [Some 1; Some 0]%nat) pr_mems0) (upd 4 (VList [inner (-1) []; inner 7 [97]]) pr_obj0) /\
  eq_obj 5 pr_sch pr_heap 0 (upd 4 (MPtrs [Some 1; None]%nat) pr_mems0) (upd 4 (MPtrs [Some 1; Some 0]%nat) pr_mems0)
  = UB NullDeref.
Proof.
  split; [repeat econstructor|]. split; [|split; [repeat econstructor | reflexivity]].
  cbn. repeat split; try (intro; discriminate); try (unfold in_s, in_u; cbn; lia);
    repeat constructor; unfold is_byte; lia.
Qed.

(** For all types: equality is reflexive, symmetric and transitive. *)
Theorem C25_reflexive : forall sch h m xs vs, schema_ok sch -> denotes sch h m xs vs ->
  object_ok sch m vs -> nan_free sch (EM m) (VMsg vs) ->
  returns (fun fuel => eq_obj fuel sch h m xs xs) true.
Proof.
  intros sch h m xs vs S D O N. eapply returns_mono; [intro; apply eq_obj_mono1|].
  apply (eq_obj_same sch h S (1 + odepth vs) m xs xs vs vs); auto; try lia. reflexivity.
Qed.

Theorem C25_symmetric : forall sch h m xs ys vs ws, schema_ok sch ->
  denotes sch h m xs vs -> denotes sch h m ys ws -> proper sch m vs -> proper sch m ws ->
  returns (fun fuel => eq_obj fuel sch h m xs ys) true ->
  returns (fun fuel => eq_obj fuel sch h m ys xs) true.
Proof.
  intros sch h m xs ys vs ws S D1 D2 (O1 & N1 & M1) (O2 & N2 & M2) [n E].
  assert (Sm : same sch m vs ws) by (eapply eq_obj_sound; eauto).
  eapply returns_mono; [intro; apply eq_obj_mono1|].
  apply (eq_obj_same sch h S (1 + odepth vs + odepth ws) m ys xs ws vs); auto; try lia. now symmetry.
Qed.

Theorem C25_transitive : forall sch h m xs ys zs vs ws us, schema_ok sch ->
  denotes sch h m xs vs -> denotes sch h m ys ws -> denotes sch h m zs us ->
  proper sch m vs -> proper sch m ws -> proper sch m us ->
  returns (fun fuel => eq_obj fuel sch h m xs ys) true ->
  returns (fun fuel => eq_obj fuel sch h m ys zs) true ->
  returns (fun fuel => eq_obj fuel sch h m xs zs) true.
Proof.
  intros sch h m xs ys zs vs ws us S D1 D2 D3 (O1 & N1 & M1) (O2 & N2 & M2) (O3 & N3 & M3) [n E] [k F].
  assert (S1 : same sch m vs ws) by (eapply eq_obj_sound; eauto).
  assert (S2 : same sch m ws us) by (eapply (eq_obj_sound sch h S k m ys zs); eauto).
  eapply returns_mono; [intro; apply eq_obj_mono1|].
  apply (eq_obj_same sch h S (1 + odepth vs + odepth us) m xs zs vs us); auto; try lia.
  unfold same in *. congruence.
Qed.

(** Equal objects have the same value, whatever their type. *)
Theorem C25_equal_values : forall sch h m xs ys vs ws, schema_ok sch ->
  denotes sch h m xs vs -> denotes sch h m ys ws -> proper sch m vs -> proper sch m ws ->
  (returns (fun fuel => eq_obj fuel sch h m xs ys) true <-> same sch m vs ws).
Proof.
  intros sch h m xs ys vs ws S D1 D2 (O1 & N1 & M1) (O2 & N2 & M2). split.
  - intros [n E]. eapply eq_obj_sound; eauto.
  - intro Sm. eapply returns_mono; [intro; apply eq_obj_mono1|].
    apply (eq_obj_same sch h S (1 + odepth vs + odepth ws) m xs ys vs ws); auto; lia.
Qed.

(** A nested message that was not created yet compares like one with default values. *)
Theorem C25_creation_irrelevant : forall sch h m m' i xs vs, schema_ok sch ->
  denotes sch h m xs vs -> proper sch m vs -> (i < length (md_fields (msg_at sch m)))%nat ->
  f_ty (field_at sch m i) = FSing (EM m') -> nth i xs (MScalar (SNum 0)) = MOwn None ->
  returns (fun fuel => eq_obj fuel sch h m xs (upd i (MOwn (Some (default_mems sch m'))) xs)) true.
Proof.
  intros sch h m m' i xs vs S D (O & N & M) L T E.
  assert (Lv : length vs = length (md_fields (msg_at sch m))) by now apply object_ok_length.
  assert (Ev : nth i vs VNull = VNull).
  { inversion D as [m0 xs0 vs0 Df]; subst. pose proof (den_nth sch h _ _ _ i Df L) as Di. fold (field_at sch m i) in Di. rewrite T in Di.
    destruct (den_fields_length sch h _ _ _ Df) as [Lx _].
    rewrite (nth_indep xs _ (MScalar (SNum 0))) in Di by lia. rewrite E in Di. now inversion Di. }
  assert (Pu : proper sch m (upd i (VMsg (default_obj sch m')) vs)).
  { apply proper_upd; auto; [repeat split; auto|]. rewrite T. repeat split.
    - apply default_ok. - apply default_no_nulls. - apply default_nan_free. }
  eapply returns_mono; [intro; apply eq_obj_mono1|].
  eapply (eq_obj_same sch h S (1 + odepth vs + odepth (upd i (VMsg (default_obj sch m')) vs)) m _ _ vs
            (upd i (VMsg (default_obj sch m')) vs)); auto; try lia; try apply Pu.
  - inversion D; subst. constructor. apply den_upd; auto. fold (field_at sch m i). rewrite T. constructor. apply den_default.
  - apply same_upd_old; auto. rewrite T, Ev. apply same_message; cbn [elem_ok]; auto; [apply default_ok | reflexivity].
Qed.

(** The copy of an object compares equal to it.  [junk]: contents of the members the copy
    constructor has not initialised when it calls the setters. *)
Theorem C25_copy_equal : forall sch h m ys ws junk, schema_ok sch -> denotes sch h m ys ws ->
  proper sch m ws -> junk_ok sch m junk ->
  exists xs us, returns (fun fuel => copy_construct fuel sch h junk m ys) xs /\ denotes sch h m xs us /\
    same sch m us ws /\ returns (fun fuel => eq_obj fuel sch h m xs ys) true.
Proof.
  intros sch h m ys ws junk S D (O & N & M) J.
  destruct (copy_construct_spec sch h S junk m ys ws J D O M (1 + odepth ws) ltac:(lia))
    as (xs & E & us & Du & Ou & Mu & Su).
  exists xs, us. split; [eapply returns_mono; [intro; apply copy_construct_mono | exact E]|].
  split; [exact Du|]. split; [exact Su|]. eapply returns_mono; [intro; apply eq_obj_mono1|].
  apply (eq_obj_same sch h S (1 + odepth us + odepth ws) m xs ys us ws); auto; try lia.
  eapply same_nan_free; eauto.
Qed.

(** The same for assignment, if maps to messages in nested messages can be compared. *)
Theorem C25_assignment_equal_partial : forall sch h m xs ys vs ws, schema_ok sch -> nested_comparable sch m vs ws ->
  denotes sch h m xs vs -> denotes sch h m ys ws -> proper sch m vs -> proper sch m ws ->
  exists xs' us sigs, returns (fun fuel => assign fuel sch h m xs ys) (xs', sigs) /\ denotes sch h m xs' us /\
    same sch m us ws /\ returns (fun fuel => eq_obj fuel sch h m xs' ys) true.
Proof.
  intros sch h m xs ys vs ws S NM D1 D2 (O1 & N1 & M1) (O2 & N2 & M2).
  set (n := (1 + odepth vs + odepth ws)%nat).
  destruct (assign_returns sch h S n m xs ys vs ws D1 D2 O1 O2 NM M1 M2 ltac:(unfold n; lia) ltac:(unfold n; lia))
    as [[xs' sg] E].
  destruct (assign_sound sch h S n m xs ys vs ws xs' sg D1 D2 O1 O2 M1 M2 E) as (us & Du & Ou & Mu & Su).
  exists xs', us, sg. split; [eapply returns_mono; [intro; apply assign_mono | exact E]|].
  split; [exact Du|]. split; [exact Su|]. eapply returns_mono; [intro; apply eq_obj_mono1|].
  apply (eq_obj_same sch h S (1 + odepth us + odepth ws) m xs' ys us ws); auto; try lia.
  eapply same_nan_free; eauto.
Qed.

(** Missing: nested messages with maps to messages that have as many entries but other keys: the assignment
    crashes. *)
Theorem C25_assignment_refuted : forall sch h m xs ys vs ws i m',
  schema_ok sch -> denotes sch h m xs vs -> denotes sch h m ys ws -> proper sch m vs -> proper sch m ws ->
  nested_clash sch m i m' vs ws -> crashes (fun fuel => assign fuel sch h m xs ys).
Proof.
  intros sch h m xs ys vs ws i m' S D1 D2 P1 P2 C. exists (1 + odepth vs + odepth ws)%nat, NullDeref.
  intros fuel L. apply (nested_clash_crashes sch h S fuel m i m' xs ys vs ws); auto; lia.
Qed.

Example C25_case : proper pr_sch 0 pr_obj /\ denotes pr_sch pr_heap 0 pr_mems pr_obj /\
  junk_ok pr_sch 0 (fun _ => SNum 77) /\
  (exists xs, copy_construct 5 pr_sch pr_heap (fun _ => SNum 77) 0 pr_mems = Ok xs /\
     eq_obj 5 pr_sch pr_heap 0 xs pr_mems = Ok true) /\
  eq_obj 5 pr_sch pr_heap 0 pr_mems (upd 3 (MOwn None) pr_mems) = Ok false /\
  proper mm_sch 0 mm_va /\ eq_obj 5 mm_sch mm_heap 0 mm_a mm_a = Ok true /\
  nested_clash mm_sch 0 0 1 mm_va mm_vb /\ assign 5 mm_sch mm_heap 0 mm_a mm_b = UB NullDeref.
Proof.
  split; [exact pr_proper|]. split; [exact pr_denotes|]. split.
  { intros i t L T R. cbn in L. do 7 (destruct i as [|i]; [cbn in T; try discriminate; injection T as <-; cbn in *;
      try discriminate; unfold in_s, in_u; lia|]). lia. }
  split; [eexists; split; [vm_compute; reflexivity | reflexivity]|]. split; [reflexivity|].
  split; [exact mm_proper_a|]. split; [reflexivity|]. split; [exact mm_nested_clash | reflexivity].
Qed.

(** ** C26 Copies are independent *)

(** [ys] is any other object, in particular one [xs] was copied from or to. Modifications of [xs] and of the messages
    nested in it do not change [ys]. Missing: elements of repeated messages and maps to messages, which are shared by
    the copies (see below). *)
Theorem C26_nested_changes_partial : forall sch h m xs mods xs' h' ys vs,
  Forall (fun c => forallb is_nested (fst (fst c)) = true) mods ->
  modify_all sch mods m xs h = Some (xs', h') ->
  denotes sch h m ys vs -> denotes sch h' m ys vs.
Proof.
  intros sch h m xs mods xs' h' ys vs N H D.
  apply modify_all_nested in H; [now subst|]. apply forallb_forall. rewrite Forall_forall in N. exact N.
Qed.

(** Objects of types without repeated messages and maps to messages are not changed by anything
    that is done to another object. *)
Theorem C26_unshared_types_partial : forall sch h m mt xs mods xs' h' ys vs,
  unshared sch m -> modify_all sch mods mt xs h = Some (xs', h') ->
  denotes sch h m ys vs -> denotes sch h' m ys vs.
Proof. intros sch h m mt xs mods xs' h' ys vs U _ D. now apply (unshared_heap sch h h'). Qed.

(** Missing: elements of repeated message fields and values of maps to messages are shared by the copy and the
    original: every change of such an element, or of anything reached through it, that is made through the copy is the
    same as if it were made through the original. *)
Theorem C26_shared_elements_refuted : forall sch h junk m ys vs xs s path j new xs' h',
  denotes sch h m ys vs -> returns (fun fuel => copy_construct fuel sch h junk m ys) xs ->
  into_container sch m s -> modify sch (s :: path) j new m xs h = Some (xs', h') ->
  xs' = xs /\ modify sch (s :: path) j new m ys h = Some (ys, h').
Proof.
  intros sch h junk m ys vs xs s path j new xs' h' D R I E.
  assert (X : forall i, (i < length (md_fields (msg_at sch m)))%nat -> container (f_ty (field_at sch m i)) = true ->
     nth i xs (MOwn None) = nth i ys (MOwn None)) by (intros; eapply copy_container; eauto).
  split; [eapply modify_same_object; eauto|]. rewrite (modify_shared sch m xs ys) in E by assumption.
  destruct (modify sch (s :: path) j new m ys h) as [[ys' h'']|] eqn:Ey; [|discriminate].
  rewrite (modify_same_object _ _ _ _ _ _ _ _ _ _ I Ey). congruence.
Qed.

(** Changing the first element in the copy changes the value of the original. *)
Example C26_shared_elements_case : exists xs h' vs',
  returns (fun fuel => copy_construct fuel pr_sch pr_heap (fun _ => SNum 0) 0 pr_mems) xs /\
  denotes pr_sch pr_heap 0 pr_mems pr_obj /\ into_container pr_sch 0 (Element 4 0) /\
  modify pr_sch [Element 4 0] 0 (MScalar (SNum 8)) 0 xs pr_heap = Some (xs, h') /\
  denotes pr_sch h' 0 pr_mems vs' /\ ~ same pr_sch 0 pr_obj vs'.
Proof.
  exists (upd 3 (MOwn (Some [MScalar (SNum 3); MScalar (SStr true [])])) pr_mems),
    [ [MScalar (SNum 8); MScalar (str [97])]; [MScalar (SNum (-1)); MScalar (str [])] ],
    (upd 4 (VList [inner 8 [97]; inner (-1) []]) pr_obj).
  split; [eapply returns_mono; [intro; apply copy_construct_mono|]; instantiate (1 := 5%nat); vm_compute; reflexivity|].
  split; [exact pr_denotes|]. split; [cbn; split; [lia | reflexivity]|].
  split; [reflexivity|]. split; [repeat econstructor|]. intro H. vm_compute in H. discriminate.
Qed.

Example C26_case : exists xs' , modify_all pr_sch [([Nested 3], 0%nat, MScalar (SNum 9)); ([], 0%nat, MScalar (SNum 1))]
    0 pr_mems pr_heap = Some (xs', pr_heap) /\ unshared pr_sch 1 /\ ~ unshared pr_sch 0.
Proof.
  eexists. split; [vm_compute; reflexivity|]. split.
  - exists (fun m => m = 1%nat). split; [reflexivity|]. intros m' f -> I. cbn in I.
    repeat (destruct I as [<-|I]; [cbn; exact Logic.I|]). contradiction.
  - intros (T & Tm & C). specialize (C 0%nat (mkField 5 (FRep (EM 1))) Tm). cbn in C. apply C. tauto.
Qed.

(** ** C27 Moving *)

(** Move construction: the target holds the old value of the source and compares equal to it; what is
    left of the source is an object that can be used further. *)
Theorem C27_move_construction : forall sch h m ys ws junk, schema_ok sch -> denotes sch h m ys ws ->
  proper sch m ws -> junk_ok sch m junk ->
  exists xs ys' us left, returns (fun fuel => move_construct fuel sch h junk m ys) (xs, ys') /\
    denotes sch h m xs us /\ same sch m us ws /\
    returns (fun fuel => eq_obj fuel sch h m xs ys) true /\
    denotes sch h m ys' left /\ object_ok sch m left /\ no_nulls (VMsg left).
Proof.
  intros sch h m ys ws junk S D (O & N & M) J.
  destruct (move_construct_spec sch h S junk m ys ws J D O M (odepth ws) ltac:(lia))
    as (xs & ys' & E & (us & Du & Ou & Mu & Su) & (left & Dl & Gl)).
  exists xs, ys', us, left. split; [eapply returns_mono; [intro; apply move_construct_mono | exact E]|].
  split; [exact Du|]. split; [exact Su|]. split.
  - eapply returns_mono; [intro; apply eq_obj_mono1|].
    apply (eq_obj_same sch h S (1 + odepth us + odepth ws) m xs ys us ws); auto; try lia.
    eapply same_nan_free; eauto.
  - split; [now constructor|]. now apply good_object.
Qed.

(** Move assignment, if maps to messages in nested messages can be compared. *)
Theorem C27_move_assignment_partial : forall sch h m xs ys vs ws, schema_ok sch -> nested_comparable sch m vs ws ->
  denotes sch h m xs vs -> denotes sch h m ys ws -> proper sch m vs -> proper sch m ws ->
  exists xs' ys' us left, returns (fun fuel => move_assign fuel sch h m xs ys) (xs', ys') /\
    denotes sch h m xs' us /\ same sch m us ws /\
    returns (fun fuel => eq_obj fuel sch h m xs' ys) true /\
    denotes sch h m ys' left /\ object_ok sch m left /\ no_nulls (VMsg left).
Proof.
  intros sch h m xs ys vs ws S NM D1 D2 (O1 & N1 & M1) (O2 & N2 & M2).
  set (n := (1 + odepth vs + odepth ws)%nat).
  destruct (move_assign_returns sch h S n m xs ys vs ws D1 D2 O1 O2 NM M1 M2 ltac:(unfold n; lia) ltac:(unfold n; lia))
    as [[xs' ys'] E].
  destruct (move_assign_sound sch h S n m xs ys vs ws xs' ys' D1 D2 O1 O2 M1 M2 E)
    as ((us & Du & Ou & Mu & Su) & (left & Dl & Gl)).
  exists xs', ys', us, left. split; [eapply returns_mono; [intro; apply move_assign_mono | exact E]|].
  split; [exact Du|]. split; [exact Su|]. split.
  - eapply returns_mono; [intro; apply eq_obj_mono1|].
    apply (eq_obj_same sch h S (1 + odepth us + odepth ws) m xs' ys us ws); auto; try lia.
    eapply same_nan_free; eauto.
  - split; [now constructor|]. now apply good_object.
Qed.

(** Missing: nested messages with maps to messages that have as many entries but other keys. *)
Theorem C27_move_assignment_refuted : forall sch h m xs ys vs ws i m',
  schema_ok sch -> denotes sch h m xs vs -> denotes sch h m ys ws -> proper sch m vs -> proper sch m ws ->
  nested_clash sch m i m' vs ws -> crashes (fun fuel => move_assign fuel sch h m xs ys).
Proof.
  intros sch h m xs ys vs ws i m' S D1 D2 P1 P2 C. exists (1 + odepth vs + odepth ws)%nat, NullDeref.
  intros fuel L. apply (nested_clash_crashes sch h S fuel m i m' xs ys vs ws); auto; lia.
Qed.

Example C27_case : exists xs ys,
  move_construct 5 pr_sch pr_heap (fun _ => SNum 77) 0 pr_mems = Ok (xs, ys) /\
  eq_obj 5 pr_sch pr_heap 0 xs pr_mems = Ok true /\ eq_obj 5 pr_sch pr_heap 0 ys pr_mems = Ok false /\
  proper pr_sch 0 pr_obj /\ denotes pr_sch pr_heap 0 pr_mems pr_obj /\
  nested_comparable pr_sch 0 pr_obj pr_obj0 /\ nested_clash mm_sch 0 0 1 mm_va mm_vb.
Proof.
  eexists. eexists. split; [vm_compute; reflexivity|]. split; [reflexivity|]. split; [reflexivity|].
  split; [exact pr_proper|]. split; [exact pr_denotes|]. split; [exact pr_nested_comparable | exact mm_nested_clash].
Qed.

Print Assumptions C12_compares_equal.
Print Assumptions C53_result_well_typed.
Print Assumptions C53_no_null_elements.
Print Assumptions C53_null_map_value_refuted.
Print Assumptions C17_target_replaced_partial.
Print Assumptions C17_independent_of_target_partial.
Print Assumptions C17_read_object.
Print Assumptions C17_without_message_maps.
Print Assumptions C17_new_target.
Print Assumptions C17_message_map_refuted.
Print Assumptions C24_plain_setter.
Print Assumptions C24_nan_setter.
Print Assumptions C24_message_setter_partial.
Print Assumptions C24_message_setter_refuted.
Print Assumptions C24_container_setter_partial.
Print Assumptions C24_container_setter_refuted.
Print Assumptions C24_setter_sequence_partial.
Print Assumptions C24_assignment_signals_partial.
Print Assumptions C25_equality_decides_partial.
Print Assumptions C25_different_keys_refuted.
Print Assumptions C25_decides_without_maps.
Print Assumptions C25_null_values_refuted.
Print Assumptions C25_null_element_refuted.
Print Assumptions C25_reflexive.
Print Assumptions C25_symmetric.
Print Assumptions C25_transitive.
Print Assumptions C25_equal_values.
Print Assumptions C25_creation_irrelevant.
Print Assumptions C25_copy_equal.
Print Assumptions C25_assignment_equal_partial.
Print Assumptions C25_assignment_refuted.
Print Assumptions C26_nested_changes_partial.
Print Assumptions C26_unshared_types_partial.
Print Assumptions C26_shared_elements_refuted.
Print Assumptions C27_move_construction.
Print Assumptions C27_move_assignment_partial.
Print Assumptions C27_move_assignment_refuted.

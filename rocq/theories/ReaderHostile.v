(** Input with a negative length, and the ways a run may end on any input. *)

From Coq Require Import ZArith List Bool Lia ZifyBool.
From Verif Require Import Base WireModel Values MessageModel WireSpec WireProofs MessageSpec
  MessageProofs ReaderProofs MessageFacts WireFacts RunFacts ReaderSpec.
Import ListNotations.
Open Scope Z_scope.
Ltac Zify.zify_post_hook ::= Z.div_mod_to_equations.

(** ** How a run may end *)

(** Ways to end that occur in the reader. *)
Definition usual {A} (r : res A) : Prop :=
  match r with
  | Throw e => e = OutOfRange \/ e = InvalidArgument
  | UB u => u = OverRead \/ u = ShiftOverflow \/ u = SignedOverflow \/ u = PtrOutOfArray
  | _ => True
  end.

Lemma usual_bind {A B} (r : res A) (f : A -> res B) :
  usual r -> (forall a, usual (f a)) -> usual (bind r f).
Proof. intros H F. destruct r; cbn [bind]; auto. Qed.

Lemma deref_usual data it : usual (it_deref data it).
Proof. unfold it_deref. destruct (_ && _); cbn; auto. Qed.
Lemma incr_usual it : usual (it_incr it).
Proof. unfold it_incr. destruct (_ <? _); cbn; auto. Qed.
Lemma advance_usual it c : usual (advance false it c).
Proof.
  unfold advance. cbn [andb]. destruct (_ <? _); [cbn; auto|]. destruct (_ <? _); [cbn; auto|].
  destruct (_ || _); cbn; auto.
Qed.
Lemma copy_usual it : usual (it_copy it).
Proof. unfold it_copy. destruct (_ || _); cbn; auto. Qed.
Lemma plus_usual it c : usual (it_plus false it c).
Proof.
  unfold it_plus. apply usual_bind; [apply copy_usual|]. intro.
  apply usual_bind; [apply advance_usual|]. intro. apply copy_usual.
Qed.
Lemma varint_usual w data it : usual (deserializeVarintCommon w data it).
Proof.
  unfold deserializeVarintCommon. generalize 0 at 1 as k. generalize 0 as acc. revert it.
  generalize 11%nat as n. induction n as [|n IH]; intros it acc k; [exact I|]. cbn [varint_loop].
  apply usual_bind; [apply deref_usual|]. intro b. destruct (64 <=? k); [cbn; auto|].
  apply usual_bind; [apply incr_usual|]. intro it'. destruct (_ =? 0); [exact I|]. apply IH.
Qed.
Lemma skipVarint_usual data n : forall it, usual (skipVarint n data it).
Proof.
  induction n as [|n IH]; intro it; [exact I|]. cbn [skipVarint].
  apply usual_bind; [apply deref_usual|]. intro b.
  apply usual_bind; [apply incr_usual|]. intro it'. destruct (_ =? 0); [exact I|]. apply IH.
Qed.
Lemma lendel_usual data it : usual (deserializeLengthDelimited false data it).
Proof.
  unfold deserializeLengthDelimited. apply usual_bind; [apply varint_usual|]. intros [l it1].
  apply usual_bind.
  - destruct (_ <? _); [exact I|]. destruct (_ <=? _); cbn; auto.
  - intro. apply usual_bind; [apply advance_usual|]. intro. exact I.
Qed.
Lemma fixed_usual n data it : usual (deserializeFixed false n data it).
Proof.
  unfold deserializeFixed. destruct (_ <=? _); [|cbn; auto].
  apply usual_bind; [apply advance_usual|]. intro. exact I.
Qed.
Lemma header_usual data it : usual (decodeHeader data it).
Proof.
  unfold decodeHeader. apply usual_bind; [apply varint_usual|]. intros [h it1]. exact I.
Qed.
Lemma basic_usual t data it : usual (deserializeBasic false t data it).
Proof.
  destruct t; cbn [deserializeBasic];
    (apply usual_bind; [first [apply varint_usual | apply fixed_usual | apply lendel_usual]|];
     intros [? ?]; exact I).
Qed.
Lemma list_usual t data last n : forall it, usual (list_loop n false t data it last).
Proof.
  induction n as [|n IH]; intro it; [exact I|]. cbn [list_loop]. destruct (_ =? _); [exact I|].
  apply usual_bind; [apply basic_usual|]. intros [s it1].
  apply usual_bind; [apply IH|]. intros [l it2]. exact I.
Qed.
Lemma numeric_usual fuel t data it : usual (deserializeListNumeric fuel false t data it).
Proof.
  unfold deserializeListNumeric. apply usual_bind; [apply varint_usual|]. intros [l it1].
  apply usual_bind; [apply plus_usual|]. intro. apply list_usual.
Qed.

Section Usual.
  Variable fuel : nat.
  Variable sch : schema.
  Variable rec : nat -> list Z -> list value * res unit.
  Hypothesis rec_usual : forall m bs, usual (snd (rec m bs)).

  Lemma object_usual m data it : usual (deserializeObject false rec m data it).
  Proof.
    unfold deserializeObject. apply usual_bind; [apply lendel_usual|]. intros [a it1].
    pose proof (rec_usual m a) as R. destruct (rec m a) as [obj [u|e|r|]]; exact R.
  Qed.

  Lemma element_usual e data it : usual (deserializeElement false rec e data it).
  Proof.
    destruct e; cbn [deserializeElement];
      (apply usual_bind; [first [apply basic_usual | apply object_usual]|]; intros [? ?]; exact I).
  Qed.

  Lemma map_loop_usual k e data last n : forall it key val,
    usual (map_loop false rec n k e data it last key val).
  Proof.
    induction n as [|n IH]; intros it key val; [exact I|]. cbn [map_loop].
    destruct (_ =? _); [exact I|].
    apply usual_bind; [apply header_usual|]. intros [[[i w] v] it1]. destruct (i =? 1).
    - apply usual_bind; [apply basic_usual|]. intros [k' it2]. apply IH.
    - apply usual_bind; [apply element_usual|]. intros [k' it2]. apply IH.
  Qed.

  Lemma pair_usual k e data it : usual (deserializeMapPair fuel false rec k e data it).
  Proof.
    unfold deserializeMapPair. apply usual_bind; [apply varint_usual|]. intros [l it1].
    apply usual_bind; [apply plus_usual|]. intro. apply map_loop_usual.
  Qed.

  Lemma field_usual ty old data it : usual (deserializeField fuel false rec ty old data it).
  Proof.
    destruct ty as [[t|m]|[t|m]|k e]; cbn [deserializeField].
    - apply usual_bind; [apply basic_usual|]. intros [? ?]. exact I.
    - apply usual_bind; [apply object_usual|]. intros [? ?]. exact I.
    - destruct (is_blob t); [|destruct (is_enum t)];
        (apply usual_bind; [first [apply basic_usual | apply numeric_usual]|]; intros [? ?]; exact I).
    - apply usual_bind; [apply object_usual|]. intros [? ?]. exact I.
    - apply usual_bind; [apply pair_usual|]. intros [[? ?] ?]. exact I.
  Qed.

  Lemma property_usual m data it obj : usual (deserializeProperty fuel false sch rec m data it obj).
  Proof.
    unfold deserializeProperty. apply usual_bind; [apply header_usual|]. intros [[[i w] v] it1].
    destruct (negb v); [cbn; auto|]. destruct (find_field (msg_at sch m) i).
    - apply usual_bind; [apply field_usual|]. intros [? ?]. exact I.
    - apply usual_bind; [|intro; exact I]. unfold skipSerializedFieldBytes.
      destruct (_ =? _); [apply skipVarint_usual|]. destruct (_ =? _); [apply advance_usual|].
      destruct (_ =? _); [apply advance_usual|]. destruct (_ =? _); [|cbn; auto].
      unfold skipLengthDelimited. apply usual_bind; [apply varint_usual|].
      intros [l it2]. apply advance_usual.
  Qed.
End Usual.

Lemma loop_usual sch fuel : forall m data it obj,
  usual (snd (deserialize_loop fuel false sch m data it obj)).
Proof.
  induction fuel as [|fuel IH]; intros m data it obj; [exact I|]. cbn [deserialize_loop].
  destruct (_ =? _); [exact I|].
  pose proof (property_usual fuel sch
    (fun m' data' => deserialize_loop fuel false sch m' data' (it_begin data') (default_obj sch m'))
    ltac:(intros; apply IH) m data it obj) as P.
  destruct (deserializeProperty _ _ _ _ _ _ _ _) as [[obj' it']|e|r|]; cbn [snd]; auto.
Qed.

Lemma run_usual sch m data obj o : deserializes sch m data obj o ->
  o = Ok tt \/ o = Throw OutOfRange \/ o = Throw InvalidArgument
  \/ exists u, o = UB u /\ In u [OverRead; ShiftOverflow; SignedOverflow; PtrOutOfArray].
Proof.
  intros (N & fuel & H). pose proof (loop_usual sch fuel m data (it_begin data) (default_obj sch m)) as U.
  unfold deserializeMessage in H. rewrite H in U. cbn [snd] in U.
  destruct o as [[]|e|u|]; cbn in U; [auto| |right; right; right; exists u; split; [auto|]; cbn; intuition|congruence].
  destruct U as [-> | ->]; auto.
Qed.

(** ** Jumping back *)

Section Jump.
  Variable sch : schema.
  Hypothesis Sch : schema_ok sch.

  (** Reading well-formed records with any amount of fuel: it is used up, or the records are read. *)
  Lemma records_any : forall fuel m rs bs pre rest obj,
    enc_recs rs bs -> fits sch m rs -> Zlen (bs ++ rest) <= INT_MAX ->
    length obj = length (md_fields (msg_at sch m)) ->
    snd (deserialize_loop fuel false sch m (pre ++ bs ++ rest) (cur pre (bs ++ rest)) obj) = OutOfFuel
    \/ exists fuel1 r,
      deserialize_loop fuel false sch m (pre ++ bs ++ rest) (cur pre (bs ++ rest)) obj
      = deserialize_loop fuel1 false sch m (pre ++ bs ++ rest) (cur (pre ++ bs) rest) r
      /\ (fuel1 <= fuel)%nat
      /\ length r = length (md_fields (msg_at sch m)).
  Proof.
    induction fuel as [|fuel IH]; intros m rs bs pre rest obj E F B L1; [left; reflexivity|].
    destruct rs as [|[num w] rs].
    { inversion E; subst. right. exists (S fuel), obj. cbn [app].
      rewrite app_nil_r. auto. }
    inversion E as [| ? ? ? tag pl bs' N T V E']; subst.
    apply fits_spec in F. inversion F as [|? ? F1 F2]; subst.
    pose proof (enc_val_nonempty w pl V) as Vn.
    pose proof (is_varint_nonnil _ _ (proj1 T)) as Tn.
    rewrite <- !app_assoc in *.
    set (big := (fuel + length pl + 1)%nat).
    destruct (property_read false sch Sch big
      (fun m' data' => deserialize_loop big false sch m' data' (it_begin data') (default_obj sch m'))
      m num w tag pl pre (bs' ++ rest) obj obj)
      as (obj1 & P1 & P2 & _); auto.
    { intros m' rs1 bs1 E1 F1' Lb1 B1.
      destruct (deserialize_read false sch Sch big m' rs1 bs1 E1 F1' ltac:(lia) B1)
        as (r1 & R1 & _ & R3). exists r1. split; [exact R1 | exact R3]. }
    { lia. }
    { reflexivity. }
    cbn [deserialize_loop].
    replace (it_pos _ =? _) with false.
    2:{ cbn [cur it_pos]. zlen. pose proof (Zlen_nonneg bs'). pose proof (Zlen_nonneg rest).
        destruct tag; [congruence|]. zlen. pose proof (Zlen_nonneg tag). pose proof (Zlen_nonneg pl). lia. }
    pose proof (property_ext false sch fuel big ltac:(lia)
      (fun m' data' => deserialize_loop fuel false sch m' data' (it_begin data') (default_obj sch m'))
      (fun m' data' => deserialize_loop big false sch m' data' (it_begin data') (default_obj sch m'))
      ltac:(intros; apply loop_ext; lia) m (pre ++ tag ++ pl ++ bs' ++ rest)
      (cur pre (tag ++ pl ++ bs' ++ rest)) obj) as P. unfold ext in P.
    destruct (deserializeProperty fuel false sch _ m _ _ obj) as [[obj' it']|e|r|];
      [| specialize (P ltac:(discriminate)); rewrite P in P1; discriminate
       | specialize (P ltac:(discriminate)); rewrite P in P1; discriminate | left; reflexivity].
    specialize (P ltac:(discriminate)). rewrite P in P1. injection P1 as -> ->.
    destruct (IH m rs bs' (pre ++ tag ++ pl) rest obj1 E') as [H|(fuel1 & r & A1 & A2 & A3)]; auto.
    { now apply fits_spec. }
    { rewrite app_assoc in B. now apply Zlen_le_app in B. }
    { left. rewrite <- !app_assoc in H. exact H. }
    right. exists fuel1, r. rewrite <- !app_assoc in A1. rewrite A1. auto.
  Qed.

  (** One unknown field with a length of [2^32 - back]. *)
  Lemma jump_step fuel m num v tag len pre post obj :
    field_number num -> find_field (msg_at sch m) num = None -> is_tag num 2 tag ->
    wire_varint v len -> 2 ^ 31 <= v < 2 ^ 32 -> Zlen post + (2 ^ 32 - v) <= INT_MAX ->
    2 ^ 32 - v <= Zlen (pre ++ tag ++ len) ->
    deserialize_loop (S fuel) false sch m (pre ++ tag ++ len ++ post) (cur pre (tag ++ len ++ post)) obj
    = deserialize_loop fuel false sch m (pre ++ tag ++ len ++ post)
        (mkIter (Zlen post + (2 ^ 32 - v)) (Zlen (pre ++ tag ++ len ++ post))
           (Zlen (pre ++ tag ++ len) - (2 ^ 32 - v))) obj.
  Proof.
    intros N U T V Hv B P.
    pose proof (is_varint_nonnil _ _ (proj1 T)) as Tn.
    pose proof (is_varint_nonnil _ _ (proj1 V)) as Vn.
    cbn [deserialize_loop].
    replace (it_pos _ =? _) with false.
    2:{ cbn [cur it_pos]. zlen. destruct tag; [congruence|]. zlen.
        pose proof (Zlen_nonneg tag). pose proof (Zlen_nonneg len). pose proof (Zlen_nonneg post). lia. }
    unfold deserializeProperty. rewrite (tag_read_ok num 2) by (auto; cbn; auto). cbn [bind negb].
    rewrite U. unfold skipSerializedFieldBytes.
    replace (2 =? WVarintT) with false by reflexivity.
    replace (2 =? WFixed32T) with false by reflexivity.
    replace (2 =? WFixed64T) with false by reflexivity.
    replace (2 =? WLengthDelimitedT) with true by reflexivity.
    unfold skipLengthDelimited. rewrite (app_assoc pre tag (len ++ post)).
    rewrite (varint_read 32 v len (pre ++ tag) post ltac:(lia) V). cbn [bind].
    rewrite wrapU_small by (unfold in_u; lia).
    assert (Ts : toS 32 v = v - 2 ^ 32).
    { unfold toS. change (2 ^ 32) with 4294967296 in *. change (2 ^ 31) with 2147483648 in *.
      change (2 ^ (32 - 1)) with 2147483648. destruct (_ <? _) eqn:C; lia. }
    rewrite Ts. unfold advance. cbn [andb cur it_left it_pos it_size].
    change (2 ^ 32) with 4294967296 in *. change (2 ^ 31) with 2147483648 in *.
    replace (INT_MAX <? _) with false by lia.
    pose proof (Zlen_nonneg post).
    replace (Zlen post - (v - 4294967296) <? 0) with false by lia.
    replace ((_ <? 0) || _) with false.
    2:{ zlen. zlen_in P. lia. }
    cbn [bind]. f_equal. f_equal; zlen; lia.
  Qed.

  (** The jump ends at the start of some records read before: the run never ends. *)
  Lemma jump_diverges m num v tag len rs1 p1 rs2 p2 post :
    enc_recs rs1 p1 -> fits sch m rs1 -> enc_recs rs2 p2 -> fits sch m rs2 ->
    field_number num -> find_field (msg_at sch m) num = None -> is_tag num 2 tag ->
    v = 2 ^ 32 - Zlen (p2 ++ tag ++ len) -> wire_varint v len ->
    Zlen (p1 ++ p2 ++ tag ++ len ++ post) <= INT_MAX ->
    forall fuel, snd (deserializeMessage fuel false sch m (p1 ++ p2 ++ tag ++ len ++ post)) = OutOfFuel.
  Proof.
    intros E1 F1 E2 F2 N U T Hv V B.
    assert (B2 : Zlen (p2 ++ tag ++ len ++ post) <= INT_MAX) by (now apply Zlen_le_app in B).
    assert (D : forall fuel obj, length obj = length (md_fields (msg_at sch m)) ->
      snd (deserialize_loop fuel false sch m (p1 ++ p2 ++ tag ++ len ++ post)
             (cur p1 (p2 ++ tag ++ len ++ post)) obj) = OutOfFuel).
    { induction fuel as [fuel IH] using lt_wf_ind. intros obj L.
      destruct (records_any fuel m rs2 p2 p1 (tag ++ len ++ post) obj E2 F2 B2 L)
        as [H|(fuel1 & r & A1 & A2 & A3)]; [exact H|].
      rewrite A1. destruct fuel1 as [|fuel1]; [reflexivity|].
      assert (Zlen tag + Zlen len > 0).
      { pose proof (is_varint_nonnil _ _ (proj1 T)). destruct tag; [congruence|]. zlen.
        pose proof (Zlen_nonneg tag). pose proof (Zlen_nonneg len). lia. }
      pose proof (Zlen_nonneg p1). pose proof (Zlen_nonneg p2). pose proof (Zlen_nonneg post).
      repeat progress zlen_in B. zlen_in Hv.
      replace (p1 ++ p2 ++ tag ++ len ++ post) with ((p1 ++ p2) ++ tag ++ len ++ post)
        by (rewrite <- !app_assoc; reflexivity).
      assert (Im : INT_MAX = 2147483647) by reflexivity.
      rewrite (jump_step fuel1 m num v) by (auto;
        change (2 ^ 32) with 4294967296 in *; change (2 ^ 31) with 2147483648; zlen; lia).
      replace (mkIter _ _ _) with (cur p1 (p2 ++ tag ++ len ++ post)).
      - rewrite <- !app_assoc. apply IH; [lia|exact A3].
      - unfold cur. change (2 ^ 32) with 4294967296 in *. f_equal; zlen; lia. }
    intro fuel. unfold deserializeMessage. rewrite cur_begin.
    destruct (records_any fuel m rs1 p1 [] (p2 ++ tag ++ len ++ post) (default_obj sch m) E1 F1 B)
      as [H|(fuel1 & r & A1 & A2 & A3)]; [apply default_obj_length | exact H |].
    cbn [app] in A1. rewrite A1. now apply D.
  Qed.

  (** The jump ends before the buffer. *)
  Lemma jump_out m num v tag len rs bs post :
    enc_recs rs bs -> fits sch m rs ->
    field_number num -> find_field (msg_at sch m) num = None -> is_tag num 2 tag ->
    wire_varint v len -> 2 ^ 31 <= v < 2 ^ 32 - Zlen (bs ++ tag ++ len) ->
    Zlen (bs ++ tag ++ len ++ post) <= INT_MAX ->
    exists r, deserializes sch m (bs ++ tag ++ len ++ post) r
      (UB (if INT_MAX <? Zlen post + (2 ^ 32 - v) then SignedOverflow else PtrOutOfArray)).
  Proof.
    intros E F N U T V Hv B.
    destruct (loop_records sch Sch false (S (length (bs ++ tag ++ len ++ post))) m rs bs []
                (tag ++ len ++ post) (default_obj sch m) (default_obj sch m))
      as (f1 & r & A1 & A2 & A3 & A4); auto.
    { rewrite !app_length. lia. }
    { apply default_obj_length. }
    { apply default_obj_length. }
    { reflexivity. }
    exists r. split; [discriminate|]. exists (S (length (bs ++ tag ++ len ++ post))).
    unfold deserializeMessage. rewrite cur_begin. cbn [app] in A1. rewrite A1.
    destruct f1 as [|f1]; [lia|].
    pose proof (is_varint_nonnil _ _ (proj1 T)) as Tn.
    cbn [deserialize_loop].
    replace (it_pos _ =? _) with false.
    2:{ cbn [cur it_pos]. zlen. destruct tag; [congruence|]. zlen.
        pose proof (Zlen_nonneg tag). pose proof (Zlen_nonneg len). pose proof (Zlen_nonneg post). lia. }
    unfold deserializeProperty. rewrite (tag_read_ok num 2) by (auto; cbn; auto). cbn [bind negb].
    rewrite U. unfold skipSerializedFieldBytes.
    replace (2 =? WVarintT) with false by reflexivity.
    replace (2 =? WFixed32T) with false by reflexivity.
    replace (2 =? WFixed64T) with false by reflexivity.
    replace (2 =? WLengthDelimitedT) with true by reflexivity.
    unfold skipLengthDelimited. rewrite (app_assoc bs tag (len ++ post)).
    rewrite (varint_read 32 v len (bs ++ tag) post ltac:(lia) V). cbn [bind].
    pose proof (Zlen_nonneg post). pose proof (Zlen_nonneg (bs ++ tag ++ len)).
    rewrite wrapU_small by (unfold in_u; lia).
    change (2 ^ 32) with 4294967296 in *. change (2 ^ 31) with 2147483648 in *.
    assert (Ts : toS 32 v = v - 4294967296).
    { unfold toS. change (2 ^ 32) with 4294967296 in *.
      change (2 ^ (32 - 1)) with 2147483648. destruct (_ <? _) eqn:C; lia. }
    rewrite Ts. unfold advance. cbn [andb cur it_left it_pos it_size].
    replace (Zlen post - (v - 4294967296)) with (Zlen post + (4294967296 - v)) by lia.
    destruct (INT_MAX <? Zlen post + (4294967296 - v)); [reflexivity|].
    replace (_ <? 0) with false by lia.
    replace ((_ <? 0) || _) with true; [reflexivity|].
    repeat progress zlen_in Hv. zlen. lia.
  Qed.

  (** A record that is read with undefined behaviour, after records that are read well. *)
  Lemma after_records m rs bs b rest u :
    enc_recs rs bs -> fits sch m rs -> Zlen (bs ++ b :: rest) <= INT_MAX ->
    (forall fuel rec obj,
       deserializeProperty fuel false sch rec m (bs ++ b :: rest) (cur bs (b :: rest)) obj = UB u) ->
    exists r, deserializes sch m (bs ++ b :: rest) r (UB u).
  Proof.
    intros E F B P.
    destruct (loop_records sch Sch false (S (length (bs ++ b :: rest))) m rs bs []
                (b :: rest) (default_obj sch m) (default_obj sch m))
      as (f1 & r & A1 & A2 & A3 & A4); auto.
    { rewrite !app_length. lia. }
    { apply default_obj_length. }
    { apply default_obj_length. }
    { reflexivity. }
    exists r. split; [discriminate|]. exists (S (length (bs ++ b :: rest))).
    unfold deserializeMessage. rewrite cur_begin. cbn [app] in A1. rewrite A1.
    destruct f1 as [|f1]; [lia|]. cbn [deserialize_loop].
    rewrite cur_not_end. now rewrite P.
  Qed.

  Lemma long_loop w x : Forall (fun b => 128 <= b < 256) x -> forall n pre rest k acc,
    0 <= k -> k + 7 * Zlen x = 70 -> (length x < n)%nat ->
    varint_loop n w (pre ++ x ++ rest) (cur pre (x ++ rest)) k acc = UB ShiftOverflow.
  Proof.
    induction 1 as [|b x Hb H IH]; intros n pre rest k acc Hk0 Hk L; (destruct n; [simpl in L; lia|]);
      cbn [varint_loop app].
    - change (Zlen []) with 0 in Hk. replace (64 <=? k) with true by lia.
      destruct rest as [|b rest]; [rewrite app_nil_r, deref_end | rewrite deref_cur]; reflexivity.
    - rewrite Zlen_cons in Hk. rewrite deref_cur. cbn [bind].
      destruct (64 <=? k) eqn:K; [reflexivity|]. rewrite incr_cur. cbn [bind].
      rewrite land128 by lia. replace (b <? 128) with false by lia. cbn [Z.eqb].
      replace (pre ++ b :: x ++ rest) with ((pre ++ [b]) ++ x ++ rest) by (rewrite <- app_assoc; reflexivity).
      apply IH; [lia | lia | simpl in L; lia].
  Qed.

  (** A tag of more than ten bytes. *)
  Lemma shift_out m rs bs x rest :
    enc_recs rs bs -> fits sch m rs -> length x = 10%nat -> Forall (fun b => 128 <= b < 256) x ->
    Zlen (bs ++ x ++ rest) <= INT_MAX ->
    exists r, deserializes sch m (bs ++ x ++ rest) r (UB ShiftOverflow).
  Proof.
    intros E F L X B. destruct x as [|b x]; [discriminate|]. cbn [app] in *.
    apply (after_records m rs bs b (x ++ rest)); auto.
    intros fuel rec obj. unfold deserializeProperty, decodeHeader, deserializeVarintCommon.
    pose proof (long_loop 32 (b :: x) X 11 bs rest 0 0) as H. cbn [app] in H.
    rewrite H; [reflexivity | lia | unfold Zlen; rewrite L; lia | rewrite L; lia].
  Qed.

  (** A value announced longer than the input goes on. *)
  Lemma over_out m rs bs i num tag v len content :
    enc_recs rs bs -> fits sch m rs ->
    field_number num -> find_field (msg_at sch m) num = Some i -> is_tag num 2 tag ->
    holds_bytes (f_ty (field_at sch m i)) ->
    wire_varint v len -> Zlen content + 1 < v < 2 ^ 31 ->
    Zlen (bs ++ tag ++ len ++ content) <= INT_MAX ->
    exists r, deserializes sch m (bs ++ tag ++ len ++ content) r (UB OverRead).
  Proof.
    intros E F N Fi T Ty V Hv B.
    pose proof (is_varint_nonnil _ _ (proj1 T)) as Tn. destruct tag as [|b tag']; [congruence|].
    apply (after_records m rs bs b (tag' ++ len ++ content)); auto.
    intros fuel rec obj. unfold deserializeProperty.
    change (b :: tag' ++ len ++ content) with ((b :: tag') ++ len ++ content).
    set (tag := b :: tag') in *.
    rewrite (tag_read_ok num 2) by (auto; cbn; auto). cbn [bind negb]. rewrite Fi.
    rewrite (app_assoc bs tag (len ++ content)).
    assert (D : deserializeLengthDelimited false ((bs ++ tag) ++ len ++ content)
                  (cur (bs ++ tag) (len ++ content)) = UB OverRead).
    { unfold deserializeLengthDelimited.
      rewrite (varint_read 32 v len (bs ++ tag) content ltac:(lia) V). cbn [bind].
      pose proof (Zlen_nonneg content).
      change (2 ^ 31) with 2147483648 in *.
      rewrite wrapU_small by (unfold in_u; lia).
      assert (Ts : toS 32 v = v).
      { unfold toS. change (2 ^ 32) with 4294967296 in *.
        change (2 ^ (32 - 1)) with 2147483648. destruct (_ <? _) eqn:C; lia. }
      rewrite Ts. replace (v <? 0) with false by lia.
      replace (_ <=? _) with false; [reflexivity|]. cbn [cur it_pos]. zlen. lia. }
    destruct (f_ty (field_at sch m i)) as [[t|m']|[t|m']|k e]; cbn [deserializeField].
    - destruct Ty as [-> | ->]; cbn [deserializeBasic]; rewrite D; reflexivity.
    - unfold deserializeObject. rewrite D. reflexivity.
    - destruct Ty as [-> | ->]; cbn [is_blob deserializeBasic]; rewrite D; reflexivity.
    - unfold deserializeObject. rewrite D. reflexivity.
    - contradiction.
  Qed.
End Jump.

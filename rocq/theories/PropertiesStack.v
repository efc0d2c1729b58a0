(** Property C85: the stack that reading a message needs. *)

From Coq Require Import ZArith List Bool Lia ZifyBool.
From Verif Require Import Base WireModel Values MessageModel WireSpec WireProofs MessageSpec
  MessageProofs SerializeProofs ReaderProofs MessageFacts RunFacts ReaderSpec ReaderCalm PropFacts StackModel StackSpec StackProofs PropertiesReader.
Import ListNotations.
Open Scope Z_scope.
Ltac Zify.zify_post_hook ::= Z.div_mod_to_equations.

(** If no message type contains itself, the nesting of the types bounds the nesting of calls: with room for it, every input is read
    as with unlimited room, whatever the bytes are, and no run exhausts the stack.  Missing: types that contain themselves. *)
Theorem C85_types_partial : forall sch height m stack data r o, ranked sch height -> (height m <= stack)%nat ->
  (deserializes_on_stack stack sch m data r o <-> deserializes sch m data r o) /\
  (deserializes_on_stack stack sch m data r o -> o <> UB StackExhausted).
Proof.
  intros sch height m stack data r o R H.
  assert (E : deserializes_on_stack stack sch m data r o <-> deserializes sch m data r o).
  { unfold deserializes_on_stack, deserializes, deserializeMessage.
    split; intros [N [fuel X]]; (split; [exact N|]); exists fuel; [rewrite <- (loop_ranked false sch height R fuel stack) by exact H | rewrite (loop_ranked false sch height R fuel stack) by exact H]; exact X. }
  split; [exact E|]. intros D ->. apply E in D. destruct (C21_kinds sch m data r _ D) as [X|[X|[X|(u & X & Iu)]]]; try discriminate X.
  injection X as <-. cbn in Iu. intuition discriminate.
Qed.

(** For all types: without a place that can be taken for a negative length, there are not more nested calls than bytes.
    Missing: inputs with such a place (some of them do not even end, see C20), and any bound that does not depend on the input: there
    is none for types that contain themselves, see the next theorem. *)
Theorem C85_length_partial : forall sch m stack data,
  Zlen data <= INT_MAX -> bytes data -> ~ has_negative_length data -> Zlen data < Z.of_nat stack ->
  exists r o, deserializes_on_stack stack sch m data r o /\ deserializes sch m data r o /\ o <> UB StackExhausted.
Proof.
  intros sch m stack data B Y N L.
  pose proof (safe_no_negative_length sch m data B Y N) as NN.
  pose proof (agree_message sch _ m data (NN (Datatypes.S (length data)))) as A.
  pose proof (loop_ends sch (Datatypes.S (length data)) m [] data (default_obj sch m) B) as En.
  destruct (deserializeMessage (Datatypes.S (length data)) false sch m data) as [r o] eqn:E. exists r, o.
  assert (No : o <> OutOfFuel).
  { intros ->. unfold deserializeMessage in A. rewrite cur_begin in A. cbn [app] in En. rewrite <- A in En. cbn in En. lia. }
  assert (D : deserializes sch m data r o) by (split; [exact No | eauto]).
  split; [|split; [exact D|]].
  - split; [exact No|]. exists (Datatypes.S (length data)). rewrite loop_room by (unfold Zlen in L; lia). exact E.
  - intros ->. destruct (C21_kinds sch m data r _ D) as [X|[X|[X|(u & X & Iu)]]]; try discriminate X.
    injection X as <-. cbn in Iu. intuition discriminate.
Qed.

(** The reader has no limit on the nesting of messages.  For every message type that contains itself, directly or through others, and
    for every size of the stack there is well-formed input, with ten bytes or less for each nested call, that exhausts the stack. *)
Theorem C85_unbounded_refuted : forall sch chain at_ stack, schema_ok sch -> endless sch chain at_ -> 10 * Z.of_nat (S stack) <= INT_MAX ->
  exists data, Zlen data <= 10 * Z.of_nat (S stack) /\
    (exists rs, enc_recs rs data /\ fits sch (chain 0%nat) rs) /\
    (exists r, deserializes sch (chain 0%nat) data r (Ok tt)) /\
    forall r o, deserializes_on_stack stack sch (chain 0%nat) data r o <-> r = default_obj sch (chain 0%nat) /\ o = UB StackExhausted.
Proof.
  intros sch chain at_ stack S E B. destruct (nested_written sch chain at_ S E (Datatypes.S stack) 0 B) as (bs & En & L). exists bs. split; [exact L|].
  pose proof (nested_fits sch chain at_ S E (Datatypes.S stack) 0) as F. split; [eauto|]. split.
  - destruct (run_read sch S (chain 0%nat) _ bs En F ltac:(lia)) as (r & D & _). eauto.
  - pose proof (exhausted sch chain at_ S E stack 0 bs false En ltac:(lia)) as X. intros r o. split.
    + intros [N [fuel H]]. destruct (loop_same false sch (chain 0%nat) bs (it_begin bs) (default_obj sch (chain 0%nat)) stack fuel (Datatypes.S (Datatypes.S stack)) r o (default_obj sch (chain 0%nat)) (UB StackExhausted) H N X ltac:(discriminate)) as [-> ->]. auto.
    + intros [-> ->]. split; [discriminate|]. eauto.
Qed.

(** message Tree { int32 value = 1; repeated Tree children = 2; } *)
Definition tree_sch : schema := [mkMsg [mkField 1 (FSing (ES TInt32)); mkField 2 (FRep (EM 0))] [0; 1]%nat].

Example C85_tree_case : schema_ok tree_sch /\ endless tree_sch (fun _ => 0%nat) (fun _ => 1%nat) /\
  deserializes_on_stack 2 tree_sch 0 [18; 6; 18; 4; 18; 2; 8; 7] (default_obj tree_sch 0) (UB StackExhausted) /\
  deserializes_on_stack 3 tree_sch 0 [18; 6; 18; 4; 18; 2; 8; 7]
    [VScalar (SNum 0); VList [VMsg [VScalar (SNum 0); VList [VMsg [VScalar (SNum 0); VList [VMsg [VScalar (SNum 7); VList []]]]]]]] (Ok tt).
Proof.
  split.
  { constructor; [|constructor]. split; [|split; [|split]].
    - repeat constructor; cbn; lia.
    - repeat constructor; cbn; lia.
    - repeat constructor; cbn; lia.
    - intro i. cbn. lia. }
  split; [intro j; cbn; auto|].
  split; (split; [discriminate|]; exists 9%nat; vm_compute; reflexivity).
Qed.

(** message Place { uint32 zip = 1; } message Person { Place home = 1; map<string, Place> places = 2; } *)
Definition person_sch : schema :=
  [mkMsg [mkField 1 (FSing (ES TUInt32))] [0%nat]; mkMsg [mkField 1 (FSing (EM 0)); mkField 2 (FMap TString (EM 0))] [0; 1]%nat].

Example C85_types_case : ranked person_sch (fun m => match m with 1%nat => 1%nat | _ => 0%nat end) /\
  deserializes_on_stack 1 person_sch 1 [10; 2; 8; 5] [VMsg [VScalar (SNum 5)]; VMap []] (Ok tt).
Proof.
  split.
  - intros m i m' Hi Ho. destruct m as [|[|m]].
    + destruct i as [|i]; cbn in Ho; [contradiction | cbn in Hi; lia].
    + destruct i as [|[|i]]; cbn in Ho; [subst; lia .. | cbn in Hi; lia].
    + destruct m; cbn in Hi; lia.
  - split; [discriminate|]. exists 9%nat. vm_compute. reflexivity.
Qed.

Print Assumptions C85_types_partial.
Print Assumptions C85_length_partial.
Print Assumptions C85_unbounded_refuted.

(** Proofs on the stack of the reader. *)

From Coq Require Import ZArith List Bool Lia ZifyBool.
From Verif Require Import Base WireModel Values MessageModel WireSpec MessageSpec WireProofs MessageProofs SerializeProofs ReaderProofs
  MessageFacts RunFacts StackModel StackSpec.
Import ListNotations.
Open Scope Z_scope.
Ltac Zify.zify_post_hook ::= Z.div_mod_to_equations.

(** ** Readers of nested messages that agree on the types in question *)

Section Agree.
  Variable fuel : nat.
  Variable hard : bool.
  Variable sch : schema.
  Variables rec rec' : nat -> list Z -> list value * res unit.

  Definition agrees (m : nat) : Prop := forall data, rec m data = rec' m data.

  Lemma object_agrees m data it : agrees m -> deserializeObject hard rec m data it = deserializeObject hard rec' m data it.
  Proof.
    intro A. unfold deserializeObject. destruct (deserializeLengthDelimited hard data it) as [[array it']| | |]; cbn [bind]; try reflexivity.
    now rewrite A.
  Qed.

  Lemma element_agrees e data it : (forall m, e = EM m -> agrees m) -> deserializeElement hard rec e data it = deserializeElement hard rec' e data it.
  Proof. intro A. destruct e as [t|m]; cbn [deserializeElement]; [reflexivity|]. now rewrite (object_agrees m data it (A m eq_refl)). Qed.

  Lemma map_loop_agrees k e : (forall m, e = EM m -> agrees m) -> forall n data it last key val,
    map_loop hard rec n k e data it last key val = map_loop hard rec' n k e data it last key val.
  Proof.
    intro A. induction n as [|n IH]; intros data it last key val; [reflexivity|]. cbn [map_loop].
    destruct (it_pos it =? last); [reflexivity|]. destruct (decodeHeader data it) as [[[[idx wt] valid] it1]| | |]; cbn [bind]; try reflexivity.
    destruct (idx =? 1).
    - destruct (deserializeBasic hard k data it1) as [[key' it2]| | |]; cbn [bind]; try reflexivity. apply IH.
    - rewrite (element_agrees e data it1 A). destruct (deserializeElement hard rec' e data it1) as [[val' it2]| | |]; cbn [bind]; try reflexivity. apply IH.
  Qed.

  Lemma field_agrees ty old data it : (forall m, holds ty m -> agrees m) ->
    deserializeField fuel hard rec ty old data it = deserializeField fuel hard rec' ty old data it.
  Proof.
    intro A. destruct ty as [[t|m]|[t|m]|k e]; cbn [deserializeField]; try reflexivity.
    - now rewrite (object_agrees m data it (A m eq_refl)).
    - now rewrite (object_agrees m data it (A m eq_refl)).
    - unfold deserializeMapPair. destruct (deserializeVarintCommon 32 data it) as [[count it1]| | |]; cbn [bind]; try reflexivity.
      destruct (it_plus hard it1 (toS 32 count)) as [last| | |]; cbn [bind]; try reflexivity.
      rewrite (map_loop_agrees k e); [reflexivity|]. intros m ->. now apply A.
  Qed.

  Lemma property_agrees m data it obj : (forall i m', (i < length (md_fields (msg_at sch m)))%nat -> holds (f_ty (field_at sch m i)) m' -> agrees m') ->
    deserializeProperty fuel hard sch rec m data it obj = deserializeProperty fuel hard sch rec' m data it obj.
  Proof.
    intro A. unfold deserializeProperty. destruct (decodeHeader data it) as [[[[num wt] valid] it1]| | |]; cbn [bind]; try reflexivity.
    destruct (negb valid); [reflexivity|]. destruct (find_field (msg_at sch m) num) as [i|] eqn:F; [|reflexivity].
    destruct (find_field_range _ _ _ F) as [Hi _]. now rewrite (field_agrees (f_ty (field_at sch m i)) _ data it1 (fun m' H => A i m' Hi H)).
  Qed.
End Agree.

(** ** Enough room *)

Lemma loop_ranked hard sch height : ranked sch height -> forall fuel stack m data it obj, (height m <= stack)%nat ->
  loop_on_stack fuel stack hard sch m data it obj = deserialize_loop fuel hard sch m data it obj.
Proof.
  intros R. induction fuel as [|fuel IH]; intros stack m data it obj H; [reflexivity|]. cbn [loop_on_stack deserialize_loop].
  destruct (it_pos it =? Zlen data); [reflexivity|].
  rewrite (property_agrees fuel hard sch _ (fun m' data' => deserialize_loop fuel hard sch m' data' (it_begin data') (default_obj sch m'))).
  - destruct (deserializeProperty fuel hard sch _ m data it obj) as [[obj' it']| | |]; try reflexivity. now apply IH.
  - intros i m' Hi Ho d. specialize (R m i m' Hi Ho). destruct stack as [|stack]; [lia|]. apply IH. lia.
Qed.

Lemma loop_room hard sch : forall fuel stack m data it obj, (fuel <= stack)%nat ->
  loop_on_stack fuel stack hard sch m data it obj = deserialize_loop fuel hard sch m data it obj.
Proof.
  induction fuel as [|fuel IH]; intros stack m data it obj H; [reflexivity|]. cbn [loop_on_stack deserialize_loop].
  destruct (it_pos it =? Zlen data); [reflexivity|].
  rewrite (property_agrees fuel hard sch _ (fun m' data' => deserialize_loop fuel hard sch m' data' (it_begin data') (default_obj sch m'))).
  - destruct (deserializeProperty fuel hard sch _ m data it obj) as [[obj' it']| | |]; try reflexivity. apply IH. lia.
  - intros i m' Hi Ho d. destruct stack as [|stack]; [lia|]. apply IH. lia.
Qed.

Lemma stack_step fuel stack hard sch m data it obj : loop_on_stack (S fuel) stack hard sch m data it obj =
  if it_pos it =? Zlen data then (obj, Ok tt) else
  match deserializeProperty fuel hard sch (fun m' data' => match stack with
      | O => ([], UB StackExhausted)
      | S stack' => loop_on_stack fuel stack' hard sch m' data' (it_begin data') (default_obj sch m')
      end) m data it obj with
  | Ok (obj', it') => loop_on_stack fuel stack hard sch m data it' obj'
  | Throw e => (obj, Throw e)
  | UB r => (obj, UB r)
  | OutOfFuel => (obj, OutOfFuel)
  end.
Proof. reflexivity. Qed.

(** Two runs that end, end in the same way. *)
Lemma stack_ext hard sch fuel : forall fuel' stack m data it obj, (fuel <= fuel')%nat ->
  ext_run (loop_on_stack fuel stack hard sch m data it obj) (loop_on_stack fuel' stack hard sch m data it obj).
Proof.
  induction fuel as [|fuel IH]; intros fuel' stack m data it obj L H; [contradiction H; reflexivity|].
  destruct fuel' as [|fuel']; [lia|]. rewrite stack_step in *. rewrite stack_step.
  destruct (it_pos it =? Zlen data); [reflexivity|].
  match goal with |- match deserializeProperty _ _ _ ?b _ _ _ _ with _ => _ end = match deserializeProperty _ _ _ ?a _ _ _ _ with _ => _ end =>
    pose proof (property_ext hard sch fuel fuel' ltac:(lia) a b) as P end.
  assert (R : forall m0 data0, ext_run
    ((fun (m' : nat) (data' : list Z) => match stack with O => ([], UB StackExhausted) | S stack' => loop_on_stack fuel stack' hard sch m' data' (it_begin data') (default_obj sch m') end) m0 data0)
    ((fun (m' : nat) (data' : list Z) => match stack with O => ([], UB StackExhausted) | S stack' => loop_on_stack fuel' stack' hard sch m' data' (it_begin data') (default_obj sch m') end) m0 data0)).
  { intros m0 d0. destruct stack as [|stack]; [intro; reflexivity|]. apply IH. lia. }
  specialize (P R m data it obj).
  destruct (deserializeProperty fuel hard sch _ m data it obj) as [[obj' it']|e|r|] eqn:E;
    try (rewrite P by congruence; reflexivity).
  - rewrite P by congruence. apply IH; [lia|exact H].
  - contradiction H; reflexivity.
Qed.

Lemma loop_same hard sch m data it obj stack f f' r o r' o' :
  loop_on_stack f stack hard sch m data it obj = (r, o) -> o <> OutOfFuel ->
  loop_on_stack f' stack hard sch m data it obj = (r', o') -> o' <> OutOfFuel -> r = r' /\ o = o'.
Proof.
  intros H N H' N'.
  pose proof (stack_ext hard sch f (Nat.max f f') stack m data it obj ltac:(lia)) as X. unfold ext_run in X. rewrite H in X. specialize (X N).
  pose proof (stack_ext hard sch f' (Nat.max f f') stack m data it obj ltac:(lia)) as X'. unfold ext_run in X'. rewrite H' in X'. specialize (X' N').
  rewrite X in X'. now injection X' as -> ->.
Qed.

(** ** Not enough room *)

Section Endless.
  Variable sch : schema.
  Variables chain at_ : nat -> nat.
  Hypothesis Sch : schema_ok sch.
  Hypothesis En : endless sch chain at_.

  Lemma nested_number j : field_number (f_num (field_at sch (chain j) (at_ j))).
  Proof. destruct (En j) as [Hi _]. destruct (field_at_ok sch (chain j) (at_ j) Sch Hi) as [N _]. exact N. Qed.

  Lemma nested_fits : forall n j, fits sch (chain j) (nested sch chain at_ j n).
  Proof.
    induction n as [|n IH]; intro j; apply fits_spec; cbn [nested]; [constructor|]. constructor; [|constructor].
    destruct (En j) as [Hi Ty]. unfold fits_record. cbn [fst snd]. rewrite (find_field_at sch (chain j) (at_ j) Sch Hi).
    destruct Ty as [-> | ->]; cbn [fits_field]; apply IH.
  Qed.

  Lemma nested_written : forall n j, 10 * Z.of_nat n <= INT_MAX ->
    exists bs, enc_recs (nested sch chain at_ j n) bs /\ Zlen bs <= 10 * Z.of_nat n.
  Proof.
    induction n as [|n IH]; intros j B; [exists []; split; [constructor | cbn; lia]|].
    destruct (IH (S j)) as (bs & E & L); [lia|]. cbn [nested].
    exists (encodeHeader (f_num (field_at sch (chain j) (at_ j))) (wtype (WMsg (nested sch chain at_ (S j) n))) ++ prependLengthDelimitedSize bs). split.
    - apply enc_one; [apply nested_number|]. apply enc_msg with (content := bs); [exact E|]. apply prepend_delimited. lia.
    - unfold prependLengthDelimitedSize, encodeHeader. rewrite !Zlen_app.
      assert (F : forall v, Zlen (serializeVarintCommon (wrapU 32 v)) <= 5).
      { intro v. unfold Zlen. assert (length (serializeVarintCommon (wrapU 32 v)) <= 5)%nat; [|lia].
        apply serializeVarint_bound; [lia|]. unfold wrapU. change (2 ^ (7 * Z.of_nat 5)) with 34359738368. change (2 ^ 32) with 4294967296. pose proof (Z.mod_pos_bound v 4294967296 eq_refl). lia. }
      pose proof (F (Zlen bs)). pose proof (F (Z.lor (Z.shiftl (f_num (field_at sch (chain j) (at_ j))) 3) (wtype (WMsg (nested sch chain at_ (S j) n))))). lia.
  Qed.

  Lemma exhausted : forall stack j bs hard, enc_recs (nested sch chain at_ j (S stack)) bs -> Zlen bs <= INT_MAX ->
    loop_on_stack (S (S stack)) stack hard sch (chain j) bs (it_begin bs) (default_obj sch (chain j)) = (default_obj sch (chain j), UB StackExhausted).
  Proof.
    induction stack as [|stack IH]; intros j bs hard E B.
    all: cbn [nested] in E; inversion E as [|num w rs tag pl rest N T V Er]; subst; inversion Er; subst; rewrite app_nil_r in *.
    all: inversion V as [| | | | |? content ? Ec D]; subst.
    all: rewrite stack_step; rewrite cur_begin.
    all: assert (Ne : (it_pos (cur [] (tag ++ pl)) =? Zlen (tag ++ pl)) = false) by
      (destruct (tag ++ pl) as [|b l] eqn:Et; [destruct T as [Tv _]; destruct tag; [inversion Tv | discriminate Et] | apply (cur_not_end [] b l)]).
    all: rewrite Ne.
    all: unfold deserializeProperty.
    all: pose proof (tag_read_ok (f_num (field_at sch (chain j) (at_ j))) 2 tag [] pl (nested_number j) ltac:(cbn; auto) T) as Rt; cbn [app] in Rt.
    all: rewrite Rt; cbn [bind negb].
    all: destruct (En j) as [Hi Ty]; rewrite (find_field_at sch (chain j) (at_ j) Sch Hi).
    all: pose proof (delimited_read hard content pl tag [] D) as Rd; rewrite app_nil_r in Rd.
    all: assert (Bp : Zlen pl <= INT_MAX) by (rewrite Zlen_app in B; pose proof (Zlen_nonneg tag); lia); specialize (Rd Bp).
    all: destruct Ty as [-> | ->]; cbn [deserializeField]; unfold deserializeObject; rewrite Rd; cbn [bind].
    1,2: reflexivity.
    all: assert (Bc : Zlen content <= INT_MAX) by (destruct D as (len & _ & ->); rewrite Zlen_app in Bp; pose proof (Zlen_nonneg len); lia).
    all: rewrite (IH (S j) content hard Ec Bc); reflexivity.
  Qed.
End Endless.

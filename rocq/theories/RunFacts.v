(** Complete runs: the outcome of the reader does not depend on the fuel. *)

From Coq Require Import ZArith List Bool Lia ZifyBool.
From Verif Require Import Base WireModel Values MessageModel WireSpec WireProofs MessageSpec
  MessageProofs SerializeProofs ReaderProofs MessageFacts WireFacts.
Import ListNotations.
Open Scope Z_scope.
Ltac Zify.zify_post_hook ::= Z.div_mod_to_equations.

(** [b] is [a] unless [a] ran out of fuel. *)
Definition ext {A} (a b : res A) : Prop := a <> OutOfFuel -> b = a.

Lemma ext_refl {A} (a : res A) : ext a a.
Proof. intros _. reflexivity. Qed.

Lemma ext_bind {A B} (a b : res A) (f g : A -> res B) :
  ext a b -> (forall x, ext (f x) (g x)) -> ext (bind a f) (bind b g).
Proof.
  intros E F H. destruct a as [x|e|r|]; cbn [bind] in *; try (now rewrite E by congruence).
  rewrite E by congruence. cbn [bind]. now apply F.
Qed.

Ltac ext_step :=
  match goal with
  | |- ext ?x ?x => apply ext_refl
  | |- ext (bind _ _) (bind _ _) => apply ext_bind; [|intro]
  | |- ext (if ?c then _ else _) (if ?c then _ else _) => destruct c
  | |- ext (let '(_, _) := ?p in _) _ => destruct p
  end.

Lemma list_loop_ext hard t fuel : forall fuel' data it last, (fuel <= fuel')%nat ->
  ext (list_loop fuel hard t data it last) (list_loop fuel' hard t data it last).
Proof.
  induction fuel as [|fuel IH]; intros fuel' data it last L H; [contradiction H; reflexivity|].
  destruct fuel' as [|fuel']; [lia|]. revert H. cbn [list_loop].
  fold (ext (if it_pos it =? last then Ok ([], it)
     else '(s, it1) <- deserializeBasic hard t data it ;;
          '(l, it2) <- list_loop fuel hard t data it1 last ;; Ok (s :: l, it2))
    (if it_pos it =? last then Ok ([], it)
     else '(s, it1) <- deserializeBasic hard t data it ;;
          '(l, it2) <- list_loop fuel' hard t data it1 last ;; Ok (s :: l, it2))).
  repeat ext_step. apply IH. lia.
Qed.

Lemma numeric_ext hard t fuel fuel' data it : (fuel <= fuel')%nat ->
  ext (deserializeListNumeric fuel hard t data it) (deserializeListNumeric fuel' hard t data it).
Proof. intro L. unfold deserializeListNumeric. repeat ext_step. now apply list_loop_ext. Qed.

(** A nested reader that ran out of fuel may be replaced. *)
Definition ext_run {A} (a b : A * res unit) : Prop := snd a <> OutOfFuel -> b = a.

Section Ext.
  Variable hard : bool.
  Variable sch : schema.
  Variables fuel fuel' : nat.
  Hypothesis L : (fuel <= fuel')%nat.
  Variables rec rec' : nat -> list Z -> list value * res unit.
  Hypothesis R : forall m data, ext_run (rec m data) (rec' m data).

  Lemma object_ext m data it :
    ext (deserializeObject hard rec m data it) (deserializeObject hard rec' m data it).
  Proof.
    unfold deserializeObject. ext_step; [apply ext_refl|]. destruct x as [array it'].
    intro H. specialize (R m array). unfold ext_run in R.
    destruct (rec m array) as [obj [u|e|r|]]; cbn [snd] in R;
      rewrite R by congruence; reflexivity.
  Qed.

  Lemma element_ext e data it :
    ext (deserializeElement hard rec e data it) (deserializeElement hard rec' e data it).
  Proof.
    destruct e; cbn [deserializeElement]; [apply ext_refl|].
    ext_step; [apply object_ext|]. destruct x. apply ext_refl.
  Qed.

  Lemma map_loop_ext k e n : forall n' data it last key val, (n <= n')%nat ->
    ext (map_loop hard rec n k e data it last key val)
        (map_loop hard rec' n' k e data it last key val).
  Proof.
    induction n as [|n IH]; intros n' data it last key val Ln; [intro H; contradiction H; reflexivity|].
    destruct n' as [|n']; [lia|]. cbn [map_loop].
    ext_step; [apply ext_refl|]. ext_step; [apply ext_refl|]. destruct x as [[[idx wt] valid] it1].
    ext_step.
    - ext_step; [apply ext_refl|]. destruct x as [key' it2]. apply IH. lia.
    - ext_step; [apply element_ext|]. destruct x as [val' it2]. apply IH. lia.
  Qed.

  Lemma pair_ext k e data it :
    ext (deserializeMapPair fuel hard rec k e data it) (deserializeMapPair fuel' hard rec' k e data it).
  Proof. unfold deserializeMapPair. repeat ext_step. now apply map_loop_ext. Qed.

  Lemma field_ext ty old data it :
    ext (deserializeField fuel hard rec ty old data it)
        (deserializeField fuel' hard rec' ty old data it).
  Proof.
    destruct ty as [[t|m]|[t|m]|k e]; cbn [deserializeField].
    - apply ext_refl.
    - ext_step; [apply object_ext|]. destruct x. apply ext_refl.
    - ext_step; [apply ext_refl|].
      ext_step; (ext_step; [now apply numeric_ext|]; destruct x; apply ext_refl).
    - ext_step; [apply object_ext|]. destruct x. apply ext_refl.
    - ext_step; [apply pair_ext|]. destruct x as [[key val] it']. apply ext_refl.
  Qed.

  Lemma property_ext m data it obj :
    ext (deserializeProperty fuel hard sch rec m data it obj)
        (deserializeProperty fuel' hard sch rec' m data it obj).
  Proof.
    unfold deserializeProperty. ext_step; [apply ext_refl|]. destruct x as [[[num wt] valid] it1].
    ext_step; [apply ext_refl|]. destruct (find_field (msg_at sch m) num); [|apply ext_refl].
    ext_step; [apply field_ext|]. destruct x. apply ext_refl.
  Qed.
End Ext.

Lemma loop_ext hard sch fuel : forall fuel' m data it obj, (fuel <= fuel')%nat ->
  ext_run (deserialize_loop fuel hard sch m data it obj) (deserialize_loop fuel' hard sch m data it obj).
Proof.
  induction fuel as [|fuel IH]; intros fuel' m data it obj L H; [contradiction H; reflexivity|].
  destruct fuel' as [|fuel']; [lia|]. cbn [deserialize_loop] in *.
  destruct (it_pos it =? Zlen data); [reflexivity|].
  pose proof (property_ext hard sch fuel fuel' ltac:(lia)
    (fun m' data' => deserialize_loop fuel hard sch m' data' (it_begin data') (default_obj sch m'))
    (fun m' data' => deserialize_loop fuel' hard sch m' data' (it_begin data') (default_obj sch m'))
    ltac:(intros; apply IH; lia) m data it obj) as P.
  destruct (deserializeProperty fuel hard sch _ m data it obj) as [[obj' it']|e|r|] eqn:E;
    try (rewrite P by congruence; reflexivity).
  - rewrite P by congruence. apply IH; [lia|exact H].
  - contradiction H; reflexivity.
Qed.

Lemma deserialize_ext hard sch fuel fuel' m data obj o : (fuel <= fuel')%nat -> o <> OutOfFuel ->
  deserializeMessage fuel hard sch m data = (obj, o) ->
  deserializeMessage fuel' hard sch m data = (obj, o).
Proof.
  intros L N H. unfold deserializeMessage in *.
  rewrite (loop_ext hard sch fuel fuel') by (try rewrite H; auto). exact H.
Qed.

Lemma deserializes_fun sch m data obj o obj' o' :
  deserializes sch m data obj o -> deserializes sch m data obj' o' -> obj = obj' /\ o = o'.
Proof.
  intros (N & f & H) (N' & f' & H').
  apply (deserialize_ext _ _ _ (Nat.max f f')) in H; [|lia|exact N].
  apply (deserialize_ext _ _ _ (Nat.max f f')) in H'; [|lia|exact N'].
  rewrite H in H'. now injection H' as -> ->.
Qed.

Lemma serializes_fun sch m obj bs bs' :
  serializes sch m obj bs -> serializes sch m obj bs' -> bs = bs'.
Proof.
  intros (f & H) (f' & H').
  apply (serialize_mono _ _ (Nat.max f f')) in H; [|lia].
  apply (serialize_mono _ _ (Nat.max f f')) in H'; [|lia]. congruence.
Qed.

(** ** The main facts, without fuel *)

Section Runs.
  Variable sch : schema.
  Hypothesis Sch : schema_ok sch.

  Lemma run_read m rs bs : enc_recs rs bs -> fits sch m rs -> Zlen bs <= INT_MAX ->
    exists r, deserializes sch m bs r (Ok tt) /\ length r = length (md_fields (msg_at sch m))
      /\ same sch m r (mean sch m rs).
  Proof.
    intros E F B. destruct (deserialize_read false sch Sch (Datatypes.S (length bs)) m rs bs E F)
      as (r & R1 & R2 & R3); [lia|exact B|].
    exists r. split; [|auto]. split; [discriminate|]. eauto.
  Qed.

  (** The result for well-formed records, whatever run is considered. *)
  Lemma run_read_result m rs bs r o : enc_recs rs bs -> fits sch m rs -> Zlen bs <= INT_MAX ->
    deserializes sch m bs r o ->
    o = Ok tt /\ length r = length (md_fields (msg_at sch m)) /\ same sch m r (mean sch m rs).
  Proof.
    intros E F B D. destruct (run_read m rs bs E F B) as (r' & D' & L & Sm).
    destruct (deserializes_fun _ _ _ _ _ _ _ D D') as [-> ->]. auto.
  Qed.

  Lemma run_field m rs bs r o i : enc_recs rs bs -> fits sch m rs -> Zlen bs <= INT_MAX ->
    deserializes sch m bs r o -> (i < length (md_fields (msg_at sch m)))%nat ->
    same_field sch (f_ty (field_at sch m i)) (nth i r VNull) (nth i (mean sch m rs) VNull).
  Proof.
    intros E F B D Hi. destruct (run_read_result m rs bs r o E F B D) as (_ & L & Sm).
    apply same_nth; auto. now apply mean_length.
  Qed.

  Lemma run_write m obj bs : object_ok sch m obj -> serializes sch m obj bs -> Zlen bs <= INT_MAX ->
    exists g, let rs := groups sch m (md_order (msg_at sch m)) g in
      enc_recs rs bs /\ fits sch m rs /\ same sch m (mean sch m rs) (map drop_nulls obj)
      /\ forall i, (i < length (md_fields (msg_at sch m)))%nat ->
         unset_field (f_ty (field_at sch m i)) (nth i obj VNull) = true -> g i = [].
  Proof. intros O (f & H) B. eapply message_write; eauto. Qed.

  Lemma run_round_trip m obj bs : object_ok sch m obj -> serializes sch m obj bs ->
    Zlen bs <= INT_MAX ->
    exists r, deserializes sch m bs r (Ok tt) /\ length r = length (md_fields (msg_at sch m))
      /\ same sch m r (map drop_nulls obj).
  Proof.
    intros O (f & H) B.
    destruct (round_trip sch Sch f (Datatypes.S (length bs)) m obj bs O H B) as (r & R1 & R2 & R3);
      [lia|]. exists r. split; [|auto]. split; [discriminate|]. eauto.
  Qed.

  (** One field after the round trip. *)
  Lemma run_field_back m obj bs r o i : object_ok sch m obj -> serializes sch m obj bs ->
    Zlen bs <= INT_MAX -> deserializes sch m bs r o -> (i < length (md_fields (msg_at sch m)))%nat ->
    o = Ok tt /\
    same_field sch (f_ty (field_at sch m i)) (nth i r VNull) (drop_nulls (nth i obj VNull)).
  Proof.
    intros O H B D Hi. destruct (run_round_trip m obj bs O H B) as (r' & D' & L & Sm).
    destruct (deserializes_fun _ _ _ _ _ _ _ D D') as [-> ->]. split; [reflexivity|].
    pose proof (same_nth sch m r' (map drop_nulls obj) i L
      ltac:(rewrite map_length; now apply object_ok_length) Sm Hi) as E.
    unfold same_field. rewrite E. f_equal. change VNull with (drop_nulls VNull) at 1. now rewrite map_nth.
  Qed.

  (** Cutting well-formed input. *)
  Lemma run_cut m rs bs x y r : enc_recs rs bs -> fits sch m rs -> Zlen bs <= INT_MAX ->
    bs = x ++ y -> deserializes sch m x r (Ok tt) ->
    exists rs1 rs2, rs = rs1 ++ rs2 /\ enc_recs rs1 x /\ enc_recs rs2 y.
  Proof.
    intros E F B Hxy (_ & f & H).
    apply (deserialize_ext _ _ _ (Nat.max f (Datatypes.S (length bs)))) in H; [|lia|discriminate].
    set (fuel := Nat.max f (Datatypes.S (length bs))) in *.
    destruct (deserialize_read true sch Sch fuel m rs bs E F ltac:(lia) B) as (w & W & _).
    assert (NN : snd (deserializeMessage fuel true sch m x) <> Throw NegativeLength).
    { intro C. unfold deserializeMessage in *. rewrite cur_begin in *.
      apply (loop_negative sch fuel m [] x y) in C; [|now rewrite <- Hxy].
      cbn [app] in C. rewrite <- Hxy in C. rewrite W in C. discriminate. }
    rewrite agree_message in H by exact NN. unfold deserializeMessage in H. rewrite cur_begin in H.
    eapply (loop_cut sch Sch fuel m rs bs [] x y); eauto; [lia|]. apply default_obj_length.
  Qed.
End Runs.

(** ** Arbitrary input *)

(** No length of 2^31 or more is met while reading [data]: the reader hardened against
    such lengths does not stop because of one. *)
Definition no_negative_length (sch : schema) (m : nat) (data : list Z) : Prop :=
  forall fuel, snd (deserializeMessage fuel true sch m data) <> Throw NegativeLength.

Lemma run_total sch m data : Zlen data <= INT_MAX -> no_negative_length sch m data ->
  exists r o, deserializes sch m data r o /\
    (o = Ok tt \/ (exists e, o = Throw e) \/ o = UB OverRead \/ o = UB ShiftOverflow).
Proof.
  intros B N. specialize (N (Datatypes.S (length data))).
  pose proof (agree_message sch _ m data N) as A.
  pose proof (loop_ends sch (Datatypes.S (length data)) m [] data (default_obj sch m) B) as En.
  unfold deserializeMessage in *. rewrite cur_begin in *. cbn [app] in En.
  destruct (deserialize_loop (Datatypes.S (length data)) true sch m data (cur [] data) (default_obj sch m))
    as [r o] eqn:E. cbn [snd] in *.
  assert (NF : o <> OutOfFuel) by (intros ->; cbn in En; lia).
  exists r, o. split.
  - split; [exact NF|]. exists (Datatypes.S (length data)). unfold deserializeMessage.
    now rewrite cur_begin, A.
  - destruct o as [[]|e|u|]; eauto; [|congruence]. cbn in En. destruct En as [-> | ->]; auto.
Qed.

(** A failing run leaves the result of the longest accepted prefix. *)
Lemma run_failure sch m data r e : Zlen data <= INT_MAX -> no_negative_length sch m data ->
  deserializes sch m data r (Throw e) ->
  exists x rest, data = x ++ rest /\ deserializes sch m x r (Ok tt) /\
    forall z z' r', rest = z ++ z' -> z <> [] -> ~ deserializes sch m (x ++ z) r' (Ok tt).
Proof.
  intros B N (_ & f & H).
  set (fuel := Nat.max f (Datatypes.S (length data))).
  apply (deserialize_ext _ _ _ fuel) in H; [|lia|discriminate].
  rewrite agree_message in H by apply N. unfold deserializeMessage in H. rewrite cur_begin in H.
  destruct (loop_failure sch fuel m [] data _ r e B H) as (x & rest & -> & H1 & H2).
  exists x, rest. split; [reflexivity|].
  assert (Sub : forall x', (exists y, x ++ rest = x' ++ y) -> forall g,
    snd (deserializeMessage g true sch m x') <> Throw NegativeLength).
  { intros x' (y & Hy) g C. apply (N g). unfold deserializeMessage in *. rewrite cur_begin in *.
    rewrite Hy. apply (loop_negative sch g m [] x' y); [now rewrite <- Hy|exact C]. }
  split.
  - split; [discriminate|]. exists fuel. rewrite agree_message by (apply Sub; eauto).
    unfold deserializeMessage. rewrite cur_begin. exact H1.
  - intros z z' r' -> Nz (_ & f' & H').
    apply (deserialize_ext _ _ _ (Nat.max f' fuel)) in H'; [|lia|discriminate].
    rewrite agree_message in H' by (apply Sub; exists z'; now rewrite <- app_assoc).
    apply (H2 z z' r' eq_refl Nz).
    (* the hardened run on the prefix needs no more fuel than its length *)
    pose proof (loop_ends sch fuel m [] (x ++ z) (default_obj sch m)) as En.
    assert (Bz : Zlen (x ++ z) <= INT_MAX).
    { rewrite app_assoc in B. zlen_in B. zlen. pose proof (Zlen_nonneg z'). lia. }
    specialize (En Bz). cbn [app] in *.
    unfold deserializeMessage in H'. rewrite cur_begin in H'.
    destruct (deserialize_loop fuel true sch m (x ++ z) (cur [] (x ++ z)) (default_obj sch m))
      as [r2 o2] eqn:E2. cbn [snd] in En.
    assert (NF : o2 <> OutOfFuel).
    { intros ->. cbn in En. unfold fuel in En. rewrite !app_length in En. lia. }
    rewrite (loop_ext true sch fuel (Nat.max f' fuel)) in H'; [|lia|rewrite E2; exact NF].
    now rewrite E2 in H'.
Qed.

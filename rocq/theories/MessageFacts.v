(** Consequences for whole messages: what the records of one field contribute, termination of
    the serializer, exact reading of single records. *)

From Coq Require Import ZArith List Bool Lia ZifyBool Permutation.
From Verif Require Import Base WireModel Values MessageModel WireSpec WireProofs MessageSpec
  MessageProofs SerializeProofs ReaderProofs.
Import ListNotations.
Open Scope Z_scope.
Ltac Zify.zify_post_hook ::= Z.div_mod_to_equations.

(** ** Records of one field *)

Section Occurrences.
  Variable sch : schema.
  Hypothesis S : schema_ok sch.
  Variable m : nat.

  Lemma fold_record_nth i : (i < length (md_fields (msg_at sch m)))%nat -> forall rs obj,
    length obj = length (md_fields (msg_at sch m)) ->
    nth i (fold_left (mean_record sch m) rs obj) VNull
    = fold_left (mean_field sch (f_ty (field_at sch m i)))
        (map snd (filter (fun r => fst r =? f_num (field_at sch m i)) rs)) (nth i obj VNull).
  Proof.
    intros Hi. induction rs as [|[num w] rs IH]; intros obj L; [reflexivity|].
    cbn [fold_left filter fst]. unfold mean_record at 2. cbn [fst snd].
    destruct (find_field (msg_at sch m) num) as [j|] eqn:Fj.
    - rewrite IH by (now rewrite update_length).
      pose proof (find_field_range _ _ _ Fj) as [Hj Nj].
      destruct (Z.eqb_spec num (f_num (field_at sch m i))) as [->|NE].
      + rewrite find_field_at in Fj by assumption. injection Fj as <-.
        cbn [map fold_left snd]. rewrite nth_update_eq by lia. reflexivity.
      + rewrite nth_update_neq; [reflexivity|]. intros ->. apply NE. symmetry. exact Nj.
    - rewrite IH by assumption.
      destruct (Z.eqb_spec num (f_num (field_at sch m i))) as [->|NE]; [|reflexivity].
      rewrite find_field_at in Fj by assumption. discriminate.
  Qed.

  Lemma nth_default_obj i : (i < length (md_fields (msg_at sch m)))%nat ->
    nth i (default_obj sch m) VNull = default_field (f_ty (field_at sch m i)).
  Proof.
    intro Hi. unfold default_obj, field_at.
    rewrite nth_indep with (d' := default_field (f_ty dummy_field)) by (now rewrite map_length).
    now rewrite (map_nth (fun f => default_field (f_ty f))).
  Qed.

  Lemma mean_nth i rs : (i < length (md_fields (msg_at sch m)))%nat ->
    nth i (mean sch m rs) VNull
    = fold_left (mean_field sch (f_ty (field_at sch m i)))
        (map snd (filter (fun r => fst r =? f_num (field_at sch m i)) rs))
        (default_field (f_ty (field_at sch m i))).
  Proof.
    intro Hi. rewrite mean_spec, fold_record_nth; auto.
    - now rewrite nth_default_obj.
    - apply default_obj_length.
  Qed.

  Lemma fold_record_length rs : forall obj,
    length (fold_left (mean_record sch m) rs obj) = length obj.
  Proof.
    induction rs as [|r rs IH]; intro obj; [reflexivity|]. cbn [fold_left]. rewrite IH.
    unfold mean_record. destruct (find_field _ _); [apply update_length | reflexivity].
  Qed.

  Lemma mean_length rs : length (mean sch m rs) = length (md_fields (msg_at sch m)).
  Proof. rewrite mean_spec, fold_record_length. apply default_obj_length. Qed.

  Lemma mean_filter rs rs' :
    (forall i, (i < length (md_fields (msg_at sch m)))%nat ->
       filter (fun r => fst r =? f_num (field_at sch m i)) rs
       = filter (fun r => fst r =? f_num (field_at sch m i)) rs') ->
    mean sch m rs = mean sch m rs'.
  Proof.
    intro H. apply nth_ext with (d := VNull) (d' := VNull); [now rewrite !mean_length|].
    intros i Hi. rewrite mean_length in Hi. rewrite !mean_nth by assumption. now rewrite H.
  Qed.

  Lemma filter_nodup_perm (p : Z * wval -> bool) num rs rs' :
    (forall r, p r = (fst r =? num)) ->
    NoDup (map fst rs) -> Permutation rs rs' -> filter p rs = filter p rs'.
  Proof.
    intros Hp ND P.
    assert (One : forall l, NoDup (map fst l) -> filter p l = [] \/ exists r, filter p l = [r]).
    { intros l NDl. induction l as [|r l IH]; [now left|]. cbn [filter]. cbn [map] in NDl.
      inversion NDl as [|? ? Nin NDl']; subst.
      destruct (p r) eqn:E; [|auto]. right. exists r. f_equal.
      assert (Z0 : forall l', ~ In (fst r) (map fst l') -> filter p l' = []).
      { intros l' N'. induction l' as [|r' l' IHl]; [reflexivity|]. cbn [filter].
        rewrite Hp in *. destruct (Z.eqb_spec (fst r') num) as [Er|].
        - exfalso. apply N'. left. lia.
        - apply IHl. intro. apply N'. now right. }
      now apply Z0. }
    assert (Pf : Permutation (filter p rs) (filter p rs')).
    { clear - P. induction P; cbn [filter]; auto.
      - destruct (p x); auto.
      - destruct (p x), (p y); auto. constructor.
      - etransitivity; eauto. }
    destruct (One rs ND) as [E|[r E]]; rewrite E in *.
    - apply Permutation_nil in Pf. now rewrite Pf.
    - apply Permutation_length_1_inv in Pf. now rewrite Pf.
  Qed.
End Occurrences.

(** ** Termination of the serializer *)

Definition le_res {A} (a b : res A) : Prop := forall x, a = Ok x -> b = Ok x.

Lemma concat_res_le l : forall l', Forall2 le_res l l' -> le_res (concat_res l) (concat_res l').
Proof.
  induction l as [|r l IH]; intros l' F bs H; inversion F as [|? y ? l1 Fr Fl]; subst; [exact H|].
  apply concat_res_cons in H. destruct H as (a & b & -> & Hl & ->).
  cbn [concat_res]. rewrite (Fr a eq_refl). cbn [bind]. rewrite (IH _ Fl b Hl). reflexivity.
Qed.

Lemma Forall2_map_same {A B C} (f : A -> B) (g : A -> C) (R : B -> C -> Prop) l :
  (forall x, In x l -> R (f x) (g x)) -> Forall2 R (map f l) (map g l).
Proof.
  induction l as [|x l IH]; intro H; constructor; [apply H; now left|].
  apply IH. intros. apply H. now right.
Qed.

Section SerMono.
  Variable sch : schema.
  Variables rec rec' : nat -> list value -> res (list Z).
  Hypothesis R : forall m obj, le_res (rec m obj) (rec' m obj).

  Lemma object_le idx m obj : le_res (serializeObject rec idx m obj) (serializeObject rec' idx m obj).
  Proof.
    intros bs H. unfold serializeObject in *.
    destruct (rec m obj) as [b|e|r|] eqn:E; cbn [bind] in H; try discriminate.
    rewrite (R _ _ _ E). exact H.
  Qed.

  Lemma element_le idx e v :
    le_res (serializeElement sch rec idx e v) (serializeElement sch rec' idx e v).
  Proof. destruct e; [intros bs H; exact H|]. destruct v; apply object_le. Qed.

  Lemma property_le f v : le_res (serializeProperty sch rec f v) (serializeProperty sch rec' f v).
  Proof.
    unfold serializeProperty. destruct (f_ty f) as [e|[t|m]|k e].
    - apply element_le.
    - intros bs H; exact H.
    - apply concat_res_le, Forall2_map_same. intros v' _.
      destruct v'; try (intros bs H; exact H). apply object_le.
    - apply concat_res_le, Forall2_map_same. intros [k' v'] _ bs H.
      unfold serializeMapElement in *. cbn [fst snd] in *.
      assert (X : le_res
        (value <- serializeElement sch rec 2 e v' ;;
         Ok (encodeHeader (f_num f) WLengthDelimitedT
             ++ prependLengthDelimitedSize (serializeScalar k k' 1 ++ value)))
        (value <- serializeElement sch rec' 2 e v' ;;
         Ok (encodeHeader (f_num f) WLengthDelimitedT
             ++ prependLengthDelimitedSize (serializeScalar k k' 1 ++ value)))).
      { intros b Hb. destruct (serializeElement sch rec 2 e v') as [a|x|r|] eqn:E;
          cbn [bind] in Hb; try discriminate. rewrite (element_le _ _ _ _ E). exact Hb. }
      destruct e; [now apply X|]. destruct v'; try (now apply X). exact H.
  Qed.
End SerMono.

Lemma serialize_mono1 sch fuel : forall m obj,
  le_res (serializeMessage fuel sch m obj) (serializeMessage (S fuel) sch m obj).
Proof.
  induction fuel as [|fuel IH]; intros m obj bs H; [discriminate|].
  cbn [serializeMessage] in H. change (serializeMessage (S (S fuel)) sch m obj) with
    (concat_res (map (fun i => serializeProperty sch (serializeMessage (S fuel) sch)
                                  (field_at sch m i) (nth i obj VNull)) (md_order (msg_at sch m)))).
  revert bs H. apply concat_res_le, Forall2_map_same. intros i _. apply property_le. exact IH.
Qed.

Lemma serialize_mono sch fuel fuel' m obj bs : (fuel <= fuel')%nat ->
  serializeMessage fuel sch m obj = Ok bs -> serializeMessage fuel' sch m obj = Ok bs.
Proof. induction 1; auto. intro H0. apply serialize_mono1. auto. Qed.

Fixpoint vsize (v : value) : nat :=
  match v with
  | VMsg fs => S (list_sum (map vsize fs))
  | VList l => S (list_sum (map vsize l))
  | VMap l => S (list_sum (map (fun p => vsize (snd p)) l))
  | _ => 1%nat
  end.

Lemma list_sum_in x l : In x l -> (x <= list_sum l)%nat.
Proof. induction l; simpl; [contradiction|]. intros [->|H]; [lia|]. apply IHl in H. lia. Qed.

Section SerTerm.
  Variable sch : schema.

  Definition done (m : nat) (obj : list value) : Prop :=
    exists fuel bs, serializeMessage fuel sch m obj = Ok bs.

  Definition prop_done (f : field) (v : value) : Prop :=
    exists fuel bs, serializeProperty sch (serializeMessage fuel sch) f v = Ok bs.

  Lemma ser_le fuel fuel' : (fuel <= fuel')%nat -> forall m obj,
    le_res (serializeMessage fuel sch m obj) (serializeMessage fuel' sch m obj).
  Proof. intros L m obj bs. now apply serialize_mono. Qed.

  Lemma message_done m obj :
    (forall i, In i (md_order (msg_at sch m)) -> prop_done (field_at sch m i) (nth i obj VNull)) ->
    done m obj.
  Proof.
    intro H. assert (X : exists fuel bs, concat_res (map (fun i => serializeProperty sch
       (serializeMessage fuel sch) (field_at sch m i) (nth i obj VNull)) (md_order (msg_at sch m)))
       = Ok bs).
    { induction (md_order (msg_at sch m)) as [|i l IH]; [now exists 0%nat, []|].
      destruct (H i (or_introl eq_refl)) as (f1 & b1 & H1).
      destruct IH as (f2 & b2 & H2); [intros; apply H; now right|].
      exists (Nat.max f1 f2), (b1 ++ b2). cbn [map concat_res].
      rewrite (property_le sch _ _ (ser_le f1 (Nat.max f1 f2) ltac:(lia)) _ _ _ H1). cbn [bind].
      assert (L2 : le_res
        (concat_res (map (fun i => serializeProperty sch (serializeMessage f2 sch)
                       (field_at sch m i) (nth i obj VNull)) l))
        (concat_res (map (fun i => serializeProperty sch (serializeMessage (Nat.max f1 f2) sch)
                       (field_at sch m i) (nth i obj VNull)) l))).
      { apply concat_res_le, Forall2_map_same. intros j _. apply property_le, ser_le. lia. }
      rewrite (L2 _ H2). reflexivity. }
    destruct X as (fuel & bs & X). exists (Datatypes.S fuel), bs. exact X.
  Qed.

  Lemma object_done fuel idx m obj : done m obj ->
    exists fuel' bs, (fuel <= fuel')%nat /\
      serializeObject (serializeMessage fuel' sch) idx m obj = Ok bs.
  Proof.
    intros (f & bs & H). exists (Nat.max fuel f).
    eexists. split; [lia|]. unfold serializeObject.
    rewrite (serialize_mono sch f (Nat.max fuel f) m obj bs ltac:(lia) H). reflexivity.
  Qed.

  Lemma concat_done {A} (op : nat -> A -> res (list Z)) l :
    (forall f f' x, (f <= f')%nat -> le_res (op f x) (op f' x)) ->
    (forall x, In x l -> exists f bs, op f x = Ok bs) ->
    exists f bs, concat_res (map (op f) l) = Ok bs.
  Proof.
    intros M H. induction l as [|x l IH]; [now exists 0%nat, []|].
    destruct (H x (or_introl eq_refl)) as (f1 & b1 & H1).
    destruct IH as (f2 & b2 & H2); [intros; apply H; now right|].
    exists (Nat.max f1 f2), (b1 ++ b2). cbn [map concat_res].
    rewrite (M f1 (Nat.max f1 f2) x ltac:(lia) _ H1). cbn [bind].
    assert (L2 : le_res (concat_res (map (op f2) l)) (concat_res (map (op (Nat.max f1 f2)) l))).
    { apply concat_res_le, Forall2_map_same. intros y _. apply M. lia. }
    rewrite (L2 _ H2). reflexivity.
  Qed.

  Lemma element_done idx e v :
    (forall m, e = EM m -> match v with VMsg obj => done m obj | _ => done m (default_obj sch m) end) ->
    exists fuel bs, serializeElement sch (serializeMessage fuel sch) idx e v = Ok bs.
  Proof.
    intro H. destruct e as [t|m].
    - exists 0%nat. eexists. reflexivity.
    - specialize (H m eq_refl). cbn [serializeElement].
      destruct v; destruct (object_done 0 idx _ _ H) as (f & bs & _ & E); exists f, bs; exact E.
  Qed.

  Lemma field_done f v :
    (forall m, f_ty f = FSing (EM m) ->
       match v with VMsg obj => done m obj | _ => done m (default_obj sch m) end) ->
    (forall m obj, f_ty f = FRep (EM m) -> In (VMsg obj) (list_of v) -> done m obj) ->
    (forall k m obj, f_ty f = FMap k (EM m) -> In (VMsg obj) (map snd (map_of v)) -> done m obj) ->
    (forall k m x, f_ty f = FMap k (EM m) -> In x (map snd (map_of v)) ->
       match x with VMsg _ | VNull => True | _ => done m (default_obj sch m) end) ->
    prop_done f v.
  Proof.
    intros H1 H2 H3 H4. unfold prop_done, serializeProperty.
    destruct (f_ty f) as [e|[t|m]|k e].
    - apply element_done. intros m ->. now apply H1.
    - exists 0%nat. eexists. reflexivity.
    - apply (concat_done (fun fu => serializeListElement (serializeMessage fu sch) (f_num f) m)).
      + intros a b x L. destruct x; try (intros bs H; exact H). apply object_le. now apply ser_le.
      + intros x Hx. destruct x; try (exists 0%nat; eexists; reflexivity).
        destruct (object_done 0 (f_num f) m fs (H2 _ _ eq_refl Hx)) as (fu & bs & _ & E).
        exists fu, bs. exact E.
    - apply (concat_done (fun fu => serializeMapElement sch (serializeMessage fu sch) (f_num f) k e)).
      + intros a b [k' v'] L.
        pose proof (property_le sch (serializeMessage a sch) (serializeMessage b sch) (ser_le a b L)
                      (mkField (f_num f) (FMap k e)) (VMap [(k', v')])) as P.
        unfold serializeProperty in P. cbn [f_ty f_num map_of map concat_res] in P.
        intros bs Hbs. specialize (P (bs ++ [])). rewrite Hbs in P. cbn [bind] in P.
        specialize (P eq_refl).
        destruct (serializeMapElement sch (serializeMessage b sch) (f_num f) k e (k', v'))
          as [c|x|r|]; cbn [bind] in P; try discriminate.
        injection P as P. rewrite !app_nil_r in P. now subst.
      + intros [k' v'] Hx. unfold serializeMapElement. cbn [fst snd].
        assert (X : (match e, v' with EM _, VNull => False | _, _ => True end) ->
          exists fu bs, (value <- serializeElement sch (serializeMessage fu sch) 2 e v' ;;
          Ok (encodeHeader (f_num f) WLengthDelimitedT
              ++ prependLengthDelimitedSize (serializeScalar k k' 1 ++ value))) = Ok bs).
        { intro NN. destruct (element_done 2 e v') as (fu & bs & E).
          - intros m ->. assert (Hin : In v' (map snd (map_of v))).
            { apply in_map_iff. exists (k', v'). auto. }
            specialize (H4 k m v' eq_refl Hin). specialize (H3 k m).
            destruct v'; auto; contradiction.
          - exists fu. eexists. rewrite E. reflexivity. }
        destruct e; [now apply X|]. destruct v'; try (apply X; exact I).
        exists 0%nat, []. reflexivity.
  Qed.

  Hypothesis Ac : acyclic sch.
  Hypothesis Sch : schema_ok sch.

  Lemma field_at_in m i : In i (md_order (msg_at sch m)) -> In (field_at sch m i) (md_fields (msg_at sch m)).
  Proof.
    intro H. pose proof (msg_at_ok sch m Sch) as (_ & _ & _ & Cov). apply nth_In. now apply Cov.
  Qed.

  Lemma default_done : forall m, done m (default_obj sch m).
  Proof.
    destruct Ac as [rank Hr].
    assert (X : forall n m, (rank m < n)%nat -> done m (default_obj sch m)).
    { induction n as [|n IH]; intros m Hm; [lia|]. apply message_done. intros i Hi.
      assert (Hd : nth i (default_obj sch m) VNull = default_field (f_ty (field_at sch m i))).
      { apply nth_default_obj. pose proof (msg_at_ok sch m Sch) as (_ & _ & _ & Cov). now apply Cov. }
      rewrite Hd. apply field_done.
      - intros m' E. rewrite E. cbn [default_field]. apply IH.
        pose proof (Hr m _ m' (field_at_in m i Hi) E). lia.
      - intros m' obj E. rewrite E. cbn. contradiction.
      - intros k m' obj E. rewrite E. cbn. contradiction.
      - intros k m' x E. rewrite E. cbn. contradiction. }
    intro m. apply (X (Datatypes.S (rank m))). lia.
  Qed.

  Lemma any_done : forall n m obj, (list_sum (map vsize obj) < n)%nat -> done m obj.
  Proof.
    induction n as [|n IH]; intros m obj Hn; [lia|]. apply message_done. intros i Hi.
    assert (Sz : (vsize (nth i obj VNull) <= list_sum (map vsize obj))%nat \/ nth i obj VNull = VNull).
    { destruct (Nat.ltb_spec i (length obj)) as [L|L].
      - left. apply list_sum_in, in_map, nth_In, L.
      - right. now apply nth_overflow. }
    apply field_done.
    - intros m' E. destruct (nth i obj VNull) eqn:V; try apply default_done.
      apply IH. destruct Sz as [Sz|]; [|discriminate]. cbn [vsize] in Sz. lia.
    - intros m' o E Ho. destruct (nth i obj VNull) eqn:V; cbn [list_of] in Ho; try contradiction.
      apply IH. destruct Sz as [Sz|]; [|discriminate]. cbn [vsize] in Sz.
      apply (in_map vsize), list_sum_in in Ho. cbn [vsize] in Ho. lia.
    - intros k m' o E Ho. destruct (nth i obj VNull) eqn:V; cbn [map_of map] in Ho; try contradiction.
      apply IH. destruct Sz as [Sz|]; [|discriminate]. cbn [vsize] in Sz.
      rewrite <- map_map with (f := snd) (g := vsize) in Sz.
      apply (in_map vsize), list_sum_in in Ho. cbn [vsize] in Ho. lia.
    - intros k m' x E Hx. destruct x; auto; apply default_done.
  Qed.

  Lemma serialize_terminates m obj :
    exists fuel bs, forall fuel', (fuel <= fuel')%nat -> serializeMessage fuel' sch m obj = Ok bs.
  Proof.
    destruct (any_done (Datatypes.S (list_sum (map vsize obj))) m obj ltac:(lia)) as (f & bs & H).
    exists f, bs. intros f' L. eapply serialize_mono; eauto.
  Qed.
End SerTerm.

(** ** Divergence on cycles *)

Definition okish {A} (r : res A) : Prop :=
  match r with Ok _ | OutOfFuel => True | _ => False end.

Lemma concat_okish l : Forall okish l -> okish (concat_res l).
Proof.
  induction 1 as [|r l H F IH]; [exact I|]. cbn [concat_res].
  destruct r; cbn [bind]; try contradiction; auto.
  destruct (concat_res l); cbn [bind]; try contradiction; auto.
Qed.

Lemma serialize_okish sch fuel : forall m obj, okish (serializeMessage fuel sch m obj).
Proof.
  induction fuel as [|fuel IH]; intros m obj; [exact I|].
  cbn [serializeMessage]. apply concat_okish, Forall_forall. intros r Hr.
  apply in_map_iff in Hr. destruct Hr as (i & <- & _). unfold serializeProperty.
  assert (Ob : forall idx m obj, okish (serializeObject (serializeMessage fuel sch) idx m obj)).
  { intros idx m' o. unfold serializeObject. specialize (IH m' o).
    destruct (serializeMessage fuel sch m' o); cbn [bind]; auto. }
  assert (El : forall idx e v, okish (serializeElement sch (serializeMessage fuel sch) idx e v)).
  { intros idx e v. destruct e; [exact I|]. destruct v; apply Ob. }
  destruct (f_ty (field_at sch m i)) as [e|[t|m']|k e].
  - apply El.
  - exact I.
  - apply concat_okish, Forall_forall. intros r Hr. apply in_map_iff in Hr.
    destruct Hr as (v & <- & _). destruct v; try exact I. apply Ob.
  - apply concat_okish, Forall_forall. intros r Hr. apply in_map_iff in Hr.
    destruct Hr as ([k' v] & <- & _). unfold serializeMapElement. cbn [fst snd].
    assert (X : okish (value <- serializeElement sch (serializeMessage fuel sch) 2 e v ;;
          Ok (encodeHeader (f_num (field_at sch m i)) WLengthDelimitedT
              ++ prependLengthDelimitedSize (serializeScalar k k' 1 ++ value)))).
    { specialize (El 2 e v). destruct (serializeElement sch (serializeMessage fuel sch) 2 e v);
        cbn [bind]; auto. }
    destruct e; [exact X|]. destruct v; try exact X. exact I.
Qed.

Lemma concat_res_in l r bs : concat_res l = Ok bs -> In r l -> exists b, r = Ok b.
Proof.
  revert bs. induction l as [|x l IH]; intros bs H Hin; [contradiction|].
  apply concat_res_cons in H. destruct H as (a & b & -> & H & _).
  destruct Hin as [<-|Hin]; eauto.
Qed.

Lemma serialize_cycle sch (C : nat -> Prop) :
  (forall m, C m -> exists i m', In i (md_order (msg_at sch m)) /\
     f_ty (field_at sch m i) = FSing (EM m') /\ C m') ->
  forall fuel m obj, C m -> serializeMessage fuel sch m obj = OutOfFuel.
Proof.
  intro HC. induction fuel as [|fuel IH]; intros m obj Hm; [reflexivity|].
  pose proof (serialize_okish sch (Datatypes.S fuel) m obj) as O.
  destruct (serializeMessage (Datatypes.S fuel) sch m obj) as [bs|e|r|] eqn:E; try contradiction;
    [|reflexivity].
  exfalso. cbn [serializeMessage] in E. destruct (HC m Hm) as (i & m' & Hi & Ty & Hm').
  pose proof (concat_res_in _ _ _ E (in_map _ _ _ Hi)) as [b Hb]. cbn beta in Hb.
  unfold serializeProperty in Hb. rewrite Ty in Hb. cbn [serializeElement] in Hb.
  destruct (nth i obj VNull); unfold serializeObject in Hb; rewrite IH in Hb by assumption;
    discriminate.
Qed.

(** ** Reading the fields of a message back *)

Section Back.
  Variable sch : schema.
  Hypothesis Sch : schema_ok sch.

  Lemma round_trip fuel fuel' m obj bs : object_ok sch m obj ->
    serializeMessage fuel sch m obj = Ok bs -> Zlen bs <= INT_MAX -> (length bs < fuel')%nat ->
    exists r, deserializeMessage fuel' false sch m bs = (r, Ok tt)
      /\ length r = length (md_fields (msg_at sch m))
      /\ same sch m r (map drop_nulls obj).
  Proof.
    intros O H B L. destruct (message_write sch Sch fuel m obj bs O H B) as (g & E & F & Sm & _).
    destruct (deserialize_read false sch Sch fuel' m _ bs E F L B) as (r & R1 & R2 & R3).
    exists r. split; [exact R1|]. split; [exact R2|]. unfold same in *. congruence.
  Qed.

  Lemma same_nth m a b i : length a = length (md_fields (msg_at sch m)) ->
    length b = length (md_fields (msg_at sch m)) ->
    same sch m a b -> (i < length (md_fields (msg_at sch m)))%nat ->
    canon_field sch (f_ty (field_at sch m i)) (nth i a VNull)
    = canon_field sch (f_ty (field_at sch m i)) (nth i b VNull).
  Proof.
    intros La Lb Sm Hi. unfold same in Sm. rewrite !canon_obj_spec in Sm.
    pose proof (f_equal (fun l => nth i l VNull) Sm) as Hn. cbn beta in Hn.
    rewrite !canon_fields_nth in Hn by assumption. exact Hn.
  Qed.

  Lemma object_ok_length m obj : object_ok sch m obj -> length obj = length (md_fields (msg_at sch m)).
  Proof. intro O. apply object_ok_spec in O. symmetry. clear - O. induction O; simpl; auto. Qed.

  Lemma field_back fuel fuel' m obj bs i : object_ok sch m obj ->
    serializeMessage fuel sch m obj = Ok bs -> Zlen bs <= INT_MAX -> (length bs < fuel')%nat ->
    (i < length (md_fields (msg_at sch m)))%nat ->
    exists r, deserializeMessage fuel' false sch m bs = (r, Ok tt)
      /\ canon_field sch (f_ty (field_at sch m i)) (nth i r VNull)
         = canon_field sch (f_ty (field_at sch m i)) (drop_nulls (nth i obj VNull)).
  Proof.
    intros O H B L Hi. destruct (round_trip fuel fuel' m obj bs O H B L) as (r & R1 & R2 & R3).
    exists r. split; [exact R1|].
    rewrite (same_nth m r (map drop_nulls obj) i R2 ltac:(rewrite map_length; now apply object_ok_length) R3 Hi).
    f_equal. change VNull with (drop_nulls VNull) at 1. now rewrite map_nth.
  Qed.
End Back.

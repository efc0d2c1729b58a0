(** Serialization ends for all messages of a type exactly if the type cannot hold a cycle. *)

From Coq Require Import ZArith List Bool Lia Relations.
From Verif Require Import Base WireModel Values MessageModel WireSpec WireProofs MessageSpec
  MessageProofs SerializeProofs MessageFacts CycleSpec.
Import ListNotations.

Section Cycle.
  Variable sch : schema.
  Hypothesis Sch : schema_ok sch.

  Lemma singular_range m m' : singular sch m m' -> (m < length sch)%nat.
  Proof.
    intros (f & H & _). destruct (Nat.ltb_spec m (length sch)) as [L|L]; [assumption|].
    unfold msg_at in H. rewrite nth_overflow in H by assumption. destruct H.
  Qed.

  Lemma singular_refers m m' : singular sch m m' -> refers sch m m'.
  Proof. intros (f & H & E). exists f. auto. Qed.

  (** A chain of [n] singular fields starts at [m]. *)
  Fixpoint deep (n m : nat) : Prop :=
    match n with O => True | S n' => exists m', singular sch m m' /\ deep n' m' end.

  Lemma deep_dec n : forall m, deep n m \/ ~ deep n m.
  Proof.
    induction n as [|n IH]; intro m; [left; exact I|]. cbn [deep].
    assert (X : forall l, (exists f m', In f l /\ f_ty f = FSing (EM m') /\ deep n m')
                \/ ~ exists f m', In f l /\ f_ty f = FSing (EM m') /\ deep n m').
    { induction l as [|f l IHl].
      - right. intros (f & m' & [] & _).
      - destruct IHl as [(f' & m' & H & E & D)|No].
        + left. exists f', m'. split; [now right|auto].
        + destruct (f_ty f) as [[t|m']|e|k e] eqn:Ty.
          2: destruct (IH m') as [D|D]; [left; exists f, m'; split; [now left|auto] |].
          all: right; intros (f' & m'' & [<-|H] & E & D');
            [rewrite Ty in E; first [discriminate E | injection E as <-; contradiction]
            | apply No; exists f', m''; auto]. }
    destruct (X (md_fields (msg_at sch m))) as [(f & m' & H & E & D)|No].
    - left. exists m'. split; [exists f; auto|exact D].
    - right. intros (m' & (f & H & E) & D). apply No. exists f, m'. auto.
  Qed.

  (** No long chain: well-founded. *)
  Lemma shallow_acc n : forall m, ~ deep n m -> Acc (fun a b => singular sch b a) m.
  Proof.
    induction n as [|n IH]; intros m H; [contradiction H; exact I|].
    constructor. intros m' S. apply IH. intro D. apply H. exists m'. auto.
  Qed.

  (** A long chain: there is a cycle. *)
  Inductive path : nat -> list nat -> Prop :=
  | path_end m : path m [m]
  | path_step m m' l : singular sch m m' -> path m' l -> path m (m :: l).

  Lemma deep_path n : forall m, deep n m -> exists l, path m l /\ length l = S n.
  Proof.
    induction n as [|n IH]; intros m D; [exists [m]; split; [constructor|reflexivity]|].
    destruct D as (m' & S & D). destruct (IH m' D) as (l & P & L).
    exists (m :: l). split; [econstructor; eauto | cbn; lia].
  Qed.

  Lemma path_in m l x : path m l -> In x l -> clos_refl_trans nat (singular sch) m x.
  Proof.
    induction 1 as [m|m m' l S P IH]; intros [->|H]; try apply rt_refl; [destruct H|].
    eapply rt_trans; [apply rt_step; exact S|]. auto.
  Qed.

  Lemma path_range m l : path m l -> (forall x, In x (removelast l) -> (x < length sch)%nat).
  Proof.
    induction 1 as [m|m m' l S P IH]; intros x H; [destruct H|].
    assert (Hl : l <> []) by (inversion P; discriminate).
    change (m :: l) with ([m] ++ l) in H. rewrite removelast_app in H by assumption.
    destruct H as [<-|H]; [now apply singular_range in S|auto].
  Qed.

  Lemma t_rt (R : relation nat) y z : clos_refl_trans nat R y z -> forall x,
    clos_trans nat R x y -> clos_trans nat R x z.
  Proof.
    induction 1 as [y z H|y|y z w H1 IH1 H2 IH2]; intros x T; auto.
    eapply t_trans; [exact T|]. now apply t_step.
  Qed.

  Lemma path_cycle m l : path m l -> ~ NoDup l ->
    exists x, clos_refl_trans nat (singular sch) m x /\ clos_trans nat (singular sch) x x.
  Proof.
    induction 1 as [m|m m' l S P IH]; intro D.
    - destruct D. constructor; [intros []|constructor].
    - destruct (in_dec Nat.eq_dec m l) as [I|I].
      + exists m. split; [apply rt_refl|]. pose proof (path_in _ _ _ P I) as R.
        eapply t_rt; [exact R|]. now apply t_step.
      + destruct IH as (x & R & C).
        { intro N. apply D. now constructor. }
        exists x. split; [|exact C]. eapply rt_trans; [apply rt_step; exact S|exact R].
  Qed.

  Lemma deep_cycle m : deep (S (length sch)) m ->
    exists x, clos_refl_trans nat (singular sch) m x /\ clos_trans nat (singular sch) x x.
  Proof.
    intro D. destruct (deep_path _ _ D) as (l & P & L). apply (path_cycle m l P).
    intro N. assert (I : incl (removelast l) (seq 0 (length sch))).
    { intros x H. apply in_seq. pose proof (path_range _ _ P x H). lia. }
    assert (N' : NoDup (removelast l)).
    { assert (Hl : l <> []) by (intros ->; discriminate).
      rewrite (app_removelast_last 0%nat Hl) in N. now apply NoDup_remove_1 in N; rewrite app_nil_r in N. }
    pose proof (NoDup_incl_length N' I) as B. rewrite seq_length in B.
    assert (Hl : l <> []) by (intros ->; discriminate).
    rewrite (app_removelast_last 0%nat Hl), app_length in L. cbn in L. lia.
  Qed.

  Lemma no_cycle_acc m : ~ can_hold_cycle sch m -> forall x, clos_refl_trans nat (refers sch) m x ->
    Acc (fun a b => singular sch b a) x.
  Proof.
    intros N x R. destruct (deep_dec (S (length sch)) x) as [D|D]; [|eapply shallow_acc; exact D].
    destruct (deep_cycle x D) as (y & Ry & C). destruct N. exists y. split; [|exact C].
    eapply rt_trans; [exact R|]. clear - Ry. induction Ry.
    - apply rt_step. now apply singular_refers.
    - apply rt_refl.
    - eapply rt_trans; eauto.
  Qed.

  (** ** Without a cycle it ends *)

  Lemma acc_default m : Acc (fun a b => singular sch b a) m -> done sch m (default_obj sch m).
  Proof.
    induction 1 as [m _ IH]. apply message_done. intros i Hi.
    assert (Hd : nth i (default_obj sch m) VNull = default_field (f_ty (field_at sch m i))).
    { apply nth_default_obj. pose proof (msg_at_ok sch m Sch) as (_ & _ & _ & Cov). now apply Cov. }
    rewrite Hd. apply field_done.
    - intros m' E. rewrite E. cbn [default_field]. apply IH.
      exists (field_at sch m i). split; [now apply field_at_in | exact E].
    - intros m' obj E. rewrite E. cbn. contradiction.
    - intros k m' obj E. rewrite E. cbn. contradiction.
    - intros k m' x E. rewrite E. cbn. contradiction.
  Qed.

  Lemma reach_done : forall n m obj, (list_sum (map vsize obj) < n)%nat ->
    ~ can_hold_cycle sch m -> done sch m obj.
  Proof.
    induction n as [|n IH]; intros m obj Hn NC; [lia|]. apply message_done. intros i Hi.
    assert (Sz : (vsize (nth i obj VNull) <= list_sum (map vsize obj))%nat \/ nth i obj VNull = VNull).
    { destruct (Nat.ltb_spec i (length obj)) as [L|L].
      - left. apply list_sum_in, in_map, nth_In, L.
      - right. now apply nth_overflow. }
    assert (NC' : forall m', refers sch m m' -> ~ can_hold_cycle sch m').
    { intros m' R (x & Rx & C). apply NC. exists x. split; [|exact C].
      eapply rt_trans; [apply rt_step; exact R|exact Rx]. }
    assert (Df : forall m', refers sch m m' -> done sch m' (default_obj sch m')).
    { intros m' R. apply acc_default. eapply (no_cycle_acc m'); [now apply NC'|apply rt_refl]. }
    assert (Rf : forall m', (f_ty (field_at sch m i) = FSing (EM m') \/ f_ty (field_at sch m i) = FRep (EM m')
                   \/ exists k, f_ty (field_at sch m i) = FMap k (EM m')) -> refers sch m m').
    { intros m' H. exists (field_at sch m i). split; [now apply field_at_in|exact H]. }
    apply field_done.
    - intros m' E. pose proof (Rf m' (or_introl E)) as R.
      destruct (nth i obj VNull) eqn:V; try now apply Df.
      apply IH; [|now apply NC']. destruct Sz as [Sz|]; [|discriminate]. cbn [vsize] in Sz. lia.
    - intros m' o E Ho. pose proof (Rf m' (or_intror (or_introl E))) as R.
      destruct (nth i obj VNull) eqn:V; cbn [list_of] in Ho; try contradiction.
      apply IH; [|now apply NC']. destruct Sz as [Sz|]; [|discriminate]. cbn [vsize] in Sz.
      apply (in_map vsize), list_sum_in in Ho. cbn [vsize] in Ho. lia.
    - intros k m' o E Ho. pose proof (Rf m' (or_intror (or_intror (ex_intro _ k E)))) as R.
      destruct (nth i obj VNull) eqn:V; cbn [map_of map] in Ho; try contradiction.
      apply IH; [|now apply NC']. destruct Sz as [Sz|]; [|discriminate]. cbn [vsize] in Sz.
      rewrite <- map_map with (f := snd) (g := vsize) in Sz.
      apply (in_map vsize), list_sum_in in Ho. cbn [vsize] in Ho. lia.
    - intros k m' x E Hx. pose proof (Rf m' (or_intror (or_intror (ex_intro _ k E)))) as R.
      destruct x; auto; now apply Df.
  Qed.

  (** ** With a cycle it does not *)

  Lemma field_index m f : In f (md_fields (msg_at sch m)) ->
    exists i, (i < length (md_fields (msg_at sch m)))%nat /\ In i (md_order (msg_at sch m))
      /\ field_at sch m i = f.
  Proof.
    intro H. apply (In_nth _ _ dummy_field) in H. destruct H as (i & L & E). exists i.
    split; [exact L|]. split; [|exact E].
    pose proof (msg_at_ok sch m Sch) as (_ & _ & _ & Cov). now apply Cov.
  Qed.

  Lemma cycle_diverges x obj : clos_trans nat (singular sch) x x ->
    forall bs fuel, serializeMessage fuel sch x obj <> Ok bs.
  Proof.
    intros C bs fuel H.
    rewrite (serialize_cycle sch (fun y => clos_trans nat (singular sch) y y)) in H; [discriminate| |exact C].
    intros y Cy. apply clos_trans_t1n in Cy. 
    assert (X : exists z, singular sch y z /\ clos_trans nat (singular sch) z z).
    { inversion Cy as [z S|z w S T]; subst.
      - exists y. split; [exact S|]. now apply t_step.
      - exists z. split; [exact S|]. apply clos_t1n_trans in T.
        eapply t_trans; [exact T|]. now apply t_step. }
    destruct X as (z & (f & Hf & E) & Cz). destruct (field_index y f Hf) as (i & _ & Hi & <-).
    exists i, z. auto.
  Qed.

  Lemma update_ok m i v : (i < length (md_fields (msg_at sch m)))%nat ->
    val_ok sch (f_ty (field_at sch m i)) v ->
    object_ok sch m (update i v (default_obj sch m)).
  Proof.
    intros L V. apply object_ok_spec. pose proof (default_ok sch m) as D. apply object_ok_spec in D.
    unfold field_at in V. revert i L V. generalize dependent (default_obj sch m).
    generalize (md_fields (msg_at sch m)) as fields.
    induction fields as [|f fields IH]; intros fs D i L V; [cbn in L; lia|].
    inversion D; subst. destruct i as [|i]; cbn [update]; constructor; auto.
    apply IH; auto. cbn in L. lia.
  Qed.

  Lemma default_val_ok ty : val_ok sch ty (default_field ty).
  Proof. destruct ty as [[t|m]|e|k e]; cbn; auto using default_scalar_ok. Qed.

  Lemma holder_diverges m x : clos_refl_trans_1n nat (refers sch) m x ->
    clos_trans nat (singular sch) x x ->
    exists obj, object_ok sch m obj /\ forall bs fuel, serializeMessage fuel sch m obj <> Ok bs.
  Proof.
    induction 1 as [x|m m' x R T IH]; intro C.
    - exists (default_obj sch x). split; [apply default_ok|]. intros. now apply cycle_diverges.
    - destruct (IH C) as (o & Ok1 & Dv). destruct R as (f & Hf & Ty).
      destruct (field_index m f Hf) as (i & L & Hi & Ef).
      set (v := match f_ty f with FSing _ => VMsg o | FRep _ => VList [VMsg o]
                | FMap k _ => VMap [(default_scalar k, VMsg o)] end).
      exists (update i v (default_obj sch m)). split.
      + apply update_ok; [exact L|]. rewrite Ef. unfold v.
        destruct Ty as [E|[E|(k & E)]]; rewrite E; cbn -[elem_ok]; unfold object_ok in Ok1.
        * exact Ok1.
        * auto.
        * repeat split; auto using default_scalar_ok.
      + intros bs [|fuel] H; [discriminate|]. cbn [serializeMessage] in H.
        pose proof (concat_res_in _ _ _ H (in_map _ _ _ Hi)) as [b Hb]. cbn beta in Hb.
        rewrite nth_update_eq in Hb by (rewrite default_obj_length; exact L).
        rewrite Ef in Hb. unfold serializeProperty in Hb. unfold v in Hb.
        assert (Ob : forall idx c, serializeObject (serializeMessage fuel sch) idx m' o <> Ok c).
        { intros idx c E. unfold serializeObject in E. specialize (Dv).
          destruct (serializeMessage fuel sch m' o) as [y|e|r|] eqn:E2; try discriminate.
          now apply (Dv y fuel). }
        destruct Ty as [E|[E|(k & E)]]; rewrite E in Hb.
        * cbn [serializeElement] in Hb. now apply Ob in Hb.
        * cbn [list_of map concat_res serializeListElement] in Hb.
          destruct (serializeObject _ _ m' o) as [y|e|r|] eqn:E2; try discriminate. now apply Ob in E2.
        * cbn [map_of map concat_res serializeMapElement fst snd serializeElement] in Hb.
          destruct (serializeObject _ _ m' o) as [y|e|r|] eqn:E2; try discriminate. now apply Ob in E2.
  Qed.
End Cycle.

Lemma no_cycle_terminates sch m obj : schema_ok sch -> ~ can_hold_cycle sch m ->
  exists fuel bs, forall fuel', (fuel <= fuel')%nat -> serializeMessage fuel' sch m obj = Ok bs.
Proof.
  intros S N. destruct (reach_done sch S (Datatypes.S (list_sum (map vsize obj))) m obj ltac:(lia) N)
    as (f & bs & H).
  exists f, bs. intros f' L. eapply serialize_mono; eauto.
Qed.

Lemma cycle_holder sch m : schema_ok sch -> can_hold_cycle sch m ->
  exists obj, object_ok sch m obj /\ forall bs, ~ serializes sch m obj bs.
Proof.
  intros S (x & R & C). apply clos_rt_rt1n in R.
  destruct (holder_diverges sch S m x R C) as (obj & O & D). exists obj. split; [exact O|].
  intros bs (fuel & H). now apply (D bs fuel).
Qed.

Lemma acyclic_no_cycle sch m : acyclic sch -> ~ can_hold_cycle sch m.
Proof.
  intros [rank H] (x & _ & C).
  assert (X : forall a b, clos_trans nat (singular sch) a b -> (rank b < rank a)%nat).
  { induction 1 as [a b (f & Hf & E)|a b c _ IH1 _ IH2]; [now apply (H a f b) | lia]. }
  apply X in C. lia.
Qed.

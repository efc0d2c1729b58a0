(** More about the JSON reader: its result does not depend on fuel, and the output of the serializer stands for the
    message. *)

From Coq Require Import String ZArith List Bool Lia Permutation.
From Verif Require Import Base Values WireSpec MessageSpec MessageModel MessageProofs SerializeProofs MessageFacts ObjectProofs TypedProofs
  PropFacts JsonSpec JsonModel JsonProofs JsonUnique JsonReadModel JsonReadSpec JsonReadProofs.
Import ListNotations.
Open Scope Z_scope.

(** ** Fuel *)

Section Mono.
  Variable mj : microjson.
  Variable conv : conversions.
  Variable sch : schema.
  Variable nm : names.
  Variable rec rec' : nat -> list Z -> res (list value).
  Hypothesis RR : forall m d r, rec m d = Ok r -> rec' m d = Ok r.
  Variable n n' : nat.
  Hypothesis NN : (n <= n')%nat.

  Lemma messages_mono m : forall k k' s acc r, (k <= k')%nat -> read_messages mj rec k m s acc = Ok r -> read_messages mj rec' k' m s acc = Ok r.
  Proof.
    induction k as [|k IH]; intros k' s acc r L H; [discriminate H|]. destruct k' as [|k']; [lia|]. cbn [read_messages] in *.
    destruct s as [|c s]; [exact H|]. destruct (extractValue mj _ _) as [[i v]|]; [|exact H].
    apply bind_ok in H as (o & E & H). apply RR in E. rewrite E. cbn [bind]. destruct (_ <=? _)%nat; [|exact H]. apply IH; [lia | exact H].
  Qed.

  Lemma entry_mono en e v r : read_entry_value conv rec en e v = Ok r -> read_entry_value conv rec' en e v = Ok r.
  Proof.
    intro H. destruct e as [t|m]; [exact H|]. cbn [read_entry_value] in *. destruct (snd v); [exact H|].
    apply bind_ok in H as (o & E & H). apply RR in E. rewrite E. exact H.
  Qed.

  Lemma pairs_mono en k e : forall f f' s acc r, (f <= f')%nat -> read_pairs mj conv rec f en k e s acc = Ok r -> read_pairs mj conv rec' f' en k e s acc = Ok r.
  Proof.
    induction f as [|f IH]; intros f' s acc r L H; [discriminate H|]. destruct f' as [|f']; [lia|]. cbn [read_pairs] in *.
    destruct s as [|c s]; [exact H|]. destruct (extractProperty mj _ _) as [[i [name v]]|]; [|exact H].
    apply bind_ok in H as (o & E & H). apply entry_mono in E. rewrite E. cbn [bind]. destruct (_ <=? _)%nat; [|exact H]. apply IH; [lia | exact H].
  Qed.

  Lemma value_mono m i v r : read_value mj conv sch nm rec n m i v = Ok r -> read_value mj conv sch nm rec' n' m i v = Ok r.
  Proof.
    intro H. unfold read_value in *. destruct (f_ty (field_at sch m i)) as [[t|m']|[t|m']|k e]; try exact H; destruct (snd v); try exact H;
      apply bind_ok in H as (o & E & H).
    - apply RR in E. rewrite E. exact H.
    - rewrite (messages_mono _ _ _ _ _ _ NN E). exact H.
    - rewrite (pairs_mono _ _ _ _ _ _ _ _ NN E). exact H.
  Qed.

  Lemma members_mono m : forall l obj r, read_members mj conv sch nm rec n m l obj = Ok r -> read_members mj conv sch nm rec' n' m l obj = Ok r.
  Proof.
    induction l as [|[name v] l IH]; intros obj r H; [exact H|]. cbn [read_members] in *. destruct (find _ _); [|now apply IH].
    destruct (_ && _); [now apply IH|]. apply bind_ok in H as (x & E & H). rewrite (value_mono _ _ _ _ E). cbn [bind].
    destruct (snd x); now apply IH.
  Qed.
End Mono.

Lemma read_mono mj conv sch nm : forall f f' m d base r, (f <= f')%nat -> read_object f mj conv sch nm m d base = Ok r ->
  read_object f' mj conv sch nm m d base = Ok r.
Proof.
  induction f as [|f IH]; intros f' m d base r L H; [discriminate H|]. destruct f' as [|f']; [lia|]. cbn [read_object] in *.
  eapply members_mono; [|apply le_S_n; exact L | exact H]. intros m' d' r' E. apply (IH f'); [lia | exact E].
Qed.

(** ** The output of the serializer *)

Section Output.
  Variable sch : schema.
  Variable nm : names.
  Variable floating : sty -> Z -> list Z -> Prop.
  Hypothesis N : names_ok sch nm.
  Hypothesis Sch : schema_ok sch.
  Hypothesis Nb : forall m i e, f_ty (field_at sch m i) <> FMap TBool e.

  Let member m obj := fun i (p : list Z * json) => fst p = n_json nm m i /\ shows_field sch nm floating named m i (nth i obj VNull) (snd p).

  Lemma shows_obj en m obj j : shows sch nm floating named en (EM m) (VMsg obj) j ->
    exists l, j = JObj l /\ Forall2 (member m obj) (md_order (msg_at sch m)) l.
  Proof. intro H. inversion H as [|? ? ? l F|? ? ? ? Hno]; subst; [eauto | now destruct (Hno obj)]. Qed.

  Lemma shows_says_object : forall n m obj l base, (jsize (JObj l) <= n)%nat -> Forall2 (member m obj) (md_order (msg_at sch m)) l ->
    object_ok sch m obj -> says_object sch nm floating m base (map drop_nulls obj) l.
  Proof.
    induction n as [|n IH]; intros m obj l base B F O; [cbn in B; lia|].
    destruct (jsize_obj l) as [_ B2]. destruct (msg_at_ok sch m Sch) as (_ & _ & _ & Oi).
    constructor.
    - replace (map fst l) with (map (n_json nm m) (md_order (msg_at sch m))); [apply N|].
      clear - F. induction F as [|i p o l [E _] F IHF]; [reflexivity|]. cbn [map]. now rewrite E, IHF.
    - rewrite map_length. now apply object_ok_length.
    - intros i Hi. assert (P : exists p, In p l /\ member m obj i p).
      { apply Oi in Hi. clear - F Hi. induction F as [|i' p o l E F IHF]; [destruct Hi|].
        destruct Hi as [<-|Hi]; [exists p; split; [now left | exact E]|]. destruct (IHF Hi) as (q & I & H). exists q. split; [now right | exact H]. }
      destruct P as ([name j] & I & En & Sf). cbn [fst snd] in En, Sf. subst name.
      pose proof (B2 _ I) as Bj. cbn [snd] in Bj.
      apply (says_present sch nm floating m i _ _ l j I). change VNull with (drop_nulls VNull). rewrite map_nth.
      pose proof (object_ok_field sch m obj i O Hi) as Vo. remember (nth i obj VNull) as v eqn:Ev. clear Ev.
      destruct Sf as [m i e v j Ty Sy|m i t v js Ty Sy|m i m' v js Ty Sy|m i k e v ls Ty Sy]; rewrite Ty in Vo; cbn [val_ok] in Vo.
      + destruct e as [t|m'].
        * destruct v as [s| | | |]; cbn [elem_ok] in Vo; try contradiction. inversion Sy; subst.
          apply (says_single sch nm floating m i (ES t)); [exact Ty|]. cbn [drop_nulls]. constructor. now left.
        * destruct v as [s| |sub|?|?]; cbn [elem_ok] in Vo; try contradiction.
          -- inversion Sy as [|?|en' m1 v1 j1 Hno Sd]; subst. destruct (shows_obj _ _ _ _ Sd) as (l' & -> & F').
             apply (says_unset sch nm floating m i m'); [exact Ty|]. constructor. rewrite <- (default_drop sch m') at 2.
             apply IH; [lia | exact F' | apply default_ok].
          -- destruct (shows_obj _ _ _ _ Sy) as (l' & -> & F'). apply (says_single sch nm floating m i (EM m')); [exact Ty|].
             cbn [drop_nulls]. constructor. apply IH; [lia | exact F' | exact Vo].
      + destruct v as [s| |sub|vs|?]; try contradiction. cbn [list_of drop_nulls] in *. apply (says_list sch nm floating m i (ES t)); [exact Ty|].
        clear - Sy Vo. revert js Sy. induction vs as [|x vs IHv]; intros js Sy; inversion Sy as [|x' j' vs' js' Sx Sxs]; subst; [constructor|].
        destruct Vo as [Ox Os]. destruct x as [s| | | |]; cbn [elem_ok] in Ox; try contradiction. cbn [flat_map app drop_nulls].
        constructor; [|now apply IHv]. inversion Sx; subst. constructor. now left.
      + destruct v as [s| |sub|vs|?]; try contradiction. cbn [list_of drop_nulls] in *. apply (says_list sch nm floating m i (EM m')); [exact Ty|].
        destruct (jsize_arr js) as [_ B3]. assert (B4 : forall j, In j js -> (jsize j <= n)%nat) by (intros j Ij; apply B3 in Ij; lia).
        clear - Sy Vo B4 IH. revert js Sy B4. induction vs as [|x vs IHv]; intros js Sy B4.
        { inversion Sy. constructor. }
        destruct Vo as [Ox Os]. destruct x as [s| |sub| |]; cbn [elem_ok] in Ox; try contradiction; cbn [filter flat_map app drop_nulls] in *.
        * now apply IHv.
        * inversion Sy as [|x' j' vs' js' Sx Sxs]; subst. constructor; [|apply IHv; auto; intros; apply B4; now right].
          destruct (shows_obj _ _ _ _ Sx) as (l' & -> & F'). constructor. apply IH; [apply B4; now left | exact F' | exact Ox].
      + destruct v as [s| |sub|?|kvs]; try contradiction. cbn [map_of drop_nulls] in *.
        apply (says_map sch nm floating m i k e _ (flat_map (fun p => match snd p with VNull => [] | _ => [(fst p, drop_nulls (snd p))] end) kvs));
          [exact Ty | intros ->; exact (Nb m i e Ty) | reflexivity|].
        destruct Vo as [_ Vo]. destruct (jsize_obj ls) as [_ B3]. assert (B4 : forall p, In p ls -> (jsize (snd p) <= n)%nat) by (intros p Ip; apply B3 in Ip; lia).
        clear - Sy Vo B4 IH. revert ls Sy B4. induction kvs as [|[key x] kvs IHv]; intros ls Sy B4.
        { inversion Sy. constructor. }
        destruct Vo as [[Ok Ox] Os]. cbn [fst snd filter flat_map] in *. destruct e as [t|m'].
        * destruct x as [s| | | |]; cbn [elem_ok] in Ox; try contradiction. cbn [app drop_nulls].
          inversion Sy as [|x' p vs' js' [Sk Sx] Sxs]; subst. constructor; [|apply IHv; auto; intros; apply B4; now right].
          split; [exact Sk|]. cbn [snd] in *. inversion Sx; subst. constructor. now left.
        * destruct x as [s| |sub| |]; cbn [elem_ok] in Ox; try contradiction; cbn [app drop_nulls].
          -- now apply IHv.
          -- inversion Sy as [|x' p vs' js' [Sk Sx] Sxs]; subst. constructor; [|apply IHv; auto; intros; apply B4; now right].
             split; [exact Sk|]. cbn [snd] in *. destruct (shows_obj _ _ _ _ Sx) as (l' & Ep & F'). rewrite Ep. constructor.
             apply IH; [rewrite <- Ep; apply B4; now left | exact F' | exact Ox].
  Qed.
End Output.

(** ** Dropping nulls keeps objects well typed *)

Lemma sorted_flat k (l : list (scalar * value)) : keys_sorted k l ->
  keys_sorted k (flat_map (fun p => match snd p with VNull => [] | _ => [(fst p, drop_nulls (snd p))] end) l).
Proof.
  induction l as [|[a v] l IH]; intro S; [exact S|]. cbn [keys_sorted] in S. destruct S as [S1 S2]. specialize (IH S2).
  assert (C : keys_sorted k ((a, drop_nulls v) :: flat_map (fun p => match snd p with VNull => [] | _ => [(fst p, drop_nulls (snd p))] end) l)).
  { cbn [keys_sorted]. split; [|exact IH]. apply Forall_forall. intros q I. apply in_flat_map in I as (p & Ip & Iq).
    rewrite Forall_forall in S1. specialize (S1 _ Ip). destruct (snd p); (contradiction || (destruct Iq as [<-|[]]; exact S1)). }
  cbn [flat_map snd fst]. destruct v; cbn [app]; auto.
Qed.

Lemma drop_elem sch : forall n e v, (vsize v <= n)%nat -> elem_ok sch e v -> elem_ok sch e (drop_nulls v).
Proof.
  induction n as [|n IH]; intros e v L O; [destruct v; cbn in L; lia|].
  destruct v as [s| |fs|l|l]; [exact O | exact O | | destruct e; contradiction | destruct e; contradiction].
  destruct e as [t|m]; [contradiction|]. cbn [drop_nulls]. apply (object_ok_spec sch m (map drop_nulls fs)). apply (object_ok_spec sch m fs) in O.
  assert (Le : forall x, In x fs -> (vsize x <= n)%nat).
  { intros x I. cbn [vsize] in L. pose proof (list_sum_in (vsize x) (map vsize fs) (in_map _ _ _ I)). lia. }
  clear L. induction O as [|f x fields fs V O IHO]; [constructor|]. cbn [map]. constructor; [|apply IHO; intros; apply Le; now right].
  specialize (Le x (or_introl eq_refl)). destruct (f_ty f) as [e|e|k e]; cbn [val_ok] in *.
  - now apply IH.
  - destruct x as [| | |l|]; try contradiction. cbn [drop_nulls val_ok]. cbn [vsize] in Le. apply every_Forall. apply every_Forall in V. rewrite Forall_forall in *.
    intros y I. apply in_flat_map in I as (z & Iz & Iy).
    assert (y = drop_nulls z) by (destruct z; (contradiction || (destruct Iy as [<-|[]]; reflexivity))). subst y. apply IH; [|now apply V].
    pose proof (list_sum_in (vsize z) (map vsize l) (in_map _ _ _ Iz)). lia.
  - destruct x as [| | | |l]; try contradiction. cbn [drop_nulls val_ok]. cbn [vsize] in Le. destruct V as [So V]. split; [now apply sorted_flat|].
    apply every_Forall. apply every_Forall in V. rewrite Forall_forall in *.
    intros y I. apply in_flat_map in I as (z & Iz & Iy).
    assert (y = (fst z, drop_nulls (snd z))) by (destruct (snd z); (contradiction || (destruct Iy as [<-|[]]; reflexivity))). subst y. cbn [fst snd].
    destruct (V z Iz) as [V1 V2]. split; [exact V1|]. apply IH; [|exact V2].
    pose proof (list_sum_in (vsize (snd z)) (map (fun p => vsize (snd p)) l) (in_map (fun p => vsize (snd p)) _ _ Iz)). lia.
Qed.

Lemma drop_object sch m obj : object_ok sch m obj -> object_ok sch m (map drop_nulls obj).
Proof. intro O. exact (drop_elem sch _ (EM m) (VMsg obj) (le_n _) O). Qed.

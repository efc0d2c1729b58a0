(** Proofs about JSON texts between programs with different versions of a schema. *)

From Coq Require Import String ZArith List Bool Arith Lia Permutation.
From Verif Require Import Base Values WireSpec MessageSpec MessageModel MessageProofs SerializeProofs MessageFacts ObjectProofs TypedProofs
  PropFacts JsonSpec JsonModel JsonProofs JsonUnique JsonReadModel JsonReadSpec JsonReadProofs JsonReadFacts EvolveJsonSpec.
Import ListNotations.
Open Scope Z_scope.

Lemma sorted_filter k f : forall l : list (scalar * value), keys_sorted k l -> keys_sorted k (filter f l).
Proof.
  induction l as [|[a v] l IH]; [auto|]. intros [H1 H2]. specialize (IH H2). cbn [filter]. destruct (f (a, v)); [|exact IH]. split; [|exact IH].
  rewrite Forall_forall in *. intros p I. apply filter_In in I as (I & _). now apply H1.
Qed.

Lemma sorted_fst k : forall l l' : list (scalar * value), map fst l' = map fst l -> keys_sorted k l -> keys_sorted k l'.
Proof.
  induction l as [|[a v] l IH]; intros [|[a' v'] l'] E H; try discriminate E; [exact H|]. cbn in E. injection E as -> E. destruct H as [H1 H2]. split; [|now apply IH].
  rewrite <- (Forall_map fst (fun q => key_ltb k a q = true)) in *. now rewrite E.
Qed.

Section Reads.
  Context (sch sch' : schema) (nm nm' : names) (floating : sty -> Z -> list Z -> Prop).
  Context (N : names_ok sch nm) (Sch : schema_ok sch) (Nb : forall m i e, f_ty (field_at sch m i) <> FMap TBool e).

  Let member m obj := fun i (p : list Z * json) => fst p = n_json nm m i /\ shows_field sch nm floating named m i (nth i obj VNull) (snd p).

  Lemma scalar_shown en en' t t' s s' j : scalar_reads floating en en' t t' s s' -> shows_scalar floating named en t s j -> shows_scalar floating named en' t' s' j.
  Proof.
    intros R H. assert (C : (t = TEnum /\ t' = TEnum) \/ ((t = t' /\ t <> TEnum /\ num_of s' = num_of s /\ blob_of s' = blob_of s)
        \/ (is_integer t = true /\ is_integer t' = true /\ num_of s' = num_of s)
        \/ (is_integer t = true /\ is_float t' = true /\ forall x, integer_text (num_of s) x -> floating t' (num_of s') x))).
    { unfold scalar_reads in R. destruct t; try (right; exact R); destruct t'; try (right; exact R). left. now split. }
    destruct C as [(-> & ->) | [(<- & Ne & En & Eb) | [(It & It' & En) | (It & Ft & Fl)]]].
    - cbn in R. destruct H as (name & Na & ->). exists name. split; [now apply R | reflexivity].
    - destruct t; cbn in H |- *; try congruence; rewrite ?En, ?Eb; exact H.
    - destruct t; try discriminate It; cbn in H; destruct H as (x & Ix & ->); destruct t'; try discriminate It'; cbn; exists x; now rewrite En.
    - destruct t; try discriminate It; cbn in H; destruct H as (x & Ix & ->); destruct t'; try discriminate Ft; cbn; exists x; split; auto.
  Qed.

  Lemma reads_says : forall n m m' obj l base obj', (jsize (JObj l) <= n)%nat -> Forall2 (member m obj) (md_order (msg_at sch m)) l ->
    object_ok sch m obj -> reads_object sch sch' nm nm' floating m m' obj base obj' -> says_object sch' nm' floating m' base obj' l.
  Proof.
    induction n as [|n IH]; intros m m' obj l base obj' B F O R; [cbn in B; lia|].
    destruct (jsize_obj l) as [_ B2]. destruct (msg_at_ok sch m Sch) as (_ & _ & _ & Oi). inversion R as [m1 m1' fs1 base1 fs1' Le Rm]; subst. clear R.
    assert (Names : map fst l = map (n_json nm m) (md_order (msg_at sch m))).
    { clear - F. induction F as [|i p o l [E _] F IHF]; [reflexivity|]. cbn [map]. now rewrite E, IHF. }
    constructor; [rewrite Names; apply N | exact Le |]. intros i' Hi'. specialize (Rm i' Hi').
    remember (nth i' obj' VNull) as v' eqn:Ev'. clear Ev'. inversion Rm as [a1 a2 i a3 a4 old b1 Hi En Rf | a1 a2 a3 a4 old No]; subst.
    2: { apply says_absent. rewrite Names. intro I. apply in_map_iff in I as (i & E & I). apply (No i); [now apply Oi | exact E]. }
    assert (P : exists p, In p l /\ member m obj i p).
    { apply Oi in Hi. clear - F Hi. induction F as [|i' p o l E F IHF]; [destruct Hi|].
      destruct Hi as [<-|Hi]; [exists p; split; [now left | exact E]|]. destruct (IHF Hi) as (q & I & H). exists q. split; [now right | exact H]. }
    destruct P as ([name j] & I & Em & Sf). cbn [fst snd] in Em, Sf. rewrite En in Em. subst name.
    pose proof (B2 _ I) as Bj. cbn [snd] in Bj. apply (says_present sch' nm' floating m' i' _ _ l j I).
    pose proof (object_ok_field sch m obj i O Hi) as Vo.
    assert (El : forall en en' e e' v v' j, (jsize j <= n)%nat -> elem_ok sch e v -> reads sch sch' nm nm' floating en en' e e' v v' ->
      shows sch nm floating named en e v j -> JsonReadSpec.says sch' nm' floating en' e' v' j).
    { clear - IH. intros en en' e e' v v' j B Ve R H. revert j B H. induction R as [en en' t t' s s' Rs | en en' a a' fs fs' Ro | en en' a a' w' R IHR]; intros j B H.
      - inversion H; subst. constructor. left. now apply (scalar_shown en en' t t' s s').
      - destruct (shows_obj sch nm floating en a fs j H) as (l & -> & F). constructor. now apply (IH a a' fs l).
      - apply IHR; [apply default_ok | exact B |]. inversion H; subst; assumption. }
    remember (nth i obj VNull) as v eqn:Ev. clear Ev.
    destruct Rf as [m i m' i' e e' v v' Ty Ty' Re | m i m' i' e e' vs vs' Ty Ty' Rl | m i m' i' k e e' kvs kvs' Ty Ty' Rl]; rewrite Ty in Vo; cbn [val_ok] in Vo.
    - apply (says_single sch' nm' floating m' i' e'); [exact Ty'|]. apply (El (n_enum nm m i) _ e e' v); [lia | exact Vo | exact Re |].
      inversion Sf; subst; congruence || (rewrite Ty in *; try discriminate); try (match goal with H : FSing _ = FSing _ |- _ => injection H as <- end; assumption).
    - assert (Sl : exists js, j = JArr js /\ Forall2 (shows sch nm floating named (n_enum nm m i) e) (filter (fun v => match v with VNull => false | _ => true end) vs) js).
      { inversion Sf as [a b c d f Tf|a b t c js Tf Sy|a b t c js Tf Sy|a b c d f g Tf]; subst; rewrite Ty in Tf; try discriminate Tf; injection Tf as ->; exists js; (split; [reflexivity|]); cbn [list_of] in Sy.
        - replace (filter _ vs) with vs; [exact Sy|]. clear - Vo. induction vs as [|x vs IHv]; [reflexivity|]. destruct Vo as [Ox Os].
          destruct x; cbn [elem_ok] in Ox; try contradiction. cbn. now rewrite <- IHv.
        - replace (filter _ vs) with (filter (fun x => match x with VMsg _ => true | _ => false end) vs); [exact Sy|]. clear - Vo. induction vs as [|x vs IHv]; [reflexivity|].
          destruct Vo as [Ox Os]. destruct x; cbn [elem_ok] in Ox; try contradiction; cbn; now rewrite <- IHv. }
      destruct Sl as (js & -> & Sy). apply (says_list sch' nm' floating m' i' e'); [exact Ty'|].
      destruct (jsize_arr js) as [_ B3]. assert (B4 : forall j, In j js -> (jsize j <= n)%nat) by (intros j Ij; apply B3 in Ij; lia).
      assert (Os : Forall (elem_ok sch e) (filter (fun v => match v with VNull => false | _ => true end) vs)).
      { clear - Vo. induction vs as [|x vs IHv]; [constructor|]. destruct Vo as [Ox Os]. cbn. destruct x; try (constructor; [exact Ox | now apply IHv]). now apply IHv. }
      clear - Sy B4 Rl El Os. revert vs' Rl Os B4. induction Sy as [|x j xs js Sx Sxs IHs]; intros vs' Rl Os B4; inversion Rl; subst; [constructor|].
      inversion Os; subst. constructor; [|apply IHs; auto; intros; apply B4; now right]. apply (El (n_enum nm m i) _ e e' x); auto. apply B4. now left.
    - assert (Sl : exists ls, j = JObj ls /\ Forall2 (fun kv p => shows_key k (fst kv) (fst p) /\ shows sch nm floating named (n_enum nm m i) e (snd kv) (snd p))
                        (filter (fun p => match snd p with VNull => false | _ => true end) kvs) ls).
      { inversion Sf as [a b c d f Tf|a b t c js Tf|a b t c js Tf|a b c d f g Tf Sy]; subst; rewrite Ty in Tf; try discriminate Tf; injection Tf as -> ->; exists g; (split; [reflexivity|]); cbn [map_of] in Sy.
        destruct Vo as (_ & Vo). replace (filter (fun p => match snd p with VNull => false | _ => true end) kvs) with
          (filter (fun kv : scalar * value => match d, snd kv with EM _, VNull => false | _, _ => true end) kvs); [exact Sy|].
        clear - Vo. induction kvs as [|[key x] kvs IHv]; [reflexivity|]. destruct Vo as [[_ Ox] Os]. specialize (IHv Os). cbn [filter snd] in *.
        destruct d, x; cbn [elem_ok] in Ox; try contradiction; congruence. }
      destruct Sl as (ls & -> & Sy). destruct Vo as (_ & Vo).
      apply (says_map sch' nm' floating m' i' k e' _ kvs'); [exact Ty' | intros ->; exact (Nb m i e Ty) | reflexivity |].
      destruct (jsize_obj ls) as [_ B3]. assert (B4 : forall p, In p ls -> (jsize (snd p) <= n)%nat) by (intros p Ip; apply B3 in Ip; lia).
      assert (Os : Forall (fun p => elem_ok sch e (snd p)) (filter (fun p => match snd p with VNull => false | _ => true end) kvs)).
      { clear - Vo. induction kvs as [|[key x] kvs IHv]; [constructor|]. destruct Vo as [[_ Ox] Os]. cbn in *. destruct x; try (constructor; [exact Ox | now apply IHv]). now apply IHv. }
      clear - Sy B4 Rl El Os. revert kvs' Rl Os B4. induction Sy as [|x p xs ls [Sk Sx] Sxs IHs]; intros kvs' Rl Os B4; inversion Rl as [|x1 x' xs1 xs' [Ek Rx] Rxs]; subst; [constructor|].
      inversion Os; subst. constructor; [|apply IHs; auto; intros; apply B4; now right]. split; [now rewrite Ek|].
      apply (El (n_enum nm m i) _ e e' (snd x)); auto. apply B4. now left.
  Qed.

  (** * There is always such a value *)

  Context (related : nat -> nat -> Prop) (Ve : versions sch sch' nm nm' related).

  Lemma scalar_exists en en' t t' s : scalar_ok t s -> scalar_may en en' t t' -> exists s', scalar_ok t' s' /\ scalar_reads floating en en' t t' s s'.
  Proof.
    intros O M.
    assert (C : (t = TEnum /\ t' = TEnum) \/ (t = t' /\ t <> TEnum) \/ (is_integer t = true /\ is_integer t' = true /\ forall z, scalar_ok t (SNum z) -> scalar_ok t' (SNum z))).
    { unfold scalar_may in M. destruct t; try (right; exact M); destruct t'; try (right; exact M). left. now split. }
    destruct C as [(-> & ->) | [(<- & Ne) | (It & It' & W)]].
    - cbn [scalar_may] in M. destruct s as [z|]; [|destruct O]. destruct (M z O) as (z' & Oz & Na). exists (SNum z'). split; [exact Oz | exact Na].
    - exists s. split; [exact O|]. unfold scalar_reads. destruct t; try congruence; left; repeat split; congruence.
    - destruct s as [z|]; [|destruct t; (discriminate It || destruct O)]. exists (SNum z). split; [now apply W|].
      unfold scalar_reads. destruct t; try discriminate It; destruct t'; try discriminate It'; right; left; repeat split.
  Qed.

  Lemma build (P : nat -> value -> Prop) : forall n, (forall i, (i < n)%nat -> exists v, P i v) -> exists l, length l = n /\ forall i, (i < n)%nat -> P i (nth i l VNull).
  Proof.
    induction n as [|n IH]; intro H; [exists []; split; [reflexivity | intros; lia]|]. destruct IH as (l & L & A); [intros; apply H; lia|].
    destruct (H n (Nat.lt_succ_diag_r n)) as (v & Pv). exists (l ++ [v]). split; [rewrite app_length; cbn; lia|]. intros i Hi.
    destruct (Nat.eq_dec i n) as [-> | Ni]; [rewrite app_nth2, L, Nat.sub_diag by lia; exact Pv | rewrite app_nth1 by lia; apply A; lia].
  Qed.

  Lemma known_or_not m m' i' : (exists i, (i < length (md_fields (msg_at sch m)))%nat /\ n_json nm m i = n_json nm' m' i')
    \/ forall i, (i < length (md_fields (msg_at sch m)))%nat -> n_json nm m i <> n_json nm' m' i'.
  Proof.
    generalize (length (md_fields (msg_at sch m))). induction n as [|n IH]; [right; intros; lia|]. destruct IH as [(i & L & E) | No].
    - left. exists i. split; [lia | exact E].
    - destruct (list_eq_dec Z.eq_dec (n_json nm m n) (n_json nm' m' i')) as [E | Ne]; [left; exists n; split; [lia | exact E] | right].
      intros i Hi. destruct (Nat.eq_dec i n) as [-> | Ni]; [exact Ne | apply No; lia].
  Qed.

  Lemma object_built m fs : length fs = length (md_fields (msg_at sch' m)) ->
    (forall i, (i < length (md_fields (msg_at sch' m)))%nat -> val_ok sch' (f_ty (field_at sch' m i)) (nth i fs VNull)) -> object_ok sch' m fs.
  Proof.
    intros L A. apply object_ok_spec. unfold field_at in A. revert fs L A. generalize (md_fields (msg_at sch' m)).
    induction l as [|f l IH]; intros [|x fs] L A; try discriminate L; [constructor|]. constructor; [exact (A 0%nat ltac:(cbn; lia))|].
    apply IH; [now injection L|]. intros i Hi. exact (A (S i) ltac:(cbn; lia)).
  Qed.

  Lemma reads_exists : forall n m m' obj l base, (jsize (JObj l) <= n)%nat -> Forall2 (member m obj) (md_order (msg_at sch m)) l ->
    object_ok sch m obj -> object_ok sch' m' base -> related m m' ->
    exists obj', object_ok sch' m' obj' /\ reads_object sch sch' nm nm' floating m m' obj base obj'.
  Proof.
    induction n as [|n IH]; intros m m' obj l base B F O Ob Re; [cbn in B; lia|].
    destruct (jsize_obj l) as [_ B2]. destruct (msg_at_ok sch m Sch) as (_ & _ & _ & Oi).
    assert (El : forall en en' e e' v j, (jsize j <= n)%nat -> elem_ok sch e v -> elem_may related en en' e e' ->
      shows sch nm floating named en e v j -> exists v', elem_ok sch' e' v' /\ reads sch sch' nm nm' floating en en' e e' v v').
    { clear - IH. intros en en' e e' v j B Ve M H. destruct e as [t|a], e' as [t'|a']; try contradiction.
      - destruct v as [s| | | |]; try contradiction. destruct (scalar_exists en en' t t' s Ve M) as (s' & Os & Rs). exists (VScalar s'). split; [exact Os | now constructor].
      - assert (X : forall fs, object_ok sch a fs -> shows sch nm floating named en (EM a) (VMsg fs) j ->
          exists fs', object_ok sch' a' fs' /\ reads sch sch' nm nm' floating en en' (EM a) (EM a') (VMsg fs) (VMsg fs')).
        { intros fs Of Hf. destruct (shows_obj sch nm floating en a fs j Hf) as (l & -> & F).
          destruct (IH a a' fs l (default_obj sch' a') B F Of (default_ok sch' a') M) as (fs' & Of' & R). exists fs'. split; [exact Of' | now constructor]. }
        destruct v as [s| |fs| |]; try contradiction.
        + destruct (X (default_obj sch a)) as (fs' & Of & R); [apply default_ok | inversion H; subst; assumption |]. exists (VMsg fs'). split; [exact Of | now constructor].
        + destruct (X fs Ve H) as (fs' & Of & R). exists (VMsg fs'). now split. }
    destruct (build (fun i' v' => val_ok sch' (f_ty (field_at sch' m' i')) v' /\ reads_member sch sch' nm nm' floating m m' i' obj (nth i' base VNull) v')
                (length (md_fields (msg_at sch' m')))) as (obj' & Le & A).
    2: { exists obj'. split; [apply object_built; [exact Le | intros; now apply A] | constructor; [exact Le | intros; now apply A]]. }
    intros i' Hi'. destruct (known_or_not m m' i') as [(i & Hi & En) | No].
    2: { exists (nth i' base VNull). split; [now apply object_ok_field | now apply reads_unknown]. }
    pose proof (Ve m m' Re i i' Hi Hi' En) as Ma.
    assert (P : exists p, In p l /\ member m obj i p).
    { apply Oi in Hi. clear - F Hi. induction F as [|i' p o l E F IHF]; [destruct Hi|].
      destruct Hi as [<-|Hi]; [exists p; split; [now left | exact E]|]. destruct (IHF Hi) as (q & I & H). exists q. split; [now right | exact H]. }
    destruct P as ([name j] & I & Em & Sf). cbn [fst snd] in Em, Sf. pose proof (B2 _ I) as Bj. cbn [snd] in Bj.
    pose proof (object_ok_field sch m obj i O Hi) as Vo.
    assert (X : exists v', val_ok sch' (f_ty (field_at sch' m' i')) v' /\ reads_field sch sch' nm nm' floating m i m' i' (nth i obj VNull) v').
    2: { destruct X as (v' & Ov & R). exists v'. split; [exact Ov | now apply (reads_known _ _ _ _ _ m m' i)]. }
    remember (nth i obj VNull) as v eqn:Ev. clear Ev.
    destruct (f_ty (field_at sch m i)) as [e|e|k e] eqn:Ty; destruct (f_ty (field_at sch' m' i')) as [e'|e'|k' e'] eqn:Ty'; try contradiction; cbn [val_ok field_may] in Vo, Ma |- *.
    - assert (Sh : shows sch nm floating named (n_enum nm m i) e v j).
      { inversion Sf; subst; congruence || (rewrite Ty in *; try discriminate); try (match goal with H : FSing _ = FSing _ |- _ => injection H as <- end; assumption). }
      destruct (El (n_enum nm m i) (n_enum nm' m' i') e e' v j ltac:(lia) Vo Ma Sh) as (v' & Ov & R). exists v'. split; [exact Ov | now apply (reads_one _ _ _ _ _ m i m' i' e e')].
    - destruct v as [| | |vs|]; try contradiction.
      assert (Sl : exists js, j = JArr js /\ Forall2 (shows sch nm floating named (n_enum nm m i) e) (filter (fun v => match v with VNull => false | _ => true end) vs) js).
      { inversion Sf as [a b c d f Tf|a b t c js Tf Sy|a b t c js Tf Sy|a b c d f g Tf]; subst; rewrite Ty in Tf; try discriminate Tf; injection Tf as ->; exists js; (split; [reflexivity|]); cbn [list_of] in Sy.
        - replace (filter _ vs) with vs; [exact Sy|]. clear - Vo. induction vs as [|x vs IHv]; [reflexivity|]. destruct Vo as [Ox Os].
          destruct x; cbn [elem_ok] in Ox; try contradiction. cbn. now rewrite <- IHv.
        - replace (filter _ vs) with (filter (fun x => match x with VMsg _ => true | _ => false end) vs); [exact Sy|]. clear - Vo. induction vs as [|x vs IHv]; [reflexivity|].
          destruct Vo as [Ox Os]. destruct x; cbn [elem_ok] in Ox; try contradiction; cbn; now rewrite <- IHv. }
      destruct Sl as (js & -> & Sy).
      destruct (jsize_arr js) as [_ B3]. assert (B4 : forall j, In j js -> (jsize j <= n)%nat) by (intros j Ij; apply B3 in Ij; lia).
      assert (Os : Forall (elem_ok sch e) (filter (fun v => match v with VNull => false | _ => true end) vs)).
      { clear - Vo. induction vs as [|x vs IHv]; [constructor|]. destruct Vo as [Ox Os]. cbn. destruct x; try (constructor; [exact Ox | now apply IHv]). now apply IHv. }
      assert (X : exists vs', Forall (elem_ok sch' e') vs'
        /\ Forall2 (reads sch sch' nm nm' floating (n_enum nm m i) (n_enum nm' m' i') e e') (filter (fun v => match v with VNull => false | _ => true end) vs) vs').
      { clear - Sy B4 El Os Ma. revert Os B4. induction Sy as [|x j xs js Sx Sxs IHs]; intros Os B4; [exists []; now split|]. inversion Os; subst.
        destruct IHs as (vs' & A1 & A2); [assumption | intros; apply B4; now right |].
        destruct (El _ (n_enum nm' m' i') e e' x j (B4 j (or_introl eq_refl)) H1 Ma Sx) as (x' & O1 & R1). exists (x' :: vs'). split; now constructor. }
      destruct X as (vs' & A1 & A2). exists (VList vs'). split; [now apply every_Forall | now apply (reads_list _ _ _ _ _ m i m' i' e e')].
    - destruct v as [| | | |kvs]; try contradiction. destruct Vo as (So & Vo). destruct Ma as (<- & Ma).
      assert (Sl : exists ls, j = JObj ls /\ Forall2 (fun kv p => shows_key k (fst kv) (fst p) /\ shows sch nm floating named (n_enum nm m i) e (snd kv) (snd p))
                        (filter (fun p => match snd p with VNull => false | _ => true end) kvs) ls).
      { inversion Sf as [a b c d f Tf|a b t c js Tf|a b t c js Tf|a b c d f g Tf Sy]; subst; rewrite Ty in Tf; try discriminate Tf; injection Tf as -> ->; exists g; (split; [reflexivity|]); cbn [map_of] in Sy.
        replace (filter (fun p => match snd p with VNull => false | _ => true end) kvs) with
          (filter (fun kv : scalar * value => match d, snd kv with EM _, VNull => false | _, _ => true end) kvs); [exact Sy|].
        clear - Vo. induction kvs as [|[key x] kvs IHv]; [reflexivity|]. destruct Vo as [[_ Ox] Os]. specialize (IHv Os). cbn [filter snd] in *.
        destruct d, x; cbn [elem_ok] in Ox; try contradiction; congruence. }
      destruct Sl as (ls & -> & Sy). assert (So' : keys_sorted k (filter (fun p : scalar * value => match snd p with VNull => false | _ => true end) kvs)).
      { now apply sorted_filter. }
      destruct (jsize_obj ls) as [_ B3]. assert (B4 : forall p, In p ls -> (jsize (snd p) <= n)%nat) by (intros p Ip; apply B3 in Ip; lia).
      assert (Os : Forall (fun p => scalar_ok k (fst p) /\ elem_ok sch e (snd p)) (filter (fun p => match snd p with VNull => false | _ => true end) kvs)).
      { clear - Vo. induction kvs as [|[key x] kvs IHv]; [constructor|]. destruct Vo as [Ox Os]. cbn in *. destruct x; try (constructor; [exact Ox | now apply IHv]). now apply IHv. }
      assert (X : exists kvs', map fst kvs' = map fst (filter (fun p : scalar * value => match snd p with VNull => false | _ => true end) kvs)
        /\ Forall (fun p => scalar_ok k (fst p) /\ elem_ok sch' e' (snd p)) kvs'
        /\ Forall2 (fun p p' => fst p' = fst p /\ reads sch sch' nm nm' floating (n_enum nm m i) (n_enum nm' m' i') e e' (snd p) (snd p'))
             (filter (fun p => match snd p with VNull => false | _ => true end) kvs) kvs').
      { clear - Sy B4 El Os Ma. revert Os B4. induction Sy as [|x p xs ls [_ Sx] Sxs IHs]; intros Os B4; [exists []; now repeat split|]. inversion Os as [|? ? [Ok1 Ok2] Os']; subst.
        destruct IHs as (kvs' & E1 & A1 & A2); [assumption | intros; apply B4; now right |].
        destruct (El _ (n_enum nm' m' i') e e' (snd x) (snd p) (B4 p (or_introl eq_refl)) Ok2 Ma Sx) as (x' & O1 & R1). exists ((fst x, x') :: kvs').
        split; [cbn; congruence|]. split; constructor; auto. }
      destruct X as (kvs' & E1 & A1 & A2). exists (VMap kvs'). split; [split|].
      + now apply (sorted_fst k _ _ E1).
      + now apply every_Forall.
      + now apply (reads_map _ _ _ _ _ m i m' i' k e e').
  Qed.
End Reads.

(** What binary and JSON serialization have to do with each other. *)

From Coq Require Import String ZArith List Bool Lia.
From Verif Require Import Base WireModel Values WireSpec MessageSpec MessageModel MessageProofs SerializeProofs MessageFacts RunFacts PropFacts
  ObjectModel ObjectSpec ObjectProofs TypedProofs ExactSpec JsonSpec JsonModel JsonReadModel JsonTyped.
Import ListNotations.
Open Scope Z_scope.

(** ** The receiver of a binary message writes the text of the sender *)

(** No singular floating point field, of the message or of one in it, is a negative zero. *)
Definition no_minus_zero (sch : schema) (m : nat) (obj : list value) : Prop :=
  forall M O i, part sch m obj M O -> In i (md_order (msg_at sch M)) ->
    (f_ty (field_at sch M i) = FSing (ES TFloat) -> scalar_of (nth i O VNull) <> SNum (2 ^ 31)) /\
    (f_ty (field_at sch M i) = FSing (ES TDouble) -> scalar_of (nth i O VNull) <> SNum (2 ^ 63)).

Section Same.
  Variable sch : schema.
  Variable nm : names.
  Variable fm : formats.

  Lemma arrives_nth : forall fields fs rs, arrives_fields sch fields fs rs -> forall i, (i < length fields)%nat ->
    arrives_field sch (f_ty (nth i fields dummy_field)) (nth i fs VNull) (nth i rs VNull).
  Proof.
    induction fields as [| f fields IH]; intros fs rs A [| i] L; cbn [length] in L; try lia; inversion A; subst; cbn [nth]; auto. apply IH; [assumption | lia].
  Qed.

  Lemma json_scalar_blob en t a b : is_blob t = true -> blob_of a = blob_of b -> json_scalar fm en t a = json_scalar fm en t b.
  Proof. intros B E. destruct t; try discriminate B; cbn [json_scalar]; now rewrite E. Qed.

  Lemma json_single en t s : (t = TFloat -> s <> SNum (2 ^ 31)) -> (t = TDouble -> s <> SNum (2 ^ 63)) ->
    json_scalar fm en t (single_back t s) = json_scalar fm en t s.
  Proof.
    intros F D. unfold single_back. destruct t, s as [z | nl [| c bs]]; try reflexivity.
    - destruct (z =? 2 ^ 31) eqn:E; [| reflexivity]. apply Z.eqb_eq in E. subst z. now destruct (F eq_refl).
    - destruct (z =? 2 ^ 63) eqn:E; [| reflexivity]. apply Z.eqb_eq in E. subst z. now destruct (D eq_refl).
  Qed.

  Lemma json_element_back en t s : json_element fm en t (element_back s) = json_element fm en t s.
  Proof. destruct t, s; reflexivity. Qed.

  Lemma json_scalar_list_ext en t l l' : map (json_element fm en t) l = map (json_element fm en t) l' ->
    json_scalar_list fm en t l = json_scalar_list fm en t l'.
  Proof.
    intro H.
    assert (E : concat (map (fun v => json_element fm en t v ++ [44]) l) = concat (map (fun v => json_element fm en t v ++ [44]) l')).
    { assert (G : forall k, map (fun v => json_element fm en t v ++ [44]) k = map (fun x => x ++ [44]) (map (json_element fm en t) k))
        by (intro k; rewrite map_map; reflexivity). now rewrite !G, H. }
    assert (N : match l with [] => true | _ => false end = match l' with [] => true | _ => false end).
    { apply (f_equal (@length _)) in H. rewrite !map_length in H. destruct l, l'; cbn in H; (reflexivity || discriminate). }
    unfold json_scalar_list. destruct t; try reflexivity; cbv zeta; rewrite E; destruct l, l'; (reflexivity || discriminate N).
  Qed.

  Variable rec : nat -> list value -> res (list Z).

  Lemma json_field_same m i x y : 
    (forall m' v, f_ty (field_at sch m i) = FSing (EM m') -> arrives sch m' (object_of sch m' x) v -> rec m' (object_of sch m' x) = rec m' v) ->
    (forall m' fs v, f_ty (field_at sch m i) = FRep (EM m') -> In (VMsg fs) (list_of x) -> arrives sch m' fs v -> rec m' fs = rec m' v) ->
    (forall k m' kf fs v, f_ty (field_at sch m i) = FMap k (EM m') -> In (kf, VMsg fs) (map_of x) -> arrives sch m' fs v -> rec m' fs = rec m' v) ->
    (f_ty (field_at sch m i) = FSing (ES TFloat) -> scalar_of x <> SNum (2 ^ 31)) ->
    (f_ty (field_at sch m i) = FSing (ES TDouble) -> scalar_of x <> SNum (2 ^ 63)) ->
    arrives_field sch (f_ty (field_at sch m i)) x y -> json_field sch nm fm rec m i x = json_field sch nm fm rec m i y.
  Proof.
    intros R1 R2 R3 Zf Zd A. unfold json_field. destruct (f_ty (field_at sch m i)) as [[t | m'] | [t | m'] | k e].
    - inversion A; subst. cbn [json_value scalar_of] in *. f_equal. symmetry. apply json_single; intros ->; auto.
    - inversion A; subst; cbn [json_value]; apply (R1 m' r eq_refl); assumption.
    - inversion A; subst. cbn [list_of] in *. f_equal. apply json_scalar_list_ext.
      match goal with H : arrives_list _ _ _ _ |- _ => rename H into L end. clear A R2. remember (ES t) as e eqn:Et. induction L; try discriminate Et; [reflexivity |].
      injection Et as ->. cbn [map scalar_of]. rewrite json_element_back. f_equal. now apply IHL.
    - inversion A; subst. cbn [list_of] in *.
      match goal with H : arrives_list _ _ ?a ?b |- _ => rename H into L; assert (E : concat_res (map (json_list_object rec m') a) = concat_res (map (json_list_object rec m') b)); [| now rewrite E] end.
      assert (R2' : forall fs v, In (VMsg fs) l -> arrives sch m' fs v -> rec m' fs = rec m' v) by (intros fs v; now apply R2).
      clear A R2 R1 R3 Zf Zd. remember (EM m') as e eqn:Et. induction L; try discriminate Et; [reflexivity | |]; injection Et as ->; cbn [map concat_res json_list_object].
      + rewrite <- IHL; [now destruct (concat_res _) | reflexivity |]. intros fs v I. apply R2'. now right.
      + rewrite (R2' fs r (or_introl eq_refl) H). rewrite IHL; auto. intros fs' v I. apply R2'. now right.
    - inversion A; subst. cbn [map_of] in *.
      match goal with H : arrives_map _ _ ?a ?b |- _ => rename H into L;
        assert (E : concat_res (map (json_map_pair sch fm rec (n_enum nm m i) k e) a) = concat_res (map (json_map_pair sch fm rec (n_enum nm m i) k e) b)); [| now rewrite E] end.
      assert (R3' : forall m' kf fs v, e = EM m' -> In (kf, VMsg fs) l -> arrives sch m' fs v -> rec m' fs = rec m' v).
      { intros m'' kf fs v ->. apply (R3 k m'' kf). reflexivity. }
      clear A R2 R1 R3 Zf Zd. induction L; [reflexivity | | |]; cbn [map concat_res].
      + rewrite IHL; auto. intros m'' kf fs v Ee. discriminate Ee.
      + unfold json_map_pair at 1. cbn [snd]. rewrite <- IHL; [now destruct (concat_res _) |]. intros m'' kf fs v Ee I. apply (R3' m'' kf fs v Ee). now right.
      + unfold json_map_pair at 1 3. cbn [snd fst json_value]. rewrite (R3' m0 k0 fs r eq_refl (or_introl eq_refl) H). rewrite IHL; auto.
        intros m'' kf fs' v Ee I. apply (R3' m'' kf fs' v Ee). now right.
  Qed.
End Same.

Lemma arrives_same_text sch nm fm : schema_ok sch -> forall fuel m obj r, arrives sch m obj r -> no_minus_zero sch m obj ->
  json_object fuel sch nm fm m obj = json_object fuel sch nm fm m r.
Proof.
  intro S. induction fuel as [| fuel IH]; intros m obj r A N; [reflexivity |]. cbn [json_object].
  destruct (msg_at_ok sch m S) as (_ & _ & _ & Cov).
  assert (E : forall l, incl l (md_order (msg_at sch m)) ->
    concat_res (map (fun i => json_property sch nm fm (json_object fuel sch nm fm) m i (nth i obj VNull)) l)
    = concat_res (map (fun i => json_property sch nm fm (json_object fuel sch nm fm) m i (nth i r VNull)) l)).
  { induction l as [| i l IHl]; intro I; [reflexivity |]. cbn [map concat_res]. rewrite IHl by (intros j J; apply I; now right).
    assert (Ii : In i (md_order (msg_at sch m))) by (apply I; now left).
    replace (json_property sch nm fm (json_object fuel sch nm fm) m i (nth i obj VNull))
      with (json_property sch nm fm (json_object fuel sch nm fm) m i (nth i r VNull)); [reflexivity |].
    unfold json_property. f_equal. symmetry.
    inversion A as [m0 fs rs Af]; subst. pose proof (arrives_nth sch _ _ _ Af i (proj1 (Cov i) Ii)) as Ai. change (nth i (md_fields (msg_at sch m)) dummy_field) with (field_at sch m i) in Ai.
    destruct (N m obj i (part_self sch m obj) Ii) as [N1 N2].
    apply json_field_same; auto.
    - intros m' v Ty Av. apply IH; [exact Av |]. intros M O j P. apply N. exact (part_sing sch m obj i m' M O Ii Ty P).
    - intros m' fs v Ty Iv Av. apply IH; [exact Av |]. intros M O j P. apply N. exact (part_list sch m obj i m' fs M O Ii Ty Iv P).
    - intros k m' kf fs v Ty Iv Av. apply IH; [exact Av |]. intros M O j P. apply N.
      apply (part_map sch m obj i k m' (kf, VMsg fs) M O Ii Ty Iv); [discriminate | exact P]. }
  rewrite (E _ (incl_refl _)). reflexivity.
Qed.

(** ** What is the same has the same parts *)

Section Parts.
  Variable sch : schema.

  Lemma default_field_nulls v : is_default v = true -> no_nulls v.
  Proof. destruct v as [s | | fs | [| x l] | [| p l]]; cbn; auto; discriminate. Qed.

  Lemma defaults_nulls fs : forallb is_default fs = true -> no_nulls (VMsg fs).
  Proof.
    cbn [no_nulls]. induction fs as [| x fs IH]; cbn [forallb every]; auto. intro H. apply andb_prop in H. destruct H. split; [now apply default_field_nulls | auto].
  Qed.

  Lemma every_iff {A B} (P : A -> Prop) (Q : B -> Prop) f : forall l, (forall x, In x l -> (P x <-> Q (f x))) -> (every P l <-> every Q (map f l)).
  Proof.
    induction l as [| x l IH]; intro H; cbn [every map]; [tauto |]. rewrite (H x (or_introl eq_refl)), IH; [tauto |]. intros y Y. apply H. now right.
  Qed.

  Lemma canon_null e v : elem_ok sch e v -> (v = VNull <-> canon_elem sch e v = VNull).
  Proof. destruct e, v; cbn; try contradiction; intros _; split; intro H; try discriminate H; auto. Qed.

  Lemma canon_nulls : forall n e v, (vsize v <= n)%nat -> elem_ok sch e v -> (no_nulls v <-> no_nulls (canon_elem sch e v)).
  Proof.
    induction n as [| n IH]; intros e v L O; [destruct v; cbn in L; lia |].
    destruct e as [t | m]; destruct v as [s | | fs | l | l]; try contradiction; try (cbn; tauto).
    rewrite canon_elem_msg, canon_obj_spec. cbn [no_nulls]. apply (object_ok_spec sch m fs) in O. cbn [vsize] in L.
    assert (Ls : (list_sum (map vsize fs) <= n)%nat) by lia. clear L. revert Ls.
    induction O as [| f x fields fs Ox O IHo]; intro Ls; cbn [canon_fields every]; [tauto |]. cbn [map list_sum] in Ls.
    change (list_sum (vsize x :: map vsize fs)) with (vsize x + list_sum (map vsize fs))%nat in Ls. rewrite IHo by lia.
    assert (E : no_nulls x <-> no_nulls (canon_field sch (f_ty f) x)); [| tauto]. clear IHo O.
    destruct (f_ty f) as [e | e | k e]; cbn [canon_field val_ok] in *.
    - rewrite (IH e x) by (lia || assumption). destruct (canon_elem sch e x) as [s | | cs | l | l]; cbn [collapse]; try tauto.
      destruct (forallb is_default cs) eqn:D; [| tauto]. split; intro H; [exact I | now apply defaults_nulls].
    - destruct x as [| | | l |]; try contradiction. cbn [list_of no_nulls vsize] in *. apply every_iff. intros y Y. rewrite every_Forall, Forall_forall in Ox.
      assert (Ly : (vsize y <= list_sum (map vsize l))%nat) by (apply list_sum_in; now apply in_map).
      rewrite <- (IH e y) by (lia || now apply Ox). now rewrite (canon_null e y (Ox y Y)).
    - destruct x as [| | | | l]; try contradiction. cbn [map_of no_nulls vsize] in *. destruct Ox as [_ Ox]. apply every_iff. intros p Y.
      rewrite every_Forall, Forall_forall in Ox. destruct (Ox p Y) as [_ Op]. cbn [snd].
      assert (Ly : (vsize (snd p) <= list_sum (map (fun p => vsize (snd p)) l))%nat) by (apply list_sum_in; now apply (in_map (fun p => vsize (snd p)))).
      rewrite <- (IH e (snd p)) by (lia || assumption). now rewrite (canon_null e (snd p) Op).
  Qed.

  Lemma same_nulls m a b : object_ok sch m a -> object_ok sch m b -> same sch m a b -> no_nulls (VMsg b) -> no_nulls (VMsg a).
  Proof.
    intros Oa Ob E N. apply (canon_nulls _ (EM m) _ (le_n _) Oa). rewrite canon_elem_msg, E, <- canon_elem_msg.
    now apply (canon_nulls _ (EM m) _ (le_n _) Ob).
  Qed.

  Lemma same_at m a b i : object_ok sch m a -> object_ok sch m b -> same sch m a b -> (i < length (md_fields (msg_at sch m)))%nat ->
    canon_field sch (f_ty (field_at sch m i)) (nth i a VNull) = canon_field sch (f_ty (field_at sch m i)) (nth i b VNull).
  Proof.
    intros Oa Ob E L. unfold same in E. rewrite !canon_obj_spec in E. apply (f_equal (fun l => nth i l VNull)) in E.
    rewrite !canon_fields_nth in E; auto; now apply object_ok_length.
  Qed.

  Lemma map_eq_in {A B} (f : A -> B) : forall l l', map f l = map f l' -> forall x, In x l -> exists y, In y l' /\ f x = f y.
  Proof.
    induction l as [| a l IH]; intros [| b l'] E x []; try discriminate E; injection E as E1 E2; subst.
    - exists b. split; [now left | exact E1].
    - destruct (IH l' E2 x H) as (y & Y & Ey). exists y. split; [now right | exact Ey].
  Qed.

  Hypothesis Sch : schema_ok sch.

  Lemma part_same m a M A : part sch m a M A -> forall b, object_ok sch m a -> object_ok sch m b -> same sch m a b ->
    exists B, part sch m b M B /\ same sch M A B /\ object_ok sch M A /\ object_ok sch M B.
  Proof.
    induction 1 as [m a | m a i m' M A Ii Ty P IH | m a i m' sub M A Ii Ty Is P IH | m a i k m' kv M A Ii Ty Ik Nk P IH]; intros b Oa Ob E.
    - exists b. split; [constructor | auto].
    - assert (L : (i < length (md_fields (msg_at sch m)))%nat) by (destruct (msg_at_ok sch m Sch) as (_ & _ & _ & Cov); now apply Cov).
      pose proof (nth_ok sch m i a Oa L) as Va. pose proof (nth_ok sch m i b Ob L) as Vb. pose proof (same_at m a b i Oa Ob E L) as C. rewrite Ty in *. cbn [val_ok] in Va, Vb.
      destruct (IH (object_of sch m' (nth i b VNull))) as (B & Pb & Rest).
      + destruct (nth i a VNull); try contradiction; [apply default_ok | exact Va].
      + destruct (nth i b VNull); try contradiction; [apply default_ok | exact Vb].
      + apply (same_message sch m' _ _ Va Vb). exact C.
      + exists B. split; [exact (part_sing sch m b i m' M B Ii Ty Pb) | exact Rest].
    - assert (L : (i < length (md_fields (msg_at sch m)))%nat) by (destruct (msg_at_ok sch m Sch) as (_ & _ & _ & Cov); now apply Cov).
      pose proof (nth_ok sch m i a Oa L) as Va. pose proof (nth_ok sch m i b Ob L) as Vb. pose proof (same_at m a b i Oa Ob E L) as C. rewrite Ty in *. cbn [val_ok canon_field] in *.
      destruct (nth i a VNull) as [| | | la |]; try contradiction. destruct (nth i b VNull) as [| | | lb |] eqn:Eb; try contradiction. cbn [list_of] in *.
      assert (C' : map (canon_elem sch (EM m')) la = map (canon_elem sch (EM m')) lb) by congruence.
      destruct (map_eq_in _ _ _ C' _ Is) as (y & Iy & Ey). rewrite every_Forall, Forall_forall in Va, Vb. pose proof (Va _ Is) as Oa'. pose proof (Vb _ Iy) as Ob'.
      destruct y as [| | sub' | |]; try contradiction; [discriminate Ey |]. rewrite !canon_elem_msg in Ey.
      destruct (IH sub' Oa' Ob') as (B & Pb & Rest). { unfold same. congruence. }
      exists B. split; [| exact Rest]. apply (part_list sch m b i m' sub' M B Ii Ty); [now rewrite Eb | exact Pb].
    - assert (L : (i < length (md_fields (msg_at sch m)))%nat) by (destruct (msg_at_ok sch m Sch) as (_ & _ & _ & Cov); now apply Cov).
      pose proof (nth_ok sch m i a Oa L) as Va. pose proof (nth_ok sch m i b Ob L) as Vb. pose proof (same_at m a b i Oa Ob E L) as C. rewrite Ty in *. cbn [val_ok canon_field] in *.
      destruct (nth i a VNull) as [| | | | la]; try contradiction. destruct (nth i b VNull) as [| | | | lb] eqn:Eb; try contradiction. cbn [map_of] in *.
      assert (C' : map (fun p => (canon_scalar k (fst p), canon_elem sch (EM m') (snd p))) la = map (fun p => (canon_scalar k (fst p), canon_elem sch (EM m') (snd p))) lb) by congruence.
      destruct (map_eq_in _ _ _ C' _ Ik) as ([kb y] & Iy & Ey). destruct Va as [_ Va], Vb as [_ Vb]. rewrite every_Forall, Forall_forall in Va, Vb.
      destruct (Va _ Ik) as [_ Oa']. destruct (Vb _ Iy) as [_ Ob']. destruct kv as [ka x]. cbn [fst snd] in *.
      assert (Ey' : canon_elem sch (EM m') x = canon_elem sch (EM m') y) by congruence.
      destruct x as [| | sub | |]; try contradiction. destruct y as [| | sub' | |]; try contradiction; [discriminate Ey' |].
      rewrite !canon_elem_msg in Ey'. destruct (IH sub' Oa' Ob') as (B & Pb & Rest). { unfold same. cbn [object_of]. congruence. }
      exists B. split; [| exact Rest]. apply (part_map sch m b i k m' (kb, VMsg sub') M B Ii Ty); [now rewrite Eb | discriminate | exact Pb].
  Qed.

  Variable nm : names.
  Variable fm : formats.
  Variable ok_enum : list (list Z * Z) -> Z -> Prop.
  Variable ok_float : sty -> Z -> list Z -> Prop.

  (** The texts of the zeros meet the condition. *)
  Definition zeros_fine : Prop :=
    (forall x, x = 0 \/ x = 2 ^ 31 -> ok_float TFloat x (fmt_float fm x)) /\
    (forall x, x = 0 \/ x = 2 ^ 63 -> ok_float TDouble x (fmt_double fm x) /\ ok_float TDouble x (fmt_double6 fm x)).
  Hypothesis Z0 : zeros_fine.

  Lemma canon_num w z z' : 0 <= w -> in_u (w + 1) z -> (if z mod 2 ^ w =? 0 then 0 else z) = (if z' mod 2 ^ w =? 0 then 0 else z') ->
    z = z' \/ z = 0 \/ z = 2 ^ w.
  Proof.
    intros W U E. unfold in_u in U. rewrite Z.pow_add_r, Z.pow_1_r in U by lia. assert (P : 0 < 2 ^ w) by (apply Z.pow_pos_nonneg; lia).
    destruct (z mod 2 ^ w =? 0) eqn:D.
    - right. apply Z.eqb_eq in D. pose proof (Z.div_mod z (2 ^ w) ltac:(lia)) as Q. rewrite D in Q.
      assert (z / 2 ^ w < 2) by (apply Z.div_lt_upper_bound; lia). assert (0 <= z / 2 ^ w) by (apply Z.div_pos; lia).
      assert (z / 2 ^ w = 0 \/ z / 2 ^ w = 1) as [F | F] by lia; rewrite F in Q; lia.
    - destruct (z' mod 2 ^ w =? 0); [| now left]. subst z. rewrite Z.mod_0_l in D by lia. discriminate D.
  Qed.

  Lemma fine_float a b (P : Z -> Prop) t : is_float t = true -> (forall x, x = 0 \/ x = 2 ^ (match t with TFloat => 31 | _ => 63 end) -> P x) -> scalar_ok t a ->
    canon_scalar t a = canon_scalar t b -> P (num_of b) -> P (num_of a).
  Proof.
    intros T Pz O C H. destruct t; try discriminate T; destruct a as [z | nl bs]; try contradiction; cbn [canon_scalar is_blob num_of] in *.
    - assert (C' : (if z mod 2 ^ 31 =? 0 then 0 else z) = (if num_of b mod 2 ^ 31 =? 0 then 0 else num_of b)) by congruence.
      destruct (canon_num 31 z (num_of b) ltac:(lia) O C') as [E | E]; [now rewrite E | now apply Pz].
    - assert (C' : (if z mod 2 ^ 63 =? 0 then 0 else z) = (if num_of b mod 2 ^ 63 =? 0 then 0 else num_of b)) by congruence.
      destruct (canon_num 63 z (num_of b) ltac:(lia) O C') as [E | E]; [now rewrite E | now apply Pz].
  Qed.

  Lemma canon_blob t a b : is_blob t = true -> canon_scalar t a = canon_scalar t b -> blob_of a = blob_of b.
  Proof. unfold canon_scalar. intros -> E. congruence. Qed.

  Lemma canon_int t a b : is_blob t = false -> is_float t = false -> canon_scalar t a = canon_scalar t b -> num_of a = num_of b.
  Proof. unfold canon_scalar. intros -> F E. destruct t; try discriminate F; congruence. Qed.

  Lemma fine_scalar_same en t a b : scalar_ok t a -> canon_scalar t a = canon_scalar t b ->
    fine_scalar fm ok_enum ok_float en t b -> fine_scalar fm ok_enum ok_float en t a.
  Proof.
    intros O C F. destruct Z0 as [Zf Zd]. destruct t; cbn [fine_scalar] in *; auto.
    - apply (fine_float a b (fun x => ok_float TFloat x (fmt_float fm x)) TFloat); auto.
    - apply (fine_float a b (fun x => ok_float TDouble x (fmt_double fm x)) TDouble); auto. intros x X. now destruct (Zd x X).
    - rewrite (canon_int TEnum a b eq_refl eq_refl C). exact F.
    - rewrite (canon_blob TString a b eq_refl C). exact F.
    - rewrite (canon_blob TBytes a b eq_refl C). exact F.
  Qed.

  Lemma fine_element_same en t a b : scalar_ok t a -> canon_scalar t a = canon_scalar t b ->
    fine_element fm ok_enum ok_float en t b -> fine_element fm ok_enum ok_float en t a.
  Proof.
    intros O C F. destruct t; cbn [fine_element] in *; try exact (fine_scalar_same en _ a b O C F).
    apply (fine_float a b (fun x => ok_float TDouble x (fmt_double6 fm x)) TDouble); auto. intros x X. now destruct Z0 as [_ Zd]; destruct (Zd x X).
  Qed.

  Lemma fine_key_same k a b : canon_scalar k a = canon_scalar k b -> fine_key k b -> fine_key k a.
  Proof. intros C F. destruct k; cbn [fine_key] in *; auto. now rewrite (canon_blob TString a b eq_refl C). Qed.

  Lemma fine_object_same m a b : object_ok sch m a -> object_ok sch m b -> same sch m a b ->
    fine_object sch nm fm ok_enum ok_float m b -> fine_object sch nm fm ok_enum ok_float m a.
  Proof.
    intros Oa Ob E F i Ii. destruct (F i Ii) as [Fn Fi]. split; [exact Fn |].
    assert (L : (i < length (md_fields (msg_at sch m)))%nat) by (destruct (msg_at_ok sch m Sch) as (_ & _ & _ & Cov); now apply Cov).
    pose proof (nth_ok sch m i a Oa L) as Va. pose proof (nth_ok sch m i b Ob L) as Vb. pose proof (same_at m a b i Oa Ob E L) as C.
    unfold fine_field in *. destruct (f_ty (field_at sch m i)) as [[t | m'] | [t | m'] | k e]; cbn [val_ok canon_field] in *; auto.
    - destruct (nth i a VNull) as [sa | | | |]; try contradiction. rewrite !canon_elem_scalar in C. cbn [collapse scalar_of] in *.
      apply (fine_scalar_same _ t sa (scalar_of (nth i b VNull))); auto. congruence.
    - destruct Fi as [Nb Fi]. split; [exact Nb |].
      destruct (nth i a VNull) as [| | | la |]; try contradiction. destruct (nth i b VNull) as [| | | lb |]; try contradiction. cbn [list_of] in *.
      assert (C' : map (canon_elem sch (ES t)) la = map (canon_elem sch (ES t)) lb) by congruence.
      rewrite every_Forall, Forall_forall in Va. apply Forall_forall. intros x X. apply in_map_iff in X. destruct X as (v & <- & Iv).
      destruct (map_eq_in _ _ _ C' _ Iv) as (w & Iw & Ew). pose proof (Va v Iv) as Ov. rewrite !canon_elem_scalar in Ew.
      destruct v as [sv | | | |]; try contradiction. cbn [scalar_of] in *. rewrite Forall_forall in Fi.
      apply (fine_element_same _ t sv (scalar_of w)); [exact Ov | congruence | apply Fi, in_map, Iw].
    - destruct (nth i a VNull) as [| | | | la]; try contradiction. destruct (nth i b VNull) as [| | | | lb]; try contradiction. cbn [map_of] in *.
      assert (C' : map (fun p => (canon_scalar k (fst p), canon_elem sch e (snd p))) la = map (fun p => (canon_scalar k (fst p), canon_elem sch e (snd p))) lb) by congruence.
      destruct Va as [_ Va]. rewrite every_Forall, Forall_forall in Va. rewrite Forall_forall in *. intros p P.
      destruct (map_eq_in _ _ _ C' _ P) as (q & Iq & Eq). destruct (Fi q Iq) as [Fk Fv]. destruct (Va p P) as [_ Op].
      assert (Ek : canon_scalar k (fst p) = canon_scalar k (fst q)) by congruence.
      assert (Ev : canon_elem sch e (snd p) = canon_elem sch e (snd q)) by congruence.
      split; [now apply (fine_key_same k (fst p) (fst q)) |]. destruct e as [t | m']; [| exact I].
      rewrite !canon_elem_scalar in Ev. destruct (snd p) as [sv | | | |]; try contradiction. cbn [scalar_of elem_ok] in *.
      apply (fine_scalar_same _ t sv (scalar_of (snd q))); auto. congruence.
  Qed.

  Lemma fine_same m a b : object_ok sch m a -> object_ok sch m b -> same sch m a b ->
    fine sch nm fm ok_enum ok_float m b -> fine sch nm fm ok_enum ok_float m a.
  Proof.
    intros Oa Ob E F M A P. destruct (part_same m a M A P b Oa Ob E) as (B & Pb & Eb & OA & OB).
    exact (fine_object_same M A B OA OB Eb (F M B Pb)).
  Qed.

  Lemma nowhere_empty_same m a b : object_ok sch m a -> object_ok sch m b -> same sch m a b -> nowhere_empty sch m b -> nowhere_empty sch m a.
  Proof. intros Oa Ob E N M A P. destruct (part_same m a M A P b Oa Ob E) as (B & Pb & _). exact (N M B Pb). Qed.
End Parts.

(** Facts used by PropertiesMessage: what the records of one field contribute. *)

From Coq Require Import ZArith List Bool Lia ZifyBool Permutation.
From Verif Require Import Base WireModel Values MessageModel WireSpec WireProofs MessageSpec
  MessageProofs SerializeProofs ReaderProofs MessageFacts WireFacts RunFacts.
Import ListNotations.
Open Scope Z_scope.
Ltac Zify.zify_post_hook ::= Z.div_mod_to_equations.

Lemma concat_list_elements t l : Forall (scalar_ok t) l ->
  Zlen (concat (map (list_element t) l)) <= INT_MAX ->
  enc_elems (map (wv t) l) (concat (map (list_element t) l)).
Proof.
  induction l as [|s l IH]; intros F B; cbn [map concat]; [constructor|].
  inversion F; subst. cbn [map concat] in B.
  constructor; [apply list_element_enc; auto|apply IH; auto]; zlen_in B.
  - pose proof (Zlen_nonneg (concat (map (list_element t) l))). lia.
  - pose proof (Zlen_nonneg (list_element t s)). lia.
Qed.

Lemma packed_exact t l : is_blob t = false -> Forall (scalar_ok t) l -> forall fuel pre rest,
  let payload := prependLengthDelimitedSize (concat (map (list_element t) l)) in
  (length payload <= fuel)%nat -> Zlen (payload ++ rest) <= INT_MAX ->
  deserializeListNumeric fuel false t (pre ++ payload ++ rest)
    (it_at (pre ++ payload ++ rest) (Zlen pre))
  = Ok (l, it_at (pre ++ payload ++ rest) (Zlen (pre ++ payload))).
Proof.
  intros Bl F fuel pre rest payload Hf B. rewrite at_cur, at_cur2.
  assert (Bc : Zlen (concat (map (list_element t) l)) <= INT_MAX).
  { unfold payload, prependLengthDelimitedSize in B. rewrite <- app_assoc in B.
    apply Zlen_le_app in B. zlen_in B. pose proof (Zlen_nonneg rest). lia. }
  rewrite (packed_read false t (map (wv t) l)); auto.
  - f_equal. f_equal. rewrite map_map. rewrite <- (map_id l) at 2. apply map_ext_in.
    intros s Hs. rewrite Forall_forall in F. rewrite wv_mean by auto.
    specialize (F s Hs). destruct s; [reflexivity|]. destruct t; cbn in F, Bl; try contradiction; discriminate.
  - apply enc_packed with (content := concat (map (list_element t) l)).
    + now apply concat_list_elements.
    + now apply prepend_delimited.
  - apply Forall_forall. intros w Hw. apply in_map_iff in Hw. destruct Hw as (s & <- & Hs).
    apply wv_fits. rewrite Forall_forall in F. auto.
Qed.

Lemma groups_declared sch m g order r : (forall i, In i order -> (i < length (md_fields (msg_at sch m)))%nat) ->
  In r (groups sch m order g) ->
  exists i, (i < length (md_fields (msg_at sch m)))%nat /\ fst r = f_num (field_at sch m i).
Proof.
  intros Ho H. apply in_flat_map in H. destruct H as (i & Hi & H).
  apply in_map_iff in H. destruct H as (w & <- & _). exists i. auto.
Qed.

Lemma groups_empty sch m g order i r : (i < length (md_fields (msg_at sch m)))%nat ->
  schema_ok sch ->
  (forall j, In j order -> (j < length (md_fields (msg_at sch m)))%nat) -> g i = [] ->
  In r (groups sch m order g) -> fst r <> f_num (field_at sch m i).
Proof.
  intros Hi S Ho G H E. apply in_flat_map in H. destruct H as (j & Hj & H).
  apply in_map_iff in H. destruct H as (w & <- & Hw). cbn [fst] in E.
  assert (Eq : i = j).
  { pose proof (find_field_at sch m i S Hi) as F1. pose proof (find_field_at sch m j S (Ho j Hj)) as F2.
    rewrite E in F2. congruence. }
  subst j. rewrite G in Hw. contradiction.
Qed.

Lemma fits_wire sch m i r : schema_ok sch -> (i < length (md_fields (msg_at sch m)))%nat ->
  fst r = f_num (field_at sch m i) -> fits_record sch m r ->
  wtype (snd r) = prescribed_wire (f_ty (field_at sch m i)).
Proof.
  intros S Hi E F. unfold fits_record in F. rewrite E, find_field_at in F by assumption.
  unfold fits_field in F.
  destruct (f_ty (field_at sch m i)) as [[t|m']|[t|m']|k e]; destruct (snd r); try contradiction;
    try reflexivity; try (destruct t; cbn in *; try contradiction; reflexivity).
Qed.

(** ** Occurrences of a field *)

Section Occ.
  Variable sch : schema.
  Hypothesis S : schema_ok sch.

  Lemma mean_occ m i rs : (i < length (md_fields (msg_at sch m)))%nat ->
    nth i (mean sch m rs) VNull
    = fold_left (mean_field sch (f_ty (field_at sch m i))) (occurrences (f_num (field_at sch m i)) rs)
        (default_field (f_ty (field_at sch m i))).
  Proof. intro Hi. now apply mean_nth. Qed.

  Lemma fold_last_single e ws : ws <> [] -> forall old,
    fold_left (mean_field sch (FSing e)) ws old = mean_elem sch e (last ws (WVarint 0)).
  Proof.
    intros N old. rewrite (app_removelast_last (WVarint 0) N) at 1.
    rewrite fold_left_app. cbn [fold_left]. destruct e; reflexivity.
  Qed.

  Lemma fold_append e ws : (match e with ES t => is_blob t || is_enum t = true | EM _ => True end) ->
    Forall (fits_field sch (FRep e)) ws ->
    forall l, fold_left (mean_field sch (FRep e)) ws (VList l) = VList (l ++ flat_map (elements sch e) ws).
  Proof.
    intros He F. induction F as [|w ws Hw F IH]; intro l; cbn [fold_left flat_map];
      [now rewrite app_nil_r|].
    assert (X : mean_field sch (FRep e) (VList l) w = VList (l ++ elements sch e w)).
    { destruct e as [t|m]; [|destruct w; reflexivity].
      destruct w; cbn [mean_field list_of elements mean_elem]; try reflexivity.
      destruct (is_enum t) eqn:En; [reflexivity|].
      cbn [fits_field] in Hw. destruct t; try discriminate; contradiction. }
    rewrite X, IH, <- app_assoc. reflexivity.
  Qed.

  (** Packed numbers: the last record. *)
  Lemma fold_packed t ws : is_blob t = false -> is_enum t = false ->
    Forall (fits_field sch (FRep (ES t))) ws -> ws <> [] -> forall old,
    fold_left (mean_field sch (FRep (ES t))) ws old = VList (elements sch (ES t) (last ws (WVarint 0))).
  Proof.
    intros Bl En F N old. rewrite (app_removelast_last (WVarint 0) N) at 1.
    rewrite fold_left_app. cbn [fold_left].
    assert (Hl : fits_field sch (FRep (ES t)) (last ws (WVarint 0))).
    { rewrite (app_removelast_last (WVarint 0) N), Forall_app in F. destruct F as [_ F].
      now inversion F. }
    cbn [fits_field] in Hl. rewrite Bl in Hl.
    destruct (last ws (WVarint 0)); try contradiction. cbn [mean_field elements]. now rewrite En.
  Qed.

  Lemma last_cons_default {A} (x d : A) l : last (x :: l) d = last l x.
  Proof.
    revert x d. induction l as [|y l IH]; intros x d; [reflexivity|].
    change (last (x :: y :: l) d) with (last (y :: l) d). rewrite IH.
    destruct l; [reflexivity|]. rewrite !IH. reflexivity.
  Qed.

  Lemma entry_fold k e es : every (fits_entry sch k e) es -> forall kv,
    fold_left (mean_entry sch k e) es kv
    = (last (map (mean_scalar k) (occurrences 1 es)) (fst kv),
       last (map (mean_elem sch e) (occurrences 2 es)) (snd kv)).
  Proof.
    induction es as [|[n w] es IH]; intros F kv; [now destruct kv|].
    destruct F as [F1 F2]. cbn [fold_left]. rewrite IH by assumption.
    unfold mean_entry, occurrences. cbn [filter fst snd].
    destruct F1 as [[E _]|[E _]]; cbn [fst] in E; subst n; cbn [Z.eqb Pos.eqb fst snd map];
      now rewrite last_cons_default.
  Qed.

  Lemma entry_of_spec k e w old : fits_field sch (FMap k e) w ->
    mean_field sch (FMap k e) old w
    = VMap (map_insert k (fst (entry_of sch k e w)) (snd (entry_of sch k e w)) (map_of old)).
  Proof.
    intro F. destruct w; cbn [fits_field] in F; try contradiction. destruct F as [F _].
    cbn [mean_field]. rewrite entry_fold by assumption. reflexivity.
  Qed.

  Lemma fold_map k e ws : Forall (fits_field sch (FMap k e)) ws -> forall l,
    fold_left (mean_field sch (FMap k e)) ws (VMap l)
    = VMap (fold_left (fun l p => map_insert k (fst p) (snd p) l) (map (entry_of sch k e) ws) l).
  Proof.
    induction 1 as [|w ws Hw F IH]; intro l; cbn [fold_left map]; [reflexivity|].
    rewrite entry_of_spec by assumption. cbn [map_of]. apply IH.
  Qed.
End Occ.

(** ** Lookup in maps *)

Lemma list_eqb_eq a : forall b, list_eqb Z.eqb a b = true <-> a = b.
Proof.
  induction a as [|x a IH]; intros [|y b]; cbn [list_eqb]; split; intro H; try discriminate; auto.
  - apply andb_true_iff in H. destruct H as [H1 H2]. apply IH in H2. f_equal; [lia|auto].
  - injection H as -> ->. apply andb_true_iff. split; [lia|now apply IH].
Qed.

Lemma key_eqb_canon k a b : key_type k ->
  (scalar_eqb k a b = true <-> canon_scalar k a = canon_scalar k b).
Proof.
  intro K. destruct k; try contradiction; unfold scalar_eqb, canon_scalar; cbn [is_blob];
    try (split; [intro; f_equal; lia | intro H; injection H; lia]).
  rewrite list_eqb_eq. split; [now intros -> | now intro H; injection H].
Qed.

Lemma bytes_ltb_irrefl a : bytes_ltb a a = false.
Proof. induction a as [|x a IH]; [reflexivity|]. cbn [bytes_ltb]. rewrite IH. lia. Qed.

Lemma key_ltb_irrefl k a : key_ltb k a a = false.
Proof. unfold key_ltb. destruct (is_blob k); [apply bytes_ltb_irrefl | lia]. Qed.

Lemma same_key k a b : key_type k -> forall (A : Type) (x y : A),
  (if scalar_dec (canon_scalar k a) (canon_scalar k b) then x else y) = if scalar_eqb k a b then x else y.
Proof.
  intros K A x y. pose proof (key_eqb_canon k a b K) as H. destruct (scalar_dec _ _) as [E | E], (scalar_eqb k a b); try reflexivity; exfalso.
  - apply H in E. discriminate.
  - apply E, H. reflexivity.
Qed.

Lemma lookup_insert k key key' v l : key_type k ->
  lookup k key (map_insert k key' v l) = if scalar_eqb k key key' then Some v else lookup k key l.
Proof.
  intro K. induction l as [|[a w] l IH]; cbn [map_insert lookup]; [now rewrite same_key by exact K|].
  destruct (key_ltb k key' a) eqn:L1; cbn [lookup]; [now rewrite !same_key by exact K|].
  destruct (key_ltb k a key') eqn:L2; cbn [lookup]; rewrite !same_key by exact K.
  - rewrite IH. destruct (scalar_eqb k key a) eqn:E1, (scalar_eqb k key key') eqn:E2; auto.
    apply key_eqb_canon in E1, E2; try exact K.
    assert (C : canon_scalar k a = canon_scalar k key') by congruence.
    rewrite <- key_ltb_canon, C, key_ltb_irrefl in L2 by exact K. discriminate.
  - pose proof (key_tri k key' a K L1 L2) as C.
    assert (E : scalar_eqb k key a = scalar_eqb k key key').
    { apply eq_true_iff_eq. rewrite !key_eqb_canon by exact K. now rewrite C. }
    rewrite E. now destruct (scalar_eqb k key key').
Qed.

Lemma lookup_app k key a b :
  lookup k key (a ++ b) = match lookup k key a with Some v => Some v | None => lookup k key b end.
Proof.
  induction a as [|[x v] a IH]; [reflexivity|]. cbn [app lookup].
  now destruct (scalar_dec _ _).
Qed.

Lemma lookup_fold k key : key_type k -> forall es l,
  lookup k key (fold_left (fun l p => map_insert k (fst p) (snd p) l) es l)
  = match lookup k key (rev es) with Some v => Some v | None => lookup k key l end.
Proof.
  intro K. induction es as [|[a v] es IH]; intro l; [reflexivity|].
  cbn [fold_left rev fst snd]. rewrite IH, lookup_app, lookup_insert by exact K. cbn [lookup]. rewrite same_key by exact K.
  destruct (lookup k key (rev es)); [reflexivity|]. now destruct (scalar_eqb k key a).
Qed.

Lemma lookup_canon sch k e key a b : key_type k ->
  map (fun p => (canon_scalar k (fst p), canon_elem sch e (snd p))) a
  = map (fun p => (canon_scalar k (fst p), canon_elem sch e (snd p))) b ->
  option_map (canon_elem sch e) (lookup k key a) = option_map (canon_elem sch e) (lookup k key b).
Proof.
  intro K. revert b. induction a as [|[x v] a IH]; intros [|[y w] b] H; try discriminate; auto.
  cbn [map fst snd] in H. injection H as H1 H2 H3. cbn [lookup]. rewrite !same_key by exact K.
  assert (E : scalar_eqb k key x = scalar_eqb k key y).
  { apply eq_true_iff_eq. rewrite !key_eqb_canon by exact K. now rewrite H1. }
  rewrite E. destruct (scalar_eqb k key y); [cbn; now f_equal | now apply IH].
Qed.

(** ** Records *)

Lemma enc_recs_inv_app rs1 rs2 bs : enc_recs (rs1 ++ rs2) bs ->
  exists b1 b2, bs = b1 ++ b2 /\ enc_recs rs1 b1 /\ enc_recs rs2 b2.
Proof.
  revert bs. induction rs1 as [|[n w] rs1 IH]; intros bs H; cbn [app] in H.
  - exists [], bs. split; [reflexivity|]. split; [constructor|exact H].
  - inversion H as [| ? ? ? tag pl rest N T V E]; subst. destruct (IH rest E) as (b1 & b2 & -> & E1 & E2).
    exists (tag ++ pl ++ b1), b2. split; [now rewrite <- !app_assoc|]. split; [|exact E2].
    now constructor.
Qed.

Lemma fits_app sch m rs1 rs2 : fits sch m (rs1 ++ rs2) <-> fits sch m rs1 /\ fits sch m rs2.
Proof. rewrite !fits_spec. apply Forall_app. Qed.

Lemma no_field_none sch m num : no_field sch m num -> find_field (msg_at sch m) num = None.
Proof.
  intro N. destruct (find_field (msg_at sch m) num) as [i|] eqn:E; [|reflexivity]. apply find_field_range in E. destruct E as [L E].
  unfold no_field in N. rewrite Forall_forall in N. elim (N _ (nth_In _ dummy_field L) E).
Qed.
Lemma field_is_some sch m num i : schema_ok sch -> field_is sch m num i -> find_field (msg_at sch m) num = Some i.
Proof.
  intros S (f & E & <-). rewrite <- (find_field_at sch m i S) by (apply nth_error_Some; rewrite E; discriminate).
  unfold field_at. now rewrite (nth_error_nth _ _ _ E).
Qed.

Lemma filter_app_unknown sch m i rs1 u rs2 : schema_ok sch ->
  (i < length (md_fields (msg_at sch m)))%nat ->
  Forall (fun r => find_field (msg_at sch m) (fst r) = None) u ->
  filter (fun r : Z * wval => fst r =? f_num (field_at sch m i)) (rs1 ++ u ++ rs2)
  = filter (fun r => fst r =? f_num (field_at sch m i)) (rs1 ++ rs2).
Proof.
  intros S Hi U. rewrite !filter_app. f_equal.
  assert (E : filter (fun r : Z * wval => fst r =? f_num (field_at sch m i)) u = []).
  { induction U as [|r u Hr U IH]; [reflexivity|]. cbn [filter].
    destruct (Z.eqb_spec (fst r) (f_num (field_at sch m i))) as [E|]; [|exact IH].
    rewrite E, find_field_at in Hr by assumption. discriminate. }
  now rewrite E.
Qed.

Lemma fits_occurrences sch m i rs : schema_ok sch -> (i < length (md_fields (msg_at sch m)))%nat ->
  fits sch m rs ->
  Forall (fits_field sch (f_ty (field_at sch m i))) (occurrences (f_num (field_at sch m i)) rs).
Proof.
  intros S Hi F. apply fits_spec in F. unfold occurrences. apply Forall_forall. intros w Hw.
  apply in_map_iff in Hw. destruct Hw as (r & <- & Hr). apply filter_In in Hr. destruct Hr as [Hr E].
  rewrite Forall_forall in F. specialize (F r Hr). unfold fits_record in F.
  apply Z.eqb_eq in E. now rewrite E, find_field_at in F by assumption.
Qed.

(** Each member of a well-typed object has its type. *)
Lemma object_ok_field sch m obj i : object_ok sch m obj -> (i < length (md_fields (msg_at sch m)))%nat ->
  val_ok sch (f_ty (field_at sch m i)) (nth i obj VNull).
Proof.
  intros O. apply object_ok_spec in O. unfold field_at. revert i.
  induction O as [|f x fs xs H O IH]; intros i Hi; cbn [length] in Hi; [lia|].
  destruct i as [|i]; cbn [nth]; [exact H|]. apply IH. lia.
Qed.

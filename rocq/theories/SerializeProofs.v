(** The serializer writes well-formed records that mean the serialized value. *)

From Coq Require Import ZArith List Bool Lia ZifyBool.
From Verif Require Import Base WireModel Values MessageModel WireSpec MessageSpec WireProofs MessageProofs.
Import ListNotations.
Open Scope Z_scope.
Ltac Zify.zify_post_hook ::= Z.div_mod_to_equations.

(** ** Scalars *)

(** The payload written for a scalar. *)
Definition wv (t : sty) (s : scalar) : wval :=
  match t with
  | TInt32 => WVarint (num_of s mod 2 ^ 32)
  | TInt64 | TEnum => WVarint (num_of s mod 2 ^ 64)
  | TUInt32 | TUInt64 | TBool => WVarint (num_of s)
  | TSInt32 | TSInt64 => WVarint (zigzag (num_of s))
  | TFixed32 | TSFixed32 | TFloat => WFix32 (num_of s mod 2 ^ 32)
  | TFixed64 | TSFixed64 | TDouble => WFix64 (num_of s mod 2 ^ 64)
  | TString | TBytes => WBytes (blob_of s)
  end.

Definition omitted (t : sty) (s : scalar) : bool :=
  match t with
  | TFixed32 | TSFixed32 | TFloat | TFixed64 | TSFixed64 | TDouble => false
  | TString | TBytes => match s with SStr null _ => null | SNum _ => false end
  | _ => num_of s =? 0
  end.

Lemma wv_fits t s : scalar_ok t s -> fits_scalar t (wv t s).
Proof. destruct t, s; cbn; intro H; auto; lia. Qed.

Lemma wv_wtype t s : wtype (wv t s) = wire_of t.
Proof. destruct t; reflexivity. Qed.

Lemma varint_element v idx : in_u 64 v ->
  match fst (serializeUnsigned v idx) with [] => [0] | e => e end = serializeVarintCommon v.
Proof.
  intro H. destruct (Z.eq_dec v 0) as [->|NZ].
  - reflexivity.
  - rewrite serializeUnsigned_nz by assumption. cbn [fst].
    pose proof (serializeVarint_varint v H) as V.
    destruct (serializeVarintCommon v); [apply is_varint_nonnil in V; congruence | reflexivity].
Qed.

Lemma in_u_mono a b v : 0 <= a <= b -> in_u a v -> in_u b v.
Proof.
  unfold in_u. intros H [H1 H2]. split; [exact H1|].
  eapply Z.lt_le_trans; [exact H2|]. apply Z.pow_le_mono_r; lia.
Qed.

Lemma mod_in_u w v : 0 <= w -> in_u w (v mod 2 ^ w).
Proof. intro H. unfold in_u. apply Z.mod_pos_bound. apply Z.pow_pos_nonneg; lia. Qed.

Lemma bytes_is_byte l : bytes l -> Forall is_byte l.
Proof. auto. Qed.

Lemma list_element_enc t s : scalar_ok t s -> Zlen (list_element t s) <= INT_MAX ->
  enc_val (wv t s) (list_element t s).
Proof.
  intros H B.
  assert (U : forall v, in_u 64 v -> enc_val (WVarint v) (serializeVarintCommon v)).
  { intros v Hv. constructor; [exact Hv | now apply serializeVarint_wire]. }
  destruct t, s; cbn [scalar_ok] in H; try contradiction;
    unfold list_element, serializeBasic in *; cbn [num_of blob_of wv] in *;
    unfold serializeInt, serializeZigZag in *.
  - rewrite varint_element by (apply (in_u_mono 32); [lia | now apply wrapU_range]).
    apply U. apply (in_u_mono 32); [lia | now apply mod_in_u].
  - rewrite varint_element by (now apply wrapU_range).
    apply U. now apply mod_in_u.
  - rewrite varint_element by (apply (in_u_mono 32); [lia | exact H]).
    apply U. apply (in_u_mono 32); [lia | exact H].
  - rewrite varint_element by exact H. now apply U.
  - rewrite (zigzag_model 32) by (try exact H; lia).
    assert (in_u 64 (zigzag z)).
    { apply (in_u_mono 32); [lia | apply zigzag_range; [lia | exact H]]. }
    rewrite varint_element by assumption. now apply U.
  - rewrite (zigzag_model 64) by (try exact H; lia).
    assert (in_u 64 (zigzag z)) by (apply zigzag_range; [lia | exact H]).
    rewrite varint_element by assumption. now apply U.
  - constructor. apply (le_bytes_is_le 4).
  - constructor. apply (le_bytes_is_le 8).
  - constructor. apply (le_bytes_is_le 4).
  - constructor. apply (le_bytes_is_le 8).
  - constructor. apply (le_bytes_is_le 4).
  - constructor. apply (le_bytes_is_le 8).
  - assert (in_u 64 z) by (unfold in_u; lia).
    rewrite varint_element by assumption. now apply U.
  - rewrite varint_element by (now apply wrapU_range).
    apply U. now apply mod_in_u.
  - destruct H as [H _].
    assert (P : match serializeLengthDelimited bs with [] => [0] | e => e end
                = prependLengthDelimitedSize bs).
    { unfold serializeLengthDelimited, prependLengthDelimitedSize.
      pose proof (serializeVarint_varint (wrapU 32 (Zlen bs))
                    ltac:(apply (in_u_mono 32); [lia | now apply wrapU_range])) as V.
      destruct (serializeVarintCommon (wrapU 32 (Zlen bs)));
        [apply is_varint_nonnil in V; congruence | reflexivity]. }
    cbn [fst] in *. rewrite P in *.
    constructor; [exact H|]. apply prepend_delimited.
    unfold prependLengthDelimitedSize in B. rewrite Zlen_app in B.
    pose proof (Zlen_nonneg (serializeVarintCommon (wrapU 32 (Zlen bs)))). lia.
  - destruct H as [H _].
    assert (P : match serializeLengthDelimited bs with [] => [0] | e => e end
                = prependLengthDelimitedSize bs).
    { unfold serializeLengthDelimited, prependLengthDelimitedSize.
      pose proof (serializeVarint_varint (wrapU 32 (Zlen bs))
                    ltac:(apply (in_u_mono 32); [lia | now apply wrapU_range])) as V.
      destruct (serializeVarintCommon (wrapU 32 (Zlen bs)));
        [apply is_varint_nonnil in V; congruence | reflexivity]. }
    cbn [fst] in *. rewrite P in *.
    constructor; [exact H|]. apply prepend_delimited.
    unfold prependLengthDelimitedSize in B. rewrite Zlen_app in B.
    pose proof (Zlen_nonneg (serializeVarintCommon (wrapU 32 (Zlen bs)))). lia.
Qed.

Lemma twos_mod w z : 0 < w -> in_s w z -> twos w (z mod 2 ^ w) = z.
Proof.
  intros Hw H. change (twos w (z mod 2 ^ w)) with (toS w (wrapU w z)).
  rewrite toS_wrap by lia. now apply toS_small.
Qed.

Lemma twos_32_64 z : in_s 32 z -> twos 32 (z mod 2 ^ 64) = z.
Proof.
  intros H. unfold twos. cbv zeta. rewrite mod64_32.
  change (toS 32 z = z). apply toS_small; [lia | exact H].
Qed.

Lemma unzz_zigzag z : unzigzag (zigzag z) = z.
Proof.
  unfold unzigzag, zigzag. destruct (z <? 0) eqn:E.
  - replace ((-2 * z - 1) mod 2 =? 0) with false by lia. lia.
  - replace ((2 * z) mod 2 =? 0) with true by lia. lia.
Qed.

Definition clear_null (s : scalar) : scalar :=
  match s with SStr _ bs => SStr false bs | _ => s end.

Lemma wv_mean t s : scalar_ok t s -> mean_scalar t (wv t s) = clear_null s.
Proof.
  intro H. destruct t, s; cbn [scalar_ok] in H; try contradiction;
    unfold mean_scalar, wv; cbn [payload_num payload_bytes num_of blob_of clear_null].
  - now rewrite twos_mod by (try exact H; lia).
  - now rewrite twos_mod by (try exact H; lia).
  - unfold in_u in H. now rewrite Z.mod_small.
  - reflexivity.
  - assert (R : in_u 32 (zigzag z)) by (apply zigzag_range; [lia | exact H]).
    unfold in_u in R. rewrite Z.mod_small by lia. now rewrite unzz_zigzag.
  - now rewrite unzz_zigzag.
  - unfold in_u in H. now rewrite Z.mod_small.
  - unfold in_u in H. now rewrite Z.mod_small.
  - now rewrite twos_mod by (try exact H; lia).
  - now rewrite twos_mod by (try exact H; lia).
  - unfold in_u in H. now rewrite Z.mod_small.
  - unfold in_u in H. now rewrite Z.mod_small.
  - destruct H as [-> | ->]; reflexivity.
  - now rewrite twos_32_64.
  - reflexivity.
  - reflexivity.
Qed.

Lemma clear_null_canon t s : canon_scalar t (clear_null s) = canon_scalar t s.
Proof. destruct s; reflexivity. Qed.

Lemma omitted_default t s : scalar_ok t s -> omitted t s = true ->
  canon_scalar t s = canon_scalar t (default_scalar t).
Proof.
  intros H O. destruct t, s; cbn [scalar_ok omitted num_of] in *; try contradiction; try discriminate;
    unfold canon_scalar; cbn [is_blob num_of blob_of default_scalar]; f_equal;
    try lia; destruct H as [_ H]; now apply H.
Qed.

Lemma fn_not_unused num : field_number num -> (num =? NotUsedFieldIndex) = false.
Proof. unfold field_number, NotUsedFieldIndex. lia. Qed.

Lemma serializeScalar_cases t s num : scalar_ok t s -> field_number num ->
  serializeScalar t s num
  = if omitted t s then [] else encodeHeader num (wtype (wv t s)) ++ list_element t s.
Proof.
  intros H N. rewrite wv_wtype.
  assert (UN : forall v, in_u 64 v ->
    with_header num WVarintT (serializeUnsigned v num)
    = if v =? 0 then [] else encodeHeader num WVarintT
        ++ match fst (serializeUnsigned v NotUsedFieldIndex) with [] => [0] | e => e end).
  { intros v Hv. rewrite varint_element by exact Hv. unfold with_header.
    destruct (v =? 0) eqn:E.
    - assert (v = 0) as -> by lia. reflexivity.
    - rewrite serializeUnsigned_nz by (try exact Hv; lia). cbn [fst snd].
      now rewrite fn_not_unused. }
  assert (M32 : forall z, in_s 32 z -> (wrapU 32 z =? 0) = (z =? 0)).
  { intros z Hz. unfold in_s in Hz. unfold wrapU. lia. }
  assert (M64 : forall z, in_s 64 z -> (wrapU 64 z =? 0) = (z =? 0)).
  { intros z Hz. unfold in_s in Hz. unfold wrapU. lia. }
  assert (MZ : forall z, (zigzag z =? 0) = (z =? 0)).
  { intro z. unfold zigzag. destruct (z <? 0) eqn:E; lia. }
  unfold serializeScalar, list_element.
  destruct t, s; cbn [scalar_ok] in H; try contradiction;
    cbn [is_enum wire_of omitted num_of]; unfold serializeWrapper; cbn [variant_isNull serializeBasic num_of];
    unfold serializeInt, serializeZigZag.
  - rewrite UN, M32; auto. apply (in_u_mono 32); [lia | now apply wrapU_range].
  - rewrite UN, M64; auto. now apply wrapU_range.
  - rewrite UN; auto. apply (in_u_mono 32); [lia | exact H].
  - rewrite UN; auto.
  - rewrite (zigzag_model 32) by (try exact H; lia). rewrite UN, MZ; auto.
    apply (in_u_mono 32); [lia | apply zigzag_range; [lia | exact H]].
  - rewrite (zigzag_model 64) by (try exact H; lia). rewrite UN, MZ; auto.
    apply zigzag_range; [lia | exact H].
  - unfold with_header, serializeFixed. cbn [snd fst]. rewrite fn_not_unused by exact N. reflexivity.
  - unfold with_header, serializeFixed. cbn [snd fst]. rewrite fn_not_unused by exact N. reflexivity.
  - unfold with_header, serializeFixed. cbn [snd fst]. rewrite fn_not_unused by exact N. reflexivity.
  - unfold with_header, serializeFixed. cbn [snd fst]. rewrite fn_not_unused by exact N. reflexivity.
  - unfold with_header, serializeFixed. cbn [snd fst]. rewrite fn_not_unused by exact N. reflexivity.
  - unfold with_header, serializeFixed. cbn [snd fst]. rewrite fn_not_unused by exact N. reflexivity.
  - rewrite UN; auto. unfold in_u. lia.
  - rewrite UN, M64; auto; [| now apply wrapU_range].
    unfold in_s in *. lia.
  - destruct null; [reflexivity|].
    unfold with_header. cbn [snd fst blob_of]. rewrite fn_not_unused by exact N.
    f_equal. unfold serializeLengthDelimited, prependLengthDelimitedSize.
    pose proof (serializeVarint_varint (wrapU 32 (Zlen bs))
                  ltac:(apply (in_u_mono 32); [lia | now apply wrapU_range])) as V.
    destruct (serializeVarintCommon (wrapU 32 (Zlen bs)));
      [apply is_varint_nonnil in V; congruence | reflexivity].
  - destruct null; [reflexivity|].
    unfold with_header. cbn [snd fst blob_of]. rewrite fn_not_unused by exact N.
    f_equal. unfold serializeLengthDelimited, prependLengthDelimitedSize.
    pose proof (serializeVarint_varint (wrapU 32 (Zlen bs))
                  ltac:(apply (in_u_mono 32); [lia | now apply wrapU_range])) as V.
    destruct (serializeVarintCommon (wrapU 32 (Zlen bs)));
      [apply is_varint_nonnil in V; congruence | reflexivity].
Qed.

Lemma enc_recs_app rs1 b1 : enc_recs rs1 b1 -> forall rs2 b2, enc_recs rs2 b2 ->
  enc_recs (rs1 ++ rs2) (b1 ++ b2).
Proof.
  revert b1. induction rs1 as [|r rs1 IH]; intros b1 E1 rs2 b2 E2; inversion E1; subst; cbn [app].
  - exact E2.
  - rewrite <- !app_assoc. constructor; auto.
Qed.

Lemma wtype_range w : 0 <= wtype w < 8.
Proof. destruct w; simpl; lia. Qed.

Lemma enc_one num w bs : field_number num -> enc_val w bs ->
  enc_recs [(num, w)] (encodeHeader num (wtype w) ++ bs).
Proof.
  intros N E. rewrite <- (app_nil_r bs). constructor; auto; [|constructor].
  apply encodeHeader_tag; auto using wtype_range.
Qed.

Lemma serializeScalar_enc t s num : scalar_ok t s -> field_number num ->
  Zlen (serializeScalar t s num) <= INT_MAX ->
  enc_recs (if omitted t s then [] else [(num, wv t s)]) (serializeScalar t s num).
Proof.
  intros H N B. rewrite serializeScalar_cases in * by assumption.
  destruct (omitted t s); [constructor|].
  apply enc_one; [exact N|]. apply list_element_enc; [exact H|].
  rewrite Zlen_app in B. pose proof (Zlen_nonneg (encodeHeader num (wtype (wv t s)))). lia.
Qed.

(** ** Typed objects *)

Section Typed.
  Variable sch : schema.

  Definition val_ok (ty : fty) (x : value) : Prop :=
    match ty, x with
    | FSing e', _ => elem_ok sch e' x
    | FRep e', VList l => every (elem_ok sch e') l
    | FMap k e', VMap l =>
        keys_sorted k l /\ every (fun p => scalar_ok k (fst p) /\ elem_ok sch e' (snd p)) l
    | _, _ => False
    end.

  Lemma object_ok_spec m fs :
    object_ok sch m fs <-> Forall2 (fun f x => val_ok (f_ty f) x) (md_fields (msg_at sch m)) fs.
  Proof.
    unfold object_ok. cbn [elem_ok]. generalize (md_fields (msg_at sch m)) as fields.
    intro fields. revert fs. induction fields as [|f fields IH]; intros [|x fs]; split; intro H;
      try contradiction; try (now inversion H); auto.
    - destruct H as [H1 H2]. apply IH in H2. constructor; [|exact H2].
      unfold val_ok. destruct (f_ty f); destruct x; auto.
    - inversion H; subst. split; [|now apply IH].
      match goal with H : val_ok _ _ |- _ => unfold val_ok in H end.
      destruct (f_ty f); destruct x; auto.
  Qed.

  Lemma default_scalar_ok t : scalar_ok t (default_scalar t).
  Proof.
    destruct t; cbn; unfold in_s, in_u; try lia; split; auto; constructor.
  Qed.

  Lemma default_ok m : object_ok sch m (default_obj sch m).
  Proof.
    apply object_ok_spec. unfold default_obj.
    induction (md_fields (msg_at sch m)) as [|f l IH]; [constructor|].
    cbn [map]. constructor; [|exact IH].
    destruct (f_ty f) as [[t|m']|e|k e]; cbn; auto using default_scalar_ok.
  Qed.

  Lemma default_drop m : map drop_nulls (default_obj sch m) = default_obj sch m.
  Proof.
    unfold default_obj. rewrite map_map. apply map_ext. intro f.
    destruct (f_ty f) as [[t|m']|e|k e]; reflexivity.
  Qed.

  Lemma canon_default_field ty : is_default (canon_field sch ty (default_field ty)) = true.
  Proof.
    destruct ty as [[t|m]|e|k e]; cbn; auto.
    destruct t; reflexivity.
  Qed.

  Lemma canon_default m : forallb is_default (canon_obj sch m (default_obj sch m)) = true.
  Proof.
    rewrite canon_obj_spec. unfold default_obj.
    induction (md_fields (msg_at sch m)) as [|f l IH]; [reflexivity|].
    cbn [map canon_fields forallb]. now rewrite canon_default_field, IH.
  Qed.
End Typed.

(** ** Groups of records of one field *)

Section Groups.
  Variable sch : schema.
  Variable m : nat.

  Lemma update_same i l : update i (nth i l VNull) l = l.
  Proof. revert i. induction l; intros [|i]; simpl; auto. now rewrite IHl. Qed.

  Lemma update_update i a b l : update i a (update i b l) = update i a l.
  Proof. revert i. induction l; intros [|i]; simpl; auto. now rewrite IHl. Qed.

  Lemma nth_update_eq i v l : (i < length l)%nat -> nth i (update i v l) VNull = v.
  Proof. revert i. induction l; intros [|i] H; simpl in *; try lia; auto. apply IHl. lia. Qed.

  Lemma nth_update_neq i j v l : i <> j -> nth j (update i v l) VNull = nth j l VNull.
  Proof. revert i j. induction l; intros [|i] [|j] H; simpl; auto; congruence. Qed.

  Lemma fold_group i num ws : find_field (msg_at sch m) num = Some i -> forall obj,
    (i < length obj)%nat ->
    fold_left (mean_record sch m) (map (pair num) ws) obj
    = update i (fold_left (mean_field sch (f_ty (field_at sch m i))) ws (nth i obj VNull)) obj.
  Proof.
    intro Fi. induction ws as [|w ws IH]; intros obj Hi; cbn [map fold_left].
    - now rewrite update_same.
    - rewrite IH.
      + unfold mean_record. cbn [fst snd]. rewrite Fi.
        rewrite nth_update_eq by exact Hi. now rewrite update_update.
      + unfold mean_record. cbn [fst]. rewrite Fi. now rewrite update_length.
  Qed.

  Lemma find_from_nth fs : forall k i, NoDup (map f_num fs) -> (i < length fs)%nat ->
    find_from k fs (f_num (nth i fs dummy_field)) = Some (k + i)%nat.
  Proof.
    induction fs as [|f fs IH]; intros k i ND Hi; simpl in Hi; [lia|].
    inversion ND; subst. destruct i as [|i]; cbn [nth find_from].
    - rewrite Z.eqb_refl. f_equal. lia.
    - destruct (f_num f =? f_num (nth i fs dummy_field)) eqn:E.
      + exfalso. match goal with H : ~ In _ _ |- _ => apply H end.
        replace (f_num f) with (f_num (nth i fs dummy_field)) by lia.
        apply in_map. apply nth_In. lia.
      + rewrite IH by (auto; lia). f_equal. lia.
  Qed.

  Lemma find_field_at i : schema_ok sch -> (i < length (md_fields (msg_at sch m)))%nat ->
    find_field (msg_at sch m) (f_num (field_at sch m i)) = Some i.
  Proof.
    intros S Hi. unfold find_field, field_at.
    rewrite find_from_nth; auto. apply (msg_at_ok sch m S).
  Qed.

  (** Records of the fields in [order]; [g i] are the payloads of field [i]. *)
  Definition groups (order : list nat) (g : nat -> list wval) : list (Z * wval) :=
    flat_map (fun i => map (pair (f_num (field_at sch m i))) (g i)) order.

  Lemma fold_groups g : schema_ok sch -> forall order obj, NoDup order ->
    length obj = length (md_fields (msg_at sch m)) ->
    (forall i, In i order -> (i < length (md_fields (msg_at sch m)))%nat) ->
    let r := fold_left (mean_record sch m) (groups order g) obj in
    length r = length obj /\
    (forall i, ~ In i order -> nth i r VNull = nth i obj VNull) /\
    (forall i, In i order ->
       nth i r VNull = fold_left (mean_field sch (f_ty (field_at sch m i))) (g i) (nth i obj VNull)).
  Proof.
    intro S. induction order as [|i order IH]; intros obj ND L Hin r.
    - cbn. repeat split; auto; contradiction.
    - subst r. cbn [groups flat_map]. rewrite fold_left_app.
      assert (Hi : (i < length (md_fields (msg_at sch m)))%nat) by (apply Hin; now left).
      rewrite (fold_group i _ (g i) (find_field_at i S Hi)) by lia.
      inversion ND; subst.
      destruct (IH (update i (fold_left (mean_field sch (f_ty (field_at sch m i))) (g i)
                     (nth i obj VNull)) obj)) as (A & B & C); auto.
      { now rewrite update_length. }
      { intros j Hj. apply Hin. now right. }
      cbv zeta in *. fold (groups order g). rewrite A, update_length.
      split; [reflexivity|]. split.
      + intros j Hj. rewrite B by (intro; apply Hj; now right).
        apply nth_update_neq. intro; subst; apply Hj; now left.
      + intros j [<- | Hj].
        * rewrite B by assumption. apply nth_update_eq. lia.
        * rewrite C by assumption. rewrite nth_update_neq; [reflexivity|].
          intro; subst; contradiction.
  Qed.
End Groups.

(** ** Fields *)

Lemma concat_res_cons r l bs : concat_res (r :: l) = Ok bs ->
  exists a b, r = Ok a /\ concat_res l = Ok b /\ bs = a ++ b.
Proof.
  cbn [concat_res]. destruct r as [a| | |]; cbn [bind]; try discriminate.
  destruct (concat_res l) as [b| | |]; cbn [bind]; try discriminate.
  intro H. injection H as <-. eauto.
Qed.

Lemma enc_elems_write t l : Forall (scalar_ok t) l ->
  Zlen (concat (map (list_element t) l)) <= INT_MAX ->
  enc_elems (map (wv t) l) (concat (map (list_element t) l)).
Proof.
  induction 1 as [|s l Hs H IH]; intro B; cbn [map concat] in *; constructor.
  - apply list_element_enc; [exact Hs|]. rewrite Zlen_app in B.
    pose proof (Zlen_nonneg (concat (map (list_element t) l))). lia.
  - apply IH. rewrite Zlen_app in B. pose proof (Zlen_nonneg (list_element t s)). lia.
Qed.

Lemma prepend_enc_bound c : Zlen (prependLengthDelimitedSize c) <= INT_MAX -> Zlen c <= INT_MAX.
Proof.
  unfold prependLengthDelimitedSize. rewrite Zlen_app. intro.
  pose proof (Zlen_nonneg (serializeVarintCommon (wrapU 32 (Zlen c)))). lia.
Qed.

Lemma app_bound (a b : list Z) : Zlen (a ++ b) <= INT_MAX -> Zlen a <= INT_MAX /\ Zlen b <= INT_MAX.
Proof. rewrite Zlen_app. pose proof (Zlen_nonneg a). pose proof (Zlen_nonneg b). lia. Qed.

Lemma bytes_ltb_asym : forall a b, bytes_ltb a b = true -> bytes_ltb b a = false.
Proof.
  induction a as [|x a IH]; intros [|y b] H; simpl in *; try discriminate; auto.
  apply orb_prop in H. destruct H as [H | H].
  - replace (y <? x) with false by lia. replace (y =? x) with false by lia. reflexivity.
  - apply andb_prop in H. destruct H as [H1 H2]. apply IH in H2.
    replace (y <? x) with false by lia. rewrite H2. now rewrite andb_false_r.
Qed.

Lemma key_asym t a b : key_ltb t a b = true -> key_ltb t b a = false.
Proof.
  unfold key_ltb. destruct (is_blob t); [apply bytes_ltb_asym | lia].
Qed.

Lemma map_insert_last t k v acc :
  Forall (fun p => key_ltb t (fst p) k = true) acc -> map_insert t k v acc = acc ++ [(k, v)].
Proof.
  induction 1 as [|[k' v'] acc H F IH]; [reflexivity|]. cbn [fst] in H.
  cbn [map_insert app]. rewrite (key_asym _ _ _ H), H. now rewrite IH.
Qed.

Section Writer.
  Variable sch : schema.
  Variable rec : nat -> list value -> res (list Z).
  Hypothesis rec_w : forall m obj bs, object_ok sch m obj -> rec m obj = Ok bs ->
    Zlen bs <= INT_MAX ->
    exists rs, enc_recs rs bs /\ fits sch m rs /\ same sch m (mean sch m rs) (map drop_nulls obj).

  Lemma object_write num m obj bs : field_number num -> object_ok sch m obj ->
    serializeObject rec num m obj = Ok bs -> Zlen bs <= INT_MAX ->
    exists rs, enc_recs [(num, WMsg rs)] bs /\ fits sch m rs
               /\ same sch m (mean sch m rs) (map drop_nulls obj).
  Proof.
    intros N O H B. unfold serializeObject in H.
    destruct (rec m obj) as [body| | |] eqn:R; cbn [bind] in H; try discriminate.
    injection H as <-. apply app_bound in B. destruct B as [_ B].
    apply prepend_enc_bound in B.
    destruct (rec_w m obj body O R B) as (rs & E & F & Sm).
    exists rs. split; [|auto].
    change WLengthDelimitedT with (wtype (WMsg rs)).
    apply enc_one; [exact N|]. apply enc_msg with (content := body); [exact E|].
    now apply prepend_delimited.
  Qed.

  Lemma scalar_canon_write t s : scalar_ok t s ->
    canon_scalar t (scalar_of (fold_left (fun _ w => mean_elem sch (ES t) w)
       (if omitted t s then [] else [wv t s]) (VScalar (default_scalar t))))
    = canon_scalar t s.
  Proof.
    intro H. destruct (omitted t s) eqn:O; cbn [fold_left].
    - symmetry. now apply omitted_default.
    - replace (mean_elem sch (ES t) (wv t s)) with (VScalar (mean_scalar t (wv t s)))
        by (destruct (wv t s); reflexivity).
      cbn [scalar_of]. rewrite wv_mean by exact H. apply clear_null_canon.
  Qed.

  Lemma fold_single e ws old :
    fold_left (mean_field sch (FSing e)) ws old = fold_left (fun _ w => mean_elem sch e w) ws old.
  Proof. apply fold_left_ext. intros a b. destruct e, b; reflexivity. Qed.

  (** A non-null value: exactly what is read is what was written. *)
  Lemma element_write e v num bs : field_number num -> elem_ok sch e v ->
    (match e with EM _ => v <> VNull | ES _ => True end) ->
    serializeElement sch rec num e v = Ok bs -> Zlen bs <= INT_MAX ->
    exists ws, enc_recs (map (pair num) ws) bs /\ Forall (fits_elem sch e) ws
      /\ (match e with EM _ => ws <> [] | ES _ => True end)
      /\ canon_elem sch e (fold_left (fun _ w => mean_elem sch e w) ws (default_elem sch e))
         = canon_elem sch e (drop_nulls v).
  Proof.
    intros N O NN H B. destruct e as [t|m].
    - destruct v as [s| | | |]; try contradiction. cbn [elem_ok] in O.
      cbn [serializeElement scalar_of] in H. injection H as <-.
      exists (if omitted t s then [] else [wv t s]).
      split. { pose proof (serializeScalar_enc t s num O N B) as E. now destruct (omitted t s). }
      split. { destruct (omitted t s); constructor; [|constructor].
               pose proof (wv_fits t s O). destruct (wv t s); auto. }
      split; [exact I|].
      rewrite !canon_elem_scalar. cbn [default_elem drop_nulls scalar_of].
      now rewrite scalar_canon_write.
    - destruct v as [s| |fs| |]; try contradiction; try congruence.
      cbn [serializeElement] in H.
      destruct (object_write num m fs bs N O H B) as (rs & E & F & Sm).
      exists [WMsg rs]. cbn [map fold_left]. split; [exact E|].
      split. { constructor; [exact F | constructor]. }
      split; [discriminate|].
      rewrite mean_elem_msg. cbn [drop_nulls]. rewrite !canon_elem_msg.
      f_equal. exact Sm.
  Qed.

  (** A singular field. *)
  Lemma single_write e v num bs : field_number num -> elem_ok sch e v ->
    serializeElement sch rec num e v = Ok bs -> Zlen bs <= INT_MAX ->
    exists ws, enc_recs (map (pair num) ws) bs /\ Forall (fits_elem sch e) ws
      /\ canon_field sch (FSing e) (fold_left (mean_field sch (FSing e)) ws (default_field (FSing e)))
         = canon_field sch (FSing e) (drop_nulls v)
      /\ (unset_field (FSing e) v = true -> ws = []).
  Proof.
    intros N O H B. destruct e as [t|m].
    - destruct v as [s| | | |]; try contradiction. cbn [elem_ok] in O.
      cbn [serializeElement scalar_of] in H. injection H as <-.
      exists (if omitted t s then [] else [wv t s]).
      split. { pose proof (serializeScalar_enc t s num O N B) as E. now destruct (omitted t s). }
      split. { destruct (omitted t s); constructor; [|constructor].
               pose proof (wv_fits t s O). destruct (wv t s); auto. }
      split.
      + cbn [canon_field]. rewrite fold_single, !canon_elem_scalar.
        cbn [default_field drop_nulls scalar_of]. now rewrite scalar_canon_write.
      + intro U. replace (omitted t s) with true; [reflexivity|]. symmetry.
        destruct t, s; cbn [unset_field omitted num_of scalar_ok] in *; auto; try discriminate;
          contradiction.
    - assert (K : exists rs, enc_recs [(num, WMsg rs)] bs /\ fits sch m rs /\
                  collapse (VMsg (canon_obj sch m (mean sch m rs)))
                  = collapse (canon_elem sch (EM m) (drop_nulls v))).
      { destruct v as [s| |fs| |]; try contradiction; cbn [serializeElement] in H.
        - destruct (object_write num m (default_obj sch m) bs N (default_ok sch m) H B)
            as (rs & E & F & Sm).
          exists rs. split; [exact E|]. split; [exact F|].
          unfold same in Sm. rewrite default_drop in Sm. rewrite Sm.
          cbn [collapse drop_nulls canon_elem]. now rewrite canon_default.
        - destruct (object_write num m fs bs N O H B) as (rs & E & F & Sm).
          exists rs. split; [exact E|]. split; [exact F|].
          cbn [drop_nulls]. rewrite canon_elem_msg. unfold same in Sm. now rewrite Sm. }
      destruct K as (rs & E & F & C). exists [WMsg rs].
      split; [exact E|]. split. { constructor; [exact F | constructor]. }
      split.
      + cbn [canon_field]. rewrite fold_single. cbn [fold_left].
        rewrite mean_elem_msg, canon_elem_msg. exact C.
      + intro U. destruct v; discriminate U.
  Qed.

  Lemma fold_blob t : is_blob t = true -> forall l acc,
    Forall (scalar_ok t) l ->
    fold_left (mean_field sch (FRep (ES t))) (map (wv t) l) (VList acc)
    = VList (acc ++ map (fun s => VScalar (clear_null s)) l).
  Proof.
    intros Bl. induction l as [|s l IH]; intros acc O; inversion O; subst; cbn [map fold_left].
    - now rewrite app_nil_r.
    - assert (M : mean_field sch (FRep (ES t)) (VList acc) (wv t s)
                  = VList (acc ++ [VScalar (clear_null s)])).
      { unfold mean_field. rewrite <- (wv_mean t s) by assumption.
        destruct t; try discriminate; reflexivity. }
      rewrite M, IH by assumption. now rewrite <- app_assoc.
  Qed.

  Lemma scalars_drop l : (forall x, In x l -> exists s, x = VScalar s) ->
    flat_map (fun x => match x with VNull => [] | _ => [drop_nulls x] end) l = l.
  Proof.
    induction l as [|x l IH]; intro H; [reflexivity|].
    destruct (H x (or_introl eq_refl)) as [s ->]. cbn. f_equal. apply IH.
    intros y Hy. apply H. now right.
  Qed.

  Lemma every_scalars t l : every (elem_ok sch (ES t)) l ->
    Forall (scalar_ok t) (map scalar_of l) /\ (forall x, In x l -> exists s, x = VScalar s).
  Proof.
    rewrite every_Forall. induction 1 as [|x l H F [IH1 IH2]].
    - split; [constructor | contradiction].
    - destruct x; try contradiction. split.
      + cbn [map scalar_of]. constructor; assumption.
      + intros y [<- | Hy]; eauto.
  Qed.

  Lemma blob_list_write t num l bs : is_blob t = true -> field_number num ->
    Forall (scalar_ok t) l ->
    concat (map (fun v => encodeHeader num WLengthDelimitedT ++ serializeLengthDelimited (blob_of v)) l)
      = bs ->
    Zlen bs <= INT_MAX -> enc_recs (map (pair num) (map (wv t) l)) bs.
  Proof.
    intros Bl N. revert bs. induction l as [|s l IH]; intros bs O <- B;
      inversion O; subst; cbn [map concat] in *; [constructor|].
    apply app_bound in B. destruct B as [B1 B2].
    change ((num, wv t s) :: map (pair num) (map (wv t) l))
      with ([(num, wv t s)] ++ map (pair num) (map (wv t) l)).
    apply enc_recs_app; [|apply IH; auto].
    assert (W : wv t s = WBytes (blob_of s)) by (destruct t; try discriminate; reflexivity).
    rewrite W. change WLengthDelimitedT with (wtype (WBytes (blob_of s))).
    apply enc_one; [exact N|]. apply app_bound in B1. destruct B1 as [_ B1].
    constructor.
    - destruct t, s; try discriminate; cbn in *; try contradiction; tauto.
    - apply prepend_delimited. now apply prepend_enc_bound.
  Qed.

  Lemma scalar_list_write t num l bs : field_number num -> every (elem_ok sch (ES t)) l ->
    serializeScalarList t (map scalar_of l) num = bs -> Zlen bs <= INT_MAX ->
    exists ws, enc_recs (map (pair num) ws) bs /\ Forall (fits_field sch (FRep (ES t))) ws
      /\ canon_field sch (FRep (ES t)) (fold_left (mean_field sch (FRep (ES t))) ws (VList []))
         = canon_field sch (FRep (ES t)) (drop_nulls (VList l))
      /\ (l = [] -> ws = []).
  Proof.
    intros N O H B. destruct (every_scalars t l O) as [Os Vs].
    cbn [drop_nulls]. rewrite (scalars_drop l Vs).
    assert (Hl : map (fun x => VScalar (scalar_of x)) l = l).
    { clear - Vs. induction l as [|x l IH]; [reflexivity|]. cbn [map].
      destruct (Vs x (or_introl eq_refl)) as [s ->]. f_equal. apply IH.
      intros y Hy. apply Vs. now right. }
    unfold serializeScalarList in H. destruct (is_blob t) eqn:Bl.
    - exists (map (wv t) (map scalar_of l)).
      assert (H' : concat (map (fun v => encodeHeader num WLengthDelimitedT
                     ++ serializeLengthDelimited (blob_of v)) (map scalar_of l)) = bs).
      { rewrite <- H. unfold serializeListBlob.
        destruct (map scalar_of l) eqn:E; unfold with_header; cbn [snd fst];
          rewrite Z.eqb_refl; reflexivity. }
      split; [apply (blob_list_write t num _ bs); assumption|].
      split.
      { apply Forall_forall. intros w Hw. apply in_map_iff in Hw. destruct Hw as (s & <- & Hs).
        unfold fits_field. rewrite Bl. apply wv_fits. rewrite Forall_forall in Os. now apply Os. }
      split.
      + rewrite fold_blob by assumption. cbn [app canon_field list_of].
        f_equal. rewrite <- Hl at 2. rewrite !map_map.
        apply map_ext. intro x. rewrite !canon_elem_scalar. cbn [scalar_of].
        now rewrite clear_null_canon.
      + now intros ->.
    - destruct (map scalar_of l) as [|s0 l0] eqn:E.
      + unfold with_header, serializeListNumeric in H. cbn [snd fst] in H.
        rewrite Z.eqb_refl in H. subst bs.
        exists []. cbn [map]. split; [constructor|]. split; [constructor|].
        assert (l = []) by (destruct l; [reflexivity | discriminate]). subst l. auto.
      + exists [WPacked (map (wv t) (s0 :: l0))].
        unfold with_header, serializeListNumeric in H. cbn [snd fst] in H.
        rewrite fn_not_unused in H by exact N.
        rewrite <- H in B. apply app_bound in B. destruct B as [_ B].
        split; [|split; [|split]].
        * rewrite <- H. cbn [map].
          change WLengthDelimitedT with (wtype (WPacked (wv t s0 :: map (wv t) l0))).
          apply enc_one; [exact N|].
          apply enc_packed with (content := concat (map (list_element t) (s0 :: l0))).
          -- apply (enc_elems_write t (s0 :: l0)); [exact Os | now apply prepend_enc_bound].
          -- apply prepend_delimited. now apply prepend_enc_bound.
        * constructor; [|constructor]. unfold fits_field. rewrite Bl.
          apply Forall_forall. intros w Hw. apply in_map_iff in Hw. destruct Hw as (s & <- & Hs).
          apply wv_fits. rewrite Forall_forall in Os. now apply Os.
        * cbn [fold_left mean_field list_of app].
          assert (M : map (fun x => VScalar (mean_scalar t x)) (map (wv t) (s0 :: l0))
                      = map (fun s => VScalar (clear_null s)) (s0 :: l0)).
          { rewrite map_map. apply map_ext_in. intros s Hs. rewrite wv_mean; [reflexivity|].
            rewrite Forall_forall in Os. now apply Os. }
          rewrite M. replace (if is_enum t then _ else _)
            with (VList (map (fun s => VScalar (clear_null s)) (s0 :: l0)))
            by (destruct (is_enum t); reflexivity).
          cbn [canon_field list_of]. f_equal. rewrite <- E. rewrite <- Hl at 2. rewrite !map_map.
          apply map_ext. intro x. rewrite !canon_elem_scalar. cbn [scalar_of].
          now rewrite clear_null_canon.
        * intros ->. discriminate E.
  Qed.

  Lemma msg_list_write num m : field_number num -> forall l bs acc acc',
    every (elem_ok sch (EM m)) l ->
    concat_res (map (serializeListElement rec num m) l) = Ok bs -> Zlen bs <= INT_MAX ->
    map (canon_elem sch (EM m)) acc = map (canon_elem sch (EM m)) acc' ->
    exists ws, enc_recs (map (pair num) ws) bs /\ Forall (fits_field sch (FRep (EM m))) ws
      /\ canon_field sch (FRep (EM m)) (fold_left (mean_field sch (FRep (EM m))) ws (VList acc))
         = canon_field sch (FRep (EM m))
             (VList (acc' ++ flat_map (fun x => match x with VNull => [] | _ => [drop_nulls x] end) l))
      /\ (l = [] -> ws = []).
  Proof.
    intro N. induction l as [|x l IH]; intros bs acc acc' O H B Ha.
    - cbn in H. injection H as <-. exists []. cbn [map fold_left flat_map].
      rewrite app_nil_r. split; [constructor|]. split; [constructor|]. split; [|auto].
      cbn [canon_field list_of]. now rewrite Ha.
    - destruct O as [Ox O]. cbn [map] in H. apply concat_res_cons in H.
      destruct H as (a & b & H1 & H2 & ->). apply app_bound in B. destruct B as [B1 B2].
      destruct x as [s| |fs| |]; try contradiction; cbn [serializeListElement] in H1.
      + injection H1 as <-.
        destruct (IH b acc acc' O H2 B2 Ha) as (ws & A1 & A2 & A3 & A4).
        destruct l as [|y l].
        * exists []. cbn in H2. injection H2 as <-. split; [constructor|]. split; [constructor|].
          split; [|auto]. cbn [fold_left flat_map app]. rewrite app_nil_r.
          cbn [canon_field list_of]. now rewrite Ha.
        * exists ws. cbn [app flat_map]. split; [exact A1|]. split; [exact A2|].
          split; [exact A3|]. discriminate.
      + destruct (object_write num m fs a N Ox H1 B1) as (rs & E & F & Sm).
        destruct (IH b (acc ++ [VMsg (mean sch m rs)]) (acc' ++ [drop_nulls (VMsg fs)]) O H2 B2)
          as (ws & A1 & A2 & A3 & A4).
        { rewrite !map_app, Ha. f_equal. cbn [map drop_nulls]. rewrite !canon_elem_msg.
          unfold same in Sm. now rewrite Sm. }
        exists (WMsg rs :: ws). cbn [map]. split; [|split; [|split]].
        * change ((num, WMsg rs) :: map (pair num) ws) with ([(num, WMsg rs)] ++ map (pair num) ws).
          now apply enc_recs_app.
        * constructor; [exact F | exact A2].
        * cbn [fold_left flat_map]. cbn [mean_field list_of]. rewrite mean_elem_msg.
          rewrite A3. cbn [app]. now rewrite <- app_assoc.
        * discriminate.
  Qed.

  (** Entry written for a key and a value that is not null. *)
  Lemma map_entry_write num k e key v bs : field_number num -> key_type k ->
    scalar_ok k key -> elem_ok sch e v ->
    (match e with EM _ => v <> VNull | ES _ => True end) ->
    serializeMapElement sch rec num k e (key, v) = Ok bs -> Zlen bs <= INT_MAX ->
    exists es, enc_recs [(num, WMsg es)] bs /\ fits_field sch (FMap k e) (WMsg es)
      /\ let kv := fold_left (mean_entry sch k e) es (default_scalar k, default_elem sch e) in
         canon_scalar k (fst kv) = canon_scalar k key
         /\ canon_elem sch e (snd kv) = canon_elem sch e (drop_nulls v).
  Proof.
    intros N K Ok1 Ov NN H B.
    assert (H' : value <- serializeElement sch rec 2 e v ;;
                 Ok (encodeHeader num WLengthDelimitedT
                     ++ prependLengthDelimitedSize (serializeScalar k key 1 ++ value)) = Ok bs).
    { unfold serializeMapElement in H. cbn [fst snd] in H.
      destruct e; [exact H|]. destruct v; try exact H. congruence. }
    clear H. destruct (serializeElement sch rec 2 e v) as [vb| | |] eqn:Ev; cbn [bind] in H';
      try discriminate. injection H' as <-.
    apply app_bound in B. destruct B as [_ B]. apply prepend_enc_bound in B.
    pose proof B as Bc. apply app_bound in B. destruct B as [B1 B2].
    assert (N1 : field_number 1) by (unfold field_number; lia).
    assert (N2 : field_number 2) by (unfold field_number; lia).
    pose proof (serializeScalar_enc k key 1 Ok1 N1 B1) as Ek.
    destruct (element_write e v 2 vb N2 Ov NN Ev B2) as (ws & A1 & A2 & A3 & A4).
    exists ((if omitted k key then [] else [(1, wv k key)]) ++ map (pair 2) ws).
    split; [|split].
    - set (es := (if omitted k key then [] else [(1, wv k key)]) ++ map (pair 2) ws).
      change WLengthDelimitedT with (wtype (WMsg es)).
      apply enc_one; [exact N|].
      apply enc_msg with (content := serializeScalar k key 1 ++ vb).
      + apply enc_recs_app; [|exact A1]. exact Ek.
      + now apply prepend_delimited.
    - cbn [fits_field]. split.
      + apply every_Forall. apply Forall_app. split.
        * destruct (omitted k key); constructor; [|constructor].
          left. cbn [fst snd]. split; [reflexivity | now apply wv_fits].
        * apply Forall_forall. intros r Hr. apply in_map_iff in Hr. destruct Hr as (w & <- & Hw).
          right. cbn [fst snd]. split; [reflexivity|]. rewrite Forall_forall in A2. now apply A2.
      + destruct e; [exact I|]. rewrite map_app. apply in_or_app. right.
        rewrite map_map. cbn [fst]. destruct ws; [congruence | now left].
    - rewrite fold_left_app.
      assert (F2 : forall ws kv, fold_left (mean_entry sch k e) (map (pair 2) ws) kv
                   = (fst kv, fold_left (fun _ w => mean_elem sch e w) ws (snd kv))).
      { clear. induction ws as [|w ws IH]; intros [a b]; cbn [map fold_left fst snd]; [reflexivity|].
        rewrite IH. unfold mean_entry. cbn [fst snd Z.eqb]. reflexivity. }
      cbv zeta. rewrite F2. cbn [fst snd].
      destruct (omitted k key) eqn:Om; cbn [fold_left fst snd].
      + split; [|exact A4]. symmetry. now apply omitted_default.
      + unfold mean_entry. cbn [fst snd Z.eqb Pos.eqb].
        split; [|exact A4]. rewrite wv_mean by exact Ok1. apply clear_null_canon.
  Qed.

  Definition drop_entries (l : list (scalar * value)) : list (scalar * value) :=
    flat_map (fun p => match snd p with VNull => [] | _ => [(fst p, drop_nulls (snd p))] end) l.

  Lemma drop_entries_keys k a l : Forall (fun p => key_ltb k a (fst p) = true) l ->
    Forall (fun p => key_ltb k a (fst p) = true) (drop_entries l).
  Proof.
    induction 1 as [|[b v] l H F IH]; [constructor|].
    unfold drop_entries. cbn [flat_map snd fst]. apply Forall_app. split; [|exact IH].
    destruct v; constructor; auto.
  Qed.

  Lemma drop_entries_sorted k l : keys_sorted k l -> keys_sorted k (drop_entries l).
  Proof.
    induction l as [|[a v] l IH]; [auto|]. intros [H1 H2]. specialize (IH H2).
    apply drop_entries_keys in H1. unfold drop_entries. cbn [flat_map snd fst].
    destruct v; cbn [app keys_sorted]; auto.
  Qed.

  Lemma canon_keys_sorted k e l : key_type k -> keys_sorted k l -> keys_sorted k (canon_map sch k e l).
  Proof.
    intro K. induction l as [|[a v] l IH]; [auto|]. intros [H1 H2].
    cbn [canon_map map keys_sorted fst snd]. split; [|now apply IH].
    apply Forall_map. eapply Forall_impl; [|exact H1]. intros p Hp. cbn [fst].
    now rewrite key_ltb_canon.
  Qed.

  Lemma map_write num k e : field_number num -> key_type k -> forall l bs acc,
    keys_sorted k l ->
    every (fun p => scalar_ok k (fst p) /\ elem_ok sch e (snd p)) l ->
    concat_res (map (serializeMapElement sch rec num k e) l) = Ok bs -> Zlen bs <= INT_MAX ->
    Forall (fun q => Forall (fun p => key_ltb k (fst q) (canon_scalar k (fst p)) = true) l)
      (canon_map sch k e acc) ->
    exists ws, enc_recs (map (pair num) ws) bs /\ Forall (fits_field sch (FMap k e)) ws
      /\ canon_field sch (FMap k e) (fold_left (mean_field sch (FMap k e)) ws (VMap acc))
         = VMap (canon_map sch k e acc ++ canon_map sch k e (drop_entries l))
      /\ (l = [] -> ws = []).
  Proof.
    intros N K. induction l as [|[a v] l IH]; intros bs acc So O H B Ha.
    - cbn in H. injection H as <-. exists []. cbn [map fold_left].
      split; [constructor|]. split; [constructor|]. split; [|auto].
      cbn [drop_entries flat_map canon_map map]. rewrite app_nil_r. reflexivity.
    - destruct O as [[Oa Ov] O]. destruct So as [S1 S2]. cbn [fst snd] in *.
      cbn [map] in H. apply concat_res_cons in H.
      destruct H as (x & y & H1 & H2 & ->). apply app_bound in B. destruct B as [B1 B2].
      assert (NN : (exists m, e = EM m) /\ v = VNull \/ (match e with EM _ => v <> VNull | ES _ => True end)).
      { destruct e; [right; exact I|]. destruct v; try (right; discriminate). left. eauto. }
      destruct NN as [[[m ->] ->] | NN].
      + cbn [serializeMapElement snd] in H1. injection H1 as <-.
        destruct (IH y acc S2 O H2 B2) as (ws & A1 & A2 & A3 & A4).
        { eapply Forall_impl; [|exact Ha]. intros q Hq. now inversion Hq. }
        destruct l as [|z l].
        * exists []. cbn in H2. injection H2 as <-. split; [constructor|]. split; [constructor|].
          split; [|auto]. cbn [fold_left drop_entries flat_map snd app canon_map map].
          rewrite app_nil_r. reflexivity.
        * exists ws. split; [exact A1|]. split; [exact A2|]. split; [exact A3|]. discriminate.
      + destruct (map_entry_write num k e a v x N K Oa Ov NN H1 B1) as (es & E & F & C1 & C2).
        set (kv := fold_left (mean_entry sch k e) es (default_scalar k, default_elem sch e)) in *.
        assert (I1 : canon_map sch k e (map_insert k (fst kv) (snd kv) acc)
                     = canon_map sch k e acc ++ [(canon_scalar k a, canon_elem sch e (drop_nulls v))]).
        { rewrite map_insert_canon by exact K. rewrite C1, C2. apply map_insert_last.
          eapply Forall_impl; [|exact Ha]. intros q Hq. now inversion Hq. }
        destruct (IH y (map_insert k (fst kv) (snd kv) acc) S2 O H2 B2) as (ws & A1 & A2 & A3 & A4).
        { rewrite I1. apply Forall_app. split.
          - eapply Forall_impl; [|exact Ha]. intros q Hq. now inversion Hq.
          - constructor; [|constructor]. cbn [fst].
            eapply Forall_impl; [|exact S1]. intros p Hp. cbn beta in Hp. now rewrite key_ltb_canon. }
        assert (D : drop_entries ((a, v) :: l) = (a, drop_nulls v) :: drop_entries l).
        { unfold drop_entries. cbn [flat_map snd fst].
          destruct e as [t|m]; destruct v; try contradiction; try congruence; reflexivity. }
        exists (WMsg es :: ws). cbn [map]. split; [|split; [|split]].
        * change ((num, WMsg es) :: map (pair num) ws) with ([(num, WMsg es)] ++ map (pair num) ws).
          now apply enc_recs_app.
        * constructor; [exact F | exact A2].
        * cbn [fold_left]. cbn [mean_field map_of]. fold kv.
          rewrite A3, I1, D. cbn [canon_map map fst snd]. now rewrite <- app_assoc.
        * discriminate.
  Qed.

  Lemma field_write f v bs : field_ok f -> val_ok sch (f_ty f) v ->
    serializeProperty sch rec f v = Ok bs -> Zlen bs <= INT_MAX ->
    exists ws, enc_recs (map (pair (f_num f)) ws) bs /\ Forall (fits_field sch (f_ty f)) ws
      /\ canon_field sch (f_ty f) (fold_left (mean_field sch (f_ty f)) ws (default_field (f_ty f)))
         = canon_field sch (f_ty f) (drop_nulls v)
      /\ (unset_field (f_ty f) v = true -> ws = []).
  Proof.
    intros [N FO] O H B. unfold serializeProperty in H.
    destruct (f_ty f) as [e|[t|m]|k e]; cbn [val_ok default_field] in *.
    - destruct (single_write e v (f_num f) bs N O H B) as (ws & A1 & A2 & A3 & A4).
      exists ws. auto.
    - destruct v as [| | |l|]; try contradiction. cbn [list_of] in H. injection H as H.
      destruct (scalar_list_write t (f_num f) l bs N O H B) as (ws & A1 & A2 & A3 & A4).
      exists ws. split; [exact A1|]. split; [exact A2|]. split; [exact A3|].
      intro U. apply A4. destruct l; [reflexivity | discriminate U].
    - destruct v as [| | |l|]; try contradiction. cbn [list_of] in H.
      destruct (msg_list_write (f_num f) m N l bs [] [] O H B eq_refl) as (ws & A1 & A2 & A3 & A4).
      exists ws. split; [exact A1|]. split; [exact A2|]. split; [exact A3|].
      intro U. apply A4. destruct l; [reflexivity | discriminate U].
    - destruct v as [| | | |l]; try contradiction. destruct O as [So O]. cbn [map_of] in H.
      destruct (map_write (f_num f) k e N FO l bs [] So O H B) as (ws & A1 & A2 & A3 & A4).
      { constructor. }
      exists ws. split; [exact A1|]. split; [exact A2|]. split; [exact A3|].
      intro U. apply A4. destruct l; [reflexivity | discriminate U].
  Qed.
End Writer.

(** ** Messages *)

Lemma concat_res_groups sch m order obj rec :
  schema_ok sch ->
  (forall m obj bs, object_ok sch m obj -> rec m obj = Ok bs -> Zlen bs <= INT_MAX ->
    exists rs, enc_recs rs bs /\ fits sch m rs /\ same sch m (mean sch m rs) (map drop_nulls obj)) ->
  object_ok sch m obj ->
  (forall i, In i order -> (i < length (md_fields (msg_at sch m)))%nat) ->
  NoDup order -> forall bs,
  concat_res (map (fun i => serializeProperty sch rec (field_at sch m i) (nth i obj VNull)) order)
    = Ok bs -> Zlen bs <= INT_MAX ->
  exists g, enc_recs (groups sch m order g) bs
    /\ (forall i, In i order -> Forall (fits_field sch (f_ty (field_at sch m i))) (g i)
         /\ canon_field sch (f_ty (field_at sch m i))
              (fold_left (mean_field sch (f_ty (field_at sch m i))) (g i)
                 (default_field (f_ty (field_at sch m i))))
            = canon_field sch (f_ty (field_at sch m i)) (drop_nulls (nth i obj VNull))
         /\ (unset_field (f_ty (field_at sch m i)) (nth i obj VNull) = true -> g i = [])).
Proof.
  intros S R O. induction order as [|i order IH]; intros Hin ND bs H B.
  - cbn in H. injection H as <-. exists (fun _ => []). split; [constructor | contradiction].
  - cbn [map] in H. apply concat_res_cons in H. destruct H as (a & b & H1 & H2 & ->).
    apply app_bound in B. destruct B as [B1 B2]. inversion ND; subst.
    destruct (IH ltac:(intros; apply Hin; now right) ltac:(assumption) b H2 B2) as (g & E & G).
    assert (Hi : (i < length (md_fields (msg_at sch m)))%nat) by (apply Hin; now left).
    assert (Ov : val_ok sch (f_ty (field_at sch m i)) (nth i obj VNull)).
    { apply object_ok_spec in O. unfold field_at. clear - O Hi. revert i Hi.
      induction O as [|f x fl ol Hx HF IH]; intros i Hi; simpl in Hi; [lia|].
      destruct i; cbn [nth]; [exact Hx|]. apply IH. lia. }
    destruct (field_write sch rec R (field_at sch m i) (nth i obj VNull) a
                (field_at_ok sch m i S Hi) Ov H1 B1) as (ws & A1 & A2 & A3 & A4).
    exists (fun j => if Nat.eq_dec j i then ws else g j). split.
    + unfold groups. cbn [flat_map]. apply enc_recs_app.
      * destruct (Nat.eq_dec i i); [exact A1 | congruence].
      * replace (flat_map _ order) with (groups sch m order g); [exact E|].
        unfold groups. apply flat_map_ext_in || idtac.
        clear - H3. induction order as [|j order IHo]; [reflexivity|]. cbn [flat_map].
        destruct (Nat.eq_dec j i) as [->|]; [exfalso; apply H3; now left|].
        f_equal. apply IHo. intro; apply H3; now right.
    + intros j Hj. destruct (Nat.eq_dec j i) as [->|NE]; [auto|].
      apply G. destruct Hj; [congruence | assumption].
Qed.

Lemma canon_fields_ext sch fields : forall a b, length a = length fields -> length b = length fields ->
  (forall i, (i < length fields)%nat ->
     canon_field sch (f_ty (nth i fields dummy_field)) (nth i a VNull)
     = canon_field sch (f_ty (nth i fields dummy_field)) (nth i b VNull)) ->
  canon_fields sch fields a = canon_fields sch fields b.
Proof.
  induction fields as [|f fields IH]; intros [|x a] [|y b] La Lb H; simpl in *; try lia; auto.
  f_equal.
  - apply (H 0%nat). lia.
  - apply IH; try lia. intros i Hi. apply (H (S i)). lia.
Qed.

Section Message.
  Variable sch : schema.
  Hypothesis S : schema_ok sch.

  (** What serializeMessage writes: for every field, in the order of the table, its records. *)
  Lemma message_write fuel : forall m obj bs, object_ok sch m obj ->
    serializeMessage fuel sch m obj = Ok bs -> Zlen bs <= INT_MAX ->
    exists g, let rs := groups sch m (md_order (msg_at sch m)) g in
      enc_recs rs bs /\ fits sch m rs /\ same sch m (mean sch m rs) (map drop_nulls obj)
      /\ forall i, (i < length (md_fields (msg_at sch m)))%nat ->
         unset_field (f_ty (field_at sch m i)) (nth i obj VNull) = true -> g i = [].
  Proof.
    induction fuel as [|fuel IH]; intros m obj bs O H B; [discriminate|].
    cbn [serializeMessage] in H.
    pose proof (msg_at_ok sch m S) as (_ & _ & ND & Cov).
    destruct (concat_res_groups sch m (md_order (msg_at sch m)) obj (serializeMessage fuel sch) S)
      with (bs := bs) as (g & E & G); auto.
    { intros m1 obj1 bs1 O1 H1 B1. destruct (IH m1 obj1 bs1 O1 H1 B1) as (g1 & A1 & A2 & A3 & _).
      eauto. }
    { intros i Hi. now apply Cov. }
    exists g. cbv zeta. split; [exact E|]. split; [|split].
    - apply fits_spec. apply Forall_forall. intros r Hr. unfold groups in Hr.
      apply in_flat_map in Hr. destruct Hr as (i & Hi & Hr). apply in_map_iff in Hr.
      destruct Hr as (w & <- & Hw). unfold fits_record. cbn [fst snd].
      rewrite find_field_at by (auto; now apply Cov).
      destruct (G i Hi) as [F _]. rewrite Forall_forall in F. now apply F.
    - unfold same. rewrite mean_spec, !canon_obj_spec.
      destruct (fold_groups sch m g S (md_order (msg_at sch m)) (default_obj sch m) ND
                  (default_obj_length sch m)) as (L & _ & C).
      { intros i Hi. now apply Cov. }
      cbv zeta in *.
      assert (Lo : length obj = length (md_fields (msg_at sch m))).
      { apply object_ok_spec in O. symmetry. clear - O. induction O; simpl; auto. }
      apply canon_fields_ext.
      + rewrite L. apply default_obj_length.
      + now rewrite map_length.
      + intros i Hi. rewrite C by (now apply Cov).
        replace (nth i (default_obj sch m) VNull) with (default_field (f_ty (field_at sch m i))).
        2:{ unfold default_obj, field_at.
            rewrite nth_indep with (d' := default_field (f_ty dummy_field))
              by (now rewrite map_length).
            rewrite (map_nth (fun f => default_field (f_ty f))). reflexivity. }
        fold (field_at sch m i).
        destruct (G i (proj2 (Cov i) Hi)) as (_ & Ci & _). rewrite Ci.
        f_equal. change VNull with (drop_nulls VNull) at 2. now rewrite map_nth.
    - intros i Hi. apply G. now apply Cov.
  Qed.
End Message.

(** The exact result of reading, and what arrives of a serialized message. *)

From Coq Require Import ZArith List Bool Lia ZifyBool.
From Verif Require Import Base WireModel Values MessageModel WireSpec WireProofs MessageSpec
  MessageProofs SerializeProofs MessageFacts RunFacts ExactSpec.
Import ListNotations.
Open Scope Z_scope.
Ltac Zify.zify_post_hook ::= Z.div_mod_to_equations.

(** ** What the reader makes of records, with the tests of the setters *)

Section Exact.
  Variable sch : schema.

  Fixpoint exact_elem (e : elty) (w : wval) {struct w} : value :=
    match e, w with
    | ES t, _ => VScalar (mean_scalar t w)
    | EM m, WMsg rs =>
        VMsg (fold_left (fun obj r =>
          match find_field (msg_at sch m) (fst r) with
          | None => obj
          | Some i =>
              let old := nth i obj VNull in
              update i
                match f_ty (field_at sch m i), snd r with
                | FSing (ES t), w' => VScalar (store_scalar t (scalar_of old) (mean_scalar t w'))
                | FSing (EM m'), _ => exact_elem (EM m') (snd r)
                | FRep (EM m'), _ => VList (list_of old ++ [exact_elem (EM m') (snd r)])
                | FRep (ES t), WPacked ws =>
                    let l := map (fun x => VScalar (mean_scalar t x)) ws in
                    if is_enum t then VList (store_scalars t (list_of old) (list_of old ++ l))
                    else VList (store_scalars t (list_of old) l)
                | FRep (ES t), w' =>
                    VList (store_scalars t (list_of old) (list_of old ++ [VScalar (mean_scalar t w')]))
                | FMap k e', WMsg es =>
                    let kv := fold_left (fun kv x =>
                                if fst x =? 1 then (mean_scalar k (snd x), snd kv)
                                else (fst kv, exact_elem e' (snd x)))
                                es (default_scalar k, default_element e') in
                    VMap (store_map k e' (map_of old) (map_insert k (fst kv) (snd kv) (map_of old)))
                | FMap _ _, _ => old
                end obj
          end) rs (default_obj sch m))
    | EM _, _ => VNull
    end.

  Definition exact (m : nat) (rs : list (Z * wval)) : list value :=
    match exact_elem (EM m) (WMsg rs) with VMsg fs => fs | _ => [] end.

  Definition exact_entry (k : sty) (e : elty) (kv : scalar * value) (x : Z * wval) : scalar * value :=
    if fst x =? 1 then (mean_scalar k (snd x), snd kv) else (fst kv, exact_elem e (snd x)).

  Definition exact_field (ty : fty) (old : value) (w : wval) : value :=
    match ty, w with
    | FSing (ES t), w' => VScalar (store_scalar t (scalar_of old) (mean_scalar t w'))
    | FSing (EM m'), _ => exact_elem (EM m') w
    | FRep (EM m'), _ => VList (list_of old ++ [exact_elem (EM m') w])
    | FRep (ES t), WPacked ws =>
        let l := map (fun x => VScalar (mean_scalar t x)) ws in
        if is_enum t then VList (store_scalars t (list_of old) (list_of old ++ l))
        else VList (store_scalars t (list_of old) l)
    | FRep (ES t), w' =>
        VList (store_scalars t (list_of old) (list_of old ++ [VScalar (mean_scalar t w')]))
    | FMap k e', WMsg es =>
        let kv := fold_left (exact_entry k e') es (default_scalar k, default_element e') in
        VMap (store_map k e' (map_of old) (map_insert k (fst kv) (snd kv) (map_of old)))
    | FMap _ _, _ => old
    end.

  Definition exact_record (m : nat) (obj : list value) (r : Z * wval) : list value :=
    match find_field (msg_at sch m) (fst r) with
    | None => obj
    | Some i => update i (exact_field (f_ty (field_at sch m i)) (nth i obj VNull) (snd r)) obj
    end.

  Lemma exact_spec m rs : exact m rs = fold_left (exact_record m) rs (default_obj sch m).
  Proof.
    unfold exact. cbn [exact_elem]. apply fold_left_ext. intros obj r.
    unfold exact_record. destruct (find_field (msg_at sch m) (fst r)) as [i|]; [|reflexivity].
    f_equal. unfold exact_field.
    destruct (f_ty (field_at sch m i)) as [[t|m']|[t|m']|k e]; destruct (snd r); reflexivity.
  Qed.

  Lemma exact_elem_msg m rs : exact_elem (EM m) (WMsg rs) = VMsg (exact m rs).
  Proof. reflexivity. Qed.

  Lemma exact_elem_scalar t w : exact_elem (ES t) w = VScalar (mean_scalar t w).
  Proof. destruct w; reflexivity. Qed.
End Exact.

(** ** Reading computes it *)

Section Fields.
  Variable fuel : nat.
  Variable hard : bool.
  Variable sch : schema.
  Variable rec : nat -> list Z -> list value * res unit.

  Definition xrec_ok (n : nat) : Prop :=
    forall m rs bs, enc_recs rs bs -> fits sch m rs -> (length bs < n)%nat ->
    Zlen bs <= INT_MAX -> rec m bs = (exact sch m rs, Ok tt).

  Lemma xrec_ok_mono n n' : (n' <= n)%nat -> xrec_ok n -> xrec_ok n'.
  Proof. intros H R m rs bs E F L. apply R; auto. lia. Qed.

  Lemma object_read_x m rs bs pre rest :
    xrec_ok (length bs) -> enc_val (WMsg rs) bs -> fits sch m rs -> Zlen (bs ++ rest) <= INT_MAX ->
    deserializeObject hard rec m (pre ++ bs ++ rest) (cur pre (bs ++ rest))
    = Ok (exact sch m rs, cur (pre ++ bs) rest).
  Proof.
    intros R E F B. inversion E; subst.
    match goal with H : delimited _ _ |- _ => rename H into D end.
    match goal with H : enc_recs _ _ |- _ => rename H into Er end.
    pose proof (delimited_len _ _ D) as L.
    assert (Bc : Zlen content <= INT_MAX).
    { rewrite Zlen_app in B. pose proof (Zlen_nonneg rest). unfold Zlen in *. lia. }
    unfold deserializeObject. rewrite (delimited_read hard content) by assumption.
    cbn [bind]. now rewrite (R m rs content Er F L Bc).
  Qed.

  Lemma element_read_x e w bs pre rest :
    xrec_ok (length bs) -> enc_val w bs -> fits_elem sch e w -> Zlen (bs ++ rest) <= INT_MAX ->
    deserializeElement hard rec e (pre ++ bs ++ rest) (cur pre (bs ++ rest))
    = Ok (exact_elem sch e w, cur (pre ++ bs) rest).
  Proof.
    intros R E F B. destruct e as [t|m]; unfold deserializeElement.
    - rewrite (scalar_read hard t w) by (auto; destruct w; exact F).
      now rewrite exact_elem_scalar.
    - destruct w; try contradiction. now rewrite (object_read_x m rs bs pre rest R E F B).
  Qed.

  Lemma map_loop_read_x k e : forall es content n pre rest key val,
    xrec_ok (length content) -> enc_recs es content -> Forall (fits_entry sch k e) es ->
    (length content < n)%nat -> Zlen (content ++ rest) <= INT_MAX ->
    map_loop hard rec n k e (pre ++ content ++ rest) (cur pre (content ++ rest))
             (Zlen (pre ++ content)) key val
    = Ok (fold_left (exact_entry sch k e) es (key, val), cur (pre ++ content) rest).
  Proof.
    induction es as [|[num w] es IH]; intros content n pre rest key val R E F Hn B;
      inversion E; subst.
    - destruct n; [simpl in Hn; lia|].
      cbn [map_loop app cur it_pos fold_left]. now rewrite app_nil_r, Z.eqb_refl.
    - rename bs into eb, rest0 into more.
      match goal with H : enc_val w eb |- _ => rename H into Ew end.
      match goal with H : enc_recs es more |- _ => rename H into Es end.
      match goal with H : is_tag _ _ _ |- _ => rename H into T end.
      match goal with H : field_number _ |- _ => rename H into N end.
      inversion F as [|? ? F1 F2]; subst.
      pose proof (varint_enc_nonempty _ _ T) as NE.
      rewrite !app_length in Hn.
      destruct n; [lia|]. cbn [map_loop].
      replace (it_pos (cur pre ((tag ++ eb ++ more) ++ rest)) =? Zlen (pre ++ tag ++ eb ++ more))
        with false.
      2:{ symmetry. apply Z.eqb_neq. cbn [cur it_pos]. rewrite !Zlen_app. unfold Zlen. lia. }
      replace ((tag ++ eb ++ more) ++ rest) with (tag ++ eb ++ more ++ rest) in *
        by (now rewrite <- !app_assoc).
      rewrite (tag_read_ok num (wtype w)) by (auto using wtype_ok). cbn [bind].
      assert (B2 : Zlen (eb ++ more ++ rest) <= INT_MAX).
      { rewrite Zlen_app in B. pose proof (Zlen_nonneg tag). lia. }
      assert (B3 : Zlen (more ++ rest) <= INT_MAX).
      { rewrite Zlen_app in B2. pose proof (Zlen_nonneg eb). lia. }
      assert (R2 : xrec_ok (length eb)) by (apply (xrec_ok_mono (length (tag ++ eb ++ more))); auto;
        rewrite !app_length; lia).
      assert (R3 : xrec_ok (length more)) by (apply (xrec_ok_mono (length (tag ++ eb ++ more))); auto;
        rewrite !app_length; lia).
      replace (pre ++ tag ++ eb ++ more ++ rest) with ((pre ++ tag) ++ eb ++ more ++ rest)
        by (now rewrite <- !app_assoc).
      destruct F1 as [[N1 F1] | [N2 F1]]; cbn [fst snd] in *.
      + subst num. cbn [Z.eqb Pos.eqb].
        rewrite (scalar_read hard k w eb) by auto. cbn [bind].
        replace ((pre ++ tag) ++ eb ++ more ++ rest) with (((pre ++ tag) ++ eb) ++ more ++ rest)
          by (now rewrite <- !app_assoc).
        replace (pre ++ tag ++ eb ++ more) with (((pre ++ tag) ++ eb) ++ more)
          by (now rewrite <- !app_assoc).
        cbn [fold_left]. rewrite (IH more n ((pre ++ tag) ++ eb) rest) by (auto; lia). reflexivity.
      + subst num. cbn [Z.eqb Pos.eqb].
        rewrite (element_read_x e w eb (pre ++ tag) (more ++ rest) R2 Ew F1 B2). cbn [bind].
        replace ((pre ++ tag) ++ eb ++ more ++ rest) with (((pre ++ tag) ++ eb) ++ more ++ rest)
          by (now rewrite <- !app_assoc).
        replace (pre ++ tag ++ eb ++ more) with (((pre ++ tag) ++ eb) ++ more)
          by (now rewrite <- !app_assoc).
        cbn [fold_left]. rewrite (IH more n ((pre ++ tag) ++ eb) rest) by (auto; lia). reflexivity.
  Qed.

  Lemma map_pair_read_x k e es bs pre rest :
    xrec_ok (length bs) -> enc_val (WMsg es) bs -> Forall (fits_entry sch k e) es ->
    (length bs <= fuel)%nat -> Zlen (bs ++ rest) <= INT_MAX ->
    deserializeMapPair fuel hard rec k e (pre ++ bs ++ rest) (cur pre (bs ++ rest))
    = Ok (fold_left (exact_entry sch k e) es (default_scalar k, default_element e), cur (pre ++ bs) rest).
  Proof.
    intros R E F Hf B. inversion E; subst.
    match goal with H : delimited _ _ |- _ => rename H into D end.
    pose proof (delimited_len _ _ D) as L.
    destruct D as (len & V & ->).
    unfold deserializeMapPair.
    rewrite <- (app_assoc len content rest) in *.
    rewrite (varint_read 32 _ _ _ _ ltac:(lia) V). cbn [bind].
    assert (B2 : Zlen (content ++ rest) <= INT_MAX)
      by (rewrite Zlen_app in B; pose proof (Zlen_nonneg len); lia).
    rewrite (count_small content rest) by exact B2.
    rewrite plus_cur by exact B2. cbn [bind].
    change (it_pos (cur ((pre ++ len) ++ content) rest)) with (Zlen ((pre ++ len) ++ content)).
    rewrite (app_assoc pre len (content ++ rest)).
    rewrite (map_loop_read_x k e es content fuel (pre ++ len) rest); auto.
    - now rewrite <- app_assoc.
    - apply (xrec_ok_mono (length (len ++ content))); [lia | exact R].
    - lia.
  Qed.

  Lemma field_read_x ty old w bs pre rest :
    xrec_ok (length bs) -> enc_val w bs -> fits_field sch ty w ->
    (length bs <= fuel)%nat -> Zlen (bs ++ rest) <= INT_MAX ->
    deserializeField fuel hard rec ty old (pre ++ bs ++ rest) (cur pre (bs ++ rest))
    = Ok (exact_field sch ty old w, cur (pre ++ bs) rest).
  Proof.
    intros R E F Hf B. destruct ty as [[t|m]|[t|m]|k e]; unfold deserializeField.
    - cbn [fits_field] in F. rewrite (scalar_read hard t w) by (auto; destruct w; exact F).
      cbn [bind exact_field]. reflexivity.
    - cbn [fits_field] in F. destruct w; try contradiction.
      now rewrite (object_read_x m rs bs pre rest R E F B).
    - cbn [fits_field] in F. destruct (is_blob t) eqn:Bl.
      + rewrite (scalar_read hard t w) by auto. cbn [bind].
        unfold exact_field. destruct w; auto. destruct t; simpl in *; discriminate || contradiction.
      + destruct w; try contradiction.
        rewrite (packed_read hard t ws bs fuel pre rest E F Hf B). cbn [bind exact_field].
        rewrite map_map. destruct (is_enum t); reflexivity.
    - cbn [fits_field] in F. destruct w; try contradiction.
      now rewrite (object_read_x m rs bs pre rest R E F B).
    - cbn [fits_field] in F. destruct w; try contradiction.
      destruct F as [F _]. apply every_Forall in F.
      rewrite (map_pair_read_x k e rs bs pre rest R E F Hf B). cbn [exact_field].
      destruct (fold_left (exact_entry sch k e) rs (default_scalar k, default_element e)). reflexivity.
  Qed.
End Fields.

Section Loop.
  Variable hard : bool.
  Variable sch : schema.

  Lemma property_read_x fuel rec m num w tag bs pre rest obj :
    field_number num -> is_tag num (wtype w) tag -> enc_val w bs ->
    fits_record sch m (num, w) ->
    xrec_ok sch rec (length bs) -> (length bs <= fuel)%nat ->
    Zlen (tag ++ bs ++ rest) <= INT_MAX ->
    deserializeProperty fuel hard sch rec m (pre ++ tag ++ bs ++ rest) (cur pre (tag ++ bs ++ rest)) obj
    = Ok (exact_record sch m obj (num, w), cur (pre ++ tag ++ bs) rest).
  Proof.
    intros N T E F R Hf B.
    unfold deserializeProperty.
    rewrite (tag_read_ok num (wtype w)) by (auto using wtype_ok). cbn [bind negb].
    assert (B2 : Zlen (bs ++ rest) <= INT_MAX)
      by (rewrite Zlen_app in B; pose proof (Zlen_nonneg tag); lia).
    unfold fits_record, exact_record in *. cbn [fst snd] in *.
    rewrite (app_assoc pre tag (bs ++ rest)). rewrite (app_assoc pre tag bs).
    destruct (find_field (msg_at sch m) num) as [i|] eqn:Fi.
    - now rewrite (field_read_x fuel hard sch rec (f_ty (field_at sch m i)) (nth i obj VNull) w bs
                     (pre ++ tag) rest R E F Hf B2).
    - now rewrite (skip_read hard w) by assumption.
  Qed.

  Lemma loop_read_x : forall fuel m rs bs pre obj,
    enc_recs rs bs -> fits sch m rs -> (length bs < fuel)%nat -> Zlen bs <= INT_MAX ->
    deserialize_loop fuel hard sch m (pre ++ bs) (cur pre bs) obj
    = (fold_left (exact_record sch m) rs obj, Ok tt).
  Proof.
    induction fuel as [|fuel IH]; intros m rs bs pre obj E F Hf B; [lia|].
    assert (RO : xrec_ok sch (fun m' data' => deserialize_loop fuel hard sch m' data'
                   (it_begin data') (default_obj sch m')) fuel).
    { intros m1 rs1 bs1 E1 F1 L1 B1. rewrite exact_spec.
      exact (IH m1 rs1 bs1 [] (default_obj sch m1) E1 F1 L1 B1). }
    cbn [deserialize_loop].
    inversion E; subst.
    - cbn [cur it_pos]. now rewrite app_nil_r, Z.eqb_refl.
    - rename bs0 into pb, rest into more.
      match goal with H : enc_recs _ more |- _ => rename H into Er end.
      match goal with H : is_tag _ _ _ |- _ => rename H into T end.
      pose proof (varint_enc_nonempty _ _ T) as NE.
      replace (it_pos (cur pre (tag ++ pb ++ more)) =? Zlen (pre ++ tag ++ pb ++ more)) with false.
      2:{ symmetry. apply Z.eqb_neq. cbn [cur it_pos]. rewrite !Zlen_app. unfold Zlen. lia. }
      rewrite !app_length in Hf.
      apply fits_spec in F. inversion F as [|? ? F1 F2]; subst. apply fits_spec in F2.
      rewrite (property_read_x fuel _ m num w tag pb pre more obj ltac:(assumption) T
                  ltac:(assumption) F1 (xrec_ok_mono _ _ fuel (length pb) ltac:(lia) RO)
                  ltac:(lia) B).
      replace (pre ++ tag ++ pb ++ more) with ((pre ++ tag ++ pb) ++ more)
        by (now rewrite <- !app_assoc).
      cbn [fold_left].
      apply (IH m rs0 more (pre ++ tag ++ pb)); auto; try lia.
      rewrite !Zlen_app in B. pose proof (Zlen_nonneg tag). pose proof (Zlen_nonneg pb). lia.
  Qed.

  Lemma deserialize_read_x fuel m rs bs :
    enc_recs rs bs -> fits sch m rs -> (length bs < fuel)%nat -> Zlen bs <= INT_MAX ->
    deserializeMessage fuel hard sch m bs = (exact sch m rs, Ok tt).
  Proof.
    intros E F Hf B. rewrite exact_spec. exact (loop_read_x fuel m rs bs [] (default_obj sch m) E F Hf B).
  Qed.
End Loop.

Lemma run_read_x sch m rs bs : enc_recs rs bs -> fits sch m rs -> Zlen bs <= INT_MAX ->
  deserializes sch m bs (exact sch m rs) (Ok tt).
Proof.
  intros E F B. split; [discriminate|]. exists (Datatypes.S (length bs)).
  apply deserialize_read_x; auto. 
Qed.

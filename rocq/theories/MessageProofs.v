(** Reading of well-formed input: the deserializer computes what the records mean. *)

From Coq Require Import ZArith List Bool Lia ZifyBool.
From Verif Require Import Base WireModel Values MessageModel WireSpec MessageSpec WireProofs.
Import ListNotations.
Open Scope Z_scope.
Ltac Zify.zify_post_hook ::= Z.div_mod_to_equations.

(** ** The specification in terms of single records *)

Lemma every_Forall {A} (P : A -> Prop) l : every P l <-> Forall P l.
Proof.
  induction l as [|x l IH]; simpl.
  - split; auto.
  - split.
    + intros [H1 H2]. constructor; tauto.
    + intro H. inversion H; subst. tauto.
Qed.

Section Records.
  Variable sch : schema.

  Definition fits_entry (k : sty) (e : elty) (x : Z * wval) : Prop :=
    fst x = 1 /\ fits_scalar k (snd x) \/ fst x = 2 /\ fits_elem sch e (snd x).

  Definition fits_field (ty : fty) (w : wval) : Prop :=
    match ty, w with
    | FSing e', _ => fits_elem sch e' w
    | FRep (EM m'), _ => fits_elem sch (EM m') w
    | FRep (ES t), w' =>
        if is_blob t then fits_scalar t w'
        else match w' with WPacked ws => Forall (fits_scalar t) ws | _ => False end
    | FMap k e', WMsg es =>
        every (fits_entry k e') es
        /\ match e' with EM _ => In 2 (map fst es) | ES _ => True end
    | FMap _ _, _ => False
    end.

  Definition fits_record (m : nat) (r : Z * wval) : Prop :=
    match find_field (msg_at sch m) (fst r) with
    | None => fits_unknown (snd r)
    | Some i => fits_field (f_ty (field_at sch m i)) (snd r)
    end.

  Lemma fits_spec m rs : fits sch m rs <-> Forall (fits_record m) rs.
  Proof. rewrite <- every_Forall. reflexivity. Qed.

  Definition mean_entry (k : sty) (e : elty) (kv : scalar * value) (x : Z * wval)
    : scalar * value :=
    if fst x =? 1 then (mean_scalar k (snd x), snd kv) else (fst kv, mean_elem sch e (snd x)).

  Definition mean_field (ty : fty) (old : value) (w : wval) : value :=
    match ty, w with
    | FSing e', _ => mean_elem sch e' w
    | FRep (EM m'), _ => VList (list_of old ++ [mean_elem sch (EM m') w])
    | FRep (ES t), WPacked ws =>
        let l := map (fun x => VScalar (mean_scalar t x)) ws in
        if is_enum t then VList (list_of old ++ l) else VList l
    | FRep (ES t), w' => VList (list_of old ++ [VScalar (mean_scalar t w')])
    | FMap k e', WMsg es =>
        let kv := fold_left (mean_entry k e') es (default_scalar k, default_elem sch e') in
        VMap (map_insert k (fst kv) (snd kv) (map_of old))
    | FMap _ _, _ => old
    end.

  Definition mean_record (m : nat) (obj : list value) (r : Z * wval) : list value :=
    match find_field (msg_at sch m) (fst r) with
    | None => obj
    | Some i => update i (mean_field (f_ty (field_at sch m i)) (nth i obj VNull) (snd r)) obj
    end.

  Lemma fold_left_ext {A B} (f g : A -> B -> A) l : (forall a b, f a b = g a b) ->
    forall a, fold_left f l a = fold_left g l a.
  Proof. intro H. induction l; intro a'; simpl; auto. rewrite H. apply IHl. Qed.

  Lemma mean_spec m rs : mean sch m rs = fold_left (mean_record m) rs (default_obj sch m).
  Proof.
    unfold mean. cbn [mean_elem]. apply fold_left_ext. intros obj r.
    unfold mean_record. destruct (find_field (msg_at sch m) (fst r)) as [i|]; [|reflexivity].
    f_equal. unfold mean_field.
    destruct (f_ty (field_at sch m i)) as [e|[t|m']|k e]; destruct (snd r); reflexivity.
  Qed.

  Lemma mean_elem_msg m rs : mean_elem sch (EM m) (WMsg rs) = VMsg (mean sch m rs).
  Proof. reflexivity. Qed.

  Fixpoint canon_fields (fields : list field) (fs : list value) : list value :=
    match fields, fs with
    | f :: fields', x :: fs' => canon_field sch (f_ty f) x :: canon_fields fields' fs'
    | _, _ => []
    end.

  Lemma canon_obj_spec m fs : canon_obj sch m fs = canon_fields (md_fields (msg_at sch m)) fs.
  Proof.
    unfold canon_obj. cbn [canon_elem].
    generalize (md_fields (msg_at sch m)). intro fields. revert fs.
    induction fields as [|f fields IH]; intros [|x fs]; auto.
    cbn [canon_fields]. f_equal; [|apply IH].
    unfold canon_field. destruct (f_ty f); auto; destruct x; reflexivity.
  Qed.

  Lemma canon_elem_scalar t v : canon_elem sch (ES t) v = VScalar (canon_scalar t (scalar_of v)).
  Proof. destruct v; reflexivity. Qed.

  Lemma canon_elem_msg m fs : canon_elem sch (EM m) (VMsg fs) = VMsg (canon_obj sch m fs).
  Proof. reflexivity. Qed.

  Lemma canon_fields_length fields fs : length fs = length fields ->
    length (canon_fields fields fs) = length fields.
  Proof.
    revert fs. induction fields; intros [|x fs] H; simpl in *; try lia. now rewrite IHfields by lia.
  Qed.

  Lemma canon_fields_nth fields : forall fs i, length fs = length fields -> (i < length fields)%nat ->
    nth i (canon_fields fields fs) VNull
    = canon_field sch (f_ty (nth i fields dummy_field)) (nth i fs VNull).
  Proof.
    induction fields as [|f fields IH]; intros [|x fs] i H Hi; simpl in *; try lia.
    destruct i; [reflexivity|]. apply IH; lia.
  Qed.

  Lemma canon_fields_update fields : forall fs i v, length fs = length fields ->
    canon_fields fields (update i v fs)
    = update i (canon_field sch (f_ty (nth i fields dummy_field)) v) (canon_fields fields fs).
  Proof.
    induction fields as [|f fields IH]; intros [|x fs] i v H; simpl in *; try lia.
    - destruct i; reflexivity.
    - destruct i; simpl; [reflexivity|]. f_equal. apply IH. lia.
  Qed.
End Records.

Lemma update_length i v l : length (update i v l) = length l.
Proof. revert i. induction l; intros [|i]; simpl; auto. Qed.

Lemma default_obj_length sch m : length (default_obj sch m) = length (md_fields (msg_at sch m)).
Proof. unfold default_obj. apply map_length. Qed.

Lemma find_from_range fs : forall i num j,
  find_from i fs num = Some j ->
  (i <= j < i + length fs)%nat /\ f_num (nth (j - i) fs dummy_field) = num.
Proof.
  induction fs as [|f fs IH]; intros i num j H; simpl in H; [discriminate|].
  destruct (f_num f =? num) eqn:E.
  - injection H as <-. cbn [length]. split; [lia|]. rewrite Nat.sub_diag. simpl. lia.
  - apply IH in H. cbn [length]. destruct H as [H1 H2]. split; [lia|].
    replace (j - i)%nat with (S (j - S i)) by lia. exact H2.
Qed.

Lemma find_field_range md num i : find_field md num = Some i ->
  (i < length (md_fields md))%nat /\ f_num (nth i (md_fields md) dummy_field) = num.
Proof.
  intro H. apply find_from_range in H. rewrite Nat.sub_0_r in H. lia.
Qed.

(** ** Canonical scalars *)

Lemma list_eqb_Z a b : list_eqb Z.eqb a b = true <-> a = b.
Proof.
  revert b. induction a as [|x a IH]; intros [|y b]; simpl; split; intro H;
    try discriminate; try reflexivity.
  - apply andb_prop in H. destruct H as [H1 H2]. apply IH in H2. f_equal; [lia | exact H2].
  - injection H as -> ->. rewrite Z.eqb_refl. simpl. now apply IH.
Qed.

Lemma feqb_canon w e a b : feqb w e a b = true ->
  (if a mod 2 ^ (w - 1) =? 0 then 0 else a) = (if b mod 2 ^ (w - 1) =? 0 then 0 else b).
Proof.
  unfold feqb, is_fzero. intro H.
  apply andb_prop in H. destruct H as [_ H]. apply orb_prop in H. destruct H as [H | H].
  - assert (a = b) by lia. now subst.
  - apply andb_prop in H. destruct H as [-> ->]. reflexivity.
Qed.

Lemma scalar_eqb_canon t a b : scalar_eqb t a b = true -> canon_scalar t a = canon_scalar t b.
Proof.
  unfold scalar_eqb, canon_scalar.
  destruct t; cbn [is_blob]; intro H;
    try (f_equal; lia);
    try (f_equal; apply list_eqb_Z; exact H).
  - f_equal. apply (feqb_canon 32 8 _ _ H).
  - f_equal. apply (feqb_canon 64 11 _ _ H).
Qed.

Lemma store_scalar_canon t old new : canon_scalar t (store_scalar t old new) = canon_scalar t new.
Proof.
  unfold store_scalar. destruct (scalar_eqb t old new) eqn:E; [|reflexivity].
  now apply scalar_eqb_canon.
Qed.

Lemma list_eqb_canon t : forall a b,
  list_eqb (scalar_eqb t) a b = true -> map (canon_scalar t) a = map (canon_scalar t) b.
Proof.
  induction a as [|x a IH]; intros [|y b] H; simpl in *; try discriminate; auto.
  apply andb_prop in H. destruct H as [H1 H2]. apply scalar_eqb_canon in H1.
  apply IH in H2. congruence.
Qed.

Lemma store_scalars_canon sch t old new :
  map (canon_elem sch (ES t)) (store_scalars t old new) = map (canon_elem sch (ES t)) new.
Proof.
  unfold store_scalars.
  destruct (list_eqb (scalar_eqb t) (map scalar_of old) (map scalar_of new)) eqn:E; [|reflexivity].
  apply list_eqb_canon in E. rewrite !map_map in E.
  transitivity (map VScalar (map (fun x => canon_scalar t (scalar_of x)) old)).
  - rewrite map_map. apply map_ext. intros []; reflexivity.
  - rewrite E. rewrite map_map. apply map_ext. intros []; reflexivity.
Qed.

Lemma bytes_ltb_tri : forall a b, bytes_ltb a b = false -> bytes_ltb b a = false -> a = b.
Proof.
  induction a as [|x a IH]; intros [|y b] H1 H2; simpl in *; try discriminate; auto.
  apply orb_false_elim in H1. apply orb_false_elim in H2.
  destruct H1 as [A1 B1], H2 as [A2 B2].
  assert (x = y) by lia. subst y. rewrite Z.eqb_refl in *. cbn [andb] in *.
  f_equal. now apply IH.
Qed.

Lemma key_tri t a b : key_type t -> key_ltb t a b = false -> key_ltb t b a = false ->
  canon_scalar t a = canon_scalar t b.
Proof.
  unfold key_ltb, canon_scalar. intros K H1 H2.
  destruct t; cbn [is_blob key_type] in *; try contradiction;
    try (f_equal; apply bytes_ltb_tri; assumption); f_equal; lia.
Qed.

Lemma key_ltb_canon t a b : key_type t ->
  key_ltb t (canon_scalar t a) (canon_scalar t b) = key_ltb t a b.
Proof.
  unfold key_ltb, canon_scalar.
  destruct t; cbn [is_blob key_type]; intro K; try contradiction; reflexivity.
Qed.

Definition canon_map (sch : schema) (k : sty) (e : elty) (l : list (scalar * value)) :=
  map (fun p => (canon_scalar k (fst p), canon_elem sch e (snd p))) l.

Lemma map_insert_canon sch k e key v l : key_type k ->
  canon_map sch k e (map_insert k key v l)
  = map_insert k (canon_scalar k key) (canon_elem sch e v) (canon_map sch k e l).
Proof.
  intro K. induction l as [|[k' v'] l IH]; [reflexivity|].
  cbn [map_insert canon_map map fst snd].
  rewrite !key_ltb_canon by exact K.
  destruct (key_ltb k key k'); [reflexivity|].
  destruct (key_ltb k k' key); [|reflexivity].
  cbn [map fst snd]. f_equal. apply IH.
Qed.

Lemma store_map_canon sch k e old new : key_type k ->
  canon_map sch k e (store_map k e old new) = canon_map sch k e new.
Proof.
  intro K. unfold store_map. destruct e as [t|m]; [|reflexivity].
  match goal with |- context [list_eqb ?f old new] => set (eq := f) end.
  destruct (list_eqb eq old new) eqn:E; [|reflexivity].
  revert new E. induction old as [|p old IH]; intros [|q new] E; simpl in E; try discriminate; auto.
  apply andb_prop in E. destruct E as [E1 E2]. apply IH in E2.
  unfold eq in E1. apply andb_prop in E1. destruct E1 as [E1 E3].
  apply andb_prop in E1. destruct E1 as [E0 E1].
  cbn [canon_map map]. unfold canon_map in E2. rewrite E2. f_equal. f_equal.
  - apply key_tri; [exact K| |]; now apply negb_true_iff.
  - apply scalar_eqb_canon in E3.
    rewrite !canon_elem_scalar. f_equal. exact E3.
Qed.

(** ** Reading scalars *)

Lemma wrap_id w v : in_u w v -> wrapU w v = v.
Proof. apply wrapU_small. Qed.

Lemma mod64_32 v : (v mod 2 ^ 64) mod 2 ^ 32 = v mod 2 ^ 32.
Proof.
  change (2 ^ 64) with (2 ^ 32 * 2 ^ 32). rewrite Z.rem_mul_r by lia.
  rewrite Z.mul_comm, Z.mod_add by lia. apply Z.mod_mod. lia.
Qed.

Lemma le_number_bound bs : bytes bs -> 0 <= le_number bs < 2 ^ (8 * Zlen bs).
Proof.
  induction 1 as [|b bs Hb H IH].
  - unfold le_number. simpl. lia.
  - cbn [le_number fold_right]. fold (le_number bs). rewrite Zlen_cons.
    replace (8 * (1 + Zlen bs)) with (8 + 8 * Zlen bs) by lia.
    rewrite Z.pow_add_r; [|lia | pose proof (Zlen_nonneg bs); lia].
    unfold is_byte in Hb. change (2 ^ 8) with 256. lia.
Qed.

Lemma is_le_range n v bs : is_le n v bs -> in_u (8 * Z.of_nat n) v.
Proof.
  intros (L & B & <-). unfold in_u. pose proof (le_number_bound bs B) as H.
  unfold Zlen in H. rewrite L in H. exact H.
Qed.

Lemma unzz_unzigzag u : unzz u = unzigzag u.
Proof. reflexivity. Qed.

Lemma scalar_read hard t w bs pre rest :
  enc_val w bs -> fits_scalar t w -> Zlen (bs ++ rest) <= INT_MAX ->
  deserializeBasic hard t (pre ++ bs ++ rest) (cur pre (bs ++ rest))
  = Ok (mean_scalar t w, cur (pre ++ bs) rest).
Proof.
  intros E F B.
  assert (F4 : forall v, is_le 4 v bs -> deserializeFixed hard 4 (pre ++ bs ++ rest) (cur pre (bs ++ rest))
                = Ok (v, cur (pre ++ bs) rest)).
  { intros v (L & _ & <-). apply fixed_read; [unfold Zlen; now rewrite L | exact B]. }
  assert (F8 : forall v, is_le 8 v bs -> deserializeFixed hard 8 (pre ++ bs ++ rest) (cur pre (bs ++ rest))
                = Ok (v, cur (pre ++ bs) rest)).
  { intros v (L & _ & <-). apply fixed_read; [unfold Zlen; now rewrite L | exact B]. }
  assert (V32 : forall v, wire_varint v bs -> deserializeVarintCommon 32 (pre ++ bs ++ rest) (cur pre (bs ++ rest))
                = Ok (wrapU 32 v, cur (pre ++ bs) rest)).
  { intros v V. apply varint_read; [lia | exact V]. }
  assert (V64 : forall v, wire_varint v bs -> deserializeVarintCommon 64 (pre ++ bs ++ rest) (cur pre (bs ++ rest))
                = Ok (wrapU 64 v, cur (pre ++ bs) rest)).
  { intros v V. apply varint_read; [lia | exact V]. }
  assert (LD : forall c, delimited c bs -> deserializeLengthDelimited hard (pre ++ bs ++ rest) (cur pre (bs ++ rest))
                = Ok (c, cur (pre ++ bs) rest)).
  { intros c D. apply delimited_read; assumption. }
  destruct t; destruct w; cbn [fits_scalar] in F; try contradiction;
    inversion E; subst; unfold deserializeBasic;
    repeat match goal with
           | H : wire_varint _ _ |- _ => first [rewrite (V32 _ H) | rewrite (V64 _ H)]; cbn [bind]; clear H
           | H : is_le 4 _ _ |- _ => rewrite (F4 _ H); cbn [bind]
           | H : is_le 8 _ _ |- _ => rewrite (F8 _ H); cbn [bind]
           | H : delimited _ _ |- _ => rewrite (LD _ H); cbn [bind]; clear H
           end;
    unfold mean_scalar; cbn [payload_num payload_bytes];
    try reflexivity.
  - now rewrite toS_wrap by lia.
  - now rewrite toS_wrap by lia.
  - now rewrite wrap_id.
  - rewrite unZigZag_any; [reflexivity | lia | apply wrapU_range; lia].
  - rewrite unZigZag_any, wrap_id; auto; [lia | now apply wrapU_range].
  - unfold wrapU. destruct F as [-> | F]; [reflexivity |].
    rewrite (proj2 (Z.eqb_neq _ _) F). destruct (Z.eqb_spec v 0) as [-> | _]; [exfalso; now apply F | reflexivity].
  - do 3 f_equal. unfold toS at 1, twos. cbv zeta.
    assert (X : toS 64 (wrapU 64 v) mod 2 ^ 32 = v mod 2 ^ 32).
    { rewrite toS_wrap by lia.
      rewrite <- mod64_32. change (toS 64 v mod 2 ^ 64) with (wrapU 64 (toS 64 v)).
      rewrite wrap_toS by lia. unfold wrapU. now rewrite mod64_32. }
    now rewrite X.
Qed.

Lemma varint_enc_nonempty v bs : wire_varint v bs -> (0 < length bs)%nat.
Proof. intros [V _]. apply is_varint_nonnil in V. destruct bs; [congruence | simpl; lia]. Qed.

Lemma delimited_nonempty c bs : delimited c bs -> (length c < length bs)%nat.
Proof.
  intros (len & V & ->). apply varint_enc_nonempty in V. rewrite app_length. lia.
Qed.

Lemma enc_val_nonempty w bs : enc_val w bs -> (0 < length bs)%nat.
Proof.
  destruct 1 as [v bs _ V|v bs (L & _)|v bs (L & _)|c bs _ D|ws c bs _ D|rs c bs _ D]; try lia;
    try (apply varint_enc_nonempty in V; lia); apply delimited_nonempty in D; lia.
Qed.

(** ** Packed lists *)

Lemma list_loop_read hard t ws : forall content fuel pre rest,
  enc_elems ws content -> Forall (fits_scalar t) ws -> (length content < fuel)%nat ->
  Zlen (content ++ rest) <= INT_MAX ->
  list_loop fuel hard t (pre ++ content ++ rest) (cur pre (content ++ rest)) (Zlen (pre ++ content))
  = Ok (map (mean_scalar t) ws, cur (pre ++ content) rest).
Proof.
  induction ws as [|w ws IH]; intros content fuel pre rest E F Hf B; inversion E; subst.
  - destruct fuel; [lia|]. cbn [list_loop app cur it_pos].
    rewrite app_nil_r. rewrite Z.eqb_refl. reflexivity.
  - rename bs into eb, rest0 into more.
    match goal with H : enc_val w eb |- _ => rename H into Ew end.
    match goal with H : enc_elems ws more |- _ => rename H into Es end.
    inversion F; subst.
    pose proof (enc_val_nonempty _ _ Ew) as NE.
    destruct fuel; [lia|]. cbn [list_loop].
    rewrite app_length in Hf.
    replace (it_pos (cur pre ((eb ++ more) ++ rest)) =? Zlen (pre ++ eb ++ more)) with false.
    2:{ symmetry. apply Z.eqb_neq. cbn [cur it_pos]. rewrite !Zlen_app. unfold Zlen. lia. }
    rewrite <- (app_assoc eb more rest) in *.
    rewrite (scalar_read hard t w eb) by auto. cbn [bind].
    rewrite (app_assoc pre eb (more ++ rest)).
    rewrite (app_assoc pre eb more).
    rewrite IH; auto.
    + lia.
    + rewrite Zlen_app in B. pose proof (Zlen_nonneg eb). lia.
Qed.

Lemma count_small (c rest : list Z) : Zlen (c ++ rest) <= INT_MAX -> toS 32 (wrapU 32 (Zlen c)) = Zlen c.
Proof.
  intro B. rewrite Zlen_app in B. unfold INT_MAX in B.
  pose proof (Zlen_nonneg c). pose proof (Zlen_nonneg rest).
  rewrite toS_wrap by lia. apply toS_small; [lia|]. unfold in_s. lia.
Qed.

Lemma packed_read hard t ws bs fuel pre rest :
  enc_val (WPacked ws) bs -> Forall (fits_scalar t) ws -> (length bs <= fuel)%nat ->
  Zlen (bs ++ rest) <= INT_MAX ->
  deserializeListNumeric fuel hard t (pre ++ bs ++ rest) (cur pre (bs ++ rest))
  = Ok (map (mean_scalar t) ws, cur (pre ++ bs) rest).
Proof.
  intros E F Hf B. inversion E; subst.
  match goal with H : delimited _ _ |- _ => destruct H as (len & V & ->) end.
  unfold deserializeListNumeric.
  rewrite <- (app_assoc len content rest) in *.
  rewrite (varint_read 32 _ _ _ _ ltac:(lia) V). cbn [bind].
  assert (B2 : Zlen (content ++ rest) <= INT_MAX)
    by (rewrite Zlen_app in B; pose proof (Zlen_nonneg len); lia).
  rewrite (count_small content rest) by exact B2.
  rewrite plus_cur by exact B2. cbn [bind].
  change (it_pos (cur ((pre ++ len) ++ content) rest)) with (Zlen ((pre ++ len) ++ content)).
  rewrite (app_assoc pre len (content ++ rest)).
  rewrite (list_loop_read hard t ws); auto.
  - now rewrite <- app_assoc.
  - apply varint_enc_nonempty in V. rewrite app_length in Hf. lia.
Qed.

(** ** Nested messages, map entries, fields *)

Section Fields.
  Variable fuel : nat.
  Variable hard : bool.
  Variable sch : schema.
  Variable rec : nat -> list Z -> list value * res unit.

  (** The reader of nested messages works for data shorter than [n]. *)
  Definition rec_ok (n : nat) : Prop :=
    forall m rs bs, enc_recs rs bs -> fits sch m rs -> (length bs < n)%nat ->
    Zlen bs <= INT_MAX ->
    exists r, rec m bs = (r, Ok tt) /\ canon_obj sch m r = canon_obj sch m (mean sch m rs).

  Lemma delimited_len c bs : delimited c bs -> (length c < length bs)%nat.
  Proof. apply delimited_nonempty. Qed.

  Lemma object_read m rs bs pre rest :
    rec_ok (length bs) -> enc_val (WMsg rs) bs -> fits sch m rs -> Zlen (bs ++ rest) <= INT_MAX ->
    exists r, deserializeObject hard rec m (pre ++ bs ++ rest) (cur pre (bs ++ rest))
              = Ok (r, cur (pre ++ bs) rest)
              /\ canon_obj sch m r = canon_obj sch m (mean sch m rs).
  Proof.
    intros R E F B. inversion E; subst.
    match goal with H : delimited _ _ |- _ => rename H into D end.
    match goal with H : enc_recs _ _ |- _ => rename H into Er end.
    pose proof (delimited_len _ _ D) as L.
    assert (Bc : Zlen content <= INT_MAX).
    { rewrite Zlen_app in B. pose proof (Zlen_nonneg rest). unfold Zlen in *. lia. }
    destruct (R m rs content Er F L Bc) as (r & Hr & Hc).
    exists r. split; [|exact Hc].
    unfold deserializeObject. rewrite (delimited_read hard content) by assumption.
    cbn [bind]. now rewrite Hr.
  Qed.

  Lemma element_read e w bs pre rest :
    rec_ok (length bs) -> enc_val w bs -> fits_elem sch e w -> Zlen (bs ++ rest) <= INT_MAX ->
    exists v, deserializeElement hard rec e (pre ++ bs ++ rest) (cur pre (bs ++ rest))
              = Ok (v, cur (pre ++ bs) rest)
              /\ canon_elem sch e v = canon_elem sch e (mean_elem sch e w).
  Proof.
    intros R E F B. destruct e as [t|m].
    - exists (VScalar (mean_scalar t w)). split.
      + unfold deserializeElement.
        rewrite (scalar_read hard t w); auto. destruct w; exact F.
      + destruct w; reflexivity.
    - destruct w; try contradiction.
      destruct (object_read m rs bs pre rest R E F B) as (r & Hr & Hc).
      exists (VMsg r). split.
      + unfold deserializeElement. now rewrite Hr.
      + rewrite mean_elem_msg, !canon_elem_msg. now rewrite Hc.
  Qed.

  Lemma rec_ok_mono n n' : (n' <= n)%nat -> rec_ok n -> rec_ok n'.
  Proof. intros H R m rs bs E F L. apply R; auto. lia. Qed.

  Lemma wtype_ok w : In (wtype w) wire_types.
  Proof. destruct w; simpl; auto. Qed.

  Lemma entry_num num : num = 1 \/ num = 2 -> field_number num.
  Proof. unfold field_number. lia. Qed.

  Lemma map_loop_read k e : forall es content n pre rest key key' val val',
    rec_ok (length content) -> enc_recs es content -> Forall (fits_entry sch k e) es ->
    (length content < n)%nat -> Zlen (content ++ rest) <= INT_MAX ->
    canon_scalar k key = canon_scalar k key' ->
    (canon_elem sch e val = canon_elem sch e val' \/ In 2 (map fst es)) ->
    exists key1 val1,
      map_loop hard rec n k e (pre ++ content ++ rest) (cur pre (content ++ rest))
               (Zlen (pre ++ content)) key val
      = Ok (key1, val1, cur (pre ++ content) rest)
      /\ canon_scalar k key1 = canon_scalar k (fst (fold_left (mean_entry sch k e) es (key', val')))
      /\ canon_elem sch e val1
         = canon_elem sch e (snd (fold_left (mean_entry sch k e) es (key', val'))).
  Proof.
    induction es as [|[num w] es IH]; intros content n pre rest key key' val val' R E F Hn B Hk Hv;
      inversion E; subst.
    - destruct n; [simpl in Hn; lia|]. exists key, val.
      cbn [map_loop app cur it_pos fold_left fst snd]. rewrite app_nil_r, Z.eqb_refl.
      split; [reflexivity|]. split; [exact Hk|]. destruct Hv as [Hv | []]. exact Hv.
    - rename bs into eb, rest0 into more.
      match goal with H : enc_val w eb |- _ => rename H into Ew end.
      match goal with H : enc_recs es more |- _ => rename H into Es end.
      match goal with H : is_tag _ _ _ |- _ => rename H into T end.
      match goal with H : field_number _ |- _ => rename H into N end.
      inversion F as [|? ? F1 F2]; subst.
      pose proof (varint_enc_nonempty _ _ T) as NE.
      rewrite !app_length in Hn.
      destruct n; [lia|]. cbn [map_loop].
      replace (it_pos (cur pre ((tag ++ eb ++ more) ++ rest)) =? Zlen (pre ++ tag ++ eb ++ more))
        with false.
      2:{ symmetry. apply Z.eqb_neq. cbn [cur it_pos]. rewrite !Zlen_app. unfold Zlen. lia. }
      replace ((tag ++ eb ++ more) ++ rest) with (tag ++ eb ++ more ++ rest) in *
        by (now rewrite <- !app_assoc).
      rewrite (tag_read_ok num (wtype w)) by (auto using wtype_ok). cbn [bind].
      assert (B2 : Zlen (eb ++ more ++ rest) <= INT_MAX).
      { rewrite Zlen_app in B. pose proof (Zlen_nonneg tag). lia. }
      assert (B3 : Zlen (more ++ rest) <= INT_MAX).
      { rewrite Zlen_app in B2. pose proof (Zlen_nonneg eb). lia. }
      assert (R2 : rec_ok (length eb)) by (apply (rec_ok_mono (length (tag ++ eb ++ more))); auto;
        rewrite !app_length; lia).
      assert (R3 : rec_ok (length more)) by (apply (rec_ok_mono (length (tag ++ eb ++ more))); auto;
        rewrite !app_length; lia).
      replace (pre ++ tag ++ eb ++ more ++ rest) with ((pre ++ tag) ++ eb ++ more ++ rest)
        by (now rewrite <- !app_assoc).
      destruct F1 as [[N1 F1] | [N2 F1]]; cbn [fst snd] in *.
      + subst num. cbn [Z.eqb Pos.eqb].
        rewrite (scalar_read hard k w eb) by auto. cbn [bind].
        replace ((pre ++ tag) ++ eb ++ more ++ rest) with (((pre ++ tag) ++ eb) ++ more ++ rest)
          by (now rewrite <- !app_assoc).
        replace (pre ++ tag ++ eb ++ more) with (((pre ++ tag) ++ eb) ++ more)
          by (now rewrite <- !app_assoc).
        cbn [fold_left]. unfold mean_entry at 2 4. cbn [fst snd Z.eqb Pos.eqb].
        apply (IH more n ((pre ++ tag) ++ eb) rest (mean_scalar k w) (mean_scalar k w) val val');
          auto; [lia|].
        destruct Hv as [Hv | [Hv | Hv]]; [now left | discriminate Hv | now right].
      + subst num. cbn [Z.eqb Pos.eqb].
        destruct (element_read e w eb (pre ++ tag) (more ++ rest) R2 Ew F1 B2) as (v & Hr & Hc).
        rewrite Hr. cbn [bind].
        replace ((pre ++ tag) ++ eb ++ more ++ rest) with (((pre ++ tag) ++ eb) ++ more ++ rest)
          by (now rewrite <- !app_assoc).
        replace (pre ++ tag ++ eb ++ more) with (((pre ++ tag) ++ eb) ++ more)
          by (now rewrite <- !app_assoc).
        cbn [fold_left]. unfold mean_entry at 2 4. cbn [fst snd Z.eqb Pos.eqb].
        apply (IH more n ((pre ++ tag) ++ eb) rest key key' v (mean_elem sch e w)); auto; lia.
  Qed.

  Lemma map_pair_read k e es bs pre rest :
    rec_ok (length bs) -> enc_val (WMsg es) bs ->
    Forall (fits_entry sch k e) es -> (match e with EM _ => In 2 (map fst es) | ES _ => True end) ->
    (length bs <= fuel)%nat -> Zlen (bs ++ rest) <= INT_MAX ->
    exists key val,
      deserializeMapPair fuel hard rec k e (pre ++ bs ++ rest) (cur pre (bs ++ rest))
      = Ok (key, val, cur (pre ++ bs) rest)
      /\ let kv := fold_left (mean_entry sch k e) es (default_scalar k, default_elem sch e) in
         canon_scalar k key = canon_scalar k (fst kv)
         /\ canon_elem sch e val = canon_elem sch e (snd kv).
  Proof.
    intros R E F V2 Hf B. inversion E; subst.
    match goal with H : delimited _ _ |- _ => rename H into D end.
    pose proof (delimited_len _ _ D) as L.
    destruct D as (len & V & ->).
    unfold deserializeMapPair.
    rewrite <- (app_assoc len content rest) in *.
    rewrite (varint_read 32 _ _ _ _ ltac:(lia) V). cbn [bind].
    assert (B2 : Zlen (content ++ rest) <= INT_MAX)
      by (rewrite Zlen_app in B; pose proof (Zlen_nonneg len); lia).
    rewrite (count_small content rest) by exact B2.
    rewrite plus_cur by exact B2. cbn [bind].
    change (it_pos (cur ((pre ++ len) ++ content) rest)) with (Zlen ((pre ++ len) ++ content)).
    rewrite (app_assoc pre len (content ++ rest)).
    destruct (map_loop_read k e es content fuel (pre ++ len) rest (default_scalar k) (default_scalar k)
                (default_element e) (default_elem sch e)) as (key & val & H1 & H2 & H3); auto.
    - apply (rec_ok_mono (length (len ++ content))); [lia | exact R].
    - lia.
    - destruct e; [left; reflexivity | right; exact V2].
    - exists key, val. rewrite H1. rewrite <- app_assoc. auto.
  Qed.

  Lemma field_read ty old old' w bs pre rest :
    (match ty with FMap k _ => key_type k | _ => True end) ->
    rec_ok (length bs) -> enc_val w bs -> fits_field sch ty w ->
    (length bs <= fuel)%nat -> Zlen (bs ++ rest) <= INT_MAX ->
    canon_field sch ty old = canon_field sch ty old' ->
    exists v, deserializeField fuel hard rec ty old (pre ++ bs ++ rest) (cur pre (bs ++ rest))
              = Ok (v, cur (pre ++ bs) rest)
              /\ canon_field sch ty v = canon_field sch ty (mean_field sch ty old' w).
  Proof.
    intros K R E F Hf B Ho. destruct ty as [[t|m]|[t|m]|k e].
    - (* singular scalar *)
      unfold deserializeField. cbn [fits_field] in F.
      rewrite (scalar_read hard t w) by (auto; destruct w; exact F). cbn [bind].
      eexists; split; [reflexivity|].
      cbn [canon_field mean_field].
      replace (mean_elem sch (ES t) w) with (VScalar (mean_scalar t w)) by (destruct w; reflexivity).
      cbn [canon_elem scalar_of collapse]. now rewrite store_scalar_canon.
    - (* singular message *)
      cbn [fits_field] in F. destruct w; try contradiction.
      destruct (object_read m rs bs pre rest R E F B) as (r & Hr & Hc).
      exists (VMsg r). split.
      + unfold deserializeField. rewrite Hr. reflexivity.
      + cbn [canon_field mean_field]. rewrite mean_elem_msg, !canon_elem_msg. now rewrite Hc.
    - (* repeated scalar *)
      cbn [fits_field] in F. unfold deserializeField.
      cbn [canon_field] in Ho. injection Ho as Ho.
      destruct (is_blob t) eqn:Bl.
      + rewrite (scalar_read hard t w) by auto. cbn [bind].
        eexists; split; [reflexivity|].
        cbn [canon_field list_of].
        assert (M : mean_field sch (FRep (ES t)) old' w
                    = VList (list_of old' ++ [VScalar (mean_scalar t w)])).
        { unfold mean_field. destruct w; auto. destruct t; simpl in *; discriminate || contradiction. }
        rewrite M. cbn [list_of]. rewrite store_scalars_canon, !map_app. now rewrite Ho.
      + destruct w; try contradiction.
        assert (P := packed_read hard t ws bs fuel pre rest E F Hf B).
        rewrite P. cbn [bind].
        destruct (is_enum t) eqn:En.
        * eexists; split; [reflexivity|].
          cbn [canon_field mean_field list_of]. rewrite En. cbn [list_of].
          rewrite store_scalars_canon, !map_app, Ho. now rewrite !map_map.
        * eexists; split; [reflexivity|].
          cbn [canon_field mean_field list_of]. rewrite En. cbn [list_of].
          rewrite store_scalars_canon. now rewrite !map_map.
    - (* repeated message *)
      cbn [fits_field] in F. destruct w; try contradiction.
      cbn [canon_field] in Ho. injection Ho as Ho.
      destruct (object_read m rs bs pre rest R E F B) as (r & Hr & Hc).
      eexists. split.
      + unfold deserializeField. rewrite Hr. reflexivity.
      + cbn [canon_field mean_field list_of]. rewrite !map_app, Ho. do 2 f_equal.
        cbn [map]. rewrite mean_elem_msg, !canon_elem_msg. now rewrite Hc.
    - (* map *)
      cbn [fits_field] in F. destruct w; try contradiction.
      cbn [canon_field] in Ho. injection Ho as Ho. fold (canon_map sch k e (map_of old)) in Ho.
      fold (canon_map sch k e (map_of old')) in Ho.
      destruct F as [F V2]. apply every_Forall in F.
      destruct (map_pair_read k e rs bs pre rest R E F V2 Hf B) as (key & val & H1 & H2 & H3).
      unfold deserializeField. rewrite H1. cbn [bind].
      eexists; split; [reflexivity|].
      cbn [canon_field mean_field map_of].
      fold (canon_map sch k e (store_map k e (map_of old) (map_insert k key val (map_of old)))).
      rewrite store_map_canon, map_insert_canon by exact K.
      match goal with |- _ = VMap (map _ (map_insert k ?a ?b ?l)) =>
        fold (canon_map sch k e (map_insert k a b l)) end.
      rewrite map_insert_canon by exact K. rewrite H2, H3, Ho. reflexivity.
  Qed.
End Fields.

(** ** Unknown fields *)

Lemma skipVarint_read v bs : is_varint v bs -> forall n pre rest, (length bs <= n)%nat ->
  skipVarint n (pre ++ bs ++ rest) (cur pre (bs ++ rest)) = Ok (cur (pre ++ bs) rest).
Proof.
  induction 1 as [b Hb|b v bs Hb V IH]; intros n pre rest Hn; (destruct n; [simpl in Hn; lia|]);
    cbn [skipVarint app].
  - rewrite deref_cur. cbn [bind]. rewrite incr_cur. cbn [bind].
    rewrite land128 by lia. replace (b <? 128) with true by lia. reflexivity.
  - rewrite deref_cur. cbn [bind]. rewrite incr_cur. cbn [bind].
    rewrite land128 by lia. replace (b + 128 <? 128) with false by lia.
    replace (pre ++ b + 128 :: bs ++ rest) with ((pre ++ [b + 128]) ++ bs ++ rest)
      by (now rewrite <- app_assoc).
    rewrite IH by (simpl in Hn; lia). now rewrite <- app_assoc.
Qed.

Lemma skip_read hard w bs pre rest :
  enc_val w bs -> fits_unknown w -> Zlen (bs ++ rest) <= INT_MAX ->
  skipSerializedFieldBytes hard (pre ++ bs ++ rest) (cur pre (bs ++ rest)) (wtype w)
  = Ok (cur (pre ++ bs) rest).
Proof.
  intros E F B. unfold skipSerializedFieldBytes.
  destruct w; try contradiction; inversion E; subst; cbn [wtype];
    change WVarintT with 0; change WFixed32T with 5; change WFixed64T with 1;
    change WLengthDelimitedT with 2; cbn [Z.eqb Pos.eqb].
  - match goal with H : wire_varint _ _ |- _ => destruct H as [V L] end.
    apply (skipVarint_read _ _ V). rewrite !app_length. lia.
  - match goal with H : is_le _ _ _ |- _ => destruct H as (L & _) end.
    replace 8 with (Zlen bs) by (unfold Zlen; lia). now apply advance_cur.
  - match goal with H : is_le _ _ _ |- _ => destruct H as (L & _) end.
    replace 4 with (Zlen bs) by (unfold Zlen; lia). now apply advance_cur.
  - match goal with H : delimited _ _ |- _ => destruct H as (len & V & ->) end.
    rename bs0 into c.
    unfold skipLengthDelimited. rewrite <- app_assoc in *.
    rewrite (varint_read 32 _ _ _ _ ltac:(lia) V). cbn [bind].
    assert (B2 : Zlen (c ++ rest) <= INT_MAX)
      by (rewrite Zlen_app in B; pose proof (Zlen_nonneg len); lia).
    rewrite (count_small c rest) by exact B2.
    rewrite advance_cur by exact B2. now rewrite <- app_assoc.
Qed.

(** ** The whole loop *)

Lemma msg_at_ok sch m : schema_ok sch -> msg_ok (msg_at sch m).
Proof.
  intro S. unfold msg_at.
  destruct (Nat.lt_ge_cases m (length sch)) as [L|L].
  - unfold schema_ok in S. rewrite Forall_forall in S. apply S. now apply nth_In.
  - rewrite nth_overflow by exact L. unfold msg_ok. simpl.
    split; [constructor|]. split; [constructor|]. split; [constructor|].
    intro i. split; [tauto | lia].
Qed.

Lemma field_at_ok sch m i : schema_ok sch -> (i < length (md_fields (msg_at sch m)))%nat ->
  field_ok (field_at sch m i).
Proof.
  intros S L. destruct (msg_at_ok sch m S) as (_ & F & _).
  rewrite Forall_forall in F. apply F. unfold field_at. now apply nth_In.
Qed.

Section Loop.
  Variable hard : bool.
  Variable sch : schema.
  Hypothesis S : schema_ok sch.

  Lemma property_read fuel rec m num w tag bs pre rest obj obj' :
    field_number num -> is_tag num (wtype w) tag -> enc_val w bs ->
    fits_record sch m (num, w) ->
    rec_ok sch rec (length bs) -> (length bs <= fuel)%nat ->
    Zlen (tag ++ bs ++ rest) <= INT_MAX ->
    length obj = length (md_fields (msg_at sch m)) ->
    length obj' = length (md_fields (msg_at sch m)) ->
    same sch m obj obj' ->
    exists obj1,
      deserializeProperty fuel hard sch rec m (pre ++ tag ++ bs ++ rest)
        (cur pre (tag ++ bs ++ rest)) obj
      = Ok (obj1, cur (pre ++ tag ++ bs) rest)
      /\ length obj1 = length (md_fields (msg_at sch m))
      /\ same sch m obj1 (mean_record sch m obj' (num, w)).
  Proof.
    intros N T E F R Hf B L L' Hs.
    unfold deserializeProperty.
    rewrite (tag_read_ok num (wtype w)) by (auto using wtype_ok). cbn [bind negb].
    assert (B2 : Zlen (bs ++ rest) <= INT_MAX)
      by (rewrite Zlen_app in B; pose proof (Zlen_nonneg tag); lia).
    unfold fits_record, mean_record in *. cbn [fst snd] in *.
    rewrite (app_assoc pre tag (bs ++ rest)). rewrite (app_assoc pre tag bs).
    destruct (find_field (msg_at sch m) num) as [i|] eqn:Fi.
    - destruct (find_field_range _ _ _ Fi) as [Li _].
      pose proof (field_at_ok sch m i S Li) as FO.
      unfold same in Hs. rewrite !canon_obj_spec in Hs.
      assert (Hf' : canon_field sch (f_ty (field_at sch m i)) (nth i obj VNull)
                    = canon_field sch (f_ty (field_at sch m i)) (nth i obj' VNull)).
      { unfold field_at. rewrite <- !canon_fields_nth by assumption. now rewrite Hs. }
      assert (K : match f_ty (field_at sch m i) with FMap k _ => key_type k | _ => True end).
      { destruct FO as [_ FO]. destruct (f_ty (field_at sch m i)); auto. }
      destruct (field_read fuel hard sch rec (f_ty (field_at sch m i)) (nth i obj VNull)
                  (nth i obj' VNull) w bs (pre ++ tag) rest K R E F Hf B2 Hf') as (v & Hv & Hc).
      rewrite Hv. cbn [bind]. eexists; split; [reflexivity|]. split; [now rewrite update_length|].
      unfold same. rewrite !canon_obj_spec, !canon_fields_update by assumption.
      fold (field_at sch m i). now rewrite Hc, Hs.
    - rewrite (skip_read hard w) by assumption. cbn [bind].
      exists obj. auto.
  Qed.

  Lemma rec_ok_ext rec rec' n : (forall m bs, rec m bs = rec' m bs) ->
    rec_ok sch rec n -> rec_ok sch rec' n.
  Proof.
    intros H R m rs bs E F L B. destruct (R m rs bs E F L B) as (r & A & C).
    exists r. now rewrite <- H.
  Qed.

  Lemma loop_read : forall fuel m rs bs pre obj obj',
    enc_recs rs bs -> fits sch m rs -> (length bs < fuel)%nat ->
    Zlen bs <= INT_MAX ->
    length obj = length (md_fields (msg_at sch m)) ->
    length obj' = length (md_fields (msg_at sch m)) ->
    same sch m obj obj' ->
    exists r, deserialize_loop fuel hard sch m (pre ++ bs) (cur pre bs) obj = (r, Ok tt)
      /\ length r = length (md_fields (msg_at sch m))
      /\ same sch m r (fold_left (mean_record sch m) rs obj').
  Proof.
    induction fuel as [|fuel IH]; intros m rs bs pre obj obj' E F Hf B L L' Hs; [lia|].
    assert (RO : rec_ok sch (fun m' data' => deserialize_loop fuel hard sch m' data'
                   (it_begin data') (default_obj sch m')) fuel).
    { intros m1 rs1 bs1 E1 F1 L1 B1.
      destruct (IH m1 rs1 bs1 [] (default_obj sch m1) (default_obj sch m1)) as (r & H1 & H2 & H3);
        auto using default_obj_length; [reflexivity|].
      exists r. rewrite mean_spec. split; [exact H1 | exact H3]. }
    cbn [deserialize_loop].
    inversion E; subst.
    - cbn [cur it_pos]. rewrite app_nil_r, Z.eqb_refl. exists obj. auto.
    - rename bs0 into pb, rest into more.
      match goal with H : enc_recs _ more |- _ => rename H into Er end.
      match goal with H : is_tag _ _ _ |- _ => rename H into T end.
      pose proof (varint_enc_nonempty _ _ T) as NE.
      replace (it_pos (cur pre (tag ++ pb ++ more)) =? Zlen (pre ++ tag ++ pb ++ more)) with false.
      2:{ symmetry. apply Z.eqb_neq. cbn [cur it_pos]. rewrite !Zlen_app. unfold Zlen. lia. }
      rewrite !app_length in Hf.
      apply fits_spec in F. inversion F as [|? ? F1 F2]; subst. apply fits_spec in F2.
      destruct (property_read fuel _ m num w tag pb pre more obj obj' ltac:(assumption) T
                  ltac:(assumption) F1 (rec_ok_mono _ _ fuel (length pb) ltac:(lia) RO)
                  ltac:(lia) B L L' Hs) as (obj1 & P1 & P2 & P3).
      rewrite P1.
      replace (pre ++ tag ++ pb ++ more) with ((pre ++ tag ++ pb) ++ more)
        by (now rewrite <- !app_assoc).
      cbn [fold_left].
      apply (IH m rs0 more (pre ++ tag ++ pb) obj1); auto; try lia.
      + rewrite !Zlen_app in B. pose proof (Zlen_nonneg tag). pose proof (Zlen_nonneg pb). lia.
      + unfold mean_record. destruct (find_field _ _); auto. now rewrite update_length.
  Qed.

  (** The deserializer computes what the records mean. *)
  Lemma deserialize_read fuel m rs bs :
    enc_recs rs bs -> fits sch m rs -> (length bs < fuel)%nat -> Zlen bs <= INT_MAX ->
    exists r, deserializeMessage fuel hard sch m bs = (r, Ok tt)
      /\ length r = length (md_fields (msg_at sch m))
      /\ same sch m r (mean sch m rs).
  Proof.
    intros E F Hf B.
    destruct (loop_read fuel m rs bs [] (default_obj sch m) (default_obj sch m) E F Hf B)
      as (r & H1 & H2 & H3); auto using default_obj_length; [reflexivity|].
    exists r. rewrite mean_spec. auto.
  Qed.
End Loop.

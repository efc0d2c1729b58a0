(** Properties C60 and C61: reading JSON texts. *)

From Coq Require Import String ZArith List Bool Lia Permutation.
From Verif Require Import Base Values WireSpec MessageSpec MessageModel MessageProofs SerializeProofs MessageFacts Examples PropFacts
  JsonSpec JsonModel JsonProofs JsonUnique PropertiesJson JsonReadModel JsonReadSpec JsonReadProofs JsonReadFacts JsonScan.
Import ListNotations.
Open Scope Z_scope.

(** deserialize with the JSON serializer, from the text [t] into an object with the values [base], returns and leaves the
    values [r]. *)
Definition json_deserializes (mj : microjson) (conv : conversions) (sch : schema) (nm : names) (m : nat) (t : list Z) (base r : list value) : Prop :=
  exists fuel, read_object fuel mj conv sch nm m t base = Ok r.

Theorem C60_one_result : forall mj conv sch nm m t base r r',
  json_deserializes mj conv sch nm m t base r -> json_deserializes mj conv sch nm m t base r' -> r = r'.
Proof.
  intros mj conv sch nm m t base r r' [f H] [f' H'].
  pose proof (read_mono mj conv sch nm f (Nat.max f f') m t base r ltac:(lia) H) as E.
  pose proof (read_mono mj conv sch nm f' (Nat.max f f') m t base r' ltac:(lia) H') as E'. congruence.
Qed.

(** [s] is a text of the floating point number of type [t] with the bits [x], for Qt. *)
Definition reads_as (conv : conversions) (t : sty) (x : Z) (s : list Z) : Prop := conv t s = (x, true).

(** ** C60 A JSON text for a message is read as that message *)

(** Whatever the order of the members, with members left out, unknown members, null, and quoted numbers.  [says_object]
    tells what is missing for the whole JSON mapping; strings may have no escape sequences but the one of the
    quotation mark. *)
Theorem C60_reads_partial : forall mj ok conv sch nm m base obj l t,
  right_on mj ok -> (forall t, ok t -> quotes_only t) -> names_ok sch nm -> schema_ok sch ->
  object_ok sch m obj -> length base = length obj ->
  ok t -> text (JObj l) t -> says_object sch nm (reads_as conv) m base obj l ->
  exists r, json_deserializes mj conv sch nm m t base r /\ same sch m r obj.
Proof.
  intros mj ok conv sch nm m base obj l t R Q N S O L Ot T Sy.
  destruct (object_read mj ok R Q conv sch nm N S (jsize (JObj l)) m base obj l t (le_n _) Sy O) as (r & E & _ & C); auto.
  - rewrite L. now apply object_ok_length.
  - exists r. split; [now exists (jsize (JObj l)) | exact C].
Qed.

(** What the serializer writes, deserialize reads back into any object, up to null messages in lists and maps.
    Missing: values whose output is no JSON text (C43), maps from bool, and a null message in a list or a map, which
    comes back as none. *)
Theorem C60_round_trip_partial : forall mj ok conv sch nm fm m base obj t,
  right_on mj ok -> (forall t, ok t -> quotes_only t) -> names_ok sch nm -> schema_ok sch ->
  object_ok sch m obj -> length base = length obj ->
  json_serializes sch nm fm m obj t -> ok t ->
  fine sch nm fm numbered (fun t x s => number s /\ reads_as conv t x s) m obj -> nowhere_empty sch m obj ->
  (forall m i e, f_ty (field_at sch m i) <> FMap TBool e) ->
  exists r, json_deserializes mj conv sch nm m t base r /\ same sch m r (map drop_nulls obj).
Proof.
  intros mj ok conv sch nm fm m base obj t R Q N S O L [fuel H] Ot F E Nb.
  destruct (object_text sch nm fm named numbered (reads_as conv) (fun t x s => number s /\ reads_as conv t x s)
              (fun t x s _ X => conj (proj2 X) (proj1 X)) numbered_ok _ _ _ _ H F E) as (l & Sh & T).
  apply (C60_reads_partial mj ok conv sch nm m base (map drop_nulls obj) l t); auto.
  - now apply drop_object.
  - now rewrite map_length.
  - now apply (shows_says_object sch nm (reads_as conv) N S Nb (jsize (JObj l))).
Qed.

(** *** What is read wrongly

    Each of these concerns a message type with one field, named [f], read from a text with this member only. *)

Definition one (ty : fty) : schema := [mkMsg [mkField 1 ty] [0%nat]].

(** The text has no escape sequences that could stand for letters. *)
Definition letters_plain (t : list Z) : Prop := forall a c b, t = a ++ 92 :: c :: b -> c <> 117 /\ c <> 47.

Lemma letters_tail c t : letters_plain (c :: t) -> letters_plain t.
Proof. intros H a x b E. apply (H (c :: a) x b). cbn. now rewrite E. Qed.

Lemma letters_name f u : chars f u -> letters_plain (u ++ [34]) -> Forall plain f -> u = f.
Proof.
  induction 1 as [|c s t P C IH|e c s t E C IH|h c s t H B C IH|h1 c1 h2 c2 s t H1 B1 H2 B2 C IH]; intros L F.
  - reflexivity.
  - f_equal. apply IH; [now apply (letters_tail c) | now inversion F].
  - exfalso. destruct (L [] e (t ++ [34]) eq_refl) as [L1 L2]. inversion F as [|x y (F1 & F2 & F3) _]; subst.
    unfold escape in E. destruct (Z.eqb_spec e 34), (Z.eqb_spec e 92), (Z.eqb_spec e 47), (Z.eqb_spec e 98), (Z.eqb_spec e 102), (Z.eqb_spec e 110),
      (Z.eqb_spec e 114), (Z.eqb_spec e 116); cbn [orb] in E; try discriminate E; injection E as E; lia.
  - exfalso. destruct (L [] 117 ((h ++ t) ++ [34]) eq_refl) as [L1 _]. now apply L1.
  - exfalso. destruct (L [] 117 ((h1 ++ 92 :: 117 :: h2 ++ t) ++ [34]) eq_refl) as [L1 _]. now apply L1.
Qed.

Section One.
  Variable mj : microjson.
  Variable ok : list Z -> Prop.
  Hypothesis R : right_on mj ok.
  Hypothesis A : forall t, ok t -> letters_plain t.
  Variable conv : conversions.

  Lemma one_member f j t : text (JObj [(f, j)]) t -> ok t -> Forall plain f -> exists x, handed ok j x /\ parseJsonObject mj t = [(f, x)].
  Proof.
    intros T O P. destruct R as (R1 & _). destruct (R1 [(f, j)] t O T) as (ps & Pe & H).
    { constructor; [intros [] | constructor]. }
    inversion H as [|p q l ps' Hq Hl]; subst. inversion Hl; subst. apply Permutation_sym, Permutation_length_1_inv in Pe.
    destruct q as [u x]. destruct Hq as (H1 & H2 & H3). cbn [fst snd] in *. exists x. split; [exact H3|]. rewrite Pe.
    rewrite (letters_name f u H2 (letters_tail 34 _ (A _ H1)) P). reflexivity.
  Qed.

  (** What happens to the only field. *)
  Lemma one_value ty f en j t old x v b n : parseJsonObject mj t = [(f, x)] ->
    same_bytes (snd x) (bytes_of "null") && is_object (fst x) = false ->
    read_value mj conv (one ty) (single_names f en)
      (fun m' data' => read_object n mj conv (one ty) (single_names f en) m' data' (default_obj (one ty) m')) n 0 0 x = Ok (v, b) ->
    handed ok j x ->
    json_deserializes mj conv (one ty) (single_names f en) 0 t [old] [if b then write_property ty old v else old].
  Proof.
    intros E Nn V _. exists (S n). cbn [read_object]. rewrite E. cbn [read_members one msg_at nth md_order find single_names n_json].
    rewrite same_bytes_refl, Nn. fold (one ty). rewrite V. cbn [bind snd fst]. unfold field_at. cbn [one msg_at nth md_fields f_ty].
    destruct b; reflexivity.
  Qed.

  Lemma one_scalar t f en j txt old x v b : text (JObj [(f, j)]) txt -> parseJsonObject mj txt = [(f, x)] -> handed ok j x ->
    same_bytes (snd x) (bytes_of "null") && is_object (fst x) = false ->
    read_scalar conv en t x = (v, b) ->
    json_deserializes mj conv (one (FSing (ES t))) (single_names f en) 0 txt [old]
      [if b then write_property (FSing (ES t)) old (option_map VScalar v) else old].
  Proof.
    intros _ E H Nn V. apply (one_value (FSing (ES t)) f en j txt old x (option_map VScalar v) b 0 E Nn); [|exact H].
    unfold read_value, field_at. cbn [one msg_at nth md_fields f_ty single_names n_enum]. rewrite V. reflexivity.
  Qed.

  Lemma one_same t old new : same (one (FSing (ES t))) 0 [write_property (FSing (ES t)) old (Some (VScalar new))] [VScalar new].
  Proof.
    unfold same. rewrite !canon_obj_spec. cbn [one msg_at nth md_fields canon_fields]. f_equal. now apply write_canon.
  Qed.
End One.

(** A number that is not an integer in the range of the field, such as 1.0, 1e2 or 3000000000 for int32, is read as 0. *)
Theorem C60_number_refuted : forall mj ok conv f en ty s t old, right_on mj ok -> (forall t, ok t -> letters_plain t) ->
  Forall plain f -> is_integer ty = true -> ok t -> text (JObj [(f, JNum s)]) t ->
  (forall z, integer_text z s -> ~ scalar_ok ty (SNum z)) ->
  exists r, json_deserializes mj conv (one (FSing (ES ty))) (single_names f en) 0 t [old] r /\
            same (one (FSing (ES ty))) 0 r [VScalar (SNum 0)].
Proof.
  intros mj ok conv f en ty s t old R A P I O T Nz.
  destruct (one_member mj ok R A f _ t T O P) as (x & H & E). pose proof (handed_is_number _ _ _ H) as Nu. pose proof (handed_number _ _ _ H) as ->.
  assert (V : read_scalar conv en ty (NumberType, s) = (Some (SNum 0), true)).
  { assert (X : toInteger ty s = None \/ toInteger ty s = Some 0).
    { unfold toInteger. destruct Nu as [sign i fr e Hs Hi Hf He].
      assert (Dig : forall ds acc z, digits_value acc ds = Some z -> Forall digit ds /\ z = fold_left (fun v d => v * 10 + (d - 48)) ds acc).
      { induction ds as [|d ds IH]; intros acc z D; [cbn in D; injection D as <-; now split|]. cbn [digits_value] in D.
        destruct ((48 <=? d) && (d <=? 57)) eqn:B; [|discriminate D]. apply andb_prop in B as [B1 B2]. apply Z.leb_le in B1, B2.
        destruct (IH _ _ D) as [F1 F2]. split; [constructor; [unfold digit; lia | exact F1] | exact F2]. }
      assert (Whole : Forall digit (i ++ fr ++ e) -> fr = [] /\ e = []).
      { intro F. apply Forall_app in F as [_ F]. apply Forall_app in F as [F1 F2]. split.
        - destruct Hf; [reflexivity|]. inversion F1 as [|a b D _]. unfold digit in D. lia.
        - destruct He as [|c sg d ds Ec _ _]; [reflexivity|]. inversion F2 as [|a b D _]. unfold digit in D. lia. }
      assert (Range : forall z, (lowest ty <=? z) && (z <=? highest ty) = true -> scalar_ok ty (SNum z)).
      { intros z B. apply andb_prop in B as [B1 B2]. apply Z.leb_le in B1, B2.
        destruct ty; try discriminate I; cbn in *; unfold in_s, in_u; cbn; lia. }
      destruct Hs as [-> | ->]; cbn [app] in *.
      - destruct (int_digits i Hi) as (Di & Ni & N1 & N2). destruct i as [|c i]; [contradiction|]. cbn [app hd] in *.
        destruct (Z.eqb_spec c 45); [contradiction|]. destruct (Z.eqb_spec c 43); [contradiction|].
        destruct (digits_value 0 (c :: i ++ fr ++ e)) as [z|] eqn:D; [|now left]. destruct (Dig _ _ _ D) as [F Ez].
        destruct (Whole F) as [-> ->]. rewrite !app_nil_r in *. destruct (_ && _) eqn:B; [|now left]. exfalso.
        apply (Nz z); [|now apply Range]. left. unfold decimal_value. repeat split; auto.
        rewrite Ez. clear - Di. assert (X : forall ds acc, Forall digit ds -> 0 <= acc -> 0 <= fold_left (fun v d => v * 10 + (d - 48)) ds acc).
        { induction ds as [|d ds IH]; intros acc F Ha; [exact Ha|]. inversion F as [|a b D1 D2]; subst. cbn [fold_left]. apply IH; [exact D2|]. unfold digit in D1. lia. }
        apply X; [exact Di | lia].
      - change (45 =? 45) with true. cbn match. destruct (i ++ fr ++ e) as [|c r] eqn:Er; [now left|].
        destruct (digits_value 0 (c :: r)) as [z|] eqn:D; [|now left]. destruct (Dig _ _ _ D) as [F Ez].
        destruct (Whole F) as [-> ->]. rewrite !app_nil_r in Er. subst i. destruct (_ && _) eqn:B; [|now left].
        destruct (Z.eq_dec z 0) as [->|Nz0]; [now right|]. exfalso. apply (Nz (- z)); [|now apply Range]. right.
        assert (0 <= z).
        { rewrite Ez. assert (X : forall ds acc, Forall digit ds -> 0 <= acc -> 0 <= fold_left (fun v d => v * 10 + (d - 48)) ds acc).
          { induction ds as [|d ds IH]; intros acc F' Ha; [exact Ha|]. inversion F' as [|a b D1 D2]; subst. cbn [fold_left]. apply IH; [exact D2|]. unfold digit in D1. lia. }
          apply X; [exact F | lia]. }
        split; [lia|]. exists (c :: r). repeat split; auto. unfold decimal_value. lia. }
    destruct ty; try discriminate I; cbn [read_scalar is_number]; destruct X as [-> | ->]; reflexivity. }
  eexists. split; [apply (one_scalar mj ok conv ty f en _ t old (NumberType, s) (Some (SNum 0)) true T E H); [cbn [fst is_object]; apply andb_false_r | exact V]|].
  apply one_same.
Qed.

(** An enum given as a number, or with a name that is not one of the enumerators, is read as -1. *)
Theorem C60_enum_refuted : forall mj ok conv f en n j t old, right_on mj ok -> (forall t, ok t -> letters_plain t) ->
  Forall plain f -> ok t -> text (JObj [(f, j)]) t -> ~ In n (map fst en) ->
  j = JNum n \/ (j = JStr n /\ n <> [] /\ Forall plain n) ->
  exists r, json_deserializes mj conv (one (FSing (ES TEnum))) (single_names f en) 0 t [old] r /\
            same (one (FSing (ES TEnum))) 0 r [VScalar (SNum (-1))].
Proof.
  intros mj ok conv f en n j t old R A P O T Nn Hj. destruct (one_member mj ok R A f _ t T O P) as (x & H & E).
  assert (X : snd x = n /\ is_object (fst x) = false /\ n <> []).
  { destruct Hj as [->|(-> & Ne & Pn)].
    - pose proof (handed_is_number _ _ _ H) as Nu. pose proof (handed_number _ _ _ H) as ->. repeat split.
      intros ->. destruct (number_head _ Nu) as (c & s' & Es & _). discriminate Es.
    - destruct H as (u & Ou & Tu & ->). inversion Tu as [| | | |s' w C| | | |]; subst. cbn [hand_over]. change (34 =? 34) with true. cbn match.
      rewrite removelast_app by discriminate. cbn [removelast fst snd]. rewrite app_nil_r. repeat split; [|exact Ne].
      exact (letters_name n w C (letters_tail 34 _ (A _ Ou)) Pn). }
  destruct x as [ty data]. cbn [fst snd] in X. destruct X as (-> & Ob & Ne).
  assert (K : keyToValue en n = -1).
  { unfold keyToValue. destruct (find _ en) as [p|] eqn:F; [|reflexivity]. apply find_some in F as [F1 F2]. apply same_bytes_spec in F2.
    exfalso. apply Nn. rewrite <- F2. now apply in_map. }
  eexists. split; [apply (one_scalar mj ok conv TEnum f en _ t old (ty, n) (Some (SNum (-1))) true T E H)|].
  - cbn [fst]. rewrite Ob. apply andb_false_r.
  - cbn [read_scalar]. destruct n; [contradiction|]. now rewrite K.
  - apply one_same.
Qed.

(** NaN and the infinities are read as 0. *)
Theorem C60_not_finite_refuted : forall mj ok conv f en ty n t old, right_on mj ok -> (forall t, ok t -> letters_plain t) ->
  Forall plain f -> is_float ty = true -> ok t -> text (JObj [(f, JStr n)]) t ->
  In n [bytes_of "NaN"; bytes_of "Infinity"; bytes_of "-Infinity"] ->
  exists r, json_deserializes mj conv (one (FSing (ES ty))) (single_names f en) 0 t [old] r /\
            same (one (FSing (ES ty))) 0 r [VScalar (SNum 0)].
Proof.
  intros mj ok conv f en ty n t old R A P I O T Hn. destruct (one_member mj ok R A f _ t T O P) as (x & H & E).
  assert (Pn : Forall plain n) by (destruct Hn as [<-|[<-|[<-|[]]]]; cbn; repeat (apply Forall_cons; [unfold plain; lia|]); apply Forall_nil).
  assert (x = (StringType, n)).
  { destruct H as (u & Ou & Tu & ->). inversion Tu as [| | | |s' w C| | | |]; subst. cbn [hand_over]. change (34 =? 34) with true. cbn match.
    rewrite removelast_app by discriminate. cbn [removelast]. rewrite app_nil_r. f_equal.
    exact (letters_name n w C (letters_tail 34 _ (A _ Ou)) Pn). }
  subst x. assert (V : read_scalar conv en ty (StringType, n) = (None, true)).
  { destruct ty; try discriminate I; destruct Hn as [<-|[<-|[<-|[]]]]; reflexivity. }
  eexists. split; [apply (one_scalar mj ok conv ty f en _ t old (StringType, n) None true T E H); [cbn [fst is_object]; apply andb_false_r | exact V]|].
  unfold same. rewrite !canon_obj_spec. cbn [one msg_at nth md_fields canon_fields option_map]. f_equal.
  rewrite write_default; [destruct ty; try discriminate I; reflexivity | exact Logic.I |]. destruct ty; try discriminate I; discriminate.
Qed.

(** A string with a control character or a backslash is read as another string, however it is written. *)
Theorem C60_escapes_refuted : forall mj ok conv f en s c t old, right_on mj ok -> (forall t, ok t -> letters_plain t) ->
  Forall plain f -> ok t -> text (JObj [(f, JStr s)]) t -> In c s -> c < 32 \/ c = 92 ->
  exists r s', json_deserializes mj conv (one (FSing (ES TString))) (single_names f en) 0 t [old] r /\
               same (one (FSing (ES TString))) 0 r [VScalar (SStr false s')] /\ s' <> s.
Proof.
  intros mj ok conv f en s c t old R A P O T I Hc. destruct (one_member mj ok R A f _ t T O P) as (x & H & E).
  destruct H as (u & Ou & Tu & ->). inversion Tu as [| | | |s' w C| | | |]; subst.
  assert (Hx : hand_over (34 :: w ++ [34]) = (StringType, w)).
  { cbn [hand_over]. change (34 =? 34) with true. cbn match. rewrite removelast_app by discriminate. cbn [removelast]. now rewrite app_nil_r. }
  rewrite Hx in E. eexists. exists (unescape w). split; [|split; [apply one_same|]].
  - apply (one_scalar mj ok conv TString f en (JStr s) t old (StringType, w) (Some (SStr false (unescape w))) true T E).
    + exists (34 :: w ++ [34]). auto.
    + cbn [fst is_object]. apply andb_false_r.
    + reflexivity.
  - intro Eq. pose proof (letters_tail 34 _ (A _ Ou)) as L. clear - C L I Hc Eq.
    assert (Len : (length s <= length (unescape w))%nat /\ (In c s -> length s < length (unescape w))%nat).
    { clear Eq I. induction C as [|c' s t Pc C IH|e c' s t Ee C IH|h c' s t Hh B C IH|h1 c1 h2 c2 s t H1 B1 H2 B2 C IH].
      - split; [cbn; lia | intros []].
      - destruct (IH (letters_tail _ _ L)) as [I1 I2]. rewrite unescape_plain by apply Pc. cbn [length].
        split; [lia|]. intros [->|I]; [unfold plain in Pc; lia|]. specialize (I2 I). lia.
      - destruct (IH (letters_tail _ _ (letters_tail _ _ L))) as [I1 I2].
        destruct (Z.eq_dec e 34) as [->|Ne].
        + rewrite unescape_quote. cbn [length]. split; [lia|]. intros [->|I]; [|specialize (I2 I); lia]. cbn in Ee. injection Ee as <-. lia.
        + assert (U : unescape (92 :: e :: t) = 92 :: e :: unescape t).
          { cbn [unescape]. change (92 =? 92) with true. destruct (Z.eqb_spec e 34); [contradiction|]. cbn [andb]. f_equal.
            destruct t as [|d t]; [reflexivity|]. destruct (Z.eqb_spec d 34) as [->|]; [|now rewrite andb_false_r].
            exfalso. inversion C as [|x y z Px|x y z v Ex|h x y z Hh|]; subst. destruct Px as (_ & Px & _). now apply Px. }
          rewrite U. cbn [length]. split; [lia|]. intros _. lia.
      - exfalso. destruct (L [] 117 ((h ++ t) ++ [34]) eq_refl) as [L1 _]. now apply L1.
      - exfalso. destruct (L [] 117 ((h1 ++ 92 :: 117 :: h2 ++ t) ++ [34]) eq_refl) as [L1 _]. now apply L1. }
    destruct Len as [_ Len]. specialize (Len I). rewrite Eq in Len. lia.
Qed.

(** The key true of a map is read as false. *)
Theorem C60_bool_key_refuted : forall mj ok conv f en z s t old, right_on mj ok -> (forall t, ok t -> letters_plain t) ->
  Forall plain f -> ok t -> text (JObj [(f, JObj [(bytes_of "true", JNum s)])]) t -> integer_text z s -> in_s 32 z ->
  exists r, json_deserializes mj conv (one (FMap TBool (ES TInt32))) (single_names f en) 0 t [old] r /\
            same (one (FMap TBool (ES TInt32))) 0 r [VMap [(SNum 0, VScalar (SNum z))]].
Proof.
  intros mj ok conv f en z s t old R A P O T Iz B. destruct (one_member mj ok R A f _ t T O P) as (x & H & E).
  destruct (handed_object ok _ _ H) as (u & -> & Ou & Tu & Nu & Nn). pose proof R as (_ & _ & _ & R4). destruct (R4 _ _ Ou Tu) as (ps & Pr & Hp).
  inversion Hp as [|p q l' ps' Hq Hl]; subst. inversion Hl; subst. destruct q as [name v]. destruct Hq as (H1 & H2 & H3). cbn [fst snd] in *.
  pose proof (handed_number _ _ _ H3) as ->.
  assert (name = bytes_of "true").
  { apply (letters_name _ _ H2 (letters_tail 34 _ (A _ H1))). cbn. repeat (apply Forall_cons; [unfold plain; lia|]). apply Forall_nil. }
  subst name. inversion Pr as [| |s0 i v vs Ne Ex Le Pr']; subst. apply Nat.leb_le in Le.
  assert (Rd : forall n, (2 <= n)%nat -> forall rec, read_value mj conv (one (FMap TBool (ES TInt32))) (single_names f en) rec n 0 0 (ObjectType, u)
                 = Ok (Some (VMap [(SNum 0, VScalar (SNum z))]), true)).
  { intros n Ln rec. unfold read_value, field_at. cbn [one msg_at nth md_fields f_ty snd single_names n_enum].
    assert (Stop : forall k acc, read_pairs mj conv rec (S k) en TBool (ES TInt32) (skipn i (unopened 123 u)) acc = Ok acc).
    { intros k acc. inversion Pr' as [E0|s0 Ne' Ex'|]; subst; [reflexivity|]. cbn [read_pairs].
      destruct (skipn i (unopened 123 u)); [contradiction|]. now rewrite skip_open_spec, Ex'. }
    destruct n as [|[|n]]; [lia | lia|]. remember (S n) as n1. destruct u as [|c u]; [contradiction|]. cbn [read_pairs]. rewrite skip_open_spec, Ex. cbn [read_entry_value].
    rewrite (read_integer conv en TInt32 z s NumberType eq_refl Iz B). cbn [snd value_or_default fst bind].
    rewrite Le, Heqn1, Stop. reflexivity. }
  eexists. split; [apply (one_value mj ok conv (FMap TBool (ES TInt32)) f en (JObj [(bytes_of "true", JNum s)]) t old (ObjectType, u)
                             (Some (VMap [(SNum 0, VScalar (SNum z))])) true 2 E)|].
  - cbn [fst snd is_object]. destruct (same_bytes u (bytes_of "null")) eqn:X; [apply same_bytes_spec in X; contradiction | reflexivity].
  - apply Rd. lia.
  - exact H.
  - unfold same. rewrite !canon_obj_spec. cbn [one msg_at nth md_fields canon_fields]. f_equal. apply write_canon. exact Logic.I.
Qed.

(** A null enum field keeps its value, where all others get their default values. *)
Theorem C60_null_enum_refuted : forall mj ok conv f en t old, right_on mj ok -> (forall t, ok t -> letters_plain t) ->
  Forall plain f -> ok t -> text (JObj [(f, JNull)]) t ->
  json_deserializes mj conv (one (FSing (ES TEnum))) (single_names f en) 0 t [old] [old].
Proof.
  intros mj ok conv f en t old R A P O T. destruct (one_member mj ok R A f _ t T O P) as (x & H & E). pose proof (handed_null _ _ H) as ->.
  exists 1%nat. cbn [read_object]. rewrite E. cbn [read_members one msg_at nth md_order find single_names n_json].
  rewrite !same_bytes_refl. reflexivity.
Qed.

(** ** C61 What does not belong to the message has no effect *)

(** Members with unknown names or with values of a wrong kind leave the object as it is; for number fields also strings that
    are not texts of numbers.  Members of nested messages: C60_reads_partial.  Missing: members that occur twice; enum fields
    (C61_enum_refuted), message fields, lists of messages and maps, where it is up to microjson what is made of other texts
    (C61_message_refuted). *)
Theorem C61_ignored_partial : forall mj ok conv sch nm m base l t,
  right_on mj ok -> (forall t, ok t -> quotes_only t) -> names_ok sch nm -> schema_ok sch -> object_ok sch m base ->
  ok t -> text (JObj l) t -> NoDup (map fst l) ->
  (forall name j, In (name, j) l -> (forall i, In i (md_order (msg_at sch m)) -> n_json nm m i <> name) \/
                                    exists i, In i (md_order (msg_at sch m)) /\ n_json nm m i = name /\ wrong_kind (reads_as conv) (f_ty (field_at sch m i)) j) ->
  exists r, json_deserializes mj conv sch nm m t base r /\ same sch m r base.
Proof.
  intros mj ok conv sch nm m base l t R Q N S O Ot T ND H.
  apply (C60_reads_partial mj ok conv sch nm m base base l t); auto. destruct (msg_at_ok sch m S) as (_ & _ & No & Oi).
  constructor; [exact ND | now apply object_ok_length|]. intros i Hi.
  destruct (in_dec (list_eq_dec Z.eq_dec) (n_json nm m i) (map fst l)) as [I|I]; [|now constructor].
  apply in_map_iff in I as ([name j] & E & I). cbn [fst] in E. subst name. apply (says_wrong _ _ _ _ _ _ _ j I).
  destruct (H _ _ I) as [U|(i' & I' & E' & W)].
  - exfalso. apply (U i); [now apply Oi | reflexivity].
  - assert (i' = i); [|now subst]. destruct N as (N1 & _). specialize (N1 m). apply Oi in Hi.
    clear - N1 I' Hi E'. induction (md_order (msg_at sch m)) as [|a o IHo]; [destruct I'|].
    cbn [map] in N1. inversion N1 as [|x y Na Nb]; subst.
    destruct I' as [->|I1], Hi as [->|I2]; auto; exfalso; apply Na; [rewrite E' | rewrite <- E']; now apply in_map.
Qed.

(** An element of a wrong kind in a list of strings becomes an empty string. *)
Theorem C61_element_refuted : forall mj ok conv f en j t old, right_on mj ok -> (forall t, ok t -> letters_plain t) ->
  Forall plain f -> ok t -> text (JObj [(f, JArr [j])]) t -> (forall s, j <> JStr s) ->
  exists r, json_deserializes mj conv (one (FRep (ES TString))) (single_names f en) 0 t [old] r /\
            same (one (FRep (ES TString))) 0 r [VList [VScalar (SStr false [])]].
Proof.
  intros mj ok conv f en j t old R A P O T Nj. destruct (one_member mj ok R A f _ t T O P) as (x & H & E).
  destruct (handed_array ok _ _ H) as (u & -> & Ou & Tu & Nu). pose proof R as (_ & R2 & _). pose proof (R2 _ _ Ou Tu) as Hp.
  inversion Hp as [|j' v l' vs' Hv Hl Ej Ev]; subst. inversion Hl; subst.
  assert (Ty : is_string (fst v) = false).
  { destruct j as [|b|s|s|l|l].
    - now rewrite (handed_null _ _ Hv).
    - now rewrite (handed_bool _ _ _ Hv).
    - now rewrite (handed_number _ _ _ Hv).
    - now destruct (Nj s).
    - now destruct (handed_array _ _ _ Hv) as (? & -> & _).
    - now destruct (handed_object _ _ _ Hv) as (? & -> & _). }
  eexists. split; [apply (one_value mj ok conv (FRep (ES TString)) f en (JArr [j]) t old (ArrayType, u) (Some (VList [VScalar (SStr true [])])) true 0 E)|].
  - cbn [fst is_object]. apply andb_false_r.
  - unfold read_value, field_at. cbn [one msg_at nth md_fields f_ty read_scalars fst snd is_array]. rewrite <- Ev. cbn [map].
    unfold read_element. cbn [is_enum]. destruct v as [ty data]. cbn [fst] in Ty. cbn [read_scalar]. rewrite Ty. reflexivity.
  - exact H.
  - unfold same. rewrite !canon_obj_spec. cbn [one msg_at nth md_fields canon_fields]. f_equal.
    rewrite write_canon by exact Logic.I. reflexivity.
Qed.

(** An enum field given a bool, an array or an object becomes -1. *)
Theorem C61_enum_refuted : forall mj ok conv f en j t old, right_on mj ok -> (forall t, ok t -> letters_plain t) ->
  Forall plain f -> ok t -> text (JObj [(f, j)]) t -> (forall s, text j s -> ~ In s (map fst en)) ->
  (exists b, j = JBool b) \/ (exists l, j = JArr l) \/ (exists l, j = JObj l) ->
  exists r, json_deserializes mj conv (one (FSing (ES TEnum))) (single_names f en) 0 t [old] r /\
            same (one (FSing (ES TEnum))) 0 r [VScalar (SNum (-1))].
Proof.
  intros mj ok conv f en j t old R A P O T Ne J. destruct (one_member mj ok R A f _ t T O P) as (x & H & E).
  assert (X : text j (snd x) /\ snd x <> [] /\ same_bytes (snd x) (bytes_of "null") && is_object (fst x) = false).
  { destruct J as [(b & ->)|[(l & ->)|(l & ->)]].
    - rewrite (handed_bool _ _ _ H). destruct b; repeat split; try discriminate; constructor.
    - destruct (handed_array _ _ _ H) as (u & -> & _ & Tu & Nu). cbn [fst snd is_object]. rewrite andb_false_r. now repeat split.
    - destruct (handed_object _ _ _ H) as (u & -> & _ & Tu & Nu & Nn). cbn [fst snd is_object]. repeat split; auto.
      destruct (same_bytes u (bytes_of "null")) eqn:Y; [apply same_bytes_spec in Y; contradiction | reflexivity]. }
  destruct X as (Tx & Nx & Nn). destruct x as [ty data]. cbn [fst snd] in *.
  assert (K : keyToValue en data = -1).
  { unfold keyToValue. destruct (find _ en) as [p|] eqn:F; [|reflexivity]. apply find_some in F as [F1 F2]. apply same_bytes_spec in F2.
    exfalso. apply (Ne data Tx). rewrite <- F2. now apply in_map. }
  eexists. split; [apply (one_scalar mj ok conv TEnum f en _ t old (ty, data) (Some (SNum (-1))) true T E H); [exact Nn|]|].
  - cbn [read_scalar]. destruct data; [contradiction|]. now rewrite K.
  - apply one_same.
Qed.

(** If microjson finds no members in a text that is no object, a message field given a number, bool or array is replaced by a new
    message. *)
Theorem C61_message_refuted : forall mj ok conv f en j t old, right_on mj ok -> (forall t, ok t -> letters_plain t) ->
  Forall plain f -> ok t -> text (JObj [(f, j)]) t -> (forall s, text j s -> parseJsonObject mj s = []) ->
  (exists b, j = JBool b) \/ (exists s, j = JNum s) \/ (exists l, j = JArr l) ->
  json_deserializes mj conv (one (FSing (EM 0))) (single_names f en) 0 t [old] [VMsg (default_obj (one (FSing (EM 0))) 0)].
Proof.
  intros mj ok conv f en j t old R A P O T Ne J. destruct (one_member mj ok R A f _ t T O P) as (x & H & E).
  assert (X : text j (snd x) /\ snd x <> [] /\ is_object (fst x) = false).
  { destruct J as [(b & ->)|[(s & ->)|(l & ->)]].
    - rewrite (handed_bool _ _ _ H). destruct b; repeat split; try discriminate; constructor.
    - pose proof (handed_is_number _ _ _ H) as Nu. rewrite (handed_number _ _ _ H). cbn [fst snd is_object]. split; [now constructor|]. split; [|reflexivity].
      intros ->. destruct (number_head _ Nu) as (c & s' & Es & _). discriminate Es.
    - destruct (handed_array _ _ _ H) as (u & -> & _ & Tu & Nu). now repeat split. }
  destruct X as (Tx & Nx & Ob).
  apply (one_value mj ok conv (FSing (EM 0)) f en j t old x (Some (VMsg (default_obj (one (FSing (EM 0))) 0))) true 1 E); [rewrite Ob; apply andb_false_r | | exact H].
  unfold read_value, field_at. cbn [one msg_at nth md_fields f_ty]. destruct (snd x) eqn:Ex; [contradiction|]. rewrite <- Ex in *.
  cbn [read_object]. rewrite (Ne _ Tx). reflexivity.
Qed.

(** ** Cases *)

(** A simple check that backslashes are followed by characters of a set. *)
Fixpoint after_check (q : Z -> bool) (t : list Z) : bool :=
  match t with
  | c :: t' => (if c =? 92 then match t' with d :: _ => q d | [] => false end else true) && after_check q t'
  | [] => true
  end.

Lemma after_checked q a b : after_check q (a ++ 92 :: b) = true -> exists c b', b = c :: b' /\ q c = true.
Proof.
  induction a as [|x a IH]; cbn [app after_check]; intro H; apply andb_prop in H as [H1 H2]; [|now apply IH].
  change (92 =? 92) with true in H1. cbn match in H1. destruct b as [|c b]; [discriminate H1|]. now exists c, b.
Qed.

Lemma quotes_checked t : after_check (fun c => c =? 34) t = true -> quotes_only t.
Proof. intros H a b ->. destruct (after_checked _ _ _ H) as (c & b' & -> & E). apply Z.eqb_eq in E as ->. now exists b'. Qed.

Lemma letters_checked t : after_check (fun c => negb (c =? 117) && negb (c =? 47)) t = true -> letters_plain t.
Proof.
  intros H a c b ->. destruct (after_checked _ _ _ H) as (c' & b' & E & E'). injection E as <- <-.
  apply andb_prop in E' as [E1 E2]. split; intros ->; discriminate.
Qed.

Lemma letters_part : forall a t b c t', letters_plain (a ++ t ++ b) -> t = t' ++ [c] -> c <> 92 -> letters_plain t.
Proof. intros a t b c t' H _ _ x d y E. apply (H (a ++ x) d (y ++ b)). rewrite E. now rewrite <- !app_assoc. Qed.

Ltac whites := unfold ws; repeat (apply Forall_cons; [lia|]); apply Forall_nil.
Ltac digits := repeat (apply Forall_cons; [unfold digit; lia|]); apply Forall_nil.
Ltac ints := first [exact int_zero | apply int_other; [lia | digits]].
Ltac strs := repeat first [exact chars_nil | apply chars_plain; [unfold plain; lia|] | apply (chars_escape 34); [reflexivity|] | apply (chars_escape 110); [reflexivity|]
                           | apply (chars_escape 92); [reflexivity|]].
Ltac texts :=
  match goal with
  | |- text JNull _ => exact text_null
  | |- text (JBool true) _ => exact text_true
  | |- text (JBool false) _ => exact text_false
  | |- text (JNum _) _ => eapply text_num
  | |- text (JStr _) _ => eapply text_str; cbn; strs
  | |- text (JArr []) _ => apply (text_arr0 []); whites
  | |- text (JArr _) _ => eapply text_arr; texts
  | |- text (JObj []) _ => apply (text_obj0 [32]); whites
  | |- text (JObj _) _ => eapply text_obj; texts
  | |- elements [_] _ => eapply (elements_one [] [10]); [whites | whites | texts]
  | |- elements (_ :: _) _ => eapply (elements_more [32] []); [whites | whites | texts | texts]
  | |- members [_] _ => eapply (members_one [9] [] [32] []); [whites | whites | whites | whites | cbn; strs | texts]
  | |- members (_ :: _) _ => eapply (members_more [] [32] [] [13; 10]); [whites | whites | whites | whites | cbn; strs | texts | texts]
  end.

(** Other orders of the members and of the entries, a member left out, an unknown member, null, a quoted number, an escaped
    quotation mark and white space. *)
Definition read_json : list (list Z * json) :=
  [ (bytes_of "sizes", JObj [(bytes_of "w", JNum (bytes_of "-12")); (bytes_of "h", JStr (bytes_of "340"))]);
    (bytes_of "extra", JArr [JObj [(bytes_of "name", JNull)]; JBool false; JArr []]);
    (bytes_of "inner", JArr [JObj [(bytes_of "on", JBool true)]; JObj []]);
    (bytes_of "raw", JNull);
    (bytes_of "name", JStr (bytes_of "a""b")) ].
Definition read_base : list value :=
  [ VScalar (SStr false (bytes_of "old")); VList [VMsg [VScalar (SNum 1)]; VNull; VMsg [VScalar (SNum 1)]]; VScalar (SNum 1);
    VMap [(SStr false (bytes_of "d"), VScalar (SNum 7))]; VScalar (SStr false [1; 2]) ].
Definition read_obj : list value :=
  [ VScalar (SStr false (bytes_of "a""b")); VList [VMsg [VScalar (SNum 1)]; VMsg [VScalar (SNum 0)]]; VScalar (SNum 1);
    VMap [(SStr false (bytes_of "h"), VScalar (SNum 340)); (SStr false (bytes_of "w"), VScalar (SNum (-12)))];
    VScalar (SStr true []) ].
Definition no_floats : conversions := fun _ _ => (0, false).

Lemma json_names_ok : names_ok json_sch json_names.
Proof.
  split; [|split].
  - intros [|[|m]]; cbn; [|repeat constructor; intros []|destruct m; cbn; apply NoDup_nil].
    repeat constructor; cbn; intuition discriminate.
  - intros [|[|m]] i; cbn [n_json json_names nth]; [| |destruct m, i; plains].
    + do 5 (destruct i as [|i]; [plains|]). destruct i; plains.
    + destruct i as [|[|i]]; plains.
  - intros m i. cbn [n_enum json_names]. split; [repeat constructor; cbn; intuition discriminate|].
    intros p [<-|[<-|[]]]; (split; [plains | split; discriminate]).
Qed.

Lemma json_sch_ok : schema_ok json_sch.
Proof.
  unfold schema_ok, json_sch. constructor; [|constructor; [|constructor]]; unfold msg_ok; cbn [md_fields md_order map f_num];
    (split; [|split; [|split]]);
    try (repeat (apply NoDup_cons; [cbn; lia|]); apply NoDup_nil);
    try (repeat (apply Forall_cons; [split; [vm_compute; split; congruence | cbn; exact Logic.I]|]); apply Forall_nil);
    intro i; cbn; lia.
Qed.

Ltac ok_values := unfold object_ok; cbn; repeat split; auto; unfold in_s; cbn; try lia;
  try (repeat (apply Forall_cons; [cbn; first [reflexivity | unfold is_byte; cbn; lia]|]); apply Forall_nil).

Lemma minus_12 : integer_text (-12) (bytes_of "-12").
Proof. right. split; [lia|]. exists (bytes_of "12"). split; [reflexivity|]. split; [cbn; ints | reflexivity]. Qed.
Lemma plus_340 : integer_text 340 (bytes_of "340").
Proof. left. split; [lia|]. split; [cbn; ints | reflexivity]. Qed.

Lemma read_says : says_object json_sch json_names (reads_as no_floats) 0 read_base read_obj read_json.
Proof.
  constructor; [cbn; repeat (apply NoDup_cons; [cbn; intuition discriminate|]); apply NoDup_nil | reflexivity|].
  intros i Hi. cbn in Hi. destruct i as [|[|[|[|[|i]]]]]; [..|lia]; cbn [nth read_base read_obj].
  - eapply says_present; [do 4 right; left; reflexivity|]. eapply says_single; [reflexivity|]. apply says_basic. left. reflexivity.
  - eapply says_present; [do 2 right; left; reflexivity|]. eapply says_list; [reflexivity|]. repeat apply Forall2_cons; try apply Forall2_nil; apply says_message.
    + constructor; [repeat constructor; intros [] | reflexivity|]. intros [|i] Hi'; cbn in Hi'; [|lia]. cbn [nth].
      eapply says_present; [left; reflexivity|]. eapply says_single; [reflexivity|]. apply says_basic. left. reflexivity.
    + constructor; [constructor | reflexivity|]. intros [|i] Hi'; cbn in Hi'; [|lia]. apply says_absent. intros [].
  - apply says_absent. cbn. intuition discriminate.
  - eapply says_present; [left; reflexivity|]. eapply says_map; [reflexivity | discriminate | apply perm_swap|].
    repeat apply Forall2_cons; try apply Forall2_nil; cbn [fst snd].
    + split; [reflexivity|]. apply says_basic. left. exists (bytes_of "-12"). split; [exact minus_12 | reflexivity].
    + split; [reflexivity|]. apply says_basic. right. left. split; [reflexivity|]. exists (bytes_of "340"). split; [exact plus_340 | reflexivity].
  - eapply says_present; [do 3 right; left; reflexivity|].
    apply (says_null json_sch json_names (reads_as no_floats) 0 4). discriminate.
Qed.

Example C60_reads_case : exists t, right_on scanner quotes_only /\ names_ok json_sch json_names /\ schema_ok json_sch /\
  object_ok json_sch 0 read_obj /\ length read_base = length read_obj /\ quotes_only t /\ text (JObj read_json) t /\
  says_object json_sch json_names (reads_as no_floats) 0 read_base read_obj read_json /\
  json_deserializes scanner no_floats json_sch json_names 0 t read_base read_obj.
Proof.
  assert (T : exists t, text (JObj read_json) t /\ after_check (fun c => c =? 34) t = true /\
    exists n, read_object n scanner no_floats json_sch json_names 0 t read_base = Ok read_obj).
  { eexists. split; [unfold read_json; texts; apply (number_of [45] [49; 50] [] []); [now right | ints | constructor | constructor]|].
    split; [vm_compute; reflexivity|]. exists 9%nat. vm_compute. reflexivity. }
  destruct T as (t & T & C & D). exists t. split; [exact scanner_right|]. split; [exact json_names_ok|]. split; [exact json_sch_ok|].
  split; [ok_values|]. split; [reflexivity|]. split; [now apply quotes_checked|]. split; [exact T|]. split; [exact read_says | exact D].
Qed.

Example C60_round_trip_case : exists t, right_on scanner quotes_only /\ names_ok json_sch json_names /\ schema_ok json_sch /\
  object_ok json_sch 0 json_obj /\ length read_base = length json_obj /\
  json_serializes json_sch json_names json_formats 0 json_obj t /\ quotes_only t /\
  fine json_sch json_names json_formats numbered (fun t x s => number s /\ reads_as no_floats t x s) 0 json_obj /\
  nowhere_empty json_sch 0 json_obj /\
  (forall m i e, f_ty (field_at json_sch m i) <> FMap TBool e) /\
  json_deserializes scanner no_floats json_sch json_names 0 t read_base json_obj.
Proof.
  eexists. split; [exact scanner_right|]. split; [exact json_names_ok|]. split; [exact json_sch_ok|].
  split; [ok_values|]. split; [reflexivity|]. split; [exists 2%nat; vm_compute; reflexivity|].
  split; [apply quotes_checked; vm_compute; reflexivity|].
  split; [apply json_fine; exists (bytes_of "Green"); split; [lia|]; split; [reflexivity|plains]|].
  split; [intros M O P; apply json_parts in P as [[-> _]|[-> _]]; discriminate|].
  split.
  - intros [|[|m]] i e; unfold field_at; cbn [msg_at json_sch nth md_fields].
    + do 5 (destruct i as [|i]; [discriminate|]). destruct i; discriminate.
    + destruct i as [|[|i]]; discriminate.
    + unfold msg_at, json_sch. destruct m, i; discriminate.
  - exists 9%nat. vm_compute. reflexivity.
Qed.

(** The hypotheses of the theorems on what is read wrongly. *)
Definition one_text (j : json) (ok : list Z -> Prop) (t : list Z) : Prop :=
  right_on scanner ok /\ (forall t, ok t -> letters_plain t) /\ Forall plain (bytes_of "f") /\ ok t /\ text (JObj [(bytes_of "f", j)]) t.

Lemma one_texts j t : text (JObj [(bytes_of "f", j)]) t -> after_check (fun c => negb (c =? 117) && negb (c =? 47)) t = true ->
  one_text j letters_plain t.
Proof.
  intros T C. split; [apply scanner_right_on; exact letters_part|]. split; [auto|]. split; [plains|]. split; [now apply letters_checked | exact T].
Qed.

Example C60_number_case : exists t, one_text (JNum (bytes_of "1e2")) letters_plain t /\
  (forall z, integer_text z (bytes_of "1e2") -> ~ scalar_ok TInt32 (SNum z)) /\
  json_deserializes scanner no_floats (one (FSing (ES TInt32))) (single_names (bytes_of "f") []) 0 t [VScalar (SNum 5)] [VScalar (SNum 0)].
Proof.
  eexists. split; [apply one_texts; [texts; apply (number_of [] [49] [] [101; 50]); [now left | ints | constructor | apply (exp_some 101 []); auto; digits]
                                   |vm_compute; reflexivity]|].
  split; [|exists 1%nat; vm_compute; reflexivity].
  intros z [(_ & I & _)|(_ & ds & E & _)]; [|discriminate E]. inversion I as [|d ds _ D]. inversion D as [|a b Da _]. unfold digit in Da. lia.
Qed.

(** A number too large for the field. *)
Example C60_large_case : exists t, one_text (JNum (bytes_of "3000000000")) letters_plain t /\
  (forall z, integer_text z (bytes_of "3000000000") -> ~ scalar_ok TInt32 (SNum z)) /\
  json_deserializes scanner no_floats (one (FSing (ES TInt32))) (single_names (bytes_of "f") []) 0 t [VScalar (SNum 5)] [VScalar (SNum 0)].
Proof.
  eexists. split; [apply one_texts; [texts; apply (number_of [] (bytes_of "3000000000") [] []); [now left | cbn; ints | constructor | constructor]
                                   |vm_compute; reflexivity]|].
  split; [|exists 1%nat; vm_compute; reflexivity].
  intros z [(_ & _ & E)|(_ & ds & E & _)]; [|discriminate E]. vm_compute in E. subst z. vm_compute. intros [_ X]. discriminate X.
Qed.

Example C60_enum_case : exists t, one_text (JNum (bytes_of "1")) letters_plain t /\ ~ In (bytes_of "1") (map fst [(bytes_of "Red", 0); (bytes_of "Green", 1)]) /\
  json_deserializes scanner no_floats (one (FSing (ES TEnum))) (single_names (bytes_of "f") [(bytes_of "Red", 0); (bytes_of "Green", 1)]) 0 t
    [VScalar (SNum 0)] [VScalar (SNum (-1))].
Proof.
  eexists. split; [apply one_texts; [texts; apply (number_of [] [49] [] []); [now left | ints | constructor | constructor] |vm_compute; reflexivity]|].
  split; [cbn; intuition discriminate | exists 1%nat; vm_compute; reflexivity].
Qed.

Example C60_not_finite_case : exists t, one_text (JStr (bytes_of "NaN")) letters_plain t /\
  json_deserializes scanner no_floats (one (FSing (ES TDouble))) (single_names (bytes_of "f") []) 0 t [VScalar (SNum 5)] [VScalar (SNum 0)].
Proof.
  eexists. split; [apply one_texts; [texts|vm_compute; reflexivity] | exists 1%nat; vm_compute; reflexivity].
Qed.

(** The characters 10 and 92 are read as backslash, n, backslash, backslash. *)
Example C60_escapes_case : exists t, one_text (JStr [97; 10; 92]) letters_plain t /\ In 10 [97; 10; 92] /\
  json_deserializes scanner no_floats (one (FSing (ES TString))) (single_names (bytes_of "f") []) 0 t
    [VScalar (SStr true [])] [VScalar (SStr false [97; 92; 110; 92; 92])].
Proof.
  eexists. split; [apply one_texts; [texts|vm_compute; reflexivity]|]. split; [cbn; auto | exists 1%nat; vm_compute; reflexivity].
Qed.

Example C60_bool_key_case : exists t, one_text (JObj [(bytes_of "true", JNum (bytes_of "340"))]) letters_plain t /\
  integer_text 340 (bytes_of "340") /\ in_s 32 340 /\
  json_deserializes scanner no_floats (one (FMap TBool (ES TInt32))) (single_names (bytes_of "f") []) 0 t [VMap []] [VMap [(SNum 0, VScalar (SNum 340))]].
Proof.
  eexists. split; [apply one_texts; [texts; apply (number_of [] (bytes_of "340") [] []); [now left | cbn; ints | constructor | constructor] |vm_compute; reflexivity]|].
  split; [exact plus_340|]. split; [vm_compute; split; [discriminate | reflexivity]|]. exists 9%nat. vm_compute. reflexivity.
Qed.

Example C60_null_enum_case : exists t, one_text JNull letters_plain t /\
  json_deserializes scanner no_floats (one (FSing (ES TEnum))) (single_names (bytes_of "f") []) 0 t [VScalar (SNum 7)] [VScalar (SNum 7)].
Proof.
  eexists. split; [apply one_texts; [texts|vm_compute; reflexivity] | exists 1%nat; vm_compute; reflexivity].
Qed.

Definition wrong_json : list (list Z * json) :=
  [ (bytes_of "sizes2", JObj [(bytes_of "w", JBool true)]); (bytes_of "raw", JArr [JNull]); (bytes_of "name", JObj []) ].

Example C61_case : exists t, right_on scanner quotes_only /\ names_ok json_sch json_names /\ schema_ok json_sch /\
  object_ok json_sch 0 json_obj /\ quotes_only t /\ text (JObj wrong_json) t /\ NoDup (map fst wrong_json) /\
  (forall name j, In (name, j) wrong_json -> (forall i, In i (md_order (msg_at json_sch 0)) -> n_json json_names 0 i <> name) \/
     exists i, In i (md_order (msg_at json_sch 0)) /\ n_json json_names 0 i = name /\ wrong_kind (reads_as no_floats) (f_ty (field_at json_sch 0 i)) j) /\
  json_deserializes scanner no_floats json_sch json_names 0 t json_obj json_obj.
Proof.
  eexists. split; [exact scanner_right|]. split; [exact json_names_ok|]. split; [exact json_sch_ok|]. split; [ok_values|].
  match goal with |- ?a /\ ?b /\ ?c => enough (X : b /\ a /\ c) by (destruct X as (X1 & X2 & X3); exact (conj X2 (conj X1 X3))) end.
  split; [unfold wrong_json; texts|]. split; [apply quotes_checked; vm_compute; reflexivity|].
  split; [cbn; repeat (apply NoDup_cons; [cbn; intuition discriminate|]); apply NoDup_nil|].
  split; [|exists 9%nat; vm_compute; reflexivity].
  intros name j [E|[E|[E|[]]]]; injection E as <- <-.
  - left. intros i [<-|[<-|[<-|[<-|[<-|[]]]]]]; discriminate.
  - right. exists 4%nat. repeat split. cbn. auto 6.
  - right. exists 0%nat. repeat split. cbn. auto 6.
Qed.

Example C61_element_case : exists t, one_text (JArr [JBool true]) letters_plain t /\ (forall s, JBool true <> JStr s) /\
  json_deserializes scanner no_floats (one (FRep (ES TString))) (single_names (bytes_of "f") []) 0 t [VList []] [VList [VScalar (SStr true [])]].
Proof.
  eexists. split; [apply one_texts; [texts|vm_compute; reflexivity]|]. split; [discriminate | exists 1%nat; vm_compute; reflexivity].
Qed.

Example C61_enum_case : exists t, one_text (JArr []) letters_plain t /\
  (forall s, text (JArr []) s -> ~ In s (map fst [(bytes_of "A", 0); (bytes_of "B", 5)])) /\
  json_deserializes scanner no_floats (one (FSing (ES TEnum))) (single_names (bytes_of "f") [(bytes_of "A", 0); (bytes_of "B", 5)]) 0 t
    [VScalar (SNum 5)] [VScalar (SNum (-1))].
Proof.
  eexists. split; [apply one_texts; [texts|vm_compute; reflexivity]|]. split; [|exists 1%nat; vm_compute; reflexivity].
  intros s T I. inversion T; subst; cbn in I; intuition discriminate.
Qed.

Example C61_message_case : exists t, one_text (JNum (bytes_of "5")) letters_plain t /\
  (forall s, text (JNum (bytes_of "5")) s -> parseJsonObject scanner s = []) /\
  json_deserializes scanner no_floats (one (FSing (EM 0))) (single_names (bytes_of "f") []) 0 t [VMsg [VMsg [VNull]]] [VMsg [VNull]].
Proof.
  eexists. split; [apply one_texts; [texts; apply (number_of [] (bytes_of "5") [] []); [now left | cbn; ints | constructor | constructor]|vm_compute; reflexivity]|].
  split; [|exists 2%nat; vm_compute; reflexivity]. intros s T. inversion T; subst. reflexivity.
Qed.

(** With a float and an integer, given a bool and a string. *)
Example C61_number_case :
  let sch := [mkMsg [mkField 1 (FSing (ES TFloat)); mkField 2 (FSing (ES TInt32))] [0; 1]%nat] in
  wrong_kind (reads_as no_floats) (f_ty (field_at sch 0 0)) (JBool true) /\
  wrong_kind (reads_as no_floats) (f_ty (field_at sch 0 1)) (JStr (bytes_of "x12")).
Proof.
  split; [intros x; discriminate|]. intros u C (sign & ds & Eu & Hs & Nd & D).
  assert (H : exists c t, u = c :: t /\ (c = 120 \/ c = 92)).
  { remember (bytes_of "x12") as s eqn:Es. destruct C; try discriminate Es; eauto. injection Es as -> _. eauto. }
  destruct H as (c & t & -> & Hc). destruct Hs as [->|[->| ->]]; cbn [app] in Eu; subst; [|injection Eu as -> _; lia..].
  inversion D as [|? ? X]; subst. unfold digit in X. lia.
Qed.

Print Assumptions C60_one_result.
Print Assumptions C60_reads_partial.
Print Assumptions C60_round_trip_partial.
Print Assumptions C60_number_refuted.
Print Assumptions C60_enum_refuted.
Print Assumptions C60_not_finite_refuted.
Print Assumptions C60_escapes_refuted.
Print Assumptions C60_bool_key_refuted.
Print Assumptions C60_null_enum_refuted.
Print Assumptions C61_ignored_partial.
Print Assumptions C61_element_refuted.
Print Assumptions C61_enum_refuted.
Print Assumptions C61_message_refuted.

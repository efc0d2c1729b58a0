(** What the JSON reader does with texts that stand for a message. *)

From Coq Require Import String ZArith List Bool Lia Permutation.
From Verif Require Import Base Values WireSpec MessageSpec MessageModel MessageProofs SerializeProofs ObjectProofs TypedProofs
  PropFacts JsonSpec JsonModel JsonProofs JsonUnique JsonReadModel JsonReadSpec.
Import ListNotations.
Open Scope Z_scope.

Lemma same_bytes_spec a b : same_bytes a b = true <-> a = b.
Proof. apply list_eqb_Z. Qed.
Lemma same_bytes_refl a : same_bytes a a = true.
Proof. now apply same_bytes_spec. Qed.

(** ** Strings *)

Lemma quotes_tail c t : quotes_only (c :: t) -> quotes_only t.
Proof. intros H a b E. apply (H (c :: a) b). cbn. now rewrite E. Qed.

Lemma unescape_plain c t : c <> 92 -> unescape (c :: t) = c :: unescape t.
Proof. intro N. cbn [unescape]. destruct t; [reflexivity|]. destruct (Z.eqb_spec c 92); [contradiction | reflexivity]. Qed.

Lemma unescape_quote t : unescape (92 :: 34 :: t) = 34 :: unescape t.
Proof. reflexivity. Qed.

(** With this escape sequence only, the texts of strings are [quoted_chars]. *)
Inductive quoted_chars : list Z -> list Z -> Prop :=
| quoted_nil : quoted_chars [] []
| quoted_plain c s t : plain c -> quoted_chars s t -> quoted_chars (c :: s) (c :: t)
| quoted_quote s t : quoted_chars s t -> quoted_chars (34 :: s) (92 :: 34 :: t).

Lemma chars_quoted s t : chars s t -> quotes_only (t ++ [34]) -> quoted_chars s t.
Proof.
  induction 1 as [|c s t P C IH|e c s t E C IH|h c s t H B C IH|h1 c1 h2 c2 s t H1 B1 H2 B2 C IH]; intro Q.
  - constructor.
  - constructor; [exact P|]. apply IH. eapply quotes_tail; exact Q.
  - destruct (Q [] (e :: t ++ [34]) eq_refl) as (b & Eb). injection Eb as -> Eb.
    cbn in E. injection E as <-. constructor. apply IH. eapply quotes_tail. eapply quotes_tail. exact Q.
  - destruct (Q [] (117 :: (h ++ t) ++ [34]) eq_refl) as (b & Eb). discriminate Eb.
  - destruct (Q [] (117 :: (h1 ++ 92 :: 117 :: h2 ++ t) ++ [34]) eq_refl) as (b & Eb). discriminate Eb.
Qed.

Lemma quoted_unescape s t : quoted_chars s t -> unescape t = s.
Proof.
  induction 1 as [|c s t P C IH|s t C IH]; [reflexivity| |].
  - rewrite unescape_plain by apply P. now rewrite IH.
  - rewrite unescape_quote. now rewrite IH.
Qed.

Lemma quoted_plain_eq s t : quoted_chars s t -> Forall plain s -> t = s.
Proof.
  induction 1 as [|c s t P C IH|s t C IH]; intro F; [reflexivity| |]; inversion F as [|x y Px Py]; subst.
  - now rewrite IH.
  - exfalso. destruct Px as (_ & Px & _). now apply Px.
Qed.

(** ** Numbers *)

Lemma digits_value_spec ds : Forall digit ds -> forall acc,
  digits_value acc ds = Some (fold_left (fun v d => v * 10 + (d - 48)) ds acc).
Proof.
  induction 1 as [|d ds D Ds IH]; intro acc; [reflexivity|]. cbn [digits_value fold_left].
  destruct D as [D1 D2]. apply Z.leb_le in D1, D2. rewrite D1, D2. apply IH.
Qed.

Lemma int_digits s : int_part s -> Forall digit s /\ s <> [] /\ hd 0 s <> 45 /\ hd 0 s <> 43.
Proof.
  intros [|d ds D Ds].
  - repeat split; try discriminate. constructor; [unfold digit; lia | constructor].
  - repeat split; try discriminate; try (cbn; lia). constructor; [unfold digit; lia | exact Ds].
Qed.

Lemma toInteger_spec t z s : integer_text z s -> lowest t <= z <= highest t -> toInteger t s = Some z.
Proof.
  intros I B. unfold toInteger.
  assert (R : (lowest t <=? z) && (z <=? highest t) = true) by (apply andb_true_intro; split; apply Z.leb_le; lia).
  destruct I as [(P & I & V)|(P & ds & -> & I & V)].
  - destruct (int_digits _ I) as (D & N & N1 & N2). destruct s as [|c s]; [contradiction|]. cbn [hd] in N1, N2.
    destruct (Z.eqb_spec c 45); [contradiction|]. destruct (Z.eqb_spec c 43); [contradiction|].
    rewrite (digits_value_spec _ D). unfold decimal_value in V. rewrite V. now rewrite R.
  - destruct (int_digits _ I) as (D & N & _). change (45 =? 45) with true. cbn match.
    destruct ds as [|c ds]; [contradiction|]. rewrite (digits_value_spec _ D). unfold decimal_value in V. rewrite V.
    rewrite Z.opp_involutive. now rewrite R.
Qed.

Lemma integer_range t z : is_integer t = true -> scalar_ok t (SNum z) -> lowest t <= z <= highest t.
Proof. destruct t; cbn; intros E H; try discriminate E; unfold in_s, in_u in H; cbn in H; lia. Qed.

(** ** Base64 *)

Lemma base64_value_char v : 0 <= v < 64 -> base64_value (base64_char v) = Some v.
Proof.
  intro B. unfold base64_char, base64_value.
  destruct (Z.ltb_spec v 26); [destruct (Z.leb_spec 65 (65 + v)); [|lia]; destruct (Z.leb_spec (65 + v) 90); [|lia]; cbn [andb]; f_equal; lia|].
  destruct (Z.ltb_spec v 52).
  { destruct (Z.leb_spec (71 + v) 90); [lia|]. rewrite andb_false_r. destruct (Z.leb_spec 97 (71 + v)); [|lia].
    destruct (Z.leb_spec (71 + v) 122); [|lia]. cbn [andb]. f_equal; lia. }
  destruct (Z.ltb_spec v 62).
  { destruct (Z.leb_spec 65 (v - 4)); [lia|]. destruct (Z.leb_spec 97 (v - 4)); [lia|]. destruct (Z.leb_spec 48 (v - 4)); [|lia].
    destruct (Z.leb_spec (v - 4) 57); [|lia]. cbn [andb]. f_equal; lia. }
  destruct (Z.eqb_spec v 62) as [->|]; [reflexivity|]. replace v with 63 by lia. reflexivity.
Qed.

Lemma base64_step buf nbits v s : 0 <= v < 64 ->
  fromBase64 buf nbits (base64_char v :: s) =
  if 8 <=? nbits + 6 then ((buf * 64 + v) / 2 ^ (nbits + 6 - 8)) mod 256 :: fromBase64 ((buf * 64 + v) mod 2 ^ (nbits + 6 - 8)) (nbits + 6 - 8) s
  else fromBase64 (buf * 64 + v) (nbits + 6) s.
Proof. intro B. cbn [fromBase64]. now rewrite base64_value_char. Qed.

Lemma base64_skip buf nbits s : fromBase64 buf nbits (61 :: s) = fromBase64 buf nbits s.
Proof. reflexivity. Qed.

Lemma base64_back : forall n bs, (length bs <= n)%nat -> bytes bs -> fromBase64 0 0 (base64 bs) = bs.
Proof.
  induction n as [|n IH]; intros bs L B; [destruct bs; [reflexivity | cbn in L; lia]|].
  assert (Byte : forall a, is_byte a -> 0 <= a / 4 < 64 /\ 0 <= a mod 4 < 4 /\ a = a / 4 * 4 + a mod 4 /\
            0 <= a / 16 < 16 /\ 0 <= a mod 16 < 16 /\ a = a / 16 * 16 + a mod 16 /\
            0 <= a / 64 < 4 /\ 0 <= a mod 64 < 64 /\ a = a / 64 * 64 + a mod 64).
  { intros a Ha. unfold is_byte in Ha. pose proof (Z.div_mod a 4). pose proof (Z.div_mod a 16). pose proof (Z.div_mod a 64).
    pose proof (Z.mod_pos_bound a 4). pose proof (Z.mod_pos_bound a 16). pose proof (Z.mod_pos_bound a 64). lia. }
  assert (Mid : forall x lo k q, 0 <= lo < k -> 0 <= q < 256 -> x = q * k + lo -> (x / k) mod 256 = q /\ x mod k = lo).
  { intros x lo k q Hl Hq ->. rewrite Z.div_add_l, (Z.div_small lo) by lia. rewrite Z.add_0_r, Z.mod_small by lia. split; [reflexivity|].
    rewrite Z.add_comm, Z.mod_add, Z.mod_small by lia. reflexivity. }
  destruct bs as [|a [|b [|c bs]]]; cbn [base64].
  - reflexivity.
  - inversion B as [|x y Ha _]; subst. pose proof (Byte a Ha) as (A1 & A2 & A3 & _). unfold is_byte in Ha.
    rewrite base64_step by lia. change (8 <=? 0 + 6) with false. cbn match.
    rewrite base64_step by lia.
    change (8 <=? 0 + 6 + 6) with true. cbn match.
    change (0 + 6 + 6 - 8) with 4. change (2 ^ 4) with 16. change (0 * 64 + a / 4) with (a / 4).
    destruct (Mid (a / 4 * 64 + a mod 4 * 16) 0 16 a) as [M1 M2]; try lia. rewrite M1, !base64_skip. reflexivity.
  - inversion B as [|x y Ha B']; subst. inversion B' as [|x y Hb _]; subst.
    pose proof (Byte a Ha) as (A1 & A2 & A3 & _). pose proof (Byte b Hb) as (_ & _ & _ & B1 & B2 & B3 & _). unfold is_byte in Ha, Hb.
    rewrite base64_step by lia. change (8 <=? 0 + 6) with false. cbn match.
    rewrite base64_step by lia. change (8 <=? 0 + 6 + 6) with true. cbn match.
    change (0 + 6 + 6 - 8) with 4. change (2 ^ 4) with 16. change (0 * 64 + a / 4) with (a / 4).
    destruct (Mid (a / 4 * 64 + (a mod 4 * 16 + b / 16)) (b / 16) 16 a) as [M1 M2]; try lia. rewrite M1, M2.
    rewrite base64_step by lia. change (8 <=? 4 + 6) with true. cbn match. change (4 + 6 - 8) with 2. change (2 ^ 2) with 4.
    destruct (Mid (b / 16 * 64 + b mod 16 * 4) 0 4 b) as [M3 M4]; try lia. rewrite M3, base64_skip. reflexivity.
  - inversion B as [|x y Ha B']; subst. inversion B' as [|x y Hb B'']; subst. inversion B'' as [|x y Hc B3]; subst.
    pose proof (Byte a Ha) as (A1 & A2 & A3 & _). pose proof (Byte b Hb) as (_ & _ & _ & B1 & B2 & B4 & _).
    pose proof (Byte c Hc) as (_ & _ & _ & _ & _ & _ & C1 & C2 & C3). unfold is_byte in Ha, Hb, Hc.
    rewrite base64_step by lia. change (8 <=? 0 + 6) with false. cbn match.
    rewrite base64_step by lia. change (8 <=? 0 + 6 + 6) with true. cbn match.
    change (0 + 6 + 6 - 8) with 4. change (2 ^ 4) with 16. change (0 * 64 + a / 4) with (a / 4).
    destruct (Mid (a / 4 * 64 + (a mod 4 * 16 + b / 16)) (b / 16) 16 a) as [M1 M2]; try lia. rewrite M1, M2.
    rewrite base64_step by lia. change (8 <=? 4 + 6) with true. cbn match. change (4 + 6 - 8) with 2. change (2 ^ 2) with 4.
    destruct (Mid (b / 16 * 64 + (b mod 16 * 4 + c / 64)) (c / 64) 4 b) as [M3 M4]; try lia. rewrite M3, M4.
    rewrite base64_step by lia. change (8 <=? 2 + 6) with true. cbn match. change (2 + 6 - 8) with 0. change (2 ^ 0) with 1.
    destruct (Mid (c / 64 * 64 + c mod 64) 0 1 c) as [M5 M6]; try lia. rewrite M5, M6.
    rewrite IH; [reflexivity | cbn in L; lia | exact B3].
Qed.

(** ** Enumerators *)

Lemma keyToValue_spec en name z : NoDup (map fst en) -> In (name, z) en -> keyToValue en name = z.
Proof.
  intros N I. unfold keyToValue. induction en as [|[n y] en IH]; [destruct I|]. cbn [map fst] in N. inversion N as [|x l N1 N2]; subst.
  cbn [find fst]. destruct (same_bytes n name) eqn:E.
  - apply same_bytes_spec in E. subst n. destruct I as [I|I]; [now injection I as ->|].
    exfalso. apply N1. now apply (in_map fst) in I.
  - destruct I as [I|I]; [injection I as -> ->; now rewrite same_bytes_refl in E|]. now apply IH.
Qed.

(** ** The values handed over *)

Section Handed.
  Variable ok : list Z -> Prop.
  Hypothesis Q : forall t, ok t -> quotes_only t.

  Lemma handed_string s v : handed ok (JStr s) v -> exists u, v = (StringType, u) /\ quoted_chars s u.
  Proof.
    intros (t & O & T & ->). inversion T as [| | | |s' u C| | | |]; subst. exists u. cbn [hand_over].
    change (34 =? 34) with true. cbn match. rewrite removelast_app by discriminate. cbn [removelast]. rewrite app_nil_r.
    split; [reflexivity|]. apply chars_quoted; [exact C|]. eapply quotes_tail. apply Q. exact O.
  Qed.

  Lemma handed_plain s v : handed ok (JStr s) v -> Forall plain s -> v = (StringType, s).
  Proof. intros H P. apply handed_string in H as (u & -> & C). f_equal. now apply quoted_plain_eq. Qed.

  Lemma handed_number s v : handed ok (JNum s) v -> v = (NumberType, s).
  Proof.
    clear Q. intros (t & O & T & ->). inversion T as [| | |s' N| | | | |]; subst. destruct (number_head _ N) as (c & s' & -> & D).
    unfold hand_over. assert (R : c <> 34 /\ c <> 91 /\ c <> 123 /\ c <> 110 /\ c <> 116 /\ c <> 102).
    { unfold digit in D. lia. }
    destruct R as (R1 & R2 & R3 & R4 & R5 & R6). apply Z.eqb_neq in R1, R2, R3, R4, R5, R6. now rewrite R1, R2, R3, R4, R5, R6.
  Qed.

  Lemma handed_bool b v : handed ok (JBool b) v -> v = (BoolType, if b then bytes_of "true" else bytes_of "false").
  Proof. intros (t & O & T & ->). inversion T; subst; reflexivity. Qed.

  Lemma handed_null v : handed ok JNull v -> v = (ObjectType, bytes_of "null").
  Proof. intros (t & O & T & ->). inversion T; subst; reflexivity. Qed.

  Lemma handed_array js v : handed ok (JArr js) v -> exists t, v = (ArrayType, t) /\ ok t /\ text (JArr js) t /\ t <> [].
  Proof. intros (t & O & T & ->). exists t. inversion T; subst; repeat split; auto; discriminate. Qed.

  Lemma handed_object l v : handed ok (JObj l) v ->
    exists t, v = (ObjectType, t) /\ ok t /\ text (JObj l) t /\ t <> [] /\ t <> bytes_of "null".
  Proof. intros (t & O & T & ->). exists t. inversion T; subst; repeat split; auto; discriminate. Qed.
End Handed.

(** The opening character is skipped. *)
Lemma skip_open_spec c s : skip_open c s = unopened c s.
Proof. unfold unopened. destruct s as [|x s]; cbn [skip_open hd tl]; [destruct (0 =? c); reflexivity | reflexivity]. Qed.

(** ** Basic values *)

Lemma number_finite s : number s -> not_finite s = false.
Proof.
  intros [sign i f e Hs Hi Hf He]. unfold not_finite, same_bytes.
  assert (D : exists d i', i = d :: i' /\ digit d) by (destruct Hi as [|d ds B F]; eexists _, _; (split; [reflexivity | unfold digit; lia])).
  destruct D as (d & i' & -> & D). unfold digit in D.
  assert (C : forall c, c < 48 \/ 57 < c -> (d =? c) = false) by (intros; apply Z.eqb_neq; lia).
  destruct Hs as [-> | ->].
  - change ([] ++ (d :: i') ++ f ++ e) with (d :: i' ++ f ++ e).
    change (bytes_of "NaN") with [78; 97; 78]. change (bytes_of "Infinity") with [73; 110; 102; 105; 110; 105; 116; 121].
    change (bytes_of "-Infinity") with [45; 73; 110; 102; 105; 110; 105; 116; 121].
    cbn [list_eqb]. now rewrite !C by lia.
  - change ([45] ++ (d :: i') ++ f ++ e) with (45 :: d :: i' ++ f ++ e).
    change (bytes_of "NaN") with [78; 97; 78]. change (bytes_of "Infinity") with [73; 110; 102; 105; 110; 105; 116; 121].
    change (bytes_of "-Infinity") with [45; 73; 110; 102; 105; 110; 105; 116; 121].
    cbn [list_eqb]. change (45 =? 78) with false. change (45 =? 73) with false. change (45 =? 45) with true. cbn [andb orb].
    now rewrite C by lia.
Qed.

Lemma number_plain s : number s -> Forall plain s.
Proof. intro H. eapply Forall_impl; [|apply number_numc; exact H]. intro c. unfold numc, digit, plain. lia. Qed.

Lemma handed_is_number ok s v : handed ok (JNum s) v -> number s.
Proof. intros (t & _ & T & _). now inversion T. Qed.

Definition enum_ok (en : list (list Z * Z)) : Prop :=
  NoDup (map fst en) /\ forall p, In p en -> Forall plain (fst p) /\ fst p <> [] /\ fst p <> bytes_of "null".

Section Scalars.
  Variable ok : list Z -> Prop.
  Hypothesis Q : forall t, ok t -> quotes_only t.
  Variable conv : conversions.
  Definition floats_of : sty -> Z -> list Z -> Prop := fun t x s => conv t s = (x, true).

  Lemma read_integer en t z s ty : is_integer t = true -> integer_text z s -> scalar_ok t (SNum z) ->
    read_scalar conv en t (ty, s) = (Some (SNum z), true).
  Proof.
    intros I T O. pose proof (toInteger_spec t z s T (integer_range t z I O)) as E.
    destruct t; try discriminate I; cbn [read_scalar]; now rewrite E.
  Qed.

  Lemma integer_scalar t s : is_integer t = true -> scalar_ok t s -> s = SNum (num_of s).
  Proof. destruct t; intros I O; try discriminate I; destruct s; cbn in *; now try contradiction. Qed.

  (** A basic value as seen by the reader. *)
  Lemma scalar_read en t s j v : enum_ok en -> says_scalar floats_of en t s j -> handed ok j v -> scalar_ok t s ->
    exists s', read_scalar conv en t v = (Some s', true) /\ canon_scalar t s' = canon_scalar t s /\
               (is_enum t = true -> same_bytes (snd v) (bytes_of "null") = false) /\
               same_bytes (snd v) (bytes_of "null") && is_object (fst v) = false.
  Proof.
    intros (N & En) Sy H O.
    assert (Num : forall s', is_integer t = true -> integer_text (num_of s) s' -> forall ty, is_object ty = false -> v = (ty, s') ->
              exists s', read_scalar conv en t v = (Some s', true) /\ canon_scalar t s' = canon_scalar t s /\
                (is_enum t = true -> same_bytes (snd v) (bytes_of "null") = false) /\
                same_bytes (snd v) (bytes_of "null") && is_object (fst v) = false).
    { intros s' I T ty Ty ->. pose proof (integer_scalar t s I O) as Es. rewrite Es in O.
      exists (SNum (num_of s)). split; [now apply read_integer|]. split; [now rewrite <- Es|].
      split; [destruct t; discriminate|]. cbn [fst]. now rewrite Ty, andb_false_r. }
    assert (Flo : forall s', is_float t = true -> number s' -> floats_of t (num_of s) s' -> forall ty, is_object ty = false -> v = (ty, s') ->
              exists s', read_scalar conv en t v = (Some s', true) /\ canon_scalar t s' = canon_scalar t s /\
                (is_enum t = true -> same_bytes (snd v) (bytes_of "null") = false) /\
                same_bytes (snd v) (bytes_of "null") && is_object (fst v) = false).
    { intros s' I Nu F ty Ty ->. exists (SNum (num_of s)). unfold floats_of in F. cbn [fst snd]. rewrite Ty, andb_false_r.
      destruct t; try discriminate I; cbn [read_scalar]; rewrite (number_finite _ Nu), F; repeat split; discriminate. }
    destruct Sy as [Sy|[(I & s' & T & ->)|(I & s' & Nu & F & ->)]].
    2: { apply (handed_plain ok Q) in H; [|now apply (integer_plain _ _ T)]. exact (Num s' I T StringType eq_refl H). }
    2: { apply (handed_plain ok Q) in H; [|now apply number_plain]. exact (Flo s' I Nu F StringType eq_refl H). }
    destruct (is_integer t) eqn:I.
    { assert (exists s', integer_text (num_of s) s' /\ j = JNum s') as (s' & T & ->) by (destruct t; try discriminate I; exact Sy).
      apply (handed_number ok) in H. exact (Num s' eq_refl T NumberType eq_refl H). }
    destruct t; try discriminate I; cbn [shows_scalar is_float] in Sy.
    - (* float *) destruct Sy as (s' & F & ->). pose proof (handed_is_number _ _ _ H) as Nu. apply (handed_number ok) in H.
      exact (Flo s' eq_refl Nu F NumberType eq_refl H).
    - (* double *) destruct Sy as (s' & F & ->). pose proof (handed_is_number _ _ _ H) as Nu. apply (handed_number ok) in H.
      exact (Flo s' eq_refl Nu F NumberType eq_refl H).
    - (* bool *) subst j. apply (handed_bool ok) in H. subst v.
      destruct s as [z|]; cbn [scalar_ok] in O; [|contradiction]. cbn [num_of] in *. exists (SNum z).
      split; [|repeat split; try discriminate; cbn [fst is_object]; now rewrite andb_false_r].
      destruct O as [-> | ->]; reflexivity.
    - (* enum *) destruct Sy as (name & I' & ->). destruct (En _ I') as (P & E & E2). cbn [fst] in P, E, E2.
      apply (handed_plain ok Q) in H; [|exact P]. subst v. destruct s as [z|]; cbn [scalar_ok] in O; [|contradiction].
      cbn [num_of] in *. exists (SNum z). cbn [read_scalar snd]. rewrite (keyToValue_spec _ _ _ N I').
      destruct name; [contradiction|].
      assert (Ne : same_bytes (z0 :: name) (bytes_of "null") = false).
      { destruct (same_bytes _ _) eqn:X; [|reflexivity]. apply same_bytes_spec in X. contradiction. }
      repeat split; auto. now rewrite Ne.
    - (* string *) subst j. apply (handed_string ok Q) in H as (u & -> & C). exists (SStr false (unescape u)). cbn [read_scalar is_string].
      rewrite (quoted_unescape _ _ C). split; [reflexivity|]. split; [reflexivity|]. split; [discriminate|]. cbn [fst is_object]. apply andb_false_r.
    - (* bytes *) subst j. destruct s as [|null bs]; cbn [scalar_ok] in O; [contradiction|]. destruct O as [B _]. cbn [blob_of] in *.
      apply (handed_plain ok Q) in H; [|now apply (base64_plain (length bs))]. subst v.
      exists (SStr false bs). cbn [read_scalar is_string]. rewrite (base64_back (length bs)) by auto.
      split; [reflexivity|]. split; [reflexivity|]. split; [discriminate|]. cbn [fst is_object]. apply andb_false_r.
  Qed.

  Lemma element_read en t s j v : enum_ok en -> says_scalar floats_of en t s j -> handed ok j v -> scalar_ok t s ->
    canon_scalar t (read_element conv en t v) = canon_scalar t s.
  Proof.
    intros N Sy H O. destruct (scalar_read en t s j v N Sy H O) as (s' & R & C & E & _). unfold read_element.
    destruct (is_enum t) eqn:T.
    - rewrite E by reflexivity. destruct t; try discriminate T. cbn [read_scalar] in R. destruct v as [ty data]. cbn [snd].
      destruct data; [discriminate R|]. injection R as <-. exact C.
    - unfold value_or_default. rewrite R. exact C.
  Qed.

  Lemma key_read k v name u : key_type k -> k <> TBool -> shows_key k v name -> ok (34 :: u ++ [34]) -> chars name u -> scalar_ok k v ->
    canon_scalar k (read_key conv k u) = canon_scalar k v.
  Proof.
    intros K Nb Sk Ok C O. assert (Qc : quoted_chars name u) by (apply chars_quoted; [exact C | exact (quotes_tail 34 _ (Q _ Ok))]).
    unfold read_key. destruct (is_integer k) eqn:I.
    - assert (T : integer_text (num_of v) name) by (destruct k; try discriminate I; exact Sk).
      rewrite (quoted_plain_eq _ _ Qc (integer_plain _ _ T)). pose proof (integer_scalar k v I O) as Es. rewrite Es in O.
      rewrite (read_integer [] k (num_of v) name StringType I T O). cbn [snd fst value_or_default]. now rewrite <- Es.
    - destruct k; try discriminate I; try contradiction. cbn [shows_key] in Sk. subst name. cbn [read_scalar is_string snd].
      unfold value_or_default. cbn [fst]. rewrite (quoted_unescape _ _ Qc). reflexivity.
  Qed.
End Scalars.

(** ** Maps *)

Lemma canon_scalar_idem k a : canon_scalar k (canon_scalar k a) = canon_scalar k a.
Proof.
  unfold canon_scalar. destruct (is_blob k); [reflexivity|]. destruct k; try reflexivity; cbn [num_of].
  - destruct (num_of a mod 2 ^ 31 =? 0) eqn:E; [reflexivity|]. now rewrite E.
  - destruct (num_of a mod 2 ^ 63 =? 0) eqn:E; [reflexivity|]. now rewrite E.
Qed.

Lemma insert_permutation k a v l : key_type k -> canon_scalar k a = a -> Forall (fun p => canon_scalar k (fst p) = fst p) l ->
  ~ In a (map fst l) -> Permutation ((a, v) :: l) (map_insert k a v l).
Proof.
  intros K Ca Cl. induction l as [|[b w] l IH]; intro N; cbn [map_insert]; [reflexivity|].
  inversion Cl as [|x y C1 C2]; subst. cbn [fst map] in *.
  destruct (key_ltb k a b) eqn:E1; [reflexivity|]. destruct (key_ltb k b a) eqn:E2.
  - etransitivity; [apply perm_swap|]. constructor. apply IH; [exact C2|]. intro I. apply N. now right.
  - exfalso. apply N. left. pose proof (key_tri k a b K E1 E2). congruence.
Qed.

Lemma inserts k : key_type k -> forall ps acc, Forall (fun p => canon_scalar k (fst p) = fst p) (acc ++ ps) -> NoDup (map fst (acc ++ ps)) ->
  keys_sorted k acc ->
  let r := fold_left (fun acc p => map_insert k (fst p) (snd p) acc) ps acc in keys_sorted k r /\ Permutation (acc ++ ps) r.
Proof.
  intro K. induction ps as [|[a v] ps IH]; intros acc C N So; cbn [fold_left].
  - rewrite app_nil_r. now split.
  - cbn [fst snd].
    assert (P : Permutation ((a, v) :: acc) (map_insert k a v acc)).
    { apply insert_permutation; auto.
      - rewrite Forall_forall in C. apply (C (a, v)). apply in_or_app. right. now left.
      - apply Forall_app in C. apply C.
      - intro I. rewrite map_app in N. cbn [map fst] in N. apply NoDup_remove_2 in N. apply N. apply in_or_app. now left. }
    assert (P2 : Permutation (acc ++ (a, v) :: ps) (map_insert k a v acc ++ ps)).
    { etransitivity; [symmetry; apply Permutation_middle|]. now apply (Permutation_app_tail ps) in P. }
    destruct (IH (map_insert k a v acc)) as [S1 S2].
    + now rewrite <- P2.
    + eapply Permutation_NoDup; [apply Permutation_map, P2|]. exact N.
    + now apply insert_sorted.
    + split; [exact S1|]. etransitivity; [exact P2 | exact S2].
Qed.

Lemma sorted_keys_NoDup k (l : list (scalar * value)) : keys_sorted k l -> NoDup (map fst l).
Proof.
  induction l as [|[a v] l IH]; cbn [keys_sorted map fst]; intro H; constructor.
  - intro In. apply in_map_iff in In as (p & Ep & In). destruct H as [H _]. rewrite Forall_forall in H. apply H in In.
    rewrite Ep in In. now rewrite key_ltb_irrefl in In.
  - now apply IH.
Qed.

(** Inserting the entries of a map in any order gives the map. *)
Lemma inserts_sorted k l ps : key_type k -> keys_sorted k l -> Forall (fun p => canon_scalar k (fst p) = fst p) l -> Permutation l ps ->
  fold_left (fun acc p => map_insert k (fst p) (snd p) acc) ps [] = l.
Proof.
  intros K So C P. destruct (inserts k K ps []) as [S1 S2].
  - cbn [app]. now rewrite <- P.
  - cbn [app]. eapply Permutation_NoDup; [apply Permutation_map, P|]. now apply (sorted_keys_NoDup k).
  - exact Logic.I.
  - cbn [app] in S2. assert (P2 := Permutation_trans P S2). apply (sorted_incl k); auto.
    + now rewrite (Permutation_length P2).
    + intros p I. now rewrite P2.
Qed.

Lemma insert_fold_canon sch k e : key_type k -> forall ps acc,
  canon_map sch k e (fold_left (fun acc p => map_insert k (fst p) (snd p) acc) ps acc)
  = fold_left (fun acc p => map_insert k (fst p) (snd p) acc) (canon_map sch k e ps) (canon_map sch k e acc).
Proof.
  intro K. induction ps as [|[a v] ps IH]; intro acc; [reflexivity|]. cbn [fold_left fst snd].
  rewrite IH, map_insert_canon by exact K. reflexivity.
Qed.

Lemma canon_map_keys sch k e l : Forall (fun p => canon_scalar k (fst p) = fst p) (canon_map sch k e l).
Proof. apply Forall_map. apply Forall_forall. intros p _. apply canon_scalar_idem. Qed.

(** ** The reader *)

Fixpoint jsize (j : json) : nat :=
  match j with
  | JArr l => S (fold_right (fun j n => (jsize j + n)%nat) 0%nat l)
  | JObj l => S (fold_right (fun p n => (jsize (snd p) + n)%nat) 0%nat l)
  | _ => 1%nat
  end.

Lemma jsize_pos j : (1 <= jsize j)%nat.
Proof. destruct j; cbn; lia. Qed.

Lemma jsize_arr l : (S (length l) <= jsize (JArr l))%nat /\ forall j, In j l -> (jsize j < jsize (JArr l))%nat.
Proof.
  cbn [jsize]. induction l as [|j l [I1 I2]]; cbn [fold_right length]; [split; [lia | intros j []]|].
  pose proof (jsize_pos j). split; [lia|]. intros j' [<-|I]; [lia|]. apply I2 in I. lia.
Qed.
Lemma jsize_obj l : (S (length l) <= jsize (JObj l))%nat /\ forall p, In p l -> (jsize (snd p) < jsize (JObj l))%nat.
Proof.
  cbn [jsize]. induction l as [|j l [I1 I2]]; cbn [fold_right length]; [split; [lia | intros j []]|].
  pose proof (jsize_pos (snd j)). split; [lia|]. intros j' [<-|I]; [lia|]. apply I2 in I. lia.
Qed.

Lemma chars_of_plain s t : chars s t -> Forall plain t -> s = t.
Proof.
  induction 1 as [|c s t P C IH|e c s t E C IH|h c s t H B C IH|h1 c1 h2 c2 s t H1 B1 H2 B2 C IH]; intro F; auto;
    inversion F as [|x y Px Py]; subst; try (destruct Px as (_ & _ & Px); now destruct Px).
  now rewrite IH.
Qed.

Section Read.
  Variable mj : microjson.
  Variable ok : list Z -> Prop.
  Hypothesis R : right_on mj ok.
  Hypothesis Q : forall t, ok t -> quotes_only t.
  Variable conv : conversions.
  Variable sch : schema.
  Variable nm : names.
  Hypothesis N : names_ok sch nm.
  Hypothesis Sch : schema_ok sch.

  Let floating := floats_of conv.

  Lemma enums_ok m i : enum_ok (n_enum nm m i).
  Proof. destruct N as (_ & _ & H). apply H. Qed.

  Section Step.
    Variable rec : nat -> list Z -> res (list value).
    Variable n : nat.
    Hypothesis REC : forall m l t obj, (jsize (JObj l) <= n)%nat -> says_object sch nm floating m (default_obj sch m) obj l ->
      object_ok sch m obj -> ok t -> text (JObj l) t ->
      exists r, rec m t = Ok r /\ length r = length (md_fields (msg_at sch m)) /\ canon_obj sch m r = canon_obj sch m obj.

    Lemma says_obj en m v j : says sch nm floating en (EM m) v j -> exists obj l, v = VMsg obj /\ j = JObj l /\
      says_object sch nm floating m (default_obj sch m) obj l.
    Proof. intro H. inversion H; subst. eauto. Qed.
    Lemma says_sc en t v j : says sch nm floating en (ES t) v j -> exists s, v = VScalar s /\ says_scalar floating en t s j.
    Proof. intro H. inversion H; subst. eauto. Qed.

    (** Lists of messages. *)
    Lemma messages_read en m : forall vs js t, values mj t vs -> forall xs acc k, (length js < k)%nat ->
      Forall2 (handed ok) js vs -> Forall2 (says sch nm floating en (EM m)) xs js -> every (elem_ok sch (EM m)) xs ->
      (forall j, In j js -> (jsize j <= n)%nat) ->
      exists rs, read_messages mj rec k m t acc = Ok (acc ++ rs) /\ map (canon_elem sch (EM m)) rs = map (canon_elem sch (EM m)) xs.
    Proof.
      induction vs as [|v vs IH]; intros js t V xs acc k L H Sy O B.
      - inversion H; subst. inversion Sy; subst. destruct k as [|k]; [cbn in L; lia|]. exists []. rewrite app_nil_r. split; [|reflexivity].
        inversion V as [|s Ne E|]; subst; cbn [read_messages]; [reflexivity|]. destruct t; [contradiction|]. now rewrite skip_open_spec, E.
      - inversion H as [|j v' js' vs' Hj Hjs]; subst. inversion Sy as [|x j' xs' js'' Sx Sxs]; subst. destruct k as [|k]; [cbn in L; lia|].
        inversion V as [| |s i v' vs' Ne E Le V']; subst. cbn [read_messages]. destruct t as [|c t]; [contradiction|].
        rewrite skip_open_spec, E. destruct O as [O Os].
        destruct (says_obj _ _ _ _ Sx) as (obj & l & -> & -> & So).
        destruct (handed_object ok _ _ Hj) as (u & -> & Ou & Tu & _ & _). cbn [snd].
        destruct (REC m l u obj (B _ (or_introl eq_refl)) So O Ou Tu) as (r & Er & Lr & Cr). rewrite Er. cbn [bind].
        apply Nat.leb_le in Le. rewrite Le.
        destruct (IH js' _ V' xs' (acc ++ [VMsg r]) k ltac:(cbn in L; lia) Hjs Sxs Os (fun j I => B j (or_intror I))) as (rs & E1 & E2).
        exists (VMsg r :: rs). rewrite E1, <- app_assoc. split; [reflexivity|]. cbn [map]. rewrite E2. f_equal.
        rewrite !canon_elem_msg. now rewrite Cr.
    Qed.

    Lemma entry_read en e v j x : enum_ok en -> says sch nm floating en e v j -> handed ok j x -> elem_ok sch e v -> (jsize j <= n)%nat ->
      exists r, read_entry_value conv rec en e x = Ok r /\ canon_elem sch e r = canon_elem sch e v.
    Proof.
      intros Ne Sy H O B. destruct e as [t|m].
      - destruct (says_sc _ _ _ _ Sy) as (s & -> & Ss). cbn [elem_ok] in O.
        destruct (scalar_read ok Q conv en t s j x Ne Ss H O) as (s' & E & C & _). unfold read_entry_value. rewrite E. cbn [snd].
        unfold value_or_default. cbn [fst]. eexists. split; [reflexivity|]. rewrite !canon_elem_scalar. cbn [scalar_of]. now rewrite C.
      - destruct (says_obj _ _ _ _ Sy) as (obj & l & -> & -> & So).
        destruct (handed_object ok _ _ H) as (u & -> & Ou & Tu & Nu & _). cbn [read_entry_value snd].
        destruct (REC m l u obj B So O Ou Tu) as (r & Er & Lr & Cr). rewrite Er. destruct u; [contradiction|]. cbn [bind].
        eexists. split; [reflexivity|]. rewrite !canon_elem_msg. now rewrite Cr.
    Qed.

    (** Maps. *)
    Lemma pairs_read en k e : enum_ok en -> key_type k -> k <> TBool -> forall ps l t, properties mj t ps -> forall kvs acc f, (length l < f)%nat ->
      Forall2 (handed_member ok) l ps ->
      Forall2 (fun kv p => shows_key k (fst kv) (fst p) /\ says sch nm floating en e (snd kv) (snd p)) kvs l ->
      every (fun p => scalar_ok k (fst p) /\ elem_ok sch e (snd p)) kvs ->
      (forall p, In p l -> (jsize (snd p) <= n)%nat) ->
      exists rs, read_pairs mj conv rec f en k e t acc = Ok (fold_left (fun acc p => map_insert k (fst p) (snd p) acc) rs acc) /\
                 canon_map sch k e rs = canon_map sch k e kvs.
    Proof.
      intros Ne K Nb. induction ps as [|p ps IH]; intros l t V kvs acc f L H Sy O B.
      - inversion H; subst. inversion Sy; subst. destruct f as [|f]; [cbn in L; lia|]. exists []. cbn [fold_left]. split; [|reflexivity].
        inversion V as [|s Nt E|]; subst; cbn [read_pairs]; [reflexivity|]. destruct t; [contradiction|]. now rewrite skip_open_spec, E.
      - inversion H as [|q p' l' ps' Hq Hl]; subst. inversion Sy as [|kv q' kvs' l'' [Sk Sv] Sl]; subst. destruct f as [|f]; [cbn in L; lia|].
        inversion V as [| |s i p' ps' Nt E Le V']; subst. cbn [read_pairs]. destruct t as [|c t]; [contradiction|].
        rewrite skip_open_spec, E. destruct p as [name v]. destruct O as [[Ok Oe] Os]. destruct Hq as (Q1 & Q2 & Q3). cbn [fst snd] in Q1, Q2, Q3.
        destruct (entry_read en e (snd kv) (snd q) v Ne Sv Q3 Oe (B _ (or_introl eq_refl))) as (r & Er & Cr). rewrite Er. cbn [bind].
        apply Nat.leb_le in Le. rewrite Le.
        destruct (IH l' _ V' kvs' (map_insert k (read_key conv k name) r acc) f ltac:(cbn in L; lia) Hl Sl Os (fun j I => B j (or_intror I)))
          as (rs & E1 & E2).
        exists ((read_key conv k name, r) :: rs). rewrite E1. split; [reflexivity|]. unfold canon_map in *. cbn [map fst snd]. rewrite E2.
        rewrite (key_read ok Q conv k (fst kv) (fst q) name K Nb Sk Q1 Q2 Ok), Cr. reflexivity.
    Qed.

    (** Lists of basic values. *)
    Lemma elements_read en t : enum_ok en -> forall js vs xs, Forall2 (handed ok) js vs -> Forall2 (says sch nm floating en (ES t)) xs js ->
      every (elem_ok sch (ES t)) xs ->
      map (canon_elem sch (ES t)) (map (fun x => VScalar (read_element conv en t x)) vs) = map (canon_elem sch (ES t)) xs.
    Proof.
      intro Ne. induction js as [|j js IH]; intros vs xs H Sy O; inversion H as [|j' v js' vs' Hj Hjs]; subst;
        inversion Sy as [|x j' xs' js' Sx Sxs]; subst; [reflexivity|].
      cbn [map]. destruct O as [O Os]. f_equal; [|now apply IH].
      destruct (says_sc _ _ _ _ Sx) as (s & -> & Ss). cbn [elem_ok] in O. rewrite !canon_elem_scalar. cbn [scalar_of]. f_equal.
      now apply (element_read ok Q conv en t s j v).
    Qed.

    Lemma write_canon ty old v : match ty with FMap k _ => key_type k | _ => True end ->
      canon_field sch ty (write_property ty old (Some v)) = canon_field sch ty v.
    Proof.
      intro K. destruct ty as [[t|m]|[t|m]|k e]; unfold write_property; cbn [canon_field list_of map_of]; try reflexivity.
      - assert (X : forall a b, canon_scalar t a = canon_scalar t b -> collapse (canon_elem sch (ES t) (VScalar a)) = collapse (canon_elem sch (ES t) (VScalar b))).
        { intros a b E. rewrite !canon_elem_scalar. cbn [scalar_of collapse]. now rewrite E. }
        transitivity (collapse (canon_elem sch (ES t) (VScalar (scalar_of v)))); [|rewrite !canon_elem_scalar; reflexivity].
        destruct t; apply X; apply store_scalar_canon.
      - f_equal. apply store_scalars_canon.
      - f_equal. apply (store_map_canon sch k e). exact K.
    Qed.

    Lemma write_default ty old : match ty with FMap k _ => key_type k | _ => True end -> ty <> FSing (ES TEnum) ->
      canon_field sch ty (write_property ty old None) = canon_field sch ty (default_field ty).
    Proof.
      intros K Ne. rewrite <- (write_canon ty old (default_field ty) K). f_equal.
      destruct ty as [[t|m]|e|k e]; try reflexivity. destruct t; try reflexivity. contradiction.
    Qed.

    (** One member. *)
    Lemma value_read m i v j x old : (i < length (md_fields (msg_at sch m)))%nat -> says_field sch nm floating m i v j -> handed ok j x ->
      val_ok sch (f_ty (field_at sch m i)) v -> (jsize j <= n)%nat ->
      let ty := f_ty (field_at sch m i) in
      if same_bytes (snd x) (bytes_of "null") && is_object (fst x)
      then canon_field sch ty (write_property ty old None) = canon_field sch ty v
      else exists r, read_value mj conv sch nm rec n m i x = Ok (Some r, true) /\ canon_field sch ty r = canon_field sch ty v.
    Proof.
      intros Hi Sy H O B ty. pose proof (field_at_ok sch m i Sch Hi) as (_ & Fo). fold ty in Fo, O.
      assert (K : match ty with FMap k _ => key_type k | _ => True end) by (destruct ty as [| |]; auto).
      unfold read_value. fold ty.
      destruct Sy as [m i Ne|m i e v j Ty Sy|m i m' j Ty Sy|m i e vs js Ty Sy|m i k e kvs kvs' l Ty Nb P Sy].
      - apply (handed_null ok) in H. subst x. cbn [fst snd]. rewrite same_bytes_refl. cbn [is_object andb]. now apply write_default.
      - change (ty = FSing e) in Ty. rewrite Ty in *. cbn [val_ok] in O. destruct e as [t|m'].
        + destruct (says_sc _ _ _ _ Sy) as (s & -> & Ss). cbn [elem_ok] in O.
          destruct (scalar_read ok Q conv _ t s j x (enums_ok m i) Ss H O) as (s' & E & C & _ & Nn). rewrite Nn.
          rewrite E. eexists. split; [reflexivity|]. cbn [canon_field]. rewrite !canon_elem_scalar. cbn [scalar_of]. now rewrite C.
        + destruct (says_obj _ _ _ _ Sy) as (obj & l & -> & -> & So).
          destruct (handed_object ok _ _ H) as (u & -> & Ou & Tu & Nu & Nn). cbn [fst snd is_object].
          destruct (same_bytes u (bytes_of "null")) eqn:X; [apply same_bytes_spec in X; contradiction|]. cbn [andb].
          destruct (REC m' l u obj B So O Ou Tu) as (r & Er & Lr & Cr). rewrite Er. destruct u; [contradiction|]. cbn [bind].
          eexists. split; [reflexivity|]. cbn [canon_field]. rewrite !canon_elem_msg. now rewrite Cr.
      - change (ty = FSing (EM m')) in Ty. rewrite Ty in *.
        destruct (says_obj _ _ _ _ Sy) as (obj & l & Eo & -> & So). injection Eo as Eo. subst obj.
        destruct (handed_object ok _ _ H) as (u & -> & Ou & Tu & Nu & Nn). cbn [fst snd is_object].
        destruct (same_bytes u (bytes_of "null")) eqn:X; [apply same_bytes_spec in X; contradiction|]. cbn [andb].
        destruct (REC m' l u _ B So (default_ok sch m') Ou Tu) as (r & Er & Lr & Cr). rewrite Er. destruct u; [contradiction|]. cbn [bind].
        eexists. split; [reflexivity|]. cbn [canon_field]. rewrite !canon_elem_msg. rewrite Cr. cbn [canon_elem collapse]. now rewrite canon_default.
      - change (ty = FRep e) in Ty. rewrite Ty in *. cbn [val_ok] in O.
        destruct (handed_array ok _ _ H) as (u & -> & Ou & Tu & Nu). cbn [fst snd is_object]. rewrite andb_false_r.
        destruct (jsize_arr js) as [B1 B2]. destruct R as (_ & R2 & R3 & _). destruct e as [t|m'].
        + pose proof (elements_read _ t (enums_ok m i) js _ vs (R2 js u Ou Tu) Sy O) as E. unfold read_scalars. cbn [fst snd is_array].
          destruct u; [contradiction|].
          destruct t; try contradiction; (eexists; split; [reflexivity|]; cbn [canon_field list_of]; now rewrite E).
        + assert (J : Forall is_jobject js).
          { clear - Sy. induction Sy as [|x j xs js Sx Sxs IH]; constructor; auto. inversion Sx; subst. exact Logic.I. }
          destruct (R3 js u Ou Tu J) as (xs & V & Hx).
          destruct (messages_read _ m' xs js u V vs [] n ltac:(lia) Hx Sy O ltac:(intros j I; apply B2 in I; lia)) as (rs & E & C).
          destruct u; [contradiction|]. rewrite E. cbn [bind app]. eexists. split; [reflexivity|]. cbn [canon_field list_of]. now rewrite C.
      - change (ty = FMap k e) in Ty. rewrite Ty in *. cbn [val_ok] in O. destruct O as [So O].
        destruct (handed_object ok _ _ H) as (u & -> & Ou & Tu & Nu & Nn). cbn [fst snd is_object].
        destruct (same_bytes u (bytes_of "null")) eqn:X; [apply same_bytes_spec in X; contradiction|]. cbn [andb].
        destruct (jsize_obj l) as [B1 B2]. destruct R as (_ & _ & _ & R4). destruct (R4 l u Ou Tu) as (ps & V & Hp).
        assert (O' : every (fun p => scalar_ok k (fst p) /\ elem_ok sch e (snd p)) kvs').
        { apply every_Forall. apply every_Forall in O. now rewrite <- P. }
        destruct (pairs_read _ k e (enums_ok m i) K Nb ps l u V kvs' [] n ltac:(lia) Hp Sy O' ltac:(intros p I; apply B2 in I; lia)) as (rs & E & C).
        destruct u; [contradiction|]. rewrite E. cbn [bind]. eexists. split; [reflexivity|]. cbn [canon_field map_of]. f_equal.
        change (canon_map sch k e (fold_left (fun acc p => map_insert k (fst p) (snd p) acc) rs []) = canon_map sch k e kvs).
        rewrite insert_fold_canon by exact K. rewrite C. change (canon_map sch k e []) with (@nil (scalar * value)).
        apply inserts_sorted; [exact K | now apply canon_sorted | apply canon_map_keys | now apply Permutation_map].
    Qed.

    (** A member of a wrong kind. *)
    Lemma digits_wrong : forall s acc z, digits_value acc s = Some z -> Forall digit s.
    Proof.
      induction s as [|c s IH]; intros acc z H; [constructor|]. cbn [digits_value] in H. destruct (_ && _) eqn:E; [|discriminate H].
      constructor; [unfold digit; lia | eapply IH; exact H].
    Qed.

    Lemma no_integer t u : ~ looks_integer u -> toInteger t u = None.
    Proof.
      intro W. unfold toInteger. destruct u as [|c u]; [reflexivity|].
      assert (K : forall sign ds b, c :: u = sign ++ ds -> sign = [] \/ sign = [43] \/ sign = [45] ->
        (let '(negative, ds) := (b : bool, ds) in
         match ds with
         | [] => None
         | _ => match digits_value 0 ds with
                | None => None
                | Some n => let z := if negative then - n else n in if (lowest t <=? z) && (z <=? highest t) then Some z else None
                end
         end) = None).
      { intros sign ds b E Hs. destruct ds as [|d ds]; [reflexivity|]. destruct (digits_value 0 (d :: ds)) eqn:D; [|reflexivity].
        exfalso. apply W. exists sign, (d :: ds). split; [exact E|]. split; [exact Hs|]. split; [discriminate | now apply digits_wrong in D]. }
      destruct (Z.eqb_spec c 45) as [->|]; [apply (K [45] u true); auto|]. destruct (Z.eqb_spec c 43) as [->|]; [apply (K [43] u false); auto|].
      apply (K [] (c :: u) false); auto.
    Qed.

    Lemma no_float t ty data : t = TFloat \/ t = TDouble -> is_number ty = false -> not_finite data = false -> (forall x, ~ floating t x data) ->
      exists v, (let x := read_scalar conv [] t (ty, data) in Ok (option_map VScalar (fst x), snd x)) = Ok (v, false) /\
                forall en, read_scalar conv en t (ty, data) = read_scalar conv [] t (ty, data).
    Proof.
      intros Ht Ty Nf F. assert (C : snd (conv t data) = false).
      { destruct (conv t data) as [x [|]] eqn:E; [|reflexivity]. exfalso. apply (F x). exact E. }
      destruct (conv t data) as [x o] eqn:E. cbn [snd] in C. subst o. exists (Some (VScalar (SNum x))).
      destruct Ht as [->| ->]; cbn [read_scalar]; rewrite Nf, E; cbn [orb]; rewrite Ty; split; reflexivity.
    Qed.

    Lemma finite_head c u : c <> 78 -> c <> 73 -> c <> 45 -> not_finite (c :: u) = false.
    Proof.
      intros H1 H2 H3. unfold not_finite, same_bytes. cbn. rewrite !(proj2 (Z.eqb_neq _ _)) by auto. reflexivity.
    Qed.

    Lemma wrong_read m i j x : wrong_kind floating (f_ty (field_at sch m i)) j -> handed ok j x ->
      same_bytes (snd x) (bytes_of "null") && is_object (fst x) = false /\
      exists v, read_value mj conv sch nm rec n m i x = Ok (v, false).
    Proof.
      intros W H. unfold read_value.
      assert (K : same_bytes (snd x) (bytes_of "null") && is_object (fst x) = false /\
                  (is_string (fst x) = false \/ exists s, j = JStr s) /\ (is_bool (fst x) = false \/ exists b, j = JBool b) /\
                  (is_array (fst x) = false \/ exists l, j = JArr l) /\
                  (forall t, is_integer t = true -> wrong_kind floating (FSing (ES t)) j -> toInteger t (snd x) = None /\ is_number (fst x) = false) /\
                  (forall t, t = TFloat \/ t = TDouble -> wrong_kind floating (FSing (ES t)) j ->
                     not_finite (snd x) = false /\ is_number (fst x) = false /\ forall y, ~ floating t y (snd x))).
      { destruct j as [|b|s|s|l|l].
        - destruct (f_ty (field_at sch m i)) as [[[]|]|[[]|]|]; contradiction.
        - apply (handed_bool ok) in H. subst x. cbn [fst snd is_object is_string is_bool is_array is_number]. rewrite andb_false_r.
          repeat split; eauto; try (destruct b; reflexivity). destruct H as [->| ->]; exact H0.
        - apply (handed_number ok) in H. subst x. cbn [fst snd is_object is_string is_bool is_array is_number]. rewrite andb_false_r.
          repeat split; eauto; exfalso; destruct t; try discriminate; try contradiction; destruct H as [X|X]; try discriminate X; contradiction.
        - destruct H as (t0 & Ot & T & ->). inversion T as [| | | |s' u C| | | |]; subst. unfold hand_over. change (34 =? 34) with true. cbn match.
          rewrite removelast_app by discriminate. cbn [removelast fst snd is_object is_string is_bool is_array is_number]. rewrite app_nil_r, andb_false_r.
          repeat split; eauto.
          + apply no_integer. destruct t; try discriminate H; cbn in H0; now apply H0.
          + unfold not_finite. assert (Wn : ~ In s [bytes_of "NaN"; bytes_of "Infinity"; bytes_of "-Infinity"]) by (destruct H as [->| ->]; apply H0).
            assert (P : forall v, Forall plain v -> same_bytes u v = true -> s = v).
            { intros v Pv E. apply same_bytes_spec in E. subst v. now apply chars_of_plain. }
            destruct (same_bytes u (bytes_of "NaN")) eqn:E1; [exfalso; apply Wn; apply P in E1; [subst s; now left | cbn; repeat (apply Forall_cons; [unfold plain; lia|]); apply Forall_nil]|].
            destruct (same_bytes u (bytes_of "Infinity")) eqn:E2; [exfalso; apply Wn; apply P in E2; [subst s; right; now left | cbn; repeat (apply Forall_cons; [unfold plain; lia|]); apply Forall_nil]|].
            destruct (same_bytes u (bytes_of "-Infinity")) eqn:E3; [exfalso; apply Wn; apply P in E3; [subst s; right; right; now left | cbn; repeat (apply Forall_cons; [unfold plain; lia|]); apply Forall_nil]|].
            reflexivity.
          + destruct H as [->| ->]; (intros y; exact (proj1 H0 u y C)).
        - destruct (handed_array ok _ _ H) as (u & -> & _ & T & _). cbn [fst snd is_object is_string is_bool is_array is_number]. rewrite andb_false_r.
          repeat split; eauto.
          + inversion T; subst; reflexivity.
          + inversion T; subst; apply finite_head; lia.
          + destruct H0 as [->| ->]; (intros y; exact (H1 u y T)).
        - destruct (handed_object ok _ _ H) as (u & -> & _ & T & _ & Nn). cbn [fst snd is_object is_string is_bool is_array is_number].
          destruct (same_bytes u (bytes_of "null")) eqn:X; [apply same_bytes_spec in X; contradiction|].
          repeat split; eauto.
          + inversion T; subst; reflexivity.
          + inversion T; subst; apply finite_head; lia.
          + destruct H0 as [->| ->]; (intros y; exact (H1 u y T)). }
      destruct K as (K0 & K1 & K2 & K3 & K4 & K5). split; [exact K0|]. destruct x as [ty data]. cbn [fst snd] in *.
      destruct (f_ty (field_at sch m i)) as [[t|m']|[t|m']|k e]; try (destruct j; contradiction).
      - assert (I : is_integer t = true -> exists v, Ok (option_map VScalar (fst (read_scalar conv (n_enum nm m i) t (ty, data))), snd (read_scalar conv (n_enum nm m i) t (ty, data))) = Ok (v, false)).
        { intro I. destruct (K4 t I W) as [E1 E2].
          exists (Some (VScalar (SNum 0))). destruct t; try discriminate I; cbn [read_scalar]; rewrite E1, E2; reflexivity. }
        assert (F : t = TFloat \/ t = TDouble -> exists v, Ok (option_map VScalar (fst (read_scalar conv (n_enum nm m i) t (ty, data))), snd (read_scalar conv (n_enum nm m i) t (ty, data))) = Ok (v, false)).
        { intro F. destruct (K5 t F W) as (E1 & E2 & E3). destruct (no_float t ty data F E2 E1 E3) as (v & E & En). exists v. rewrite En. exact E. }
        destruct t; try (now apply I); try (apply F; first [now left | now right]); try (destruct j; contradiction); cbn [read_scalar].
        + destruct K2 as [->|(b & ->)]; [now exists None | contradiction].
        + destruct K1 as [->|(s & ->)]; [now exists None | contradiction].
        + destruct K1 as [->|(s & ->)]; [now exists None | contradiction].
      - unfold read_scalars. cbn [fst snd]. destruct K3 as [->|(l & ->)]; [|destruct t; contradiction].
        destruct t; try (now exists None); destruct j; contradiction.
    Qed.

    Lemma integer_looks z s : integer_text z s -> looks_integer s.
    Proof.
      assert (I : forall i, int_part i -> i <> [] /\ Forall digit i).
      { intros i [|c t C D]; (split; [discriminate|]); constructor; unfold digit in *; try lia; auto. }
      intros [(_ & P & _)|(_ & ds & -> & P & _)]; destruct (I _ P); [exists [], s | exists [45], ds]; auto 6.
    Qed.

    Lemma says_not_wrong m i v j : says_field sch nm floating m i v j -> ~ wrong_kind floating (f_ty (field_at sch m i)) j.
    Proof.
      intros Sy W. destruct Sy as [m i Ne|m i e v j Ty Sy|m i m' j Ty Sy|m i e vs js Ty Sy|m i k e kvs kvs' l Ty Nb P Sy]; try rewrite Ty in W.
      - destruct (f_ty (field_at sch m i)) as [[[]|]|[[]|]|]; contradiction.
      - destruct e as [t|m']; [|destruct j; contradiction]. destruct (says_sc _ _ _ _ Sy) as (s & -> & Ss).
        destruct Ss as [Ss|[(I & s' & T & ->)|(I & s' & Nu & F & ->)]].
        + destruct t; cbn [shows_scalar is_float] in Ss; try (destruct Ss as (s' & _ & ->); contradiction); try (subst j; contradiction);
            destruct j; contradiction.
        + assert (C : chars s' s') by (apply plain_chars; now apply (integer_plain _ _ T)). apply integer_looks in T.
          destruct t; try discriminate I; exact (W s' C T).
        + assert (C : chars s' s') by (apply plain_chars; now apply number_plain).
          destruct t; try discriminate I; exact (proj1 W s' _ C F).
      - destruct j; contradiction.
      - destruct e as [[]|]; contradiction.
      - contradiction.
    Qed.

    (** All members. *)
    Lemma members_read m obj l : NoDup (map fst l) ->
      (forall i j, (i < length (md_fields (msg_at sch m)))%nat -> In (n_json nm m i, j) l ->
         says_field sch nm floating m i (nth i obj VNull) j /\ val_ok sch (f_ty (field_at sch m i)) (nth i obj VNull) \/
         wrong_kind floating (f_ty (field_at sch m i)) j) ->
      (forall p, In p l -> (jsize (snd p) <= n)%nat) ->
      forall qs cur, (forall q, In q qs -> exists p, In p l /\ handed_member ok p q) -> length cur = length (md_fields (msg_at sch m)) ->
      exists r, read_members mj conv sch nm rec n m qs cur = Ok r /\ length r = length (md_fields (msg_at sch m)) /\
        forall i, (i < length (md_fields (msg_at sch m)))%nat ->
          In (n_json nm m i) (map fst qs) /\ (forall j, In (n_json nm m i, j) l -> says_field sch nm floating m i (nth i obj VNull) j) \/
          canon_field sch (f_ty (field_at sch m i)) (nth i cur VNull) = canon_field sch (f_ty (field_at sch m i)) (nth i obj VNull) ->
          canon_field sch (f_ty (field_at sch m i)) (nth i r VNull) = canon_field sch (f_ty (field_at sch m i)) (nth i obj VNull).
    Proof.
      intros ND Sy B. destruct N as (N1 & N2 & _). destruct (msg_at_ok sch m Sch) as (_ & _ & No & Oi).
      assert (Same : forall i0 i, (i0 < length (md_fields (msg_at sch m)))%nat -> (i < length (md_fields (msg_at sch m)))%nat ->
                n_json nm m i0 = n_json nm m i -> i0 = i).
      { intros i0 i H0 H1 D. assert (I1 : In i0 (md_order (msg_at sch m))) by now apply Oi. assert (I2 : In i (md_order (msg_at sch m))) by now apply Oi.
        clear - N1 D I1 I2. specialize (N1 m). induction (md_order (msg_at sch m)) as [|a o IHo]; [destruct I1|].
        cbn [map] in N1. inversion N1 as [|x y Na Nb]; subst.
        destruct I1 as [->|I1], I2 as [->|I2]; auto; exfalso; apply Na; [rewrite D | rewrite <- D]; now apply in_map. }
      induction qs as [|[name v] qs IH]; intros cur H L.
      - exists cur. split; [reflexivity|]. split; [exact L|]. intros i Hi [[[] _]|E]. exact E.
      - cbn [read_members]. destruct (find _ _) as [i0|] eqn:F.
        + apply find_some in F as [I0 E0]. apply same_bytes_spec in E0. apply Oi in I0.
          destruct (H _ (or_introl eq_refl)) as ([pn j] & Ip & Hm). destruct Hm as (M1 & M2 & M3). cbn [fst snd] in M1, M2, M3.
          assert (pn = n_json nm m i0) by (rewrite E0; apply chars_of_plain; [exact M2 | rewrite <- E0; apply N2]). subst pn.
          destruct (Sy i0 j I0 Ip) as [[Sf Vo]|W].
          2: { destruct (wrong_read m i0 j v W M3) as (Nn & x & Er). rewrite Nn, Er. cbn [bind snd].
               destruct (IH cur (fun q I => H q (or_intror I)) L) as (r & E & Lr & C). exists r. split; [exact E|]. split; [exact Lr|].
               intros i Hi D. apply C; [exact Hi|]. destruct D as [[D D']|D]; [|now right]. cbn [map fst] in D. destruct D as [D|D]; [|now left].
               exfalso. rewrite <- E0 in D. rewrite <- (Same _ _ I0 Hi D) in D'. exact (says_not_wrong m i0 _ j (D' _ Ip) W). }
          set (ty := f_ty (field_at sch m i0)) in *.
          pose proof (value_read m i0 _ j v (nth i0 cur VNull) I0 Sf M3 Vo (B _ Ip)) as VR. cbn zeta in VR. fold ty in VR.
          assert (K : match ty with FMap k _ => key_type k | _ => True end).
          { pose proof (field_at_ok sch m i0 Sch I0) as (_ & Fo). fold ty in Fo. destruct ty; auto. }
          assert (Step : forall w, canon_field sch ty w = canon_field sch ty (nth i0 obj VNull) ->
            exists r, read_members mj conv sch nm rec n m qs (update i0 w cur) = Ok r /\
              length r = length (md_fields (msg_at sch m)) /\
              forall i, (i < length (md_fields (msg_at sch m)))%nat ->
                In (n_json nm m i) (map fst ((name, v) :: qs)) /\
                (forall j, In (n_json nm m i, j) l -> says_field sch nm floating m i (nth i obj VNull) j) \/
                canon_field sch (f_ty (field_at sch m i)) (nth i cur VNull) = canon_field sch (f_ty (field_at sch m i)) (nth i obj VNull) ->
                canon_field sch (f_ty (field_at sch m i)) (nth i r VNull) = canon_field sch (f_ty (field_at sch m i)) (nth i obj VNull)).
          { intros w W. destruct (IH (update i0 w cur)) as (r & E & Lr & C).
            - intros q I. apply H. now right.
            - now rewrite update_length.
            - exists r. split; [exact E|]. split; [exact Lr|]. intros i Hi D. apply C; [exact Hi|].
              destruct (Nat.eq_dec i0 i) as [Ei|Ni].
              + right. subst i. rewrite nth_update_eq by lia. exact W.
              + rewrite nth_update_neq by exact Ni. destruct D as [[D D']|D]; [|now right]. cbn [map fst] in D. destruct D as [D|D]; [|now left].
                exfalso. apply Ni. rewrite <- E0 in D. now apply Same. }
          destruct (same_bytes (snd v) (bytes_of "null") && is_object (fst v)).
          * apply Step. exact VR.
          * destruct VR as (r & Er & Cr). rewrite Er. cbn [bind snd fst]. apply Step. now rewrite write_canon.
        + destruct (IH cur (fun q I => H q (or_intror I)) L) as (r & E & Lr & C). exists r. split; [exact E|]. split; [exact Lr|].
          intros i Hi D. apply C; [exact Hi|]. destruct D as [[D D']|D]; [|now right]. cbn [map fst] in D. destruct D as [D|D]; [|now left].
          exfalso. apply Oi in Hi. pose proof (find_none _ _ F i Hi) as X. cbn beta in X. rewrite D in X. now rewrite same_bytes_refl in X.
    Qed.
  End Step.

  (** Reading a text that changes an object gives the changed object. *)
  Theorem object_read : forall n m base obj l t, (jsize (JObj l) <= n)%nat -> says_object sch nm floating m base obj l ->
    object_ok sch m obj -> length base = length (md_fields (msg_at sch m)) -> ok t -> text (JObj l) t ->
    exists r, read_object n mj conv sch nm m t base = Ok r /\ length r = length (md_fields (msg_at sch m)) /\ same sch m r obj.
  Proof.
    assert (Uniq : forall (l : list (list Z * json)) a j j', NoDup (map fst l) -> In (a, j) l -> In (a, j') l -> j = j').
    { induction l as [|[a b] l IHl]; intros x j j' ND I I'; [destruct I|]. cbn [map fst] in ND. inversion ND as [|y z Na Nb]; subst.
      destruct I as [I|I], I' as [I'|I']; [congruence | | |now apply (IHl x)].
      - exfalso. apply Na. injection I as -> _. now apply (in_map fst) in I'.
      - exfalso. apply Na. injection I' as -> _. now apply (in_map fst) in I. }
    induction n as [|n IH]; intros m base obj l t B Sy O L Ot T; [cbn in B; lia|]. cbn [read_object].
    destruct (jsize_obj l) as [_ B2]. inversion Sy as [m' base' obj' l' ND Lo Me]; subst.
    destruct R as (R1 & _). destruct (R1 l t Ot T ND) as (ps & P & Hp).
    destruct (members_read (fun m' data' => read_object n mj conv sch nm m' data' (default_obj sch m')) n) with (m := m) (obj := obj) (l := l)
      (qs := parseJsonObject mj t) (cur := base) as (r & E & Lr & C); auto.
    - intros m' l' t' obj' B' S' O' Ot' T'. apply (IH m' (default_obj sch m') obj' l' t'); auto. apply default_obj_length.
    - intros i j Hi I. pose proof (object_ok_field sch _ obj i O Hi) as Vo. destruct (Me i Hi) as [m' i' old v l' j' I' S'|m' i' old l' A|m' i' old l' j' I' W].
      + left. split; [|exact Vo]. now rewrite (Uniq _ _ _ _ ND I I').
      + exfalso. apply A. now apply (in_map fst) in I.
      + right. now rewrite (Uniq _ _ _ _ ND I I').
    - intros p I. apply B2 in I. lia.
    - intros q I. rewrite P in I. clear - I Hp. induction Hp as [|p q' l ps H Hp IH]; [destruct I|].
      destruct I as [<-|I]; [exists p; split; [now left | exact H]|]. destruct (IH I) as (p' & I' & H'). exists p'. split; [now right | exact H'].
    - exists r. split; [exact E|]. split; [exact Lr|]. unfold same. rewrite !canon_obj_spec. apply canon_fields_ext; auto.
      intros i Hi. apply (C i Hi). destruct (Me i Hi) as [m' i' old v l' j' I' S'|m' i' old l' A|]; [left | now right ..].
      split; [|intros j I; now rewrite (Uniq _ _ _ _ ND I I')].
      apply (in_map fst) in I'. cbn [fst] in I'. rewrite P. clear - Hp I' N Q. destruct N as (_ & N2 & _).
      induction Hp as [|p q l ps H Hp IH]; [destruct I'|]. cbn [map] in *. destruct I' as [I'|I']; [left | right; auto].
      destruct H as (H1 & H2 & _). rewrite I' in H2. apply quoted_plain_eq; [|apply N2]. apply chars_quoted; [exact H2|].
      exact (quotes_tail 34 _ (Q _ H1)).
  Qed.
End Read.

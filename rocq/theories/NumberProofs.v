(** Proofs on conversions of numbers. *)

From Coq Require Import ZArith List Bool Lia.
From Verif Require Import Base Values WireSpec WireProofs JsonSpec JsonModel JsonProofs NumberSpec NumberModel.
Import ListNotations.
Open Scope Z_scope.

Lemma width_pos t : 0 < width t.
Proof. destruct t; cbn; lia. Qed.

Lemma integer_spec t z : fits t (integer (has_sign t) (width t) z) /\ integer (has_sign t) (width t) z mod 2 ^ width t = z mod 2 ^ width t.
Proof.
  pose proof (width_pos t) as W. assert (P : 2 ^ width t <> 0) by (pose proof (Z.pow_pos_nonneg 2 (width t)); lia). unfold fits, integer. destruct (has_sign t).
  - split; [now apply toS_range|]. unfold toS. cbv zeta. destruct (_ <? _); [now apply Z.mod_mod|].
    replace (z mod 2 ^ width t - 2 ^ width t) with (z mod 2 ^ width t + (-1) * 2 ^ width t) by lia. rewrite Z.mod_add by exact P. now apply Z.mod_mod.
  - split; [apply wrapU_range; lia|]. unfold wrapU. now apply Z.mod_mod.
Qed.

Lemma integer_fits t z : fits t z -> integer (has_sign t) (width t) z = z.
Proof.
  pose proof (width_pos t). unfold fits, integer. destruct (has_sign t); intro F; [now apply toS_small | now apply wrapU_small].
Qed.

Lemma in_range_fits t z : in_range (has_sign t) (width t) z = true <-> fits t z.
Proof. unfold in_range, fits, in_s, in_u. destruct (has_sign t); lia. Qed.

Lemma truncate_whole d z : whole_part d z -> truncate d = Some z.
Proof.
  destruct d as [m e| |]; cbn; try contradiction. intros [[E ->]|(E & S & L)].
  - apply Z.leb_le in E. now rewrite E.
  - rewrite (proj2 (Z.leb_gt 0 e) E). f_equal. set (p := 2 ^ (- e)) in *. assert (P : 0 < p) by (apply Z.pow_pos_nonneg; lia).
    destruct (Z.eq_dec m 0) as [->|M].
    + rewrite Z.quot_0_l by lia. cbn in L. assert (z = 0) by nia. lia.
    + destruct (Z_lt_le_dec m 0).
      * assert (z <= 0) by nia. replace m with (- (- m)) by lia. rewrite Z.quot_opp_l, Z.quot_div_nonneg by lia.
        assert (- m / p = - z); [|lia]. symmetry. apply (Z.div_unique (- m) p (- z) (- m - p * - z)); [left|]; nia.
      * assert (0 <= z) by nia. rewrite Z.quot_div_nonneg by lia. symmetry. apply (Z.div_unique m p z (m - p * z)); [left|]; nia.
Qed.

Lemma number_whole d z : is_number d z -> whole_part d z.
Proof.
  destruct d as [m e| |]; cbn; auto. intros [H|[E ->]]; [now left|]. right. split; [exact E|]. set (p := 2 ^ (- e)). assert (P : 0 < p) by (apply Z.pow_pos_nonneg; lia).
  split; [nia|]. rewrite Z.abs_mul, (Z.abs_eq p) by lia. nia.
Qed.

Lemma of_double_fits t d z : whole_part d z -> of_double (has_sign t) (width t) d = if in_range (has_sign t) (width t) z then Ok z else UB SignedOverflow.
Proof. intro W. unfold of_double. now rewrite (truncate_whole d z W). Qed.

(** * Rounding *)

Lemma nearest_small z : 0 <= z < 2 ^ 53 -> nearest z = z.
Proof.
  intro Z0. unfold nearest. assert (Z.log2 z <= 52).
  { destruct (Z.eq_dec z 0) as [->|]; [cbn; lia|]. assert (Z.log2 z < 53) by (apply Z.log2_lt_pow2; lia). lia. }
  rewrite (proj2 (Z.leb_le _ _)); [reflexivity | lia].
Qed.

Lemma nearest_bits z : 0 <= z -> (nearest z = z <-> bits_53 z).
Proof.
  intro Z0. unfold nearest. destruct (Z.leb_spec (Z.log2 z - 52) 0) as [L|L].
  - split; [|reflexivity]. intros _. exists z, 0. split; [lia|]. split; [|lia].
    destruct (Z.eq_dec z 0) as [->|]; [cbn; lia|]. pose proof (Z.log2_spec z ltac:(lia)) as [_ U]. rewrite Z.abs_eq by lia.
    apply (Z.lt_le_trans _ _ _ U). apply Z.pow_le_mono_r; lia.
  - set (n := Z.log2 z - 52) in *. assert (Zp : 0 < z) by (destruct (Z.eq_dec z 0) as [->|]; [cbn in n; lia | lia]).
    pose proof (Z.log2_spec z Zp) as [Lo Up]. replace (Z.log2 z) with (52 + n) in * by lia.
    assert (P : 0 < 2 ^ n) by (apply Z.pow_pos_nonneg; lia). pose proof (Z.div_mod z (2 ^ n) ltac:(lia)) as D. pose proof (Z.mod_pos_bound z (2 ^ n) P) as R.
    split.
    + intro E. assert (R0 : z mod 2 ^ n = 0) by (destruct (_ || _) in E; nia).
      exists (z / 2 ^ n), n. split; [lia|]. split; [|lia]. rewrite Z.abs_eq by (apply Z.div_pos; lia). apply Z.div_lt_upper_bound; [lia|].
      rewrite <- Z.pow_add_r by lia. replace (n + 53) with (Z.succ (52 + n)) by lia. exact Up.
    + intros (m & k & K & M & E). assert (Kn : n <= k).
      { destruct (Z_lt_le_dec k n) as [C|C]; [|exact C]. exfalso. assert (2 ^ k * 2 <= 2 ^ n) by (replace (2 ^ k * 2) with (2 ^ Z.succ k) by (rewrite Z.pow_succ_r by lia; lia); apply Z.pow_le_mono_r; lia).
        rewrite Z.pow_add_r in Lo by lia. assert (0 < 2 ^ k) by (apply Z.pow_pos_nonneg; lia). change (2 ^ 53) with (2 * 2 ^ 52) in M. nia. }
      assert (R0 : z mod 2 ^ n = 0).
      { rewrite E. replace k with ((k - n) + n) by lia. rewrite Z.pow_add_r by lia. rewrite Z.mul_assoc. apply Z.mod_mul. lia. }
      rewrite R0 in *. assert (H : 0 < 2 ^ (n - 1)) by (apply Z.pow_pos_nonneg; lia).
      rewrite (proj2 (Z.ltb_ge _ _)) by lia. rewrite (proj2 (Z.eqb_neq _ _)) by lia. cbn [orb andb]. lia.
Qed.

Lemma bits_opp z : bits_53 (- z) <-> bits_53 z.
Proof.
  assert (H : forall y, bits_53 y -> bits_53 (- y)).
  { intros y (m & k & K & M & ->). exists (- m), k. split; [exact K|]. split; [rewrite Z.abs_opp; exact M | lia]. }
  split; intro B; [rewrite <- (Z.opp_involutive z)|]; now apply H.
Qed.

Lemma to_double_exact z : is_number (to_double z) z <-> bits_53 z.
Proof.
  unfold to_double, is_number. rewrite Z.mul_1_r. destruct (Z.ltb_spec z 0).
  - rewrite <- bits_opp, <- (nearest_bits (- z)) by lia. split; [intros [[_ E]|[E _]]; lia | intro E; left; lia].
  - rewrite <- (nearest_bits z) by lia. split; [intros [[_ E]|[E _]]; lia | intro E; left; lia].
Qed.

Lemma fits_bits t z : width t = 32 -> fits t z -> bits_53 z.
Proof.
  intros W F. exists z, 0. split; [lia|]. split; [|lia]. unfold fits, in_s, in_u in F. rewrite W in F. destruct (has_sign t); cbn in F; lia.
Qed.

Lemma of_kind_spec k z : holds k (of_kind k z) /\ (of_kind k z = z <-> holds k z).
Proof.
  assert (S : forall w, 0 < w -> in_s w (toS w z) /\ (toS w z = z <-> in_s w z)).
  { intros w W. pose proof (toS_range w z W) as R. split; [exact R|]. split; [intro E; now rewrite E in R | now apply toS_small]. }
  assert (U : forall w, 0 < w -> in_u w (wrapU w z) /\ (wrapU w z = z <-> in_u w z)).
  { intros w W. pose proof (wrapU_range w z ltac:(lia)) as R. split; [exact R|]. split; [intro E; now rewrite E in R | now apply wrapU_small]. }
  destruct k; [apply S | apply U | apply S | apply U]; lia.
Qed.

(** ** QML *)

Lemma qml_32 t : In t [TInt32; TSInt32; TUInt32; TFixed32; TSFixed32] ->
  width t = 32 /\ exists k, qml_type t = Some k /\ (k = KInt /\ has_sign t = true \/ k = KUInt /\ has_sign t = false).
Proof. cbn [In]. intros [<-|[<-|[<-|[<-|[<-|[]]]]]]; (split; [reflexivity|]; eexists; split; [reflexivity|]; auto). Qed.

Lemma qml_reads_32 t z : In t [TInt32; TSInt32; TUInt32; TFixed32; TSFixed32] -> fits t z -> qml_reads t z = Some (Finite z 0).
Proof.
  intros I F. destruct (qml_32 t I) as (W & k & K & S). unfold qml_reads. rewrite K. unfold fits in F. rewrite W in F.
  destruct S as [[-> S]|[-> S]]; rewrite S in F; f_equal; f_equal; [apply (of_kind_spec KInt) | apply (of_kind_spec KUInt)]; exact F.
Qed.

Lemma qml_writes_32 t d z : In t [TInt32; TSInt32; TUInt32; TFixed32; TSFixed32] -> truncate d = Some z ->
  qml_writes t d = Some (integer (has_sign t) (width t) z).
Proof.
  intros I T. destruct (qml_32 t I) as (W & k & K & S). unfold qml_writes. rewrite K, T, W.
  destruct S as [[-> S]|[-> S]]; rewrite S; f_equal; cbn [of_kind integer].
  - apply toS_small; [lia|]. apply toS_range. lia.
  - apply wrapU_small. apply wrapU_range. lia.
Qed.

(** ** The nearest number *)

Lemma bits_multiple n y : 0 < n -> 2 ^ (52 + n) <= y -> bits_53 y -> exists a, y = a * 2 ^ n.
Proof.
  intros N L (m & k & K & M & E). assert (Kn : n <= k).
  { destruct (Z_lt_le_dec k n) as [C|C]; [|exact C]. exfalso. assert (2 ^ k * 2 <= 2 ^ n) by (replace (2 ^ k * 2) with (2 ^ Z.succ k) by (rewrite Z.pow_succ_r by lia; lia); apply Z.pow_le_mono_r; lia).
    rewrite Z.pow_add_r in L by lia. assert (0 < 2 ^ k) by (apply Z.pow_pos_nonneg; lia). change (2 ^ 53) with (2 * 2 ^ 52) in M. nia. }
  exists (m * 2 ^ (k - n)). rewrite <- Z.mul_assoc, <- Z.pow_add_r by lia. replace (k - n + n) with k by lia. exact E.
Qed.

Lemma nearest_spec z : 0 <= z -> 0 <= nearest z /\ bits_53 (nearest z) /\ forall y, bits_53 y -> Z.abs (nearest z - z) <= Z.abs (y - z).
Proof.
  intro Z0. destruct (Z.eq_dec (nearest z) z) as [E|NE].
  { split; [lia|]. split; [rewrite E; now apply nearest_bits|]. intros. rewrite E, Z.sub_diag. cbn. lia. }
  unfold nearest in *. destruct (Z.leb_spec (Z.log2 z - 52) 0) as [L|L]; [now contradiction NE|].
  set (n := Z.log2 z - 52) in *. assert (Zp : 0 < z) by (destruct (Z.eq_dec z 0) as [->|]; [cbn in n; lia | lia]).
  pose proof (Z.log2_spec z Zp) as [Lo Up]. replace (Z.log2 z) with (52 + n) in * by lia.
  assert (P : 0 < 2 ^ n) by (apply Z.pow_pos_nonneg; lia). pose proof (Z.div_mod z (2 ^ n) ltac:(lia)) as D. pose proof (Z.mod_pos_bound z (2 ^ n) P) as R.
  set (q := z / 2 ^ n) in *. set (r := z mod 2 ^ n) in *. assert (Q : 2 ^ 52 <= q < 2 ^ 53).
  { unfold q. split; [apply Z.div_le_lower_bound; [lia|]; rewrite <- Z.pow_add_r by lia; now replace (n + 52) with (52 + n) by lia|].
    apply Z.div_lt_upper_bound; [lia|]. rewrite <- Z.pow_add_r by lia. now replace (n + 53) with (Z.succ (52 + n)) by lia. }
  assert (H2 : 2 ^ n = 2 * 2 ^ (n - 1)) by (rewrite <- Z.pow_succ_r by lia; f_equal; lia).
  assert (Y : forall y, bits_53 y -> y <= q * 2 ^ n \/ (q + 1) * 2 ^ n <= y).
  { intros y B. destruct (Z_le_gt_dec y (q * 2 ^ n)) as [|G]; [now left|]. right.
    destruct (bits_multiple n y L) as [a ->]; [rewrite Z.pow_add_r by lia; nia | exact B|]. assert (q < a) by nia. nia. }
  set (up := (2 ^ (n - 1) <? r) || ((2 ^ (n - 1) =? r) && Z.odd q)) in *.
  assert (U : if up then 2 ^ (n - 1) <= r else r <= 2 ^ (n - 1)).
  { subst up. destruct (Z.ltb_spec (2 ^ (n - 1)) r); [cbn [orb]; lia|]. destruct (Z.eqb_spec (2 ^ (n - 1)) r); cbn [orb andb]; destruct (Z.odd q); lia. }
  split; [destruct up; nia|]. split.
  - destruct (Z.eq_dec (q + (if up then 1 else 0)) (2 ^ 53)) as [E|E].
    + exists 1, (53 + n). split; [lia|]. split; [reflexivity|]. rewrite E, Z.mul_1_l, <- Z.pow_add_r by lia. reflexivity.
    + exists (q + (if up then 1 else 0)), n. split; [lia|]. split; [|reflexivity]. destruct up; lia.
  - intros y B. destruct (Y y B) as [C|C]; destruct up; nia.
Qed.

Lemma to_double_nearest z : exists r, is_number (to_double z) r /\ bits_53 r /\ forall y, bits_53 y -> Z.abs (r - z) <= Z.abs (y - z).
Proof.
  unfold to_double. destruct (Z.ltb_spec z 0).
  - destruct (nearest_spec (- z) ltac:(lia)) as (_ & B & N). exists (- nearest (- z)). split; [left; lia|]. split; [now apply bits_opp|].
    intros y By. apply bits_opp in By. specialize (N _ By). lia.
  - destruct (nearest_spec z ltac:(lia)) as (_ & B & N). exists (nearest z). split; [left; lia|]. split; [exact B | exact N].
Qed.

(** Lemmas about the wire codec. *)

From Coq Require Import ZArith List Bool Lia ZifyBool.
From Verif Require Import Base WireModel WireSpec.
Import ListNotations.
Open Scope Z_scope.
Ltac Zify.zify_post_hook ::= Z.div_mod_to_equations.

(** ** Bits of bytes *)

Lemma byte_all (P : Z -> bool) :
  forallb P (map Z.of_nat (seq 0 256)) = true -> forall b, 0 <= b < 256 -> P b = true.
Proof.
  intros H b Hb. rewrite forallb_forall in H. apply H.
  apply in_map_iff. exists (Z.to_nat b). split. lia. apply in_seq. lia.
Qed.

Lemma land127 b : Z.land b 127 = b mod 128.
Proof. change 127 with (Z.ones 7). rewrite Z.land_ones; [reflexivity | lia]. Qed.

Lemma land255 b : Z.land b 255 = b mod 256.
Proof. change 255 with (Z.ones 8). rewrite Z.land_ones; [reflexivity | lia]. Qed.

Lemma lor128 a : 0 <= a < 128 -> Z.lor a 128 = a + 128.
Proof.
  intro H.
  assert (E : (Z.lor a 128 =? (if a <? 128 then a + 128 else Z.lor a 128)) = true).
  { apply (byte_all (fun a => Z.lor a 128 =? (if a <? 128 then a + 128 else Z.lor a 128)));
      [vm_compute; reflexivity | lia]. }
  destruct (a <? 128) eqn:L; lia.
Qed.

Lemma land128 b : 0 <= b < 256 -> (Z.land b 128 =? 0) = (b <? 128).
Proof.
  intro H.
  assert (E : Bool.eqb (Z.land b 128 =? 0) (b <? 128) = true).
  { apply (byte_all (fun b => Bool.eqb (Z.land b 128 =? 0) (b <? 128)));
      [vm_compute; reflexivity | lia]. }
  apply Bool.eqb_prop in E. exact E.
Qed.

Lemma Zlen_app {A} (a b : list A) : Zlen (a ++ b) = Zlen a + Zlen b.
Proof. unfold Zlen. rewrite app_length. lia. Qed.
Lemma Zlen_cons {A} (a : A) b : Zlen (a :: b) = 1 + Zlen b.
Proof. unfold Zlen. simpl length. lia. Qed.
Lemma Zlen_nonneg {A} (a : list A) : 0 <= Zlen a.
Proof. unfold Zlen. lia. Qed.

Ltac zlen := repeat first [rewrite Zlen_app | rewrite Zlen_cons];
             try change (Zlen (@nil Z)) with 0.
Ltac zlen_in H := repeat first [rewrite Zlen_app in H | rewrite Zlen_cons in H];
             try change (Zlen (@nil Z)) with 0 in H.

(** ** Varint writer *)

Lemma is_varint_nonneg v bs : is_varint v bs -> 0 <= v.
Proof. induction 1; lia. Qed.

Lemma is_varint_bytes v bs : is_varint v bs -> bytes bs.
Proof.
  unfold bytes, is_byte. induction 1; constructor; auto; try lia.
Qed.

Lemma is_varint_nonnil v bs : is_varint v bs -> bs <> [].
Proof. destruct 1; discriminate. Qed.

Lemma groups_varint n : forall v, 0 < v < 2 ^ (7 * Z.of_nat n) ->
  is_varint v (clear_last (varint_groups n v)).
Proof.
  induction n; intros v H. { simpl in H. lia. }
  cbn [varint_groups]. replace (v =? 0) with false by lia.
  rewrite land127. rewrite lor128 by lia.
  rewrite Z.shiftr_div_pow2 by lia. change (2 ^ 7) with 128.
  destruct (Z.eq_dec (v / 128) 0) as [E | E].
  - rewrite E.
    assert (varint_groups n 0 = []) as -> by (destruct n; reflexivity).
    cbn [clear_last]. rewrite land127.
    replace ((v mod 128 + 128) mod 128) with v by lia.
    constructor. lia.
  - assert (R : 0 < v / 128 < 2 ^ (7 * Z.of_nat n)).
    { split. lia. apply Z.div_lt_upper_bound; [lia|].
      change 128 with (2 ^ 7). rewrite <- Z.pow_add_r by lia.
      replace (7 + 7 * Z.of_nat n) with (7 * Z.of_nat (S n)) by lia. lia. }
    specialize (IHn _ R).
    pose proof (is_varint_nonnil _ _ IHn) as NN.
    assert (C : clear_last (v mod 128 + 128 :: varint_groups n (v / 128))
                = v mod 128 + 128 :: clear_last (varint_groups n (v / 128))).
    { destruct (varint_groups n (v / 128)); [now elim NN | reflexivity]. }
    rewrite C.
    replace v with (v mod 128 + 128 * (v / 128)) at 1 by lia.
    constructor; [lia | exact IHn].
Qed.

Lemma groups_length n v : (length (clear_last (varint_groups n v)) <= n)%nat.
Proof.
  assert (C : forall l, length (clear_last l) = length l).
  { induction l as [|a [|b l] IH]; simpl in *; auto. }
  rewrite C. revert v. induction n; intro v; simpl; [lia|].
  destruct (v =? 0); simpl; [lia | specialize (IHn (Z.shiftr v 7)); lia].
Qed.

Lemma groups_pos n v : (0 < n)%nat -> v <> 0 -> varint_groups n v <> [].
Proof. destruct n; simpl; intros; [lia|]. replace (v =? 0) with false by lia. discriminate. Qed.

Lemma serializeVarint_varint v : in_u 64 v -> is_varint v (serializeVarintCommon v).
Proof.
  unfold in_u, serializeVarintCommon. intro H.
  destruct (Z.eq_dec v 0) as [->|NZ].
  - simpl. constructor. lia.
  - pose proof (groups_pos 10 v ltac:(lia) NZ).
    assert (G := groups_varint 10 v).
    destruct (varint_groups 10 v); [contradiction|].
    apply G. simpl in *. lia.
Qed.

Lemma serializeVarint_length v : (length (serializeVarintCommon v) <= 10)%nat.
Proof.
  unfold serializeVarintCommon.
  pose proof (groups_length 10 v). destruct (varint_groups 10 v); simpl in *; lia.
Qed.

Lemma serializeVarint_wire v : in_u 64 v -> wire_varint v (serializeVarintCommon v).
Proof. split; [now apply serializeVarint_varint | apply serializeVarint_length]. Qed.

Lemma serializeUnsigned_zero idx : serializeUnsigned 0 idx = ([], NotUsedFieldIndex).
Proof. reflexivity. Qed.

Lemma serializeUnsigned_nz v idx : in_u 64 v -> v <> 0 ->
  serializeUnsigned v idx = (serializeVarintCommon v, idx).
Proof.
  intros H NZ. unfold serializeUnsigned, serializeVarintCommon.
  pose proof (groups_pos 10 v ltac:(lia) NZ).
  destruct (varint_groups 10 v); [contradiction | reflexivity].
Qed.

(** Every encoding of [v] with [k] bytes shows v < 2^(7k). *)
Lemma is_varint_bound v bs : is_varint v bs -> v < 2 ^ (7 * Z.of_nat (length bs)).
Proof.
  induction 1 as [b|b v bs Hb Hv IH].
  - simpl. lia.
  - cbn [length]. replace (7 * Z.of_nat (S (length bs))) with (7 + 7 * Z.of_nat (length bs)) by lia.
    rewrite Z.pow_add_r by lia. change (2 ^ 7) with 128. lia.
Qed.

(** The number of groups written is the smallest possible. *)
Lemma groups_minimal n : forall v k, 0 <= v < 2 ^ (7 * Z.of_nat k) ->
  (length (varint_groups n v) <= k)%nat.
Proof.
  induction n; intros v k H; cbn [varint_groups]; [simpl; lia|].
  destruct (v =? 0) eqn:E; [simpl; lia|].
  destruct k. { simpl in H. lia. }
  cbn [length]. apply le_n_S. apply IHn.
  rewrite Z.shiftr_div_pow2 by lia. change (2 ^ 7) with 128.
  replace (7 * Z.of_nat (S k)) with (7 + 7 * Z.of_nat k) in H by lia.
  rewrite Z.pow_add_r in H by lia. change (2 ^ 7) with 128 in H.
  split; [lia|]. apply Z.div_lt_upper_bound; lia.
Qed.

Lemma clear_last_length l : length (clear_last l) = length l.
Proof. induction l as [|a [|b l] IH]; simpl in *; auto. Qed.

Lemma serializeVarint_bound v k : (0 < k)%nat -> 0 <= v < 2 ^ (7 * Z.of_nat k) ->
  (length (serializeVarintCommon v) <= k)%nat.
Proof.
  intros Hk H. unfold serializeVarintCommon.
  pose proof (groups_minimal 10 v k H).
  destruct (varint_groups 10 v) eqn:E; [simpl; lia|].
  rewrite clear_last_length. lia.
Qed.

Lemma serializeVarint_shortest v : in_u 64 v -> shortest_varint v (serializeVarintCommon v).
Proof.
  intro H. split; [now apply serializeVarint_varint|].
  intros bs' V. apply serializeVarint_bound.
  - destruct bs'; [apply is_varint_nonnil in V; congruence | simpl; lia].
  - split; [now apply is_varint_nonneg in V | now apply is_varint_bound].
Qed.

(** ** Varint reader *)

(** Iterator standing between [pre] and [rest] of the container [pre ++ rest]. *)
Definition cur (pre rest : list Z) : iter :=
  mkIter (Zlen rest) (Zlen pre + Zlen rest) (Zlen pre).

Lemma cur_begin data : it_begin data = cur [] data.
Proof. reflexivity. Qed.

Lemma deref_cur pre b rest : it_deref (pre ++ b :: rest) (cur pre (b :: rest)) = Ok b.
Proof.
  unfold it_deref, cur. cbn [it_pos].
  pose proof (Zlen_nonneg pre). pose proof (Zlen_nonneg rest).
  rewrite Zlen_app, Zlen_cons.
  replace ((0 <=? Zlen pre) && (Zlen pre <=? Zlen pre + (1 + Zlen rest))) with true by lia.
  unfold Zlen. rewrite Nat2Z.id, app_nth2, Nat.sub_diag by lia. reflexivity.
Qed.

Lemma deref_end pre : it_deref pre (cur pre []) = Ok 0.
Proof.
  unfold it_deref, cur. cbn [it_pos].
  pose proof (Zlen_nonneg pre).
  replace ((0 <=? Zlen pre) && (Zlen pre <=? Zlen pre)) with true by lia.
  unfold Zlen. rewrite Nat2Z.id, nth_overflow by lia. reflexivity.
Qed.

Lemma incr_cur pre b rest : it_incr (cur pre (b :: rest)) = Ok (cur (pre ++ [b]) rest).
Proof.
  unfold it_incr, cur. cbn [it_left it_size it_pos].
  pose proof (Zlen_nonneg rest).
  zlen.
  replace (1 + Zlen rest - 1 <? 0) with false by lia.
  f_equal. f_equal; lia.
Qed.

Lemma incr_end pre : it_incr (cur pre []) = Throw OutOfRange.
Proof. reflexivity. Qed.

Lemma advance_cur hard pre x rest :
  Zlen (x ++ rest) <= INT_MAX ->
  advance hard (cur pre (x ++ rest)) (Zlen x) = Ok (cur (pre ++ x) rest).
Proof.
  intro B. unfold advance, cur. cbn [it_left it_size it_pos].
  pose proof (Zlen_nonneg pre). pose proof (Zlen_nonneg x). pose proof (Zlen_nonneg rest).
  rewrite !Zlen_app in *.
  replace (Zlen x <? 0) with false by lia. rewrite andb_false_r.
  replace (INT_MAX <? Zlen x + Zlen rest - Zlen x) with false by lia.
  replace (Zlen x + Zlen rest - Zlen x <? 0) with false by lia.
  replace ((Zlen pre + Zlen x <? 0)
           || (Zlen pre + (Zlen x + Zlen rest) <? Zlen pre + Zlen x)) with false by lia.
  f_equal. f_equal; lia.
Qed.

Lemma advance_past hard pre rest n :
  Zlen rest < n -> advance hard (cur pre rest) n = Throw OutOfRange.
Proof.
  intro B. unfold advance, cur. cbn [it_left it_size it_pos].
  pose proof (Zlen_nonneg rest).
  replace (n <? 0) with false by lia. rewrite andb_false_r.
  unfold INT_MAX. replace (2147483647 <? Zlen rest - n) with false by lia.
  now replace (Zlen rest - n <? 0) with true by lia.
Qed.

Lemma copy_cur pre rest : it_copy (cur pre rest) = Ok (cur pre rest).
Proof.
  unfold it_copy, cur. cbn [it_left it_size it_pos].
  pose proof (Zlen_nonneg pre). pose proof (Zlen_nonneg rest).
  now replace ((Zlen pre + Zlen rest <? Zlen rest) || (Zlen rest <? 0)) with false by lia.
Qed.

Lemma plus_cur hard pre x rest :
  Zlen (x ++ rest) <= INT_MAX ->
  it_plus hard (cur pre (x ++ rest)) (Zlen x) = Ok (cur (pre ++ x) rest).
Proof.
  intro B. unfold it_plus. rewrite copy_cur. cbn [bind].
  rewrite advance_cur by exact B. cbn [bind]. apply copy_cur.
Qed.

Lemma plus_past hard pre rest n :
  Zlen rest < n -> it_plus hard (cur pre rest) n = Throw OutOfRange.
Proof.
  intro B. unfold it_plus. rewrite copy_cur. cbn [bind].
  now rewrite advance_past.
Qed.

Lemma wrapU_range w z : 0 <= w -> 0 <= wrapU w z < 2 ^ w.
Proof. intro. unfold wrapU. apply Z.mod_pos_bound. apply Z.pow_pos_nonneg; lia. Qed.

Lemma wrapU_small w z : in_u w z -> wrapU w z = z.
Proof. unfold wrapU, in_u. intro. now apply Z.mod_small. Qed.

Lemma wrap_add64 w a b : 0 <= w <= 64 -> wrapU w (a + wrapU 64 b) = wrapU w (a + b).
Proof.
  intro Hw. unfold wrapU.
  assert (P : 0 < 2 ^ w) by (apply Z.pow_pos_nonneg; lia).
  rewrite (Z.add_mod a (b mod 2 ^ 64)), (Z.add_mod a b) by lia.
  f_equal. f_equal.
  replace 64 with (w + (64 - w)) by lia. rewrite Z.pow_add_r by lia.
  assert (P2 : 0 < 2 ^ (64 - w)) by (apply Z.pow_pos_nonneg; lia).
  rewrite Z.rem_mul_r by lia.
  rewrite Z.mul_comm with (n := 2 ^ w), Z.mod_add by lia.
  apply Z.mod_mod. lia.
Qed.

Lemma wrap_add w a b : 0 <= w -> wrapU w (wrapU w a + b) = wrapU w (a + b).
Proof.
  intro Hw. unfold wrapU. apply Z.add_mod_idemp_l.
  assert (0 < 2 ^ w) by (apply Z.pow_pos_nonneg; lia). lia.
Qed.

Lemma varint_loop_ok w v hd : 0 <= w <= 64 -> is_varint v hd ->
  forall n pre rest k acc,
  (length hd <= n)%nat -> 0 <= k -> k + 7 * Zlen hd <= 70 ->
  varint_loop n w (pre ++ hd ++ rest) (cur pre (hd ++ rest)) k acc
  = Ok (wrapU w (acc + v * 2 ^ k), cur (pre ++ hd) rest).
Proof.
  intros Hw V.
  induction V as [b Hb | b v bs Hb V IH]; intros n pre rest k acc Hn Hk0 Hk.
  - destruct n; [simpl in Hn; lia|]. cbn [varint_loop app].
    zlen_in Hk.
    rewrite deref_cur. cbn [bind].
    replace (64 <=? k) with false by lia.
    rewrite incr_cur. cbn [bind].
    rewrite land128 by lia. replace (b <? 128) with true by lia.
    rewrite land127, Z.mod_small by lia.
    rewrite Z.shiftl_mul_pow2 by lia. now rewrite wrap_add64.
  - destruct n; [simpl in Hn; lia|]. cbn [varint_loop app].
    rewrite Zlen_cons in Hk.
    assert (1 <= Zlen bs).
    { destruct bs; [apply is_varint_nonnil in V; congruence|].
      rewrite Zlen_cons. pose proof (Zlen_nonneg bs). lia. }
    rewrite deref_cur. cbn [bind].
    replace (64 <=? k) with false by lia.
    rewrite incr_cur. cbn [bind].
    rewrite land128 by lia. replace (b + 128 <? 128) with false by lia.
    rewrite land127. replace ((b + 128) mod 128) with b by lia.
    rewrite Z.shiftl_mul_pow2 by lia. rewrite wrap_add64 by lia.
    replace (pre ++ b + 128 :: bs ++ rest) with ((pre ++ [b + 128]) ++ bs ++ rest)
      by (rewrite <- app_assoc; reflexivity).
    rewrite IH; [| simpl in Hn; lia | lia | lia].
    rewrite wrap_add by lia. rewrite <- app_assoc. cbn [app].
    do 2 f_equal. rewrite Z.pow_add_r by lia. change (2 ^ 7) with 128. f_equal. lia.
Qed.

Lemma varint_read w v hd pre rest : 0 <= w <= 64 -> wire_varint v hd ->
  deserializeVarintCommon w (pre ++ hd ++ rest) (cur pre (hd ++ rest))
  = Ok (wrapU w v, cur (pre ++ hd) rest).
Proof.
  intros Hw [V L]. unfold deserializeVarintCommon.
  rewrite (varint_loop_ok w v hd Hw V); [| lia | lia | unfold Zlen; lia].
  rewrite Z.mul_1_r. reflexivity.
Qed.

(** ** ZigZag *)

Lemma pow_split w : 0 < w -> 2 ^ w = 2 * 2 ^ (w - 1).
Proof. intro. replace w with (1 + (w - 1)) at 1 by lia. rewrite Z.pow_add_r by lia. lia. Qed.

Lemma toS_range w z : 0 < w -> in_s w (toS w z).
Proof.
  intro Hw. unfold in_s, toS. cbv zeta.
  assert (P : 0 < 2 ^ (w - 1)) by (apply Z.pow_pos_nonneg; lia).
  pose proof (pow_split w Hw) as S. rewrite S.
  pose proof (Z.mod_pos_bound z (2 * 2 ^ (w - 1)) ltac:(lia)).
  destruct (z mod (2 * 2 ^ (w - 1)) <? 2 ^ (w - 1)) eqn:E; lia.
Qed.

Lemma toS_small w z : 0 < w -> in_s w z -> toS w z = z.
Proof.
  intros Hw H. unfold in_s in H. unfold toS. cbv zeta.
  assert (P : 0 < 2 ^ (w - 1)) by (apply Z.pow_pos_nonneg; lia).
  pose proof (pow_split w Hw) as S. rewrite S.
  destruct (Z_lt_le_dec z 0).
  - assert (E : z mod (2 * 2 ^ (w - 1)) = z + 2 * 2 ^ (w - 1)).
    { symmetry. apply Z.mod_unique with (q := -1); lia. }
    rewrite E. replace (z + 2 * 2 ^ (w - 1) <? 2 ^ (w - 1)) with false by lia. lia.
  - rewrite Z.mod_small by lia. replace (z <? 2 ^ (w - 1)) with true by lia. reflexivity.
Qed.

Lemma toS_wrap w z : 0 < w -> toS w (wrapU w z) = toS w z.
Proof.
  intro Hw. unfold toS, wrapU. rewrite Z.mod_mod; auto.
  assert (0 < 2 ^ w) by (apply Z.pow_pos_nonneg; lia). lia.
Qed.

Lemma wrap_toS w z : 0 < w -> wrapU w (toS w z) = wrapU w z.
Proof.
  intro Hw. unfold toS, wrapU.
  assert (P : 0 < 2 ^ w) by (apply Z.pow_pos_nonneg; lia).
  cbv zeta. destruct (z mod 2 ^ w <? 2 ^ (w - 1)).
  - apply Z.mod_mod. lia.
  - replace (z mod 2 ^ w - 2 ^ w) with (z mod 2 ^ w + (-1) * 2 ^ w) by lia.
    rewrite Z.mod_add by lia. apply Z.mod_mod. lia.
Qed.

Lemma toS_mod_eq w a b : a mod 2 ^ w = b mod 2 ^ w -> toS w a = toS w b.
Proof. unfold toS. now intros ->. Qed.

Lemma lxor_m1 a : Z.lxor a (-1) = - a - 1.
Proof. rewrite Z.lxor_m1_r. unfold Z.lnot. lia. Qed.

Lemma zigzag_model w v : 1 < w -> in_s w v ->
  wrapU w (toS w (Z.lxor (toS w (Z.shiftl v 1)) (Z.shiftr v (w - 1)))) = zigzag v.
Proof.
  intros Hw H. unfold in_s in H. rewrite wrap_toS by lia.
  assert (P : 0 < 2 ^ (w - 1)) by (apply Z.pow_pos_nonneg; lia).
  pose proof (pow_split w ltac:(lia)) as S.
  rewrite Z.shiftl_mul_pow2, Z.shiftr_div_pow2 by lia. change (2 ^ 1) with 2.
  unfold zigzag. destruct (v <? 0) eqn:E.
  - assert (v / 2 ^ (w - 1) = -1) as -> by (symmetry; apply Z.div_unique with (r := v + 2 ^ (w - 1)); lia).
    rewrite lxor_m1. unfold toS. cbv zeta.
    destruct (Z_lt_le_dec v (- 2 ^ (w - 2))) as [L | L].
    + assert (P2 : 0 < 2 ^ (w - 2)) by (apply Z.pow_pos_nonneg; lia).
      assert (S2 : 2 ^ (w - 1) = 2 * 2 ^ (w - 2)).
      { replace (w - 1) with (1 + (w - 2)) by lia. rewrite Z.pow_add_r by lia. lia. }
      assert (M : (v * 2) mod 2 ^ w = v * 2 + 2 ^ w).
      { symmetry. apply Z.mod_unique with (q := -1); lia. }
      rewrite M. replace (v * 2 + 2 ^ w <? 2 ^ (w - 1)) with true by lia.
      unfold wrapU. symmetry. apply Z.mod_unique with (q := -1); lia.
    + assert (P2 : 0 < 2 ^ (w - 2)) by (apply Z.pow_pos_nonneg; lia).
      assert (S2 : 2 ^ (w - 1) = 2 * 2 ^ (w - 2)).
      { replace (w - 1) with (1 + (w - 2)) by lia. rewrite Z.pow_add_r by lia. lia. }
      assert (M : (v * 2) mod 2 ^ w = v * 2 + 2 ^ w).
      { symmetry. apply Z.mod_unique with (q := -1); lia. }
      rewrite M. replace (v * 2 + 2 ^ w <? 2 ^ (w - 1)) with false by lia.
      unfold wrapU. symmetry. apply Z.mod_unique with (q := 0); lia.
  - assert (v / 2 ^ (w - 1) = 0) as -> by (apply Z.div_small; lia).
    rewrite Z.lxor_0_r. rewrite wrap_toS by lia. unfold wrapU.
    rewrite Z.mod_small; lia.
Qed.

Lemma unZigZag_zigzag w v : 1 < w -> in_s w v -> unZigZag w (zigzag v) = v.
Proof.
  intros Hw H. unfold in_s in H.
  assert (P : 0 < 2 ^ (w - 1)) by (apply Z.pow_pos_nonneg; lia).
  pose proof (pow_split w ltac:(lia)) as S.
  unfold unZigZag. rewrite Z.shiftr_div_pow2 by lia. change (2 ^ 1) with 2.
  assert (LA : forall u, Z.land u 1 = u mod 2).
  { intro u. change 1 with (Z.ones 1). now rewrite Z.land_ones by lia. }
  rewrite LA.
  unfold zigzag. destruct (v <? 0) eqn:E.
  - replace ((-2 * v - 1) mod 2) with 1 by lia.
    replace ((-2 * v - 1) / 2) with (- v - 1) by lia.
    replace (wrapU w (-1 * 1)) with (2 ^ w - 1)
      by (unfold wrapU; apply Z.mod_unique with (q := -1); lia).
    transitivity (toS w v); [apply toS_mod_eq | apply toS_small; unfold in_s; lia].
    replace (2 ^ w - 1) with (Z.ones w) by (rewrite Z.ones_equiv; lia).
    assert (X : Z.lxor (- v - 1) (Z.ones w) = 2 ^ w + v).
    { assert (L : Z.lnot (- v - 1) = v) by (unfold Z.lnot; lia).
      replace (Z.lxor (- v - 1) (Z.ones w)) with (Z.land (Z.lnot (- v - 1)) (Z.ones w)).
      - rewrite Z.land_ones by lia. rewrite L. symmetry. apply Z.mod_unique with (q := -1); lia.
      - apply Z.bits_inj'. intros i Hi. rewrite Z.land_spec, Z.lxor_spec, Z.lnot_spec by lia.
        rewrite Z.testbit_ones_nonneg by lia.
        destruct (i <? w) eqn:I.
        + now rewrite andb_true_r, xorb_true_r.
        + rewrite andb_false_r, xorb_false_r. symmetry.
          destruct (Z.eq_dec (- v - 1) 0) as [->|]; [apply Z.testbit_0_l|].
          apply Z.bits_above_log2; [lia|].
          apply Z.log2_lt_pow2; [lia|].
          apply Z.lt_le_trans with (2 ^ (w - 1)); [lia|].
          apply Z.pow_le_mono_r; lia. }
    rewrite X. replace (2 ^ w + v) with (v + 1 * 2 ^ w) by lia.
    rewrite Z.mod_add by lia. reflexivity.
  - replace ((2 * v) mod 2) with 0 by lia.
    replace ((2 * v) / 2) with v by lia.
    replace (wrapU w (-1 * 0)) with 0 by (unfold wrapU; rewrite Z.mod_0_l; lia).
    rewrite Z.lxor_0_r. apply toS_small; [lia | unfold in_s; lia].
Qed.

Lemma zigzag_range w v : 0 < w -> in_s w v -> in_u w (zigzag v).
Proof.
  unfold in_s, in_u, zigzag. intros Hw H. pose proof (pow_split w Hw).
  destruct (v <? 0) eqn:E; lia.
Qed.

Lemma zigzag_inj a b : zigzag a = zigzag b -> a = b.
Proof. unfold zigzag. destruct (a <? 0) eqn:A, (b <? 0) eqn:B; lia. Qed.

(** Every unsigned number is the zigzag code of a signed one. *)
Definition unzz (u : Z) : Z := if u mod 2 =? 0 then u / 2 else - ((u + 1) / 2).
Lemma zigzag_onto w u : 0 < w -> in_u w u -> in_s w (unzz u) /\ zigzag (unzz u) = u.
Proof.
  unfold in_s, in_u, zigzag, unzz. intros Hw H. pose proof (pow_split w Hw).
  destruct (u mod 2 =? 0) eqn:E.
  - replace (u / 2 <? 0) with false by lia. lia.
  - replace (- ((u + 1) / 2) <? 0) with true by lia. lia.
Qed.

Lemma unZigZag_any w u : 1 < w -> in_u w u -> unZigZag w u = unzz u.
Proof.
  intros Hw H. destruct (zigzag_onto w u ltac:(lia) H) as [A B].
  rewrite <- B at 1. now apply unZigZag_zigzag.
Qed.

(** ** Fixed size values *)

Lemma le_value_number l : le_value l = le_number l.
Proof. induction l; cbn [le_value le_number fold_right]; [reflexivity | now rewrite IHl]. Qed.

Lemma le_bytes_length n v : length (le_bytes n v) = n.
Proof. revert v. induction n; simpl; auto. Qed.

Lemma le_bytes_bytes n v : bytes (le_bytes n v).
Proof.
  revert v. induction n; intro v; constructor; [|apply IHn].
  unfold is_byte. rewrite land255. lia.
Qed.

Lemma le_bytes_number n : forall v, le_number (le_bytes n v) = v mod 2 ^ (8 * Z.of_nat n).
Proof.
  induction n; intro v. { simpl. now rewrite Z.mod_1_r. }
  cbn [le_bytes le_number fold_right]. fold (le_number (le_bytes n (Z.shiftr v 8))).
  rewrite IHn, land255, Z.shiftr_div_pow2 by lia. change (2 ^ 8) with 256.
  replace (8 * Z.of_nat (S n)) with (8 + 8 * Z.of_nat n) by lia.
  rewrite Z.pow_add_r by lia. change (2 ^ 8) with 256.
  rewrite Z.rem_mul_r; [reflexivity | lia |].
  apply Z.pow_pos_nonneg; lia.
Qed.

Lemma le_bytes_is_le n v : is_le n (v mod 2 ^ (8 * Z.of_nat n)) (le_bytes n v).
Proof.
  split; [apply le_bytes_length|]. split; [apply le_bytes_bytes | apply le_bytes_number].
Qed.

Lemma slice_mid a x b t : slice (a ++ x ++ b) (Zlen a) t = slice (x ++ b) 0 t.
Proof.
  unfold slice, Zlen. rewrite Nat2Z.id. simpl skipn.
  rewrite skipn_app, skipn_all, Nat.sub_diag. reflexivity.
Qed.

Lemma slice_first x b : slice (x ++ b) 0 (Zlen x) = x.
Proof.
  unfold slice, Zlen. rewrite Nat2Z.id. simpl skipn.
  rewrite firstn_app, Nat.sub_diag, firstn_all. simpl. now rewrite app_nil_r.
Qed.

Lemma fixed_read hard n x pre rest :
  Zlen x = n -> Zlen (x ++ rest) <= INT_MAX ->
  deserializeFixed hard n (pre ++ x ++ rest) (cur pre (x ++ rest))
  = Ok (le_number x, cur (pre ++ x) rest).
Proof.
  intros Hn B. unfold deserializeFixed. cbn [cur it_pos].
  pose proof (Zlen_nonneg rest).
  rewrite !Zlen_app.
  replace (Zlen pre + n <=? Zlen pre + (Zlen x + Zlen rest) + 1) with true by lia.
  subst n. fold (cur pre (x ++ rest)).
  change {| it_left := Zlen (x ++ rest); it_size := Zlen pre + Zlen (x ++ rest); it_pos := Zlen pre |}
    with (cur pre (x ++ rest)).
  rewrite advance_cur by exact B. cbn [bind].
  rewrite <- app_assoc, <- app_assoc, slice_mid, slice_first, le_value_number. reflexivity.
Qed.

(** ** Length-delimited payloads *)

Lemma prepend_delimited data : Zlen data <= INT_MAX ->
  delimited data (prependLengthDelimitedSize data).
Proof.
  intro B. unfold INT_MAX in B. exists (serializeVarintCommon (Zlen data)). split.
  - apply serializeVarint_wire. unfold in_u. pose proof (Zlen_nonneg data). lia.
  - unfold prependLengthDelimitedSize. rewrite wrapU_small; [reflexivity|].
    unfold in_u. pose proof (Zlen_nonneg data). lia.
Qed.

Lemma delimited_read hard content bs pre rest :
  delimited content bs -> Zlen (bs ++ rest) <= INT_MAX ->
  deserializeLengthDelimited hard (pre ++ bs ++ rest) (cur pre (bs ++ rest))
  = Ok (content, cur (pre ++ bs) rest).
Proof.
  intros (len & V & ->) B. unfold deserializeLengthDelimited.
  rewrite <- app_assoc.
  rewrite (varint_read 32 _ _ _ _ ltac:(lia) V). cbn [bind].
  pose proof (Zlen_nonneg content). pose proof (Zlen_nonneg len). pose proof (Zlen_nonneg rest).
  pose proof (Zlen_nonneg pre).
  rewrite <- app_assoc in B. rewrite !Zlen_app in B. unfold INT_MAX in B.
  rewrite toS_wrap by lia. rewrite toS_small by (unfold in_s; lia).
  replace (Zlen content <? 0) with false by lia.
  cbn [cur it_pos].
  rewrite !Zlen_app.
  replace (Zlen pre + Zlen len + Zlen content
           <=? Zlen pre + (Zlen len + (Zlen content + Zlen rest)) + 1) with true by lia.
  cbn [bind].
  change {| it_left := Zlen (content ++ rest); it_size := _; it_pos := _ |}
    with (cur (pre ++ len) (content ++ rest)).
  replace {| it_left := _; it_size := _; it_pos := _ |} with (cur (pre ++ len) (content ++ rest))
    by (unfold cur; rewrite !Zlen_app; reflexivity).
  rewrite advance_cur by (rewrite Zlen_app; unfold INT_MAX; lia). cbn [bind].
  rewrite <- Zlen_app.
  replace ((pre ++ len ++ content ++ rest) ++ [0])
    with ((pre ++ len) ++ content ++ (rest ++ [0])) by (now rewrite <- !app_assoc).
  rewrite slice_mid, slice_first. now rewrite <- app_assoc.
Qed.

(** ** Tags *)

Lemma header_value num wt : 0 <= num -> 0 <= wt < 8 -> Z.lor (Z.shiftl num 3) wt = 8 * num + wt.
Proof.
  intros Hn Hw. rewrite Z.shiftl_mul_pow2 by lia. change (2 ^ 3) with 8.
  rewrite <- Z.lxor_lor.
  - rewrite <- Z.add_nocarry_lxor; [lia|].
    apply Z.bits_inj'. intros i Hi. rewrite Z.land_spec, Z.testbit_0_l.
    destruct (Z_lt_le_dec i 3) as [L|L].
    + change 8 with (2 ^ 3). rewrite Z.mul_pow2_bits_low by lia. reflexivity.
    + apply andb_false_intro2.
      destruct (Z.eq_dec wt 0) as [->|]; [apply Z.testbit_0_l|].
      apply Z.bits_above_log2; [lia|].
      apply Z.log2_lt_pow2; [lia|]. apply Z.lt_le_trans with (2 ^ 3); [lia|].
      apply Z.pow_le_mono_r; lia.
  - apply Z.bits_inj'. intros i Hi. rewrite Z.land_spec, Z.testbit_0_l.
    destruct (Z_lt_le_dec i 3) as [L|L].
    + change 8 with (2 ^ 3). rewrite Z.mul_pow2_bits_low by lia. reflexivity.
    + apply andb_false_intro2.
      destruct (Z.eq_dec wt 0) as [->|]; [apply Z.testbit_0_l|].
      apply Z.bits_above_log2; [lia|].
      apply Z.log2_lt_pow2; [lia|]. apply Z.lt_le_trans with (2 ^ 3); [lia|].
      apply Z.pow_le_mono_r; lia.
Qed.

Lemma encodeHeader_tag num wt : field_number num -> 0 <= wt < 8 ->
  is_tag num wt (encodeHeader num wt) /\ shortest_varint (8 * num + wt) (encodeHeader num wt).
Proof.
  unfold field_number. intros Hn Hw. unfold encodeHeader, is_tag.
  rewrite header_value by lia.
  rewrite wrapU_small by (unfold in_u; lia).
  split; [apply serializeVarint_wire | apply serializeVarint_shortest]; unfold in_u; lia.
Qed.

Definition valid_tag (num wt : Z) : bool :=
  (0 <? num) && ((wt =? 0) || (wt =? 1) || (wt =? 2) || (wt =? 5)).

Lemma tag_read h hd pre rest : wire_varint h hd -> 0 <= h < 2 ^ 32 ->
  decodeHeader (pre ++ hd ++ rest) (cur pre (hd ++ rest))
  = Ok (h / 8, h mod 8, valid_tag (h / 8) (h mod 8), cur (pre ++ hd) rest).
Proof.
  intros V B. unfold decodeHeader. rewrite (varint_read 32 _ _ _ _ ltac:(lia) V). cbn [bind].
  rewrite wrapU_small by (unfold in_u; lia).
  rewrite Z.shiftr_div_pow2 by lia. change (2 ^ 3) with 8.
  change 7 with (Z.ones 3). rewrite Z.land_ones by lia. change (2 ^ 3) with 8.
  unfold valid_tag, WVarintT, WFixed64T, WFixed32T, WLengthDelimitedT.
  do 4 f_equal.
  replace (h / 8 <=? 2 ^ 29 - 1) with true by lia. cbn [andb].
  f_equal. destruct (h mod 8 =? 0), (h mod 8 =? 1), (h mod 8 =? 2), (h mod 8 =? 5); reflexivity.
Qed.

Lemma tag_read_ok num wt hd pre rest :
  field_number num -> In wt wire_types -> is_tag num wt hd ->
  decodeHeader (pre ++ hd ++ rest) (cur pre (hd ++ rest))
  = Ok (num, wt, true, cur (pre ++ hd) rest).
Proof.
  unfold field_number, wire_types, is_tag. intros Hn Hw V.
  assert (0 <= wt < 8) by (simpl in Hw; lia).
  rewrite (tag_read _ _ _ _ V) by lia.
  replace ((8 * num + wt) / 8) with num by lia.
  replace ((8 * num + wt) mod 8) with wt by lia.
  replace (valid_tag num wt) with true; [reflexivity|].
  unfold valid_tag. simpl in Hw. lia.
Qed.

(** Varint encodings are prefix free: the value and the rest are determined. *)
Lemma varint_prefix_free v hd : is_varint v hd -> forall v' hd' rest rest',
  is_varint v' hd' -> hd ++ rest = hd' ++ rest' -> v = v' /\ hd = hd' /\ rest = rest'.
Proof.
  induction 1 as [b Hb|b v bs Hb V IH]; intros v' hd' rest rest' V' E.
  - destruct V' as [b' Hb'|b' v' bs' Hb' V']; cbn [app] in E; injection E as E1 E2.
    + now subst.
    + lia.
  - destruct V' as [b' Hb'|b' v' bs' Hb' V']; cbn [app] in E; injection E as E1 E2.
    + lia.
    + destruct (IH _ _ _ _ V' E2) as (-> & -> & ->).
      assert (b = b') as -> by lia. auto.
Qed.

(** Six digits are too few for floating point numbers: proofs. *)

From Coq Require Import ZArith List Bool Permutation Lia.
From Verif Require Import Base Values MessageModel MessageSpec MessageProofs JsonSpec JsonModel PropertiesJson.
Import ListNotations.
Open Scope Z_scope.

(** * The pigeonhole principle *)

Lemma duplicate_or_not (f : nat -> list Z) : forall n, (exists i j, (i < j < n)%nat /\ f i = f j) \/ NoDup (map f (seq 0 n)).
Proof.
  induction n as [|n [(i & j & L & E)|N]].
  - right. constructor.
  - left. exists i, j. split; [lia | exact E].
  - destruct (in_dec (list_eq_dec Z.eq_dec) (f n) (map f (seq 0 n))) as [I|I].
    + left. apply in_map_iff in I as (i & E & I). apply in_seq in I. exists i, n. split; [lia | exact E].
    + right. rewrite seq_S, map_app. cbn [map Nat.add].
      apply (Permutation_NoDup (l := f n :: map f (seq 0 n))); [apply Permutation_cons_append | now constructor].
Qed.

Lemma pigeonhole (f g : nat -> list Z) n m : (m < n)%nat -> (forall i, (i < n)%nat -> exists k, (k < m)%nat /\ f i = g k) ->
  exists i j, (i < j < n)%nat /\ f i = f j.
Proof.
  intros L H. destruct (duplicate_or_not f n) as [D|N]; [exact D|]. exfalso.
  assert (I : incl (map f (seq 0 n)) (map g (seq 0 m))).
  { intros x X. apply in_map_iff in X as (i & <- & X). apply in_seq in X. destruct (H i) as (k & K & ->); [lia|]. apply in_map_iff. exists k. split; [reflexivity | apply in_seq; lia]. }
  apply NoDup_incl_length in I; [|exact N]. rewrite !map_length, !seq_length in I. lia.
Qed.

(** The same for ranges of integers, and texts with a sign, a number below [d] and an exponent from [lo] on. *)
Lemma texts_collide (fmt : Z -> list Z) (texts : bool -> Z -> Z -> list Z) n d lo w : 0 < d -> 0 < w -> 2 * d * w < n ->
  (forall x, 0 <= x < n -> exists s m e, 0 <= m < d /\ lo <= e < lo + w /\ fmt x = texts s m e) ->
  exists x y, 0 <= x < n /\ 0 <= y < n /\ x <> y /\ fmt x = fmt y.
Proof.
  intros D W L H.
  destruct (pigeonhole (fun i => fmt (Z.of_nat i))
              (fun k => let z := Z.of_nat k in texts (z mod 2 =? 1) (z / 2 mod d) (lo + z / (2 * d))) (Z.to_nat n) (Z.to_nat (2 * d * w))) as (i & j & I & E).
  - apply Z2Nat.inj_lt; nia.
  - intros i I. destruct (H (Z.of_nat i) ltac:(lia)) as (s & m & e & M & Ee & ->).
    exists (Z.to_nat ((if s then 1 else 0) + 2 * (m + d * (e - lo)))). 
    assert (B : 0 <= (if s then 1 else 0) + 2 * (m + d * (e - lo)) < 2 * d * w) by (destruct s; nia).
    split; [lia|]. cbv zeta. rewrite Z2Nat.id by lia. set (b := if s then 1 else 0). assert (B2 : b = 0 \/ b = 1) by (unfold b; destruct s; auto).
    assert (M2 : (b + 2 * (m + d * (e - lo))) mod 2 = b) by (rewrite (Z.mul_comm 2), Z.mod_add, Z.mod_small; lia).
    assert (D2 : (b + 2 * (m + d * (e - lo))) / 2 = m + d * (e - lo)) by (rewrite (Z.mul_comm 2), Z.div_add, Z.div_small; lia).
    rewrite M2, <- Z.div_div, D2 by lia. rewrite (Z.mul_comm d), Z.mod_add, Z.mod_small, Z.div_add, Z.div_small by lia.
    f_equal; [unfold b; destruct s; reflexivity | lia].
  - exists (Z.of_nat i), (Z.of_nat j). repeat split; try lia. exact E.
Qed.

(** * The serializer *)

Lemma property_same sch nm fm rec m a b v w : (json_field sch nm fm rec m (length a) v = json_field sch nm fm rec m (length a) w) ->
  forall i, json_property sch nm fm rec m i (nth i (a ++ v :: b) VNull) = json_property sch nm fm rec m i (nth i (a ++ w :: b) VNull).
Proof.
  intros E i. destruct (lt_eq_lt_dec i (length a)) as [[L|L]|L].
  - now rewrite !app_nth1 by exact L.
  - subst i. rewrite !app_nth2, !Nat.sub_diag by lia. cbn [nth]. unfold json_property. now rewrite E.
  - rewrite !app_nth2 by lia. destruct (i - length a)%nat eqn:X; [lia|]. reflexivity.
Qed.

Lemma serializes_same sch nm fm m a b v w t : (forall rec, json_field sch nm fm rec m (length a) v = json_field sch nm fm rec m (length a) w) ->
  json_serializes sch nm fm m (a ++ v :: b) t -> json_serializes sch nm fm m (a ++ w :: b) t.
Proof.
  intros E [fuel H]. exists fuel. destruct fuel as [|fuel]; [discriminate|]. cbn [json_object] in *. rewrite <- H. f_equal. f_equal.
  apply map_ext. intro i. symmetry. now apply property_same.
Qed.

Lemma list_same fm en l1 l2 x y : fmt_double6 fm x = fmt_double6 fm y ->
  json_scalar_list fm en TDouble (l1 ++ SNum x :: l2) = json_scalar_list fm en TDouble (l1 ++ SNum y :: l2).
Proof.
  intro E. unfold json_scalar_list. rewrite !map_app. cbn [map]. unfold json_element at 2 5. cbn [num_of]. rewrite E.
  destruct l1; reflexivity.
Qed.

(** * The values *)

Lemma canon_at sch fields : forall a v w b, (length a < length fields)%nat ->
  canon_fields sch fields (a ++ v :: b) = canon_fields sch fields (a ++ w :: b) ->
  canon_field sch (f_ty (nth (length a) fields dummy_field)) v = canon_field sch (f_ty (nth (length a) fields dummy_field)) w.
Proof.
  induction fields as [|f fields IH]; intros a v w b L E; [cbn in L; lia|]. destruct a as [|u a]; cbn [app canon_fields length nth] in *.
  - exact (f_equal (hd VNull) E).
  - apply (IH a v w b); [lia | exact (f_equal (@tl value) E)].
Qed.

Lemma same_at sch m a v w b : (length a < length (md_fields (msg_at sch m)))%nat -> same sch m (a ++ v :: b) (a ++ w :: b) ->
  canon_field sch (f_ty (field_at sch m (length a))) v = canon_field sch (f_ty (field_at sch m (length a))) w.
Proof. intros L E. unfold same in E. rewrite !canon_obj_spec in E. now apply (canon_at sch _ a v w b). Qed.

Lemma float_differs sch m a b x y : (length a < length (md_fields (msg_at sch m)))%nat -> f_ty (field_at sch m (length a)) = FSing (ES TFloat) ->
  0 <= x < 2 ^ 31 -> 0 <= y < 2 ^ 31 -> x <> y -> ~ same sch m (a ++ VScalar (SNum x) :: b) (a ++ VScalar (SNum y) :: b).
Proof.
  intros L T X Y N E. apply same_at in E; [|exact L]. rewrite T in E. cbn [canon_field canon_elem scalar_of collapse] in E.
  unfold canon_scalar in E. cbn [is_blob num_of] in E. rewrite !Z.mod_small in E by assumption.
  destruct (Z.eqb_spec x 0), (Z.eqb_spec y 0); congruence.
Qed.

Lemma double_differs sch m a b l1 l2 x y : (length a < length (md_fields (msg_at sch m)))%nat -> f_ty (field_at sch m (length a)) = FRep (ES TDouble) ->
  0 <= x < 2 ^ 63 -> 0 <= y < 2 ^ 63 -> x <> y ->
  ~ same sch m (a ++ VList (l1 ++ VScalar (SNum x) :: l2) :: b) (a ++ VList (l1 ++ VScalar (SNum y) :: l2) :: b).
Proof.
  intros L T X Y N E. apply same_at in E; [|exact L]. rewrite T in E. cbn [canon_field list_of] in E. injection E as E. rewrite !map_app in E.
  apply app_inv_head in E. cbn [map canon_elem scalar_of] in E. injection E as E.
  unfold canon_scalar in E. cbn [is_blob num_of] in E. rewrite !Z.mod_small in E by assumption.
  destruct (Z.eqb_spec x 0), (Z.eqb_spec y 0); congruence.
Qed.

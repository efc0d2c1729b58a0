(** Proofs about fields of Qt types. *)

From Coq Require Import ZArith List Bool Lia Arith.
From Verif Require Import Base WireModel Values MessageModel WireSpec WireProofs MessageSpec MessageProofs
  SerializeProofs MessageFacts RunFacts ObjectProofs TypedProofs QtTypesModel QtDateProofs QtTypesSpec.
Import ListNotations.
Open Scope Z_scope.

(** ** Hexadecimal numbers *)

Lemma from_hex_more n : forall k acc s v s', from_hex n acc s = Some (v, s') ->
  from_hex (n + k) acc s = from_hex k v s'.
Proof.
  induction n as [|n IH]; intros k acc s v s' H; cbn [from_hex Nat.add] in *.
  - now injection H as -> ->.
  - destruct s as [|c s]; [discriminate|]. destruct (from_hex_digit c); [|discriminate]. eauto.
Qed.

Lemma hex_digit_back d : 0 <= d < 16 -> from_hex_digit (hex_digit d) = Some d.
Proof.
  intro D.
  assert (C : d = 0 \/ d = 1 \/ d = 2 \/ d = 3 \/ d = 4 \/ d = 5 \/ d = 6 \/ d = 7 \/ d = 8 \/ d = 9 \/
    d = 10 \/ d = 11 \/ d = 12 \/ d = 13 \/ d = 14 \/ d = 15) by lia.
  repeat (destruct C as [->|C]; [reflexivity|]). now subst.
Qed.

Lemma hex_back n : forall z acc rest, 0 <= z < 16 ^ Z.of_nat n ->
  from_hex n acc (to_hex n z ++ rest) = Some (acc * 16 ^ Z.of_nat n + z, rest).
Proof.
  induction n as [|n IH]; intros z acc rest B.
  - cbn [from_hex to_hex app]. change (16 ^ Z.of_nat 0) with 1 in *. do 2 f_equal; lia.
  - rewrite Nat2Z.inj_succ in *. rewrite Z.pow_succ_r in * by lia.
    cbn [to_hex]. rewrite <- app_assoc. replace (S n) with (n + 1)%nat by lia.
    pose proof (Z.div_mod z 16 ltac:(lia)) as D. pose proof (Z.mod_pos_bound z 16 ltac:(lia)) as M.
    rewrite (from_hex_more n 1 acc _ (acc * 16 ^ Z.of_nat n + z / 16) ([hex_digit (z mod 16)] ++ rest)).
    + cbn [from_hex app]. rewrite hex_digit_back by lia. do 2 f_equal. lia.
    + apply IH. split; [apply Z.div_pos; lia | apply Z.div_lt_upper_bound; lia].
Qed.

Lemma hex_bytes_back n : forall l rest, length l = n -> Forall (in_u 8) l ->
  from_hex_bytes n (concat (map (to_hex 2) l) ++ rest) = Some (l, rest).
Proof.
  induction n as [|n IH]; intros l rest L F; destruct l as [|x l]; try discriminate L; [reflexivity|].
  inversion F as [|? ? Fx Fl]; subst. cbn [map concat from_hex_bytes]. rewrite <- app_assoc.
  unfold in_u in Fx.
  rewrite (hex_back 2) by (change (16 ^ Z.of_nat 2) with (2 ^ 8); lia). cbn [obind fst snd].
  rewrite IH by (auto; now injection L). reflexivity.
Qed.

Lemma uuid_back d1 d2 d3 d4 : in_u 32 d1 -> in_u 16 d2 -> in_u 16 d3 -> length d4 = 8%nat ->
  Forall (in_u 8) d4 -> uuid_parse (uuid_string d1 d2 d3 d4) = (d1, d2, d3, d4).
Proof.
  intros H1 H2 H3 L F. unfold in_u in *. unfold uuid_string, uuid_parse.
  cbn [app]. change (123 =? 123) with true. cbn [app].
  rewrite (hex_back 8) by (change (16 ^ Z.of_nat 8) with (2 ^ 32); lia).
  cbn [obind fst snd expect app]. change (45 =? 45) with true. cbn [obind].
  rewrite (hex_back 4) by (change (16 ^ Z.of_nat 4) with (2 ^ 16); lia).
  cbn [obind fst snd expect app]. change (45 =? 45) with true. cbn [obind].
  rewrite (hex_back 4) by (change (16 ^ Z.of_nat 4) with (2 ^ 16); lia).
  cbn [obind fst snd expect app]. change (45 =? 45) with true. cbn [obind].
  assert (F4 := F). rewrite <- (firstn_skipn 2 d4) in F4. apply Forall_app in F4. destruct F4 as [F4 F5].
  rewrite hex_bytes_back; [|rewrite firstn_length; lia | exact F4].
  cbn [obind fst snd expect app]. change (45 =? 45) with true. cbn [obind].
  rewrite hex_bytes_back; [|rewrite skipn_length; lia | exact F5].
  cbn [obind fst snd]. now rewrite firstn_skipn.
Qed.

Lemma hex_digit_byte d : 0 <= d < 16 -> is_byte (hex_digit d).
Proof. unfold hex_digit, is_byte. intro. destruct (Z.ltb_spec d 10); lia. Qed.
Lemma to_hex_bytes n : forall z, bytes (to_hex n z).
Proof.
  induction n as [|n IH]; intro z; [constructor|]. cbn [to_hex]. apply Forall_app. split; [apply IH|].
  constructor; [|constructor]. apply hex_digit_byte. pose proof (Z.mod_pos_bound z 16 ltac:(lia)). lia.
Qed.
Lemma hex_list_bytes l : bytes (concat (map (to_hex 2) l)).
Proof. induction l as [|x l IH]; [constructor|]. cbn [map concat]. apply Forall_app. split; [apply to_hex_bytes | exact IH]. Qed.
Lemma uuid_bytes d1 d2 d3 d4 : bytes (uuid_string d1 d2 d3 d4).
Proof.
  unfold uuid_string, bytes.
  repeat match goal with |- Forall _ (_ ++ _) => apply Forall_app; split end;
    try apply to_hex_bytes; try apply hex_list_bytes; repeat constructor; unfold is_byte; lia.
Qed.

(** ** The schema *)

Section Schema.
  Variable order : nat -> list nat.
  Variable fields : list (Z * kind).
  Let sch := qt_schema order fields.

  Lemma kind_fields k : md_fields (msg_at sch (index k)) = number_from 1 (field_types k).
  Proof. destruct k; reflexivity. Qed.
  Lemma user_fields : md_fields (msg_at sch user_message)
    = map (fun p => mkField (fst p) (FSing (EM (index (snd p))))) fields.
  Proof. reflexivity. Qed.

  Lemma number_from_types l : forall n, map f_ty (number_from n l) = l.
  Proof. induction l as [|ty l IH]; intro n; [reflexivity|]. cbn [number_from map f_ty]. now rewrite IH. Qed.

  Definition rank (m : nat) : nat :=
    (if Nat.eqb m user_message then 3
     else if existsb (Nat.eqb m) (map index [KDateTime; KRect; KRectF; KQuaternion]) then 2 else 1)%nat.

  Lemma rank_user : rank user_message = 3%nat.
  Proof. reflexivity. Qed.
  Lemma rank_kind k : (rank (index k) < 3)%nat.
  Proof. destruct k; cbn; lia. Qed.

  Lemma qt_acyclic : acyclic sch.
  Proof.
    exists rank. intros m f m' I T.
    destruct (Nat.lt_ge_cases m 22) as [L|L].
    - assert (E : exists k, m = index k).
      { clear -L. exists (nth m all_kinds KUrl). do 22 (destruct m as [|m]; [reflexivity|]). lia. }
      destruct E as [k ->]. rewrite kind_fields in I.
      apply (in_map f_ty) in I. rewrite number_from_types, T in I.
      destruct k; cbn in I; repeat (destruct I as [I|I]; [try discriminate I; injection I as <-; cbn; lia|]);
        contradiction.
    - destruct (Nat.eq_dec m 22) as [->|N].
      + change (md_fields (msg_at sch 22)) with (md_fields (msg_at sch user_message)) in I.
        rewrite user_fields in I. apply in_map_iff in I. destruct I as ((num & k) & <- & _).
        cbn [f_ty snd] in T. injection T as <-. change 22%nat with user_message. rewrite rank_user. apply rank_kind.
      + unfold msg_at in I. rewrite nth_overflow in I; [destruct I|].
        unfold sch, qt_schema. rewrite app_length, map_length. cbn [length all_kinds]. lia.
  Qed.
End Schema.

(** ** Conversions *)

Section Conversions.
  Variables Url Image : Type.
  Variable url_string : Url -> list Z.
  Variable url_parse : list Z -> Url.
  Variable png_save : Image -> list Z.
  Variable image_load : list Z -> list Z -> Image.
  Variable to_rgb : Z -> Z * Z * Z * Z -> Z * Z * Z * Z.
  Variable sch : schema.
  Hypothesis library_fields : forall k, md_fields (msg_at sch (index k)) = number_from 1 (field_types k).
  Local Notation qtval := (qtval Url Image).
  Local Notation to_message := (to_message Url Image url_string png_save to_rgb).
  Local Notation of_message := (of_message Url Image url_parse image_load).
  Local Notation faithful := (faithful url_string url_parse png_save image_load).
  Local Notation kind_of := (kind_of Url Image).

  Definition typed (k : kind) (fs : list value) : Prop :=
    Forall2 (fun ty x => val_ok sch ty x) (field_types k) fs.

  Lemma typed_object k fs : typed k fs <-> object_ok sch (index k) fs.
  Proof.
    rewrite object_ok_spec. rewrite library_fields. unfold typed.
    generalize (field_types k) as l. generalize 1 as n. intros n l. revert n fs.
    induction l as [|ty l IH]; intros n fs; cbn [number_from]; split; intro H; inversion H; subst; constructor; auto;
      eapply IH; eauto.
  Qed.

  Lemma int_op_ok z : in_s 32 z -> int_op z = Ok z.
  Proof.
    unfold in_s, int_op. change (2 ^ (32 - 1)) with (2 ^ 31). intros [A B].
    apply Z.leb_le in A. apply Z.ltb_lt in B. now rewrite A, B.
  Qed.

  Lemma byte_range b : in_u 8 b -> is_byte b.
  Proof. unfold in_u, is_byte. lia. Qed.

  Lemma pack_back a r g b : in_u 8 a -> in_u 8 r -> in_u 8 g -> in_u 8 b ->
    let c := (a * 257 / 256) * 2 ^ 24 + (r * 257 / 256) * 2 ^ 16 + (g * 257 / 256) * 2 ^ 8 + b * 257 / 256 in
    in_u 32 c /\ (c / 2 ^ 24) mod 256 = a /\ (c / 2 ^ 16) mod 256 = r /\ (c / 2 ^ 8) mod 256 = g /\ c mod 256 = b.
  Proof.
    unfold in_u. change (2 ^ 8) with 256. intros A R G B.
    assert (D : forall x, 0 <= x < 256 -> x * 257 / 256 = x) by (intros x X; apply (div_eq _ _ _ x); lia).
    rewrite !D by lia. cbv zeta. change (2 ^ 24) with 16777216. change (2 ^ 16) with 65536.
    change (2 ^ 32) with 4294967296. set (c := a * 16777216 + r * 65536 + g * 256 + b).
    split; [unfold c; lia|].
    assert (M : forall x q z, 0 <= z < 256 -> x = q * 256 + z -> x mod 256 = z).
    { intros x q z Z E. symmetry. apply (Z.mod_unique x 256 q z); lia. }
    split; [rewrite (div_eq c 16777216 a (r * 65536 + g * 256 + b)) by (unfold c; lia); apply Z.mod_small; lia|].
    split; [rewrite (div_eq c 65536 (a * 256 + r) (g * 256 + b)) by (unfold c; lia); apply (M _ a); lia|].
    split; [rewrite (div_eq c 256 (a * 65536 + r * 256 + g) b) by (unfold c; lia); apply (M _ (a * 256 + r)); lia|].
    apply (M _ (a * 65536 + r * 256 + g)); unfold c; lia.
  Qed.

  Ltac member := cbn [val_ok elem_ok every scalar_ok num text]; auto.

  Lemma point_list_ok k P l : (k = KPoint /\ P = in_s 32) \/ (k = KPointF /\ P = in_u 64) ->
    Forall (fun p => P (fst p) /\ P (snd p)) l ->
    val_ok sch (FRep (EM (index k))) (VList (map (fun p => VMsg [num (fst p); num (snd p)]) l)).
  Proof.
    intros C F. cbn [val_ok]. apply every_Forall. apply Forall_forall. intros x I. apply in_map_iff in I.
    destruct I as (p & <- & I). rewrite Forall_forall in F. destruct (F p I) as [F1 F2].
    destruct C as [[-> ->]|[-> ->]].
    - apply (typed_object KPoint). constructor; [exact F1|]. constructor; [exact F2|]. constructor.
    - apply (typed_object KPointF). constructor; [exact F1|]. constructor; [exact F2|]. constructor.
  Qed.

  Lemma points_drop (l : list (Z * Z)) :
    drop_nulls (VList (map (fun p => VMsg [num (fst p); num (snd p)]) l))
    = VList (map (fun p => VMsg [num (fst p); num (snd p)]) l).
  Proof.
    cbn [drop_nulls]. f_equal. induction l as [|p l IH]; [reflexivity|].
    cbn [map flat_map drop_nulls app num]. now rewrite IH.
  Qed.

  Lemma to_message_ok v : faithful v ->
    exists fs, to_message v = Ok fs /\ object_ok sch (index (kind_of v)) fs /\ map drop_nulls fs = fs.
  Proof.
    intro F. destruct v; cbn [QtTypesSpec.faithful] in F; cbn [QtTypesModel.to_message QtTypesModel.kind_of].
    - eexists. split; [reflexivity|]. split; [|reflexivity]. apply typed_object.
      constructor; [|constructor]. split; [exact (proj1 F)|discriminate].
    - eexists. split; [reflexivity|]. split; [|reflexivity]. apply typed_object.
      constructor; [|constructor]. split; [|discriminate]. unfold in_u in F.
      pose proof (Z.div_mod c 256 ltac:(lia)). pose proof (Z.mod_pos_bound c 256 ltac:(lia)).
      constructor; [|constructor; [|constructor]]; unfold is_byte; lia.
    - eexists. split; [reflexivity|]. split; [|reflexivity]. apply typed_object.
      constructor; [|constructor]. split; [|discriminate]. destruct F as (F1 & F2 & F3 & F4 & F5). now apply uuid_bytes.
    - eexists. split; [reflexivity|]. split; [|reflexivity]. apply typed_object.
      constructor; [|constructor]. cbn [val_ok elem_ok num scalar_ok].
      unfold msecsSinceStartOfDay; destruct F as [F N]; destruct (Z.eqb_spec mds nullTime); unfold in_s in *; lia.
    - pose proof (date_parts_range jd) as R. destruct (date_parts jd) as [[y m] d]. destruct R as (R1 & R2 & R3).
      eexists. split; [reflexivity|]. split; [|reflexivity]. apply typed_object.
      constructor; [exact R1|]. constructor; [exact R2|]. constructor; [exact R3|]. constructor.
    - pose proof (date_parts_range jd) as R. destruct (date_parts jd) as [[y m] d]. destruct R as (R1 & R2 & R3).
      destruct F as (-> & J & T).
      eexists. split; [reflexivity|]. split; [|reflexivity]. apply typed_object.
      constructor; [|constructor; [|constructor]]; cbn [val_ok].
      + apply (typed_object KDate). constructor; [exact R1|]. constructor; [exact R2|]. constructor; [exact R3|]. constructor.
      + apply (typed_object KTime). constructor; [|constructor]. cbn [val_ok elem_ok num scalar_ok].
        unfold msecsSinceStartOfDay. destruct (Z.eqb_spec mds nullTime); unfold in_s; lia.
    - destruct F as [F1 F2]. eexists. split; [reflexivity|]. split; [|reflexivity]. apply typed_object.
      constructor; [exact F1|]. constructor; [exact F2|]. constructor.
    - destruct F as [F1 F2]. eexists. split; [reflexivity|]. split; [|reflexivity]. apply typed_object.
      constructor; [exact F1|]. constructor; [exact F2|]. constructor.
    - destruct F as [F1 F2]. eexists. split; [reflexivity|]. split; [|reflexivity]. apply typed_object.
      constructor; [exact F1|]. constructor; [exact F2|]. constructor.
    - destruct F as [F1 F2]. eexists. split; [reflexivity|]. split; [|reflexivity]. apply typed_object.
      constructor; [exact F1|]. constructor; [exact F2|]. constructor.
    - destruct F as [(A1 & A2 & A3 & A4 & A5) (B1 & B2 & B3 & B4 & B5)].
      rewrite (int_op_ok (x2 - x1) A4). cbn [bind]. rewrite (int_op_ok _ A5). cbn [bind].
      rewrite (int_op_ok (y2 - y1) B4). cbn [bind]. rewrite (int_op_ok _ B5). cbn [bind].
      eexists. split; [reflexivity|]. split; [|reflexivity]. apply typed_object.
      constructor; [|constructor; [|constructor]]; cbn [val_ok].
      + apply (typed_object KPoint). constructor; [exact A1|]. constructor; [exact B1|]. constructor.
      + apply (typed_object KSize). constructor; [exact A5|]. constructor; [exact B5|]. constructor.
    - destruct F as (F1 & F2 & F3 & F4). eexists. split; [reflexivity|]. split; [|reflexivity]. apply typed_object.
      constructor; [|constructor; [|constructor]]; cbn [val_ok].
      + apply (typed_object KPointF). constructor; [exact F1|]. constructor; [exact F2|]. constructor.
      + apply (typed_object KSizeF). constructor; [exact F3|]. constructor; [exact F4|]. constructor.
    - eexists. split; [reflexivity|]. split.
      + apply typed_object. constructor; [|constructor]. apply (point_list_ok KPoint (in_s 32)); auto.
      + cbn [map]. now rewrite points_drop.
    - eexists. split; [reflexivity|]. split.
      + apply typed_object. constructor; [|constructor]. apply (point_list_ok KPointF (in_u 64)); auto.
      + cbn [map]. now rewrite points_drop.
    - destruct F as [-> F]. eexists. split; [reflexivity|]. split; [|reflexivity]. apply typed_object.
      constructor; [|constructor]. cbn [val_ok elem_ok num scalar_ok rgba].
      repeat match goal with H : Forall _ (_ :: _) |- _ => inversion H; clear H; subst end.
      repeat match goal with H : exists b, _ |- _ => destruct H as (? & ? & ->) end.
      cbn beta iota. now apply pack_back.
    - destruct F as [L F]. eexists. split; [reflexivity|]. split; [|unfold matrix_rows; rewrite !map_map; reflexivity].
      apply typed_object.
      do 16 (destruct data as [|? data]; [discriminate L|]). destruct data; [|discriminate L].
      repeat match goal with H : Forall _ (_ :: _) |- _ => inversion H; clear H; subst end.
      cbn. repeat (constructor; [assumption|]). constructor.
    - destruct F as [F1 F2]. eexists. split; [reflexivity|]. split; [|reflexivity]. apply typed_object.
      repeat (constructor; [assumption|]). constructor.
    - destruct F as (F1 & F2 & F3). eexists. split; [reflexivity|]. split; [|reflexivity]. apply typed_object.
      repeat (constructor; [assumption|]). constructor.
    - destruct F as (F1 & F2 & F3 & F4). eexists. split; [reflexivity|]. split; [|reflexivity]. apply typed_object.
      repeat (constructor; [assumption|]). constructor.
    - eexists. split; [reflexivity|]. split; [|reflexivity]. apply typed_object.
      repeat match goal with H : Forall _ (_ :: _) |- _ => inversion H; clear H; subst end.
      repeat (constructor; [assumption|]). constructor.
    - destruct F as (F1 & F2 & F3 & F4). eexists. split; [reflexivity|]. split; [|reflexivity]. apply typed_object.
      constructor; [assumption|]. constructor; [|constructor]. cbn [val_ok].
      apply (typed_object KVector3D). repeat (constructor; [assumption|]). constructor.
    - destruct F as [F1 F2]. eexists. split; [reflexivity|]. split; [|reflexivity]. apply typed_object.
      constructor; [split; [exact F1 | discriminate]|]. constructor; [|constructor].
      split; [|discriminate]. repeat constructor; unfold is_byte; lia.
  Qed.

  (** What survives of a field when only the value is the same. *)
  Lemma canon_num t a b : is_blob t = false -> t <> TFloat -> t <> TDouble ->
    canon_field sch (FSing (ES t)) a = canon_field sch (FSing (ES t)) b ->
    num_of (scalar_of a) = num_of (scalar_of b).
  Proof.
    intros B N1 N2 H. cbn [canon_field] in H. rewrite !canon_elem_scalar in H.
    unfold canon_scalar in H. rewrite B in H. destruct t; try congruence; cbn [collapse] in H; congruence.
  Qed.

  Lemma canon_bits w a b :
    (if a mod 2 ^ (w - 1) =? 0 then 0 else a) = (if b mod 2 ^ (w - 1) =? 0 then 0 else b) -> same_float w a b.
  Proof.
    unfold same_float. intro H.
    destruct (Z.eqb_spec (a mod 2 ^ (w - 1)) 0) as [A|A], (Z.eqb_spec (b mod 2 ^ (w - 1)) 0) as [B|B]; auto.
    - subst b. exfalso. apply B. apply Z.mod_0_l. intro E. rewrite E in B. now rewrite Zmod_0_r in B.
    - subst a. exfalso. apply A. apply Z.mod_0_l. intro E. rewrite E in A. now rewrite Zmod_0_r in A.
  Qed.

  Lemma canon_float a b : canon_field sch (FSing (ES TFloat)) a = canon_field sch (FSing (ES TFloat)) b ->
    same_float 32 (num_of (scalar_of a)) (num_of (scalar_of b)).
  Proof.
    intro H. cbn [canon_field] in H. rewrite !canon_elem_scalar in H. unfold canon_scalar in H.
    cbn [is_blob collapse] in H. injection H as H. now apply canon_bits.
  Qed.
  Lemma canon_double a b : canon_field sch (FSing (ES TDouble)) a = canon_field sch (FSing (ES TDouble)) b ->
    same_float 64 (num_of (scalar_of a)) (num_of (scalar_of b)).
  Proof.
    intro H. cbn [canon_field] in H. rewrite !canon_elem_scalar in H. unfold canon_scalar in H.
    cbn [is_blob collapse] in H. injection H as H. now apply canon_bits.
  Qed.
  Lemma canon_text t a b : is_blob t = true -> canon_field sch (FSing (ES t)) a = canon_field sch (FSing (ES t)) b ->
    blob_of (scalar_of a) = blob_of (scalar_of b).
  Proof.
    intros B H. cbn [canon_field] in H. rewrite !canon_elem_scalar in H. unfold canon_scalar in H. rewrite B in H.
    cbn [collapse] in H. congruence.
  Qed.

  Lemma typed_nth k fs i : typed k fs -> (i < length (field_types k))%nat ->
    val_ok sch (nth i (field_types k) (FSing (ES TInt32))) (nth i fs VNull).
  Proof.
    unfold typed. generalize (field_types k) as l. intros l H. revert i.
    induction H as [|ty x l fs Hx H IH]; intros [|i] L; cbn [length nth] in *; auto; try lia. apply IH. lia.
  Qed.

  Lemma same_at k r fs i : object_ok sch (index k) r -> object_ok sch (index k) fs ->
    same sch (index k) r fs -> (i < length (field_types k))%nat ->
    canon_field sch (nth i (field_types k) (FSing (ES TInt32))) (nth i r VNull)
    = canon_field sch (nth i (field_types k) (FSing (ES TInt32))) (nth i fs VNull).
  Proof.
    intros Or Of Sm L.
    assert (Lf : length (md_fields (msg_at sch (index k))) = length (field_types k)).
    { rewrite library_fields. rewrite <- (number_from_types (field_types k) 1) at 2. now rewrite map_length. }
    pose proof (same_nth sch (index k) r fs i (object_ok_length sch _ _ Or) (object_ok_length sch _ _ Of) Sm ltac:(lia)) as H.
    unfold field_at in H. replace (f_ty (nth i (md_fields (msg_at sch (index k))) dummy_field))
      with (nth i (field_types k) (FSing (ES TInt32))) in H; [exact H|].
    rewrite library_fields. rewrite <- (number_from_types (field_types k) 1) at 1.
    change (FSing (ES TInt32)) with (f_ty dummy_field). now rewrite map_nth.
  Qed.

  (** Nested messages: at most the difference between default and not set. *)
  Lemma same_nested k r fs i j gs : object_ok sch (index k) r -> object_ok sch (index k) fs ->
    same sch (index k) r fs -> (i < length (field_types k))%nat ->
    nth i (field_types k) (FSing (ES TInt32)) = FSing (EM (index j)) -> nth i fs VNull = VMsg gs ->
    object_ok sch (index j) (nested_at i j r) /\ object_ok sch (index j) gs /\ same sch (index j) (nested_at i j r) gs.
  Proof.
    intros Or Of Sm L T Hf. pose proof (same_at k r fs i Or Of Sm L) as C. rewrite T in C.
    apply typed_object in Or, Of. pose proof (typed_nth k r i Or L) as Tr. pose proof (typed_nth k fs i Of L) as Tf.
    rewrite T in Tr, Tf. cbn [val_ok] in Tr, Tf. rewrite Hf in *.
    pose proof (proj1 (same_message sch (index j) (nth i r VNull) (VMsg gs) Tr Tf) C) as S. cbn [obj_of] in S.
    assert (D : default_obj sch (index j) = map default_field (field_types j)).
    { unfold default_obj. rewrite library_fields. generalize (field_types j) as l. generalize 1 as n.
      intros n l. revert n. induction l as [|ty l IH]; intro n; cbn [number_from map f_ty]; [reflexivity|]. now rewrite IH. }
    unfold nested_at. unfold obj_of in S. rewrite D in S.
    destruct (nth i r VNull); try contradiction; (split; [|split; [exact Tf | exact S]]).
    - rewrite <- D. apply default_ok.
    - exact Tr.
  Qed.

  (** The points of a polygon. *)
  Lemma points_back (Q : Z -> Z -> Prop) k l xs :
    (forall a b gs, canon_obj sch (index k) gs = canon_obj sch (index k) [num a; num b] ->
       Q (number_at 0 gs) a /\ Q (number_at 1 gs) b) ->
    map (canon_elem sch (EM (index k))) xs =
    map (canon_elem sch (EM (index k))) (map (fun p => VMsg [num (fst p); num (snd p)]) l) ->
    exists ps, points_of xs = Ok ps /\ Forall2 (fun p q => Q (fst p) (fst q) /\ Q (snd p) (snd q)) ps l.
  Proof.
    intro HQ. revert l. induction xs as [|x xs IH]; intros [|p l] H; try discriminate H.
    - exists []. split; [reflexivity | constructor].
    - cbn [map] in H. injection H as H1 H2. destruct (IH l H2) as (ps & P & F).
      destruct x; try discriminate H1. rewrite !canon_elem_msg in H1. injection H1 as H1.
      cbn [points_of]. rewrite P. cbn [bind]. eexists. split; [reflexivity|]. constructor; [|exact F].
      cbn [fst snd]. now apply HQ.
  Qed.

  Lemma point_canon_int a b gs : canon_obj sch (index KPoint) gs = canon_obj sch (index KPoint) [num a; num b] ->
    number_at 0 gs = a /\ number_at 1 gs = b.
  Proof.
    rewrite !canon_obj_spec. rewrite library_fields. cbn [field_types number_from canon_fields f_ty num].
    destruct gs as [|x [|y gs]]; cbn [canon_fields]; intro H; try discriminate H.
    injection H as H1 H2. split; [apply (canon_num TSInt32 x (num a)) | apply (canon_num TSInt32 y (num b))]; auto; discriminate.
  Qed.
  Lemma point_canon_float a b gs : canon_obj sch (index KPointF) gs = canon_obj sch (index KPointF) [num a; num b] ->
    same_float 64 (number_at 0 gs) a /\ same_float 64 (number_at 1 gs) b.
  Proof.
    rewrite !canon_obj_spec. rewrite library_fields. cbn [field_types number_from canon_fields f_ty num].
    destruct gs as [|x [|y gs]]; cbn [canon_fields]; intro H; try discriminate H.
    injection H as H1 H2. split; [apply (canon_double x (num a)) | apply (canon_double y (num b))]; auto.
  Qed.

  Ltac field Or Of Sm i name :=
    pose proof (same_at _ _ _ i Or Of Sm ltac:(cbn; lia)) as name; cbn [nth field_types repeat] in name.

  Lemma of_message_back v fs r : faithful v -> to_message v = Ok fs ->
    object_ok sch (index (kind_of v)) r -> same sch (index (kind_of v)) r fs ->
    exists w, of_message (kind_of v) r = Ok w /\ same_qt w v.
  Proof.
    intros F T Or Sm.
    assert (Of : object_ok sch (index (kind_of v)) fs).
    { destruct (to_message_ok v F) as (fs' & T' & O & _). rewrite T in T'. injection T' as ->. exact O. }
    destruct v; cbn [QtTypesSpec.faithful] in F; cbn [QtTypesModel.to_message QtTypesModel.kind_of] in *.
    - injection T as <-. field Or Of Sm 0%nat C0. cbn [QtTypesModel.of_message]. eexists. split; [reflexivity|].
      unfold text_at. rewrite (canon_text TString _ _ eq_refl C0). cbn [scalar_of blob_of text].
      rewrite (proj2 F). constructor.
    - injection T as <-. field Or Of Sm 0%nat C0. cbn [QtTypesModel.of_message]. eexists. split; [reflexivity|].
      unfold text_at. rewrite (canon_text TBytes _ _ eq_refl C0). cbn [scalar_of blob_of text read_char].
      replace (c / 256 * 256 + c mod 256) with c by (pose proof (Z.div_mod c 256 ltac:(lia)); lia). constructor.
    - injection T as <-. field Or Of Sm 0%nat C0. cbn [QtTypesModel.of_message].
      unfold text_at. rewrite (canon_text TString _ _ eq_refl C0). cbn [scalar_of blob_of text].
      destruct F as (F1 & F2 & F3 & F4 & F5). rewrite uuid_back by assumption.
      eexists. split; [reflexivity|]. constructor.
    - injection T as <-. field Or Of Sm 0%nat C0. cbn [QtTypesModel.of_message]. eexists. split; [reflexivity|].
      unfold number_at. rewrite (canon_num TSInt32 _ _ eq_refl ltac:(discriminate) ltac:(discriminate) C0).
      cbn [scalar_of num_of num]. unfold fromMSecsSinceStartOfDay, msecsSinceStartOfDay.
      destruct (Z.eqb_spec mds nullTime) as [E|_]; [now destruct F|]. constructor.
    - pose proof (date_back jd) as B. destruct (date_parts jd) as [[y m] d] eqn:P.
      injection T as <-. field Or Of Sm 0%nat C0. field Or Of Sm 1%nat C1. field Or Of Sm 2%nat C2.
      cbn [QtTypesModel.of_message]. eexists. split; [reflexivity|]. unfold number_at.
      rewrite (canon_num TSInt32 _ _ eq_refl ltac:(discriminate) ltac:(discriminate) C0).
      rewrite (canon_num TSInt32 _ _ eq_refl ltac:(discriminate) ltac:(discriminate) C1).
      rewrite (canon_num TSInt32 _ _ eq_refl ltac:(discriminate) ltac:(discriminate) C2).
      cbn [scalar_of num_of num]. rewrite B; [constructor|].
      destruct F as [F|F]; [left|now right]. unfold date_valid, minJd, maxJd. apply andb_true_intro. split; apply Z.leb_le; lia.
    - pose proof (date_back jd) as B. destruct (date_parts jd) as [[y m] d] eqn:P. destruct F as (-> & J & M).
      injection T as <-.
      destruct (same_nested KDateTime r _ 0%nat KDate _ Or Of Sm ltac:(cbn; lia) eq_refl eq_refl) as (Or0 & Of0 & Sm0).
      destruct (same_nested KDateTime r _ 1%nat KTime _ Or Of Sm ltac:(cbn; lia) eq_refl eq_refl) as (Or1 & Of1 & Sm1).
      field Or0 Of0 Sm0 0%nat C0. field Or0 Of0 Sm0 1%nat C1. field Or0 Of0 Sm0 2%nat C2. field Or1 Of1 Sm1 0%nat C3.
      cbn [QtTypesModel.of_message]. unfold number_at.
      rewrite (canon_num TSInt32 _ _ eq_refl ltac:(discriminate) ltac:(discriminate) C0).
      rewrite (canon_num TSInt32 _ _ eq_refl ltac:(discriminate) ltac:(discriminate) C1).
      rewrite (canon_num TSInt32 _ _ eq_refl ltac:(discriminate) ltac:(discriminate) C2).
      rewrite (canon_num TSInt32 _ _ eq_refl ltac:(discriminate) ltac:(discriminate) C3).
      cbn [scalar_of num_of num].
      assert (V : date_valid jd = true) by (unfold date_valid, minJd, maxJd; apply andb_true_intro; split; apply Z.leb_le; lia).
      rewrite B by now left. unfold fromMSecsSinceStartOfDay, msecsSinceStartOfDay, datetime_of.
      unfold nullTime. replace (mds =? -1) with false by (symmetry; apply Z.eqb_neq; lia).
      rewrite V. unfold time_valid. replace (0 <=? mds) with true by (symmetry; apply Z.leb_le; lia).
      replace (mds <? 86400000) with true by (symmetry; apply Z.ltb_lt; lia). cbn [andb negb].
      eexists. split; [reflexivity|]. constructor.
    - injection T as <-. field Or Of Sm 0%nat C0. field Or Of Sm 1%nat C1. cbn [QtTypesModel.of_message].
      eexists. split; [reflexivity|]. unfold number_at.
      rewrite (canon_num TSInt32 _ _ eq_refl ltac:(discriminate) ltac:(discriminate) C0).
      rewrite (canon_num TSInt32 _ _ eq_refl ltac:(discriminate) ltac:(discriminate) C1). constructor.
    - injection T as <-. field Or Of Sm 0%nat C0. field Or Of Sm 1%nat C1. cbn [QtTypesModel.of_message].
      eexists. split; [reflexivity|]. constructor; [exact (canon_double _ _ C0) | exact (canon_double _ _ C1)].
    - injection T as <-. field Or Of Sm 0%nat C0. field Or Of Sm 1%nat C1. cbn [QtTypesModel.of_message].
      eexists. split; [reflexivity|]. unfold number_at.
      rewrite (canon_num TSInt32 _ _ eq_refl ltac:(discriminate) ltac:(discriminate) C0).
      rewrite (canon_num TSInt32 _ _ eq_refl ltac:(discriminate) ltac:(discriminate) C1). constructor.
    - injection T as <-. field Or Of Sm 0%nat C0. field Or Of Sm 1%nat C1. cbn [QtTypesModel.of_message].
      eexists. split; [reflexivity|]. constructor; [exact (canon_double _ _ C0) | exact (canon_double _ _ C1)].
    - destruct F as [(A1 & A2 & A3 & A4 & A5) (B1 & B2 & B3 & B4 & B5)].
      rewrite (int_op_ok (x2 - x1) A4) in T. cbn [bind] in T. rewrite (int_op_ok _ A5) in T. cbn [bind] in T.
      rewrite (int_op_ok (y2 - y1) B4) in T. cbn [bind] in T. rewrite (int_op_ok _ B5) in T. cbn [bind] in T.
      injection T as <-.
      destruct (same_nested KRect r _ 0%nat KPoint _ Or Of Sm ltac:(cbn; lia) eq_refl eq_refl) as (Or0 & Of0 & Sm0).
      destruct (same_nested KRect r _ 1%nat KSize _ Or Of Sm ltac:(cbn; lia) eq_refl eq_refl) as (Or1 & Of1 & Sm1).
      field Or0 Of0 Sm0 0%nat C0. field Or0 Of0 Sm0 1%nat C1. field Or1 Of1 Sm1 0%nat C2. field Or1 Of1 Sm1 1%nat C3.
      cbn [QtTypesModel.of_message]. unfold number_at.
      rewrite (canon_num TSInt32 _ _ eq_refl ltac:(discriminate) ltac:(discriminate) C0).
      rewrite (canon_num TSInt32 _ _ eq_refl ltac:(discriminate) ltac:(discriminate) C1).
      rewrite (canon_num TSInt32 _ _ eq_refl ltac:(discriminate) ltac:(discriminate) C2).
      rewrite (canon_num TSInt32 _ _ eq_refl ltac:(discriminate) ltac:(discriminate) C3).
      cbn [scalar_of num_of num].
      replace (x1 + (x2 - x1 + 1)) with (x2 + 1) by lia. replace (y1 + (y2 - y1 + 1)) with (y2 + 1) by lia.
      rewrite (int_op_ok (x2 + 1)) by (unfold in_s in *; lia). cbn [bind].
      replace (x2 + 1 - 1) with x2 by lia. rewrite (int_op_ok x2 A2). cbn [bind].
      rewrite (int_op_ok (y2 + 1)) by (unfold in_s in *; lia). cbn [bind].
      replace (y2 + 1 - 1) with y2 by lia. rewrite (int_op_ok y2 B2). cbn [bind].
      eexists. split; [reflexivity|]. constructor.
    - injection T as <-.
      destruct (same_nested KRectF r _ 0%nat KPointF _ Or Of Sm ltac:(cbn; lia) eq_refl eq_refl) as (Or0 & Of0 & Sm0).
      destruct (same_nested KRectF r _ 1%nat KSizeF _ Or Of Sm ltac:(cbn; lia) eq_refl eq_refl) as (Or1 & Of1 & Sm1).
      field Or0 Of0 Sm0 0%nat C0. field Or0 Of0 Sm0 1%nat C1. field Or1 Of1 Sm1 0%nat C2. field Or1 Of1 Sm1 1%nat C3.
      cbn [QtTypesModel.of_message]. eexists. split; [reflexivity|].
      constructor; [exact (canon_double _ _ C0) | exact (canon_double _ _ C1) | exact (canon_double _ _ C2) | exact (canon_double _ _ C3)].
    - injection T as <-. field Or Of Sm 0%nat C0. cbn [canon_field] in C0. cbn [QtTypesModel.of_message].
      assert (C : map (canon_elem sch (EM (index KPoint))) (list_of (nth 0 r VNull))
                  = map (canon_elem sch (EM (index KPoint))) (map (fun p => VMsg [num (fst p); num (snd p)]) points)).
      { apply typed_object in Or. pose proof (typed_nth KPolygon r 0 Or ltac:(cbn; lia)) as V. cbn [nth field_types] in V.
        destruct (nth 0 r VNull); cbn [val_ok] in V; try contradiction. cbn [list_of canon_field] in *. congruence. }
      destruct (points_back eq KPoint points _ point_canon_int C) as (ps & -> & P). cbn [bind].
      eexists. split; [reflexivity|]. replace ps with points; [constructor|].
      clear - P. induction P as [|[a b] [c d] ps qs [E1 E2] P IH]; [reflexivity|]. cbn [fst snd] in E1, E2. congruence.
    - injection T as <-. field Or Of Sm 0%nat C0. cbn [canon_field] in C0. cbn [QtTypesModel.of_message].
      assert (C : map (canon_elem sch (EM (index KPointF))) (list_of (nth 0 r VNull))
                  = map (canon_elem sch (EM (index KPointF))) (map (fun p => VMsg [num (fst p); num (snd p)]) points)).
      { apply typed_object in Or. pose proof (typed_nth KPolygonF r 0 Or ltac:(cbn; lia)) as V. cbn [nth field_types] in V.
        destruct (nth 0 r VNull); cbn [val_ok] in V; try contradiction. cbn [list_of canon_field] in *. congruence. }
      destruct (points_back (same_float 64) KPointF points _ point_canon_float C) as (ps & -> & P). cbn [bind].
      eexists. split; [reflexivity|]. now constructor.
    - injection T as <-. field Or Of Sm 0%nat C0. cbn [QtTypesModel.of_message]. eexists. split; [reflexivity|].
      unfold number_at. rewrite (canon_num TUInt32 _ _ eq_refl ltac:(discriminate) ltac:(discriminate) C0).
      cbn [scalar_of num_of num]. destruct F as [-> F].
      repeat match goal with H : Forall _ (_ :: _) |- _ => inversion H; clear H; subst end.
      repeat match goal with H : exists b, _ |- _ => destruct H as (? & ? & ->) end.
      cbn [rgba]. unfold fromRgba.
      match goal with H1 : in_u 8 ?a, H2 : in_u 8 ?b, H3 : in_u 8 ?c, H4 : in_u 8 ?d |- same_qt _ (QColor _ _ _ (?a * 257) (?b * 257) (?c * 257) (?d * 257)) =>
        destruct (pack_back a b c d H1 H2 H3 H4) as (_ & E1 & E2 & E3 & E4); rewrite E1, E2, E3, E4 end.
      constructor.
    - injection T as <-. cbn [QtTypesModel.of_message]. eexists. split; [reflexivity|]. constructor.
      destruct F as [L F]. clear F.
      do 16 (destruct data as [|? data]; [discriminate L|]). destruct data; [|discriminate L].
      cbn [seq map matrix_columns matrix_rows nth] in *.
      assert (X : forall i, (i < 16)%nat -> same_float 32 (number_at i r) (number_at i (map num (matrix_rows [z; z0; z1; z2; z3; z4; z5; z6; z7; z8; z9; z10; z11; z12; z13; z14])))).
      { intros i I. apply canon_float. pose proof (same_at _ _ _ i Or Of Sm ltac:(cbn; lia)) as C.
        replace (nth i (field_types KMatrix4x4) (FSing (ES TInt32))) with (FSing (ES TFloat)) in C; [exact C|].
        do 16 (destruct i as [|i]; [reflexivity|]). lia. }
      repeat (constructor; [match goal with |- same_float 32 (number_at ?i _) _ => exact (X i ltac:(lia)) end|]). constructor.
    - injection T as <-. field Or Of Sm 0%nat C0. field Or Of Sm 1%nat C1. cbn [QtTypesModel.of_message].
      eexists. split; [reflexivity|]. constructor; [exact (canon_float _ _ C0) | exact (canon_float _ _ C1)].
    - injection T as <-. field Or Of Sm 0%nat C0. field Or Of Sm 1%nat C1. field Or Of Sm 2%nat C2. cbn [QtTypesModel.of_message].
      eexists. split; [reflexivity|]. constructor; [exact (canon_float _ _ C0) | exact (canon_float _ _ C1) | exact (canon_float _ _ C2)].
    - injection T as <-. field Or Of Sm 0%nat C0. field Or Of Sm 1%nat C1. field Or Of Sm 2%nat C2. field Or Of Sm 3%nat C3.
      cbn [QtTypesModel.of_message]. eexists. split; [reflexivity|].
      constructor; [exact (canon_float _ _ C0) | exact (canon_float _ _ C1) | exact (canon_float _ _ C2) | exact (canon_float _ _ C3)].
    - injection T as <-. field Or Of Sm 0%nat C0. field Or Of Sm 1%nat C1. field Or Of Sm 2%nat C2. field Or Of Sm 3%nat C3.
      field Or Of Sm 4%nat C4. field Or Of Sm 5%nat C5. field Or Of Sm 6%nat C6. field Or Of Sm 7%nat C7. field Or Of Sm 8%nat C8.
      cbn [QtTypesModel.of_message]. eexists. split; [reflexivity|].
      constructor; [exact (canon_double _ _ C0) | exact (canon_double _ _ C1) | exact (canon_double _ _ C2)
        | exact (canon_double _ _ C3) | exact (canon_double _ _ C4) | exact (canon_double _ _ C5)
        | exact (canon_double _ _ C6) | exact (canon_double _ _ C7) | exact (canon_double _ _ C8)].
    - injection T as <-. field Or Of Sm 0%nat C0.
      destruct (same_nested KQuaternion r _ 1%nat KVector3D _ Or Of Sm ltac:(cbn; lia) eq_refl eq_refl) as (Or1 & Of1 & Sm1).
      field Or1 Of1 Sm1 0%nat C1. field Or1 Of1 Sm1 1%nat C2. field Or1 Of1 Sm1 2%nat C3.
      cbn [QtTypesModel.of_message]. eexists. split; [reflexivity|].
      constructor; [exact (canon_float _ _ C0) | exact (canon_float _ _ C1) | exact (canon_float _ _ C2) | exact (canon_float _ _ C3)].
    - injection T as <-. field Or Of Sm 0%nat C0. field Or Of Sm 1%nat C1. cbn [QtTypesModel.of_message].
      eexists. split; [reflexivity|]. unfold text_at.
      rewrite (canon_text TBytes _ _ eq_refl C0), (canon_text TString _ _ eq_refl C1). cbn [scalar_of blob_of text].
      rewrite (proj2 F). constructor.
  Qed.
End Conversions.

(** ** Messages *)

Section Messages.
  Variables Url Image : Type.
  Variable url_string : Url -> list Z.
  Variable url_parse : list Z -> Url.
  Variable png_save : Image -> list Z.
  Variable image_load : list Z -> list Z -> Image.
  Variable to_rgb : Z -> Z * Z * Z * Z -> Z * Z * Z * Z.
  Variable order : nat -> list nat.
  Variable fields : list (Z * kind).
  Let sch := qt_schema order fields.
  Local Notation qtval := (qtval Url Image).
  Local Notation to_message := (to_message Url Image url_string png_save to_rgb).
  Local Notation of_message := (of_message Url Image url_parse image_load).
  Local Notation faithful := (faithful url_string url_parse png_save image_load).
  Local Notation kind_of := (kind_of Url Image).
  Let to_message_ok := to_message_ok Url Image url_string url_parse png_save image_load to_rgb sch (kind_fields order fields).
  Let of_message_back := of_message_back Url Image url_string url_parse png_save image_load to_rgb sch (kind_fields order fields).

  Variable qt_eq : qtval -> qtval -> bool.
  Local Notation set_nth := (set_nth Url Image).
  Local Notation set_field := (set_field Url Image qt_eq).
  Local Notation qt_serialize := (qt_serialize Url Image url_string png_save to_rgb).
  Local Notation qt_deserialize := (qt_deserialize Url Image url_parse image_load qt_eq).
  Local Notation qt_property := (qt_property Url Image url_parse image_load qt_eq).

  Lemma set_nth_same i v : forall vs, (i < length vs)%nat -> nth_error (set_nth i v vs) i = Some v.
  Proof.
    induction i as [|i IH]; intros [|x vs] L; cbn [length] in L; try lia; cbn; auto. apply IH. lia.
  Qed.
  Lemma set_nth_other i j v : i <> j -> forall vs, nth_error (set_nth i v vs) j = nth_error vs j.
  Proof.
    revert j. induction i as [|i IH]; intros [|j] N [|x vs]; cbn; auto; try congruence.
  Qed.
  Lemma set_nth_length i v : forall vs, length (set_nth i v vs) = length vs.
  Proof. induction i as [|i IH]; intros [|x vs]; cbn; auto. Qed.

  Lemma set_field_length i v vs : length (set_field i v vs) = length vs.
  Proof. unfold QtTypesModel.set_field. destruct (nth_error vs i); auto. destruct (qt_eq _ _); auto using set_nth_length. Qed.
  Lemma set_field_other i j v vs : i <> j -> nth_error (set_field i v vs) j = nth_error vs j.
  Proof.
    intro N. unfold QtTypesModel.set_field. destruct (nth_error vs i); auto. destruct (qt_eq _ _); auto using set_nth_other.
  Qed.

  (** What a field holds after its record [w] was read. *)
  Definition stored (old w x : qtval) : Prop := x = if qt_eq old w then old else w.

  Lemma set_field_same i v vs old : nth_error vs i = Some old ->
    exists x, nth_error (set_field i v vs) i = Some x /\ stored old v x.
  Proof.
    intro H. unfold QtTypesModel.set_field, stored. rewrite H. destruct (qt_eq old v) eqn:E.
    - exists old. auto.
    - exists v. split; [|reflexivity]. apply set_nth_same. apply nth_error_Some. congruence.
  Qed.

  Hypothesis Sch : schema_ok sch.

  Lemma field_number_at i number k : nth_error fields i = Some (number, k) ->
    field_number number /\ find_field (msg_at sch user_message) number = Some i.
  Proof.
    intro H. assert (L : (i < length fields)%nat) by (apply nth_error_Some; congruence).
    assert (Lf : (i < length (md_fields (msg_at sch user_message)))%nat).
    { unfold sch. rewrite user_fields, map_length. exact L. }
    assert (E : field_at sch user_message i = mkField number (FSing (EM (index k)))).
    { unfold field_at, sch. rewrite user_fields.
      apply nth_error_nth. rewrite nth_error_map, H. reflexivity. }
    pose proof (find_field_at sch user_message i Sch Lf) as F. rewrite E in F. cbn [f_num] in F.
    split; [|exact F].
    destruct (msg_at_ok sch user_message Sch) as (_ & F' & _). rewrite Forall_forall in F'.
    specialize (F' (field_at sch user_message i)). rewrite E in F'. unfold field_ok in F'. cbn [f_num] in F'.
    assert (In_ : In (field_at sch user_message i) (md_fields (msg_at sch user_message))) by (unfold field_at; now apply nth_In).
    rewrite E in In_. exact (proj1 (F' In_)).
  Qed.

  (** One record: the message is read back. *)
  Lemma record_parse fuel fuel' i number k fs vals bs pre rest :
    nth_error fields i = Some (number, k) -> object_ok sch (index k) fs -> map drop_nulls fs = fs ->
    serializeObject (serializeMessage fuel sch) number (index k) fs = Ok bs ->
    Zlen (bs ++ rest) <= INT_MAX -> (length bs <= fuel')%nat ->
    (1 < length bs)%nat /\ exists r, object_ok sch (index k) r /\ same sch (index k) r fs /\
    qt_property fuel' order fields (pre ++ bs ++ rest) (cur pre (bs ++ rest)) vals
    = (w <- of_message k r ;; Ok (set_field i w vals, cur (pre ++ bs) rest)).
  Proof.
    intros Hi O D S B L. unfold serializeObject in S.
    destruct (serializeMessage fuel sch (index k) fs) as [body| | |] eqn:Sb; cbn [bind] in S; try discriminate S.
    injection S as <-. destruct (field_number_at i number _ Hi) as [N Fi].
    set (hd := encodeHeader number WLengthDelimitedT) in *. set (pl := prependLengthDelimitedSize body) in *.
    assert (Tag : is_tag number WLengthDelimitedT hd) by (apply encodeHeader_tag; [exact N | unfold WLengthDelimitedT; lia]).
    assert (Bb : Zlen body <= INT_MAX).
    { rewrite !Zlen_app in B. subst pl. unfold prependLengthDelimitedSize in B. rewrite Zlen_app in B.
      pose proof (Zlen_nonneg rest). pose proof (Zlen_nonneg hd).
      pose proof (Zlen_nonneg (serializeVarintCommon (wrapU 32 (Zlen body)))). lia. }
    pose proof (prepend_delimited body Bb) as Dl. fold pl in Dl.
    assert (Lh : (0 < length hd)%nat) by (eapply varint_enc_nonempty; exact Tag).
    assert (Lp : (length body < length pl)%nat).
    { destruct Dl as (len & V & ->). apply varint_enc_nonempty in V. rewrite app_length. lia. }
    rewrite app_length in L.
    split; [rewrite app_length; lia|].
    destruct (round_trip sch Sch fuel fuel' (index k) fs body O Sb Bb ltac:(lia)) as (r & R & _ & Sm).
    rewrite D in Sm.
    assert (Or : object_ok sch (index k) r).
    { destruct (message_write sch Sch fuel _ fs body O Sb Bb) as (g & E & _). apply enc_recs_bytes in E.
      pose proof (loop_read_ok sch false fuel' (index k) body (it_begin body) _ E (default_read_ok sch _)) as Q.
      unfold deserializeMessage in R. rewrite R in Q. exact (proj1 (obj_read_spec sch _ _ Q)). }
    exists r. split; [exact Or|]. split; [exact Sm|]. unfold QtTypesModel.qt_property. rewrite <- !app_assoc.
    rewrite (tag_read_ok number WLengthDelimitedT hd pre (pl ++ rest) N) by (exact Tag || (unfold wire_types, WLengthDelimitedT; cbn; auto)).
    cbn [bind negb]. fold sch. rewrite Fi.
    rewrite (nth_error_nth fields i (0, KUrl) Hi). cbn [snd].
    unfold deserializeObject.
    rewrite (app_assoc pre hd (pl ++ rest)).
    rewrite (delimited_read false body pl (pre ++ hd) rest Dl).
    2: { rewrite <- app_assoc in B. rewrite Zlen_app in B. pose proof (Zlen_nonneg hd). lia. }
    cbn [bind]. rewrite R. cbn [bind]. now rewrite <- app_assoc.
  Qed.

  Lemma record_read fuel fuel' i number k v vals bs pre rest :
    nth_error fields i = Some (number, k) -> kind_of v = k -> faithful v ->
    (fs <- to_message v ;; serializeObject (serializeMessage fuel sch) number (index k) fs) = Ok bs ->
    Zlen (bs ++ rest) <= INT_MAX -> (length bs <= fuel')%nat ->
    (1 < length bs)%nat /\ exists w, same_qt w v /\
    qt_property fuel' order fields (pre ++ bs ++ rest) (cur pre (bs ++ rest)) vals
    = Ok (set_field i w vals, cur (pre ++ bs) rest).
  Proof.
    intros Hi Hk F S B L. subst k. destruct (to_message_ok v F) as (fs & T & O & D).
    rewrite T in S. cbn [bind] in S.
    destruct (record_parse fuel fuel' i number _ fs vals bs pre rest Hi O D S B L) as (L2 & r & Or & Sm & P).
    split; [exact L2|]. destruct (of_message_back v fs r F T Or Sm) as (w & W & Sw).
    exists w. split; [exact Sw|]. rewrite P, W. reflexivity.
  Qed.

  Definition qt_record (fuel : nat) (vs : list qtval) (i : nat) : res (list Z) :=
    match nth_error fields i, nth_error vs i with
    | Some (number, k), Some v =>
        fs <- to_message v ;; serializeObject (serializeMessage fuel sch) number (index k) fs
    | _, _ => Ok []
    end.

  Lemma loop_back fuel vs : map kind_of vs = map snd fields -> Forall faithful vs ->
    forall os fuel' pre bs vals, NoDup os -> (forall i, In i os -> (i < length fields)%nat) ->
    concat_res (map (qt_record fuel vs) os) = Ok bs -> Zlen bs <= INT_MAX -> (length bs < fuel')%nat ->
    length vals = length fields ->
    exists vals', qt_deserialize fuel' order fields (pre ++ bs) (cur pre bs) vals = Ok vals'
      /\ length vals' = length vals
      /\ (forall i, ~ In i os -> nth_error vals' i = nth_error vals i)
      /\ (forall i, In i os -> exists v old w x, nth_error vs i = Some v /\ nth_error vals i = Some old
            /\ nth_error vals' i = Some x /\ same_qt w v /\ stored old w x).
  Proof.
    intros K F. induction os as [|i os IH]; intros fuel' pre bs vals ND In_ S B L Lv.
    - cbn [map concat_res] in S. injection S as <-. destruct fuel' as [|fuel']; [cbn in L; lia|].
      exists vals. split; [|split; [reflexivity|split; [auto|intros i []]]].
      cbn [QtTypesModel.qt_deserialize]. cbn [cur it_pos]. rewrite app_nil_r, Z.eqb_refl. reflexivity.
    - cbn [map] in S. apply concat_res_cons in S as (a & b & Sa & Sb & ->).
      inversion ND as [|? ? Ni ND']; subst.
      pose proof (In_ i (or_introl eq_refl)) as Li.
      destruct (nth_error fields i) as [[number k]|] eqn:Hi; [|apply nth_error_None in Hi; lia].
      assert (Lvs : length vs = length fields) by (rewrite <- (map_length kind_of), K; apply map_length).
      destruct (nth_error vs i) as [v|] eqn:Hv; [|apply nth_error_None in Hv; lia].
      destruct (nth_error vals i) as [old|] eqn:Ho; [|apply nth_error_None in Ho; lia].
      assert (Kv : kind_of v = k).
      { pose proof (map_nth_error kind_of _ _ Hv) as M1. pose proof (map_nth_error snd _ _ Hi) as M2.
        rewrite K in M1. rewrite M1 in M2. now injection M2. }
      assert (Fv : faithful v) by (rewrite Forall_forall in F; apply F; eapply nth_error_In; eauto).
      unfold qt_record in Sa. rewrite Hi, Hv in Sa.
      rewrite app_length in L. destruct fuel' as [|fuel']; [lia|].
      destruct (record_read fuel fuel' i number k v vals a pre b Hi Kv Fv Sa B ltac:(lia)) as (La & w & Sw & P).
      destruct (IH fuel' (pre ++ a) b (set_field i w vals) ND') as (vals' & D & L' & O' & I'); auto.
      { intros j J. apply In_. now right. }
      { rewrite Zlen_app in B. pose proof (Zlen_nonneg a). lia. }
      { lia. }
      { now rewrite set_field_length. }
      exists vals'. split; [|split; [|split]].
      + cbn [QtTypesModel.qt_deserialize]. cbn [cur it_pos].
        replace (Zlen pre =? Zlen (pre ++ a ++ b)) with false.
        2: { symmetry. apply Z.eqb_neq. rewrite !Zlen_app. pose proof (Zlen_nonneg b). unfold Zlen at 3. lia. }
        fold (cur pre (a ++ b)). rewrite P. cbn [bind]. rewrite app_assoc. exact D.
      + rewrite L'. apply set_field_length.
      + intros j J. rewrite O' by (intro; apply J; now right). apply set_field_other. intros ->. apply J. now left.
      + intros j J. destruct (Nat.eq_dec i j) as [<-|N].
        * destruct (set_field_same i w vals old Ho) as (x & X & St).
          exists v, old, w, x. split; [exact Hv|]. split; [exact Ho|]. split; [rewrite O' by exact Ni; exact X|]. auto.
        * destruct J as [J|J]; [congruence|]. destruct (I' j J) as (v' & old' & w' & x & A1 & A2 & A3).
          exists v', old', w', x. rewrite set_field_other in A2 by exact N. auto.
  Qed.

  Lemma record_total vs i : Forall faithful vs -> exists fuel bs, forall fuel', (fuel <= fuel')%nat ->
    qt_record fuel' vs i = Ok bs.
  Proof.
    intro F. unfold qt_record. destruct (nth_error fields i) as [[number k]|]; [|exists O, []; auto].
    destruct (nth_error vs i) as [v|] eqn:Hv; [|exists O, []; auto].
    assert (Fv : faithful v) by (rewrite Forall_forall in F; apply F; eapply nth_error_In; eauto).
    destruct (to_message_ok v Fv) as (fs & T & _). rewrite T. cbn [bind].
    destruct (serialize_terminates sch (qt_acyclic order fields) Sch (index k) fs) as (fuel & bs & H).
    exists fuel. eexists. intros fuel' L. unfold serializeObject. rewrite (H fuel' L). reflexivity.
  Qed.

  Lemma qt_serialize_total vs : Forall faithful vs -> exists fuel bs, forall fuel', (fuel <= fuel')%nat ->
    qt_serialize fuel' order fields vs = Ok bs.
  Proof.
    intro F. change (exists fuel bs, forall fuel', (fuel <= fuel')%nat ->
      concat_res (map (qt_record fuel' vs) (order user_message)) = Ok bs).
    induction (order user_message) as [|i os IH]; [exists O, []; reflexivity|].
    destruct IH as (f1 & b1 & H1). destruct (record_total vs i F) as (f2 & b2 & H2).
    exists (Nat.max f1 f2), (b2 ++ b1). intros f' L. cbn [map concat_res].
    rewrite H2 by lia. cbn [bind]. rewrite H1 by lia. reflexivity.
  Qed.
End Messages.

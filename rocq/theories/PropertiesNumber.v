(** * C83: Numbers keep their value on the way through properties, QVariant and QML *)

From Coq Require Import ZArith List Bool Lia.
From Verif Require Import Base Values WireSpec WireProofs JsonSpec JsonModel JsonProofs NumberSpec NumberModel NumberProofs.
Import ListNotations.
Open Scope Z_scope.

(** An integer written into a property of one of the types of QtProtobuf is always accepted; what the field holds then is in the
    range of its type and equal to the integer modulo 2 to the power of its width, so it is the integer if and only if that is in range. *)
Theorem C83_integer : forall t k z old, wrapped t = true ->
  exists stored, setProperty t old (VInteger k z) = Ok (true, stored) /\ fits t stored /\
    stored mod 2 ^ width t = z mod 2 ^ width t /\ (stored = z <-> fits t z).
Proof.
  intros t k z old _. destruct (integer_spec t z) as [F M]. eexists. split; [reflexivity|]. split; [exact F|]. split; [exact M|].
  split; [intros <-; exact F | apply integer_fits].
Qed.

Example C83_integer_case : wrapped TFixed32 = true /\ fits TFixed32 4294967295 /\ ~ fits TFixed32 (-1) /\
  setProperty TFixed32 7 (VInteger KUInt 4294967295) = Ok (true, 4294967295).
Proof. unfold fits, in_u; cbn. repeat split; try lia. Qed.

(** So integers out of range are not refused: another number is stored, and the caller is told of success. *)
Theorem C83_range_refuted : forall t k z old, wrapped t = true -> ~ fits t z ->
  exists stored, setProperty t old (VInteger k z) = Ok (true, stored) /\ stored <> z.
Proof.
  intros t k z old W N. destruct (C83_integer t k z old W) as (s & E & _ & _ & I). exists s. split; [exact E|]. intro H. now apply N, I.
Qed.

Example C83_range_case : ~ fits TInt32 5000000000 /\ setProperty TInt32 7 (VInteger KLong 5000000000) = Ok (true, 705032704).
Proof. unfold fits, in_s; cbn. split; [lia | reflexivity]. Qed.

(** A floating point number loses its fraction and arrives, if the rest is in range. *)
Theorem C83_double : forall t d z old, wrapped t = true -> whole_part d z -> fits t z -> setProperty t old (VDouble d) = Ok (true, z).
Proof.
  intros t d z old _ W F. unfold setProperty. cbn [fromType]. rewrite (of_double_fits t d z W). apply in_range_fits in F. now rewrite F.
Qed.

Example C83_double_case : whole_part (Finite (-15) (-2)) (-3) /\ fits TSFixed64 (-3) /\ setProperty TSFixed64 0 (VDouble (Finite (-15) (-2))) = Ok (true, -3).
Proof. unfold fits, in_s; cbn. repeat split; try lia. Qed.

(** Otherwise the conversion is undefined in C++, also for infinities and for what is not a number. *)
Theorem C83_double_undefined_refuted : forall t d old, wrapped t = true ->
  (forall z, whole_part d z -> ~ fits t z) -> exists u, setProperty t old (VDouble d) = UB u.
Proof.
  intros t d old _ N. exists SignedOverflow. unfold setProperty. cbn [fromType]. unfold of_double. destruct (truncate d) as [z|] eqn:T; [|reflexivity].
  destruct (in_range (has_sign t) (width t) z) eqn:R; [|reflexivity]. exfalso. apply in_range_fits in R. apply (N z); [|exact R].
  destruct d as [m e| |]; try discriminate T. cbn in T. cbn. destruct (Z.leb_spec 0 e) as [E|E]; injection T as <-; [left; auto|].
  right. split; [exact E|]. set (p := 2 ^ (- e)). assert (P : 0 < p) by (apply Z.pow_pos_nonneg; lia).
  destruct (Z_le_gt_dec 0 m).
  - rewrite Z.quot_div_nonneg by lia. pose proof (Z.div_mod m p ltac:(lia)). pose proof (Z.mod_pos_bound m p P).
    assert (0 <= m / p) by (apply Z.div_pos; lia). rewrite !Z.abs_eq by lia. nia.
  - replace m with (- (- m)) by lia. rewrite Z.quot_opp_l, Z.quot_div_nonneg by lia. pose proof (Z.div_mod (- m) p ltac:(lia)). pose proof (Z.mod_pos_bound (- m) p P).
    assert (0 <= - m / p) by (apply Z.div_pos; lia). rewrite !Z.abs_opp, (Z.abs_eq (- m / p)), (Z.abs_neq m) by lia. nia.
Qed.

Example C83_double_undefined_case : (forall z, whole_part (Finite 1 31) z -> ~ fits TInt32 z) /\ (forall z, whole_part NaN z -> ~ fits TInt32 z) /\
  setProperty TInt32 0 (VDouble (Finite 1 31)) = UB SignedOverflow.
Proof. split; [|split]; [| |reflexivity]; unfold fits, in_s; cbn; intros z H; [destruct H as [[_ ->]|[E _]]; lia | contradiction]. Qed.

(** Read as an integer type, the field gives its value if and only if that is in the range of the type. *)
Theorem C83_read_integer : forall k z, exists r, toType k z = VInteger k r /\ holds k r /\ (r = z <-> holds k z).
Proof. intros k z. eexists. split; [reflexivity|]. apply of_kind_spec. Qed.

(** Read as a floating point number, it gives its value if and only if 53 bits are enough for it. *)
Theorem C83_read_double : forall z, exists d, toDouble z = VDouble d /\ (is_number d z <-> bits_53 z).
Proof. intro z. eexists. split; [reflexivity|]. apply to_double_exact. Qed.

(** If they are not, it gives a number next to it, of those for which they are. *)
Theorem C83_read_double_nearest : forall z, exists d r, toDouble z = VDouble d /\ is_number d r /\ bits_53 r /\
  forall other, bits_53 other -> Z.abs (r - z) <= Z.abs (other - z).
Proof. intro z. destruct (to_double_nearest z) as (r & H). exists (to_double z), r. split; [reflexivity | exact H]. Qed.

(** They are for all fields of 32 bits. *)
Theorem C83_read_double_32 : forall t z, width t = 32 -> fits t z -> exists d, toDouble z = VDouble d /\ is_number d z.
Proof. intros t z W F. eexists. split; [reflexivity|]. apply to_double_exact. exact (fits_bits t z W F). Qed.

Example C83_read_case : width TFixed32 = 32 /\ fits TFixed32 4294967295 /\ bits_53 (2 ^ 60) /\ ~ bits_53 (2 ^ 53 + 1) /\
  toDouble (2 ^ 53 + 1) = VDouble (Finite (2 ^ 53) 0) /\ toType KInt 4294967295 = VInteger KInt (-1).
Proof.
  split; [reflexivity|]. split; [unfold fits, in_u; cbn; lia|]. split; [exists 1, 60; cbn; lia|]. split; [|split; reflexivity].
  intro B. apply nearest_bits in B; [|lia]. vm_compute in B. discriminate B.
Qed.

(** A field given as an integer or as a floating point number and put into a field of the same type gives the same value there. *)
Theorem C83_round : forall t k z old, wrapped t = true -> fits t z ->
  (holds k z -> setProperty t old (toType k z) = Ok (true, z)) /\ (bits_53 z -> setProperty t old (toDouble z) = Ok (true, z)).
Proof.
  intros t k z old W F. split; intro H.
  - unfold setProperty, toType. cbn [fromType bind]. rewrite (proj2 (proj2 (of_kind_spec k z)) H). now rewrite (integer_fits t z F).
  - apply (C83_double t (to_double z) z old W); [|exact F]. apply number_whole. now apply to_double_exact.
Qed.

Example C83_round_case : wrapped TInt64 = true /\ fits TInt64 (-2 ^ 62) /\ holds KLong (-2 ^ 62) /\ bits_53 (-2 ^ 62).
Proof. unfold fits, holds, in_s; cbn. repeat split; try lia. exists (-1), 62. cbn. lia. Qed.

(** As a text, it is the decimal number; but no text is accepted for a field, not even this one. *)
Theorem C83_text_refuted : forall t z old, wrapped t = true ->
  exists s, toText z = VString s /\ integer_text z s /\ setProperty t old (VString s) = Ok (false, old).
Proof. intros t z old _. eexists. split; [reflexivity|]. split; [apply decimal_spec | reflexivity]. Qed.

(** ** QML *)

(** QML reads the value of every field of 32 bits, and a number it writes arrives without its fraction, if that is in range. *)
Theorem C83_qml : forall t z, In t [TInt32; TSInt32; TUInt32; TFixed32; TSFixed32] -> fits t z ->
  (exists d, qml_reads t z = Some d /\ is_number d z) /\ (forall d, whole_part d z -> qml_writes t d = Some z).
Proof.
  intros t z I F. split.
  - exists (Finite z 0). split; [now apply qml_reads_32|]. left. cbn. lia.
  - intros d W. rewrite (qml_writes_32 t d z I (truncate_whole d z W)). now rewrite (integer_fits t z F).
Qed.

(** A number out of range becomes another one. *)
Theorem C83_qml_range_refuted : forall t d z, In t [TInt32; TSInt32; TUInt32; TFixed32; TSFixed32] -> whole_part d z -> ~ fits t z ->
  exists r, qml_writes t d = Some r /\ r <> z /\ r mod 2 ^ 32 = z mod 2 ^ 32.
Proof.
  intros t d z I W N. eexists. split; [exact (qml_writes_32 t d z I (truncate_whole d z W))|]. destruct (integer_spec t z) as [F M].
  split; [intro E; now rewrite E in F|]. rewrite (proj1 (qml_32 t I)) in *. exact M.
Qed.

(** What is no number, and the infinities, become 0. *)
Theorem C83_qml_not_finite : forall t d, In t [TInt32; TSInt32; TUInt32; TFixed32; TSFixed32] ->
  d = NaN \/ d = Infinite true \/ d = Infinite false -> qml_writes t d = Some 0.
Proof. intros t d I N. cbn [In] in I. destruct I as [<-|[<-|[<-|[<-|[<-|[]]]]]]; destruct N as [-> | [-> | ->]]; reflexivity. Qed.

(** Fields of 64 bits with a sign or of fixed width are not seen in QML. *)
Theorem C83_qml_hidden : forall t z d, In t [TInt64; TSInt64; TFixed64; TSFixed64] -> qml_reads t z = None /\ qml_writes t d = None.
Proof. intros t z d. cbn [In]. intros [<-|[<-|[<-|[<-|[]]]]]; split; reflexivity. Qed.

(** Fields of type uint64 are, though QML has another number for each value that needs more than 53 bits. *)
Theorem C83_uint64_refuted : forall z, fits TUInt64 z ->
  exists d, qml_reads TUInt64 z = Some d /\ (is_number d z <-> bits_53 z).
Proof. intros z _. eexists. split; [reflexivity|]. apply to_double_exact. Qed.

Example C83_qml_case : fits TInt32 (-5) /\ qml_reads TInt32 (-5) = Some (Finite (-5) 0) /\ whole_part (Finite (-11) (-1)) (-5) /\
  qml_writes TFixed32 (Finite (-1) 0) = Some 4294967295 /\ ~ fits TFixed32 (-1) /\
  fits TUInt64 (2 ^ 53 + 1) /\ qml_reads TUInt64 (2 ^ 53 + 1) = Some (Finite (2 ^ 53) 0).
Proof. unfold fits, in_s, in_u; cbn. repeat split; try lia. Qed.

(** The text of a field of one of the three types known to the QML plugin is read as its value there. *)
Theorem C83_qml_text : forall parse t z, reads_integers parse -> In t [TInt32; TFixed32; TSFixed32] -> fits t z ->
  exists s, toText z = VString s /\ coverter parse t s = Ok (Some z).
Proof.
  intros parse t z P I F. eexists. split; [reflexivity|].
  assert (W : wrapped t = true /\ width t = 32) by (cbn [In] in I; destruct I as [<-|[<-|[<-|[]]]]; split; reflexivity). destruct W as [W W32].
  assert (N : is_number (parse (decimal z)) z).
  { apply P; [apply decimal_spec|]. unfold fits, in_s, in_u in F. rewrite W32 in F. destruct (has_sign t); cbn in F; lia. }
  unfold coverter. cbn [fromType]. rewrite (of_double_fits t _ z (number_whole _ _ N)). apply in_range_fits in F. now rewrite F.
Qed.

(** But no text is refused: one that is not a number is read as QString::toDouble's zero. *)
Theorem C83_qml_text_refuted : forall parse t s, In t [TInt32; TFixed32; TSFixed32] ->
  coverter parse t s <> Ok None /\ (parse s = Finite 0 0 -> coverter parse t s = Ok (Some 0)).
Proof.
  intros parse t s I. unfold coverter. cbn [fromType]. split.
  - destruct (of_double _ _ _); cbn; discriminate.
  - intros ->. cbn [In] in I. destruct I as [<-|[<-|[<-|[]]]]; reflexivity.
Qed.

(** A reader of integers. *)
Definition ex_parse (s : list Z) : double :=
  match s with 45 :: ds => Finite (- decimal_value ds) 0 | _ => Finite (decimal_value s) 0 end.

Example C83_qml_text_case : reads_integers ex_parse /\ fits TInt32 (-1203) /\ coverter ex_parse TInt32 (decimal (-1203)) = Ok (Some (-1203)).
Proof.
  split; [|split; [unfold fits, in_s; cbn; lia | reflexivity]].
  intros z s [(Z0 & I & <-)|(N & ds & -> & _ & E)] _.
  - assert (H : ex_parse s = Finite (decimal_value s) 0).
    { destruct s as [|c s]; [reflexivity|]. destruct (Z.eq_dec c 45) as [->|C].
      - exfalso. inversion I; lia.
      - unfold ex_parse. destruct c as [|p|p]; try reflexivity. do 6 (destruct p as [p|p|]; try reflexivity). now contradiction C. }
    rewrite H. left. lia.
  - left. cbn. lia.
Qed.

Print Assumptions C83_integer.
Print Assumptions C83_range_refuted.
Print Assumptions C83_double.
Print Assumptions C83_double_undefined_refuted.
Print Assumptions C83_read_integer.
Print Assumptions C83_read_double.
Print Assumptions C83_read_double_nearest.
Print Assumptions C83_read_double_32.
Print Assumptions C83_round.
Print Assumptions C83_text_refuted.
Print Assumptions C83_qml.
Print Assumptions C83_qml_range_refuted.
Print Assumptions C83_qml_not_finite.
Print Assumptions C83_qml_hidden.
Print Assumptions C83_uint64_refuted.
Print Assumptions C83_qml_text.
Print Assumptions C83_qml_text_refuted.

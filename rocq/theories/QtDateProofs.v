(** Proofs about the calendar of the model of QDate: a date is given back by its year, month and day. *)

From Coq Require Import ZArith List Bool Lia.
From Verif Require Import Base WireSpec QtTypesModel.
Open Scope Z_scope.

Lemma div_eq a b q r : 0 <= r < b -> a = b * q + r -> a / b = q.
Proof. intros R E. symmetry. apply (Z.div_unique a b q r); lia. Qed.

Section Parts.
  Variable jd : Z.
  Let a := jd + 32044.
  Let b := (4 * a + 3) / 146097.
  Let c := a - (146097 * b) / 4.
  Let d := (4 * c + 3) / 1461.
  Let e := c - (1461 * d) / 4.
  Let m := (5 * e + 2) / 153.

  Lemma quarter n : (146097 * n) / 4 = 36524 * n + n / 4.
  Proof. pose proof (Z.div_mod n 4). pose proof (Z.mod_pos_bound n 4). apply (div_eq _ _ _ (n mod 4)); lia. Qed.
  Lemma quarter_year n : (1461 * n) / 4 = 365 * n + n / 4.
  Proof. pose proof (Z.div_mod n 4). pose proof (Z.mod_pos_bound n 4). apply (div_eq _ _ _ (n mod 4)); lia. Qed.

  (** Day of the century. *)
  Lemma century : 0 <= c <= 36524 /\ (c = 36524 -> b mod 4 = 3).
  Proof.
    unfold c. rewrite quarter.
    pose proof (Z.div_mod (4 * a + 3) 146097 ltac:(lia)) as D. fold b in D.
    pose proof (Z.mod_pos_bound (4 * a + 3) 146097 ltac:(lia)).
    pose proof (Z.div_mod b 4 ltac:(lia)). pose proof (Z.mod_pos_bound b 4 ltac:(lia)). lia.
  Qed.

  (** Year of the century, day of the year (from March). *)
  Lemma year_day : 0 <= d <= 99 /\ 0 <= e <= 365 /\
    (e = 365 -> d mod 4 = 3 /\ (d = 99 -> b mod 4 = 3)).
  Proof.
    destruct century as [C L]. unfold e. rewrite quarter_year.
    pose proof (Z.div_mod (4 * c + 3) 1461 ltac:(lia)) as D. fold d in D.
    pose proof (Z.mod_pos_bound (4 * c + 3) 1461 ltac:(lia)).
    pose proof (Z.div_mod d 4 ltac:(lia)). pose proof (Z.mod_pos_bound d 4 ltac:(lia)).
    assert (0 <= d <= 99) by lia. split; [lia|]. split; [lia|]. intro E. split; [lia|].
    intro. apply L. lia.
  Qed.

  Lemma month_range : 0 <= m <= 11.
  Proof.
    destruct year_day as (_ & E & _).
    pose proof (Z.div_mod (5 * e + 2) 153 ltac:(lia)) as D. fold m in D.
    pose proof (Z.mod_pos_bound (5 * e + 2) 153 ltac:(lia)). lia.
  Qed.

  Let y := 100 * b + d - 4800 + m / 10.

  Lemma parts_eq : partsFromJulian jd =
    ((if 0 <? y then y else y - 1), m + 3 - 12 * (m / 10), e - (153 * m + 2) / 5 + 1).
  Proof. reflexivity. Qed.

  Lemma tenth : m / 10 = if 10 <=? m then 1 else 0.
  Proof.
    pose proof month_range. destruct (Z.leb_spec 10 m).
    - apply (div_eq _ _ _ (m - 10)); lia.
    - apply (div_eq _ _ _ m); lia.
  Qed.

  Lemma year_back : (if (if 0 <? y then y else y - 1) <? 0 then (if 0 <? y then y else y - 1) + 1
                     else (if 0 <? y then y else y - 1)) = y.
  Proof. destruct (Z.ltb_spec 0 y); [destruct (Z.ltb_spec y 0) | destruct (Z.ltb_spec (y - 1) 0)]; lia. Qed.

  Lemma julian_parts : let '(yy, mm, dd) := partsFromJulian jd in julian yy mm dd = jd.
  Proof.
    rewrite parts_eq. unfold julian. rewrite year_back. rewrite tenth.
    pose proof month_range as M. destruct year_day as (D & E & _). destruct century as [C _].
    assert (H3 : (if m + 3 - 12 * (if 10 <=? m then 1 else 0) <? 3 then 1 else 0) = if 10 <=? m then 1 else 0).
    { destruct (Z.leb_spec 10 m); destruct (Z.ltb_spec (m + 3 - 12 * 1) 3); destruct (Z.ltb_spec (m + 3 - 12 * 0) 3); lia. }
    rewrite H3. unfold y. rewrite tenth.
    replace (m + 3 - 12 * (if 10 <=? m then 1 else 0) + 12 * (if 10 <=? m then 1 else 0) - 3) with m by lia.
    replace (100 * b + d - 4800 + (if 10 <=? m then 1 else 0) + 4800 - (if 10 <=? m then 1 else 0)) with (100 * b + d) by lia.
    rewrite (div_eq (100 * b + d) 100 b d) by lia.
    pose proof (Z.div_mod b 4 ltac:(lia)) as B4. pose proof (Z.mod_pos_bound b 4 ltac:(lia)).
    rewrite (div_eq (100 * b + d) 400 (b / 4) (100 * (b mod 4) + d)) by lia.
    pose proof (Z.div_mod d 4 ltac:(lia)) as D4. pose proof (Z.mod_pos_bound d 4 ltac:(lia)).
    rewrite (div_eq (100 * b + d) 4 (25 * b + d / 4) (d mod 4)) by lia.
    assert (Ee : e = c - (365 * d + d / 4)) by (unfold e; now rewrite quarter_year).
    assert (Ec : c = jd + 32044 - (36524 * b + b / 4)) by (unfold c; now rewrite quarter).
    lia.
  Qed.

  (** A year divisible by four that is no century year, or divisible by 400. *)
  Lemma leap : e = 365 -> 10 <= m -> ((y mod 4 =? 0) && negb (y mod 100 =? 0) || (y mod 400 =? 0)) = true.
  Proof.
    intros E M. destruct year_day as (D & _ & L). destruct (L E) as [L4 L9].
    pose proof (Z.div_mod b 4 ltac:(lia)) as B4. pose proof (Z.div_mod d 4 ltac:(lia)) as D4.
    assert (Y : y = 100 * b + d - 4799).
    { unfold y. rewrite tenth. destruct (Z.leb_spec 10 m); lia. }
    destruct (Z.eq_dec d 99) as [N|N].
    - specialize (L9 N). apply orb_true_iff. right. apply Z.eqb_eq.
      replace y with ((b / 4 - 11) * 400) by lia. apply Z.mod_mul. lia.
    - apply orb_true_iff. left. apply andb_true_iff. split.
      + apply Z.eqb_eq. replace y with ((25 * b + d / 4 - 1199) * 4) by lia. apply Z.mod_mul. lia.
      + apply negb_true_iff, Z.eqb_neq. replace y with (d + 1 + (b - 48) * 100) by lia.
        rewrite Z.mod_add by lia. rewrite Z.mod_small by lia. lia.
  Qed.

  Lemma parts_valid : let '(yy, mm, dd) := partsFromJulian jd in valid_parts yy mm dd = true.
  Proof.
    rewrite parts_eq. unfold valid_parts. rewrite tenth. pose proof month_range as M.
    destruct year_day as (D & E & _).
    pose proof (Z.div_mod (5 * e + 2) 153 ltac:(lia)) as Dm. fold m in Dm.
    pose proof (Z.mod_pos_bound (5 * e + 2) 153 ltac:(lia)).
    set (yy := if 0 <? y then y else y - 1).
    assert (NZ : (yy =? 0) = false) by (unfold yy; destruct (Z.ltb_spec 0 y); apply Z.eqb_neq; lia).
    rewrite NZ. cbn [negb andb].
    assert (Lp : e = 365 -> 10 <= m -> leap_year yy = true).
    { intros E3 M1. unfold leap_year. replace (if yy <? 1 then yy + 1 else yy) with y by
        (unfold yy; destruct (Z.ltb_spec 0 y); [destruct (Z.ltb_spec y 1) | destruct (Z.ltb_spec (y - 1) 1)]; lia).
      now apply leap. }
    assert (Cases : m = 0 \/ m = 1 \/ m = 2 \/ m = 3 \/ m = 4 \/ m = 5 \/ m = 6 \/ m = 7 \/ m = 8 \/ m = 9 \/ m = 10 \/ m = 11) by lia.
    assert (G : forall k o, m = k -> (153 * k + 2) / 5 = o -> 1 <= k + 3 - 12 * (if 10 <=? k then 1 else 0) <= 12 ->
      1 <= e - o + 1 <= month_length (k + 3 - 12 * (if 10 <=? k then 1 else 0)) yy ->
      ((1 <=? m + 3 - 12 * (if 10 <=? m then 1 else 0)) && (m + 3 - 12 * (if 10 <=? m then 1 else 0) <=? 12)) &&
      ((1 <=? e - (153 * m + 2) / 5 + 1) &&
       (e - (153 * m + 2) / 5 + 1 <=? month_length (m + 3 - 12 * (if 10 <=? m then 1 else 0)) yy)) = true).
    { intros k o Hk Ho R1 R2. rewrite Hk, Ho. rewrite !andb_true_iff, !Z.leb_le. lia. }
    destruct Cases as [K|[K|[K|[K|[K|[K|[K|[K|[K|[K|[K|K]]]]]]]]]]];
      (eapply (G _ _ K); [reflexivity | split; vm_compute; discriminate | ]);
      match goal with |- _ <= _ <= month_length ?x _ => let v := eval vm_compute in x in change x with v end;
      match goal with |- context [(153 * ?k + 2) / 5] => let v := eval vm_compute in ((153 * k + 2) / 5) in
        change ((153 * k + 2) / 5) with v end;
      unfold month_length; cbn [Z.eqb Pos.eqb orb]; try lia.
    destruct (leap_year yy) eqn:LY; [lia|].
    destruct (Z.eq_dec e 365) as [E3|]; [exfalso; assert (X := Lp E3 ltac:(lia)); congruence | lia].
  Qed.

  Lemma parts_range : date_valid jd = true ->
    let '(yy, mm, dd) := partsFromJulian jd in in_s 32 yy /\ 1 <= mm <= 12 /\ 1 <= dd <= 31.
  Proof.
    intro V. pose proof parts_valid as P. rewrite parts_eq in *.
    unfold date_valid, minJd, maxJd in V. apply andb_prop in V. destruct V as [V1 V2].
    apply Z.leb_le in V1, V2. unfold valid_parts in P. rewrite !andb_true_iff, !Z.leb_le in P.
    destruct P as [[_ Pm] Pd]. split; [|split; [exact Pm|]].
    - rewrite tenth in *. pose proof month_range as M. destruct year_day as (D & E & _).
      pose proof (Z.div_mod (4 * a + 3) 146097 ltac:(lia)) as Da. fold b in Da.
      pose proof (Z.mod_pos_bound (4 * a + 3) 146097 ltac:(lia)) as Dr.
      pose proof (Z.div_mod (5 * e + 2) 153 ltac:(lia)) as Dm. fold m in Dm.
      pose proof (Z.mod_pos_bound (5 * e + 2) 153 ltac:(lia)) as Dmr.
      assert (Ee : e = c - (365 * d + d / 4)) by (unfold e; now rewrite quarter_year).
      assert (Ec : c = a - (36524 * b + b / 4)) by (unfold c; now rewrite quarter).
      pose proof (Z.div_mod b 4 ltac:(lia)). pose proof (Z.mod_pos_bound b 4 ltac:(lia)).
      pose proof (Z.div_mod d 4 ltac:(lia)). pose proof (Z.mod_pos_bound d 4 ltac:(lia)).
      assert (a = jd + 32044) by reflexivity.
      unfold in_s, y. rewrite tenth. change (2 ^ (32 - 1)) with 2147483648.
      destruct (Z.leb_spec 10 m);
        match goal with |- context [0 <? ?z] => destruct (Z.ltb_spec 0 z) end; lia.
    - destruct Pd as [Pd1 Pd2]. split; [exact Pd1|]. eapply Z.le_trans; [exact Pd2|].
      unfold month_length. destruct (_ =? 2); [destruct (leap_year _); lia|]. destruct (_ || _); lia.
  Qed.
End Parts.

Lemma date_back jd : date_valid jd = true \/ jd = nullJd ->
  let '(y, m, d) := date_parts jd in date_of y m d = jd.
Proof.
  intros [V | ->]; [|reflexivity]. unfold date_parts. rewrite V.
  pose proof (parts_valid jd) as P. pose proof (julian_parts jd) as J.
  destruct (partsFromJulian jd) as [[y m] d]. unfold date_of. now rewrite P.
Qed.

Lemma date_parts_range jd : let '(y, m, d) := date_parts jd in in_s 32 y /\ in_s 32 m /\ in_s 32 d.
Proof.
  unfold date_parts. destruct (date_valid jd) eqn:V.
  - pose proof (parts_range jd V) as P. destruct (partsFromJulian jd) as [[y m] d].
    destruct P as (Y & M & D). split; [exact Y|]. unfold in_s in *. lia.
  - unfold in_s. lia.
Qed.

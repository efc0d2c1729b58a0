(** Proofs on texts: the conversions. *)

From Coq Require Import ZArith List Bool Lia.
From Verif Require Import TextSpec TextModel.
Import ListNotations.
Local Open Scope Z_scope.

Ltac dm := Z.div_mod_to_equations.

(** * Writing *)

(** What is written for any units: the characters, with a question mark for each lone half. *)
Fixpoint chars (us : list Z) : list Z :=
  match us with
  | [] => []
  | u :: us' =>
      if (55296 <=? u) && (u <? 57344) then
        match us' with
        | v :: us'' =>
            if (u <? 56320) && (56320 <=? v) && (v <? 57344) then 65536 + (u - 55296) * 1024 + (v - 56320) :: chars us''
            else 63 :: chars us'
        | [] => [63]
        end
      else u :: chars us'
  end.

Lemma two_ind : forall (P : list Z -> Prop), P [] -> (forall u, P [u]) -> (forall u v t, P t -> P (v :: t) -> P (u :: v :: t)) -> forall l, P l.
Proof.
  intros P N O T. assert (H : forall l, P l /\ forall u, P (u :: l)).
  { induction l as [| v l (A & B)]; [auto |]. split; [apply B |]. intro u. now apply T. }
  intro l. apply H.
Qed.

Lemma to_utf8_chars : forall us, units us -> to_utf8 us = utf8 (chars us).
Proof.
  apply (two_ind (fun us => units us -> to_utf8 us = utf8 (chars us))).
  - reflexivity.
  - intros u U. inversion U; subst. cbn [to_utf8 chars].
    destruct (Z.ltb_spec u 128); [| destruct (Z.ltb_spec u 2048)].
    + replace ((55296 <=? u) && (u <? 57344)) with false by lia. cbn. unfold utf8_char.
      replace (u <? 128) with true by lia. reflexivity.
    + replace ((55296 <=? u) && (u <? 57344)) with false by lia. cbn. unfold utf8_char.
      replace (u <? 128) with false by lia. replace (u <? 2048) with true by lia. reflexivity.
    + destruct ((55296 <=? u) && (u <? 57344)) eqn:S; [reflexivity |]. cbn. unfold utf8_char.
      replace (u <? 128) with false by lia. replace (u <? 2048) with false by lia. replace (u <? 65536) with true by lia. reflexivity.
  - intros u v t IH1 IH2 U. inversion U as [| ? ? Hu Ut]; subst. inversion Ut as [| ? ? Hv Ut']; subst.
    specialize (IH1 Ut'). specialize (IH2 Ut).
    change (to_utf8 (u :: v :: t)) with
      (if u <? 128 then u :: to_utf8 (v :: t)
       else if u <? 2048 then 192 + u / 64 :: 128 + u mod 64 :: to_utf8 (v :: t)
       else if (55296 <=? u) && (u <? 57344) then
         if (u <? 56320) && (56320 <=? v) && (v <? 57344) then
              let c := 65536 + (u - 55296) * 1024 + (v - 56320) in
              240 + c / 262144 :: 128 + (c / 4096) mod 64 :: 128 + (c / 64) mod 64 :: 128 + c mod 64 :: to_utf8 t
            else 63 :: to_utf8 (v :: t)
      else 224 + u / 4096 :: 128 + (u / 64) mod 64 :: 128 + u mod 64 :: to_utf8 (v :: t)).
    change (chars (u :: v :: t)) with
      (if (55296 <=? u) && (u <? 57344) then
         if (u <? 56320) && (56320 <=? v) && (v <? 57344) then 65536 + (u - 55296) * 1024 + (v - 56320) :: chars t
         else 63 :: chars (v :: t)
       else u :: chars (v :: t)).
    rewrite IH1, IH2. clear IH1 IH2.
    destruct (Z.ltb_spec u 128); [| destruct (Z.ltb_spec u 2048)].
    + replace ((55296 <=? u) && (u <? 57344)) with false by lia. change (utf8 (u :: chars (v :: t))) with (utf8_char u ++ utf8 (chars (v :: t))).
      unfold utf8_char. replace (u <? 128) with true by lia. reflexivity.
    + replace ((55296 <=? u) && (u <? 57344)) with false by lia. change (utf8 (u :: chars (v :: t))) with (utf8_char u ++ utf8 (chars (v :: t))).
      unfold utf8_char. replace (u <? 128) with false by lia. replace (u <? 2048) with true by lia. reflexivity.
    + destruct ((55296 <=? u) && (u <? 57344)) eqn:S.
      * destruct ((u <? 56320) && (56320 <=? v) && (v <? 57344)) eqn:P.
        -- cbv zeta. set (c := 65536 + (u - 55296) * 1024 + (v - 56320)). change (utf8 (c :: chars t)) with (utf8_char c ++ utf8 (chars t)).
           assert (65536 <= c <= 1114111) by (subst c; lia).
           unfold utf8_char. replace (c <? 128) with false by lia. replace (c <? 2048) with false by lia. replace (c <? 65536) with false by lia. reflexivity.
        -- reflexivity.
      * change (utf8 (u :: chars (v :: t))) with (utf8_char u ++ utf8 (chars (v :: t))). unfold utf8_char.
        replace (u <? 128) with false by lia. replace (u <? 2048) with false by lia. replace (u <? 65536) with true by lia. reflexivity.
Qed.

Lemma chars_characters : forall us, units us -> Forall character (chars us).
Proof.
  apply (two_ind (fun us => units us -> Forall character (chars us))).
  - constructor.
  - intros u U. inversion U; subst. cbn. destruct (_ && _) eqn:S; constructor; auto; unfold character; lia.
  - intros u v t IH1 IH2 U. inversion U as [| ? ? Hu Ut]; subst. inversion Ut as [| ? ? Hv Ut']; subst.
    change (chars (u :: v :: t)) with
      (if (55296 <=? u) && (u <? 57344) then
         if (u <? 56320) && (56320 <=? v) && (v <? 57344) then 65536 + (u - 55296) * 1024 + (v - 56320) :: chars t
         else 63 :: chars (v :: t)
       else u :: chars (v :: t)).
    destruct (_ && (u <? 57344)) eqn:S; [destruct (_ && (v <? 57344)) eqn:P |]; constructor; auto; unfold character; lia.
Qed.

Lemma utf16_units : forall cs, Forall character cs -> units (utf16 cs).
Proof.
  induction 1 as [| c cs C _ IH]; [constructor |]. change (utf16 (c :: cs)) with (utf16_char c ++ utf16 cs). apply Forall_app. split; [| exact IH].
  unfold utf16_char. destruct (Z.ltb_spec c 65536); unfold character in C; repeat constructor; dm; lia.
Qed.

Lemma chars_utf16 : forall cs, Forall character cs -> chars (utf16 cs) = cs.
Proof.
  induction 1 as [| c cs C _ IH]; [reflexivity |]. change (utf16 (c :: cs)) with (utf16_char c ++ utf16 cs).
  unfold utf16_char. unfold character in C. destruct (Z.ltb_spec c 65536).
  - cbn [app chars]. replace ((55296 <=? c) && (c <? 57344)) with false by lia. now rewrite IH.
  - cbn [app]. set (u := 55296 + _). set (v := 56320 + _). assert (U : 55296 <= u < 56320) by (subst u; dm; lia). assert (V : 56320 <= v < 57344) by (subst v; dm; lia).
    cbn [chars]. replace ((55296 <=? u) && (u <? 57344)) with true by lia. replace ((u <? 56320) && (56320 <=? v) && (v <? 57344)) with true by lia.
    rewrite IH. f_equal. subst u v. dm. lia.
Qed.

Lemma written_text : forall cs, Forall character cs -> to_utf8 (utf16 cs) = utf8 cs.
Proof. intros cs C. rewrite to_utf8_chars by now apply utf16_units. now rewrite chars_utf16. Qed.

(** * Reading *)

Lemma decode_skip : forall l n bs, length l = n -> decode n (l ++ bs) = decode 0 bs.
Proof.
  induction l as [| b l IH]; intros n bs L; cbn in L; subst n; [reflexivity |]. cbn [app decode]. now apply IH.
Qed.

Ltac bools := repeat match goal with |- context [if ?b then _ else _] => first [replace b with true by lia | replace b with false by lia] end.

Lemma one_char_right : forall c rest, character c -> exists b l, utf8_char c = b :: l /\ one_char b (l ++ rest) = Some (c, length l) /\ (c <> 0 -> b <> 0) /\ (c <> 0 -> ~ In 0 l).
Proof.
  intros c rest C. unfold character in C. unfold utf8_char, one_char. destruct (Z.ltb_spec c 128); [| destruct (Z.ltb_spec c 2048); [| destruct (Z.ltb_spec c 65536)]].
  - exists c, []. split; [reflexivity |]. bools. split; [reflexivity |]. split; auto.
  - eexists _, _. split; [reflexivity |]. set (b := 192 + c / 64). assert (192 + 2 <= b <= 223) by (subst b; dm; lia). bools. cbn [app following].
    set (d := 128 + c mod 64). assert (128 <= d < 192) by (subst d; dm; lia). bools.
    replace (b mod 32 * 64 + d mod 64) with c by (subst b d; dm; lia). bools.
    split; [reflexivity |]. split; [lia |]. intros _ I. repeat (destruct I as [I | I]; [lia |]). exact I.
  - eexists _, _. split; [reflexivity |]. set (b := 224 + c / 4096). assert (224 <= b <= 239) by (subst b; dm; lia). bools. cbn [app following].
    set (d := 128 + (c / 64) mod 64). assert (128 <= d < 192) by (subst d; dm; lia).
    set (e := 128 + c mod 64). assert (128 <= e < 192) by (subst e; dm; lia). bools.
    replace ((b mod 16 * 64 + d mod 64) * 64 + e mod 64) with c by (subst b d e; dm; lia). bools.
    split; [reflexivity |]. split; [lia |]. intros _ I. repeat (destruct I as [I | I]; [lia |]). exact I.
  - eexists _, _. split; [reflexivity |]. set (b := 240 + c / 262144). assert (240 <= b <= 244) by (subst b; dm; lia). bools. cbn [app following].
    set (d := 128 + (c / 4096) mod 64). assert (128 <= d < 192) by (subst d; dm; lia).
    set (e := 128 + (c / 64) mod 64). assert (128 <= e < 192) by (subst e; dm; lia).
    set (f := 128 + c mod 64). assert (128 <= f < 192) by (subst f; dm; lia). bools.
    replace (((b mod 8 * 64 + d mod 64) * 64 + e mod 64) * 64 + f mod 64) with c by (subst b d e f; dm; lia). bools.
    split; [reflexivity |]. split; [lia |]. intros _ I. repeat (destruct I as [I | I]; [lia |]). exact I.
Qed.

Lemma decode_utf8 : forall cs, Forall character cs -> decode 0 (utf8 cs) = utf16 cs.
Proof.
  induction 1 as [| c cs C _ IH]; [reflexivity |]. change (utf8 (c :: cs)) with (utf8_char c ++ utf8 cs). change (utf16 (c :: cs)) with (utf16_char c ++ utf16 cs).
  destruct (one_char_right c (utf8 cs) C) as (b & l & E & O & _). rewrite E. cbn [app decode]. rewrite O, (decode_skip l) by reflexivity. now rewrite IH.
Qed.

Lemma following_range : forall n c bs c', following n c bs = Some c' -> 0 <= c -> 0 <= c'.
Proof.
  induction n as [| n IH]; intros c bs c' F C; cbn in F; [congruence |]. destruct bs as [| b bs]; [discriminate |].
  destruct (_ && _); [| discriminate]. apply IH in F; [exact F |]. dm; lia.
Qed.

Lemma one_char_character : forall b bs c n, 0 <= b -> one_char b bs = Some (c, n) -> character c /\ (b <> 0 -> c <> 0).
Proof.
  intros b bs c n B. unfold one_char, character. destruct (Z.ltb_spec b 128).
  { intro E. injection E as <- <-. lia. }
  destruct (Z.leb_spec b 193); [discriminate |].
  assert (K : forall k least d, 0 <= d -> 0 < least ->
    match following k d bs with
    | Some c' => if (c' <? least) || ((55296 <=? c') && (c' <? 57344)) || (1114111 <? c') then None else Some (c', k)
    | None => None end = Some (c, n) -> (0 <= c <= 55295 \/ 57344 <= c <= 1114111) /\ (b <> 0 -> c <> 0)).
  { intros k least d D L E. destruct (following k d bs) as [c' |] eqn:F; [| discriminate]. apply following_range in F; [| exact D].
    destruct (_ || _) eqn:X in E; [discriminate |]. injection E as <- <-. lia. }
  destruct (b <=? 223); [apply K; dm; lia |]. destruct (b <=? 239); [apply K; dm; lia |]. destruct (b <? 245); [apply K; dm; lia | discriminate].
Qed.

Lemma decode_characters : forall bs n, Forall (fun b => 0 < b) bs -> exists cs, Forall character cs /\ ~ In 0 cs /\ decode n bs = utf16 cs.
Proof.
  induction bs as [| b bs IH]; intros n B; [exists []; cbn; auto |]. inversion B; subst. destruct n as [| n]; [| cbn; now apply IH].
  cbn [decode]. destruct (one_char b bs) as [(c, k) |] eqn:O.
  - apply one_char_character in O; [| lia]. destruct O as (C & N). destruct (IH k) as (cs & CS & Z0 & E); auto. exists (c :: cs). split; [now constructor |].
    split; [cbn; intros [I | I]; [lia | contradiction] |]. now rewrite E.
  - destruct (IH 0%nat) as (cs & CS & Z0 & E); auto. exists (65533 :: cs). split; [constructor; auto; unfold character; lia |].
    split; [cbn; intros [I | I]; [lia | contradiction] |]. now rewrite E.
Qed.

Lemma before_nul_positive : forall bs, Forall (fun b => 0 <= b) bs -> Forall (fun b => 0 < b) (before_nul bs).
Proof.
  induction 1 as [| b bs B _ IH]; cbn; [constructor |]. destruct (Z.eqb_spec b 0); constructor; auto; lia.
Qed.

Lemma after_mark_positive : forall bs, Forall (fun b => 0 < b) bs -> Forall (fun b => 0 < b) (after_mark bs).
Proof.
  intros bs B. destruct bs as [| a [| b [| c bs]]]; auto. unfold after_mark. destruct (_ && _); auto. now repeat match goal with H : Forall _ (_ :: _) |- _ => inversion H; clear H; subst end.
Qed.

(** Whatever is read is a text. *)
Lemma read_text : forall bs, Forall (fun b => 0 <= b) bs -> exists cs, Forall character cs /\ ~ In 0 cs /\ from_utf8 bs = utf16 cs.
Proof. intros bs B. apply decode_characters. now apply after_mark_positive, before_nul_positive. Qed.

Lemma utf8_positive : forall cs, Forall character cs -> Forall (fun b => 0 <= b < 256) (utf8 cs).
Proof.
  induction 1 as [| c cs C _ IH]; [constructor |]. change (utf8 (c :: cs)) with (utf8_char c ++ utf8 cs). apply Forall_app. split; [| exact IH].
  unfold utf8_char, character in *. destruct (Z.ltb_spec c 128); [| destruct (Z.ltb_spec c 2048); [| destruct (Z.ltb_spec c 65536)]]; repeat constructor; dm; lia.
Qed.

(** The characters before the first U+0000. *)
Lemma before_nul_utf8 : forall cs, Forall character cs -> before_nul (utf8 cs) = utf8 (before_nul cs).
Proof.
  induction 1 as [| c cs C CS IH]; [reflexivity |]. cbn [before_nul]. change (utf8 (c :: cs)) with (utf8_char c ++ utf8 cs).
  destruct (Z.eqb_spec c 0) as [-> | N]; [reflexivity |]. change (utf8 (c :: before_nul cs)) with (utf8_char c ++ utf8 (before_nul cs)).
  destruct (one_char_right c [] C) as (b & l & E & _ & B & L). rewrite E. specialize (B N). specialize (L N). rewrite <- IH. cbn [app before_nul].
  destruct (Z.eqb_spec b 0); [contradiction |]. f_equal. clear E. induction l as [| x l IHl]; [reflexivity |]. cbn [app before_nul].
  destruct (Z.eqb_spec x 0); [exfalso; apply L; now left |]. f_equal. apply IHl. intro I. apply L. now right.
Qed.

Definition without_mark (cs : list Z) : list Z := match cs with 65279 :: cs' => cs' | _ => cs end.

Lemma without_mark_other : forall c cs, c <> 65279 -> without_mark (c :: cs) = c :: cs.
Proof. intros c cs N. unfold without_mark. destruct c as [| p | p]; try reflexivity. repeat (destruct p as [p | p |]; try reflexivity). contradiction. Qed.

Lemma after_mark_utf8 : forall cs, Forall character cs -> after_mark (utf8 cs) = utf8 (without_mark cs).
Proof.
  intros cs CS. destruct cs as [| c cs]; [reflexivity |]. inversion CS as [| ? ? C CS']; subst. destruct (Z.eq_dec c 65279) as [-> | N].
  - reflexivity.
  - rewrite without_mark_other by exact N. change (utf8 (c :: cs)) with (utf8_char c ++ utf8 cs).
    unfold character in C. unfold utf8_char. destruct (Z.ltb_spec c 128); [| destruct (Z.ltb_spec c 2048); [| destruct (Z.ltb_spec c 65536)]]; unfold after_mark; cbn [app].
    + destruct (utf8 cs) as [| x [| y t]]; try reflexivity. replace (c =? 239) with false by lia. reflexivity.
    + destruct (utf8 cs) as [| x t]; try reflexivity. replace (192 + c / 64 =? 239) with false by (symmetry; apply Z.eqb_neq; dm; lia). reflexivity.
    + destruct (Z.eqb_spec (224 + c / 4096) 239); [| reflexivity]. destruct (Z.eqb_spec (128 + (c / 64) mod 64) 187); [| reflexivity].
      destruct (Z.eqb_spec (128 + c mod 64) 191); [| reflexivity]. exfalso. apply N. dm. lia.
    + replace (240 + c / 262144 =? 239) with false by (symmetry; apply Z.eqb_neq; dm; lia). reflexivity.
Qed.

Lemma before_nul_characters : forall cs, Forall character cs -> Forall character (before_nul cs).
Proof. induction 1 as [| c cs C _ IH]; cbn; [constructor |]. destruct (c =? 0); constructor; auto. Qed.
Lemma without_mark_characters : forall cs, Forall character cs -> Forall character (without_mark cs).
Proof. intros cs C. destruct cs as [| c cs]; [constructor |]. destruct (Z.eq_dec c 65279) as [-> | N]; [now inversion C | now rewrite without_mark_other]. Qed.

(** What is read from valid UTF-8. *)
Lemma read_utf8 : forall cs, Forall character cs -> from_utf8 (utf8 cs) = utf16 (without_mark (before_nul cs)).
Proof.
  intros cs C. unfold from_utf8. rewrite before_nul_utf8, after_mark_utf8 by auto using before_nul_characters.
  apply decode_utf8. now apply without_mark_characters, before_nul_characters.
Qed.

Lemma before_nul_none : forall cs, ~ In 0 cs -> before_nul cs = cs.
Proof. induction cs as [| c cs IH]; intro N; [reflexivity |]. cbn. destruct (Z.eqb_spec c 0) as [-> | _]; [exfalso; apply N; now left |]. f_equal. apply IH. intro I. apply N. now right. Qed.

Lemma utf16_zero : forall cs, Forall character cs -> (In 0 (utf16 cs) <-> In 0 cs).
Proof.
  induction 1 as [| c cs C _ IH]; [reflexivity |]. change (utf16 (c :: cs)) with (utf16_char c ++ utf16 cs). rewrite in_app_iff, IH. cbn [In].
  assert (X : In 0 (utf16_char c) <-> c = 0); [| now rewrite X]. unfold utf16_char, character in *. destruct (Z.ltb_spec c 65536).
  - split; [intros [E | []]; lia | intros ->; now left].
  - split; [| lia]. intros [E | [E | []]]; dm; lia.
Qed.

Lemma utf16_first : forall cs t, Forall character cs -> (utf16 cs = 65279 :: t <-> exists cs', cs = 65279 :: cs' /\ t = utf16 cs').
Proof.
  intros cs t C. split; [| intros (cs' & -> & ->); reflexivity]. destruct cs as [| c cs]; [discriminate |]. inversion C as [| ? ? X]; subst.
  change (utf16 (c :: cs)) with (utf16_char c ++ utf16 cs). unfold utf16_char, character in *. destruct (Z.ltb_spec c 65536); cbn [app]; intro E.
  - injection E as -> <-. now exists cs.
  - apply (f_equal (hd 0)) in E. change (55296 + (c - 65536) / 1024 = 65279) in E. dm. lia.
Qed.

(** * Lone halves *)

Lemma chars_cons2 : forall u v t, chars (u :: v :: t) =
  if (55296 <=? u) && (u <? 57344) then
    if (u <? 56320) && (56320 <=? v) && (v <? 57344) then 65536 + (u - 55296) * 1024 + (v - 56320) :: chars t
    else 63 :: chars (v :: t)
  else u :: chars (v :: t).
Proof. reflexivity. Qed.

(** Nothing is paired across the border. *)
Definition apart (a b : list Z) : Prop := forall t v w s, a = t ++ [v] -> b = w :: s -> high v -> low w -> False.

Lemma chars_app : forall a b, apart a b -> chars (a ++ b) = chars a ++ chars b.
Proof.
  intros a b. revert a. apply (two_ind (fun a => apart a b -> chars (a ++ b) = chars a ++ chars b)).
  - reflexivity.
  - intros u A. destruct b as [| w s].
    + cbn [app]. now rewrite app_nil_r.
    + cbn [app]. rewrite chars_cons2. specialize (A [] u w s eq_refl eq_refl). unfold high, low in A. cbn [chars].
      destruct ((55296 <=? u) && (u <? 57344)) eqn:S; [| reflexivity].
      replace ((u <? 56320) && (56320 <=? w) && (w <? 57344)) with false by lia. reflexivity.
  - intros u v t IH1 IH2 A. assert (A1 : apart (v :: t) b).
    { intros t' x w s E. apply (A (u :: t') x w s). now rewrite E. }
    assert (A2 : apart t b).
    { intros t' x w s E. apply (A (u :: v :: t') x w s). now rewrite E. }
    cbn [app]. rewrite !chars_cons2. specialize (IH1 A2). specialize (IH2 A1). cbn [app] in IH2.
    destruct (_ && (u <? 57344)); [destruct (_ && (v <? 57344)) |]; cbn [app]; rewrite ?IH1, ?IH2; reflexivity.
Qed.

Lemma lone_chars : forall a u b, lone a u b -> chars (a ++ u :: b) = chars a ++ 63 :: chars b.
Proof.
  intros a u b [(H & L) | (L & H)]; unfold high, low in *.
  - rewrite chars_app.
    + f_equal. destruct b as [| v b].
      * cbn. replace ((55296 <=? u) && (u <? 57344)) with true by lia. reflexivity.
      * specialize (L v b eq_refl). rewrite chars_cons2. replace ((55296 <=? u) && (u <? 57344)) with true by lia.
        replace ((u <? 56320) && (56320 <=? v) && (v <? 57344)) with false by lia. reflexivity.
    + intros t v w s _ E _ X. injection E as <- _. unfold low in X. lia.
  - rewrite chars_app.
    + f_equal. destruct b as [| v b].
      * cbn. replace ((55296 <=? u) && (u <? 57344)) with true by lia. reflexivity.
      * rewrite chars_cons2. replace ((55296 <=? u) && (u <? 57344)) with true by lia.
        replace ((u <? 56320) && (56320 <=? v) && (v <? 57344)) with false by lia. reflexivity.
    + intros t v w s E _ X _. exact (H t v E X).
Qed.

Lemma units_app : forall a b, units (a ++ b) <-> units a /\ units b.
Proof. intros a b. apply Forall_app. Qed.

Lemma lone_written : forall a u b, units (a ++ u :: b) -> lone a u b -> to_utf8 (a ++ u :: b) = to_utf8 a ++ 63 :: to_utf8 b.
Proof.
  intros a u b U L. rewrite to_utf8_chars, lone_chars by auto. apply units_app in U. destruct U as (Ua & Ub). inversion Ub; subst.
  rewrite !to_utf8_chars by auto. unfold utf8. now rewrite flat_map_app.
Qed.

Lemma nul_read : forall a b, units a -> units b -> from_utf8 (to_utf8 (a ++ 0 :: b)) = from_utf8 (to_utf8 a).
Proof.
  intros a b A B. assert (U : units (a ++ 0 :: b)) by (apply units_app; split; [exact A | constructor; [lia | exact B]]).
  rewrite !to_utf8_chars by auto. rewrite chars_app.
  - assert (Z0 : chars (0 :: b) = 0 :: chars b) by (destruct b; reflexivity). rewrite Z0.
    assert (CA := chars_characters a A). assert (CB := chars_characters b B).
    rewrite !read_utf8; [| exact CA |]. 2: { apply Forall_app. split; [exact CA |]. constructor; [unfold character; lia | exact CB]. }
    f_equal. f_equal. clear. induction (chars a) as [| c cs IH]; [reflexivity |]. cbn. destruct (c =? 0); [reflexivity | now rewrite IH].
  - intros t v w s _ E _ L. injection E as <- _. unfold low in L. lia.
Qed.

Lemma mark_read : forall us, units us -> from_utf8 (to_utf8 (65279 :: us)) = utf16 (before_nul (chars us)).
Proof.
  intros us U. assert (U' : units (65279 :: us)) by (constructor; [lia | exact U]). rewrite to_utf8_chars by exact U'.
  assert (C : chars (65279 :: us) = 65279 :: chars us) by (destruct us; reflexivity). rewrite C, read_utf8; [reflexivity |].
  constructor; [unfold character; lia | now apply chars_characters].
Qed.

(** * Messages of a status *)

Lemma decode_ascii : forall bs, Forall (fun b => 0 <= b < 128) bs -> decode 0 bs = bs.
Proof.
  induction 1 as [| b bs B _ IH]; [reflexivity |]. cbn [decode]. unfold one_char. replace (b <? 128) with true by lia. replace (b <? 65536) with true by lia. cbn [app]. now rewrite IH.
Qed.

Lemma percent_ascii : forall bs, Forall (fun b => 0 <= b < 256) bs -> Forall (fun b => 0 < b < 128) (percent_encoded bs).
Proof.
  induction 1 as [| b bs B _ IH]; [constructor |]. change (percent_encoded (b :: bs)) with (percent_byte b ++ percent_encoded bs). apply Forall_app. split; [| exact IH].
  unfold percent_byte, hex_digit. destruct (_ && _) eqn:E; [repeat constructor; lia |].
  destruct (Z.ltb_spec (b / 16) 10), (Z.ltb_spec (b mod 16) 10); repeat constructor; dm; lia.
Qed.

Lemma ascii_read : forall bs, Forall (fun b => 0 < b < 128) bs -> from_utf8 bs = bs.
Proof.
  intros bs B. unfold from_utf8. rewrite before_nul_none.
  - assert (M : after_mark bs = bs).
    { destruct bs as [| a [| b [| c bs]]]; try reflexivity. unfold after_mark. inversion B; subst. replace (a =? 239) with false by lia. reflexivity. }
    rewrite M. apply decode_ascii. eapply Forall_impl; [| exact B]. cbv beta. lia.
  - intro I. rewrite Forall_forall in B. specialize (B 0 I). lia.
Qed.

Lemma percent_plain : forall cs, Forall plain cs -> percent_encoded (utf8 cs) = utf16 cs.
Proof.
  induction 1 as [| c cs (C & N) _ IH]; [reflexivity |]. change (utf8 (c :: cs)) with (utf8_char c ++ utf8 cs). change (utf16 (c :: cs)) with (utf16_char c ++ utf16 cs).
  unfold percent_encoded in *. rewrite flat_map_app, IH. f_equal. unfold utf8_char, utf16_char. replace (c <? 128) with true by lia. replace (c <? 65536) with true by lia.
  cbn [flat_map]. unfold percent_byte. replace ((32 <=? c) && (c <=? 126) && negb (c =? 37)) with true by lia. reflexivity.
Qed.

Lemma percent_char_length : forall c, character c ->
  (plain c /\ length (percent_encoded (utf8_char c)) = length (utf16_char c)) \/ (length (utf16_char c) < length (percent_encoded (utf8_char c)))%nat.
Proof.
  intros c C. unfold character in C.
  assert (P : forall b bs, (1 <= length (percent_byte b))%nat /\ (length (percent_encoded (b :: bs)) = length (percent_byte b) + length (percent_encoded bs))%nat).
  { intros b bs. split; [unfold percent_byte; destruct (_ && _); cbn; lia |]. change (percent_encoded (b :: bs)) with (percent_byte b ++ percent_encoded bs). apply app_length. }
  assert (P3 : forall b, 128 <= b -> length (percent_byte b) = 3%nat) by (intros b B; unfold percent_byte; replace ((32 <=? b) && (b <=? 126) && negb (b =? 37)) with false by lia; reflexivity).
  unfold utf8_char, utf16_char. destruct (Z.ltb_spec c 128); [| destruct (Z.ltb_spec c 2048); [| destruct (Z.ltb_spec c 65536)]].
  - replace (c <? 65536) with true by lia. unfold percent_encoded, percent_byte. cbn [flat_map]. destruct (_ && _) eqn:E; [left; unfold plain; split; [lia | reflexivity] | right; cbn; lia].
  - right. replace (c <? 65536) with true by lia. rewrite (proj2 (P _ _)), P3 by (dm; lia). cbn [length]. lia.
  - right. rewrite (proj2 (P _ _)), P3 by (dm; lia). cbn [length]. lia.
  - right. rewrite (proj2 (P _ _)), P3 by (dm; lia). cbn [length]. lia.
Qed.

Lemma percent_length : forall cs, Forall character cs ->
  (Forall plain cs /\ length (percent_encoded (utf8 cs)) = length (utf16 cs)) \/ (length (utf16 cs) < length (percent_encoded (utf8 cs)))%nat.
Proof.
  induction 1 as [| c cs C _ IH]; [left; split; [constructor | reflexivity] |]. change (utf8 (c :: cs)) with (utf8_char c ++ utf8 cs). change (utf16 (c :: cs)) with (utf16_char c ++ utf16 cs).
  assert (E : percent_encoded (utf8_char c ++ utf8 cs) = percent_encoded (utf8_char c) ++ percent_encoded (utf8 cs)) by apply flat_map_app.
  rewrite E, !app_length. destruct (percent_char_length c C) as [(P & L) | L], IH as [(Ps & Ls) | Ls]; [left; split; [now constructor | lia] | right; lia ..].
Qed.

Lemma status_read : forall cs, Forall character cs -> (from_utf8 (percent_encoded (utf8 cs)) = utf16 cs <-> Forall plain cs).
Proof.
  intros cs C. rewrite ascii_read by now apply percent_ascii, utf8_positive. split; [| apply percent_plain].
  intro E. destruct (percent_length cs C) as [(P & _) | L]; [exact P |]. rewrite E in L. lia.
Qed.

Lemma percent_byte_first : forall a b s t, 0 <= a < 256 -> 0 <= b < 256 -> percent_byte a ++ s = percent_byte b ++ t -> a = b /\ s = t.
Proof.
  intros a b s t A B E. unfold percent_byte in E.
  destruct (_ && negb (a =? 37)) eqn:Pa; destruct (_ && negb (b =? 37)) eqn:Pb; cbn [app] in E.
  - injection E as -> ->. auto.
  - exfalso. apply (f_equal (hd 0)) in E. cbn [hd] in E. lia.
  - exfalso. apply (f_equal (hd 0)) in E. cbn [hd] in E. lia.
  - injection E as E1 E2 ->. split; [| reflexivity]. unfold hex_digit in *.
    destruct (Z.ltb_spec (a / 16) 10), (Z.ltb_spec (b / 16) 10), (Z.ltb_spec (a mod 16) 10), (Z.ltb_spec (b mod 16) 10); dm; lia.
Qed.

Lemma percent_injective : forall a b, Forall (fun x => 0 <= x < 256) a -> Forall (fun x => 0 <= x < 256) b -> percent_encoded a = percent_encoded b -> a = b.
Proof.
  assert (N : forall x, percent_byte x <> []) by (intro x; unfold percent_byte; destruct (_ && _); discriminate).
  intros a b A. revert b. induction A as [| x a X _ IH]; intros b B E.
  - destruct b as [| y b]; [reflexivity |]. exfalso. cbn in E. specialize (N y). destruct (percent_byte y); [auto | discriminate E].
  - destruct b as [| y b]; [exfalso; cbn in E; specialize (N x); destruct (percent_byte x); [auto | discriminate E] |].
    inversion B; subst. change (percent_byte x ++ percent_encoded a = percent_byte y ++ percent_encoded b) in E.
    apply percent_byte_first in E; [| assumption ..]. destruct E as (-> & E). now rewrite (IH b).
Qed.

(** The reader on arbitrary input: what it consumes, how it ends, and when the code and the
    hardened reader ([hard = true]) agree. *)

From Coq Require Import ZArith List Bool Lia ZifyBool.
From Verif Require Import Base WireModel Values MessageModel WireSpec WireProofs MessageSpec
  MessageProofs.
Import ListNotations.
Open Scope Z_scope.
Ltac Zify.zify_post_hook ::= Z.div_mod_to_equations.

(** ** Local readers *)

(** [local n op]: a successful run consumes a prefix of the remaining bytes and depends on
    nothing else; a rejected negative length does not depend on later bytes; running out of fuel
    needs at least [n] remaining bytes; the only undefined operations are over-reads and shifts. *)
Definition local {A} (n : nat) (op : list Z -> iter -> res (A * iter)) : Prop :=
  forall pre rest, Zlen rest <= INT_MAX ->
  match op (pre ++ rest) (cur pre rest) with
  | Ok (a, it') =>
      exists x rest', rest = x ++ rest' /\ it' = cur (pre ++ x) rest'
      /\ forall pre2 rest2, Zlen (x ++ rest2) <= INT_MAX ->
         op (pre2 ++ x ++ rest2) (cur pre2 (x ++ rest2)) = Ok (a, cur (pre2 ++ x) rest2)
  | Throw NegativeLength =>
      forall pre2 rest2, Zlen (rest ++ rest2) <= INT_MAX ->
      op (pre2 ++ rest ++ rest2) (cur pre2 (rest ++ rest2)) = Throw NegativeLength
  | Throw _ => True
  | UB r => r = OverRead \/ r = ShiftOverflow
  | OutOfFuel => (n <= length rest)%nat
  end.

(** A successful run consumes something. *)
Definition progress {A} (op : list Z -> iter -> res (A * iter)) : Prop :=
  forall pre rest a it', op (pre ++ rest) (cur pre rest) = Ok (a, it') ->
  it_left it' < Zlen rest.

Lemma local_ext {A} n (op op' : list Z -> iter -> res (A * iter)) :
  (forall d it, op d it = op' d it) -> local n op -> local n op'.
Proof.
  intros E L pre rest B. specialize (L pre rest B). rewrite E in L.
  destruct (op' (pre ++ rest) (cur pre rest)) as [[a it']|e|r|]; auto.
  - destruct L as (x & rest' & -> & -> & X). exists x, rest'. split; [auto|]. split; [auto|].
    intros. rewrite <- E. auto.
  - destruct e; auto. intros. rewrite <- E. auto.
Qed.

Lemma local_mono {A} n n' (op : list Z -> iter -> res (A * iter)) :
  (n' <= n)%nat -> local n op -> local n' op.
Proof.
  intros E L pre rest B. specialize (L pre rest B).
  destruct (op (pre ++ rest) (cur pre rest)) as [[a it']|e|r|]; auto. lia.
Qed.

Lemma local_ret {A} n (a : A) : local n (fun _ it => Ok (a, it)).
Proof.
  intros pre rest B. exists [], rest. rewrite app_nil_r. split; [auto|]. split; [auto|].
  intros. now rewrite app_nil_r.
Qed.

Lemma Zlen_le_app (x y : list Z) : Zlen (x ++ y) <= INT_MAX -> Zlen y <= INT_MAX.
Proof. zlen. pose proof (Zlen_nonneg x). lia. Qed.

Lemma local_bind {A B} n (op : list Z -> iter -> res (A * iter))
  (k : A -> list Z -> iter -> res (B * iter)) :
  local n op -> (forall a, local n (k a)) ->
  local n (fun d it => '(a, it') <- op d it ;; k a d it').
Proof.
  intros L K pre rest Bd. pose proof (L pre rest Bd) as L1.
  destruct (op (pre ++ rest) (cur pre rest)) as [[a it']|e|r|] eqn:E; cbn [bind].
  - destruct L1 as (x & rest' & -> & -> & X).
    pose proof (Zlen_le_app _ _ Bd) as Bd'.
    pose proof (K a (pre ++ x) rest' Bd') as K1. rewrite <- app_assoc in K1.
    destruct (k a (pre ++ x ++ rest') (cur (pre ++ x) rest')) as [[b it'']|e|r|].
    + destruct K1 as (y & rest'' & -> & -> & Y). exists (x ++ y), rest''.
      rewrite <- !app_assoc. split; [auto|]. split; [auto|].
      intros pre2 rest2 B2. rewrite <- !app_assoc in *.
      rewrite X by assumption. cbn [bind].
      specialize (Y (pre2 ++ x) rest2 (Zlen_le_app _ _ B2)).
      rewrite <- !app_assoc in Y. exact Y.
    + destruct e; auto. intros pre2 rest2 B2. rewrite <- !app_assoc in *.
      rewrite X by assumption. cbn [bind].
      specialize (K1 (pre2 ++ x) rest2 (Zlen_le_app _ _ B2)).
      rewrite <- !app_assoc in K1. exact K1.
    + exact K1.
    + rewrite app_length. lia.
  - destruct e; auto. intros pre2 rest2 B2. rewrite L1 by assumption. reflexivity.
  - exact L1.
  - exact L1.
Qed.

(** The continuation only has to cope with a shorter rest if the first part makes progress. *)
Lemma local_bind_progress {A B} n (op : list Z -> iter -> res (A * iter))
  (k : A -> list Z -> iter -> res (B * iter)) :
  local (S n) op -> progress op -> (forall a, local n (k a)) ->
  local (S n) (fun d it => '(a, it') <- op d it ;; k a d it').
Proof.
  intros L P K pre rest Bd.
  assert (L0 : local n op) by (apply (local_mono (S n)); [lia | exact L]).
  pose proof (local_bind n op k L0 K pre rest Bd) as H. cbn beta in H.
  destruct (op (pre ++ rest) (cur pre rest)) as [[a it']|e|r|] eqn:E; cbn [bind] in *.
  - pose proof (L pre rest Bd) as L1. rewrite E in L1.
    destruct L1 as (x & rest' & -> & -> & _). apply P in E. cbn [cur it_left] in E. zlen_in E.
    pose proof (Zlen_le_app _ _ Bd) as Bd'.
    pose proof (K a (pre ++ x) rest' Bd') as K1. rewrite <- app_assoc in K1.
    destruct (k a (pre ++ x ++ rest') (cur (pre ++ x) rest')) as [[b it'']|e|r|]; auto.
    rewrite app_length. unfold Zlen in E. lia.
  - exact H.
  - exact H.
  - specialize (L pre rest Bd). rewrite E in L. exact L.
Qed.

Lemma local_consumes {A} n (op : list Z -> iter -> res (A * iter)) pre rest a it' :
  local n op -> Zlen rest <= INT_MAX -> op (pre ++ rest) (cur pre rest) = Ok (a, it') ->
  it_left it' <= Zlen rest.
Proof.
  intros L B E. specialize (L pre rest B). rewrite E in L.
  destruct L as (x & rest' & -> & -> & _). cbn [cur it_left]. zlen.
  pose proof (Zlen_nonneg x). lia.
Qed.

(** Progress, for remaining lengths that occur. *)
Definition progress_in {A} (op : list Z -> iter -> res (A * iter)) : Prop :=
  forall pre rest a it', Zlen rest <= INT_MAX ->
  op (pre ++ rest) (cur pre rest) = Ok (a, it') -> it_left it' < Zlen rest.

(** ** The wire readers are local *)

Lemma varint_loop_local n0 w : forall k acc n, (0 < n0)%nat -> k + 7 * Z.of_nat n0 = 77 ->
  local n (fun d it => varint_loop n0 w d it k acc).
Proof.
  induction n0 as [|n0 IH]; intros k acc n Hn Hk pre rest B; [lia|].
  cbn [varint_loop]. destruct rest as [|b rest].
  - rewrite app_nil_r. rewrite deref_end. cbn [bind].
    destruct (64 <=? k); [auto|]. rewrite incr_end. exact I.
  - rewrite deref_cur. cbn [bind]. destruct (64 <=? k) eqn:K; [auto|].
    rewrite incr_cur. cbn [bind].
    set (acc' := wrapU w (acc + wrapU 64 (Z.shiftl (Z.land b 127) k))).
    destruct (Z.land b 128 =? 0) eqn:T.
    + exists [b], rest. split; [auto|]. split; [auto|]. intros pre2 rest2 B2.
      cbn [app]. rewrite deref_cur. cbn [bind]. rewrite incr_cur. cbn [bind].
      fold acc'. now rewrite T.
    + assert (Hn0 : (0 < n0)%nat) by lia. assert (Hk0 : k + 7 + 7 * Z.of_nat n0 = 77) by lia.
      assert (B1 : Zlen rest <= INT_MAX) by (zlen_in B; lia).
      pose proof (IH (k + 7) acc' n Hn0 Hk0 (pre ++ [b]) rest B1) as L.
      rewrite <- app_assoc in L. cbn [app] in L.
      destruct (varint_loop n0 w (pre ++ b :: rest) (cur (pre ++ [b]) rest) (k + 7) acc')
        as [[a it']|e|r|]; auto.
      * destruct L as (x & rest' & -> & -> & X). exists (b :: x), rest'.
        rewrite <- app_assoc. split; [auto|]. split; [auto|]. intros pre2 rest2 B2.
        cbn [app]. rewrite deref_cur. cbn [bind]. rewrite incr_cur. cbn [bind].
        fold acc'. rewrite T.
        specialize (X (pre2 ++ [b]) rest2). rewrite <- !app_assoc in X. cbn [app] in X.
        apply X. cbn [app] in B2. zlen_in B2. zlen. lia.
      * destruct e; auto. intros pre2 rest2 B2.
        cbn [app]. rewrite deref_cur. cbn [bind]. rewrite incr_cur. cbn [bind].
        fold acc'. rewrite T.
        specialize (L (pre2 ++ [b]) rest2). rewrite <- !app_assoc in L. cbn [app] in L.
        apply L. cbn [app] in B2. zlen_in B2. zlen. lia.
      * simpl. lia.
Qed.

Lemma varint_loop_progress n0 w : forall k acc, progress (fun d it => varint_loop n0 w d it k acc).
Proof.
  induction n0 as [|n0 IH]; intros k acc pre rest a it' H; [discriminate|].
  cbn [varint_loop] in H. destruct rest as [|b rest].
  - rewrite app_nil_r, deref_end in H. cbn [bind] in H.
    destruct (64 <=? k); [discriminate|]. rewrite incr_end in H. discriminate.
  - rewrite deref_cur in H. cbn [bind] in H. destruct (64 <=? k); [discriminate|].
    rewrite incr_cur in H. cbn [bind] in H. destruct (Z.land b 128 =? 0).
    + injection H as _ <-. cbn [cur it_left]. zlen. lia.
    + specialize (IH (k + 7) (wrapU w (acc + wrapU 64 (Z.shiftl (Z.land b 127) k)))
                     (pre ++ [b]) rest a it').
      rewrite <- app_assoc in IH. cbn [app] in IH. specialize (IH H). zlen. lia.
Qed.

Lemma varint_local n w : local n (deserializeVarintCommon w).
Proof. apply (varint_loop_local 11 w 0 0 n); lia. Qed.

Lemma varint_progress w : progress (deserializeVarintCommon w).
Proof. apply (varint_loop_progress 11 w 0 0). Qed.

Lemma progress_bind {A B} n (op : list Z -> iter -> res (A * iter))
  (k : A -> list Z -> iter -> res (B * iter)) :
  local n op -> progress_in op -> (forall a, local n (k a)) ->
  progress_in (fun d it => '(a, it') <- op d it ;; k a d it').
Proof.
  intros L P K pre rest b it'' Bd H. cbn beta in H.
  destruct (op (pre ++ rest) (cur pre rest)) as [[a it']|e|r|] eqn:E; cbn [bind] in H;
    try discriminate.
  pose proof (P _ _ _ _ Bd E) as E1.
  pose proof (L pre rest Bd) as L1. rewrite E in L1. destruct L1 as (x & rest' & -> & -> & _).
  pose proof (Zlen_le_app _ _ Bd) as Bd'. rewrite app_assoc in H.
  apply (local_consumes n _ _ _ _ _ (K a) Bd') in H. cbn [cur it_left] in E1. lia.
Qed.

Lemma progress_weaken {A} (op : list Z -> iter -> res (A * iter)) : progress op -> progress_in op.
Proof. intros P pre rest a it' _ H. eapply P; eauto. Qed.

(** Skipping [c] bytes, with some value read from the skipped bytes. *)
Lemma take_split c (rest : list Z) : 0 <= c <= Zlen rest ->
  exists x rest', rest = x ++ rest' /\ Zlen x = c.
Proof.
  intro H. exists (firstn (Z.to_nat c) rest), (skipn (Z.to_nat c) rest).
  split; [symmetry; apply firstn_skipn|]. unfold Zlen in *. rewrite firstn_length. lia.
Qed.

Lemma advance_local n c :
  local n (fun _ it => it' <- advance true it c ;; Ok (tt, it')).
Proof.
  intros pre rest B. destruct (Z.ltb_spec c 0).
  - unfold advance. cbn [andb]. replace (c <? 0) with true by lia. cbn [bind]. auto.
  - destruct (Z.ltb_spec (Zlen rest) c).
    + rewrite advance_past by lia. exact I.
    + destruct (take_split c rest) as (x & rest' & -> & <-); [lia|].
      rewrite advance_cur by assumption. cbn [bind]. exists x, rest'.
      split; [auto|]. split; [auto|]. intros. now rewrite advance_cur.
Qed.

Lemma fixed_local n c : 0 < c -> local n (deserializeFixed true c).
Proof.
  intros Hc pre rest B. destruct (Z.ltb_spec (Zlen rest) c).
  - unfold deserializeFixed. destruct (_ <=? _); [|auto].
    rewrite advance_past by lia. exact I.
  - destruct (take_split c rest) as (x & rest' & -> & Hx); [lia|].
    rewrite fixed_read by assumption. exists x, rest'.
    split; [auto|]. split; [auto|]. intros. now rewrite fixed_read.
Qed.

Lemma fixed_progress c : 0 < c -> progress_in (deserializeFixed true c).
Proof.
  intros Hc pre rest a it' B H. unfold deserializeFixed in H.
  destruct (_ <=? _) eqn:G; [|discriminate].
  destruct (Z.ltb_spec (Zlen rest) c).
  - rewrite advance_past in H by lia. discriminate.
  - destruct (take_split c rest) as (x & rest' & -> & <-); [lia|].
    rewrite advance_cur in H by assumption. injection H as _ <-. cbn [cur it_left]. zlen. lia.
Qed.

(** The part of deserializeLengthDelimited after the length was read. *)
Definition take_bytes (hard : bool) (c : Z) (data : list Z) (it1 : iter) : res (list Z * iter) :=
  result <- (if c <? 0 then Ok (cstring (skipn (Z.to_nat (it_pos it1)) data))
             else if it_pos it1 + c <=? Zlen data + 1
             then Ok (slice (data ++ [0]) (it_pos it1) c)
             else UB OverRead) ;;
  it2 <- advance hard it1 c ;;
  Ok (result, it2).

Lemma lendel_take hard data it :
  deserializeLengthDelimited hard data it
  = '(length, it1) <- deserializeVarintCommon 32 data it ;; take_bytes hard (toS 32 length) data it1.
Proof. reflexivity. Qed.

Lemma slice_app_x pre x rest :
  slice ((pre ++ x ++ rest) ++ [0]) (Zlen pre) (Zlen x) = x.
Proof. rewrite <- !app_assoc. rewrite slice_mid. apply slice_first. Qed.

Lemma take_local n c : local n (take_bytes true c).
Proof.
  intros pre rest B. unfold take_bytes. destruct (Z.ltb_spec c 0).
  - cbn [bind]. unfold advance. cbn [andb]. replace (c <? 0) with true by lia. cbn [bind].
    intros. replace (c <? 0) with true by lia. reflexivity.
  - destruct (Z.ltb_spec (Zlen rest) c).
    + destruct (_ <=? _); cbn [bind]; [|auto]. rewrite advance_past by lia. exact I.
    + destruct (take_split c rest) as (x & rest' & -> & <-); [lia|].
      cbn [it_pos cur]. replace (_ <=? _) with true by (zlen; pose proof (Zlen_nonneg rest'); lia).
      cbn [bind]. rewrite slice_app_x. rewrite advance_cur by assumption. cbn [bind].
      exists x, rest'. split; [auto|]. split; [auto|]. intros pre2 rest2 B2.
      replace (Zlen x <? 0) with false by lia.
      replace (_ <=? _) with true by (zlen; pose proof (Zlen_nonneg rest2); lia).
      cbn [bind]. rewrite slice_app_x. rewrite advance_cur by assumption. reflexivity.
Qed.

Lemma take_length c pre rest a it' : Zlen rest <= INT_MAX ->
  take_bytes true c (pre ++ rest) (cur pre rest) = Ok (a, it') -> Zlen a + it_left it' = Zlen rest.
Proof.
  intros B H. unfold take_bytes in H. destruct (Z.ltb_spec c 0).
  - cbn [bind] in H. unfold advance in H. cbn [andb] in H.
    replace (c <? 0) with true in H by lia. discriminate.
  - destruct (Z.ltb_spec (Zlen rest) c).
    + destruct (_ <=? _); cbn [bind] in H; [|discriminate].
      rewrite advance_past in H by lia. discriminate.
    + destruct (take_split c rest) as (x & rest' & -> & <-); [lia|].
      destruct (_ <=? _); cbn [bind] in H; [|discriminate].
      cbn [it_pos cur] in H. rewrite slice_app_x, advance_cur in H by assumption.
      injection H as <- <-. cbn [cur it_left]. zlen. lia.
Qed.

Lemma lendel_local n : local n (deserializeLengthDelimited true).
Proof.
  eapply local_ext; [intros; symmetry; apply lendel_take|].
  apply (local_bind n (deserializeVarintCommon 32)
           (fun l d it => take_bytes true (toS 32 l) d it)); [apply varint_local|].
  intro. apply take_local.
Qed.

Lemma lendel_length pre rest a it' : Zlen rest <= INT_MAX ->
  deserializeLengthDelimited true (pre ++ rest) (cur pre rest) = Ok (a, it') ->
  Zlen a + it_left it' < Zlen rest.
Proof.
  intros B H. rewrite lendel_take in H.
  destruct (deserializeVarintCommon 32 (pre ++ rest) (cur pre rest)) as [[l it1]|e|r|] eqn:E;
    cbn [bind] in H; try discriminate.
  pose proof (varint_progress 32 _ _ _ _ E) as P.
  pose proof (varint_local 0 32 pre rest B) as L. rewrite E in L.
  destruct L as (x & rest' & -> & -> & _). rewrite app_assoc in H.
  apply take_length in H; [|now apply Zlen_le_app in B]. cbn [cur it_left] in P. lia.
Qed.

Lemma lendel_progress : progress_in (deserializeLengthDelimited true).
Proof.
  intros pre rest a it' B H. apply lendel_length in H; [|exact B].
  pose proof (Zlen_nonneg a). lia.
Qed.

Lemma header_eq data it :
  decodeHeader data it
  = '(header, it') <- deserializeVarintCommon 32 data it ;;
    let wireType := Z.land header 7 in
    let fieldIndex := Z.shiftr header 3 in
    let valid := (fieldIndex <=? 2 ^ 29 - 1) && (0 <? fieldIndex)
               && ((wireType =? WVarintT) || (wireType =? WFixed64T)
                   || (wireType =? WFixed32T) || (wireType =? WLengthDelimitedT)) in
    Ok ((fieldIndex, wireType, valid), it').
Proof. reflexivity. Qed.

Lemma header_local n : local n decodeHeader.
Proof.
  eapply local_ext; [intros; symmetry; apply header_eq|].
  apply (local_bind n (deserializeVarintCommon 32) (fun h _ it => Ok (_, it)));
    [apply varint_local|]. intro. apply local_ret.
Qed.

Lemma header_progress : progress decodeHeader.
Proof.
  intros pre rest a it' H. rewrite header_eq in H.
  destruct (deserializeVarintCommon 32 (pre ++ rest) (cur pre rest)) as [[h it1]|e|r|] eqn:E;
    cbn [bind] in H; try discriminate.
  injection H as _ <-. now apply (varint_progress 32) in E.
Qed.

Lemma progress_ext {A} (op op' : list Z -> iter -> res (A * iter)) :
  (forall d it, op d it = op' d it) -> progress_in op -> progress_in op'.
Proof. intros E P pre rest a it' B H. rewrite <- E in H. eapply P; eauto. Qed.

Lemma basic_local n t : local n (deserializeBasic true t).
Proof.
  destruct t; (eapply local_ext; [intros d it; cbn [deserializeBasic]; reflexivity|]);
    match goal with
    | |- local _ (fun d it => '(u, it') <- deserializeVarintCommon ?w d it ;; _) =>
        apply (local_bind n (deserializeVarintCommon w) (fun u _ it' => Ok (_, it')));
          [apply varint_local | intro; apply local_ret]
    | |- local _ (fun d it => '(u, it') <- deserializeFixed true ?c d it ;; _) =>
        apply (local_bind n (deserializeFixed true c) (fun u _ it' => Ok (_, it')));
          [apply fixed_local; lia | intro; apply local_ret]
    | |- local _ (fun d it => '(u, it') <- deserializeLengthDelimited true d it ;; _) =>
        apply (local_bind n (deserializeLengthDelimited true) (fun u _ it' => Ok (_, it')));
          [apply lendel_local | intro; apply local_ret]
    end.
Qed.

Lemma basic_progress t : progress_in (deserializeBasic true t).
Proof.
  destruct t; (eapply progress_ext; [intros d it; cbn [deserializeBasic]; reflexivity|]);
    match goal with
    | |- progress_in (fun d it => '(u, it') <- deserializeVarintCommon ?w d it ;; _) =>
        apply (progress_bind 0 (deserializeVarintCommon w) (fun u _ it' => Ok (_, it')));
          [apply varint_local | apply progress_weaken, varint_progress | intro; apply local_ret]
    | |- progress_in (fun d it => '(u, it') <- deserializeFixed true ?c d it ;; _) =>
        apply (progress_bind 0 (deserializeFixed true c) (fun u _ it' => Ok (_, it')));
          [apply fixed_local; lia | apply fixed_progress; lia | intro; apply local_ret]
    | |- progress_in (fun d it => '(u, it') <- deserializeLengthDelimited true d it ;; _) =>
        apply (progress_bind 0 (deserializeLengthDelimited true) (fun u _ it' => Ok (_, it')));
          [apply lendel_local | apply lendel_progress | intro; apply local_ret]
    end.
Qed.

(** ** Lists, nested objects, maps *)

Lemma pos_cur pre x rest c : it_pos (cur pre (x ++ rest)) + c
  = it_pos (cur (pre ++ x) rest) + (c - Zlen x).
Proof. cbn [cur it_pos]. zlen. lia. Qed.

Lemma list_loop_local t fuel : forall c,
  local fuel (fun d it => list_loop fuel true t d it (it_pos it + c)).
Proof.
  induction fuel as [|fuel IH]; intros c pre rest B; [cbn; lia|].
  cbn [list_loop]. destruct (it_pos (cur pre rest) =? it_pos (cur pre rest) + c) eqn:C.
  - exists [], rest. rewrite app_nil_r. split; [auto|]. split; [auto|]. intros. cbn [list_loop].
    replace (it_pos _ =? it_pos _ + c) with true by lia. now rewrite app_nil_r.
  - pose proof (basic_local (S fuel) t pre rest B) as L.
    destruct (deserializeBasic true t (pre ++ rest) (cur pre rest)) as [[s it1]|e|r|] eqn:E;
      cbn [bind].
    + pose proof (basic_progress t _ _ _ _ B E) as P.
      destruct L as (x & rest1 & -> & -> & X).
      pose proof (Zlen_le_app _ _ B) as B1.
      cbn [cur it_left] in P. zlen_in P.
      specialize (IH (c - Zlen x) (pre ++ x) rest1 B1). rewrite <- app_assoc in IH.
      rewrite pos_cur.
      destruct (list_loop fuel true t (pre ++ x ++ rest1) (cur (pre ++ x) rest1)
                  (it_pos (cur (pre ++ x) rest1) + (c - Zlen x))) as [[l it2]|e|r|]; cbn [bind].
      * destruct IH as (y & rest2 & -> & -> & Y). exists (x ++ y), rest2.
        rewrite <- !app_assoc. split; [auto|]. split; [auto|].
        intros pre2 rest3 B3. rewrite <- !app_assoc in *. cbn [list_loop].
        replace (it_pos _ =? it_pos _ + c) with false by lia.
        rewrite X by assumption. cbn [bind]. rewrite pos_cur.
        specialize (Y (pre2 ++ x) rest3 (Zlen_le_app _ _ B3)). rewrite <- !app_assoc in Y.
        rewrite Y. reflexivity.
      * destruct e; auto. intros pre2 rest3 B3. rewrite <- !app_assoc in *. cbn [list_loop].
        replace (it_pos _ =? it_pos _ + c) with false by lia.
        rewrite X by assumption. cbn [bind]. rewrite pos_cur.
        specialize (IH (pre2 ++ x) rest3 (Zlen_le_app _ _ B3)). rewrite <- !app_assoc in IH.
        rewrite IH. reflexivity.
      * exact IH.
      * rewrite app_length. unfold Zlen in P. lia.
    + destruct e; auto. intros pre2 rest2 B2. cbn [list_loop].
      replace (it_pos _ =? it_pos _ + c) with false by lia. now rewrite L.
    + exact L.
    + exact L.
Qed.

(** it_plus with the position of its result. *)
Lemma plus_cases pre rest c : Zlen rest <= INT_MAX ->
  it_plus true (cur pre rest) c
  = if c <? 0 then Throw NegativeLength
    else if Zlen rest <? c then Throw OutOfRange
    else Ok (mkIter (Zlen rest - c) (Zlen pre + Zlen rest) (Zlen pre + c)).
Proof.
  intro B. destruct (Z.ltb_spec c 0).
  - unfold it_plus. rewrite copy_cur. cbn [bind]. unfold advance. cbn [andb].
    now replace (c <? 0) with true by lia.
  - destruct (Z.ltb_spec (Zlen rest) c); [now apply plus_past|].
    destruct (take_split c rest) as (x & rest' & -> & <-); [lia|].
    rewrite plus_cur by assumption. unfold cur. zlen. f_equal. f_equal; lia.
Qed.

(** Bounded inner loop: it_plus, then the loop up to that position. *)
Lemma bounded_local {A} n (loop : Z -> list Z -> iter -> res (A * iter)) c :
  (forall last d it a it', loop last d it = Ok (a, it') -> it_pos it' = last) ->
  (forall c, local n (fun d it => loop (it_pos it + c) d it)) ->
  local n (fun d it => last <- it_plus true it c ;; loop (it_pos last) d it).
Proof.
  intros Lst L pre rest B. rewrite plus_cases by assumption.
  destruct (Z.ltb_spec c 0); cbn [bind].
  - intros. rewrite plus_cases by assumption. replace (c <? 0) with true by lia. reflexivity.
  - destruct (Z.ltb_spec (Zlen rest) c); cbn [bind]; [exact I|].
    specialize (L c pre rest B). cbn [cur it_pos] in *.
    destruct (loop (Zlen pre + c) (pre ++ rest) (cur pre rest)) as [[a it']|e|r|] eqn:E.
    + apply Lst in E. destruct L as (x & rest' & -> & -> & X). cbn [cur it_pos] in E. zlen_in E.
      exists x, rest'. split; [auto|]. split; [auto|]. intros pre2 rest2 B2.
      rewrite plus_cases by assumption. replace (c <? 0) with false by lia.
      replace (_ <? c) with false by (zlen; pose proof (Zlen_nonneg rest2); lia).
      cbn [bind it_pos]. now apply X.
    + destruct e; auto. intros pre2 rest2 B2.
      rewrite plus_cases by assumption. replace (c <? 0) with false by lia.
      replace (_ <? c) with false by (zlen; pose proof (Zlen_nonneg rest2); lia).
      cbn [bind it_pos]. now apply L.
    + exact L.
    + exact L.
Qed.

Lemma list_loop_last t fuel : forall last d it a it',
  list_loop fuel true t d it last = Ok (a, it') -> it_pos it' = last.
Proof.
  induction fuel as [|fuel IH]; intros last d it a it' H; [discriminate|].
  cbn [list_loop] in H. destruct (it_pos it =? last) eqn:C.
  - injection H as _ <-. lia.
  - destruct (deserializeBasic true t d it) as [[s it1]|e|r|]; cbn [bind] in H; try discriminate.
    destruct (list_loop fuel true t d it1 last) as [[l it2]|e|r|] eqn:E; cbn [bind] in H;
      try discriminate.
    injection H as _ <-. eapply IH. exact E.
Qed.

Lemma numeric_local t fuel : local (S fuel) (deserializeListNumeric fuel true t).
Proof.
  apply (local_bind_progress fuel (deserializeVarintCommon 32)
    (fun c d it => last <- it_plus true it (toS 32 c) ;; list_loop fuel true t d it (it_pos last))).
  - apply varint_local.
  - apply varint_progress.
  - intro c. apply (bounded_local fuel (fun last d it => list_loop fuel true t d it last)).
    + apply list_loop_last.
    + apply list_loop_local.
Qed.

(** How a nested message may end. *)
Definition ends (n : nat) (len : nat) (r : res unit) : Prop :=
  match r with
  | UB u => u = OverRead \/ u = ShiftOverflow
  | OutOfFuel => (n <= len)%nat
  | _ => True
  end.

Section Local.
  Variable fuel : nat.
  Variable sch : schema.
  Variable rec : nat -> list Z -> list value * res unit.
  Hypothesis rec_ends : forall m bs, Zlen bs <= INT_MAX -> ends fuel (length bs) (snd (rec m bs)).

  Lemma object_local m : local (S fuel) (deserializeObject true rec m).
  Proof.
    intros pre rest B. unfold deserializeObject.
    pose proof (lendel_local (S fuel) pre rest B) as L.
    destruct (deserializeLengthDelimited true (pre ++ rest) (cur pre rest)) as [[a it']|e|r|] eqn:E;
      cbn [bind].
    - pose proof (lendel_length _ _ _ _ B E) as Len.
      destruct L as (x & rest' & -> & -> & X). cbn [cur it_left] in Len.
      assert (Ba : Zlen a <= INT_MAX) by (pose proof (Zlen_nonneg rest'); lia).
      pose proof (rec_ends m a Ba) as R.
      destruct (rec m a) as [obj [u|e|r|]] eqn:Er; cbn [snd ends] in R.
      + exists x, rest'. split; [auto|]. split; [auto|]. intros pre2 rest2 B2.
        rewrite X by assumption. cbn [bind]. now rewrite Er.
      + destruct e; auto. intros pre2 rest2 B2. rewrite <- app_assoc in *.
        rewrite X by assumption. cbn [bind]. now rewrite Er.
      + exact R.
      + unfold Zlen in Len. lia.
    - destruct e; auto. intros. now rewrite L.
    - exact L.
    - exact L.
  Qed.

  Lemma object_progress m : progress_in (deserializeObject true rec m).
  Proof.
    intros pre rest a it' B H. unfold deserializeObject in H.
    destruct (deserializeLengthDelimited true (pre ++ rest) (cur pre rest)) as [[x it1]|e|r|] eqn:E;
      cbn [bind] in H; try discriminate.
    apply lendel_progress in E; [|exact B].
    destruct (rec m x) as [obj [u|e|r|]]; try discriminate. injection H as _ <-. exact E.
  Qed.

  Lemma element_local e : local (S fuel) (deserializeElement true rec e).
  Proof.
    destruct e as [t|m].
    - apply (local_bind (S fuel) (deserializeBasic true t) (fun s _ it => Ok (VScalar s, it)));
        [apply basic_local | intro; apply local_ret].
    - apply (local_bind (S fuel) (deserializeObject true rec m) (fun o _ it => Ok (VMsg o, it)));
        [apply object_local | intro; apply local_ret].
  Qed.

  Lemma element_progress e : progress_in (deserializeElement true rec e).
  Proof.
    destruct e as [t|m].
    - apply (progress_bind 0 (deserializeBasic true t) (fun s _ it => Ok (VScalar s, it)));
        [apply basic_local | apply basic_progress | intro; apply local_ret].
    - apply (progress_bind (S fuel) (deserializeObject true rec m) (fun o _ it => Ok (VMsg o, it)));
        [apply object_local | apply object_progress | intro; apply local_ret].
  Qed.

  (** One entry of the loop in deserializeMapPair. *)
  Definition map_part (k : sty) (e : elty) (key : scalar) (val : value) (d : list Z) (it : iter)
    : res ((scalar * value) * iter) :=
    '(h, it1) <- decodeHeader d it ;;
    (if fst (fst h) =? 1 then
       '(key', it2) <- deserializeBasic true k d it1 ;; Ok ((key', val), it2)
     else
       '(val', it2) <- deserializeElement true rec e d it1 ;; Ok ((key, val'), it2)).

  Lemma map_part_local k e key val : local (S fuel) (map_part k e key val).
  Proof.
    apply (local_bind (S fuel) decodeHeader (fun h d it1 =>
      if fst (fst h) =? 1 then
       '(key', it2) <- deserializeBasic true k d it1 ;; Ok ((key', val), it2)
      else
       '(val', it2) <- deserializeElement true rec e d it1 ;; Ok ((key, val'), it2)));
      [apply header_local|].
    intro h. destruct (fst (fst h) =? 1).
    - apply (local_bind (S fuel) (deserializeBasic true k) (fun s _ it => Ok ((s, val), it)));
        [apply basic_local | intro; apply local_ret].
    - apply (local_bind (S fuel) (deserializeElement true rec e) (fun v _ it => Ok ((key, v), it)));
        [apply element_local | intro; apply local_ret].
  Qed.

  Lemma map_part_progress k e key val : progress_in (map_part k e key val).
  Proof.
    apply (progress_bind (S fuel) decodeHeader (fun h d it1 =>
      if fst (fst h) =? 1 then
       '(key', it2) <- deserializeBasic true k d it1 ;; Ok ((key', val), it2)
      else
       '(val', it2) <- deserializeElement true rec e d it1 ;; Ok ((key, val'), it2)));
      [apply header_local | apply progress_weaken, header_progress |].
    intro h. destruct (fst (fst h) =? 1).
    - apply (local_bind (S fuel) (deserializeBasic true k) (fun s _ it => Ok ((s, val), it)));
        [apply basic_local | intro; apply local_ret].
    - apply (local_bind (S fuel) (deserializeElement true rec e) (fun v _ it => Ok ((key, v), it)));
        [apply element_local | intro; apply local_ret].
  Qed.

  Lemma map_loop_step n k e d it last key val :
    map_loop true rec (S n) k e d it last key val
    = if it_pos it =? last then Ok ((key, val), it)
      else '(kv, it') <- map_part k e key val d it ;;
           map_loop true rec n k e d it' last (fst kv) (snd kv).
  Proof.
    cbn [map_loop]. destruct (it_pos it =? last); [reflexivity|]. unfold map_part.
    destruct (decodeHeader d it) as [[[[i w] v] it1]|e1|r|]; cbn [bind fst]; auto.
    destruct (i =? 1).
    - destruct (deserializeBasic true k d it1) as [[s it2]|e1|r|]; reflexivity.
    - destruct (deserializeElement true rec e d it1) as [[s it2]|e1|r|]; reflexivity.
  Qed.

  Lemma map_loop_last k e n : forall last d it key val a it',
    map_loop true rec n k e d it last key val = Ok (a, it') -> it_pos it' = last.
  Proof.
    induction n as [|n IH]; intros last d it key val a it' H; [discriminate|].
    rewrite map_loop_step in H. destruct (it_pos it =? last) eqn:C.
    - injection H as _ <-. lia.
    - destruct (map_part k e key val d it) as [[kv it1]|e1|r|]; cbn [bind] in H; try discriminate.
      eapply IH. exact H.
  Qed.

  Lemma map_loop_local k e n : (n <= S fuel)%nat -> forall c key val,
    local n (fun d it => map_loop true rec n k e d it (it_pos it + c) key val).
  Proof.
    induction n as [|n IH]; intros Hn c key val pre rest B; [cbn; lia|].
    rewrite map_loop_step.
    destruct (it_pos (cur pre rest) =? it_pos (cur pre rest) + c) eqn:C.
    - exists [], rest. rewrite app_nil_r. split; [auto|]. split; [auto|]. intros.
      rewrite map_loop_step.
      replace (it_pos _ =? it_pos _ + c) with true by lia. now rewrite app_nil_r.
    - pose proof (map_part_local k e key val pre rest B) as L.
      destruct (map_part k e key val (pre ++ rest) (cur pre rest)) as [[kv it1]|e1|r|] eqn:E;
        cbn [bind].
      + pose proof (map_part_progress k e key val _ _ _ _ B E) as P.
        destruct L as (x & rest1 & -> & -> & X).
        pose proof (Zlen_le_app _ _ B) as B1.
        cbn [cur it_left] in P. zlen_in P.
        specialize (IH ltac:(lia) (c - Zlen x) (fst kv) (snd kv) (pre ++ x) rest1 B1).
        rewrite <- app_assoc in IH. rewrite pos_cur.
        destruct (map_loop true rec n k e (pre ++ x ++ rest1) (cur (pre ++ x) rest1)
                    (it_pos (cur (pre ++ x) rest1) + (c - Zlen x)) (fst kv) (snd kv))
          as [[l it2]|e1|r|].
        * destruct IH as (y & rest2 & -> & -> & Y). exists (x ++ y), rest2.
          rewrite <- !app_assoc. split; [auto|]. split; [auto|].
          intros pre2 rest3 B3. rewrite <- !app_assoc in *. rewrite map_loop_step.
          replace (it_pos _ =? it_pos _ + c) with false by lia.
          rewrite X by assumption. cbn [bind]. rewrite pos_cur.
          specialize (Y (pre2 ++ x) rest3 (Zlen_le_app _ _ B3)). rewrite <- !app_assoc in Y.
          rewrite Y. reflexivity.
        * destruct e1; auto. intros pre2 rest3 B3. rewrite <- !app_assoc in *. rewrite map_loop_step.
          replace (it_pos _ =? it_pos _ + c) with false by lia.
          rewrite X by assumption. cbn [bind]. rewrite pos_cur.
          specialize (IH (pre2 ++ x) rest3 (Zlen_le_app _ _ B3)). rewrite <- !app_assoc in IH.
          rewrite IH. reflexivity.
        * exact IH.
        * rewrite app_length. unfold Zlen in P. lia.
      + destruct e1; auto. intros pre2 rest2 B2. rewrite map_loop_step.
        replace (it_pos _ =? it_pos _ + c) with false by lia. now rewrite L.
      + exact L.
      + lia.
  Qed.

  Lemma pair_local k e : local (S fuel) (deserializeMapPair fuel true rec k e).
  Proof.
    apply (local_bind_progress fuel (deserializeVarintCommon 32)
      (fun c d it => last <- it_plus true it (toS 32 c) ;;
         map_loop true rec fuel k e d it (it_pos last) (default_scalar k) (default_element e))).
    - apply varint_local.
    - apply varint_progress.
    - intro c. apply (bounded_local fuel (fun last d it =>
        map_loop true rec fuel k e d it last (default_scalar k) (default_element e))).
      + intros. eapply map_loop_last. eassumption.
      + intro. apply map_loop_local. lia.
  Qed.

  Lemma field_local ty old : local (S fuel) (deserializeField fuel true rec ty old).
  Proof.
    destruct ty as [[t|m]|[t|m]|k e]; unfold deserializeField.
    - apply (local_bind (S fuel) (deserializeBasic true t)
               (fun s _ it => Ok (VScalar (store_scalar t (scalar_of old) s), it)));
        [apply basic_local | intro; apply local_ret].
    - apply (local_bind (S fuel) (deserializeObject true rec m) (fun o _ it => Ok (VMsg o, it)));
        [apply object_local | intro; apply local_ret].
    - destruct (is_blob t); [|destruct (is_enum t)].
      + apply (local_bind (S fuel) (deserializeBasic true t) (fun s _ it =>
          Ok (VList (store_scalars t (list_of old) (list_of old ++ [VScalar s])), it)));
          [apply basic_local | intro; apply local_ret].
      + apply (local_bind (S fuel) (deserializeListNumeric fuel true t) (fun l _ it =>
          Ok (VList (store_scalars t (list_of old) (list_of old ++ map VScalar l)), it)));
          [apply numeric_local | intro; apply local_ret].
      + apply (local_bind (S fuel) (deserializeListNumeric fuel true t) (fun l _ it =>
          Ok (VList (store_scalars t (list_of old) (map VScalar l)), it)));
          [apply numeric_local | intro; apply local_ret].
    - apply (local_bind (S fuel) (deserializeObject true rec m) (fun o _ it =>
        Ok (VList (list_of old ++ [VMsg o]), it)));
        [apply object_local | intro; apply local_ret].
    - eapply local_ext.
      2:{ apply (local_bind (S fuel) (deserializeMapPair fuel true rec k e) (fun kv _ it =>
            Ok (VMap (store_map k e (map_of old) (map_insert k (fst kv) (snd kv) (map_of old))), it)));
            [apply pair_local | intro; apply local_ret]. }
      intros d it. cbn beta.
      destruct (deserializeMapPair fuel true rec k e d it) as [[[key val] it']|e1|r|]; reflexivity.
  Qed.

  (** ** Skipping *)

  Lemma skipVarint_local : forall n pre rest, (length rest < n)%nat ->
    match skipVarint n (pre ++ rest) (cur pre rest) with
    | Ok it' => exists x rest', rest = x ++ rest' /\ it' = cur (pre ++ x) rest'
        /\ forall n2 pre2 rest2, (length (x ++ rest2) < n2)%nat ->
           skipVarint n2 (pre2 ++ x ++ rest2) (cur pre2 (x ++ rest2)) = Ok (cur (pre2 ++ x) rest2)
    | Throw e => e = OutOfRange
    | _ => False
    end.
  Proof.
    induction n as [|n IH]; intros pre rest Hn; [lia|]. cbn [skipVarint].
    destruct rest as [|b rest].
    - rewrite app_nil_r, deref_end. cbn [bind]. rewrite incr_end. reflexivity.
    - rewrite deref_cur. cbn [bind]. rewrite incr_cur. cbn [bind].
      destruct (Z.land b 128 =? 0) eqn:T.
      + exists [b], rest. split; [auto|]. split; [auto|]. intros [|n2] pre2 rest2 H2; [lia|].
        cbn [skipVarint app]. rewrite deref_cur. cbn [bind]. rewrite incr_cur. cbn [bind].
        now rewrite T.
      + specialize (IH (pre ++ [b]) rest ltac:(simpl in Hn; lia)). rewrite <- app_assoc in IH.
        cbn [app] in IH.
        destruct (skipVarint n (pre ++ b :: rest) (cur (pre ++ [b]) rest)) as [it'|e|r|]; auto.
        destruct IH as (x & rest' & -> & -> & X). exists (b :: x), rest'.
        rewrite <- app_assoc. split; [auto|]. split; [auto|].
        intros [|n2] pre2 rest2 H2; [lia|].
        cbn [skipVarint app]. rewrite deref_cur. cbn [bind]. rewrite incr_cur. cbn [bind].
        rewrite T. specialize (X n2 (pre2 ++ [b]) rest2). rewrite <- !app_assoc in X.
        apply X. simpl in H2. lia.
  Qed.

  Lemma skip_len_local n :
    local n (fun d it => it' <- skipLengthDelimited true d it ;; Ok (tt, it')).
  Proof.
    eapply local_ext.
    2:{ apply (local_bind n (deserializeVarintCommon 32)
                 (fun l _ it => it' <- advance true it (toS 32 l) ;; Ok (tt, it')));
        [apply varint_local | intro; apply advance_local]. }
    intros d it. cbn beta. unfold skipLengthDelimited.
    destruct (deserializeVarintCommon 32 d it) as [[l it1]|e|r|]; reflexivity.
  Qed.

  Lemma skip_local n wt :
    local n (fun d it => it' <- skipSerializedFieldBytes true d it wt ;; Ok (tt, it')).
  Proof.
    intros pre rest B. unfold skipSerializedFieldBytes.
    destruct (wt =? WVarintT).
    - pose proof (skipVarint_local (S (length (pre ++ rest))) pre rest
                    ltac:(rewrite app_length; lia)) as L.
      destruct (skipVarint (S (length (pre ++ rest))) (pre ++ rest) (cur pre rest)) as [it'|e|r|];
        cbn [bind]; try contradiction.
      + destruct L as (x & rest' & -> & -> & X). exists x, rest'.
        split; [auto|]. split; [auto|]. intros. rewrite X; [reflexivity|].
        rewrite (app_length pre2). lia.
      + subst e. exact I.
    - destruct (wt =? WFixed32T); [apply (advance_local n 4 pre rest B)|].
      destruct (wt =? WFixed64T); [apply (advance_local n 8 pre rest B)|].
      destruct (wt =? WLengthDelimitedT); [|exact I].
      apply (skip_len_local n pre rest B).
  Qed.

  Definition property_rest (m : nat) (obj : list value) (h : Z * Z * bool) (d : list Z) (it1 : iter)
    : res (list value * iter) :=
    if negb (snd h) then Throw InvalidArgument else
    match find_field (msg_at sch m) (fst (fst h)) with
    | None =>
        '(_, it2) <- (it' <- skipSerializedFieldBytes true d it1 (snd (fst h)) ;; Ok (tt, it')) ;;
        Ok (obj, it2)
    | Some i =>
        '(v, it2) <- deserializeField fuel true rec (f_ty (field_at sch m i)) (nth i obj VNull) d it1 ;;
        Ok (update i v obj, it2)
    end.

  Lemma property_split m obj d it :
    deserializeProperty fuel true sch rec m d it obj
    = '(h, it1) <- decodeHeader d it ;; property_rest m obj h d it1.
  Proof.
    unfold deserializeProperty, property_rest.
    destruct (decodeHeader d it) as [[[[i w] v] it1]|e|r|]; cbn [bind fst snd]; auto.
    destruct v; cbn [negb]; [|reflexivity].
    destruct (find_field (msg_at sch m) i); [reflexivity|].
    destruct (skipSerializedFieldBytes true d it1 w); reflexivity.
  Qed.

  Lemma property_rest_local m obj h : local (S fuel) (property_rest m obj h).
  Proof.
    unfold property_rest. destruct (negb (snd h)).
    { intros pre rest B. exact I. }
    destruct (find_field (msg_at sch m) (fst (fst h))) as [i|].
    - apply (local_bind (S fuel)
        (deserializeField fuel true rec (f_ty (field_at sch m i)) (nth i obj VNull))
        (fun v _ it => Ok (update i v obj, it))); [apply field_local | intro; apply local_ret].
    - apply (local_bind (S fuel)
        (fun d it => it' <- skipSerializedFieldBytes true d it (snd (fst h)) ;; Ok (tt, it'))
        (fun _ _ it => Ok (obj, it))); [apply skip_local | intro; apply local_ret].
  Qed.

  Lemma property_local m obj :
    local (S fuel) (fun d it => deserializeProperty fuel true sch rec m d it obj).
  Proof.
    eapply local_ext; [intros; symmetry; apply property_split|].
    apply (local_bind (S fuel) decodeHeader (fun h d it => property_rest m obj h d it));
      [apply header_local | intro; apply property_rest_local].
  Qed.

  Lemma property_progress m obj :
    progress_in (fun d it => deserializeProperty fuel true sch rec m d it obj).
  Proof.
    eapply progress_ext; [intros; symmetry; apply property_split|].
    apply (progress_bind (S fuel) decodeHeader (fun h d it => property_rest m obj h d it));
      [apply header_local | apply progress_weaken, header_progress |
       intro; apply property_rest_local].
  Qed.
End Local.

Lemma app_split {A} (a b c d : list A) : a ++ b = c ++ d -> length a = length c -> a = c /\ b = d.
Proof.
  revert c. induction a as [|x a IH]; intros [|y c] H L; simpl in *; try discriminate; auto.
  injection H as -> H. destruct (IH c H) as [-> ->]; auto.
Qed.

(** ** The message loop *)

Section Loops.
  Variable sch : schema.

  Lemma cur_end pre rest : (it_pos (cur pre rest) =? Zlen (pre ++ rest)) = true <-> rest = [].
  Proof.
    cbn [cur it_pos]. zlen. split; intro H.
    - destruct rest; [reflexivity|]. zlen_in H. pose proof (Zlen_nonneg rest). lia.
    - subst. change (Zlen (@nil Z)) with 0. lia.
  Qed.

  Lemma cur_not_end pre b rest : (it_pos (cur pre (b :: rest)) =? Zlen (pre ++ b :: rest)) = false.
  Proof. cbn [cur it_pos]. zlen. pose proof (Zlen_nonneg rest). lia. Qed.

  Lemma cur_at_end pre : (it_pos (cur pre []) =? Zlen (pre ++ [])) = true.
  Proof. cbn [cur it_pos]. zlen. lia. Qed.

  Definition nested (fuel : nat) (hard : bool) (m : nat) (data : list Z) : list value * res unit :=
    deserialize_loop fuel hard sch m data (it_begin data) (default_obj sch m).

  Lemma loop_ends fuel : forall m pre rest obj, Zlen rest <= INT_MAX ->
    ends fuel (length rest) (snd (deserialize_loop fuel true sch m (pre ++ rest) (cur pre rest) obj)).
  Proof.
    induction fuel as [|fuel IH]; intros m pre rest obj B; [cbn; lia|].
    cbn [deserialize_loop]. destruct rest as [|b rest]; [rewrite cur_at_end; exact I|].
    rewrite cur_not_end. set (data := b :: rest) in *. fold (nested fuel true).
    assert (R : forall m bs, Zlen bs <= INT_MAX -> ends fuel (length bs) (snd (nested fuel true m bs))).
    { intros m' bs B'. unfold nested. rewrite cur_begin. apply (IH m' [] bs); exact B'. }
    pose proof (property_local fuel sch (nested fuel true) R m obj pre data B) as L.
    pose proof (property_progress fuel sch (nested fuel true) R m obj pre data) as P.
    change (fun m' data' => deserialize_loop fuel true sch m' data' (it_begin data') (default_obj sch m'))
      with (nested fuel true).
    destruct (deserializeProperty fuel true sch (nested fuel true) m (pre ++ data) (cur pre data) obj)
      as [[obj' it']|e|r|].
    - specialize (P obj' it' B eq_refl). destruct L as (x & rest' & -> & -> & X).
      cbn [cur it_left] in P. zlen_in P. rewrite app_assoc.
      specialize (IH m (pre ++ x) rest' obj' (Zlen_le_app _ _ B)).
      destruct (snd (deserialize_loop fuel true sch m ((pre ++ x) ++ rest') (cur (pre ++ x) rest') obj'))
        as [u|e|r|]; cbn [ends] in *; auto.
      rewrite app_length. unfold Zlen in P. lia.
    - exact I.
    - exact L.
    - exact L.
  Qed.

  Definition step (fuel m : nat) (obj : list value) (data : list Z) (it : iter)
    : res (list value * iter) :=
    deserializeProperty fuel true sch (nested fuel true) m data it obj.

  Lemma loop_step fuel m pre b rest obj :
    deserialize_loop (S fuel) true sch m (pre ++ b :: rest) (cur pre (b :: rest)) obj
    = match step fuel m obj (pre ++ b :: rest) (cur pre (b :: rest)) with
      | Ok (obj', it') => deserialize_loop fuel true sch m (pre ++ b :: rest) it' obj'
      | Throw e => (obj, Throw e)
      | UB r => (obj, UB r)
      | OutOfFuel => (obj, OutOfFuel)
      end.
  Proof. cbn [deserialize_loop]. rewrite cur_not_end. reflexivity. Qed.

  Lemma loop_nil fuel m pre obj :
    deserialize_loop (S fuel) true sch m (pre ++ []) (cur pre []) obj = (obj, Ok tt).
  Proof. cbn [deserialize_loop]. rewrite cur_at_end. reflexivity. Qed.

  Lemma step_local fuel m obj : local (S fuel) (step fuel m obj).
  Proof.
    apply property_local. intros m' bs B. unfold nested. rewrite cur_begin.
    apply (loop_ends fuel m' [] bs). exact B.
  Qed.

  Lemma step_progress fuel m obj : progress_in (step fuel m obj).
  Proof.
    apply property_progress. intros m' bs B. unfold nested. rewrite cur_begin.
    apply (loop_ends fuel m' [] bs). exact B.
  Qed.

  (** A successful step on a prefix is a step on the whole. *)
  Lemma step_prefix fuel m obj pre x y obj' it' : Zlen (x ++ y) <= INT_MAX ->
    step fuel m obj (pre ++ x) (cur pre x) = Ok (obj', it') ->
    exists z x', x = z ++ x' /\ z <> [] /\ it' = cur (pre ++ z) x'
      /\ forall y, Zlen (z ++ y) <= INT_MAX ->
         step fuel m obj (pre ++ z ++ y) (cur pre (z ++ y)) = Ok (obj', cur (pre ++ z) y).
  Proof.
    intros B H. assert (Bx : Zlen x <= INT_MAX) by (zlen_in B; pose proof (Zlen_nonneg y); lia).
    pose proof (step_progress fuel m obj pre x obj' it' Bx H) as P.
    pose proof (step_local fuel m obj pre x Bx) as L. rewrite H in L.
    destruct L as (z & x' & -> & -> & X). exists z, x'. split; [auto|]. split.
    { intros ->. cbn [cur it_left app] in P. lia. }
    split; [auto|]. intros. now apply X.
  Qed.

  (** A rejected negative length is rejected in every extension of the input. *)
  Lemma loop_negative fuel : forall m pre x y obj, Zlen (x ++ y) <= INT_MAX ->
    snd (deserialize_loop fuel true sch m (pre ++ x) (cur pre x) obj) = Throw NegativeLength ->
    snd (deserialize_loop fuel true sch m (pre ++ x ++ y) (cur pre (x ++ y)) obj)
      = Throw NegativeLength.
  Proof.
    induction fuel as [|fuel IH]; intros m pre x y obj B H; [discriminate|].
    destruct x as [|b x]; [rewrite loop_nil in H; discriminate|].
    rewrite loop_step in H. cbn [app]. rewrite loop_step.
    destruct (step fuel m obj (pre ++ b :: x) (cur pre (b :: x))) as [[obj' it']|e|r|] eqn:E;
      try discriminate.
    - destruct (step_prefix fuel m obj pre (b :: x) y obj' it' B E) as (z & x' & Hx & _ & -> & Z).
      rewrite Hx in H, B. change (b :: x ++ y) with ((b :: x) ++ y). rewrite Hx.
      rewrite <- app_assoc in B. rewrite <- (app_assoc z x' y). rewrite Z by exact B.
      rewrite app_assoc in H. rewrite (app_assoc pre z). apply IH; [now apply Zlen_le_app in B | exact H].
    - cbn [snd] in H. injection H as ->.
      pose proof (step_local fuel m obj pre (b :: x)) as L.
      rewrite E in L. assert (Bx : Zlen (b :: x) <= INT_MAX).
      { zlen_in B. zlen. pose proof (Zlen_nonneg y). lia. }
      specialize (L Bx pre y B). change (b :: x ++ y) with ((b :: x) ++ y). now rewrite L.
  Qed.

  (** A failing run leaves the object as it is after the longest accepted prefix. *)
  Lemma loop_failure fuel : forall m pre rest obj r e, Zlen rest <= INT_MAX ->
    deserialize_loop fuel true sch m (pre ++ rest) (cur pre rest) obj = (r, Throw e) ->
    exists x rest', rest = x ++ rest' /\
      deserialize_loop fuel true sch m (pre ++ x) (cur pre x) obj = (r, Ok tt) /\
      forall z z' r', rest' = z ++ z' -> z <> [] ->
        deserialize_loop fuel true sch m (pre ++ x ++ z) (cur pre (x ++ z)) obj <> (r', Ok tt).
  Proof.
    induction fuel as [|fuel IH]; intros m pre rest obj r e B H; [discriminate|].
    destruct rest as [|b rest]; [rewrite loop_nil in H; discriminate|].
    rewrite loop_step in H.
    destruct (step fuel m obj (pre ++ b :: rest) (cur pre (b :: rest))) as [[obj' it']|e'|r'|] eqn:E;
      try discriminate.
    - destruct (step_prefix fuel m obj pre (b :: rest) [] obj' it') as (z & x' & Hx & Nz & -> & Z);
        [now rewrite app_nil_r | exact E |].
      rewrite Hx in H, B. rewrite app_assoc in H.
      destruct (IH m (pre ++ z) x' obj' r e (Zlen_le_app _ _ B) H) as (x & rest' & -> & A1 & A2).
      assert (Bz : forall w w', x ++ rest' = w ++ w' -> Zlen (z ++ w) <= INT_MAX).
      { intros w w' Hw. rewrite Hw in B. zlen_in B. zlen. pose proof (Zlen_nonneg w'). lia. }
      assert (Lz : forall w w', x ++ rest' = w ++ w' ->
        deserialize_loop (S fuel) true sch m (pre ++ z ++ w) (cur pre (z ++ w)) obj
        = deserialize_loop fuel true sch m ((pre ++ z) ++ w) (cur (pre ++ z) w) obj').
      { intros w w' Hw. pose proof (Bz w w' Hw). destruct z as [|b' z]; [congruence|].
        cbn [app] in *. rewrite loop_step. rewrite (Z w) by assumption.
        change (b' :: z ++ w) with ((b' :: z) ++ w). now rewrite app_assoc. }
      exists (z ++ x), rest'. split; [now rewrite Hx, app_assoc|]. split.
      + rewrite (Lz x rest' eq_refl). exact A1.
      + intros w w' r' Hw Nw. rewrite <- (app_assoc z x w).
        rewrite (Lz (x ++ w) w') by (rewrite Hw; apply app_assoc). now apply A2 with (z' := w').
    - injection H as <- <-. exists [], (b :: rest). split; [reflexivity|]. split.
      + apply loop_nil.
      + intros z z' r' Hz Nz. cbn [app]. destruct z as [|b' z]; [congruence|]. rewrite loop_step.
        destruct (step fuel m obj (pre ++ b' :: z) (cur pre (b' :: z))) as [[obj' it']|e1|r1|] eqn:E';
          try discriminate.
        rewrite Hz in *.
        destruct (step_prefix fuel m obj pre (b' :: z) z' obj' it' B E') as (w & w' & Hw & _ & -> & W).
        exfalso. rewrite Hw in *. rewrite <- app_assoc in *. rewrite W in E by exact B. discriminate.
  Qed.

  (** Accepted prefixes of well-formed input end at the end of a record. *)
  Hypothesis Sch : schema_ok sch.

  Lemma loop_cut : forall fuel m rs bs pre x y obj r,
    enc_recs rs bs -> fits sch m rs -> (length bs < fuel)%nat -> Zlen bs <= INT_MAX ->
    length obj = length (md_fields (msg_at sch m)) ->
    bs = x ++ y ->
    deserialize_loop fuel true sch m (pre ++ x) (cur pre x) obj = (r, Ok tt) ->
    exists rs1 rs2, rs = rs1 ++ rs2 /\ enc_recs rs1 x /\ enc_recs rs2 y.
  Proof.
    induction fuel as [|fuel IH]; intros m rs bs pre x y obj r E F Len B Lo Hxy H; [discriminate|].
    destruct x as [|b x].
    { exists [], rs. cbn [app] in Hxy. subst. split; [reflexivity|]. split; [constructor|exact E]. }
    revert Hxy. inversion E as [| num w rs' tag pl rest N T V E']; subst rs bs; intro Hxy;
      [discriminate|].
    rewrite loop_step in H.
    destruct (step fuel m obj (pre ++ b :: x) (cur pre (b :: x))) as [[obj' it']|e|r'|] eqn:Est;
      try discriminate.
    rewrite Hxy in B.
    destruct (step_prefix fuel m obj pre (b :: x) y obj' it' B Est) as (z & x' & Hx & Nz & -> & Z).
    apply fits_spec in F. inversion F as [|? ? F1 F2]; subst.
    rewrite <- Hxy in B.
    pose proof (enc_val_nonempty w pl V) as Vn.
    pose proof (is_varint_nonnil _ _ (proj1 T)) as Tn.
    assert (Tl : (0 < length tag)%nat) by (destruct tag; [congruence | simpl; lia]).
    rewrite !app_length in Len.
    destruct (property_read true sch Sch fuel (nested fuel true) m num w tag pl pre rest obj obj)
      as (obj1 & P1 & P2 & _); auto.
    { intros m' rs1 bs1 E1 F1' L1 B1. unfold nested.
      destruct (deserialize_read true sch Sch fuel m' rs1 bs1 E1 F1' ltac:(lia) B1)
        as (r1 & R1 & _ & R3). exists r1. split; [exact R1 | exact R3]. }
    { lia. }
    { reflexivity. }
    rewrite Hx in Hxy. rewrite <- app_assoc in Hxy.
    specialize (Z (x' ++ y)). rewrite <- Hxy in Z. unfold step in Z. rewrite (Z B) in P1.
    injection P1 as <- _ _ Hp.
    assert (Lz : length z = length (tag ++ pl)).
    { zlen_in Hp. rewrite app_length. unfold Zlen in Hp. lia. }
    assert (Hz : z = tag ++ pl /\ x' ++ y = rest).
    { rewrite app_assoc in Hxy. symmetry in Hxy. now apply app_split in Hxy. }
    destruct Hz as [-> Hr].
    rewrite Hx in H. rewrite app_assoc in H.
    destruct (IH m rs' rest (pre ++ tag ++ pl) x' y obj' r E') as (rs1 & rs2 & -> & A1 & A2); auto.
    { now apply fits_spec. }
    { lia. }
    { rewrite app_assoc in B. now apply Zlen_le_app in B. }
    exists ((num, w) :: rs1), rs2. split; [reflexivity|]. split; [|exact A2].
    rewrite Hx, <- app_assoc. now constructor.
  Qed.
End Loops.

(** ** The code against the hardened reader *)

Definition agree {A} (op : bool -> list Z -> iter -> res A) : Prop :=
  forall d it, op true d it <> Throw NegativeLength -> op false d it = op true d it.

Lemma agree_bind {A B} (op : bool -> list Z -> iter -> res (A * iter))
  (k : A -> bool -> list Z -> iter -> res B) :
  agree op -> (forall a, agree (k a)) ->
  agree (fun h d it => '(a, it') <- op h d it ;; k a h d it').
Proof.
  intros Ha Hk d it H.
  destruct (op true d it) as [[a it']|e|r|] eqn:E; cbn [bind] in *;
    rewrite (Ha d it) by congruence; rewrite E; cbn [bind]; auto.
  now apply Hk.
Qed.

Lemma agree_const {A} (op : list Z -> iter -> res A) : agree (fun _ => op).
Proof. intros d it _. reflexivity. Qed.

Lemma agree_advance c : agree (fun h _ it => advance h it c).
Proof.
  intros d it H. unfold advance in *. cbn [andb] in *. destruct (c <? 0); [congruence | reflexivity].
Qed.

Lemma agree_fixed n : agree (fun h => deserializeFixed h n).
Proof.
  intros d it H. unfold deserializeFixed in *. destruct (_ <=? _); [|reflexivity].
  pose proof (agree_advance n d it) as A. cbn beta in A.
  destruct (advance true it n) as [i|e|r|] eqn:E; rewrite A by (cbn [bind] in H; congruence);
    reflexivity.
Qed.

Lemma agree_lendel : agree deserializeLengthDelimited.
Proof.
  intros d it H. unfold deserializeLengthDelimited in *.
  destruct (deserializeVarintCommon 32 d it) as [[l it1]|e|r|]; cbn [bind] in *; auto.
  destruct (if toS 32 l <? 0 then _ else _) as [res|e|r|]; cbn [bind] in *; auto.
  pose proof (agree_advance (toS 32 l) d it1) as A. cbn beta in A.
  destruct (advance true it1 (toS 32 l)) as [i|e|r|] eqn:E; rewrite A by (cbn [bind] in H; congruence);
    reflexivity.
Qed.

Lemma agree_plus c : agree (fun h _ it => it_plus h it c).
Proof.
  intros d it H. unfold it_plus in *. destruct (it_copy it) as [i|e|r|]; cbn [bind] in *; auto.
  pose proof (agree_advance c d i) as A. cbn beta in A.
  destruct (advance true i c) as [i2|e|r|] eqn:E; rewrite A by (cbn [bind] in H; congruence);
    reflexivity.
Qed.

Lemma agree_basic t : agree (fun h => deserializeBasic h t).
Proof.
  intros d it H. destruct t; cbn [deserializeBasic] in *; try reflexivity;
    match goal with
    | |- context [deserializeFixed false ?n d it] =>
        pose proof (agree_fixed n d it) as A; cbn beta in A;
        destruct (deserializeFixed true n d it) as [[? ?]|?|?|];
        rewrite A by (cbn [bind] in H; congruence); reflexivity
    | |- context [deserializeLengthDelimited false d it] =>
        pose proof (agree_lendel d it) as A;
        destruct (deserializeLengthDelimited true d it) as [[? ?]|?|?|];
        rewrite A by (cbn [bind] in H; congruence); reflexivity
    end.
Qed.

Lemma agree_list_loop t fuel : forall d it last,
  list_loop fuel true t d it last <> Throw NegativeLength ->
  list_loop fuel false t d it last = list_loop fuel true t d it last.
Proof.
  induction fuel as [|fuel IH]; intros d it last H; [reflexivity|]. cbn [list_loop] in *.
  destruct (it_pos it =? last); [reflexivity|].
  pose proof (agree_basic t d it) as A. cbn beta in A.
  destruct (deserializeBasic true t d it) as [[s it1]|e|r|]; cbn [bind] in *;
    rewrite A by congruence; cbn [bind]; auto.
  destruct (list_loop fuel true t d it1 last) as [[l it2]|e|r|] eqn:E; cbn [bind] in *;
    rewrite IH by congruence; rewrite E; reflexivity.
Qed.

Lemma agree_numeric t fuel : agree (fun h => deserializeListNumeric fuel h t).
Proof.
  intros d it H. unfold deserializeListNumeric in *.
  destruct (deserializeVarintCommon 32 d it) as [[l it1]|e|r|]; cbn [bind] in *; auto.
  pose proof (agree_plus (toS 32 l) d it1) as A. cbn beta in A.
  destruct (it_plus true it1 (toS 32 l)) as [i|e|r|] eqn:E; cbn [bind] in *;
    rewrite A by congruence; cbn [bind]; auto.
  now apply agree_list_loop.
Qed.

Section Agree.
  Variable fuel : nat.
  Variable sch : schema.
  Variable rec : bool -> nat -> list Z -> list value * res unit.
  Hypothesis rec_agree : forall m bs, snd (rec true m bs) <> Throw NegativeLength ->
    rec false m bs = rec true m bs.

  Lemma agree_object m : agree (fun h => deserializeObject h (rec h) m).
  Proof.
    intros d it H. unfold deserializeObject in *. pose proof (agree_lendel d it) as A.
    destruct (deserializeLengthDelimited true d it) as [[a it1]|e|r|]; cbn [bind] in *;
      rewrite A by congruence; cbn [bind]; auto.
    pose proof (rec_agree m a) as R.
    destruct (rec true m a) as [obj [u|e|r|]]; cbn [snd] in R; rewrite R by congruence; reflexivity.
  Qed.

  Lemma agree_element e : agree (fun h => deserializeElement h (rec h) e).
  Proof.
    intros d it H. destruct e as [t|m]; cbn [deserializeElement] in *.
    - pose proof (agree_basic t d it) as A. cbn beta in A.
      destruct (deserializeBasic true t d it) as [[s it1]|e|r|]; cbn [bind] in *;
        rewrite A by congruence; reflexivity.
    - pose proof (agree_object m d it) as A. cbn beta in A.
      destruct (deserializeObject true (rec true) m d it) as [[s it1]|e|r|]; cbn [bind] in *;
        rewrite A by congruence; reflexivity.
  Qed.

  Lemma agree_map_loop k e n : forall d it last key val,
    map_loop true (rec true) n k e d it last key val <> Throw NegativeLength ->
    map_loop false (rec false) n k e d it last key val
    = map_loop true (rec true) n k e d it last key val.
  Proof.
    induction n as [|n IH]; intros d it last key val H; [reflexivity|]. cbn [map_loop] in *.
    destruct (it_pos it =? last); [reflexivity|].
    destruct (decodeHeader d it) as [[[[i w] v] it1]|e1|r|]; cbn [bind] in *; auto.
    destruct (i =? 1).
    - pose proof (agree_basic k d it1) as A. cbn beta in A.
      destruct (deserializeBasic true k d it1) as [[s it2]|e1|r|]; cbn [bind] in *;
        rewrite A by congruence; cbn [bind]; auto.
    - pose proof (agree_element e d it1) as A. cbn beta in A.
      destruct (deserializeElement true (rec true) e d it1) as [[s it2]|e1|r|]; cbn [bind] in *;
        rewrite A by congruence; cbn [bind]; auto.
  Qed.

  Lemma agree_pair k e : agree (fun h => deserializeMapPair fuel h (rec h) k e).
  Proof.
    intros d it H. unfold deserializeMapPair in *.
    destruct (deserializeVarintCommon 32 d it) as [[l it1]|e1|r|]; cbn [bind] in *; auto.
    pose proof (agree_plus (toS 32 l) d it1) as A. cbn beta in A.
    destruct (it_plus true it1 (toS 32 l)) as [i|e1|r|] eqn:E; cbn [bind] in *;
      rewrite A by congruence; cbn [bind]; auto.
    now apply agree_map_loop.
  Qed.

  Lemma agree_field ty old : agree (fun h => deserializeField fuel h (rec h) ty old).
  Proof.
    intros d it H. destruct ty as [[t|m]|[t|m]|k e]; unfold deserializeField in *.
    - pose proof (agree_basic t d it) as A. cbn beta in A.
      destruct (deserializeBasic true t d it) as [[s it1]|e|r|]; cbn [bind] in *;
        rewrite A by congruence; reflexivity.
    - pose proof (agree_object m d it) as A. cbn beta in A.
      destruct (deserializeObject true (rec true) m d it) as [[s it1]|e|r|]; cbn [bind] in *;
        rewrite A by congruence; reflexivity.
    - destruct (is_blob t); [|destruct (is_enum t)].
      + pose proof (agree_basic t d it) as A. cbn beta in A.
        destruct (deserializeBasic true t d it) as [[s it1]|e|r|]; cbn [bind] in *;
          rewrite A by congruence; reflexivity.
      + pose proof (agree_numeric t fuel d it) as A. cbn beta in A.
        destruct (deserializeListNumeric fuel true t d it) as [[s it1]|e|r|]; cbn [bind] in *;
          rewrite A by congruence; reflexivity.
      + pose proof (agree_numeric t fuel d it) as A. cbn beta in A.
        destruct (deserializeListNumeric fuel true t d it) as [[s it1]|e|r|]; cbn [bind] in *;
          rewrite A by congruence; reflexivity.
    - pose proof (agree_object m d it) as A. cbn beta in A.
      destruct (deserializeObject true (rec true) m d it) as [[s it1]|e|r|]; cbn [bind] in *;
        rewrite A by congruence; reflexivity.
    - pose proof (agree_pair k e d it) as A. cbn beta in A.
      destruct (deserializeMapPair fuel true (rec true) k e d it) as [[[key val] it1]|e1|r|];
        cbn [bind] in *; rewrite A by congruence; reflexivity.
  Qed.

  Lemma agree_skip wt : agree (fun h d it => skipSerializedFieldBytes h d it wt).
  Proof.
    intros d it H. unfold skipSerializedFieldBytes in *.
    destruct (wt =? WVarintT); [reflexivity|].
    destruct (wt =? WFixed32T); [now apply (agree_advance 4 d it)|].
    destruct (wt =? WFixed64T); [now apply (agree_advance 8 d it)|].
    destruct (wt =? WLengthDelimitedT); [|reflexivity]. unfold skipLengthDelimited in *.
    destruct (deserializeVarintCommon 32 d it) as [[l it1]|e1|r|]; cbn [bind] in *; auto.
    now apply (agree_advance (toS 32 l) d it1).
  Qed.

  Lemma agree_property m obj : agree (fun h d it => deserializeProperty fuel h sch (rec h) m d it obj).
  Proof.
    intros d it H. unfold deserializeProperty in *.
    destruct (decodeHeader d it) as [[[[i w] v] it1]|e|r|]; cbn [bind] in *; auto.
    destruct (negb v); [reflexivity|].
    destruct (find_field (msg_at sch m) i) as [j|].
    - pose proof (agree_field (f_ty (field_at sch m j)) (nth j obj VNull) d it1) as A. cbn beta in A.
      destruct (deserializeField fuel true (rec true) (f_ty (field_at sch m j)) (nth j obj VNull) d it1)
        as [[x it2]|e|r|]; cbn [bind] in *; rewrite A by congruence; reflexivity.
    - pose proof (agree_skip w d it1) as A. cbn beta in A.
      destruct (skipSerializedFieldBytes true d it1 w) as [it2|e|r|]; cbn [bind] in *;
        rewrite A by congruence; reflexivity.
  Qed.
End Agree.

Lemma agree_loop sch fuel : forall m data it obj,
  snd (deserialize_loop fuel true sch m data it obj) <> Throw NegativeLength ->
  deserialize_loop fuel false sch m data it obj = deserialize_loop fuel true sch m data it obj.
Proof.
  induction fuel as [|fuel IH]; intros m data it obj H; [reflexivity|].
  cbn [deserialize_loop] in *. destruct (it_pos it =? Zlen data); [reflexivity|].
  pose proof (agree_property fuel sch
    (fun h m' data' => deserialize_loop fuel h sch m' data' (it_begin data') (default_obj sch m'))
    ltac:(intros; now apply IH) m obj data it) as A. cbn beta in A.
  destruct (deserializeProperty fuel true sch _ m data it obj) as [[obj' it']|e|r|];
    cbn [snd] in *; rewrite A by congruence; auto.
Qed.

Lemma agree_message sch fuel m data :
  snd (deserializeMessage fuel true sch m data) <> Throw NegativeLength ->
  deserializeMessage fuel false sch m data = deserializeMessage fuel true sch m data.
Proof. apply agree_loop. Qed.

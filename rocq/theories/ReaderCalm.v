(** Input in which no place can be taken for a negative length: the hardened reader does not complain.
    Input in which no place can be taken for a varint of more than ten bytes: no undefined shift. *)

From Coq Require Import ZArith List Bool Lia ZifyBool.
From Verif Require Import Base WireModel Values MessageModel WireSpec WireProofs MessageSpec
  MessageProofs ReaderProofs RunFacts ReaderSpec.
Import ListNotations.
Open Scope Z_scope.
Ltac Zify.zify_post_hook ::= Z.div_mod_to_equations.

Lemma occurs_refl data : occurs data data.
Proof. exists [], []. now rewrite app_nil_r. Qed.

Lemma occurs_trans x y z : occurs x y -> occurs y z -> occurs x z.
Proof.
  intros (a & b & ->) (c & d & ->). exists (c ++ a), (b ++ d). now rewrite <- !app_assoc.
Qed.

Lemma occurs_tail x y : occurs y (x ++ y).
Proof. exists x, []. now rewrite app_nil_r. Qed.

Lemma occurs_bytes x y : occurs x y -> bytes y -> bytes x.
Proof.
  intros (a & b & ->) H. apply Forall_app in H. destruct H as [_ H]. now apply Forall_app in H.
Qed.

(** What the varint reader accepts is a varint. *)
Lemma varint_loop_inv w : 0 <= w <= 64 -> forall n pre rest k acc a it',
  bytes rest -> 0 <= k -> 
  varint_loop n w (pre ++ rest) (cur pre rest) k acc = Ok (a, it') ->
  exists v x rest', rest = x ++ rest' /\ is_varint v x /\ it' = cur (pre ++ x) rest'
    /\ a = wrapU w (acc + v * 2 ^ k) /\ k + 7 * Zlen x <= 70.
Proof.
  intro Hw. induction n as [|n IH]; intros pre rest k acc a it' B Hk H; [discriminate|].
  cbn [varint_loop] in H. destruct rest as [|b rest].
  - rewrite app_nil_r, deref_end in H. cbn [bind] in H.
    destruct (64 <=? k); [discriminate|]. rewrite incr_end in H. discriminate.
  - inversion B as [|? ? Hb B']; subst. unfold is_byte in Hb.
    rewrite deref_cur in H. cbn [bind] in H. destruct (64 <=? k) eqn:K; [discriminate|].
    rewrite incr_cur in H. cbn [bind] in H. rewrite land128 in H by lia.
    rewrite land127, Z.shiftl_mul_pow2, wrap_add64 in H by lia.
    destruct (b <? 128) eqn:T; cbn in H.
    + injection H as <- <-. exists b, [b], rest. split; [reflexivity|].
      split; [constructor; lia|]. split; [reflexivity|].
      rewrite Z.mod_small by lia. split; [reflexivity|]. change (Zlen [b]) with 1. lia.
    + replace (pre ++ b :: rest) with ((pre ++ [b]) ++ rest) in H by (rewrite <- app_assoc; reflexivity).
      apply IH in H; [|assumption|lia].
      destruct H as (v & x & rest' & -> & V & -> & -> & L).
      exists (b mod 128 + 128 * v), (b :: x), rest'. split; [reflexivity|]. split; [|split; [|split]].
      * replace b with (b mod 128 + 128) at 2 by lia. constructor; [lia|assumption].
      * rewrite <- app_assoc. reflexivity.
      * rewrite wrap_add by lia. rewrite Z.pow_add_r by lia. change (2 ^ 7) with 128. f_equal. lia.
      * rewrite Zlen_cons. lia.
Qed.

Lemma varint_inv w pre rest a it' : 0 <= w <= 64 -> bytes rest ->
  deserializeVarintCommon w (pre ++ rest) (cur pre rest) = Ok (a, it') ->
  exists v x rest', rest = x ++ rest' /\ wire_varint v x /\ it' = cur (pre ++ x) rest'
    /\ a = wrapU w v.
Proof.
  intros Hw B H. apply varint_loop_inv in H; [|assumption|assumption|lia].
  destruct H as (v & x & rest' & -> & V & -> & -> & L). exists v, x, rest'.
  split; [reflexivity|]. split; [split; [assumption|unfold Zlen in L; lia]|].
  split; [reflexivity|]. f_equal. lia.
Qed.

(** The bytes taken are a part of the input. *)
Lemma take_occurs c pre rest a it' : Zlen rest <= INT_MAX ->
  take_bytes true c (pre ++ rest) (cur pre rest) = Ok (a, it') -> occurs a rest.
Proof.
  intros B H. unfold take_bytes in H. destruct (Z.ltb_spec c 0).
  - cbn [bind] in H. unfold advance in H. cbn [andb] in H.
    replace (c <? 0) with true in H by lia. discriminate.
  - destruct (Z.ltb_spec (Zlen rest) c).
    + destruct (_ <=? _); cbn [bind] in H; [|discriminate].
      rewrite advance_past in H by lia. discriminate.
    + destruct (take_split c rest) as (x & rest' & -> & <-); [lia|].
      destruct (_ <=? _); cbn [bind] in H; [|discriminate].
      cbn [it_pos cur] in H. rewrite slice_app_x, advance_cur in H by assumption.
      injection H as <- <-. exists [], rest'. reflexivity.
Qed.

Lemma lendel_occurs pre rest a it' : Zlen rest <= INT_MAX ->
  deserializeLengthDelimited true (pre ++ rest) (cur pre rest) = Ok (a, it') -> occurs a rest.
Proof.
  intros B H. rewrite lendel_take in H.
  destruct (deserializeVarintCommon 32 (pre ++ rest) (cur pre rest)) as [[l it1]|e|r|] eqn:E;
    cbn [bind] in H; try discriminate.
  pose proof (varint_local 0 32 pre rest B) as L. rewrite E in L.
  destruct L as (x & rest' & -> & -> & _). rewrite app_assoc in H.
  apply take_occurs in H; [|now apply Zlen_le_app in B].
  eapply occurs_trans; [exact H|]. apply occurs_tail.
Qed.

(** ** No negative length, no undefined shift *)

Section Calm.
  (** Which of the two is of interest. *)
  Variables neg shift : bool.

  Definition safe (rest : list Z) : Prop :=
    bytes rest /\ (neg = true -> ~ has_negative_length rest)
    /\ (shift = true -> ~ has_long_varint rest).

  Definition good {A} (r : res A) : Prop :=
    (neg = true -> r <> Throw NegativeLength) /\ (shift = true -> r <> UB ShiftOverflow).

  Lemma good_ok {A} (a : A) : good (Ok a).
  Proof. split; discriminate. Qed.
  Lemma good_throw {A B} e : good (Throw e : res A) -> good (Throw e : res B).
  Proof. intros [H1 H2]. split; intros E; [specialize (H1 E)|specialize (H2 E)]; congruence. Qed.
  Lemma good_ub {A B} e : good (UB e : res A) -> good (UB e : res B).
  Proof. intros [H1 H2]. split; intros E; [specialize (H1 E)|specialize (H2 E)]; congruence. Qed.
  Lemma good_fuel {A} : good (OutOfFuel : res A).
  Proof. split; discriminate. Qed.
  Lemma good_other {A} e : e <> NegativeLength -> good (Throw e : res A).
  Proof. split; intros; congruence. Qed.
  Lemma good_over {A} : good (UB OverRead : res A).
  Proof. split; discriminate. Qed.

  Ltac pass := first [ apply good_ok | apply good_fuel | apply good_over
    | apply good_other; discriminate
    | eapply good_throw; eassumption | eapply good_ub; eassumption ].

  Lemma long_occurs x y : occurs x y -> has_long_varint x -> has_long_varint y.
  Proof. intros O (z & Oz & H). exists z. split; [eapply occurs_trans; eauto|assumption]. Qed.

  Lemma safe_occurs x y : occurs x y -> safe y -> safe x.
  Proof.
    intros O (B & N & L). split; [eapply occurs_bytes; eauto|]. split; intro E.
    - intros (v & z & Oz & V & G). apply (N E).
      exists v, z. split; [eapply occurs_trans; eauto|]. auto.
    - intro H. apply (L E). eapply long_occurs; eauto.
  Qed.

  Lemma safe_tail x y : safe (x ++ y) -> safe y.
  Proof. apply safe_occurs, occurs_tail. Qed.

  Definition calm {A} (op : list Z -> iter -> res (A * iter)) : Prop :=
    forall pre rest, Zlen rest <= INT_MAX -> safe rest ->
    good (op (pre ++ rest) (cur pre rest)).

  Lemma calm_ext {A} (op op' : list Z -> iter -> res (A * iter)) :
    (forall d it, op d it = op' d it) -> calm op -> calm op'.
  Proof. intros E C pre rest B S. rewrite <- E. now apply C. Qed.

  Lemma calm_ret {A} (a : A) : calm (fun _ it => Ok (a, it)).
  Proof. intros pre rest B S. pass. Qed.

  Lemma calm_bind {A B} n (op : list Z -> iter -> res (A * iter))
    (k : A -> list Z -> iter -> res (B * iter)) :
    local n op -> calm op -> (forall a, calm (k a)) ->
    calm (fun d it => '(a, it') <- op d it ;; k a d it').
  Proof.
    intros L C K pre rest Bd S. cbn beta. specialize (L pre rest Bd). specialize (C pre rest Bd S).
    destruct (op (pre ++ rest) (cur pre rest)) as [[a it']|e|r|]; cbn [bind]; try pass.
    destruct L as (x & rest' & -> & -> & _). rewrite app_assoc.
    apply K; [now apply Zlen_le_app in Bd | now apply safe_tail in S].
  Qed.

  (** The loop shifts too far only after ten bytes with the top bit set. *)
  Lemma varint_loop_calm w : forall n pre done rest k acc, safe (done ++ rest) ->
    Forall (fun b => 128 <= b) done -> 0 <= k -> k = 7 * Zlen done ->
    good (varint_loop n w ((pre ++ done) ++ rest) (cur (pre ++ done) rest) k acc).
  Proof.
    induction n as [|n IH]; intros pre done rest k acc S D Hk E; [pass|].
    cbn [varint_loop]. destruct (64 <=? k) eqn:K.
    - assert (Hs : shift = true -> False).
      { intro Es. destruct S as (_ & _ & L). apply (L Es).
        exists (firstn 10 done). split; [|split].
        - exists [], (skipn 10 done ++ rest). cbn [app]. now rewrite app_assoc, firstn_skipn.
        - rewrite firstn_length. unfold Zlen in E. lia.
        - rewrite <- (firstn_skipn 10 done) in D. now apply Forall_app in D. }
      assert (G : good (UB ShiftOverflow : res (Z * iter))).
      { split; [discriminate|]. intro Es. now destruct (Hs Es). }
      destruct rest as [|b rest].
      + rewrite app_nil_r, deref_end. exact G.
      + rewrite deref_cur. exact G.
    - destruct rest as [|b rest].
      + rewrite app_nil_r, deref_end. cbn [bind]. rewrite incr_end. pass.
      + rewrite deref_cur. cbn [bind]. rewrite incr_cur. cbn [bind].
        assert (Hb : 0 <= b < 256).
        { destruct S as (B & _). apply Forall_app in B. destruct B as [_ B]. now inversion B. }
        rewrite land128 by lia. destruct (b <? 128) eqn:T; cbn; [pass|].
        replace ((pre ++ done) ++ b :: rest) with ((pre ++ (done ++ [b])) ++ rest)
          by (rewrite <- !app_assoc; reflexivity).
        replace ((pre ++ done) ++ [b]) with (pre ++ done ++ [b]) by (rewrite <- !app_assoc; reflexivity).
        apply IH.
        * rewrite <- app_assoc. exact S.
        * apply Forall_app. split; [assumption|]. constructor; [lia|constructor].
        * lia.
        * zlen. lia.
  Qed.

  Lemma varint_calm w : calm (deserializeVarintCommon w).
  Proof.
    intros pre rest B S. pose proof (varint_loop_calm w 11 pre [] rest 0 0) as H.
    rewrite app_nil_r in H. apply H; auto; lia.
  Qed.

  (** A length read from safe input is not negative. *)
  Lemma calm_length {B} (k : Z -> list Z -> iter -> res (B * iter)) :
    (forall c, (neg = true -> 0 <= c) -> calm (k c)) ->
    calm (fun d it => '(l, it') <- deserializeVarintCommon 32 d it ;; k (toS 32 l) d it').
  Proof.
    intros K pre rest Bd S. cbn beta. pose proof (varint_calm 32 pre rest Bd S) as C.
    destruct (deserializeVarintCommon 32 (pre ++ rest) (cur pre rest)) as [[a it']|e|r|] eqn:E;
      cbn [bind]; try pass.
    apply varint_inv in E; [|lia|apply S].
    destruct E as (v & x & rest' & -> & V & -> & ->). rewrite app_assoc.
    apply K; [|now apply Zlen_le_app in Bd | now apply safe_tail in S].
    intro En. destruct S as (_ & N & _). unfold toS, wrapU.
    destruct (Z.ltb_spec (v mod 2 ^ 32) (2 ^ 31)) as [L|L].
    - change (2 ^ (32 - 1)) with (2 ^ 31). change (2^32) with 4294967296 in *. change (2^31) with 2147483648 in *.
      destruct (_ <? _) eqn:C2; lia.
    - destruct (N En). exists v, x. split; [exists [], rest'; reflexivity|]. auto.
  Qed.

  Lemma advance_good c pre rest : Zlen rest <= INT_MAX -> (neg = true -> 0 <= c) ->
    good (advance true (cur pre rest) c).
  Proof.
    intros B Hc. destruct (Z.ltb_spec c 0).
    - unfold advance. cbn [andb]. replace (c <? 0) with true by lia. split; [|discriminate].
      intro E. specialize (Hc E). lia.
    - destruct (Z.ltb_spec (Zlen rest) c).
      + rewrite advance_past by lia. pass.
      + destruct (take_split c rest) as (x & rest' & -> & <-); [lia|].
        rewrite advance_cur by assumption. pass.
  Qed.

  Lemma good_bind_ret {A B} (r : res A) (f : A -> B) : good r -> good (a <- r ;; Ok (f a)).
  Proof. destruct r; cbn [bind]; intro G; pass. Qed.

  Lemma advance_calm c : (neg = true -> 0 <= c) ->
    calm (fun _ it => it' <- advance true it c ;; Ok (tt, it')).
  Proof. intros Hc pre rest B S. apply (good_bind_ret _ (fun it => (tt, it))). now apply advance_good. Qed.

  Lemma fixed_calm c : 0 < c -> calm (deserializeFixed true c).
  Proof.
    intros Hc pre rest B S. unfold deserializeFixed. destruct (_ <=? _); [|pass].
    apply (good_bind_ret _ (fun it => (_, it))). apply advance_good; [assumption|lia].
  Qed.

  Lemma take_calm c : (neg = true -> 0 <= c) -> calm (take_bytes true c).
  Proof.
    intros Hc pre rest B S. unfold take_bytes.
    destruct (c <? 0); [|destruct (_ <=? _); [|pass]]; cbn [bind];
      apply (good_bind_ret _ (fun it => (_, it))); now apply advance_good.
  Qed.

  Lemma lendel_calm : calm (deserializeLengthDelimited true).
  Proof.
    eapply calm_ext; [intros; symmetry; apply lendel_take|].
    apply (calm_length (fun c d it => take_bytes true c d it)). intros c Hc. now apply take_calm.
  Qed.

  Lemma header_calm : calm decodeHeader.
  Proof.
    eapply calm_ext; [intros; symmetry; apply header_eq|].
    apply (calm_bind 0 (deserializeVarintCommon 32) (fun h _ it => Ok (_, it)));
      [apply varint_local | apply varint_calm |]. intro. apply calm_ret.
  Qed.

  Lemma basic_calm t : calm (deserializeBasic true t).
  Proof.
    destruct t; (eapply calm_ext; [intros d it; cbn [deserializeBasic]; reflexivity|]);
      match goal with
      | |- calm (fun d it => '(u, it') <- deserializeVarintCommon ?w d it ;; _) =>
          apply (calm_bind 0 (deserializeVarintCommon w) (fun u _ it' => Ok (_, it')));
            [apply varint_local | apply varint_calm | intro; apply calm_ret]
      | |- calm (fun d it => '(u, it') <- deserializeFixed true ?c d it ;; _) =>
          apply (calm_bind 0 (deserializeFixed true c) (fun u _ it' => Ok (_, it')));
            [apply fixed_local; lia | apply fixed_calm; lia | intro; apply calm_ret]
      | |- calm (fun d it => '(u, it') <- deserializeLengthDelimited true d it ;; _) =>
          apply (calm_bind 0 (deserializeLengthDelimited true) (fun u _ it' => Ok (_, it')));
            [apply lendel_local | apply lendel_calm | intro; apply calm_ret]
      end.
  Qed.

  Lemma list_loop_calm t fuel : forall last, calm (fun d it => list_loop fuel true t d it last).
  Proof.
    induction fuel as [|fuel IH]; intros last pre rest B S; [pass|].
    cbn [list_loop]. destruct (_ =? _); [pass|].
    pose proof (basic_local 0 t pre rest B) as L. pose proof (basic_calm t pre rest B S) as C.
    destruct (deserializeBasic true t (pre ++ rest) (cur pre rest)) as [[s it1]|e|r|];
      cbn [bind]; try pass.
    destruct L as (x & rest1 & -> & -> & X). rewrite app_assoc.
    specialize (IH last (pre ++ x) rest1 (Zlen_le_app _ _ B) (safe_tail _ _ S)). cbn beta in IH.
    destruct (list_loop fuel true t _ _ last) as [[l it2]|e|r|]; cbn [bind]; pass.
  Qed.

  Lemma bounded_calm {A} (loop : Z -> list Z -> iter -> res (A * iter)) c : (neg = true -> 0 <= c) ->
    (forall last, calm (loop last)) ->
    calm (fun d it => last <- it_plus true it c ;; loop (it_pos last) d it).
  Proof.
    intros Hc K pre rest B S. cbn beta. rewrite plus_cases by assumption.
    destruct (c <? 0) eqn:N; cbn [bind].
    { split; [|discriminate]. intro E. specialize (Hc E). lia. }
    destruct (Zlen rest <? c); cbn [bind]; [apply good_other; discriminate|].
    apply K; assumption.
  Qed.

  Lemma numeric_calm t fuel : calm (deserializeListNumeric fuel true t).
  Proof.
    apply (calm_length (fun c d it =>
      last <- it_plus true it c ;; list_loop fuel true t d it (it_pos last))).
    intros c Hc. apply (bounded_calm (fun last d it => list_loop fuel true t d it last)); [exact Hc|].
    intro. apply list_loop_calm.
  Qed.

  Lemma skip_len_calm :
    calm (fun d it => it' <- skipLengthDelimited true d it ;; Ok (tt, it')).
  Proof.
    eapply calm_ext.
    2:{ apply (calm_length (fun c _ it => it' <- advance true it c ;; Ok (tt, it'))).
        intros c Hc. now apply advance_calm. }
    intros d it. cbn beta. unfold skipLengthDelimited.
    destruct (deserializeVarintCommon 32 d it) as [[l it1]|e|r|]; reflexivity.
  Qed.

  Lemma skip_calm wt :
    calm (fun d it => it' <- skipSerializedFieldBytes true d it wt ;; Ok (tt, it')).
  Proof.
    intros pre rest B S. unfold skipSerializedFieldBytes.
    destruct (wt =? WVarintT).
    - pose proof (skipVarint_local 0 (fun _ _ => ([], Ok tt)) (fun _ _ _ => Logic.I) (Datatypes.S (length (pre ++ rest))) pre rest
                    ltac:(rewrite app_length; lia)) as L.
      destruct (skipVarint _ (pre ++ rest) (cur pre rest)) as [it'|e|r|];
        cbn [bind]; try contradiction; [pass|]. subst e. pass.
    - destruct (wt =? WFixed32T); [apply (advance_calm 4 ltac:(lia) pre rest B S)|].
      destruct (wt =? WFixed64T); [apply (advance_calm 8 ltac:(lia) pre rest B S)|].
      destruct (wt =? WLengthDelimitedT); [|pass].
      apply (skip_len_calm pre rest B S).
  Qed.

  Section Rec.
    Variable fuel : nat.
    Variable sch : schema.
    Variable rec : nat -> list Z -> list value * res unit.
    Hypothesis rec_ends : forall m bs, Zlen bs <= INT_MAX -> ends fuel (length bs) (snd (rec m bs)).
    Hypothesis rec_calm : forall m bs, Zlen bs <= INT_MAX -> safe bs ->
      good (snd (rec m bs)).

    Lemma object_calm m : calm (deserializeObject true rec m).
    Proof.
      intros pre rest B S. unfold deserializeObject.
      pose proof (lendel_calm pre rest B S) as C.
      destruct (deserializeLengthDelimited true (pre ++ rest) (cur pre rest)) as [[a it']|e|r|] eqn:E;
        cbn [bind]; try pass.
      pose proof (lendel_length _ _ _ _ B E) as Len.
      pose proof (lendel_occurs _ _ _ _ B E) as O.
      pose proof (lendel_local 0 pre rest B) as L. rewrite E in L.
      destruct L as (x & rest' & -> & -> & _). cbn [cur it_left] in Len.
      assert (Ba : Zlen a <= INT_MAX) by (pose proof (Zlen_nonneg rest'); lia).
      pose proof (rec_calm m a Ba (safe_occurs _ _ O S)) as R.
      destruct (rec m a) as [obj [u|e|r|]]; cbn [snd] in R; pass.
    Qed.

    Lemma element_calm e : calm (deserializeElement true rec e).
    Proof.
      destruct e as [t|m].
      - apply (calm_bind 0 (deserializeBasic true t) (fun s _ it => Ok (VScalar s, it)));
          [apply basic_local | apply basic_calm | intro; apply calm_ret].
      - apply (calm_bind (S fuel) (deserializeObject true rec m) (fun o _ it => Ok (VMsg o, it)));
          [apply object_local; assumption | apply object_calm | intro; apply calm_ret].
    Qed.

    Lemma map_part_calm k e key val : calm (map_part rec k e key val).
    Proof.
      apply (calm_bind 0 decodeHeader (fun h d it1 =>
        if fst (fst h) =? 1 then
         '(key', it2) <- deserializeBasic true k d it1 ;; Ok ((key', val), it2)
        else
         '(val', it2) <- deserializeElement true rec e d it1 ;; Ok ((key, val'), it2)));
        [apply header_local | apply header_calm |].
      intro h. destruct (fst (fst h) =? 1).
      - apply (calm_bind 0 (deserializeBasic true k) (fun s _ it => Ok ((s, val), it)));
          [apply basic_local | apply basic_calm | intro; apply calm_ret].
      - apply (calm_bind (S fuel) (deserializeElement true rec e) (fun v _ it => Ok ((key, v), it)));
          [apply element_local; assumption | apply element_calm | intro; apply calm_ret].
    Qed.

    Lemma map_loop_calm k e n : forall last key val,
      calm (fun d it => map_loop true rec n k e d it last key val).
    Proof.
      induction n as [|n IH]; intros last key val pre rest B S; [pass|].
      rewrite map_loop_step. destruct (_ =? _); [pass|].
      pose proof (map_part_local fuel rec rec_ends k e key val pre rest B) as L.
      pose proof (map_part_calm k e key val pre rest B S) as C.
      destruct (map_part rec k e key val (pre ++ rest) (cur pre rest)) as [[kv it1]|e1|r|];
        cbn [bind]; try pass.
      destruct L as (x & rest1 & -> & -> & X). rewrite app_assoc.
      apply IH; [now apply Zlen_le_app in B | now apply safe_tail in S].
    Qed.

    Lemma pair_calm k e : calm (deserializeMapPair fuel true rec k e).
    Proof.
      apply (calm_length (fun c d it => last <- it_plus true it c ;;
           map_loop true rec fuel k e d it (it_pos last) (default_scalar k) (default_element e))).
      intros c Hc. apply (bounded_calm (fun last d it =>
          map_loop true rec fuel k e d it last (default_scalar k) (default_element e))); [exact Hc|].
      intro. apply map_loop_calm.
    Qed.

    Lemma field_calm ty old : calm (deserializeField fuel true rec ty old).
    Proof.
      destruct ty as [[t|m]|[t|m]|k e]; unfold deserializeField.
      - apply (calm_bind 0 (deserializeBasic true t)
                 (fun s _ it => Ok (VScalar (store_scalar t (scalar_of old) s), it)));
          [apply basic_local | apply basic_calm | intro; apply calm_ret].
      - apply (calm_bind (S fuel) (deserializeObject true rec m) (fun o _ it => Ok (VMsg o, it)));
          [apply object_local; assumption | apply object_calm | intro; apply calm_ret].
      - destruct (is_blob t); [|destruct (is_enum t)].
        + apply (calm_bind 0 (deserializeBasic true t) (fun s _ it =>
            Ok (VList (store_scalars t (list_of old) (list_of old ++ [VScalar s])), it)));
            [apply basic_local | apply basic_calm | intro; apply calm_ret].
        + apply (calm_bind (S fuel) (deserializeListNumeric fuel true t) (fun l _ it =>
            Ok (VList (store_scalars t (list_of old) (list_of old ++ map VScalar l)), it)));
            [apply numeric_local | apply numeric_calm | intro; apply calm_ret].
        + apply (calm_bind (S fuel) (deserializeListNumeric fuel true t) (fun l _ it =>
            Ok (VList (store_scalars t (list_of old) (map VScalar l)), it)));
            [apply numeric_local | apply numeric_calm | intro; apply calm_ret].
      - apply (calm_bind (S fuel) (deserializeObject true rec m) (fun o _ it =>
          Ok (VList (list_of old ++ [VMsg o]), it)));
          [apply object_local; assumption | apply object_calm | intro; apply calm_ret].
      - eapply calm_ext.
        2:{ apply (calm_bind (S fuel) (deserializeMapPair fuel true rec k e) (fun kv _ it =>
              Ok (VMap (store_map k e (map_of old) (map_insert k (fst kv) (snd kv) (map_of old))), it)));
              [apply pair_local; assumption | apply pair_calm | intro; apply calm_ret]. }
        intros d it. cbn beta.
        destruct (deserializeMapPair fuel true rec k e d it) as [[[key val] it']|e1|r|]; reflexivity.
    Qed.

    Lemma property_calm m obj :
      calm (fun d it => deserializeProperty fuel true sch rec m d it obj).
    Proof.
      eapply calm_ext; [intros; symmetry; apply property_split|].
      apply (calm_bind 0 decodeHeader (fun h d it => property_rest fuel sch rec m obj h d it));
        [apply header_local | apply header_calm |].
      intro h. unfold property_rest. destruct (negb (snd h)).
      { intros pre rest B S. pass. }
      destruct (find_field (msg_at sch m) (fst (fst h))) as [i|].
      - apply (calm_bind (S fuel)
          (deserializeField fuel true rec (f_ty (field_at sch m i)) (nth i obj VNull))
          (fun v _ it => Ok (update i v obj, it)));
          [apply field_local; assumption | apply field_calm | intro; apply calm_ret].
      - apply (calm_bind 0
          (fun d it => it' <- skipSerializedFieldBytes true d it (snd (fst h)) ;; Ok (tt, it'))
          (fun _ _ it => Ok (obj, it))); [apply (skip_local fuel rec rec_ends) | apply skip_calm | intro; apply calm_ret].
    Qed.
  End Rec.

  Section Loop.
    Variable sch : schema.

    Lemma nested_ends fuel m bs : Zlen bs <= INT_MAX -> ends fuel (length bs) (snd (nested sch fuel true m bs)).
    Proof. intro B. unfold nested. rewrite cur_begin. apply (loop_ends sch fuel m [] bs); exact B. Qed.

    Lemma loop_calm fuel : forall m pre rest obj, Zlen rest <= INT_MAX -> safe rest ->
      good (snd (deserialize_loop fuel true sch m (pre ++ rest) (cur pre rest) obj)).
    Proof.
      induction fuel as [|fuel IH]; intros m pre rest obj B S; [pass|].
      cbn [deserialize_loop]. destruct (_ =? _); [pass|].
      change (fun m' data' => deserialize_loop fuel true sch m' data' (it_begin data') (default_obj sch m'))
        with (nested sch fuel true).
      pose proof (property_local fuel sch (nested sch fuel true) (nested_ends fuel) m obj pre rest B) as L.
      assert (C : forall m bs, Zlen bs <= INT_MAX -> safe bs ->
                  good (snd (nested sch fuel true m bs))).
      { intros m' bs B' S'. unfold nested. rewrite cur_begin. apply (IH m' [] bs); assumption. }
      pose proof (property_calm fuel sch (nested sch fuel true) (nested_ends fuel) C m obj pre rest B S) as P.
      destruct (deserializeProperty fuel true sch (nested sch fuel true) m (pre ++ rest) (cur pre rest) obj)
        as [[obj' it']|e|r|]; cbn [snd]; try pass.
      destruct L as (x & rest' & -> & -> & _). rewrite app_assoc.
      apply IH; [now apply Zlen_le_app in B | now apply safe_tail in S].
    Qed.
  End Loop.
End Calm.

Lemma safe_no_negative_length sch m data : Zlen data <= INT_MAX -> bytes data ->
  ~ has_negative_length data -> no_negative_length sch m data.
Proof.
  intros B Y N fuel. unfold deserializeMessage. rewrite cur_begin.
  apply (loop_calm true false sch fuel m [] data (default_obj sch m) B); [|reflexivity].
  split; [exact Y|]. split; [auto | discriminate].
Qed.

Lemma safe_no_shift sch m data : Zlen data <= INT_MAX -> bytes data ->
  ~ has_long_varint data -> forall fuel,
  snd (deserializeMessage fuel true sch m data) <> UB ShiftOverflow.
Proof.
  intros B Y N fuel. unfold deserializeMessage. rewrite cur_begin.
  apply (loop_calm false true sch fuel m [] data (default_obj sch m) B); [|reflexivity].
  split; [exact Y|]. split; [discriminate | auto].
Qed.

(** Without four bytes in a row that have the top bit set there is neither. *)
Lemma varint_first_bytes v x : is_varint v x ->
  0 <= v < 128 ^ Zlen x /\ Forall (fun b => 128 <= b) (firstn (length x - 1) x).
Proof.
  induction 1 as [b Hb | b v bs Hb V IH].
  - change (128 ^ Zlen [b]) with 128. split; [lia|constructor].
  - destruct IH as [B F]. rewrite Zlen_cons, Z.pow_add_r by (pose proof (Zlen_nonneg bs); lia).
    split; [lia|]. pose proof (is_varint_nonnil _ _ V). destruct bs as [|c bs]; [congruence|].
    cbn [length] in *. replace (S (S (length bs)) - 1)%nat with (S (S (length bs) - 1)) by lia.
    cbn [firstn]. constructor; [lia|exact F].
Qed.

Lemma no_run_safe data : ~ has_run 4 data -> ~ has_negative_length data /\ ~ has_long_varint data.
Proof.
  intro N. split.
  - intros (v & x & O & [V _] & L). apply varint_first_bytes in V. destruct V as [B F].
    assert (Hx : (5 <= length x)%nat).
    { destruct (Nat.ltb_spec (length x) 5) as [Lt|]; [|assumption].
      assert (128 ^ Zlen x <= 128 ^ 4) by (apply Z.pow_le_mono_r; unfold Zlen; lia).
      change (128 ^ 4) with 268435456 in *. change (2 ^ 31) with 2147483648 in *.
      rewrite Z.mod_small in L by lia. lia. }
    apply N. exists (firstn 4 x). split; [|split].
    + eapply occurs_trans; [|exact O]. exists [], (skipn 4 x). cbn [app]. now rewrite firstn_skipn.
    + rewrite firstn_length. lia.
    + replace 4%nat with (Nat.min 4 (length x - 1)) by lia. rewrite <- firstn_firstn.
      rewrite <- (firstn_skipn 4 (firstn (length x - 1) x)) in F. now apply Forall_app in F.
  - intros (x & O & L & F). apply N. exists (firstn 4 x). split; [|split].
    + eapply occurs_trans; [|exact O]. exists [], (skipn 4 x). cbn [app]. now rewrite firstn_skipn.
    + rewrite firstn_length. lia.
    + rewrite <- (firstn_skipn 4 x) in F. now apply Forall_app in F.
Qed.

Lemma run_safe sch m data : Zlen data <= INT_MAX -> bytes data ->
  ~ has_negative_length data -> ~ has_long_varint data ->
  exists r o, deserializes sch m data r o /\ (o = Ok tt \/ (exists e, o = Throw e) \/ o = UB OverRead).
Proof.
  intros B Y N L. pose proof (safe_no_negative_length sch m data B Y N) as NN.
  destruct (run_total sch m data B NN) as (r & o & D & O).
  exists r, o. split; [exact D|]. destruct O as [O|[O|[O|O]]]; auto. exfalso.
  destruct D as (_ & fuel & D). subst o.
  pose proof (agree_message sch fuel m data (NN fuel)) as A.
  rewrite D in A. apply (safe_no_shift sch m data B Y L fuel). now rewrite <- A.
Qed.

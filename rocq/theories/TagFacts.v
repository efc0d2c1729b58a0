(** The reader and the tags of records: of a tag only the lower 32 bits count, of the tag of a known field only
    the number, and of the tags in a map entry only whether the number is 1. *)

From Coq Require Import ZArith List Bool Lia ZifyBool.
From Verif Require Import Base WireModel Values MessageModel WireSpec WireProofs MessageSpec MessageProofs
  SerializeProofs ReaderProofs MessageFacts WireFacts RunFacts PropFacts.
Import ListNotations.
Open Scope Z_scope.
Ltac Zify.zify_post_hook ::= Z.div_mod_to_equations.

Lemma tag_read_any h hd pre rest : wire_varint h hd ->
  decodeHeader (pre ++ hd ++ rest) (cur pre (hd ++ rest))
  = Ok ((h mod 2 ^ 32) / 8, h mod 8, valid_tag ((h mod 2 ^ 32) / 8) (h mod 8), cur (pre ++ hd) rest).
Proof.
  intros V. unfold decodeHeader. rewrite (varint_read 32 _ _ _ _ ltac:(lia) V). cbn [bind]. unfold wrapU.
  rewrite Z.shiftr_div_pow2 by lia. change (2 ^ 3) with 8.
  change 7 with (Z.ones 3). rewrite Z.land_ones by lia. change (2 ^ 3) with 8.
  replace ((h mod 2 ^ 32) mod 8) with (h mod 8) by lia.
  unfold valid_tag, WVarintT, WFixed64T, WFixed32T, WLengthDelimitedT.
  do 4 f_equal.
  replace ((h mod 2 ^ 32) / 8 <=? 2 ^ 29 - 1) with true by lia. cbn [andb].
  f_equal. destruct (h mod 8 =? 0), (h mod 8 =? 1), (h mod 8 =? 2), (h mod 8 =? 5); reflexivity.
Qed.

Section Tags.
  Variable sch : schema.

  (** What precedes the bytes still to be read is of no importance. *)
  Lemma loop_moved fuel : forall m pre pre2 rest obj r, Zlen rest <= INT_MAX ->
    deserialize_loop fuel true sch m (pre ++ rest) (cur pre rest) obj = (r, Ok tt) ->
    deserialize_loop fuel true sch m (pre2 ++ rest) (cur pre2 rest) obj = (r, Ok tt).
  Proof.
    induction fuel as [|fuel IH]; intros m pre pre2 rest obj r B H; [discriminate|].
    destruct rest as [|b rest]; [rewrite loop_nil in *; exact H|].
    rewrite loop_step in *. pose proof (step_local sch fuel m obj pre (b :: rest) B) as L.
    destruct (step sch fuel m obj (pre ++ b :: rest) (cur pre (b :: rest))) as [[obj' it']|e|u|]; try discriminate.
    destruct L as (x & rest' & E & -> & X). rewrite E in *. rewrite X by exact B.
    rewrite app_assoc in *. apply (IH m (pre ++ x)); [now apply Zlen_le_app in B | exact H].
  Qed.

  (** A successful property behind one header succeeds behind another one that is treated alike. *)
  Lemma property_alike fuel m obj tag tag' rest h h' obj' it' : wire_varint h tag -> wire_varint h' tag' ->
    ((h' mod 2 ^ 32) / 8 = (h mod 2 ^ 32) / 8) -> valid_tag ((h' mod 2 ^ 32) / 8) (h' mod 8) = true ->
    (find_field (msg_at sch m) ((h mod 2 ^ 32) / 8) = None -> h' mod 8 = h mod 8) -> Zlen rest <= INT_MAX ->
    step sch fuel m obj (tag ++ rest) (cur [] (tag ++ rest)) = Ok (obj', it') ->
    exists x rest', rest = x ++ rest' /\ it' = cur (tag ++ x) rest' /\
      step sch fuel m obj (tag' ++ rest) (cur [] (tag' ++ rest)) = Ok (obj', cur (tag' ++ x) rest').
  Proof.
    intros V V' E Va W B H. unfold step in *. rewrite property_split in *.
    pose proof (tag_read_any h tag [] rest V) as T. pose proof (tag_read_any h' tag' [] rest V') as T'.
    cbn [app] in T, T'. rewrite T in H. rewrite T'. cbn [bind] in *.
    set (n := (h mod 2 ^ 32) / 8) in *. rewrite E in *.
    assert (R : forall m bs, Zlen bs <= INT_MAX -> ends fuel (length bs) (snd (nested sch fuel true m bs))).
    { intros m' bs Bs. unfold nested. rewrite cur_begin. apply (loop_ends sch fuel m' [] bs). exact Bs. }
    assert (P : forall d it, property_rest fuel sch (nested sch fuel true) m obj (n, h' mod 8, valid_tag n (h' mod 8)) d it =
                property_rest fuel sch (nested sch fuel true) m obj (n, h mod 8, true) d it).
    { intros d it. unfold property_rest. cbn [fst snd]. rewrite Va. cbn [negb].
      destruct (find_field (msg_at sch m) n) eqn:F; [reflexivity|]. now rewrite (W eq_refl). }
    assert (Va2 : valid_tag n (h mod 8) = true).
    { destruct (valid_tag n (h mod 8)) eqn:X; [reflexivity|]. unfold property_rest in H. cbn in H. discriminate. }
    rewrite Va2 in H. rewrite P.
    pose proof (property_rest_local fuel sch (nested sch fuel true) R m obj (n, h mod 8, true) tag rest B) as L.
    rewrite H in L. destruct L as (x & rest' & -> & -> & X). exists x, rest'. split; [reflexivity|]. split; [reflexivity|].
    now rewrite X.
  Qed.

  Lemma alike_tags m tag tag' rest h h' r : wire_varint h tag -> wire_varint h' tag' ->
    ((h' mod 2 ^ 32) / 8 = (h mod 2 ^ 32) / 8) -> valid_tag ((h' mod 2 ^ 32) / 8) (h' mod 8) = true ->
    (find_field (msg_at sch m) ((h mod 2 ^ 32) / 8) = None -> h' mod 8 = h mod 8) ->
    Zlen (tag ++ rest) <= INT_MAX -> Zlen (tag' ++ rest) <= INT_MAX -> no_negative_length sch m (tag ++ rest) ->
    deserializes sch m (tag ++ rest) r (Ok tt) -> deserializes sch m (tag' ++ rest) r (Ok tt).
  Proof.
    intros V V' E Va W B B' N (_ & f & H). rewrite agree_message in H by apply N.
    unfold deserializeMessage in H. rewrite cur_begin in H.
    assert (Br : Zlen rest <= INT_MAX) by now apply Zlen_le_app in B.
    destruct f as [|f]; [discriminate|].
    assert (T : exists b t, tag ++ rest = b :: t).
    { destruct tag as [|b t]; [destruct V as [V _]; inversion V|]. exists b, (t ++ rest). reflexivity. }
    assert (T' : exists b t, tag' ++ rest = b :: t).
    { destruct tag' as [|b t]; [destruct V' as [V' _]; inversion V'|]. exists b, (t ++ rest). reflexivity. }
    destruct T as (b & t & T), T' as (b' & t' & T').
    assert (K : deserializeMessage (Datatypes.S f) true sch m (tag' ++ rest) = (r, Ok tt)).
    { unfold deserializeMessage. rewrite cur_begin.
      rewrite T in H. change (b :: t) with ([] ++ b :: t) in H at 1. rewrite loop_step in H. cbn [app] in H.
      rewrite <- T in H.
      destruct (step sch f m (default_obj sch m) (tag ++ rest) (cur [] (tag ++ rest))) as [[obj' it']|e|u|] eqn:Es; try discriminate.
      destruct (property_alike f m _ tag tag' rest h h' obj' it' V V' E Va W Br Es) as (x & rest' & -> & -> & Es').
      rewrite T'. change (b' :: t') with ([] ++ b' :: t') at 1. rewrite loop_step. cbn [app]. rewrite <- T'. rewrite Es'.
      rewrite app_assoc in *. apply (loop_moved f m (tag ++ x)); [|exact H]. now apply Zlen_le_app in Br. }
    split; [discriminate|]. exists (Datatypes.S f). rewrite agree_message; [exact K|]. now rewrite K.
  Qed.

  (** ** One number of a repeated field that is sent unpacked *)

  Lemma varint_at_end w pre : deserializeVarintCommon w pre (cur pre []) = Throw OutOfRange.
  Proof.
    unfold deserializeVarintCommon. cbn [varint_loop]. rewrite deref_end. cbn [bind]. rewrite incr_end. reflexivity.
  Qed.

  Definition varint_type (t : sty) : Prop := match t with TFixed32 | TSFixed32 | TFloat | TFixed64 | TSFixed64 | TDouble | TString | TBytes => False | _ => True end.

  Lemma list_at_end t pre last fuel : varint_type t ->
    list_loop fuel false t pre (cur pre []) last = OutOfFuel \/
    list_loop fuel false t pre (cur pre []) last = Throw OutOfRange \/
    (last = Zlen pre /\ list_loop fuel false t pre (cur pre []) last = Ok ([], cur pre [])).
  Proof.
    intro F. destruct fuel as [|fuel]; [now left|]. right. cbn [list_loop cur it_pos].
    destruct (Z.eqb_spec (Zlen pre) last) as [E|N]; [right; auto|]. left. fold (cur pre []).
    destruct t; try contradiction; cbn [deserializeBasic]; rewrite varint_at_end; reflexivity.
  Qed.

  Lemma numeric_at_end t v len pre fuel : varint_type t -> wire_varint v len ->
    let out := deserializeListNumeric fuel false t (pre ++ len) (cur pre len) in
    out = Ok ([], cur (pre ++ len) []) \/ (forall x, out <> Ok x).
  Proof.
    intros F V out. unfold out, deserializeListNumeric.
    pose proof (varint_read 32 v len pre [] ltac:(lia) V) as R. rewrite app_nil_r in R. rewrite R. cbn [bind].
    set (c := toS 32 (wrapU 32 v)).
    destruct (it_plus false (cur (pre ++ len) []) c) as [i|e|u|] eqn:Ei; try (right; cbn [bind]; discriminate).
    cbn [bind].
    destruct (list_at_end t (pre ++ len) (it_pos i) fuel F) as [E|[E|[El E]]]; rewrite E; [right; discriminate..|].
    now left.
  Qed.

  Lemma unpacked_number m i t v bs r o : schema_ok sch -> (i < length (md_fields (msg_at sch m)))%nat ->
    f_ty (field_at sch m i) = FRep (ES t) -> varint_type t ->
    enc_recs [(f_num (field_at sch m i), WVarint v)] bs -> deserializes sch m bs r o ->
    nth i r VNull = VList [].
  Proof.
    intros S Hi Ty F E (No & f & H). inversion E as [|? ? ? tag pl rest N T V Er]; subst. inversion Er; subst.
    inversion V as [? ? Hv Vv| | | | |]; subst. rewrite app_nil_r in *.
    assert (D : nth i (default_obj sch m) VNull = VList []).
    { unfold default_obj. rewrite (nth_indep _ VNull (default_field (f_ty (mkField 0 (FSing (ES TInt32))))))
        by (now rewrite map_length).
      rewrite (map_nth (fun f => default_field (f_ty f))). unfold field_at in Ty.
      rewrite (nth_indep _ _ (mkField 0 (FSing (ES TInt32)))) in Ty by assumption. now rewrite Ty. }
    unfold deserializeMessage in H. rewrite cur_begin in H. destruct f as [|f]; [injection H as <- <-; congruence|].
    cbn [deserialize_loop] in H.
    destruct (it_pos (cur [] (tag ++ pl)) =? Zlen (tag ++ pl)); [injection H as <- <-; exact D|].
    unfold deserializeProperty in H.
    pose proof (tag_read_ok (f_num (field_at sch m i)) 0 tag [] pl N (or_introl eq_refl) T) as Tr. cbn [app] in Tr.
    rewrite Tr in H. cbn [bind negb] in H. rewrite find_field_at in H by assumption. rewrite Ty in H. rewrite D in H.
    unfold deserializeField in H. assert (Bl : is_blob t = false) by (destruct t; try contradiction; reflexivity).
    rewrite Bl in H.
    assert (K : forall g : list scalar -> list value, g [] = [] ->
      match (x <- ('(l, it') <- deserializeListNumeric f false t (tag ++ pl) (cur tag pl) ;; Ok (VList (g l), it')) ;;
             let (v0, it2) := x in Ok (update i v0 (default_obj sch m), it2)) with
      | Ok (obj', it') => deserialize_loop f false sch m (tag ++ pl) it' obj'
      | Throw e => (default_obj sch m, Throw e)
      | UB u => (default_obj sch m, UB u)
      | OutOfFuel => (default_obj sch m, OutOfFuel)
      end = (r, o) -> nth i r VNull = VList []).
    { intros g G K. destruct (numeric_at_end t v pl tag f F Vv) as [En|En].
      - rewrite En in K. cbn [bind] in K. rewrite G in K.
        assert (U : nth i (update i (VList []) (default_obj sch m)) VNull = VList []).
        { rewrite nth_update_eq; [reflexivity|]. now rewrite default_obj_length. }
        destruct f as [|f]; [injection K as <- <-; exact U|]. cbn [deserialize_loop cur it_pos] in K.
        rewrite Z.eqb_refl in K. injection K as <- <-. exact U.
      - destruct (deserializeListNumeric f false t (tag ++ pl) (cur tag pl)) as [x|e|u|];
          [now destruct (En x)| | |]; cbn [bind] in K; injection K as <- <-; exact D. }
    destruct (is_enum t).
    - apply (K (fun l => store_scalars t [] ([] ++ map VScalar l))); [reflexivity|]. exact H.
    - apply (K (fun l => store_scalars t [] (map VScalar l))); [reflexivity|]. exact H.
  Qed.

  Lemma unpacked_single m i t v bs r o : schema_ok sch -> (i < length (md_fields (msg_at sch m)))%nat ->
    f_ty (field_at sch m i) = FRep (ES t) -> fits_scalar t (WVarint v) ->
    enc_recs [(f_num (field_at sch m i), WVarint v)] bs -> deserializes sch m bs r o ->
    nth i r VNull = VList [].
  Proof. intros S Hi Ty F. apply (unpacked_number m i t); auto. destruct t; try contradiction; exact Logic.I. Qed.
End Tags.

(** ** Map entries with any fields *)

Section Parts.
  Variable sch : schema.

  (** In a map entry every field but 1 is taken as the value. *)
  Definition part (k : sty) (e : elty) (x : Z * wval) : Prop :=
    fst x = 1 /\ fits_scalar k (snd x) \/ fst x <> 1 /\ fits_elem sch e (snd x).

  Definition others (es : list (Z * wval)) : list wval := map snd (filter (fun x => negb (fst x =? 1)) es).

  Lemma parts_read hard rec k e : forall es content n pre rest key val,
    rec_ok sch rec (length content) -> enc_recs es content -> Forall (part k e) es ->
    (length content < n)%nat -> Zlen (content ++ rest) <= INT_MAX ->
    exists key1 val1,
      map_loop hard rec n k e (pre ++ content ++ rest) (cur pre (content ++ rest))
               (Zlen (pre ++ content)) key val
      = Ok (key1, val1, cur (pre ++ content) rest)
      /\ key1 = last (map (mean_scalar k) (occurrences 1 es)) key
      /\ (others es = [] -> val1 = val)
      /\ (others es <> [] -> canon_elem sch e val1
                             = canon_elem sch e (mean_elem sch e (last (others es) (WVarint 0)))).
  Proof.
    induction es as [|[num w] es IH]; intros content n pre rest key val R E F Hn B; inversion E; subst.
    - destruct n; [simpl in Hn; lia|]. exists key, val.
      cbn [map_loop app cur it_pos]. rewrite app_nil_r, Z.eqb_refl.
      split; [reflexivity|]. split; [reflexivity|]. split; [reflexivity|]. intro X. now destruct X.
    - rename bs into eb, rest0 into more.
      match goal with H : enc_val w eb |- _ => rename H into Ew end.
      match goal with H : enc_recs es more |- _ => rename H into Es end.
      match goal with H : is_tag _ _ _ |- _ => rename H into T end.
      match goal with H : field_number _ |- _ => rename H into N end.
      inversion F as [|? ? F1 F2]; subst.
      pose proof (varint_enc_nonempty _ _ T) as NE.
      rewrite !app_length in Hn.
      destruct n; [lia|]. cbn [map_loop].
      replace (it_pos (cur pre ((tag ++ eb ++ more) ++ rest)) =? Zlen (pre ++ tag ++ eb ++ more)) with false.
      2:{ symmetry. apply Z.eqb_neq. cbn [cur it_pos]. rewrite !Zlen_app. unfold Zlen. lia. }
      replace ((tag ++ eb ++ more) ++ rest) with (tag ++ eb ++ more ++ rest) in * by (now rewrite <- !app_assoc).
      rewrite (tag_read_ok num (wtype w)) by (auto using wtype_ok). cbn [bind].
      assert (B2 : Zlen (eb ++ more ++ rest) <= INT_MAX).
      { rewrite Zlen_app in B. pose proof (Zlen_nonneg tag). lia. }
      assert (B3 : Zlen (more ++ rest) <= INT_MAX).
      { rewrite Zlen_app in B2. pose proof (Zlen_nonneg eb). lia. }
      assert (R2 : rec_ok sch rec (length eb)) by (apply (rec_ok_mono sch rec (length (tag ++ eb ++ more))); auto;
        rewrite !app_length; lia).
      assert (R3 : rec_ok sch rec (length more)) by (apply (rec_ok_mono sch rec (length (tag ++ eb ++ more))); auto;
        rewrite !app_length; lia).
      replace (pre ++ tag ++ eb ++ more ++ rest) with ((pre ++ tag) ++ eb ++ more ++ rest)
        by (now rewrite <- !app_assoc).
      unfold occurrences, others. cbn [filter fst].
      destruct F1 as [[N1 F1] | [N2 F1]]; cbn [fst snd] in *.
      + subst num. cbn [Z.eqb Pos.eqb negb map snd].
        rewrite (scalar_read hard k w eb) by auto. cbn [bind].
        replace ((pre ++ tag) ++ eb ++ more ++ rest) with (((pre ++ tag) ++ eb) ++ more ++ rest)
          by (now rewrite <- !app_assoc).
        replace (pre ++ tag ++ eb ++ more) with (((pre ++ tag) ++ eb) ++ more) by (now rewrite <- !app_assoc).
        rewrite last_cons_default. apply (IH more n ((pre ++ tag) ++ eb) rest (mean_scalar k w) val); auto; lia.
      + replace (num =? 1) with false by lia. cbn [negb map snd].
        destruct (element_read hard sch rec e w eb (pre ++ tag) (more ++ rest) R2 Ew F1 B2) as (v & Hr & Hc).
        rewrite Hr. cbn [bind].
        replace ((pre ++ tag) ++ eb ++ more ++ rest) with (((pre ++ tag) ++ eb) ++ more ++ rest)
          by (now rewrite <- !app_assoc).
        replace (pre ++ tag ++ eb ++ more) with (((pre ++ tag) ++ eb) ++ more) by (now rewrite <- !app_assoc).
        destruct (IH more n ((pre ++ tag) ++ eb) rest key v) as (key1 & val1 & H1 & H2 & H3 & H4); auto; [lia|].
        exists key1, val1. split; [exact H1|]. split; [exact H2|]. split; [discriminate|]. intros _.
        rewrite last_cons_default. unfold others in H3, H4. destruct (map snd (filter _ es)) as [|w' ws] eqn:Eo.
        * cbn [last]. rewrite (H3 eq_refl). exact Hc.
        * rewrite H4 by discriminate. rewrite !last_cons_default. reflexivity.
  Qed.

  Lemma entry_read m i k e es bs r o : schema_ok sch -> (i < length (md_fields (msg_at sch m)))%nat ->
    f_ty (field_at sch m i) = FMap k e -> Forall (part k e) es ->
    enc_recs [(f_num (field_at sch m i), WMsg es)] bs -> Zlen bs <= INT_MAX -> deserializes sch m bs r o ->
    o = Ok tt /\ exists val, nth i r VNull = VMap [(last (map (mean_scalar k) (occurrences 1 es)) (default_scalar k), val)] /\
      (others es = [] -> val = default_element e) /\
      (others es <> [] -> canon_elem sch e val = canon_elem sch e (mean_elem sch e (last (others es) (WVarint 0)))).
  Proof.
    intros S Hi Ty F E B D. inversion E as [|? ? ? tag pl rest N T V Er]; subst. inversion Er; subst.
    inversion V as [| | | | |? content ? Ec De]; subst. rewrite app_nil_r in *.
    pose proof (delimited_nonempty _ _ De) as L. destruct De as (len & Vl & ->).
    assert (Dn : nth i (default_obj sch m) VNull = VMap []).
    { unfold default_obj. rewrite (nth_indep _ VNull (default_field (f_ty (mkField 0 (FSing (ES TInt32))))))
        by (now rewrite map_length).
      rewrite (map_nth (fun f => default_field (f_ty f))). unfold field_at in Ty.
      rewrite (nth_indep _ _ (mkField 0 (FSing (ES TInt32)))) in Ty by assumption. now rewrite Ty. }
    set (fuel := length (tag ++ len ++ content)).
    assert (RO : rec_ok sch (fun m' data' => deserialize_loop fuel false sch m' data' (it_begin data') (default_obj sch m')) fuel).
    { intros m1 rs1 bs1 E1 F1 L1 B1. destruct (deserialize_read false sch S fuel m1 rs1 bs1 E1 F1 L1 B1) as (x & X1 & X2 & X3).
      exists x. split; [exact X1 | exact X3]. }
    assert (Bc : Zlen (content ++ []) <= INT_MAX).
    { rewrite app_nil_r. rewrite !Zlen_app in B. pose proof (Zlen_nonneg tag). pose proof (Zlen_nonneg len). lia. }
    assert (Ht : (0 < length tag)%nat) by (apply (varint_enc_nonempty _ _ T)).
    assert (Hl : (0 < length len)%nat) by (apply (varint_enc_nonempty _ _ Vl)).
    destruct (parts_read false (fun m' data' => deserialize_loop fuel false sch m' data' (it_begin data') (default_obj sch m'))
      k e es content fuel (tag ++ len) [] (default_scalar k) (default_element e)) as (key & val & P1 & P2 & P3 & P4); auto.
    { apply (rec_ok_mono sch _ fuel); [unfold fuel; rewrite !app_length; lia | exact RO]. }
    { unfold fuel. rewrite !app_length. lia. }
    assert (K : deserializes sch m (tag ++ len ++ content) (update i (VMap [(key, val)]) (default_obj sch m)) (Ok tt)).
    { split; [discriminate|]. exists (Datatypes.S fuel). unfold deserializeMessage. rewrite cur_begin. cbn [deserialize_loop].
      replace (it_pos (cur [] (tag ++ len ++ content)) =? Zlen (tag ++ len ++ content)) with false.
      2:{ symmetry. apply Z.eqb_neq. cbn [cur it_pos]. rewrite !Zlen_app. unfold Zlen. cbn [length]. lia. }
      unfold deserializeProperty.
      pose proof (tag_read_ok (f_num (field_at sch m i)) 2 tag [] (len ++ content) N ltac:(cbn; auto) T) as Tr. cbn [app] in Tr.
      rewrite Tr. cbn [bind negb]. rewrite find_field_at by assumption. rewrite Ty, Dn.
      unfold deserializeField, deserializeMapPair.
      rewrite (varint_read 32 _ _ _ _ ltac:(lia) Vl). cbn [bind].
      rewrite (count_small content []) by exact Bc.
      pose proof (plus_cur false (tag ++ len) content [] Bc) as Pl. rewrite app_nil_r in Pl. rewrite Pl. cbn [bind].
      change (it_pos (cur ((tag ++ len) ++ content) [])) with (Zlen ((tag ++ len) ++ content)).
      rewrite !app_nil_r in P1. rewrite <- app_assoc in P1 at 1. rewrite P1. cbn [bind map_of map_insert].
      replace (store_map k e [] [(key, val)]) with [(key, val)] by (destruct e; reflexivity).
      unfold fuel. destruct (length (tag ++ len ++ content)) eqn:Lf; [rewrite !app_length in Lf; lia|].
      cbn [deserialize_loop cur it_pos]. rewrite <- app_assoc, Z.eqb_refl. reflexivity. }
    destruct (deserializes_fun _ _ _ _ _ _ _ D K) as [-> ->]. split; [reflexivity|]. exists val.
    split; [|auto]. rewrite nth_update_eq by (now rewrite default_obj_length). now rewrite P2.
  Qed.
End Parts.

(** A bool field looks at the lower 32 bits of the varint. *)
Lemma bool_single sch m i v bs r o : schema_ok sch -> (i < length (md_fields (msg_at sch m)))%nat ->
  f_ty (field_at sch m i) = FSing (ES TBool) -> enc_recs [(f_num (field_at sch m i), WVarint v)] bs ->
  deserializes sch m bs r o ->
  o = Ok tt /\ num_of (scalar_of (nth i r VNull)) = if v mod 2 ^ 32 =? 0 then 0 else 1.
Proof.
  intros S Hi Ty E D. inversion E as [|? ? ? tag pl rest N T V Er]; subst. inversion Er; subst.
  inversion V as [? ? Hv Vv| | | | |]; subst. rewrite app_nil_r in *.
  assert (Dn : nth i (default_obj sch m) VNull = VScalar (SNum 0)).
  { unfold default_obj. rewrite (nth_indep _ VNull (default_field (f_ty (mkField 0 (FSing (ES TInt32))))))
      by (now rewrite map_length).
    rewrite (map_nth (fun f => default_field (f_ty f))). unfold field_at in Ty.
    rewrite (nth_indep _ _ (mkField 0 (FSing (ES TInt32)))) in Ty by assumption. now rewrite Ty. }
  set (x := if v mod 2 ^ 32 =? 0 then 0 else 1).
  assert (K : deserializes sch m (tag ++ pl) (update i (VScalar (store_scalar TBool (SNum 0) (SNum x))) (default_obj sch m)) (Ok tt)).
  { split; [discriminate|]. exists 2%nat. unfold deserializeMessage. rewrite cur_begin. cbn [deserialize_loop].
    replace (it_pos (cur [] (tag ++ pl)) =? Zlen (tag ++ pl)) with false.
    2:{ symmetry. apply Z.eqb_neq. cbn [cur it_pos]. rewrite !Zlen_app. pose proof (varint_enc_nonempty _ _ T).
        unfold Zlen. cbn [length]. lia. }
    unfold deserializeProperty.
    pose proof (tag_read_ok (f_num (field_at sch m i)) 0 tag [] pl N (or_introl eq_refl) T) as Tr. cbn [app] in Tr.
    rewrite Tr. cbn [bind negb]. rewrite find_field_at by assumption. rewrite Ty, Dn.
    unfold deserializeField, deserializeBasic.
    pose proof (varint_read 32 v pl tag [] ltac:(lia) Vv) as R. rewrite app_nil_r in R. rewrite R. cbn [bind scalar_of].
    cbn [it_pos cur]. rewrite Z.eqb_refl. unfold x. reflexivity. }
  destruct (deserializes_fun _ _ _ _ _ _ _ D K) as [-> ->]. split; [reflexivity|].
  rewrite nth_update_eq by (now rewrite default_obj_length). cbn [scalar_of]. unfold store_scalar, scalar_eqb. cbn [is_blob num_of].
  destruct (Z.eqb_spec 0 x) as [Ex|]; [exact Ex | reflexivity].
Qed.

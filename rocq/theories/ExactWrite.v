(** What arrives of a serialized message. *)

From Coq Require Import ZArith List Bool Lia ZifyBool.
From Verif Require Import Base WireModel Values MessageModel WireSpec WireProofs MessageSpec
  MessageProofs SerializeProofs MessageFacts RunFacts ExactSpec ExactProofs.
Import ListNotations.
Open Scope Z_scope.
Ltac Zify.zify_post_hook ::= Z.div_mod_to_equations.

(** ** Scalars *)

Lemma feqb_zero32 z : in_u 32 z -> feqb 32 8 0 z = (z =? 0) || (z =? 2 ^ 31).
Proof.
  intro H. unfold in_u in H.
  destruct (Z.eqb_spec z 0) as [->|N]; [reflexivity|].
  destruct (Z.eqb_spec z (2 ^ 31)) as [->|N']; [reflexivity|].
  unfold feqb. replace (0 =? z) with false by lia.
  replace (is_fzero 32 z) with false; [now rewrite !andb_false_r|].
  symmetry. unfold is_fzero. cbn. lia.
Qed.

Lemma feqb_zero64 z : in_u 64 z -> feqb 64 11 0 z = (z =? 0) || (z =? 2 ^ 63).
Proof.
  intro H. unfold in_u in H.
  destruct (Z.eqb_spec z 0) as [->|N]; [reflexivity|].
  destruct (Z.eqb_spec z (2 ^ 63)) as [->|N']; [reflexivity|].
  unfold feqb. replace (0 =? z) with false by lia.
  replace (is_fzero 64 z) with false; [now rewrite !andb_false_r|].
  symmetry. unfold is_fzero. cbn. lia.
Qed.

(** A singular scalar: read into the default, if it was written at all. *)
Lemma single_back_spec t s : scalar_ok t s ->
  (if omitted t s then default_scalar t else store_scalar t (default_scalar t) (clear_null s))
  = single_back t s.
Proof.
  intro H. unfold store_scalar.
  destruct t, s; cbn [scalar_ok] in H; try contradiction;
    cbn [omitted num_of default_scalar is_blob scalar_eqb clear_null blob_of single_back].
  1-6, 13-14: destruct (Z.eqb_spec z 0) as [->|N]; [reflexivity|]; now replace (0 =? z) with false by lia.
  1-4: destruct (Z.eqb_spec 0 z) as [<-|N]; reflexivity.
  - rewrite feqb_zero32 by exact H.
    destruct (Z.eqb_spec z 0) as [->|N]; [reflexivity|]. cbn [orb]. now destruct (z =? 2 ^ 31).
  - rewrite feqb_zero64 by exact H.
    destruct (Z.eqb_spec z 0) as [->|N]; [reflexivity|]. cbn [orb]. now destruct (z =? 2 ^ 63).
  - destruct H as [_ H]. destruct null; [now rewrite H|]. destruct bs; reflexivity.
  - destruct H as [_ H]. destruct null; [now rewrite H|]. destruct bs; reflexivity.
Qed.

(** Keys and values of maps: read into fresh variables. *)
Lemma entry_back t s : scalar_ok t s ->
  (if omitted t s then default_scalar t else clear_null s) = s.
Proof.
  intro H. destruct t, s; cbn [scalar_ok] in H; try contradiction;
    cbn [omitted num_of default_scalar is_blob clear_null]; auto.
  1-8: destruct (Z.eqb_spec z 0) as [->|N]; reflexivity.
  - destruct H as [_ H]. destruct null; [now rewrite H | reflexivity].
  - destruct H as [_ H]. destruct null; [now rewrite H | reflexivity].
Qed.

Lemma clear_null_element s : clear_null s = element_back s.
Proof. destruct s; reflexivity. Qed.

Lemma store_scalars_longer t old new : (length old <> length new)%nat -> store_scalars t old new = new.
Proof.
  intro H. unfold store_scalars.
  assert (X : forall a b, length a <> length b -> list_eqb (scalar_eqb t) a b = false).
  { clear. induction a as [|x a IH]; intros [|y b] N; cbn in *; try lia; auto.
    rewrite IH by lia. apply andb_false_r. }
  rewrite X; [reflexivity|]. now rewrite !map_length.
Qed.

Lemma store_map_longer k e old new : (length old <> length new)%nat -> store_map k e old new = new.
Proof.
  intro H. unfold store_map. destruct e; [|reflexivity].
  match goal with |- context[list_eqb ?f _ _] => set (eq := f) end.
  assert (X : forall a b, length a <> length b -> list_eqb eq a b = false).
  { clear. induction a as [|x a IH]; intros [|y b] N; cbn in *; try lia; auto.
    rewrite IH by lia. apply andb_false_r. }
  now rewrite X.
Qed.

(** ** Fields *)

Section Writer.
  Variable sch : schema.
  Variable rec : nat -> list value -> res (list Z).
  Hypothesis rec_w : forall m obj bs, object_ok sch m obj -> rec m obj = Ok bs ->
    Zlen bs <= INT_MAX ->
    exists rs, enc_recs rs bs /\ fits sch m rs /\ arrives sch m obj (exact sch m rs).

  Lemma object_write_x num m obj bs : field_number num -> object_ok sch m obj ->
    serializeObject rec num m obj = Ok bs -> Zlen bs <= INT_MAX ->
    exists rs, enc_recs [(num, WMsg rs)] bs /\ fits sch m rs /\ arrives sch m obj (exact sch m rs).
  Proof.
    intros N O H B. unfold serializeObject in H.
    destruct (rec m obj) as [body| | |] eqn:R; cbn [bind] in H; try discriminate.
    injection H as <-. apply app_bound in B. destruct B as [_ B].
    apply prepend_enc_bound in B.
    destruct (rec_w m obj body O R B) as (rs & E & F & Sm).
    exists rs. split; [|auto].
    change WLengthDelimitedT with (wtype (WMsg rs)).
    apply enc_one; [exact N|]. apply enc_msg with (content := body); [exact E|].
    now apply prepend_delimited.
  Qed.

  Lemma single_write_x e v num bs : field_number num -> elem_ok sch e v ->
    serializeElement sch rec num e v = Ok bs -> Zlen bs <= INT_MAX ->
    exists ws, enc_recs (map (pair num) ws) bs /\ Forall (fits_elem sch e) ws
      /\ arrives_field sch (FSing e) v
           (fold_left (exact_field sch (FSing e)) ws (default_field (FSing e))).
  Proof.
    intros N O H B. destruct e as [t|m].
    - destruct v as [s| | | |]; try contradiction. cbn [elem_ok] in O.
      cbn [serializeElement scalar_of] in H. injection H as <-.
      exists (if omitted t s then [] else [wv t s]).
      split. { pose proof (serializeScalar_enc t s num O N B) as E. now destruct (omitted t s). }
      split. { destruct (omitted t s); constructor; [|constructor].
               pose proof (wv_fits t s O). destruct (wv t s); auto. }
      replace (fold_left _ _ _) with (VScalar (single_back t s)); [constructor|].
      rewrite <- (single_back_spec t s O). cbn [default_field].
      destruct (omitted t s); [reflexivity|]. cbn [fold_left exact_field scalar_of].
      now rewrite wv_mean.
    - destruct v as [s| |fs| |]; try contradiction; cbn [serializeElement] in H.
      + destruct (object_write_x num m (default_obj sch m) bs N (default_ok sch m) H B)
          as (rs & E & F & A).
        exists [WMsg rs]. split; [exact E|]. split. { constructor; [exact F | constructor]. }
        cbn [fold_left exact_field]. rewrite exact_elem_msg. now constructor.
      + destruct (object_write_x num m fs bs N O H B) as (rs & E & F & A).
        exists [WMsg rs]. split; [exact E|]. split. { constructor; [exact F | constructor]. }
        cbn [fold_left exact_field]. rewrite exact_elem_msg. now constructor.
  Qed.

  Lemma fold_blob_x t : is_blob t = true -> forall l acc,
    Forall (scalar_ok t) l ->
    fold_left (exact_field sch (FRep (ES t))) (map (wv t) l) (VList acc)
    = VList (acc ++ map (fun s => VScalar (element_back s)) l).
  Proof.
    intros Bl. induction l as [|s l IH]; intros acc O; inversion O; subst; cbn [map fold_left].
    - now rewrite app_nil_r.
    - assert (M : exact_field sch (FRep (ES t)) (VList acc) (wv t s)
                  = VList (acc ++ [VScalar (element_back s)])).
      { unfold exact_field. rewrite <- clear_null_element, <- (wv_mean t s) by assumption.
        destruct t; try discriminate; cbn [wv list_of];
          rewrite store_scalars_longer; auto; rewrite app_length; cbn [length]; lia. }
      rewrite M, IH by assumption. now rewrite <- app_assoc.
  Qed.

  Lemma arrives_scalars t l : (forall x, In x l -> exists s, x = VScalar s) ->
    arrives_list sch (ES t) l (map (fun s => VScalar (element_back s)) (map scalar_of l)).
  Proof.
    induction l as [|x l IH]; intro V; [constructor|].
    destruct (V x (or_introl eq_refl)) as [s ->]. cbn [map scalar_of]. constructor.
    apply IH. intros y Hy. apply V. now right.
  Qed.

  Lemma scalar_list_write_x t num l bs : field_number num -> every (elem_ok sch (ES t)) l ->
    serializeScalarList t (map scalar_of l) num = bs -> Zlen bs <= INT_MAX ->
    exists ws, enc_recs (map (pair num) ws) bs /\ Forall (fits_field sch (FRep (ES t))) ws
      /\ arrives_field sch (FRep (ES t)) (VList l)
           (fold_left (exact_field sch (FRep (ES t))) ws (VList [])).
  Proof.
    intros N O H B. destruct (every_scalars sch t l O) as [Os Vs].
    pose proof (arrives_scalars t l Vs) as A.
    unfold serializeScalarList in H. destruct (is_blob t) eqn:Bl.
    - exists (map (wv t) (map scalar_of l)).
      assert (H' : concat (map (fun v => encodeHeader num WLengthDelimitedT
                     ++ serializeLengthDelimited (blob_of v)) (map scalar_of l)) = bs).
      { rewrite <- H. unfold serializeListBlob.
        destruct (map scalar_of l) eqn:E; unfold with_header; cbn [snd fst];
          rewrite Z.eqb_refl; reflexivity. }
      split; [apply (blob_list_write t num _ bs); assumption|].
      split.
      { apply Forall_forall. intros w Hw. apply in_map_iff in Hw. destruct Hw as (s & <- & Hs).
        unfold fits_field. rewrite Bl. apply wv_fits. rewrite Forall_forall in Os. now apply Os. }
      rewrite fold_blob_x by assumption. cbn [app]. now constructor.
    - destruct (map scalar_of l) as [|s0 l0] eqn:E.
      + unfold with_header, serializeListNumeric in H. cbn [snd fst] in H.
        rewrite Z.eqb_refl in H. subst bs.
        exists []. cbn [map]. split; [constructor|]. split; [constructor|].
        assert (l = []) by (destruct l; [reflexivity | discriminate]). subst l.
        cbn [fold_left]. constructor. constructor.
      + exists [WPacked (map (wv t) (s0 :: l0))].
        unfold with_header, serializeListNumeric in H. cbn [snd fst] in H.
        rewrite fn_not_unused in H by exact N.
        rewrite <- H in B. apply app_bound in B. destruct B as [_ B].
        split; [|split].
        * rewrite <- H. cbn [map].
          change WLengthDelimitedT with (wtype (WPacked (wv t s0 :: map (wv t) l0))).
          apply enc_one; [exact N|].
          apply enc_packed with (content := concat (map (list_element t) (s0 :: l0))).
          -- apply (enc_elems_write t (s0 :: l0)); [exact Os | now apply prepend_enc_bound].
          -- apply prepend_delimited. now apply prepend_enc_bound.
        * constructor; [|constructor]. unfold fits_field. rewrite Bl.
          apply Forall_forall. intros w Hw. apply in_map_iff in Hw. destruct Hw as (s & <- & Hs).
          apply wv_fits. rewrite Forall_forall in Os. now apply Os.
        * cbn [fold_left exact_field list_of app].
          assert (M : map (fun x => VScalar (mean_scalar t x)) (map (wv t) (s0 :: l0))
                      = map (fun s => VScalar (element_back s)) (s0 :: l0)).
          { rewrite map_map. apply map_ext_in. intros s Hs.
            rewrite wv_mean; [now rewrite clear_null_element|].
            rewrite Forall_forall in Os. now apply Os. }
          rewrite M. rewrite store_scalars_longer by (cbn [map length]; lia).
          replace (if is_enum t then _ else _)
            with (VList (map (fun s => VScalar (element_back s)) (s0 :: l0)))
            by (destruct (is_enum t); reflexivity).
          now constructor.
  Qed.

  Lemma msg_list_write_x num m : field_number num -> forall l bs acc,
    every (elem_ok sch (EM m)) l ->
    concat_res (map (serializeListElement rec num m) l) = Ok bs -> Zlen bs <= INT_MAX ->
    exists ws l', enc_recs (map (pair num) ws) bs /\ Forall (fits_field sch (FRep (EM m))) ws
      /\ fold_left (exact_field sch (FRep (EM m))) ws (VList acc) = VList (acc ++ l')
      /\ arrives_list sch (EM m) l l'.
  Proof.
    intro N. induction l as [|x l IH]; intros bs acc O H B.
    - cbn in H. injection H as <-. exists [], []. cbn [map fold_left].
      rewrite app_nil_r. repeat split; constructor.
    - destruct O as [Ox O]. cbn [map] in H. apply concat_res_cons in H.
      destruct H as (a & b & H1 & H2 & ->). apply app_bound in B. destruct B as [B1 B2].
      destruct x as [s| |fs| |]; try contradiction; cbn [serializeListElement] in H1.
      + injection H1 as <-.
        destruct (IH b acc O H2 B2) as (ws & l' & A1 & A2 & A3 & A4).
        exists ws, l'. cbn [app]. repeat split; auto. now constructor.
      + destruct (object_write_x num m fs a N Ox H1 B1) as (rs & E & F & A).
        destruct (IH b (acc ++ [VMsg (exact sch m rs)]) O H2 B2) as (ws & l' & A1 & A2 & A3 & A4).
        exists (WMsg rs :: ws), (VMsg (exact sch m rs) :: l'). cbn [map]. split; [|split; [|split]].
        * change ((num, WMsg rs) :: map (pair num) ws) with ([(num, WMsg rs)] ++ map (pair num) ws).
          now apply enc_recs_app.
        * constructor; [exact F | exact A2].
        * cbn [fold_left exact_field list_of]. rewrite exact_elem_msg, A3. now rewrite <- app_assoc.
        * now constructor.
  Qed.

  (** The entry written for a key and a value that is not null. *)
  Lemma map_entry_write_x num k e key v bs : field_number num -> 
    scalar_ok k key -> elem_ok sch e v ->
    (match e with EM _ => v <> VNull | ES _ => True end) ->
    serializeMapElement sch rec num k e (key, v) = Ok bs -> Zlen bs <= INT_MAX ->
    exists es v', enc_recs [(num, WMsg es)] bs /\ fits_field sch (FMap k e) (WMsg es)
      /\ fold_left (exact_entry sch k e) es (default_scalar k, default_element e) = (key, v')
      /\ forall l l', arrives_map sch e l l' -> arrives_map sch e ((key, v) :: l) ((key, v') :: l').
  Proof.
    intros N Ok1 Ov NN H B.
    assert (H' : value <- serializeElement sch rec 2 e v ;;
                 Ok (encodeHeader num WLengthDelimitedT
                     ++ prependLengthDelimitedSize (serializeScalar k key 1 ++ value)) = Ok bs).
    { unfold serializeMapElement in H. cbn [fst snd] in H.
      destruct e; [exact H|]. destruct v; try exact H. congruence. }
    clear H. destruct (serializeElement sch rec 2 e v) as [vb| | |] eqn:Ev; cbn [bind] in H';
      try discriminate. injection H' as <-.
    apply app_bound in B. destruct B as [_ B]. apply prepend_enc_bound in B.
    pose proof B as Bc. apply app_bound in B. destruct B as [B1 B2].
    assert (N1 : field_number 1) by (unfold field_number; lia).
    assert (N2 : field_number 2) by (unfold field_number; lia).
    pose proof (serializeScalar_enc k key 1 Ok1 N1 B1) as Ek.
    assert (V : exists ws v', enc_recs (map (pair 2) ws) vb /\ Forall (fits_elem sch e) ws
       /\ (match e with EM _ => ws <> [] | ES _ => True end)
       /\ fold_left (fun _ w => exact_elem sch e w) ws (default_element e) = v'
       /\ forall l l', arrives_map sch e l l' -> arrives_map sch e ((key, v) :: l) ((key, v') :: l')).
    { destruct e as [t|m].
      - destruct v as [s| | | |]; try contradiction. cbn [elem_ok] in Ov.
        cbn [serializeElement scalar_of] in Ev. injection Ev as <-.
        exists (if omitted t s then [] else [wv t s]), (VScalar s).
        split. { pose proof (serializeScalar_enc t s 2 Ov N2 B2) as E. now destruct (omitted t s). }
        split. { destruct (omitted t s); constructor; [|constructor].
                 pose proof (wv_fits t s Ov). destruct (wv t s); auto. }
        split; [exact Logic.I|]. split.
        + rewrite <- (entry_back t s Ov) at 3. destruct (omitted t s); [reflexivity|].
          cbn [fold_left]. rewrite exact_elem_scalar. now rewrite wv_mean.
        + intros l l' A. now constructor.
      - destruct v as [s| |fs| |]; try contradiction; try congruence.
        cbn [serializeElement] in Ev.
        destruct (object_write_x 2 m fs vb N2 Ov Ev B2) as (rs & E & F & A).
        exists [WMsg rs], (VMsg (exact sch m rs)). split; [exact E|].
        split. { constructor; [exact F | constructor]. }
        split; [discriminate|]. split; [reflexivity|]. intros l l' Al. now constructor. }
    destruct V as (ws & v' & A1 & A2 & A3 & A4 & A5).
    exists ((if omitted k key then [] else [(1, wv k key)]) ++ map (pair 2) ws), v'.
    split; [|split; [|split]]; [| | |exact A5].
    - set (es := (if omitted k key then [] else [(1, wv k key)]) ++ map (pair 2) ws).
      change WLengthDelimitedT with (wtype (WMsg es)).
      apply enc_one; [exact N|].
      apply enc_msg with (content := serializeScalar k key 1 ++ vb).
      + apply enc_recs_app; [|exact A1]. exact Ek.
      + now apply prepend_delimited.
    - cbn [fits_field]. split.
      + apply every_Forall. apply Forall_app. split.
        * destruct (omitted k key); constructor; [|constructor].
          left. cbn [fst snd]. split; [reflexivity | now apply wv_fits].
        * apply Forall_forall. intros r Hr. apply in_map_iff in Hr. destruct Hr as (w & <- & Hw).
          right. cbn [fst snd]. split; [reflexivity|]. rewrite Forall_forall in A2. now apply A2.
      + destruct e; [exact Logic.I|]. rewrite map_app. apply in_or_app. right.
        rewrite map_map. cbn [fst]. destruct ws; [congruence | now left].
    - rewrite fold_left_app.
      assert (F2 : forall ws kv, fold_left (exact_entry sch k e) (map (pair 2) ws) kv
                   = (fst kv, fold_left (fun _ w => exact_elem sch e w) ws (snd kv))).
      { clear. induction ws as [|w ws IH]; intros [a b]; cbn [map fold_left fst snd]; [reflexivity|].
        rewrite IH. unfold exact_entry. cbn [fst snd Z.eqb]. reflexivity. }
      rewrite F2. pose proof (entry_back k key Ok1) as Bk.
      destruct (omitted k key) eqn:Om; cbn [fold_left fst snd].
      + now rewrite A4, Bk.
      + unfold exact_entry. cbn [fst snd Z.eqb Pos.eqb]. now rewrite wv_mean, A4, Bk.
  Qed.

  Lemma map_write_x num k e : field_number num -> forall l bs acc,
    keys_sorted k l ->
    every (fun p => scalar_ok k (fst p) /\ elem_ok sch e (snd p)) l ->
    concat_res (map (serializeMapElement sch rec num k e) l) = Ok bs -> Zlen bs <= INT_MAX ->
    Forall (fun q => Forall (fun p => key_ltb k (fst q) (fst p) = true) l) acc ->
    exists ws l', enc_recs (map (pair num) ws) bs /\ Forall (fits_field sch (FMap k e)) ws
      /\ fold_left (exact_field sch (FMap k e)) ws (VMap acc) = VMap (acc ++ l')
      /\ arrives_map sch e l l'.
  Proof.
    intros N. induction l as [|[a v] l IH]; intros bs acc So O H B Ha.
    - cbn in H. injection H as <-. exists [], []. cbn [map fold_left].
      rewrite app_nil_r. repeat split; constructor.
    - destruct O as [[Oa Ov] O]. destruct So as [S1 S2]. cbn [fst snd] in *.
      cbn [map] in H. apply concat_res_cons in H.
      destruct H as (x & y & H1 & H2 & ->). apply app_bound in B. destruct B as [B1 B2].
      assert (NN : (exists m, e = EM m) /\ v = VNull \/ (match e with EM _ => v <> VNull | ES _ => True end)).
      { destruct e; [right; exact Logic.I|]. destruct v; try (right; discriminate). left. eauto. }
      destruct NN as [[[m ->] ->] | NN].
      + cbn [serializeMapElement snd] in H1. injection H1 as <-.
        destruct (IH y acc S2 O H2 B2) as (ws & l' & A1 & A2 & A3 & A4).
        { eapply Forall_impl; [|exact Ha]. intros q Hq. now inversion Hq. }
        exists ws, l'. cbn [app]. repeat split; auto. now constructor.
      + destruct (map_entry_write_x num k e a v x N Oa Ov NN H1 B1) as (es & v' & E & F & C & A).
        assert (I1 : map_insert k a v' acc = acc ++ [(a, v')]).
        { apply map_insert_last. eapply Forall_impl; [|exact Ha]. intros q Hq. now inversion Hq. }
        destruct (IH y (acc ++ [(a, v')]) S2 O H2 B2) as (ws & l' & A1 & A2 & A3 & A4).
        { apply Forall_app. split.
          - eapply Forall_impl; [|exact Ha]. intros q Hq. now inversion Hq.
          - constructor; [exact S1 | constructor]. }
        exists (WMsg es :: ws), ((a, v') :: l'). cbn [map]. split; [|split; [|split]].
        * change ((num, WMsg es) :: map (pair num) ws) with ([(num, WMsg es)] ++ map (pair num) ws).
          now apply enc_recs_app.
        * constructor; [exact F | exact A2].
        * cbn [fold_left]. cbn [exact_field map_of]. rewrite C. cbv zeta. cbn [fst snd].
          rewrite I1, store_map_longer by (rewrite app_length; cbn [length]; lia).
          rewrite A3. now rewrite <- app_assoc.
        * now apply A.
  Qed.

  Lemma field_write_x f v bs : field_ok f -> val_ok sch (f_ty f) v ->
    serializeProperty sch rec f v = Ok bs -> Zlen bs <= INT_MAX ->
    exists ws, enc_recs (map (pair (f_num f)) ws) bs /\ Forall (fits_field sch (f_ty f)) ws
      /\ arrives_field sch (f_ty f) v
           (fold_left (exact_field sch (f_ty f)) ws (default_field (f_ty f))).
  Proof.
    intros [N FO] O H B. unfold serializeProperty in H.
    destruct (f_ty f) as [e|[t|m]|k e]; cbn [val_ok default_field] in *.
    - exact (single_write_x e v (f_num f) bs N O H B).
    - destruct v as [| | |l|]; try contradiction. cbn [list_of] in H. injection H as H.
      exact (scalar_list_write_x t (f_num f) l bs N O H B).
    - destruct v as [| | |l|]; try contradiction. cbn [list_of] in H.
      destruct (msg_list_write_x (f_num f) m N l bs [] O H B) as (ws & l' & A1 & A2 & A3 & A4).
      exists ws. split; [exact A1|]. split; [exact A2|]. rewrite A3. now constructor.
    - destruct v as [| | | |l]; try contradiction. destruct O as [So O]. cbn [map_of] in H.
      destruct (map_write_x (f_num f) k e N l bs [] So O H B) as (ws & l' & A1 & A2 & A3 & A4).
      { constructor. }
      exists ws. split; [exact A1|]. split; [exact A2|]. rewrite A3. now constructor.
  Qed.
End Writer.

(** ** Messages *)

Lemma object_val_ok sch m obj i : object_ok sch m obj ->
  (i < length (md_fields (msg_at sch m)))%nat ->
  val_ok sch (f_ty (field_at sch m i)) (nth i obj VNull).
Proof.
  intros O Hi. apply object_ok_spec in O. unfold field_at. revert i Hi.
  induction O as [|f x fl ol Hx HF IH]; intros i Hi; simpl in Hi; [lia|].
  destruct i; cbn [nth]; [exact Hx|]. apply IH. lia.
Qed.

Lemma concat_res_groups_x sch m order obj rec :
  schema_ok sch ->
  (forall m obj bs, object_ok sch m obj -> rec m obj = Ok bs -> Zlen bs <= INT_MAX ->
    exists rs, enc_recs rs bs /\ fits sch m rs /\ arrives sch m obj (exact sch m rs)) ->
  object_ok sch m obj ->
  (forall i, In i order -> (i < length (md_fields (msg_at sch m)))%nat) ->
  NoDup order -> forall bs,
  concat_res (map (fun i => serializeProperty sch rec (field_at sch m i) (nth i obj VNull)) order)
    = Ok bs -> Zlen bs <= INT_MAX ->
  exists g, enc_recs (groups sch m order g) bs
    /\ (forall i, In i order -> Forall (fits_field sch (f_ty (field_at sch m i))) (g i)
         /\ arrives_field sch (f_ty (field_at sch m i)) (nth i obj VNull)
              (fold_left (exact_field sch (f_ty (field_at sch m i))) (g i)
                 (default_field (f_ty (field_at sch m i))))).
Proof.
  intros S R O. induction order as [|i order IH]; intros Hin ND bs H B.
  - cbn in H. injection H as <-. exists (fun _ => []). split; [constructor | contradiction].
  - cbn [map] in H. apply concat_res_cons in H. destruct H as (a & b & H1 & H2 & ->).
    apply app_bound in B. destruct B as [B1 B2]. inversion ND; subst.
    destruct (IH ltac:(intros; apply Hin; now right) ltac:(assumption) b H2 B2) as (g & E & G).
    assert (Hi : (i < length (md_fields (msg_at sch m)))%nat) by (apply Hin; now left).
    pose proof (object_val_ok sch m obj i O Hi) as Ov.
    destruct (field_write_x sch rec R (field_at sch m i) (nth i obj VNull) a
                (field_at_ok sch m i S Hi) Ov H1 B1) as (ws & A1 & A2 & A3).
    exists (fun j => if Nat.eq_dec j i then ws else g j). split.
    + unfold groups. cbn [flat_map]. apply enc_recs_app.
      * destruct (Nat.eq_dec i i); [exact A1 | congruence].
      * replace (flat_map _ order) with (groups sch m order g); [exact E|].
        unfold groups.
        clear - H3. induction order as [|j order IHo]; [reflexivity|]. cbn [flat_map].
        destruct (Nat.eq_dec j i) as [->|]; [exfalso; apply H3; now left|].
        f_equal. apply IHo. intro; apply H3; now right.
    + intros j Hj. destruct (Nat.eq_dec j i) as [->|NE]; [auto|].
      apply G. destruct Hj; [congruence | assumption].
Qed.

Section Groups.
  Variable sch : schema.
  Variable m : nat.

  Lemma fold_group_x i num ws : find_field (msg_at sch m) num = Some i -> forall obj,
    (i < length obj)%nat ->
    fold_left (exact_record sch m) (map (pair num) ws) obj
    = update i (fold_left (exact_field sch (f_ty (field_at sch m i))) ws (nth i obj VNull)) obj.
  Proof.
    intro Fi. induction ws as [|w ws IH]; intros obj Hi; cbn [map fold_left].
    - now rewrite update_same.
    - rewrite IH.
      + unfold exact_record. cbn [fst snd]. rewrite Fi.
        rewrite nth_update_eq by exact Hi. now rewrite update_update.
      + unfold exact_record. cbn [fst]. rewrite Fi. now rewrite update_length.
  Qed.

  Lemma fold_groups_x g : schema_ok sch -> forall order obj, NoDup order ->
    length obj = length (md_fields (msg_at sch m)) ->
    (forall i, In i order -> (i < length (md_fields (msg_at sch m)))%nat) ->
    let r := fold_left (exact_record sch m) (groups sch m order g) obj in
    length r = length obj /\
    (forall i, ~ In i order -> nth i r VNull = nth i obj VNull) /\
    (forall i, In i order ->
       nth i r VNull = fold_left (exact_field sch (f_ty (field_at sch m i))) (g i) (nth i obj VNull)).
  Proof.
    intro S. induction order as [|i order IH]; intros obj ND L Hin r.
    - cbn. repeat split; auto; contradiction.
    - subst r. cbn [groups flat_map]. rewrite fold_left_app.
      assert (Hi : (i < length (md_fields (msg_at sch m)))%nat) by (apply Hin; now left).
      rewrite (fold_group_x i _ (g i) (find_field_at sch m i S Hi)) by lia.
      inversion ND; subst.
      destruct (IH (update i (fold_left (exact_field sch (f_ty (field_at sch m i))) (g i)
                     (nth i obj VNull)) obj)) as (A & B & C); auto.
      { now rewrite update_length. }
      { intros j Hj. apply Hin. now right. }
      cbv zeta in *. fold (groups sch m order g). rewrite A, update_length.
      split; [reflexivity|]. split.
      + intros j Hj. rewrite B by (intro; apply Hj; now right).
        apply nth_update_neq. intro; subst; apply Hj; now left.
      + intros j [<- | Hj].
        * rewrite B by assumption. apply nth_update_eq. lia.
        * rewrite C by assumption. rewrite nth_update_neq; [reflexivity|].
          intro; subst; contradiction.
  Qed.
End Groups.

Lemma arrives_fields_nth sch fields : forall fs rs, length fs = length fields -> length rs = length fields ->
  (forall i, (i < length fields)%nat ->
     arrives_field sch (f_ty (nth i fields dummy_field)) (nth i fs VNull) (nth i rs VNull)) ->
  arrives_fields sch fields fs rs.
Proof.
  induction fields as [|f fields IH]; intros [|x fs] [|y rs] L1 L2 H; cbn in *; try lia; constructor.
  - apply (H 0%nat). lia.
  - apply IH; try lia. intros i Hi. apply (H (Datatypes.S i)). lia.
Qed.

Lemma message_write_x sch : schema_ok sch -> forall fuel m obj bs, object_ok sch m obj ->
  serializeMessage fuel sch m obj = Ok bs -> Zlen bs <= INT_MAX ->
  exists rs, enc_recs rs bs /\ fits sch m rs /\ arrives sch m obj (exact sch m rs).
Proof.
  intros S. induction fuel as [|fuel IH]; intros m obj bs O H B; [discriminate|].
  cbn [serializeMessage] in H.
  pose proof (msg_at_ok sch m S) as (_ & _ & ND & Cov).
  destruct (concat_res_groups_x sch m (md_order (msg_at sch m)) obj (serializeMessage fuel sch) S)
    with (bs := bs) as (g & E & G); auto.
  { intros i Hi. now apply Cov. }
  exists (groups sch m (md_order (msg_at sch m)) g). split; [exact E|]. split.
  - apply fits_spec. apply Forall_forall. intros r Hr. unfold groups in Hr.
    apply in_flat_map in Hr. destruct Hr as (i & Hi & Hr). apply in_map_iff in Hr.
    destruct Hr as (w & <- & Hw). unfold fits_record. cbn [fst snd].
    rewrite find_field_at by (auto; now apply Cov).
    destruct (G i Hi) as [F _]. rewrite Forall_forall in F. now apply F.
  - rewrite exact_spec. constructor.
    destruct (fold_groups_x sch m g S (md_order (msg_at sch m)) (default_obj sch m) ND
                (default_obj_length sch m)) as (L & _ & C).
    { intros i Hi. now apply Cov. }
    cbv zeta in *.
    assert (Lo : length obj = length (md_fields (msg_at sch m))).
    { apply object_ok_spec in O. symmetry. clear - O. induction O; simpl; auto. }
    apply arrives_fields_nth.
    + exact Lo.
    + rewrite L. apply default_obj_length.
    + intros i Hi. fold (field_at sch m i). rewrite C by (now apply Cov).
      rewrite (nth_default_obj sch m i Hi). now apply G, Cov.
Qed.

Lemma run_arrives sch m obj bs : schema_ok sch -> object_ok sch m obj -> serializes sch m obj bs ->
  Zlen bs <= INT_MAX -> exists r, deserializes sch m bs r (Ok tt) /\ arrives sch m obj r.
Proof.
  intros S O (f & H) B. destruct (message_write_x sch S f m obj bs O H B) as (rs & E & F & A).
  exists (exact sch m rs). split; [now apply run_read_x | exact A].
Qed.

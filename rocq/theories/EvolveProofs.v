(** Proofs on versions of a schema. *)

From Coq Require Import ZArith List Bool Lia ZifyBool.
From Verif Require Import Base WireModel Values MessageModel WireSpec MessageSpec WireProofs MessageProofs SerializeProofs ReaderProofs
  MessageFacts TypedProofs RunFacts EvolveSpec.
Import ListNotations.
Open Scope Z_scope.
Ltac Zify.zify_post_hook ::= Z.div_mod_to_equations.

(** ** Scalars *)

Lemma twos_range w z : 0 < w -> in_s w (twos w z).
Proof. exact (toS_range w z). Qed.

Lemma twos_congr w z y : z mod 2 ^ w = y mod 2 ^ w -> twos w z = twos w y.
Proof. intro E. unfold twos. now rewrite E. Qed.

Lemma mod_low z : (z mod 2 ^ 64) mod 2 ^ 32 = z mod 2 ^ 32.
Proof. lia. Qed.

Lemma wv_becomes t t' s : may_become t t' -> scalar_ok t s ->
  fits_scalar t' (wv t s) /\ scalar_becomes t t' s (mean_scalar t' (wv t s)).
Proof.
  intros [Fa Bo] O.
  destruct t, t'; cbn [family] in Fa; try discriminate Fa; destruct s as [z|n bs]; cbn [scalar_ok] in O; try contradiction;
    try (destruct (Bo eq_refl) as [E|[E|[E|E]]]; discriminate E);
    cbn [wv fits_scalar scalar_becomes mean_scalar num_of blob_of payload_num payload_bytes]; unfold arrives; cbn [lost cast];
    (split; [try exact Logic.I; unfold in_s, in_u in *; lia|]);
    try reflexivity;
    try (apply twos_congr; unfold in_s, in_u in *; lia);
    try (unfold in_s, in_u in *; lia).
  all: try (rewrite unzz_zigzag; reflexivity).
  - destruct (Z.ltb_spec z 0); [|apply twos_congr; unfold in_s in O; lia].
    unfold in_s in O. replace (z mod 2 ^ 32) with (z + 2 ^ 32) by lia. apply (toS_small 64); [lia|]. unfold in_s. lia.
  - unfold in_s in O. destruct (Z.ltb_spec z 0); lia.
  - unfold in_s in O. replace (z mod 2 ^ 32 =? 0) with (z =? 0); [reflexivity|]. Z.div_mod_to_equations. lia.
  - rewrite Z.mod_small, unzz_zigzag by (apply (zigzag_range 32 z); [lia | exact O]). reflexivity.
  - destruct (Z.leb_spec (- 2 ^ 31) z), (Z.ltb_spec z (2 ^ 31)); cbn [andb]; try reflexivity.
    rewrite Z.mod_small, unzz_zigzag by (apply (zigzag_range 32 z); [lia | unfold in_s; lia]). reflexivity.
  - unfold in_s in O. replace (z mod 2 ^ 64 =? 0) with (z =? 0); [reflexivity|]. Z.div_mod_to_equations. lia.
Qed.

Lemma omitted_becomes t t' s : may_become t t' -> scalar_ok t s -> omitted t s = true -> scalar_becomes t t' s (default_scalar t').
Proof.
  intros [Fa _] O Om. destruct t, s as [z|n bs]; cbn [scalar_ok omitted num_of] in *; try contradiction; try discriminate Om;
    (destruct t'; cbn [family] in Fa; try discriminate Fa);
    cbn [default_scalar is_blob scalar_becomes]; try (assert (z = 0) as -> by lia; reflexivity);
    subst n; destruct O as [_ O]; now rewrite (O eq_refl).
Qed.

Lemma family_blob t t' : family t = family t' -> is_blob t = is_blob t'.
Proof. now destruct t, t'. Qed.

(** ** Records a reader does not know *)

Lemma enc_val_bytes w bs : enc_val w bs -> bytes bs.
Proof.
  intro E. assert (N : field_number 1) by (unfold field_number; lia). pose proof (enc_recs_bytes _ _ (enc_one 1 w bs N E)) as B.
  unfold bytes in B. apply Forall_app in B. apply B.
Qed.

Lemma delimited_content content bs : delimited content bs -> bytes bs -> bytes content.
Proof. intros (len & W & ->) B. unfold bytes in B. apply Forall_app in B. apply B. Qed.

Lemma enc_unknown w bs : enc_val w bs -> exists w', fits_unknown w' /\ wtype w' = wtype w /\ enc_val w' bs.
Proof.
  intro E. pose proof (enc_val_bytes w bs E) as B. inversion E; subst.
  - exists (WVarint v). split; [exact Logic.I|]. (split; [reflexivity | assumption]).
  - exists (WFix64 v). split; [exact Logic.I|]. (split; [reflexivity | assumption]).
  - exists (WFix32 v). split; [exact Logic.I|]. (split; [reflexivity | assumption]).
  - exists (WBytes content). split; [exact Logic.I|]. (split; [reflexivity | assumption]).
  - exists (WBytes content). split; [exact Logic.I|]. split; [reflexivity|]. constructor; [|assumption]. eapply delimited_content; eauto.
  - exists (WBytes content). split; [exact Logic.I|]. split; [reflexivity|]. constructor; [|assumption]. eapply delimited_content; eauto.
Qed.

Lemma enc_recs_unknown num : forall ws bs, enc_recs (map (pair num) ws) bs ->
  exists ws', Forall fits_unknown ws' /\ enc_recs (map (pair num) ws') bs.
Proof.
  induction ws as [|w ws IH]; intros bs E; cbn [map] in E; inversion E; subst.
  - exists []. split; constructor.
  - destruct (enc_unknown w bs0) as (w' & F & T & E'); [assumption|]. destruct (IH rest) as (ws' & F' & E2); [assumption|].
    exists (w' :: ws'). split; [now constructor|]. cbn [map]. constructor; auto. now rewrite T.
Qed.

(** ** Groups of records for another reader *)

Section Groups.
  Variable sch' : schema.
  Variable m' : nat.

  Definition numbered (gs : list (Z * list wval)) : list (Z * wval) := flat_map (fun p => map (pair (fst p)) (snd p)) gs.

  Lemma fold_unknown num ws : find_field (msg_at sch' m') num = None -> forall obj,
    fold_left (mean_record sch' m') (map (pair num) ws) obj = obj.
  Proof.
    intro Fn. induction ws as [|w ws IH]; intro obj; cbn [map fold_left]; [reflexivity|]. rewrite IH.
    unfold mean_record. cbn [fst]. now rewrite Fn.
  Qed.

  Lemma fold_numbered : schema_ok sch' -> forall gs obj, NoDup (map fst gs) -> length obj = length (md_fields (msg_at sch' m')) ->
    let r := fold_left (mean_record sch' m') (numbered gs) obj in
    length r = length obj /\
    forall i', (i' < length (md_fields (msg_at sch' m')))%nat ->
      (forall ws, In (f_num (field_at sch' m' i'), ws) gs ->
         nth i' r VNull = fold_left (mean_field sch' (f_ty (field_at sch' m' i'))) ws (nth i' obj VNull)) /\
      (~ In (f_num (field_at sch' m' i')) (map fst gs) -> nth i' r VNull = nth i' obj VNull).
  Proof.
    intro Sch. induction gs as [|[num ws] gs IH]; intros obj ND L r.
    - split; [reflexivity|]. intros i' _. split; [intros ws []|reflexivity].
    - subst r. cbn [numbered flat_map fst snd]. rewrite fold_left_app. fold (numbered gs). cbn [map fst] in ND. inversion ND as [|? ? Nin ND']; subst.
      destruct (find_field (msg_at sch' m') num) as [j|] eqn:Fj.
      + rewrite (fold_group sch' m' j num ws Fj) by (apply find_field_range in Fj; lia).
        destruct (find_field_range _ _ _ Fj) as [Hj Nj]. fold (field_at sch' m' j) in Nj.
        set (obj1 := update j _ obj). destruct (IH obj1 ND') as [L1 H1]; [unfold obj1; now rewrite update_length|].
        split; [rewrite L1; apply update_length|]. intros i' Hi'. destruct (H1 i' Hi') as [A B]. destruct (Nat.eq_dec i' j) as [->|Ne].
        * split.
          -- intros ws' [E|I]; [|exfalso; apply Nin; rewrite <- Nj; apply (in_map fst) in I; exact I].
             injection E as _ ->. rewrite B by (now rewrite Nj). unfold obj1. apply nth_update_eq. lia.
          -- intro C. exfalso. apply C. left. symmetry. exact Nj.
        * assert (Nn : f_num (field_at sch' m' i') <> num).
          { intro E. rewrite <- E in Fj. rewrite (find_field_at sch' m' i' Sch Hi') in Fj. congruence. }
          split.
          -- intros ws' [E|I]; [injection E as E _; congruence|]. rewrite (A ws' I). unfold obj1. now rewrite nth_update_neq by auto.
          -- intro C. rewrite B by (intro I; apply C; now right). unfold obj1. now rewrite nth_update_neq by auto.
      + rewrite (fold_unknown num ws Fj). destruct (IH obj ND' L) as [L1 H1]. split; [exact L1|]. intros i' Hi'. destruct (H1 i' Hi') as [A B].
        assert (Nn : f_num (field_at sch' m' i') <> num).
        { intro E. rewrite <- E in Fj. rewrite (find_field_at sch' m' i' Sch Hi') in Fj. discriminate Fj. }
        split.
        * intros ws' [E|I]; [injection E as E _; congruence|]. now apply A.
        * intro C. apply B. intro I. apply C. now right.
  Qed.
End Groups.

(** ** Fields *)

Section Fields.
  Variables sch sch' : schema.
  Variable related : nat -> nat -> Prop.
  Variable rec : nat -> list value -> res (list Z).
  Hypothesis rec_b : forall m m' obj bs, related m m' -> object_ok sch m obj -> rec m obj = Ok bs -> Zlen bs <= INT_MAX ->
    exists rs, enc_recs rs bs /\ fits sch' m' rs /\ becomes sch sch' (EM m) (EM m') (VMsg obj) (VMsg (mean sch' m' rs)).
  Hypothesis rec_s : forall m obj bs, rec m obj = Ok bs -> serializes sch m obj bs.
  Hypothesis rec_o : forall m obj bs, object_ok sch m obj -> rec m obj = Ok bs -> Zlen bs <= INT_MAX -> bytes bs.

  Notation may := (elem_may related).

  Lemma mean_scalar_elem t w : mean_elem sch' (ES t) w = VScalar (mean_scalar t w).
  Proof. now destruct w. Qed.

  Lemma fits_scalar_elem t w : fits_elem sch' (ES t) w = fits_scalar t w.
  Proof. now destruct w. Qed.

  Lemma object_becomes num m e' obj bs : field_number num -> may (EM m) e' -> object_ok sch m obj ->
    serializeObject rec num m obj = Ok bs -> Zlen bs <= INT_MAX ->
    exists w, enc_recs [(num, w)] bs /\ fits_elem sch' e' w /\ becomes sch sch' (EM m) e' (VMsg obj) (mean_elem sch' e' w).
  Proof.
    intros N M O H B. unfold serializeObject in H. destruct (rec m obj) as [body| | |] eqn:R; cbn [bind] in H; try discriminate.
    injection H as <-. apply app_bound in B. destruct B as [_ B]. apply prepend_enc_bound in B.
    destruct e' as [t'|m']; cbn [elem_may] in M.
    - subst t'. exists (WBytes body). split; [|split; [exact Logic.I|]].
      + change WLengthDelimitedT with (wtype (WBytes body)). apply enc_one; [exact N|]. constructor; [eapply rec_o; eauto | now apply prepend_delimited].
      + cbn. constructor. now apply rec_s.
    - destruct (rec_b m m' obj body M O R B) as (rs & E & F & Bc). exists (WMsg rs). split; [|split; [exact F | exact Bc]].
      change WLengthDelimitedT with (wtype (WMsg rs)). apply enc_one; [exact N|]. apply enc_msg with (content := body); [exact E | now apply prepend_delimited].
  Qed.

  Lemma element_becomes e e' num v bs : field_number num -> may e e' -> elem_ok sch e v ->
    serializeElement sch rec num e v = Ok bs -> Zlen bs <= INT_MAX ->
    exists ws, enc_recs (map (pair num) ws) bs /\ Forall (fits_elem sch' e') ws
      /\ (match e' with EM _ => ws <> [] | ES _ => True end)
      /\ forall d, match e' with ES t' => d = VScalar (default_scalar t') | EM _ => True end ->
         becomes sch sch' e e' v (fold_left (fun _ w => mean_elem sch' e' w) ws d).
  Proof.
    intros N M O H B. destruct e as [t|m].
    - destruct v as [s| | | |]; try contradiction. cbn [elem_ok] in O. destruct e' as [t'|m']; cbn [elem_may] in M; [|contradiction].
      cbn [serializeElement scalar_of] in H. injection H as <-. pose proof (serializeScalar_enc t s num O N B) as E.
      exists (if omitted t s then [] else [wv t s]). destruct (omitted t s) eqn:Om; cbn [map fold_left].
      + split; [exact E|]. split; [constructor|]. split; [exact Logic.I|]. intros d ->. constructor. now apply (omitted_becomes t t' s).
      + split; [exact E|]. destruct (wv_becomes t t' s M O) as [F Sb]. split; [constructor; [now rewrite fits_scalar_elem | constructor]|].
        split; [exact Logic.I|]. intros d _. rewrite mean_scalar_elem. now constructor.
    - assert (Obj : exists obj, object_ok sch m obj /\ serializeObject rec num m obj = Ok bs /\ forall x, becomes sch sch' (EM m) e' (VMsg obj) x -> becomes sch sch' (EM m) e' v x).
      { destruct v as [s| |fs| |]; try contradiction; cbn [serializeElement] in H.
        - exists (default_obj sch m). split; [apply default_ok|]. split; [exact H|]. intros x Hx. now constructor.
        - exists fs. auto. }
      destruct Obj as (obj & Oo & So & K). destruct (object_becomes num m e' obj bs N M Oo So B) as (w & E & F & Bc).
      exists [w]. split; [exact E|]. split; [constructor; [exact F | constructor]|]. split; [destruct e'; [exact Logic.I | discriminate]|].
      intros d _. cbn [fold_left]. now apply K.
  Qed.

  Definition present (l : list value) : list value := filter (fun v => negb (is_null v)) l.

  (** Lists that are sent element by element. *)
  Lemma list_becomes e e' num : field_number num -> may e e' -> one_by_one e -> forall l bs, every (elem_ok sch e) l ->
    match e with
    | ES t => concat (map (fun v => encodeHeader num WLengthDelimitedT ++ serializeLengthDelimited (blob_of v)) (map scalar_of l)) = bs
    | EM m => concat_res (map (serializeListElement rec num m) l) = Ok bs
    end -> Zlen bs <= INT_MAX ->
    exists ws, enc_recs (map (pair num) ws) bs /\
      Forall2 (fun v w => fits_elem sch' e' w /\ (exists b, is_blob b = true /\ e' = ES b /\ fits_scalar b w \/ exists k, e' = EM k) /\ becomes sch sch' e e' v (mean_elem sch' e' w)) (present l) ws.
  Proof.
    intros N M Oo. destruct e as [t|m]; cbn [one_by_one] in Oo.
    - destruct e' as [t'|m']; cbn [elem_may] in M; [|contradiction]. pose proof M as [Fa _]. pose proof (family_blob t t' Fa) as Bl. rewrite Oo in Bl.
      intros l bs O H B. destruct (every_scalars sch t l O) as [Os Vs].
      exists (map (wv t) (map scalar_of l)). split; [now apply (blob_list_write t num _ bs)|].
      clear H B. induction l as [|x l IH]; [constructor|]. destruct (Vs x (or_introl eq_refl)) as [s ->]. cbn [map scalar_of] in Os. inversion Os; subst.
      cbn [present filter is_null negb map scalar_of]. destruct (wv_becomes t t' s M) as [F Sb]; [assumption|]. constructor.
      + split; [now rewrite fits_scalar_elem|]. split; [exists t'; left; auto|]. rewrite mean_scalar_elem. now constructor.
      + apply IH; [now destruct O | assumption|]. intros y Hy. apply Vs. now right.
    - induction l as [|x l IH]; intros bs O H B.
      + cbn in H. injection H as <-. exists []. split; constructor.
      + destruct O as [Ox O]. cbn [map] in H. apply concat_res_cons in H. destruct H as (a & b & H1 & H2 & ->).
        apply app_bound in B. destruct B as [B1 B2]. destruct (IH b O H2 B2) as (ws & E & F).
        destruct x as [s| |fs| |]; try contradiction; cbn [serializeListElement] in H1.
        * injection H1 as <-. exists ws. auto.
        * destruct (object_becomes num m e' fs a N M Ox H1 B1) as (w & Ew & Fw & Bw). exists (w :: ws). split.
          -- change (map (pair num) (w :: ws)) with ([(num, w)] ++ map (pair num) ws)%list. now apply enc_recs_app.
          -- cbn [present filter is_null negb]. constructor; [|exact F]. split; [exact Fw|]. split; [|exact Bw].
             destruct e' as [t'|m']; [|exists TBytes; right; eauto]. cbn [elem_may] in M. subst t'. exists TBytes. left. split; [reflexivity|]. split; [reflexivity|].
             now rewrite <- fits_scalar_elem.
  Qed.

  Definition sent_one (e' : elty) (w : wval) : Prop := exists b, is_blob b = true /\ e' = ES b /\ fits_scalar b w \/ exists k, e' = EM k.

  Lemma fold_appended e' ws : Forall (sent_one e') ws -> forall acc,
    fold_left (mean_field sch' (FRep e')) ws (VList acc) = VList (acc ++ map (mean_elem sch' e') ws).
  Proof.
    induction 1 as [|w ws (b & [(Bl & -> & F)|(k & ->)]) H IH]; intro acc; cbn [fold_left map].
    - now rewrite app_nil_r.
    - replace (mean_field sch' (FRep (ES b)) (VList acc) w) with (VList (acc ++ [mean_elem sch' (ES b) w])).
      + rewrite IH. now rewrite <- app_assoc.
      + destruct b; try discriminate Bl; destruct w; try contradiction F; reflexivity.
    - cbn [mean_field list_of]. rewrite IH. now rewrite <- app_assoc.
  Qed.

  Lemma fits_appended e' w : sent_one e' w -> fits_elem sch' e' w -> fits_field sch' (FRep e') w.
  Proof.
    intros (b & [(Bl & -> & F)|(k & ->)]) H; cbn [fits_field].
    - rewrite Bl. exact F.
    - exact H.
  Qed.

  Lemma fold_last e' ws d : fold_left (mean_field sch' (FSing e')) ws d = last (map (mean_elem sch' e') ws) d.
  Proof.
    rewrite fold_single. revert d. induction ws as [|w ws IH]; intro d; [reflexivity|]. cbn [fold_left map]. rewrite IH.
    destruct ws as [|w' ws]; [reflexivity|]. cbn [map]. cbn [last]. generalize (mean_elem sch' e' w') as y. generalize (map (mean_elem sch' e') ws) as l.
    clear. induction l as [|z l IH]; intro y; [reflexivity|]. exact (IH z).
  Qed.

  (** Packed numbers. *)
  Lemma packed_becomes t t' num l bs : field_number num -> may_become t t' -> is_blob t = false -> every (elem_ok sch (ES t)) l ->
    serializeScalarList t (map scalar_of l) num = bs -> Zlen bs <= INT_MAX ->
    exists ws, enc_recs (map (pair num) ws) bs /\ Forall (fits_field sch' (FRep (ES t'))) ws
      /\ exists l', fold_left (mean_field sch' (FRep (ES t'))) ws (VList []) = VList l' /\ Forall2 (becomes sch sch' (ES t) (ES t')) (present l) l'.
  Proof.
    intros N M Bl O H B. destruct (every_scalars sch t l O) as [Os Vs]. pose proof (family_blob t t' (proj1 M)) as Bl'. rewrite Bl in Bl'.
    assert (P : present l = l).
    { clear - Vs. induction l as [|x l IH]; [reflexivity|]. destruct (Vs x (or_introl eq_refl)) as [s ->]. cbn [present filter is_null negb]. f_equal. apply IH. intros y Hy. apply Vs. now right. }
    rewrite P. unfold serializeScalarList in H. rewrite Bl in H.
    destruct (map scalar_of l) as [|s0 l0] eqn:E.
    - unfold with_header, serializeListNumeric in H. cbn [snd fst] in H. rewrite Z.eqb_refl in H. subst bs.
      assert (l = []) as -> by (destruct l; [reflexivity | discriminate E]).
      exists []. cbn [map fold_left]. split; [constructor|]. split; [constructor|]. exists []. split; [reflexivity | constructor].
    - exists [WPacked (map (wv t) (s0 :: l0))]. unfold with_header, serializeListNumeric in H. cbn [snd fst] in H. rewrite fn_not_unused in H by exact N.
      rewrite <- H in B. apply app_bound in B. destruct B as [_ B]. split; [|split].
      + rewrite <- H. cbn [map]. change WLengthDelimitedT with (wtype (WPacked (wv t s0 :: map (wv t) l0))). apply enc_one; [exact N|].
        apply enc_packed with (content := concat (map (list_element t) (s0 :: l0))).
        * apply (enc_elems_write t (s0 :: l0)); [exact Os | now apply prepend_enc_bound].
        * apply prepend_delimited. now apply prepend_enc_bound.
      + constructor; [|constructor]. unfold fits_field. rewrite <- Bl'. apply Forall_forall. intros w Hw. apply in_map_iff in Hw. destruct Hw as (s & <- & Hs).
        apply (wv_becomes t t' s M). rewrite Forall_forall in Os. now apply Os.
      + exists (map (fun x => VScalar (mean_scalar t' x)) (map (wv t) (s0 :: l0))). split.
        * cbn [fold_left mean_field list_of app]. destruct (is_enum t'); reflexivity.
        * rewrite <- E in *. clear - M Os Vs. induction l as [|x l IH]; [constructor|]. destruct (Vs x (or_introl eq_refl)) as [s ->]. cbn [map scalar_of] in Os. inversion Os; subst.
          cbn [map scalar_of]. constructor; [constructor; apply (wv_becomes t t' s M); assumption|]. apply IH; [assumption|]. intros y Hy. apply Vs. now right.
  Qed.

  (** Maps. *)
  Lemma entry_becomes num k e e' key v bs : field_number num -> may e e' -> scalar_ok k key -> elem_ok sch e v ->
    is_null v = false -> serializeMapElement sch rec num k e (key, v) = Ok bs -> Zlen bs <= INT_MAX ->
    exists es, enc_recs [(num, WMsg es)] bs /\ fits_field sch' (FMap k e') (WMsg es)
      /\ let kv := fold_left (mean_entry sch' k e') es (default_scalar k, default_elem sch' e') in
         (num_of (fst kv) = num_of key /\ blob_of (fst kv) = blob_of key /\ scalar_becomes k k key (fst kv)) /\ becomes sch sch' e e' v (snd kv).
  Proof.
    intros N M Ok1 Ov NN H B.
    assert (H' : value <- serializeElement sch rec 2 e v ;;
                 Ok (encodeHeader num WLengthDelimitedT ++ prependLengthDelimitedSize (serializeScalar k key 1 ++ value)) = Ok bs).
    { unfold serializeMapElement in H. cbn [fst snd] in H. destruct e; [exact H|]. destruct v; try exact H. discriminate NN. }
    clear H. destruct (serializeElement sch rec 2 e v) as [vb| | |] eqn:Ev; cbn [bind] in H'; try discriminate. injection H' as <-.
    apply app_bound in B. destruct B as [_ B]. apply prepend_enc_bound in B. pose proof B as Bc. apply app_bound in B. destruct B as [B1 B2].
    assert (N1 : field_number 1) by (unfold field_number; lia). assert (N2 : field_number 2) by (unfold field_number; lia).
    pose proof (serializeScalar_enc k key 1 Ok1 N1 B1) as Ek.
    destruct (element_becomes e e' 2 v vb N2 M Ov Ev B2) as (ws & A1 & A2 & A3 & A4).
    exists ((if omitted k key then [] else [(1, wv k key)]) ++ map (pair 2) ws). split; [|split].
    - set (es := (if omitted k key then [] else [(1, wv k key)]) ++ map (pair 2) ws). change WLengthDelimitedT with (wtype (WMsg es)).
      apply enc_one; [exact N|]. apply enc_msg with (content := serializeScalar k key 1 ++ vb); [apply enc_recs_app; [exact Ek | exact A1] | now apply prepend_delimited].
    - cbn [fits_field]. split.
      + apply every_Forall. apply Forall_app. split.
        * destruct (omitted k key); constructor; [|constructor]. left. cbn [fst snd]. split; [reflexivity | now apply wv_fits].
        * apply Forall_forall. intros r Hr. apply in_map_iff in Hr. destruct Hr as (w & <- & Hw). right. cbn [fst snd]. split; [reflexivity|]. rewrite Forall_forall in A2. now apply A2.
      + destruct e'; [exact Logic.I|]. rewrite map_app. apply in_or_app. right. rewrite map_map. cbn [fst]. destruct ws; [congruence | now left].
    - rewrite fold_left_app.
      assert (F2 : forall ws kv, fold_left (mean_entry sch' k e') (map (pair 2) ws) kv = (fst kv, fold_left (fun _ w => mean_elem sch' e' w) ws (snd kv))).
      { clear. induction ws as [|w ws IH]; intros [a b]; cbn [map fold_left fst snd]; [reflexivity|]. rewrite IH. unfold mean_entry. cbn [fst snd Z.eqb]. reflexivity. }
      assert (Refl : may_become k k) by (split; [reflexivity | intros ->; now left]).
      cbv zeta. rewrite F2. cbn [fst snd]. destruct (omitted k key) eqn:Om; cbn [fold_left fst snd].
      + split; [|apply A4; destruct e'; [reflexivity | exact Logic.I]]. split; [|split; [|now apply omitted_becomes]].
        * destruct k, key; cbn [omitted scalar_ok num_of] in *; try contradiction; try discriminate Om; cbn; try reflexivity; lia.
        * destruct k, key; cbn [omitted scalar_ok num_of] in *; try contradiction; try discriminate Om; cbn; try reflexivity; subst; destruct Ok1 as [_ E]; now rewrite E.
      + unfold mean_entry. cbn [fst snd Z.eqb Pos.eqb]. split; [|apply A4; destruct e'; [reflexivity | exact Logic.I]].
        pose proof (wv_becomes k k key Refl Ok1) as [_ Sb]. rewrite wv_mean in * by exact Ok1. split; [now destruct key|]. split; [now destruct key | exact Sb].
  Qed.

  Lemma key_ltb_parts k a b a' b' : num_of a = num_of a' -> blob_of a = blob_of a' -> num_of b = num_of b' -> blob_of b = blob_of b' ->
    key_ltb k a b = key_ltb k a' b'.
  Proof. intros E1 E2 E3 E4. unfold key_ltb. now rewrite E1, E2, E3, E4. Qed.

  Lemma map_becomes num k e e' : field_number num -> may e e' -> forall l bs acc, keys_sorted k l ->
    every (fun p => scalar_ok k (fst p) /\ elem_ok sch e (snd p)) l ->
    concat_res (map (serializeMapElement sch rec num k e) l) = Ok bs -> Zlen bs <= INT_MAX ->
    Forall (fun q => Forall (fun p => key_ltb k (fst q) (fst p) = true) l) acc ->
    exists ws, enc_recs (map (pair num) ws) bs /\ Forall (fits_field sch' (FMap k e')) ws
      /\ exists l', fold_left (mean_field sch' (FMap k e')) ws (VMap acc) = VMap (acc ++ l') /\
         Forall2 (fun p p' => scalar_becomes k k (fst p) (fst p') /\ becomes sch sch' e e' (snd p) (snd p')) (filter (fun p => negb (is_null (snd p))) l) l'.
  Proof.
    intros N M. induction l as [|[a v] l IH]; intros bs acc So O H B Ha.
    - cbn in H. injection H as <-. exists []. cbn [map fold_left]. split; [constructor|]. split; [constructor|]. exists []. rewrite app_nil_r. split; [reflexivity | constructor].
    - destruct O as [[Oa Ov] O]. destruct So as [S1 S2]. cbn [fst snd] in *. cbn [map] in H. apply concat_res_cons in H.
      destruct H as (x & y & H1 & H2 & ->). apply app_bound in B. destruct B as [B1 B2]. cbn [filter snd]. destruct (is_null v) eqn:Nv; cbn [negb].
      + destruct v; try discriminate Nv. destruct e as [t|m]; [contradiction|]. cbn [serializeMapElement snd] in H1. injection H1 as <-. apply (IH y acc S2 O H2 B2).
        eapply Forall_impl; [|exact Ha]. intros q Hq. now inversion Hq.
      + destruct (entry_becomes num k e e' a v x N M Oa Ov Nv H1 B1) as (es & E & F & (C1 & C2 & C3) & C4).
        set (kv := fold_left (mean_entry sch' k e') es (default_scalar k, default_elem sch' e')) in *.
        assert (I1 : map_insert k (fst kv) (snd kv) acc = acc ++ [(fst kv, snd kv)]).
        { apply map_insert_last. eapply Forall_impl; [|exact Ha]. intros q Hq. inversion Hq; subst. rewrite (key_ltb_parts k (fst q) (fst kv) (fst q) a); auto. }
        destruct (IH y (acc ++ [(fst kv, snd kv)]) S2 O H2 B2) as (ws & A1 & A2 & l' & A3 & A4).
        { apply Forall_app. split.
          - eapply Forall_impl; [|exact Ha]. intros q Hq. now inversion Hq.
          - constructor; [|constructor]. cbn [fst]. eapply Forall_impl; [|exact S1]. intros p Hp. cbn beta in Hp. rewrite (key_ltb_parts k (fst kv) (fst p) a (fst p)); auto. }
        exists (WMsg es :: ws). split; [|split; [now constructor|]].
        * change (map (pair num) (WMsg es :: ws)) with ([(num, WMsg es)] ++ map (pair num) ws). now apply enc_recs_app.
        * exists ((fst kv, snd kv) :: l'). cbn [fold_left]. cbn [mean_field map_of]. fold kv. rewrite I1, A3. split; [now rewrite <- app_assoc|].
          constructor; [cbn [fst snd]; auto | exact A4].
  Qed.

  Lemma last_snoc {A} (l : list A) x d : last (l ++ [x]) d = x.
  Proof. induction l as [|y l IH]; [reflexivity|]. cbn [app last]. destruct (l ++ [x])%list eqn:E; [destruct l; discriminate E | exact IH]. Qed.

  Lemma field_becomes f v bs ty' : field_ok f -> val_ok sch (f_ty f) v -> field_may related (f_ty f) ty' ->
    serializeProperty sch rec f v = Ok bs -> Zlen bs <= INT_MAX ->
    exists ws, enc_recs (map (pair (f_num f)) ws) bs /\ Forall (fits_field sch' ty') ws
      /\ becomes_field sch sch' (f_ty f) ty' v (fold_left (mean_field sch' ty') ws (default_field ty')).
  Proof.
    intros [N FO] O M H B. unfold serializeProperty in H. destruct (f_ty f) as [e|e|k e]; destruct ty' as [e'|e'|k' e']; cbn [field_may] in M; try contradiction; cbn [val_ok] in O.
    - destruct (element_becomes e e' (f_num f) v bs N M O H B) as (ws & A1 & A2 & A3 & A4). exists ws. split; [exact A1|]. split; [exact A2|].
      rewrite fold_single. constructor. apply A4. destruct e'; [reflexivity | exact Logic.I].
    - destruct M as [M Oo]. destruct e as [t|m].
      + destruct v as [s| | | |]; try contradiction. destruct e' as [t'|m']; cbn [elem_may] in M; [|contradiction]. pose proof (family_blob t t' (proj1 M)) as Bl. cbn [one_by_one] in Oo. rewrite Oo in Bl.
        cbn [serializeElement scalar_of] in H. injection H as <-. cbn [elem_ok] in O. pose proof (serializeScalar_enc t s (f_num f) O N B) as E. destruct (omitted t s) eqn:Om.
        * exists []. split; [exact E|]. split; [constructor|]. cbn [fold_left default_field].
          destruct t; try discriminate Oo; destruct s as [z|n b]; cbn in O; try contradiction; cbn in Om; subst n; destruct O as [_ O]; rewrite (O eq_refl); constructor.
        * exists [wv t s]. split; [exact E|]. destruct (wv_becomes t t' s M O) as [F Sb]. assert (So : sent_one (ES t') (wv t s)) by (exists t'; left; auto).
          split; [constructor; [|constructor]; apply fits_appended; [exact So | now rewrite fits_scalar_elem]|].
          cbn [default_field]. rewrite (fold_appended (ES t') [wv t s]) by (constructor; [exact So | constructor]). cbn [map app]. constructor. rewrite mean_scalar_elem. now constructor.
      + assert (Obj : exists obj, object_ok sch m obj /\ serializeObject rec (f_num f) m obj = Ok bs /\ forall x, becomes sch sch' (EM m) e' (VMsg obj) x -> becomes sch sch' (EM m) e' v x).
        { destruct v as [s| |fs| |]; try contradiction; cbn [serializeElement] in H.
          - exists (default_obj sch m). split; [apply default_ok|]. split; [exact H|]. intros x Hx. now constructor.
          - exists fs. auto. }
        destruct Obj as (obj & Ob & Sb & K). destruct (object_becomes (f_num f) m e' obj bs N M Ob Sb B) as (w & E & F & Bc).
        assert (So : sent_one e' w).
        { destruct e' as [t'|m']; [|exists TBytes; right; eauto]. cbn [elem_may] in M. subst t'. exists TBytes. left. split; [reflexivity|]. split; [reflexivity|]. now rewrite <- fits_scalar_elem. }
        exists [w]. split; [exact E|]. split; [constructor; [now apply fits_appended | constructor]|].
        cbn [default_field]. rewrite (fold_appended e' [w]) by (constructor; [exact So | constructor]). cbn [map app]. constructor. now apply K.
    - destruct M as [M Oo]. destruct v as [| | |l|]; try (destruct e; contradiction). cbn [list_of] in H.
      assert (Wr : exists ws, enc_recs (map (pair (f_num f)) ws) bs /\ Forall2 (fun v w => fits_elem sch' e' w /\ sent_one e' w /\ becomes sch sch' e e' v (mean_elem sch' e' w)) (present l) ws).
      { destruct e as [t|m]; apply (list_becomes _ e' (f_num f) N M Oo l bs); auto. injection H as <-. unfold serializeScalarList. cbn [one_by_one] in Oo. rewrite Oo. unfold serializeListBlob.
        destruct (map scalar_of l); unfold with_header; cbn [snd fst]; rewrite Z.eqb_refl; reflexivity. }
      destruct Wr as (ws & E & F). exists ws. split; [exact E|]. split.
      + clear - F. induction F as [|x w l' ws' (H1 & _ & _) F IH]; constructor; auto.
      + rewrite fold_last. destruct (present l) as [|v0 l0] eqn:P using rev_ind.
        * inversion F; subst. cbn [map last]. apply becomes_none. exact P.
        * apply Forall2_app_inv_l in F. destruct F as (ws1 & ws2 & F1 & F2 & ->). inversion F2 as [|? w ? ws3 (_ & _ & Bw) F3]; subst. inversion F3; subst.
          rewrite map_app. cbn [map]. rewrite last_snoc. eapply becomes_last; [exact P | exact Bw].
    - destruct v as [| | |l|]; try (destruct e; contradiction). cbn [list_of] in H. destruct e as [t|m].
      + destruct e' as [t'|m']; cbn [elem_may] in M; [|contradiction]. injection H as H. destruct (is_blob t) eqn:Bl.
        * destruct (list_becomes (ES t) (ES t') (f_num f) N M Bl l bs O) as (ws & E & F); [|exact B|].
          { rewrite <- H. unfold serializeScalarList. rewrite Bl. unfold serializeListBlob. destruct (map scalar_of l); unfold with_header; cbn [snd fst]; rewrite Z.eqb_refl; reflexivity. }
          exists ws. split; [exact E|]. assert (So : Forall (sent_one (ES t')) ws) by (clear - F; induction F as [|x w l' ws' (_ & H1 & _) F IH]; constructor; auto).
          split; [clear - F; induction F as [|x w l' ws' (H1 & H2 & _) F IH]; constructor; [now apply fits_appended | exact IH]|].
          cbn [default_field]. rewrite (fold_appended (ES t') ws So). cbn [app]. constructor. fold (present l). clear - F. induction F as [|x w l' ws' (_ & _ & H1) F IH]; constructor; auto.
        * destruct (packed_becomes t t' (f_num f) l bs N M Bl O H B) as (ws & E & F & l' & Fo & F2). exists ws. split; [exact E|]. split; [exact F|].
          cbn [default_field]. rewrite Fo. constructor. exact F2.
      + destruct (list_becomes (EM m) e' (f_num f) N M Logic.I l bs O H B) as (ws & E & F).
        exists ws. split; [exact E|]. assert (So : Forall (sent_one e') ws) by (clear - F; induction F as [|x w l' ws' (_ & H1 & _) F IH]; constructor; auto).
        split; [clear - F; induction F as [|x w l' ws' (H1 & H2 & _) F IH]; constructor; [now apply fits_appended | exact IH]|].
        cbn [default_field]. rewrite (fold_appended e' ws So). cbn [app]. constructor. fold (present l). clear - F. induction F as [|x w l' ws' (_ & _ & H1) F IH]; constructor; auto.
    - destruct M as [<- M]. destruct v as [| | | |l]; try contradiction. destruct O as [So O]. cbn [map_of] in H.
      destruct (map_becomes (f_num f) k e e' N M l bs [] So O H B) as (ws & A1 & A2 & l' & A3 & A4); [constructor|].
      exists ws. split; [exact A1|]. split; [exact A2|]. cbn [default_field]. rewrite A3. cbn [app]. now constructor.
  Qed.
End Fields.

(** ** Messages *)

Section Message.
  Variables sch sch' : schema.
  Variable related : nat -> nat -> Prop.
  Hypothesis Sch : schema_ok sch.
  Hypothesis Sch' : schema_ok sch'.
  Hypothesis V : versions sch sch' related.

  Lemma message_becomes fuel : forall m m' obj bs, related m m' -> object_ok sch m obj -> serializeMessage fuel sch m obj = Ok bs -> Zlen bs <= INT_MAX ->
    exists rs, enc_recs rs bs /\ fits sch' m' rs /\ becomes sch sch' (EM m) (EM m') (VMsg obj) (VMsg (mean sch' m' rs)).
  Proof.
    induction fuel as [|fuel IH]; intros m m' obj bs Rel O H B; [discriminate|]. cbn [serializeMessage] in H.
    pose proof (msg_at_ok sch m Sch) as (NDn & _ & ND & Cov).
    set (rec := serializeMessage fuel sch) in *.
    assert (RS : forall m obj bs, rec m obj = Ok bs -> serializes sch m obj bs) by (intros m0 obj0 bs0 R0; now exists fuel).
    assert (RW : forall m obj bs, object_ok sch m obj -> rec m obj = Ok bs -> Zlen bs <= INT_MAX ->
      exists rs, enc_recs rs bs /\ fits sch m rs /\ same sch m (mean sch m rs) (map drop_nulls obj)).
    { intros m0 obj0 bs0 O0 R0 B0. destruct (message_write sch Sch fuel m0 obj0 bs0 O0 R0 B0) as (g & A1 & A2 & A3 & _). eauto. }
    assert (RO : forall m obj bs, object_ok sch m obj -> rec m obj = Ok bs -> Zlen bs <= INT_MAX -> bytes bs).
    { intros m0 obj0 bs0 O0 R0 B0. destruct (RW m0 obj0 bs0 O0 R0 B0) as (rs & E & _). eapply enc_recs_bytes; eauto. }
    (* groups for the reader *)
    assert (G : forall order bs, (forall i, In i order -> (i < length (md_fields (msg_at sch m)))%nat) ->
      concat_res (map (fun i => serializeProperty sch rec (field_at sch m i) (nth i obj VNull)) order) = Ok bs -> Zlen bs <= INT_MAX ->
      exists gs, enc_recs (numbered gs) bs /\ map fst gs = map (fun i => f_num (field_at sch m i)) order /\
        forall i ws, In i order -> In (f_num (field_at sch m i), ws) gs -> NoDup (map fst gs) ->
          match find_field (msg_at sch' m') (f_num (field_at sch m i)) with
          | None => Forall fits_unknown ws
          | Some i' => Forall (fits_field sch' (f_ty (field_at sch' m' i'))) ws /\
              becomes_field sch sch' (f_ty (field_at sch m i)) (f_ty (field_at sch' m' i')) (nth i obj VNull)
                (fold_left (mean_field sch' (f_ty (field_at sch' m' i'))) ws (default_field (f_ty (field_at sch' m' i'))))
          end).
    { clear H B bs. induction order as [|i order IHo]; intros bs Hin H B.
      - cbn in H. injection H as <-. exists []. split; [constructor|]. split; [reflexivity|]. intros i ws [].
      - cbn [map] in H. apply concat_res_cons in H. destruct H as (a & b & H1 & H2 & ->). apply app_bound in B. destruct B as [B1 B2].
        destruct (IHo b ltac:(intros; apply Hin; now right) H2 B2) as (gs & E & Fst & G).
        assert (Hi : (i < length (md_fields (msg_at sch m)))%nat) by (apply Hin; now left).
        assert (Ov : val_ok sch (f_ty (field_at sch m i)) (nth i obj VNull)).
        { pose proof O as O'. apply object_ok_spec in O'. unfold field_at. clear - O' Hi. revert i Hi.
          induction O' as [|f x fl ol Hx HF IH]; intros i Hi; simpl in Hi; [lia|]. destruct i; cbn [nth]; [exact Hx|]. apply IH. lia. }
        assert (W : exists ws, enc_recs (map (pair (f_num (field_at sch m i))) ws) a /\
          match find_field (msg_at sch' m') (f_num (field_at sch m i)) with
          | None => Forall fits_unknown ws
          | Some i' => Forall (fits_field sch' (f_ty (field_at sch' m' i'))) ws /\
              becomes_field sch sch' (f_ty (field_at sch m i)) (f_ty (field_at sch' m' i')) (nth i obj VNull)
                (fold_left (mean_field sch' (f_ty (field_at sch' m' i'))) ws (default_field (f_ty (field_at sch' m' i'))))
          end).
        { destruct (find_field (msg_at sch' m') (f_num (field_at sch m i))) as [i'|] eqn:Fi.
          - destruct (find_field_range _ _ _ Fi) as [Hi' Nu]. fold (field_at sch' m' i') in Nu.
            destruct (field_becomes sch sch' related rec) with (f := field_at sch m i) (v := nth i obj VNull) (bs := a) (ty' := f_ty (field_at sch' m' i')) as (ws & A1 & A2 & A3); auto.
            { now apply field_at_ok. }
            exists ws. auto.
          - destruct (field_write sch rec RW (field_at sch m i) (nth i obj VNull) a (field_at_ok sch m i Sch Hi) Ov H1 B1) as (ws & A1 & _).
            destruct (enc_recs_unknown _ _ _ A1) as (ws' & U & E'). exists ws'. auto. }
        destruct W as (ws & Ew & Fw). exists ((f_num (field_at sch m i), ws) :: gs). split; [|split].
        + cbn [numbered flat_map fst snd]. now apply enc_recs_app.
        + cbn [map fst]. now rewrite Fst.
        + intros j ws' Hj Hin' NDg. cbn [map fst] in NDg. inversion NDg as [|? ? Nin NDg']; subst. destruct Hin' as [Eq|Hin'].
          * injection Eq as Eq <-. assert (Hjl : (j < length (md_fields (msg_at sch m)))%nat) by now apply Hin.
            assert (j = i). { pose proof (find_field_at sch m i Sch Hi) as X. rewrite Eq in X. rewrite (find_field_at sch m j Sch Hjl) in X. congruence. }
            subst j. exact Fw.
          * destruct Hj as [<-|Hj]; [|now apply G]. exfalso. apply Nin. apply (in_map fst) in Hin'. exact Hin'. }
    destruct (G (md_order (msg_at sch m)) bs ltac:(intros i Hi; now apply Cov) H B) as (gs & E & Fst & Gf).
    assert (NDg : NoDup (map fst gs)).
    { rewrite Fst. clear - ND Cov Sch. assert (Inj : forall i j, In i (md_order (msg_at sch m)) -> In j (md_order (msg_at sch m)) -> f_num (field_at sch m i) = f_num (field_at sch m j) -> i = j).
      { intros i j Hi Hj Eq. apply Cov in Hi. apply Cov in Hj. pose proof (find_field_at sch m i Sch Hi) as X. rewrite Eq in X. rewrite (find_field_at sch m j Sch Hj) in X. congruence. }
      clear Cov. induction ND as [|i l Ni NDl IH]; cbn [map]; constructor.
      - intro C. apply in_map_iff in C. destruct C as (j & Eq & Hj). apply Ni. rewrite (Inj i j); auto; [now left | now right].
      - apply IH. intros x y Hx Hy. apply Inj; now right. }
    destruct (fold_numbered sch' m' Sch' gs (default_obj sch' m') NDg (default_obj_length sch' m')) as [L Fo].
    exists (numbered gs). split; [exact E|]. split.
    - apply fits_spec. apply Forall_forall. intros r Hr. unfold numbered in Hr. apply in_flat_map in Hr. destruct Hr as ([num ws] & Hg & Hr). apply in_map_iff in Hr. destruct Hr as (w & <- & Hw). cbn [fst snd] in *.
      assert (Hn : In num (map fst gs)) by (apply (in_map fst) in Hg; exact Hg). rewrite Fst in Hn. apply in_map_iff in Hn. destruct Hn as (i & <- & Hi).
      specialize (Gf i ws Hi Hg NDg). unfold fits_record. cbn [fst snd]. destruct (find_field (msg_at sch' m') (f_num (field_at sch m i))) as [i'|].
      + destruct Gf as [Gf _]. rewrite Forall_forall in Gf. now apply Gf.
      + rewrite Forall_forall in Gf. now apply Gf.
    - cbv zeta in *. rewrite mean_spec. apply becomes_message.
      + rewrite L. apply default_obj_length.
      + intros i i' Hi Hi' Eq. destruct (Fo i' Hi') as [Fo1 _].
        assert (Hg : In (f_num (field_at sch m i)) (map fst gs)) by (rewrite Fst; apply (in_map (fun i => f_num (field_at sch m i))); now apply Cov).
        apply in_map_iff in Hg. destruct Hg as ([num ws] & En & Hg). cbn [fst] in En. subst num.
        specialize (Gf i ws (proj2 (Cov i) Hi) Hg NDg). rewrite Eq in Gf. rewrite (find_field_at sch' m' i' Sch' Hi') in Gf. destruct Gf as [_ Gf].
        rewrite Eq in Hg. rewrite (Fo1 ws Hg). rewrite (nth_default_obj sch' m' i' Hi'). exact Gf.
      + intros i' Hi' No. destruct (Fo i' Hi') as [_ Fo2]. rewrite Fo2; [now apply nth_default_obj|].
        intro C. rewrite Fst in C. apply in_map_iff in C. destruct C as (i & Eq & Hi). apply (No i); [now apply Cov | exact Eq].
  Qed.
End Message.

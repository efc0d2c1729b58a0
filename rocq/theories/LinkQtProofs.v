(** Proofs about programs with fields of Qt types that are generated from .proto files. *)

From Coq Require Import String ZArith List Bool Arith Permutation Lia.
From Verif Require Values.
From Verif Require Import Base WireModel MessageModel WireSpec MessageSpec MessageProofs.
From Verif Require Import GenModel GenSpec GenTypesModel GenBodyModel GenTypesSpec GenFields GenTypesProofs LinkModel LinkSpec LinkProofs.
From Verif Require Import QtTypesModel QtTypesSpec QtTypesProofs QtFieldsModel QtFieldsSpec LinkQtModel LinkQtSpec.
From Verif Require PropertiesGenerator PropertiesGenTypes.
Import ListNotations.
Open Scope nat_scope.

(** * The library *)

Lemma kind_of_name k : kind_named (type_name k) = Some k.
Proof. destruct k; reflexivity. Qed.

Lemma library_names k q : In (q, k) qt_names <-> q = type_name k.
Proof.
  split; [|intros ->; destruct k; cbn; tauto]. intro I. cbn [qt_names In] in I.
  repeat (destruct I as [E | I]; [injection E as <- <-; reflexivity|]). destruct I.
Qed.
Lemma behind_shifted t t' : behind (List.length qt_names) t t' <-> t' = shifted t.
Proof.
  assert (E : forall e e', element_behind (List.length qt_names) e e' <-> e' = shifted_element e) by (intros [s | m] e'; reflexivity).
  destruct t as [e | e | k e], t' as [e' | e' | k' e']; cbn [behind shifted]; try (split; [intros [] | discriminate]); rewrite E.
  - split; [now intros -> | congruence].
  - split; [now intros -> | congruence].
  - split; [now intros (-> & ->) | intro H; split; congruence].
Qed.

Lemma library_index k : nth_error all_kinds (index k) = Some k.
Proof. destruct k; reflexivity. Qed.

Lemma index_library m : m < library_size -> exists k, m = index k.
Proof.
  intro L. destruct (nth_error all_kinds m) as [k|] eqn:E; [|apply nth_error_None in E; unfold library_size in L; lia].
  exists k. assert (ND : NoDup all_kinds) by (repeat constructor; cbn; intuition discriminate).
  apply (proj1 (NoDup_nth_error all_kinds) ND); [exact L|]. now rewrite E, library_index.
Qed.

Lemma number_from_numbers : forall l n, map Values.f_num (number_from n l) = map (fun i => (n + Z.of_nat i)%Z) (seq 0 (List.length l)).
Proof.
  induction l as [|t l IH]; intro n; [reflexivity|]. cbn. f_equal; [lia|]. rewrite IH, <- seq_shift, map_map. apply map_ext. intro i. lia.
Qed.

Lemma number_from_ok k : NoDup (map Values.f_num (number_from 1 (field_types k))) /\ Forall field_ok (number_from 1 (field_types k)).
Proof.
  split.
  - rewrite number_from_numbers. apply FinFun.Injective_map_NoDup; [intros a b H; lia | apply seq_NoDup].
  - destruct k; cbn; repeat constructor; cbn; auto; unfold field_number; cbn; lia.
Qed.

Lemma number_from_length : forall l n, List.length (number_from n l) = List.length l.
Proof. induction l as [|t l IH]; intro n; [reflexivity|]. cbn. now rewrite IH. Qed.

(** * Fields *)

Definition field_info (p : program) (f : mfield) : option (Values.fty * option kind) :=
  match field_handlers (pr_registered p) (m_shape f) with Some hs => handled_with_qt p hs | None => None end.

(** What the files say about the type of a field. *)
Definition said (cs : list message) (s : shape) (t : Values.fty) (qt : option kind) : Prop :=
  match s with
  | One (Qt q) => exists k, q = type_name k /\ qt = Some k /\ t = Values.FSing (Values.EM (index k))
  | s => qt = None /\ exists t', same_shape cs s t' /\ t = shifted t'
  end.

Definition declared0 (cs : list message) (sch : Values.schema) (qt_field : nat -> nat -> option kind) : Prop :=
  List.length sch = library_size + List.length cs
  /\ forall k c, nth_error cs k = Some c ->
       List.length (Values.md_fields (Values.msg_at sch (library_size + k))) = List.length (g_fields c)
       /\ forall i f, nth_error (g_fields c) i = Some f ->
            Values.f_num (Values.field_at sch (library_size + k) i) = m_number f
            /\ said cs (m_shape f) (Values.f_ty (Values.field_at sch (library_size + k) i)) (qt_field (library_size + k) i).
Lemma said_field cs f x qt : declared_field cs f x qt <-> Values.f_num x = m_number f /\ said cs (m_shape f) (Values.f_ty x) qt.
Proof.
  unfold declared_field, said.
  assert (G : forall s, (qt = None /\ exists t, same_shape cs s t /\ behind (List.length qt_names) t (Values.f_ty x))
    <-> (qt = None /\ exists t', same_shape cs s t' /\ Values.f_ty x = shifted t')).
  { intro s. split; intros (Q & t & S & B); (split; [exact Q|]; exists t; split; [exact S | now apply behind_shifted]). }
  destruct (m_shape f) as [[]|e|k v]; rewrite ?G; try reflexivity.
  split; intros (Nu & k & I & Q); (split; [exact Nu|]; exists k; split; [now apply library_names | exact Q]).
Qed.
Lemma declared_said cs sch qf : declared cs sch qf <-> declared0 cs sch qf.
Proof.
  unfold declared, declared0. change (List.length qt_names) with library_size.
  split; intros (L & H); (split; [exact L|]; intros k c K; destruct (H k c K) as (N & F); split; [exact N|]; intros i f I;
    apply said_field, F, I).
Qed.

Lemma handled_plain p hs : (forall q, hs <> [HQt q]) -> handled_with_qt p hs = option_map (fun t => (shifted t, None)) (handled_field p hs).
Proof. intro N. destruct hs as [|[] []]; try reflexivity. now destruct (N name). Qed.

Lemma field_info_found ps qt p c f : program_of ps qt p -> of_library qt -> NoDup (map g_id (classes_of ps)) ->
  In c (classes_of ps) -> In f (g_fields c) -> shape_supported ps qt (m_shape f) ->
  exists t k, field_info p f = Some (t, k) /\ said (classes_of ps) (m_shape f) t k.
Proof.
  intros Pr L ND C F S.
  assert (G : no_qt (m_shape f) -> (forall q, m_shape f <> One (Qt q)) ->
    exists t k, field_info p f = Some (t, k) /\ said (classes_of ps) (m_shape f) t k).
  { intros Q NQ. destruct (field_type_found ps qt p c f Pr ND C F S Q) as (t & T & E). exists (shifted t), None.
    unfold field_type in T. unfold field_info. destruct Pr as (_ & Pm & _). rewrite (field_supported ps qt _ c f Pm C F S) in *.
    split.
    - destruct (needed_handlers (m_shape f)) as [hs|] eqn:H; [|discriminate]. rewrite handled_plain; [now rewrite T|].
      intros q ->. destruct (m_shape f) as [[t0|m|e0|q0]|[t0|m|e0|q0]|k v]; cbn in H; try discriminate.
    - destruct (m_shape f) as [[t0|m|e0|q0]|e|k v]; cbn; eauto. now destruct (NQ q0). }
  destruct (m_shape f) as [e|e|k v] eqn:Sh.
  - destruct e as [t|m|e|q]; try (apply G; [intros (q0 & Eq); discriminate | discriminate]).
    destruct (L q S) as (k & Iq). apply library_names in Iq as ->. exists (Values.FSing (Values.EM (index k))), (Some k). split; [|now exists k].
    unfold field_info. destruct Pr as (_ & Pm & _). rewrite <- Sh in S. rewrite (field_supported ps qt _ c f Pm C F S), Sh.
    cbn [needed_handlers element_handler handled_with_qt]. now rewrite kind_of_name.
  - apply G; [exact (proj1 (proj2 S)) | discriminate].
  - apply G; [exact (proj2 (proj2 S)) | discriminate].
Qed.

Lemma field_info_none ps qt p c f : program_of ps qt p -> In c (classes_of ps) -> In f (g_fields c) -> type_exists (m_shape f) ->
  ~ shape_supported ps qt (m_shape f) -> field_info p f = None.
Proof. intros (_ & Pm & _) C F T N. unfold field_info. now rewrite (field_unsupported ps qt _ c f Pm C F T N). Qed.

Lemma accessed_own_qt p c x i f : belongs_to x i -> nth_error (g_fields c) i = Some f ->
  accessed_with_qt p c x = option_map (pair i) (field_info p f).
Proof.
  intros [Ei Ea] N. unfold accessed_with_qt, field_info. rewrite Ea, Ei, N. now destruct (field_handlers (pr_registered p) (m_shape f)).
Qed.

Lemma read_own_qt p c i f : message_valid c -> nth_error (g_fields c) i = Some f ->
  read_with_qt p c (m_number f) = option_map (pair i) (field_info p f).
Proof.
  intros V N. pose proof (descriptor_valid c V) as (ND & _). unfold read_with_qt.
  destruct (PropertiesGenerator.C28_deserialized (pr_qml p) _ i _ ND (descriptor_nth _ _ _ N)) as (x & D & B).
  rewrite descriptor_number in D. rewrite D. now apply accessed_own_qt.
Qed.

Lemma written_own_qt p c i f : message_valid c -> names_fine (pr_qml p) c -> nth_error (g_fields c) i = Some f ->
  written_with_qt p c (m_number f) = option_map (pair i) (field_info p f).
Proof.
  intros V NC N. apply names_fine_iff in NC; [|exact V]. unfold written_with_qt.
  destruct (PropertiesGenerator.C28_serialized_partial (pr_qml p) _ i _ (descriptor_valid c V) NC (descriptor_nth _ _ _ N)) as (x & D & B).
  rewrite descriptor_number in D. rewrite D. now apply accessed_own_qt.
Qed.

Lemma nothing_else_qt p c n : ~ In n (map m_number (g_fields c)) -> read_with_qt p c n = None /\ written_with_qt p c n = None.
Proof.
  intro NI. rewrite <- descriptor_numbers in NI. unfold read_with_qt, written_with_qt.
  destruct (PropertiesGenerator.C28_unknown_number (pr_qml p) _ n NI) as (-> & ->). now split.
Qed.

Lemma found_at sch qf m i n : NoDup (map Values.f_num (Values.md_fields (Values.msg_at sch m))) ->
  nth_error (map Values.f_num (Values.md_fields (Values.msg_at sch m))) i = Some n ->
  found sch qf m n = Some (i, (Values.f_ty (Values.field_at sch m i), qf m i)).
Proof.
  intros ND N. rewrite nth_error_map in N. destruct (nth_error (Values.md_fields (Values.msg_at sch m)) i) as [x|] eqn:E; [|discriminate].
  injection N as <-. unfold found, Values.find_field. now rewrite (find_number_at _ 0 i x ND E).
Qed.

Lemma found_none sch qf m n : ~ In n (map Values.f_num (Values.md_fields (Values.msg_at sch m))) -> found sch qf m n = None.
Proof. intro NI. unfold found, Values.find_field. now rewrite find_number_none. Qed.

(** * The schema of a program *)

Definition info_or_none (p : program) (f : mfield) : Values.fty * option kind :=
  match field_info p f with Some x => x | None => (Values.FSing (Values.ES Values.TInt32), None) end.
Definition qt_class_desc (p : program) (k : nat) (c : message) : Values.msgdesc :=
  Values.mkMsg (map (fun f => Values.mkField (m_number f) (fst (info_or_none p f))) (g_fields c)) (pr_order p k).
Fixpoint qt_descs (p : program) (k : nat) (cs : list message) : Values.schema :=
  match cs with [] => [] | c :: cs' => qt_class_desc p k c :: qt_descs p (Datatypes.S k) cs' end.
Definition library_desc (lib : nat -> list nat) (k : kind) : Values.msgdesc := Values.mkMsg (number_from 1 (field_types k)) (lib (index k)).
Definition qt_program_schema (p : program) (lib : nat -> list nat) : Values.schema :=
  (map (library_desc lib) all_kinds ++ qt_descs p 0 (program_classes p))%list.
Definition qt_program_field (p : program) (m i : nat) : option kind :=
  if m <? library_size then None else
  match nth_error (program_classes p) (m - library_size) with
  | Some c => match nth_error (g_fields c) i with Some f => snd (info_or_none p f) | None => None end
  | None => None
  end.

Lemma qt_descs_length p : forall cs k, List.length (qt_descs p k cs) = List.length cs.
Proof. induction cs as [|c cs IH]; intro k; [reflexivity|]. cbn. now rewrite IH. Qed.

Lemma qt_descs_nth p : forall cs k i c, nth_error cs i = Some c -> nth i (qt_descs p k cs) (Values.mkMsg [] []) = qt_class_desc p (k + i) c.
Proof.
  induction cs as [|x cs IH]; intros k i c N; [destruct i; discriminate|]. destruct i as [|i]; cbn in N |- *.
  - injection N as ->. now rewrite Nat.add_0_r.
  - rewrite (IH (Datatypes.S k) i c N). f_equal. lia.
Qed.

Lemma schema_program p lib k c : nth_error (program_classes p) k = Some c ->
  Values.msg_at (qt_program_schema p lib) (library_size + k) = qt_class_desc p k c.
Proof.
  intro N. unfold Values.msg_at, qt_program_schema, library_size.
  rewrite app_nth2 by (rewrite map_length; lia). rewrite map_length.
  replace (List.length all_kinds + k - List.length all_kinds) with k by lia. now rewrite (qt_descs_nth p _ 0 k c N).
Qed.

Lemma schema_library p lib k : Values.msg_at (qt_program_schema p lib) (index k) = library_desc lib k.
Proof.
  unfold Values.msg_at, qt_program_schema. rewrite app_nth1 by (rewrite map_length; apply nth_error_Some; now rewrite library_index).
  apply nth_error_nth. now apply map_nth_error, library_index.
Qed.

Lemma field_program p k c i f : nth_error (program_classes p) k = Some c -> nth_error (g_fields c) i = Some f ->
  qt_program_field p (library_size + k) i = snd (info_or_none p f).
Proof.
  intros K N. unfold qt_program_field. destruct (Nat.ltb_spec (library_size + k) library_size); [lia|].
  replace (library_size + k - library_size) with k by lia. now rewrite K, N.
Qed.

Section Program.
  Context (ps : list proto) (qt : list string) (p : program).
  Context (V : files_valid ps) (Pr : program_of ps qt p) (Lib : of_library qt).

  Lemma runs_qt lib : usable_with_qt ps qt (pr_qml p) -> runs_with_qt p lib (qt_program_schema p lib) (qt_program_field p).
  Proof.
    intro U. split; [|split; [|split]].
    - unfold qt_program_schema, library_size. now rewrite app_length, map_length, qt_descs_length.
    - intro k. rewrite schema_library. now split.
    - intros k c K. rewrite (schema_program p lib k c K).
      pose proof (class_valid ps qt p V Pr c (nth_error_In _ _ K)) as Vc. pose proof Vc as (ND & _).
      assert (Nu : map Values.f_num (Values.md_fields (qt_class_desc p k c)) = map m_number (g_fields c)).
      { cbn. rewrite map_map. reflexivity. }
      rewrite ordering_numbers, descriptor_numbers. split; [exact Nu|]. split; [reflexivity|]. intro n.
      unfold usable_with_qt in U. rewrite Forall_forall, <- (classes_ps ps qt p V Pr) in U. destruct (U c (nth_error_In _ _ K)) as (NC & F).
      destruct (in_dec Z.eq_dec n (map m_number (g_fields c))) as [I | NI].
      + apply in_map_iff in I as (f & <- & I). apply In_nth_error in I as (i & N).
        rewrite (read_own_qt p c i f Vc N), (written_own_qt p c i f Vc NC N).
        rewrite (found_at (qt_program_schema p lib) (qt_program_field p) (library_size + k) i).
        * rewrite Forall_forall in F. pose proof (F f (nth_error_In _ _ N)) as S. destruct V as [NDi _].
          pose proof (nth_error_In _ _ K) as Ic. rewrite (classes_ps ps qt p V Pr) in Ic.
          destruct (field_info_found ps qt p c f Pr Lib NDi Ic (nth_error_In _ _ N) S) as (t & q & Ft & _).
          rewrite (field_program p k c i f K N).
          unfold Values.field_at. rewrite (schema_program p lib k c K). cbn [qt_class_desc Values.md_fields].
          rewrite (nth_error_nth _ _ Values.dummy_field
            (map_nth_error (fun f => Values.mkField (m_number f) (fst (info_or_none p f))) i (g_fields c) N)).
          cbn. unfold info_or_none. rewrite Ft. now split.
        * rewrite (schema_program p lib k c K), Nu. exact ND.
        * rewrite (schema_program p lib k c K), Nu. now apply map_nth_error.
      + destruct (nothing_else_qt p c n NI) as (-> & ->). rewrite found_none; [now split|]. now rewrite (schema_program p lib k c K), Nu.
    - intros m i Q. unfold qt_program_field in Q. destruct (Nat.ltb_spec m library_size); [now destruct Q|].
      destruct (nth_error (program_classes p) (m - library_size)) as [c|] eqn:K; [|now destruct Q].
      destruct (nth_error (g_fields c) i) as [f|] eqn:N; [|now destruct Q].
      split.
      + split; [assumption|]. unfold qt_program_schema. rewrite app_length, map_length, qt_descs_length. fold library_size.
        assert (m - library_size < List.length (program_classes p)) by (apply nth_error_Some; congruence). lia.
      + replace m with (library_size + (m - library_size)) by lia. rewrite (schema_program p lib _ c K). cbn. rewrite map_length.
        apply nth_error_Some. congruence.
  Qed.

  (** What a schema with which the program runs is like. *)
  Context (lib : nat -> list nat) (sch : Values.schema) (qf : nat -> nat -> option kind) (R : runs_with_qt p lib sch qf).

  Lemma runs_info k c i f : nth_error (program_classes p) k = Some c -> nth_error (g_fields c) i = Some f ->
    Values.f_num (Values.field_at sch (library_size + k) i) = m_number f
    /\ field_info p f = Some (Values.f_ty (Values.field_at sch (library_size + k) i), qf (library_size + k) i).
  Proof.
    destruct R as (_ & _ & R' & _). intros K N. destruct (R' k c K) as (Nu & _ & L). set (m := library_size + k) in *.
    pose proof (class_valid ps qt p V Pr c (nth_error_In _ _ K)) as Vc.
    rewrite ordering_numbers, descriptor_numbers in Nu. pose proof Vc as (ND & _).
    assert (Ni : nth_error (map Values.f_num (Values.md_fields (Values.msg_at sch m))) i = Some (m_number f)) by (rewrite Nu; now apply map_nth_error).
    destruct (L (m_number f)) as (Rd & _). rewrite (read_own_qt p c i f Vc N) in Rd.
    rewrite (found_at sch qf m i) in Rd by (rewrite ?Nu; assumption || (rewrite <- Nu; assumption)).
    rewrite nth_error_map in Ni. destruct (nth_error (Values.md_fields (Values.msg_at sch m)) i) as [x|] eqn:E; [|discriminate].
    assert (Ex : Values.field_at sch m i = x) by (unfold Values.field_at; now apply nth_error_nth). rewrite Ex in *.
    injection Ni as Ni. split; [exact Ni|].
    destruct (field_info p f) as [t|]; cbn in Rd; [now injection Rd as -> | discriminate].
  Qed.

  Lemma runs_qt_length k c : nth_error (program_classes p) k = Some c ->
    List.length (Values.md_fields (Values.msg_at sch (library_size + k))) = List.length (g_fields c).
  Proof.
    destruct R as (_ & _ & R' & _). intro K. destruct (R' k c K) as (Nu & _). rewrite ordering_numbers, descriptor_numbers in Nu.
    apply (f_equal (@List.length _)) in Nu. now rewrite !map_length in Nu.
  Qed.

  Lemma runs_has_library : has_library sch.
  Proof. destruct R as (_ & L & _). intro k. apply L. Qed.

  Lemma does_not_run_qt c : In c (classes_of ps) ->
    names_fine (pr_qml p) c /\ forall f, In f (g_fields c) -> ~ ~ shape_supported ps qt (m_shape f).
  Proof.
    intro Ic. pose proof Ic as Ic'. rewrite <- (classes_ps ps qt p V Pr) in Ic'. pose proof (class_valid ps qt p V Pr c Ic') as Vc.
    apply In_nth_error in Ic' as (k & K). split.
    - apply names_fine_iff; [exact Vc|]. intro Cl. destruct (PropertiesGenerator.C28_clash_refuted (pr_qml p) _ (descriptor_valid c Vc) Cl) as (i & g & x & N & Sp & NB).
      rewrite nth_error_map in N. destruct (nth_error (g_fields c) i) as [f|] eqn:Nf; [|discriminate]. injection N as <-.
      rewrite descriptor_number in Sp. destruct (runs_info k c i f K Nf) as (_ & Ty).
      destruct R as (_ & _ & R' & _). destruct (R' k c K) as (_ & _ & L). destruct (L (m_number f)) as (Rd & Wr). rewrite <- Rd in Wr.
      rewrite (read_own_qt p c i f Vc Nf), Ty in Wr. unfold written_with_qt in Wr. rewrite Sp in Wr. cbn [option_map] in Wr. unfold accessed_with_qt in Wr.
      destruct (p_access x) eqn:Ax; try discriminate. destruct (nth_error (g_fields c) (p_field x)) as [g|]; [|discriminate].
      destruct (field_handlers (pr_registered p) (m_shape g)) as [hs|]; [|discriminate].
      destruct (handled_with_qt p hs) as [t|]; [|discriminate]. cbn [option_map] in Wr. injection Wr as Ei _. apply NB. now split.
    - intros f If N. apply In_nth_error in If as (i & Nf).
      destruct (runs_info k c i f K Nf) as (_ & Ty). destruct Vc as (_ & _ & Fv). rewrite Forall_forall in Fv.
      destruct (Fv f (nth_error_In _ _ Nf)) as (_ & T).
      rewrite (field_info_none ps qt p c f Pr Ic (nth_error_In _ _ Nf) T N) in Ty. discriminate.
  Qed.

  Context (U : usable_with_qt ps qt (pr_qml p)).

  Lemma runs_declared0 : declared0 (classes_of ps) sch qf.
  Proof.
    rewrite <- (classes_ps ps qt p V Pr). split; [exact (proj1 R)|]. intros k c K. split; [now apply runs_qt_length|]. intros i f N.
    destruct (runs_info k c i f K N) as (Nu & Ty). split; [exact Nu|].
    pose proof (nth_error_In _ _ K) as Ic. rewrite (classes_ps ps qt p V Pr) in *.
    unfold usable_with_qt in U. rewrite Forall_forall in U. destruct (U c Ic) as (_ & F). rewrite Forall_forall in F.
    destruct (field_info_found ps qt p c f Pr Lib (proj1 V) Ic (nth_error_In _ _ N) (F f (nth_error_In _ _ N))) as (t & q & Ft & S).
    rewrite Ft in Ty. assert (E : (t, q) = (Values.f_ty (Values.field_at sch (library_size + k) i), qf (library_size + k) i)) by congruence.
    apply pair_equal_spec in E. destruct E as [<- <-].
    destruct (m_shape f) as [[]|e|k' v]; exact S.
  Qed.

  Lemma runs_declared : declared (classes_of ps) sch qf.
  Proof. apply declared_said, runs_declared0. Qed.

  Lemma runs_qt_fields_ok : qt_fields_ok sch qf.
  Proof.
    intros m i k Q. pose proof R as (Le & _ & _ & R'). destruct (R' m i) as ((L1 & L2) & L3); [congruence|].
    assert (K : exists c, nth_error (program_classes p) (m - library_size) = Some c).
    { destruct (nth_error (program_classes p) (m - library_size)) eqn:E; [eauto|]. apply nth_error_None in E. lia. }
    destruct K as (c & K). pose proof (runs_qt_length (m - library_size) c K) as Lf.
    replace (library_size + (m - library_size)) with m in Lf by lia. rewrite Lf in L3.
    destruct (nth_error (g_fields c) i) as [f|] eqn:N; [|apply nth_error_None in N; lia].
    rewrite (classes_ps ps qt p V Pr) in K. destruct (proj2 runs_declared0 (m - library_size) c K) as (_ & D). specialize (D i f N).
    replace (library_size + (m - library_size)) with m in D by lia. destruct D as (_ & D). rewrite Q in D.
    destruct (m_shape f) as [[]|[]|k' []]; cbn in D; try (destruct D as (D & _); discriminate).
    destruct D as (k0 & _ & E & T). injection E as <-. exact T.
  Qed.

  Lemma shifted_ok n t : field_ok (Values.mkField n t) -> field_ok (Values.mkField n (shifted t)).
  Proof. destruct t as [[]|[]|k []]; cbn; auto. Qed.

  Lemma runs_qt_ok : any_order lib -> schema_ok sch.
  Proof.
    intro LO. unfold schema_ok. rewrite Forall_forall. intros d Id. apply In_nth_error in Id as (m & M).
    assert (Ed : Values.msg_at sch m = d) by (unfold Values.msg_at; now apply nth_error_nth).
    assert (Lt : m < List.length sch) by (apply nth_error_Some; congruence). pose proof R as (Le & RL & RP & _). rewrite Le in Lt.
    destruct (Nat.lt_ge_cases m library_size) as [Lm | Gm].
    - destruct (index_library m Lm) as (k & ->). destruct (RL k) as (Fd & Od). rewrite Ed in Fd, Od.
      destruct (number_from_ok k) as (N1 & N2). unfold msg_ok. rewrite Fd, Od. split; [exact N1|]. split; [exact N2|].
      pose proof (LO k) as O. split; [apply (Permutation_NoDup (Permutation_sym O)); apply seq_NoDup|].
      intro i. rewrite number_from_length. split; intro H.
      + apply (Permutation_in _ O) in H. apply in_seq in H. lia.
      + apply (Permutation_in _ (Permutation_sym O)). apply in_seq. lia.
    - set (k := m - library_size). assert (Em : m = library_size + k) by (unfold k; lia).
      destruct (nth_error (program_classes p) k) as [c|] eqn:Kc; [|apply nth_error_None in Kc; lia].
      destruct (RP k c Kc) as (Nu & Or & _). rewrite <- Em, Ed in Nu, Or. rewrite ordering_numbers, descriptor_numbers in Nu.
      pose proof (class_valid ps qt p V Pr c (nth_error_In _ _ Kc)) as (ND & _ & Fv).
      split; [now rewrite Nu|]. pose proof Kc as Kc'. rewrite (classes_ps ps qt p V Pr) in Kc'. pose proof (nth_error_In _ _ Kc') as Ic.
      pose proof (runs_qt_length k c Kc) as Ln. rewrite <- Em, Ed in Ln.
      pose proof U as U'. unfold usable_with_qt in U'. rewrite Forall_forall in U'. destruct (U' c Ic) as (_ & F).
      split.
      + rewrite Forall_forall. intros x Ix. apply In_nth_error in Ix as (i & Nx).
        assert (Li : i < List.length (g_fields c)) by (rewrite <- Ln; apply nth_error_Some; congruence).
        destruct (nth_error (g_fields c) i) as [f|] eqn:N; [|apply nth_error_None in N; lia].
        destruct (proj2 runs_declared0 k c Kc') as (_ & D). specialize (D i f N). rewrite <- Em in D.
        assert (Ex : Values.field_at sch m i = x) by (unfold Values.field_at; rewrite Ed; now apply nth_error_nth). rewrite Ex in D.
        rewrite Forall_forall in F, Fv. pose proof (nth_error_In _ _ N) as If. pose proof (F f If) as S. destruct (Fv f If) as (Nf & T).
        destruct x as [n t]. destruct D as (Dn & D). cbn in Dn, D. subst n.
        assert (G : forall t', same_shape (classes_of ps) (m_shape f) t' -> t = shifted t' -> field_ok (Values.mkField (m_number f) t)).
        { intros t' St ->. apply shifted_ok. exact (shape_ok ps qt f t' T S Nf St). }
        destruct (m_shape f) as [[]|e|k' v]; try (destruct D as (_ & t' & D1 & D2); now apply (G t')).
        destruct D as (k0 & _ & _ & ->). split; [exact Nf | exact I].
      + pose proof Pr as (_ & _ & O). specialize (O k c Kc'). rewrite Or.
        split; [apply (Permutation_NoDup (Permutation_sym O)); apply seq_NoDup|].
        intro i. rewrite Ln. split; intro H.
        * apply (Permutation_in _ O) in H. apply in_seq in H. lia.
        * apply (Permutation_in _ (Permutation_sym O)). apply in_seq. lia.
  Qed.
End Program.

(** * Two programs *)

(** Nothing but the fields of the schema matters to the reader. *)
Section Congruence.
  Variables Url Image : Type.
  Variable url_parse : list Z -> Url.
  Variable image_load : list Z -> list Z -> Image.
  Variable qt_eq : qtval Url Image -> qtval Url Image -> bool.
  Variable new_qt : kind -> qtval Url Image.
  Variables a b : Values.schema.
  Variables qa qb : nat -> nat -> option kind.
  Hypothesis S : same_fields a b.
  Hypothesis Q : forall m i, qa m i = qb m i.
  Local Notation loop := (mixed_loop Url Image url_parse image_load qt_eq new_qt).
  Local Notation mvalue := (mvalue Url Image).

  Lemma same_field_at m i : Values.field_at a m i = Values.field_at b m i.
  Proof. unfold Values.field_at. now rewrite S. Qed.

  Lemma new_object_congr m : new_object Url Image new_qt a qa m = new_object Url Image new_qt b qb m.
  Proof.
    unfold new_object. rewrite S. apply map_ext. intro i. unfold new_member. now rewrite Q, same_field_at.
  Qed.

  Lemma plain_congr fuel m data : deserializeMessage fuel false a m data = deserializeMessage fuel false b m data.
  Proof. unfold deserializeMessage. rewrite (loop_congr false a b S). unfold Values.default_obj. now rewrite S. Qed.

  Section Step.
    Variables rec rec' : nat -> list Z -> list mvalue * res unit.
    Hypothesis E : forall m d, rec m d = rec' m d.

    Lemma mixed_object_congr m data it : mixed_read_object Url Image rec m data it = mixed_read_object Url Image rec' m data it.
    Proof. unfold mixed_read_object. destruct (deserializeLengthDelimited false data it) as [[x i]| | |]; cbn; try reflexivity. now rewrite E. Qed.

    Lemma mixed_map_loop_congr n : forall k m data it last key val,
      mixed_map_loop Url Image rec n k m data it last key val = mixed_map_loop Url Image rec' n k m data it last key val.
    Proof.
      induction n as [|n IH]; intros k m data it last key val; [reflexivity|]. cbn [mixed_map_loop].
      destruct (it_pos it =? last)%Z; [reflexivity|]. destruct (decodeHeader data it) as [[[[x y] c] it1]| | |]; cbn [bind]; try reflexivity.
      destruct (x =? 1)%Z.
      - destruct (deserializeBasic false k data it1) as [[s it2]| | |]; cbn [bind]; try reflexivity. apply IH.
      - rewrite mixed_object_congr. destruct (mixed_read_object Url Image rec' m data it1) as [[s it2]| | |]; cbn [bind]; try reflexivity. apply IH.
    Qed.

    Lemma mixed_field_congr fuel m i old data it :
      mixed_field Url Image url_parse image_load qt_eq a qa fuel rec m i old data it
      = mixed_field Url Image url_parse image_load qt_eq b qb fuel rec' m i old data it.
    Proof.
      unfold mixed_field. rewrite Q, same_field_at. destruct (qb m i) as [k|].
      - rewrite (object_congr false (fun m' data' => deserializeMessage fuel false a m' data')
          (fun m' data' => deserializeMessage fuel false b m' data') (plain_congr fuel)). reflexivity.
      - destruct (Values.f_ty (Values.field_at b m i)) as [[t|m']|[t|m']|k [t|m']];
          try (now rewrite mixed_object_congr); try (unfold mixed_map_pair;
            destruct (deserializeVarintCommon 32 data it) as [[c it1]| | |]; cbn [bind]; try reflexivity;
            destruct (it_plus false it1 (toS 32 c)) as [last| | |]; cbn [bind]; try reflexivity; now rewrite mixed_map_loop_congr);
          now rewrite (field_congr fuel false (fun m' data' => deserializeMessage fuel false a m' data')
            (fun m' data' => deserializeMessage fuel false b m' data') (plain_congr fuel)).
    Qed.
  End Step.

  Lemma mixed_loop_congr fuel : forall m data it obj, loop a qa fuel m data it obj = loop b qb fuel m data it obj.
  Proof.
    induction fuel as [|fuel IH]; intros m data it obj; [reflexivity|]. cbn [mixed_loop].
    destruct (it_pos it =? Zlen data)%Z; [reflexivity|].
    set (ra := fun m' data' => loop a qa fuel m' data' (it_begin data') (new_object Url Image new_qt a qa m')).
    set (rb := fun m' data' => loop b qb fuel m' data' (it_begin data') (new_object Url Image new_qt b qb m')).
    assert (E : forall m d, ra m d = rb m d) by (intros; unfold ra, rb; now rewrite IH, new_object_congr).
    assert (E' : mixed_read_property Url Image url_parse image_load qt_eq a qa fuel ra m data it obj
      = mixed_read_property Url Image url_parse image_load qt_eq b qb fuel rb m data it obj).
    { unfold mixed_read_property. destruct (decodeHeader data it) as [[[[x y] c] it1]| | |]; cbn [bind]; try reflexivity.
      destruct (negb c); [reflexivity|]. unfold Values.find_field. rewrite S.
      destruct (Values.find_from 0 (Values.md_fields (Values.msg_at b m)) x) as [i|]; [|reflexivity].
      now rewrite (mixed_field_congr ra rb E). }
    rewrite E'. destruct (mixed_read_property Url Image url_parse image_load qt_eq b qb fuel rb m data it obj) as [[o i]| | |]; auto.
  Qed.

  Lemma mixed_congr fuel m data :
    mixed_deserialize Url Image url_parse image_load qt_eq new_qt a qa fuel m data
    = mixed_deserialize Url Image url_parse image_load qt_eq new_qt b qb fuel m data.
  Proof. unfold mixed_deserialize. now rewrite mixed_loop_congr, new_object_congr. Qed.
End Congruence.

Lemma type_name_inj k k' : type_name k = type_name k' -> k = k'.
Proof. intro E. apply (f_equal kind_named) in E. rewrite !kind_of_name in E. congruence. Qed.

Lemma declared_same cs a b qa qb : NoDup (map g_id cs) -> declared0 cs a qa -> declared0 cs b qb ->
  (forall k, Values.md_fields (Values.msg_at a (index k)) = Values.md_fields (Values.msg_at b (index k))) ->
  (forall m i, qa m i <> None -> library_size <= m < List.length a /\ i < List.length (Values.md_fields (Values.msg_at a m))) ->
  (forall m i, qb m i <> None -> library_size <= m < List.length b /\ i < List.length (Values.md_fields (Values.msg_at b m))) ->
  same_fields a b /\ forall m i, qa m i = qb m i.
Proof.
  intros ND (La & Da) (Lb & Db) Lib Oa Ob.
  assert (G : forall k c i f, nth_error cs k = Some c -> nth_error (g_fields c) i = Some f ->
    Values.field_at a (library_size + k) i = Values.field_at b (library_size + k) i /\ qa (library_size + k) i = qb (library_size + k) i).
  { intros k c i f K N. destruct (Da k c K) as (_ & A). destruct (Db k c K) as (_ & B). specialize (A i f N). specialize (B i f N).
    destruct A as (A1 & A2), B as (B1 & B2). set (m := library_size + k) in *. clearbody m.
    destruct (Values.field_at a m i) as [na ta], (Values.field_at b m i) as [nb tb]. cbn [Values.f_num Values.f_ty] in *.
    assert (H : forall t t', same_shape cs (m_shape f) t -> same_shape cs (m_shape f) t' -> t = t') by (intros; eapply says_fun_shape; eauto).
    destruct (m_shape f) as [[]|e|k' v]; try (destruct A2 as (-> & u & A2 & ->), B2 as (-> & u' & B2 & ->); now rewrite (H u u' A2 B2), A1, B1).
    destruct A2 as (q & A2 & -> & ->), B2 as (q' & B2 & -> & ->). rewrite A2 in B2. apply type_name_inj in B2 as ->. now rewrite A1, B1. }
  assert (SF : same_fields a b).
  { intro m. destruct (Nat.lt_ge_cases m library_size) as [Lm | Gm]; [destruct (index_library m Lm) as (k & ->); apply Lib|].
    set (k := m - library_size). assert (Em : m = library_size + k) by (unfold k; lia).
    destruct (nth_error cs k) as [c|] eqn:K.
    - destruct (Da k c K) as (A & _), (Db k c K) as (B & _). rewrite Em. apply nth_ext with (d := Values.dummy_field) (d' := Values.dummy_field); [congruence|].
      intros i Hi. rewrite A in Hi. destruct (nth_error (g_fields c) i) as [f|] eqn:N; [|apply nth_error_None in N; lia].
      exact (proj1 (G k c i f K N)).
    - apply nth_error_None in K. unfold Values.msg_at. rewrite !nth_overflow by lia. reflexivity. }
  split; [exact SF|]. intros m i.
  assert (H : qa m i <> None \/ qb m i <> None -> qa m i = qb m i).
  { intro H. assert (R : library_size <= m < List.length a /\ i < List.length (Values.md_fields (Values.msg_at a m))).
    { destruct H as [H | H]; [now apply Oa|]. destruct (Ob m i H) as (R1 & R2). rewrite SF. lia. }
    destruct R as ((R1 & R2) & R3). set (k := m - library_size). assert (Em : m = library_size + k) by (unfold k; lia).
    destruct (nth_error cs k) as [c|] eqn:K; [|apply nth_error_None in K; lia]. destruct (Da k c K) as (A & _). rewrite <- Em in A.
    destruct (nth_error (g_fields c) i) as [f|] eqn:N; [|apply nth_error_None in N; lia]. rewrite Em. exact (proj2 (G k c i f K N)). }
  destruct (qa m i) eqn:Ea; [apply H; left; discriminate|]. destruct (qb m i) eqn:Eb; [apply H; right; discriminate|]. reflexivity.
Qed.

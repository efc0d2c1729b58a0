(** Proofs about programs with fields of Qt types that use the JSON serializer. *)

From Coq Require Import String Ascii ZArith List Bool Arith Permutation Lia.
From Verif Require Values.
From Verif Require Import Base MessageSpec JsonSpec JsonModel JsonReadModel JsonReadSpec JsonTyped.
From Verif Require PropertiesGenerator.
From Verif Require Import GenModel GenSpec GenTypesModel GenBodyModel GenTypesSpec GenClassSpec GenFields GenTypesProofs LinkModel LinkSpec LinkProofs
  LinkJsonModel LinkJsonSpec LinkJsonProofs.
From Verif Require Import QtTypesModel QtTypesSpec QtTypesProofs QtFieldsModel QtFieldsSpec LinkQtModel LinkQtSpec LinkQtProofs LinkQtJsonModel LinkQtJsonSpec.
Import ListNotations.
Open Scope nat_scope.

(** * The library *)

Lemma library_json_length k : List.length (library_json k) = List.length (field_types k).
Proof. destruct k; reflexivity. Qed.

Lemma library_json_distinct k : NoDup (map bytes_of (library_json k)).
Proof.
  destruct k; vm_compute; repeat (apply NoDup_cons; [intro I; repeat (destruct I as [E | I]; [discriminate|]); destruct I |]); apply NoDup_nil.
Qed.

Lemma library_json_plain k : Forall (Forall JsonSpec.plain) (map bytes_of (library_json k)).
Proof.
  destruct k; cbn -[Z.of_nat]; unfold JsonSpec.plain; repeat (apply Forall_cons || apply Forall_nil); vm_compute; repeat split; discriminate.
Qed.

Lemma nth_all {A} (d : A) l : map (fun i => nth i l d) (seq 0 (List.length l)) = l.
Proof. induction l as [|a l IH]; [reflexivity|]. cbn [List.length seq map nth]. f_equal. rewrite <- seq_shift, map_map. exact IH. Qed.

(** * A program *)

Section Program.
  Context (json_name : nat -> Z -> list Z) (ps : list proto) (qt : list string) (p : program).
  Context (V : files_valid ps) (J : json_valid json_name ps) (Pr : program_of ps qt p) (Lib : of_library qt) (U : usable_with_qt ps qt (pr_qml p)).

  Lemma json_accessed_qt_same c x : json_accessed_with_qt p c x = accessed_with_qt p c x.
  Proof.
    unfold json_accessed_with_qt, accessed_with_qt. destruct (p_access x); try reflexivity. destruct (nth_error (g_fields c) (p_field x)) as [f|]; [|reflexivity].
    destruct Pr as (_ & P & _). now rewrite (json_fields ps qt).
  Qed.

  Lemma class_usable_qt c : In c (program_classes p) -> names_fine (pr_qml p) c /\ Forall (fun f => shape_supported ps qt (m_shape f)) (g_fields c).
  Proof. intro I. unfold usable_with_qt in U. rewrite Forall_forall in U. apply U. now rewrite <- (classes_ps ps qt p V Pr). Qed.

  Lemma info_known c f : In c (program_classes p) -> In f (g_fields c) -> field_info p f = Some (info_or_none p f).
  Proof.
    intros Ic If. destruct (class_usable_qt c Ic) as (_ & F). rewrite Forall_forall in F. rewrite (classes_ps ps qt p V Pr) in Ic.
    destruct (field_info_found ps qt p c f Pr Lib (proj1 V) Ic If (F f If)) as (t & k & T & _). unfold info_or_none. now rewrite T.
  Qed.

  Lemma json_written_own_qt c i f : In c (program_classes p) -> nth_error (g_fields c) i = Some f ->
    json_written_with_qt json_name p c f = Some (json_name (g_id c) (m_number f), (i, info_or_none p f)).
  Proof.
    intros Ic N. unfold json_written_with_qt. rewrite (name_in_table json_name ps qt p V J Pr c f Ic (nth_error_In _ _ N)).
    destruct (class_usable_qt c Ic) as (NC & _). pose proof (written_own_qt p c i f (class_valid ps qt p V Pr c Ic) NC N) as W. unfold written_with_qt in W.
    rewrite (info_known c f Ic (nth_error_In _ _ N)) in W. destruct (serialized_property _ _ _) as [x|]; [|discriminate].
    now rewrite json_accessed_qt_same, W.
  Qed.

  Lemma json_read_own_qt c order name : In c (program_classes p) -> Forall (fun i => i < List.length (g_fields c)) order ->
    json_read_with_qt json_name p c order name
    = option_map (fun i => (i, match nth_error (g_fields c) i with Some f => info_or_none p f | None => (Values.FSing (Values.ES Values.TInt32), None) end))
        (find (fun i => JsonReadModel.same_bytes (match nth_error (g_fields c) i with Some f => json_name (g_id c) (m_number f) | None => [] end) name) order).
  Proof.
    intros Ic F. unfold json_read_with_qt. rewrite (find_name_found json_name ps qt p V J Pr) by assumption.
    destruct (find _ order) as [i|] eqn:E; [|reflexivity]. cbn [option_map].
    apply find_some in E as (I & _). rewrite Forall_forall in F. specialize (F i I).
    destruct (nth_error (g_fields c) i) as [f|] eqn:N; [|apply nth_error_None in N; lia].
    pose proof (class_valid ps qt p V Pr c Ic) as Vc. pose proof (read_own_qt p c i f Vc N) as R. unfold read_with_qt, deserialized_property in R.
    assert (Fn : find_number (m_number f) (fields_ordering 0 (map descriptor_field (g_fields c))) = Some (i + 1)).
    { destruct Vc as (ND & _). clear - ND N. assert (G : forall l k i, NoDup (map m_number l) -> nth_error l i = Some f ->
        find_number (m_number f) (fields_ordering k (map descriptor_field l)) = Some (k + i + 1)).
      { induction l as [|g l IH]; intros k j D Nj; [destruct j; discriminate|]. cbn [map fields_ordering find_number]. rewrite descriptor_number.
        cbn in D. inversion D as [|? ? Ng D']; subst. destruct j as [|j]; cbn in Nj.
        - injection Nj as ->. rewrite Z.eqb_refl. f_equal. lia.
        - destruct (Z.eqb_spec (m_number g) (m_number f)) as [Eq | Ne].
          + exfalso. apply Ng. rewrite Eq. apply in_map. exact (nth_error_In _ _ Nj).
          + rewrite (IH (Datatypes.S k) j D' Nj). f_equal. lia. }
      apply (G (g_fields c) 0 i ND N). }
    rewrite Fn, (info_known c f Ic (nth_error_In _ _ N)) in R.
    destruct (meta_property _ _) as [x|]; [|discriminate]. now rewrite json_accessed_qt_same, R.
  Qed.

  Definition qt_program_names : names :=
    mkNames (fun m i => match nth_error all_kinds m with
                        | Some k => nth i (map bytes_of (library_json k)) []
                        | None => n_json (program_names json_name p) (m - library_size) i end)
            (fun m i => match nth_error all_kinds m with Some _ => [] | None => n_enum (program_names json_name p) (m - library_size) i end).

  Lemma beyond m : library_size <= m -> nth_error all_kinds m = None.
  Proof. apply nth_error_None. Qed.

  Lemma qt_names_beyond k i :
    n_json qt_program_names (library_size + k) i = n_json (program_names json_name p) k i /\
    n_enum qt_program_names (library_size + k) i = n_enum (program_names json_name p) k i.
  Proof.
    unfold qt_program_names. cbn [n_json n_enum]. rewrite beyond by lia. now replace (library_size + k - library_size) with k by lia.
  Qed.

  Lemma json_runs_qt lib : json_runs_with_qt json_name p lib (qt_program_schema p lib) qt_program_names (qt_program_field p).
  Proof.
    pose proof (runs_qt ps qt p V Pr Lib lib U) as (Le & L & R & O). split; [exact Le|]. split; [|split; [|split; [|exact O]]].
    - intro k. destruct (L k) as (A & B). split; [exact A|]. split; [exact B|]. intro i. unfold qt_program_names. cbn [n_json n_enum].
      now rewrite library_index.
    - intros m i Lm N. unfold qt_program_names, program_names. cbn [n_json n_enum]. rewrite beyond by exact Lm.
      destruct (nth_error (program_classes p) (m - library_size)) as [c|] eqn:K; [|now split]. now rewrite (N c eq_refl).
    - intros k c K. destruct (R k c K) as (Nu & Or & _). split; [exact Nu|]. split; [exact Or|]. pose proof (nth_error_In _ _ K) as Ic.
      assert (Ty : forall i f, nth_error (g_fields c) i = Some f ->
        (Values.f_ty (Values.field_at (qt_program_schema p lib) (library_size + k) i), qt_program_field p (library_size + k) i) = info_or_none p f).
      { intros i f N. rewrite (field_program p k c i f K N). unfold Values.field_at. rewrite (schema_program p lib k c K). cbn [qt_class_desc Values.md_fields].
        rewrite (nth_error_nth _ _ Values.dummy_field (map_nth_error (fun f => Values.mkField (m_number f) (fst (info_or_none p f))) i (g_fields c) N)).
        cbn. now destruct (info_or_none p f). }
      split.
      + intros i f N. destruct (qt_names_beyond k i) as (-> & ->). unfold program_names. cbn [n_json n_enum]. rewrite K, N. split; [|reflexivity].
        now rewrite (json_written_own_qt c i f Ic N), (Ty i f N).
      + intro name. rewrite (json_read_own_qt c (pr_order p k) name Ic (order_positions ps qt p V Pr k c K)). unfold json_found_with_qt. rewrite Or.
        assert (E : forall l, find (fun i => JsonReadModel.same_bytes (n_json qt_program_names (library_size + k) i) name) l =
          find (fun i => JsonReadModel.same_bytes (match nth_error (g_fields c) i with Some f => json_name (g_id c) (m_number f) | None => [] end) name) l).
        { induction l as [|i l IH]; [reflexivity|]. cbn [find]. destruct (qt_names_beyond k i) as (-> & _). unfold program_names. cbn [n_json]. now rewrite K, IH. }
        rewrite E. destruct (find _ (pr_order p k)) as [i|] eqn:Ef; [|reflexivity]. cbn [option_map]. apply find_some in Ef as (I & _).
        pose proof (order_positions ps qt p V Pr k c K) as F. rewrite Forall_forall in F. specialize (F i I).
        destruct (nth_error (g_fields c) i) as [f|] eqn:N; [|apply nth_error_None in N; lia]. now rewrite (Ty i f N).
  Qed.

  (** What a schema with which the program runs is like. *)
  Context (lib : nat -> list nat) (sch : Values.schema) (nm : names) (qf : nat -> nat -> option kind) (R : json_runs_with_qt json_name p lib sch nm qf).

  Lemma json_runs_qt_binary : runs_with_qt p lib sch qf.
  Proof.
    destruct R as (Le & L & _ & RP & O). split; [exact Le|]. split; [intro k; split; apply L|]. split; [|exact O].
    intros k c K. destruct (RP k c K) as (Nu & Or & W & _). split; [exact Nu|]. split; [exact Or|].
    pose proof (nth_error_In _ _ K) as Ic. pose proof (class_valid ps qt p V Pr c Ic) as Vc. pose proof Vc as (ND & _). destruct (class_usable_qt c Ic) as (NC & _).
    rewrite ordering_numbers, descriptor_numbers in Nu. intro n. destruct (in_dec Z.eq_dec n (map m_number (g_fields c))) as [I | NI].
    - apply in_map_iff in I as (f & <- & I). apply In_nth_error in I as (i & N).
      destruct (W i f N) as (Wi & _). rewrite (json_written_own_qt c i f Ic N) in Wi.
      assert (Ty : info_or_none p f = (Values.f_ty (Values.field_at sch (library_size + k) i), qf (library_size + k) i)) by congruence.
      rewrite (found_at sch qf (library_size + k) i); [|now rewrite Nu | rewrite Nu; now apply map_nth_error]. rewrite <- Ty.
      rewrite (read_own_qt p c i f Vc N), (written_own_qt p c i f Vc NC N), (info_known c f Ic (nth_error_In _ _ N)). now split.
    - destruct (nothing_else_qt p c n NI) as (-> & ->). rewrite found_none; [now split | now rewrite Nu].
  Qed.

  Lemma json_runs_qt_names m i : n_json nm m i = n_json qt_program_names m i /\ n_enum nm m i = n_enum qt_program_names m i.
  Proof.
    destruct R as (_ & L & Out & RP & _). destruct (Nat.lt_ge_cases m library_size) as [Lm | Gm].
    - destruct (index_library m Lm) as (k & ->). unfold qt_program_names. cbn [n_json n_enum]. rewrite library_index. apply L.
    - set (k := m - library_size). assert (Em : m = library_size + k) by (unfold k; lia).
      destruct (nth_error (program_classes p) k) as [c|] eqn:K.
      + destruct (nth_error (g_fields c) i) as [f|] eqn:N.
        * destruct (RP k c K) as (_ & _ & W & _). destruct (W i f N) as (Wi & En). rewrite (json_written_own_qt c i f (nth_error_In _ _ K) N) in Wi.
          assert (E : json_name (g_id c) (m_number f) = n_json nm (library_size + k) i) by congruence. rewrite Em, En, <- E. destruct (qt_names_beyond k i) as (-> & ->). unfold program_names. cbn [n_json n_enum]. now rewrite K, N.
        * rewrite Em at 2 4. destruct (qt_names_beyond k i) as (-> & ->). unfold program_names. cbn [n_json n_enum]. rewrite K, N. apply Out; [exact Gm|].
          intros c' K'. fold k in K'. congruence.
      + rewrite Em at 2 4. destruct (qt_names_beyond k i) as (-> & ->). unfold program_names. cbn [n_json n_enum]. rewrite K. apply Out; [exact Gm|].
        intros c' K'. fold k in K'. congruence.
  Qed.

  Lemma field_enumerators_qt c f x : In c (program_classes p) -> In f (g_fields c) -> In x (enums_of ps) -> element_of (m_shape f) = Enu (e_id x) ->
    json_enumerators p f = map (fun v => (bytes_of (first_capital (fst v)), snd v)) (e_values x).
  Proof.
    intros Ic If Ix E. unfold json_enumerators. pose proof Pr as (_ & P & _). rewrite (json_fields ps qt _ _ P). destruct (class_usable_qt c Ic) as (_ & Fs).
    rewrite Forall_forall in Fs. pose proof (Fs f If) as Su. rewrite (classes_ps ps qt p V Pr) in Ic.
    rewrite (field_supported ps qt _ c f P Ic If Su). destruct (m_shape f) as [e|e|k v]; cbn in E |- *; subst; cbn; now apply (meta_enum_of json_name ps qt p J Pr).
  Qed.

  Lemma json_runs_qt_said : names_said json_name ps nm.
  Proof.
    split.
    { intros q l k i name Il Ik N. apply library_names in Ik. subst q.
      assert (El : l = library_json k).
      { destruct k; cbn in Il; repeat (destruct Il as [E | Il]; [discriminate E || (injection E as <-; reflexivity)|]); destruct Il. }
      subst l. destruct (json_runs_qt_names (index k) i) as (-> & _). cbn [qt_program_names n_json]. rewrite library_index.
      apply nth_error_nth. now apply map_nth_error. }
    intros k c i f K N. destruct (json_runs_qt_names (List.length qt_names + k) i) as (-> & ->). change (List.length qt_names) with library_size.
    destruct (qt_names_beyond k i) as (-> & ->). unfold program_names. cbn [n_json n_enum]. rewrite (classes_ps ps qt p V Pr), K, N.
    split; [reflexivity|]. intros x Ix E. apply (field_enumerators_qt c f x); auto; [rewrite (classes_ps ps qt p V Pr); exact (nth_error_In _ _ K) | exact (nth_error_In _ _ N)].
  Qed.

  Lemma json_runs_qt_ok : any_order lib -> JsonReadSpec.names_ok sch nm.
  Proof.
    intro LO. apply (names_ok_ext sch nm qt_program_names); [exact json_runs_qt_names|]. split; [|split].
    - intro m. pose proof R as (Le & L & _ & RP & _). destruct (Nat.lt_ge_cases m library_size) as [Lm | Gm].
      + destruct (index_library m Lm) as (k & ->). destruct (L k) as (_ & -> & _). cbn [qt_program_names n_json]. rewrite library_index.
        apply (Permutation_NoDup (Permutation_sym (Permutation_map _ (LO k)))). rewrite <- library_json_length, <- (map_length bytes_of), nth_all.
        apply library_json_distinct.
      + set (k := m - library_size). assert (Em : m = library_size + k) by (unfold k; lia). rewrite Em.
        rewrite (map_ext _ (n_json (program_names json_name p) k)) by (intro i; apply qt_names_beyond).
        destruct (nth_error (program_classes p) k) as [c|] eqn:K.
        * destruct (RP k c K) as (_ & -> & _). unfold program_names. cbn [n_json]. rewrite K.
          pose proof K as K'. rewrite (classes_ps ps qt p V Pr) in K'. pose proof Pr as (_ & _ & O). specialize (O k c K').
          apply (Permutation_NoDup (Permutation_sym (Permutation_map _ O))).
          destruct (class_names json_name ps qt p V J Pr c (nth_error_In _ _ K)) as (ND & _). revert ND. generalize (g_id c). intro id. generalize (g_fields c). clear.
          intro l. assert (E : map (fun i => match nth_error l i with Some f => json_name id (m_number f) | None => [] end) (seq 0 (List.length l))
                             = map (fun f => json_name id (m_number f)) l); [|now rewrite E].
          induction l as [|f l IH]; [reflexivity|]. cbn [List.length seq map nth_error]. f_equal. rewrite <- IH, <- seq_shift, map_map. reflexivity.
        * assert (Eo : Values.md_order (Values.msg_at sch (library_size + k)) = []).
          { unfold Values.msg_at. rewrite nth_overflow; [reflexivity|]. apply nth_error_None in K. lia. }
          rewrite Eo. constructor.
    - intros m i. cbn [qt_program_names n_json]. destruct (nth_error all_kinds m) as [kd|].
      + destruct (nth_in_or_default i (map bytes_of (library_json kd)) []) as [I | ->]; [|constructor].
        pose proof (library_json_plain kd) as F. rewrite Forall_forall in F. now apply F.
      + set (k := m - library_size). unfold program_names. cbn [n_json]. destruct (nth_error (program_classes p) k) as [c|] eqn:K; [|constructor].
        destruct (nth_error (g_fields c) i) as [f|] eqn:N; [|constructor]. destruct (class_names json_name ps qt p V J Pr c (nth_error_In _ _ K)) as (_ & F).
        rewrite Forall_forall in F. exact (F f (nth_error_In _ _ N)).
    - intros m i. cbn [qt_program_names n_enum]. destruct (nth_error all_kinds m) as [kd|]; [split; [constructor | intros ? []]|].
      set (k := m - library_size). unfold program_names. cbn [n_enum]. destruct (nth_error (program_classes p) k) as [c|] eqn:K; [|split; [constructor | intros ? []]].
      destruct (nth_error (g_fields c) i) as [f|] eqn:N; [|split; [constructor | intros ? []]].
      destruct (enumerators_from json_name ps qt p J Pr f) as [-> | (x & Ix & ->)]; [split; [constructor | intros ? []] | now apply (LinkJsonProofs.enum_names_ok json_name ps J)].
  Qed.

  Lemma json_runs_qt_enums : enums_small ps -> JsonTyped.enum_values nm.
  Proof.
    intros Sm m i q. destruct (json_runs_qt_names m i) as (_ & ->). cbn [qt_program_names n_enum]. destruct (nth_error all_kinds m) as [kd|]; [intros []|].
    set (k := m - library_size). unfold program_names. cbn [n_enum]. destruct (nth_error (program_classes p) k) as [c|] eqn:K; [|intros []].
    destruct (nth_error (g_fields c) i) as [f|] eqn:N; [|intros []].
    destruct (enumerators_from json_name ps qt p J Pr f) as [-> | (x & Ix & ->)]; [intros []|]. intro I. apply in_map_iff in I as (v & <- & Iv).
    unfold enums_small in Sm. rewrite Forall_forall in Sm. specialize (Sm x Ix). rewrite Forall_forall in Sm. exact (Sm v Iv).
  Qed.
End Program.

(** * Two programs *)

Section Two.
  Context (json_name : nat -> Z -> list Z) (ps : list proto) (qt qt' : list string) (p q : program) (lib lib' : nat -> list nat).
  Context (sch sch' : Values.schema) (nm nm' : names) (qf qf' : nat -> nat -> option kind).
  Context (V : files_valid ps) (J : json_valid json_name ps).
  Context (Pp : program_of ps qt p) (Lp : of_library qt) (Up : usable_with_qt ps qt (pr_qml p)) (Rp : json_runs_with_qt json_name p lib sch nm qf).
  Context (Pq : program_of ps qt' q) (Lq : of_library qt') (Uq : usable_with_qt ps qt' (pr_qml q)) (Rq : json_runs_with_qt json_name q lib' sch' nm' qf').

  Lemma two_enumerators_qt f c : In c (classes_of ps) -> In f (g_fields c) -> json_enumerators p f = json_enumerators q f.
  Proof.
    intros Ic If. pose proof Up as U1. pose proof Uq as U2. unfold usable_with_qt in U1, U2. rewrite Forall_forall in U1, U2.
    destruct (U1 c Ic) as (_ & S1). destruct (U2 c Ic) as (_ & S2). rewrite Forall_forall in S1, S2.
    unfold json_enumerators. destruct Pp as (Fp & Rgp & _). destruct Pq as (Fq & Rgq & _).
    rewrite (json_fields ps qt _ _ Rgp), (json_fields ps qt' _ _ Rgq), (field_supported ps qt _ c f Rgp Ic If (S1 f If)),
      (field_supported ps qt' _ c f Rgq Ic If (S2 f If)).
    assert (M : forall e, meta_enum p e = meta_enum q e) by (intro e; unfold meta_enum, declared_enums; now rewrite Fp, Fq).
    destruct (needed_handlers (m_shape f)) as [hs|]; [|reflexivity]. unfold handled_enumerators.
    destruct hs as [|h [|h' [|h'' [|]]]]; try reflexivity; destruct h; try apply M; try reflexivity; destruct h''; try apply M; reflexivity.
  Qed.

  Lemma two_names_qt m i : n_json nm m i = n_json nm' m i /\ n_enum nm m i = n_enum nm' m i.
  Proof.
    destruct (json_runs_qt_names json_name ps qt p V J Pp Lp Up lib sch nm qf Rp m i) as (-> & ->).
    destruct (json_runs_qt_names json_name ps qt' q V J Pq Lq Uq lib' sch' nm' qf' Rq m i) as (-> & ->).
    unfold qt_program_names. cbn [n_json n_enum]. destruct (nth_error all_kinds m) as [kd|]; [now split|].
    unfold program_names. cbn [n_json n_enum]. rewrite (classes_ps ps qt p V Pp), (classes_ps ps qt' q V Pq).
    destruct (nth_error (classes_of ps) (m - library_size)) as [c|] eqn:K; [|now split]. destruct (nth_error (g_fields c) i) as [f|] eqn:N; [|now split].
    split; [reflexivity|]. apply (two_enumerators_qt f c); [exact (nth_error_In _ _ K) | exact (nth_error_In _ _ N)].
  Qed.
End Two.

Lemma no_bool_fields ps sch qf : declared0 (classes_of ps) sch qf -> has_library sch ->
  Forall (fun c => Forall (fun f => forall e, m_shape f <> Assoc TBool e) (g_fields c)) (classes_of ps) ->
  forall m i e, Values.f_ty (Values.field_at sch m i) <> Values.FMap Values.TBool e.
Proof.
  intros (Le & D) L N m i e. destruct (Nat.lt_ge_cases m library_size) as [Lm | Gm].
  - destruct (index_library m Lm) as (k & ->). unfold Values.field_at. rewrite L. intro E.
    assert (B : forallb (fun x => match Values.f_ty x with Values.FMap _ _ => false | _ => true end) (number_from 1 (field_types k)) = true) by (destruct k; reflexivity).
    destruct (nth_in_or_default i (number_from 1 (field_types k)) Values.dummy_field) as [I | Eq].
    + rewrite forallb_forall in B. specialize (B _ I). rewrite E in B. discriminate.
    + rewrite Eq in E. discriminate.
  - set (k := m - library_size). assert (Em : m = library_size + k) by (unfold k; lia). clearbody k. subst m.
    destruct (le_lt_dec (List.length (Values.md_fields (Values.msg_at sch (library_size + k)))) i) as [Li | Li].
    { unfold Values.field_at. rewrite nth_overflow by exact Li. discriminate. }
    destruct (nth_error (classes_of ps) k) as [c|] eqn:K.
    + destruct (D k c K) as (Ln & F). rewrite Ln in Li. destruct (nth_error (g_fields c) i) as [f|] eqn:Nf; [|apply nth_error_None in Nf; lia].
      destruct (F i f Nf) as (_ & S). rewrite Forall_forall in N. specialize (N c (nth_error_In _ _ K)). rewrite Forall_forall in N.
      specialize (N f (nth_error_In _ _ Nf)). intro E. rewrite E in S. unfold said in S.
      destruct (m_shape f) as [[]|x|kt x]; try (destruct S as (_ & t1 & S & Et); destruct t1 as [[]|[]|? []]; try discriminate Et; inversion S; fail).
      * destruct S as (k0 & _ & _ & Et). discriminate Et.
      * apply (N x). f_equal. destruct S as (_ & t & S & Et). destruct t as [[]|[]|tk et]; try discriminate Et.
        assert (Ek : Values.TBool = tk) by (destruct et; now injection Et). subst tk.
        assert (Tk : same_type kt Values.TBool) by (inversion S; assumption). now inversion Tk.
    + exfalso. apply nth_error_None in K. unfold Values.msg_at in Li. rewrite nth_overflow in Li by lia. cbn in Li. lia.
Qed.

(** * Messages with which no program runs *)

Lemma does_not_run_json json_name ps qt p lib sch nm qf c : files_valid ps -> program_of ps qt p -> json_runs_with_qt json_name p lib sch nm qf ->
  In c (classes_of ps) -> names_fine (pr_qml p) c /\ forall f, In f (g_fields c) -> ~ ~ shape_supported ps qt (m_shape f).
Proof.
  intros V Pr R Ic. pose proof Ic as Ic'. rewrite <- (classes_ps ps qt p V Pr) in Ic'. pose proof (class_valid ps qt p V Pr c Ic') as Vc.
  apply In_nth_error in Ic' as (k & K). destruct R as (_ & _ & _ & RP & _). destruct (RP k c K) as (_ & _ & W & _).
  assert (G : forall i f, nth_error (g_fields c) i = Some f -> exists x,
    serialized_property (pr_qml p) (map descriptor_field (g_fields c)) (m_number f) = Some x /\ belongs_to x i /\ field_info p f <> None).
  { intros i f N. destruct (W i f N) as (Wi & _). unfold json_written_with_qt in Wi. destruct (table_name _) as [name|]; [|discriminate].
    destruct (serialized_property _ _ _) as [x|]; [|discriminate]. exists x. split; [reflexivity|].
    destruct (json_accessed_with_qt p c x) as [[j y]|] eqn:A; [|discriminate]. cbn [option_map] in Wi.
    assert (Ej : j = i) by congruence. subst j. unfold json_accessed_with_qt in A. destruct (p_access x) eqn:Ax; try discriminate.
    destruct (nth_error (g_fields c) (p_field x)) as [g|] eqn:Ng; [|discriminate]. pose proof Pr as (_ & P & _). rewrite (json_fields ps qt) in A by exact P.
    destruct (field_handlers (pr_registered p) (m_shape g)) as [hs|] eqn:H; [|discriminate].
    destruct (handled_with_qt p hs) as [t|] eqn:Ht; [|discriminate]. cbn [option_map] in A.
    assert (Ef : p_field x = i) by congruence. rewrite Ef in Ng. assert (g = f) by congruence. subst g. split; [now split|].
    unfold field_info. rewrite H, Ht. discriminate. }
  split.
  - apply names_fine_iff; [exact Vc|]. intro Cl. destruct (PropertiesGenerator.C28_clash_refuted (pr_qml p) _ (descriptor_valid c Vc) Cl) as (i & g & x & N & Sp & NB).
    rewrite nth_error_map in N. destruct (nth_error (g_fields c) i) as [f|] eqn:Nf; [|discriminate]. injection N as <-.
    rewrite descriptor_number in Sp. destruct (G i f Nf) as (x' & Sp' & B & _). rewrite Sp in Sp'. injection Sp' as <-. contradiction.
  - intros f If N. apply In_nth_error in If as (i & Nf). destruct (G i f Nf) as (_ & _ & _ & H). apply H.
    destruct Vc as (_ & _ & Fv). rewrite Forall_forall in Fv. destruct (Fv f (nth_error_In _ _ Nf)) as (_ & T).
    exact (field_info_none ps qt p c f Pr Ic (nth_error_In _ _ Nf) T N).
Qed.

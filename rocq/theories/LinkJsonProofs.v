(** Proofs about programs that use the JSON serializer. *)

From Coq Require Import String Ascii ZArith List Bool Arith Permutation Lia.
From Verif Require Values.
From Verif Require Import Base JsonSpec JsonModel JsonReadModel JsonReadSpec.
From Verif Require Import GenModel GenSpec GenTypesModel GenBodyModel GenTypesSpec GenClassSpec GenFields GenTypesProofs LinkModel LinkSpec LinkProofs
  LinkJsonModel LinkJsonSpec.
From Verif Require Import GenStrings.
From Verif Require JsonReadProofs.
Import ListNotations.
Open Scope nat_scope.

(** * Literals *)

Lemma digits_of_length is : forall n s, List.length (fst (digits_of n is s)) + List.length (snd (digits_of n is s)) = List.length s.
Proof.
  induction n as [|n IH]; intros [|c s]; try reflexivity. cbn. destruct (is c); [|reflexivity].
  specialize (IH s). destruct (digits_of n is s) as [a b]. cbn in *. lia.
Qed.

Lemma utf8_length c : 1 <= List.length (utf8 c) <= 4.
Proof. unfold utf8. repeat (match goal with |- context [if ?b then _ else _] => destruct b end); cbn; lia. Qed.

Lemma escaped_length s bs r : escaped s = Some (bs, r) -> List.length bs + List.length r <= List.length s /\ List.length r < List.length s.
Proof.
  destruct s as [|c s]; [discriminate|]. unfold escaped.
  repeat (match goal with |- context [if (c =? ?n)%Z then Some _ else _] => destruct (c =? n)%Z; [intro H; injection H as <- <-; cbn; lia|] end).
  destruct (octal c) eqn:Oc.
  { pose proof (digits_of_length octal 3 (c :: s)) as L.
    assert (P : 1 <= List.length (fst (digits_of 3 octal (c :: s)))).
    { cbn. rewrite Oc. destruct s as [|c' s]; cbn; [lia|]. destruct (octal c'); cbn; [|lia]. destruct s as [|c'' s]; cbn; [lia|]. destruct (octal c''); cbn; lia. }
    destruct (digits_of 3 octal (c :: s)) as [ds r0]. destruct (octal_value ds <? 256)%Z; [|discriminate]. intro H; injection H as <- <-. cbn in *. lia. }
  destruct (c =? 120)%Z.
  { pose proof (digits_of_length is_hex (List.length s) s) as L. destruct (digits_of _ is_hex s) as [ds r0]. destruct ds; [discriminate|].
    destruct (hex_value _ <? 256)%Z; [|discriminate]. intro H; injection H as <- <-. cbn in *. lia. }
  destruct (c =? 117)%Z.
  { pose proof (digits_of_length is_hex 4 s) as L. destruct (digits_of 4 is_hex s) as [ds r0]. destruct (Nat.eqb_spec (List.length ds) 4); [|discriminate].
    intro H; injection H as <- <-. pose proof (utf8_length (hex_value ds)). cbn in *. lia. }
  destruct (c =? 85)%Z.
  { pose proof (digits_of_length is_hex 8 s) as L. destruct (digits_of 8 is_hex s) as [ds r0]. destruct (Nat.eqb_spec (List.length ds) 8); cbn [andb]; [|discriminate].
    destruct (_ <? _)%Z; [|discriminate]. intro H; injection H as <- <-. pose proof (utf8_length (hex_value ds)). cbn in *. lia. }
  intro H; injection H as <- <-. cbn. lia.
Qed.

Definition whole (c : Z) : Prop := (c <> 34 /\ c <> 92 /\ c <> 10)%Z.

Lemma literal_length : forall n s r, literal n s = Some r -> (Forall whole s /\ r = s) \/ List.length r < List.length s.
Proof.
  induction n as [|n IH]; intros [|c s] r H; try (injection H as <-; left; split; constructor); [discriminate|].
  cbn [literal] in H. destruct (Z.eqb_spec c 34); [discriminate|]. destruct (Z.eqb_spec c 10); cbn [orb] in H; [discriminate|].
  destruct (Z.eqb_spec c 92).
  - destruct (escaped s) as [[bs r0]|] eqn:E; [|discriminate]. destruct (literal n r0) as [r1|] eqn:L; [|discriminate]. injection H as <-.
    apply escaped_length in E as (E & _). right. rewrite app_length. cbn. destruct (IH _ _ L) as [(_ & ->) | Lt]; lia.
  - destruct (literal n s) as [r1|] eqn:L; [|discriminate]. injection H as <-. destruct (IH _ _ L) as [(F & ->) | Lt]; [left | right; cbn; lia].
    split; [constructor; [unfold whole; auto | exact F] | reflexivity].
Qed.

Lemma literal_whole : forall s n, Forall whole s -> List.length s <= n -> literal n s = Some s.
Proof.
  induction s as [|c s IH]; intros n F L; [now destruct n|]. inversion F as [|? ? (A & B & C) F']; subst. destruct n as [|n]; [cbn in L; lia|]. cbn [literal].
  destruct (Z.eqb_spec c 34); [contradiction|]. destruct (Z.eqb_spec c 10); [contradiction|]. destruct (Z.eqb_spec c 92); [contradiction|].
  cbn [orb]. rewrite IH; [reflexivity | exact F' | cbn in L; lia].
Qed.

Lemma until_nul_length s : List.length (until_nul s) <= List.length s.
Proof. induction s as [|c s IH]; [auto|]. cbn. destruct (c =? 0)%Z; cbn; lia. Qed.

Lemma until_nul_same s : until_nul s = s <-> Forall (fun c => c <> 0%Z) s.
Proof.
  induction s as [|c s IH]; [now split|]. cbn. destruct (Z.eqb_spec c 0) as [-> | N].
  - split; [discriminate|]. intro F. now inversion F.
  - split.
    + intro H. injection H as H. constructor; [exact N | now apply IH].
    + intro F. inversion F; subst. f_equal. now apply IH.
Qed.

Lemma table_name_same s : table_name s = Some s <-> for_itself s.
Proof.
  unfold table_name, for_itself. split.
  - destruct (literal (List.length s) s) as [r|] eqn:L; [|discriminate]. intro H. injection H as H.
    destruct (literal_length _ _ _ L) as [(F & ->) | Lt].
    + apply until_nul_same in H. rewrite Forall_forall in *. intros c I. destruct (F c I) as (A & B & C). repeat split; auto.
    + pose proof (until_nul_length r) as U. rewrite H in U. lia.
  - intro F. rewrite literal_whole; [|revert F; apply Forall_impl; intros c (A & B & C & _); now split | lia]. cbn. f_equal. apply until_nul_same.
    revert F. apply Forall_impl. now intros c (_ & _ & _ & D).
Qed.

Lemma plain_for_itself s : Forall JsonSpec.plain s -> for_itself s.
Proof. apply Forall_impl. unfold JsonSpec.plain. intros c (A & B & C). repeat split; lia. Qed.

(** * Handlers *)

Lemma json_same_basic t : lookup_type json_handlers t = lookup_type basic_handlers t.
Proof.
  destruct t as [u|u|m|m|e|e|k v|k v|q|q]; try (destruct u; reflexivity).
  all: rewrite basic_none by exact Logic.I; apply lookup_not_in; intros h I; unfold json_handlers in I; rewrite in_app_iff, !in_map_iff in I;
    destruct I as [(u & E & _) | (u & E & _)]; discriminate.
Qed.

Lemma find_json ps qt regs t : Permutation regs (registrations ps qt) -> find_json_handler regs t = find_handler regs t.
Proof.
  intro P. unfold find_json_handler, find_handler. rewrite json_same_basic.
  destruct t as [u|u|m|m|e|e|k v|k v|q|q]; try (rewrite basic_none by exact Logic.I; now destruct (lookup_type regs _)).
  1, 2: rewrite (proj2 (lookup_registered ps qt regs _ P)); [now destruct (lookup_type basic_handlers _) | intros []].
Qed.

Lemma json_fields ps qt regs s : Permutation regs (registrations ps qt) -> json_field_handlers regs s = field_handlers regs s.
Proof.
  intro P. unfold json_field_handlers, field_handlers. rewrite !(find_json ps qt) by exact P. destruct s as [e|e|k v]; try reflexivity.
  rewrite !(find_json ps qt) by exact P.
  assert (K : find_handler regs (named (simple_full_type k)) = lookup_type basic_handlers (named (simple_full_type k))); [|now rewrite K].
  unfold find_handler. destruct (lookup_type basic_handlers _) eqn:E; [reflexivity|].
  assert (N : exists n, named (simple_full_type k) = CNone n) by (destruct k; try discriminate E; eexists; reflexivity).
  destruct N as (n & ->). apply (lookup_registered ps qt regs _ P). intros [].
Qed.

Section Program.
  Context (json_name : nat -> Z -> list Z) (ps : list proto) (qt : list string) (p : program).
  Context (V : files_valid ps) (J : json_valid json_name ps) (Pr : program_of ps qt p) (U : usable ps qt (pr_qml p)).

  Lemma json_accessed_same c x : json_accessed p c x = accessed p c x.
  Proof.
    unfold json_accessed, accessed. destruct (p_access x); try reflexivity. destruct (nth_error (g_fields c) (p_field x)) as [f|]; [|reflexivity].
    destruct Pr as (_ & P & _). now rewrite (json_fields ps qt).
  Qed.

  Lemma class_names c : In c (program_classes p) -> names_valid json_name c.
  Proof. intro I. destruct J as (F & _). rewrite Forall_forall in F. apply F. now rewrite <- (classes_ps ps qt p V Pr). Qed.

  Lemma class_usable c : In c (program_classes p) -> names_fine (pr_qml p) c /\ Forall (fun f => shape_supported ps qt (m_shape f) /\ no_qt (m_shape f)) (g_fields c).
  Proof. intro I. unfold usable in U. rewrite Forall_forall in U. apply U. now rewrite <- (classes_ps ps qt p V Pr). Qed.

  Lemma name_in_table c f : In c (program_classes p) -> In f (g_fields c) ->
    table_name (json_name (g_id c) (m_number f)) = Some (json_name (g_id c) (m_number f)).
  Proof.
    intros Ic If. destruct (class_names c Ic) as (_ & F). rewrite Forall_forall in F. apply table_name_same, plain_for_itself, F, If.
  Qed.

  Lemma json_written_own c i f : In c (program_classes p) -> nth_error (g_fields c) i = Some f ->
    json_written json_name p c f = Some (json_name (g_id c) (m_number f), (i, type_or_none p f)).
  Proof.
    intros Ic N. unfold json_written. rewrite (name_in_table c f Ic (nth_error_In _ _ N)). destruct (class_usable c Ic) as (NC & F).
    pose proof (written_own p c i f (class_valid ps qt p V Pr c Ic) NC N) as W. unfold written_as in W.
    rewrite Forall_forall in F. destruct (F f (nth_error_In _ _ N)) as (Su & Q). pose proof Ic as Ic'. rewrite (classes_ps ps qt p V Pr) in Ic'.
    destruct V as [ND _]. destruct (field_type_found ps qt p c f Pr ND Ic' (nth_error_In _ _ N) Su Q) as (t & T & _). unfold type_or_none.
    rewrite T in *. destruct (serialized_property _ _ _) as [x|]; [|discriminate]. now rewrite json_accessed_same, W.
  Qed.

  Lemma find_name_found c order name : In c (program_classes p) -> Forall (fun i => i < List.length (g_fields c)) order ->
    find_name json_name c order name
    = option_map (fun i => i + 1) (find (fun i => JsonReadModel.same_bytes (match nth_error (g_fields c) i with Some f => json_name (g_id c) (m_number f) | None => [] end) name) order).
  Proof.
    intros Ic F. induction F as [|i order Hi F IH]; [reflexivity|]. cbn [find_name find].
    destruct (nth_error (g_fields c) i) as [f|] eqn:N; [|apply nth_error_None in N; lia].
    rewrite (name_in_table c f Ic (nth_error_In _ _ N)). destruct (JsonReadModel.same_bytes _ name); [reflexivity | exact IH].
  Qed.

  Lemma json_read_own c order name : In c (program_classes p) -> Forall (fun i => i < List.length (g_fields c)) order ->
    json_read json_name p c order name
    = option_map (fun i => (i, match nth_error (g_fields c) i with Some f => type_or_none p f | None => Values.FSing (Values.ES Values.TInt32) end))
        (find (fun i => JsonReadModel.same_bytes (match nth_error (g_fields c) i with Some f => json_name (g_id c) (m_number f) | None => [] end) name) order).
  Proof.
    intros Ic F. unfold json_read. rewrite find_name_found by assumption. destruct (find _ order) as [i|] eqn:E; [|reflexivity]. cbn [option_map].
    apply find_some in E as (I & _). rewrite Forall_forall in F. specialize (F i I).
    destruct (nth_error (g_fields c) i) as [f|] eqn:N; [|apply nth_error_None in N; lia].
    pose proof (class_valid ps qt p V Pr c Ic) as Vc. pose proof (read_own p c i f Vc N) as R. unfold read_as, deserialized_property in R.
    assert (Fn : find_number (m_number f) (fields_ordering 0 (map descriptor_field (g_fields c))) = Some (i + 1)).
    { destruct Vc as (ND & _). clear - ND N. assert (G : forall l k i, NoDup (map m_number l) -> nth_error l i = Some f ->
        find_number (m_number f) (fields_ordering k (map descriptor_field l)) = Some (k + i + 1)).
      { induction l as [|g l IH]; intros k j D Nj; [destruct j; discriminate|]. cbn [map fields_ordering find_number]. rewrite descriptor_number.
        cbn in D. inversion D as [|? ? Ng D']; subst. destruct j as [|j]; cbn in Nj.
        - injection Nj as ->. rewrite Z.eqb_refl. f_equal. lia.
        - destruct (Z.eqb_spec (m_number g) (m_number f)) as [Eq | Ne].
          + exfalso. apply Ng. rewrite Eq. apply in_map. exact (nth_error_In _ _ Nj).
          + rewrite (IH (Datatypes.S k) j D' Nj). f_equal. lia. }
      apply (G (g_fields c) 0 i ND N). }
    rewrite Fn in R. destruct (class_usable c Ic) as (_ & Fs). rewrite Forall_forall in Fs. destruct (Fs f (nth_error_In _ _ N)) as (Su & Q).
    pose proof Ic as Ic'. rewrite (classes_ps ps qt p V Pr) in Ic'.
    destruct V as [ND _]. destruct (field_type_found ps qt p c f Pr ND Ic' (nth_error_In _ _ N) Su Q) as (t & T & _). unfold type_or_none. rewrite T in *.
    destruct (meta_property _ _) as [x|]; [|discriminate]. now rewrite json_accessed_same, R.
  Qed.

  Definition program_names : names :=
    mkNames (fun k i => match nth_error (program_classes p) k with
                        | Some c => match nth_error (g_fields c) i with Some f => json_name (g_id c) (m_number f) | None => [] end
                        | None => [] end)
            (fun k i => match nth_error (program_classes p) k with
                        | Some c => match nth_error (g_fields c) i with Some f => json_enumerators p f | None => [] end
                        | None => [] end).

  Lemma order_positions k c : nth_error (program_classes p) k = Some c -> Forall (fun i => i < List.length (g_fields c)) (pr_order p k).
  Proof.
    intro K. rewrite Forall_forall. intros i I. destruct Pr as (_ & _ & O). pose proof (classes_ps ps qt p V Pr) as Ec. rewrite Ec in K.
    specialize (O k c K). apply (Permutation_in _ O) in I. apply in_seq in I. lia.
  Qed.

  Lemma json_runs : json_runs_as json_name p (program_schema p) program_names.
  Proof.
    pose proof (runs ps qt p V Pr U) as (Le & R). split; [exact Le|]. split.
    { intros k i N. unfold program_names. cbn. destruct (nth_error (program_classes p) k) as [c|] eqn:K; [|now split]. now rewrite (N c eq_refl). }
    intros k c K. destruct (R k c K) as (Nu & Or & _). split; [exact Nu|]. split; [exact Or|]. pose proof (nth_error_In _ _ K) as Ic.
    assert (Ty : forall i f, nth_error (g_fields c) i = Some f -> Values.f_ty (Values.field_at (program_schema p) k i) = type_or_none p f).
    { intros i f N. unfold Values.field_at. rewrite (program_schema_at p k c K). cbn [class_desc Values.md_fields].
      now rewrite (nth_error_nth _ _ Values.dummy_field (map_nth_error (fun f => Values.mkField (m_number f) (type_or_none p f)) i (g_fields c) N)). }
    split.
    - intros i f N. unfold program_names. cbn [n_json n_enum]. rewrite K, N. split; [|reflexivity]. now rewrite (json_written_own c i f Ic N), (Ty i f N).
    - intro name. rewrite (json_read_own c (pr_order p k) name Ic (order_positions k c K)). unfold json_found. rewrite Or. cbn [program_names n_json]. rewrite K.
      destruct (find _ (pr_order p k)) as [i|] eqn:E; [|reflexivity]. cbn. apply find_some in E as (I & _).
      pose proof (order_positions k c K) as F. rewrite Forall_forall in F. specialize (F i I).
      destruct (nth_error (g_fields c) i) as [f|] eqn:N; [|apply nth_error_None in N; lia]. now rewrite (Ty i f N).
  Qed.

  (** A schema with which the program runs. *)
  Lemma json_runs_binary sch nm : json_runs_as json_name p sch nm -> runs_as p sch.
  Proof.
    intros (Le & _ & R). split; [exact Le|]. intros k c K. destruct (R k c K) as (Nu & Or & W & _). split; [exact Nu|]. split; [exact Or|].
    pose proof (nth_error_In _ _ K) as Ic. pose proof (class_valid ps qt p V Pr c Ic) as Vc. pose proof Vc as (ND & _). destruct (class_usable c Ic) as (NC & _).
    rewrite ordering_numbers, descriptor_numbers in Nu. intro n. destruct (in_dec Z.eq_dec n (map m_number (g_fields c))) as [I | NI].
    - apply in_map_iff in I as (f & <- & I). apply In_nth_error in I as (i & N).
      destruct (W i f N) as (Wi & _). rewrite (json_written_own c i f Ic N) in Wi. injection Wi as _ Ty.
      rewrite (looked_up_at sch k i); [|now rewrite Nu | rewrite Nu; now apply map_nth_error]. rewrite <- Ty.
      rewrite (read_own p c i f Vc N), (written_own p c i f Vc NC N). destruct (class_usable c Ic) as (_ & Fs). rewrite Forall_forall in Fs.
      destruct (Fs f (nth_error_In _ _ N)) as (Su & Q). pose proof Ic as Ic'. rewrite (classes_ps ps qt p V Pr) in Ic'. destruct V as [NDi _].
      destruct (field_type_found ps qt p c f Pr NDi Ic' (nth_error_In _ _ N) Su Q) as (t & T & _). unfold type_or_none. rewrite T. now split.
    - destruct (nothing_else p c n NI) as (-> & ->). rewrite looked_up_none; [now split | now rewrite Nu].
  Qed.

  Lemma json_runs_names sch nm : json_runs_as json_name p sch nm -> forall k i, n_json nm k i = n_json program_names k i /\ n_enum nm k i = n_enum program_names k i.
  Proof.
    intros (_ & Out & R) k i. unfold program_names. cbn [n_json n_enum]. destruct (nth_error (program_classes p) k) as [c|] eqn:K.
    - destruct (nth_error (g_fields c) i) as [f|] eqn:N.
      + destruct (R k c K) as (_ & _ & W & _). destruct (W i f N) as (Wi & ->). rewrite (json_written_own c i f (nth_error_In _ _ K) N) in Wi.
        injection Wi as E _. now rewrite <- E.
      + apply Out. intros c' K'. congruence.
    - apply Out. intros c' K'. congruence.
  Qed.

  Lemma declared_enums_of : declared_enums p = enums_of ps.
  Proof using Pr. destruct Pr as (E & _). unfold declared_enums, enums_of. now rewrite E. Qed.

  Lemma meta_enum_of x : In x (enums_of ps) -> meta_enum p (e_id x) = map (fun v => (bytes_of (first_capital (fst v)), snd v)) (e_values x).
  Proof using J Pr.
    intro I. unfold meta_enum. rewrite declared_enums_of. destruct J as (_ & ND & _).
    assert (F : find (fun y => Nat.eqb (e_id y) (e_id x)) (enums_of ps) = Some x).
    { revert I ND. generalize (enums_of ps). induction l as [|y l IH]; intros I ND; [destruct I|]. cbn in ND. inversion ND as [|? ? Ny ND']; subst. cbn.
      destruct (Nat.eqb_spec (e_id y) (e_id x)) as [E | N].
      - destruct I as [-> | I]; [reflexivity|]. exfalso. apply Ny. rewrite E. now apply in_map.
      - destruct I as [-> | I]; [congruence | now apply IH]. }
    rewrite F. unfold enumerators. rewrite map_map. apply map_ext. intro v. cbn. now rewrite first_capital_eq.
  Qed.

  Lemma field_enumerators c f x : In c (program_classes p) -> In f (g_fields c) -> In x (enums_of ps) -> element_of (m_shape f) = Enu (e_id x) ->
    json_enumerators p f = map (fun v => (bytes_of (first_capital (fst v)), snd v)) (e_values x).
  Proof.
    intros Ic If Ix E. unfold json_enumerators. destruct Pr as (_ & P & _). rewrite (json_fields ps qt _ _ P). destruct (class_usable c Ic) as (_ & Fs).
    rewrite Forall_forall in Fs. destruct (Fs f If) as (Su & _). rewrite (classes_ps ps qt p V Pr) in Ic.
    rewrite (field_supported ps qt _ c f P Ic If Su). destruct (m_shape f) as [e|e|k v]; cbn in E |- *; subst; cbn; now apply meta_enum_of.
  Qed.

  (** Every list of enumerators is that of an enumeration of the files. *)
  Lemma enumerators_from f : json_enumerators p f = [] \/
    exists x, In x (enums_of ps) /\ json_enumerators p f = map (fun v => (bytes_of (first_capital (fst v)), snd v)) (e_values x).
  Proof using J Pr.
    assert (M : forall e, meta_enum p e = [] \/ exists x, In x (enums_of ps) /\ meta_enum p e = map (fun v => (bytes_of (first_capital (fst v)), snd v)) (e_values x)).
    { intro e. destruct (find (fun y => Nat.eqb (e_id y) e) (enums_of ps)) as [x|] eqn:F.
      - right. apply find_some in F as (I & E). apply Nat.eqb_eq in E as <-. exists x. split; [exact I | now apply meta_enum_of].
      - left. unfold meta_enum. now rewrite declared_enums_of, F. }
    unfold json_enumerators. destruct (json_field_handlers _ _) as [hs|]; [|now left]. unfold handled_enumerators.
    destruct hs as [|h [|h' [|h'' [|]]]]; try (now left); destruct h; try (now left); try apply M; destruct h''; try (now left); apply M.
  Qed.

  Lemma bytes_of_inj : forall a b, bytes_of a = bytes_of b -> a = b.
  Proof using.
    induction a as [|x a IH]; intros [|y b] H; try discriminate; [reflexivity|]. cbn in H. injection H as Hx Hb. f_equal; [|now apply IH].
    apply Nat2Z.inj in Hx. rewrite <- (ascii_nat_embedding x), <- (ascii_nat_embedding y). now f_equal.
  Qed.

  Lemma name_char_in c : name_char c <-> In c (small_letters ++ capital_letters ++ digits ++ ["_"%char])%list.
  Proof using. unfold name_char. rewrite !in_app_iff. cbn [In]. intuition auto. Qed.

  Lemma name_char_plain c : name_char c -> JsonSpec.plain (Z.of_nat (nat_of_ascii c)).
  Proof using.
    rewrite name_char_in. intro I. assert (F : Forall (fun c => JsonSpec.plain (Z.of_nat (nat_of_ascii c))) (small_letters ++ capital_letters ++ digits ++ ["_"%char])%list).
    { unfold JsonSpec.plain. cbn. repeat (apply Forall_cons; [cbn; lia|]). apply Forall_nil. }
    rewrite Forall_forall in F. now apply F.
  Qed.

  Lemma name_char_capital c : name_char c -> name_char (to_capital c).
  Proof using.
    rewrite !name_char_in. intro I.
    assert (F : Forall (fun c => In (to_capital c) (small_letters ++ capital_letters ++ digits ++ ["_"%char])%list) (small_letters ++ capital_letters ++ digits ++ ["_"%char])%list).
    { assert (B : forallb (fun c => existsb (Ascii.eqb (to_capital c)) (small_letters ++ capital_letters ++ digits ++ ["_"%char])%list)
                    (small_letters ++ capital_letters ++ digits ++ ["_"%char])%list = true) by reflexivity.
      rewrite Forall_forall. intros d D. rewrite forallb_forall in B. specialize (B d D). apply existsb_exists in B as (e & Ie & E).
      apply Ascii.eqb_eq in E as ->. exact Ie. }
    rewrite Forall_forall in F. now apply F.
  Qed.

  Lemma identifier_plain s : Forall name_char (list_ascii_of_string s) -> Forall JsonSpec.plain (bytes_of s).
  Proof using.
    induction s as [|c s IH]; intro F; [constructor|]. cbn in F |- *. inversion F as [|? ? Hc Hs]; subst. constructor; [now apply name_char_plain | now apply IH].
  Qed.

  Lemma capital_chars s : Forall name_char (list_ascii_of_string s) -> Forall name_char (list_ascii_of_string (first_capital s)).
  Proof using. destruct s as [|c s]; [auto|]. cbn. intro F. inversion F; subst. constructor; [now apply name_char_capital | assumption]. Qed.

  Lemma enum_names_ok x : In x (enums_of ps) ->
    NoDup (map fst (map (fun v => (bytes_of (first_capital (fst v)), snd v)) (e_values x)))
    /\ forall q, In q (map (fun v => (bytes_of (first_capital (fst v)), snd v)) (e_values x)) -> Forall JsonSpec.plain (fst q) /\ fst q <> [] /\ fst q <> bytes_of "null".
  Proof using J.
    intro I. destruct J as (_ & _ & F). rewrite Forall_forall in F. destruct (F x I) as (ND & Id). split.
    - rewrite map_map. cbn. rewrite <- (map_map (fun v => first_capital (fst v)) bytes_of).
      revert ND. generalize (map (fun v : string * Z => first_capital (fst v)) (e_values x)). induction l as [|a l IH]; intro ND; [constructor|].
      inversion ND; subst. cbn. constructor; [|now apply IH]. intro H. apply in_map_iff in H as (b & E & Ib). apply bytes_of_inj in E as ->. contradiction.
    - intros q Iq. apply in_map_iff in Iq as (v & <- & Iv). cbn. rewrite Forall_forall in Id. destruct (Id v Iv) as (c & s & E & _ & Ch). split; [|split].
      + apply identifier_plain, capital_chars. exact Ch.
      + rewrite E, first_capital_eq. discriminate.
      + rewrite E, first_capital_eq. clear. destruct c as [[] [] [] [] [] [] [] []]; cbn; discriminate.
  Qed.

  Lemma program_names_ok : JsonReadSpec.names_ok (program_schema p) program_names.
  Proof.
    split; [|split].
    - intro k. destruct (nth_error (program_classes p) k) as [c|] eqn:K.
      + rewrite (program_schema_at p k c K). cbn [class_desc Values.md_order program_names n_json]. rewrite K.
        pose proof K as K'. rewrite (classes_ps ps qt p V Pr) in K'. destruct Pr as (_ & _ & O). specialize (O k c K').
        apply (Permutation_NoDup (Permutation_sym (Permutation_map _ O))).
        destruct (class_names c (nth_error_In _ _ K)) as (ND & _). revert ND. generalize (g_id c). intro id. generalize (g_fields c). clear.
        intro l. assert (E : map (fun i => match nth_error l i with Some f => json_name id (m_number f) | None => [] end) (seq 0 (List.length l))
                           = map (fun f => json_name id (m_number f)) l); [|now rewrite E].
        induction l as [|f l IH]; [reflexivity|]. cbn [List.length seq map nth_error]. f_equal. rewrite <- IH, <- seq_shift, map_map. reflexivity.
      + assert (Eo : Values.md_order (Values.msg_at (program_schema p) k) = []).
        { unfold Values.msg_at. rewrite nth_overflow; [reflexivity|]. unfold program_schema. rewrite descs_length. now apply nth_error_None. }
        rewrite Eo. constructor.
    - intros k i. cbn [program_names n_json]. destruct (nth_error (program_classes p) k) as [c|] eqn:K; [|constructor].
      destruct (nth_error (g_fields c) i) as [f|] eqn:N; [|constructor]. destruct (class_names c (nth_error_In _ _ K)) as (_ & F).
      rewrite Forall_forall in F. exact (F f (nth_error_In _ _ N)).
    - intros k i. cbn [program_names n_enum]. destruct (nth_error (program_classes p) k) as [c|] eqn:K; [|split; [constructor | intros ? []]].
      destruct (nth_error (g_fields c) i) as [f|] eqn:N; [|split; [constructor | intros ? []]].
      destruct (enumerators_from f) as [-> | (x & Ix & ->)]; [split; [constructor | intros ? []] | now apply enum_names_ok].
  Qed.

  Lemma names_ok_ext sch nm nm' : (forall k i, n_json nm k i = n_json nm' k i /\ n_enum nm k i = n_enum nm' k i) -> JsonReadSpec.names_ok sch nm' -> JsonReadSpec.names_ok sch nm.
  Proof.
    intros E (A & B & C). split; [|split].
    - intro m. rewrite (map_ext _ (n_json nm' m)); [apply A | intro i; apply E].
    - intros m i. destruct (E m i) as (-> & _). apply B.
    - intros m i. destruct (E m i) as (_ & ->). apply C.
  Qed.

  Lemma runs_schema_order sch nm k : json_runs_as json_name p sch nm -> Values.md_order (Values.msg_at sch k) = Values.md_order (Values.msg_at (program_schema p) k).
  Proof.
    intros (Le & _ & R). destruct (nth_error (program_classes p) k) as [c|] eqn:K.
    - destruct (R k c K) as (_ & -> & _). now rewrite (program_schema_at p k c K).
    - unfold Values.msg_at. apply nth_error_None in K. rewrite !nth_overflow; [reflexivity | unfold program_schema; now rewrite descs_length | lia].
  Qed.

  Lemma json_runs_ok sch nm : json_runs_as json_name p sch nm -> JsonReadSpec.names_ok sch nm.
  Proof.
    intro R. apply (names_ok_ext sch nm program_names); [exact (json_runs_names sch nm R)|]. destruct program_names_ok as (A & B & C).
    split; [|now split]. intro m. rewrite (runs_schema_order sch nm m R). apply A.
  Qed.

  Lemma json_runs_say sch nm : json_runs_as json_name p sch nm -> names_say json_name ps nm.
  Proof.
    intros R k c i f K N. destruct (json_runs_names sch nm R k i) as (-> & ->). cbn [program_names n_json n_enum]. rewrite (classes_ps ps qt p V Pr), K, N.
    split; [reflexivity|]. intros x Ix E. apply (field_enumerators c f x); auto; [rewrite (classes_ps ps qt p V Pr); exact (nth_error_In _ _ K) | exact (nth_error_In _ _ N)].
  Qed.
End Program.

(** * The order of the table does not matter to the reader *)

Section ReadCongruence.
  Context (mj : microjson) (conv : conversions) (a b : Values.schema) (na nb : names).
  Context (Sf : same_fields a b) (Sn : forall m i, n_enum na m i = n_enum nb m i).
  Context (Fi : forall m name, find (fun i => JsonReadModel.same_bytes (n_json na m i) name) (Values.md_order (Values.msg_at a m))
                             = find (fun i => JsonReadModel.same_bytes (n_json nb m i) name) (Values.md_order (Values.msg_at b m))).

  Section Rec.
    Context (ra rb : nat -> list Z -> res (list Values.value)) (E : forall m d, ra m d = rb m d).

    Lemma read_messages_congr n : forall m s acc, read_messages mj ra n m s acc = read_messages mj rb n m s acc.
    Proof.
      induction n as [|n IH]; intros m s acc; [reflexivity|]. cbn [read_messages]. destruct s; [reflexivity|].
      destruct (extractValue mj _ 93) as [[i v]|]; [|reflexivity]. rewrite E. destruct (rb m (snd v)); cbn; try reflexivity.
      destruct (_ <=? _); [apply IH | reflexivity].
    Qed.

    Lemma read_pairs_congr n : forall en k e s acc, read_pairs mj conv ra n en k e s acc = read_pairs mj conv rb n en k e s acc.
    Proof.
      induction n as [|n IH]; intros en k e s acc; [reflexivity|]. cbn [read_pairs]. destruct s; [reflexivity|].
      destruct (extractProperty mj _ 125) as [[i [name v]]|]; [|reflexivity].
      assert (V : read_entry_value conv ra en e v = read_entry_value conv rb en e v).
      { unfold read_entry_value. destruct e; [reflexivity|]. destruct (snd v); [reflexivity | now rewrite E]. }
      rewrite V. destruct (read_entry_value conv rb en e v); cbn; try reflexivity. destruct (_ <=? _); [apply IH | reflexivity].
    Qed.

    Lemma read_value_congr n m i v : read_value mj conv a na ra n m i v = read_value mj conv b nb rb n m i v.
    Proof.
      unfold read_value. unfold Values.field_at. rewrite Sf, Sn. destruct (Values.f_ty _) as [[t|m']|[t|m']|k e]; try reflexivity;
        destruct (snd v); try reflexivity; [rewrite E | rewrite read_messages_congr | rewrite read_pairs_congr]; reflexivity.
    Qed.

    Lemma read_members_congr n m : forall l obj, read_members mj conv a na ra n m l obj = read_members mj conv b nb rb n m l obj.
    Proof.
      induction l as [|[name v] l IH]; intro obj; [reflexivity|]. cbn [read_members]. rewrite Fi.
      destruct (find _ (Values.md_order (Values.msg_at b m))) as [i|]; [|apply IH].
      rewrite read_value_congr. unfold Values.field_at. rewrite Sf. destruct (_ && _); [apply IH|].
      destruct (read_value mj conv b nb rb n m i v) as [x| | |]; cbn; try reflexivity. destruct (snd x); apply IH.
    Qed.
  End Rec.

  Lemma read_object_congr fuel : forall m data obj, read_object fuel mj conv a na m data obj = read_object fuel mj conv b nb m data obj.
  Proof.
    induction fuel as [|fuel IH]; intros m data obj; [reflexivity|]. cbn [read_object]. apply read_members_congr. intros m' d. rewrite IH.
    unfold Values.default_obj. now rewrite Sf.
  Qed.
End ReadCongruence.

Lemma find_permuted {A} (f : A -> bool) : forall a b : list A, Permutation a b ->
  (forall x y, In x a -> In y a -> f x = true -> f y = true -> x = y) -> find f a = find f b.
Proof.
  intros a b P U. destruct (find f a) as [x|] eqn:Ea; destruct (find f b) as [y|] eqn:Eb; try reflexivity.
  - apply find_some in Ea as (Ia & Fa). apply find_some in Eb as (Ib & Fb). f_equal. apply U; auto. now apply (Permutation_in _ (Permutation_sym P)).
  - apply find_some in Ea as (Ia & Fa). rewrite (find_none _ _ Eb x) in Fa; [discriminate|]. now apply (Permutation_in _ P).
  - apply find_some in Eb as (Ib & Fb). rewrite (find_none _ _ Ea y) in Fb; [discriminate|]. now apply (Permutation_in _ (Permutation_sym P)).
Qed.

Lemma nodup_map_inj {A B} (f : A -> B) : forall l x y, NoDup (map f l) -> In x l -> In y l -> f x = f y -> x = y.
Proof.
  induction l as [|z l IH]; intros x y N Ix Iy E; [destruct Ix|]. cbn in N. inversion N as [|? ? Nz N']; subst.
  destruct Ix as [-> | Ix], Iy as [-> | Iy]; [reflexivity | | | now apply IH].
  - exfalso. apply Nz. rewrite E. now apply in_map.
  - exfalso. apply Nz. rewrite <- E. now apply in_map.
Qed.

(** * Two programs from the same files *)

Section Two.
  Context (json_name : nat -> Z -> list Z) (ps : list proto) (qt qt' : list string) (p q : program) (sch sch' : Values.schema) (nm nm' : names).
  Context (V : files_valid ps) (J : json_valid json_name ps).
  Context (Pp : program_of ps qt p) (Up : usable ps qt (pr_qml p)) (Rp : json_runs_as json_name p sch nm).
  Context (Pq : program_of ps qt' q) (Uq : usable ps qt' (pr_qml q)) (Rq : json_runs_as json_name q sch' nm').

  Lemma two_fields : same_fields sch sch'.
  Proof.
    destruct V as [ND _]. apply (says_same_fields (classes_of ps)); [exact ND | |].
    - apply (runs_says ps qt p V Pp); [|exact Up]. now apply (json_runs_binary json_name ps qt p V J Pp Up sch nm).
    - apply (runs_says ps qt' q V Pq); [|exact Uq]. now apply (json_runs_binary json_name ps qt' q V J Pq Uq sch' nm').
  Qed.

  Lemma two_enumerators f c : In c (classes_of ps) -> In f (g_fields c) -> json_enumerators p f = json_enumerators q f.
  Proof.
    intros Ic If. pose proof Up as U1. pose proof Uq as U2. unfold usable in U1, U2. rewrite Forall_forall in U1, U2.
    destruct (U1 c Ic) as (_ & S1). destruct (U2 c Ic) as (_ & S2). rewrite Forall_forall in S1, S2. destruct (S1 f If) as (S1' & _). destruct (S2 f If) as (S2' & _).
    unfold json_enumerators. destruct Pp as (Fp & Rgp & _). destruct Pq as (Fq & Rgq & _).
    rewrite (json_fields ps qt _ _ Rgp), (json_fields ps qt' _ _ Rgq), (field_supported ps qt _ c f Rgp Ic If S1'), (field_supported ps qt' _ c f Rgq Ic If S2').
    assert (M : forall e, meta_enum p e = meta_enum q e) by (intro e; unfold meta_enum, declared_enums; now rewrite Fp, Fq).
    destruct (needed_handlers (m_shape f)) as [hs|]; [|reflexivity]. unfold handled_enumerators. destruct hs as [|h [|h' [|h'' [|]]]]; try reflexivity; destruct h; try apply M; try reflexivity;
      destruct h''; try apply M; reflexivity.
  Qed.

  Lemma two_names k i : n_json nm k i = n_json nm' k i /\ n_enum nm k i = n_enum nm' k i.
  Proof.
    destruct (json_runs_names json_name ps qt p V J Pp Up sch nm Rp k i) as (-> & ->). destruct (json_runs_names json_name ps qt' q V J Pq Uq sch' nm' Rq k i) as (-> & ->).
    unfold program_names. cbn [n_json n_enum]. rewrite (classes_ps ps qt p V Pp), (classes_ps ps qt' q V Pq).
    destruct (nth_error (classes_of ps) k) as [c|] eqn:K; [|now split]. destruct (nth_error (g_fields c) i) as [f|] eqn:N; [|now split].
    split; [reflexivity|]. apply (two_enumerators f c); [exact (nth_error_In _ _ K) | exact (nth_error_In _ _ N)].
  Qed.

  Lemma two_orders k : Permutation (Values.md_order (Values.msg_at sch k)) (Values.md_order (Values.msg_at sch' k)).
  Proof.
    rewrite (runs_schema_order json_name p sch nm k Rp), (runs_schema_order json_name q sch' nm' k Rq).
    destruct (nth_error (classes_of ps) k) as [c|] eqn:K.
    - rewrite (program_schema_at p k c), (program_schema_at q k c); [|now rewrite (classes_ps ps qt' q V Pq) | now rewrite (classes_ps ps qt p V Pp)].
      cbn [class_desc Values.md_order]. destruct Pp as (_ & _ & Op). destruct Pq as (_ & _ & Oq).
      eapply Permutation_trans; [exact (Op k c K) | exact (Permutation_sym (Oq k c K))].
    - apply nth_error_None in K. unfold Values.msg_at. rewrite !nth_overflow; [constructor | |]; unfold program_schema; rewrite descs_length;
        [now rewrite (classes_ps ps qt' q V Pq) | now rewrite (classes_ps ps qt p V Pp)].
  Qed.

  Lemma two_find m name : find (fun i => JsonReadModel.same_bytes (n_json nm m i) name) (Values.md_order (Values.msg_at sch m))
                        = find (fun i => JsonReadModel.same_bytes (n_json nm' m i) name) (Values.md_order (Values.msg_at sch' m)).
  Proof.
    assert (E : forall l, find (fun i => JsonReadModel.same_bytes (n_json nm' m i) name) l = find (fun i => JsonReadModel.same_bytes (n_json nm m i) name) l).
    { induction l as [|i l IH]; [reflexivity|]. cbn. destruct (two_names m i) as (-> & _). now rewrite IH. }
    rewrite E. apply find_permuted; [apply two_orders|]. intros x y Ix Iy Hx Hy. apply JsonReadProofs.same_bytes_spec in Hx, Hy.
    destruct (json_runs_ok json_name ps qt p V J Pp Up sch nm Rp) as (ND & _). apply (nodup_map_inj _ _ x y (ND m) Ix Iy). congruence.
  Qed.

  Lemma two_read mj conv fuel m data obj : read_object fuel mj conv sch nm m data obj = read_object fuel mj conv sch' nm' m data obj.
  Proof. apply read_object_congr; [exact two_fields | intros; apply two_names | intros; apply two_find]. Qed.
End Two.

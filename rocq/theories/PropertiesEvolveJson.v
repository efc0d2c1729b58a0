(** Property C94: programs with different versions of a schema understand each other's JSON texts. *)

From Coq Require Import String ZArith List Bool Arith Lia.
From Verif Require Values.
From Verif Require Import Base WireSpec MessageSpec JsonSpec JsonModel JsonReadModel JsonReadSpec JsonScan PropertiesJson PropertiesJsonRead.
From Verif Require Import JsonProofs JsonReadFacts JsonReadProofs EvolveJsonSpec EvolveJsonProofs.
From Verif Require Import GenModel GenSpec GenTypesModel GenTypesSpec LinkModel LinkSpec LinkProofs LinkJsonModel LinkJsonSpec LinkJsonProofs PropertiesLink PropertiesLinkJson.
Import ListNotations.
Open Scope nat_scope.
Open Scope string_scope.

(** * Two schemas *)

(** What a program with the schema [sch] and the names [nm] writes for the message [obj] is read by a program with another schema and other names, into an object with
    the values [base], as a message [r'] that [reads_object] allows: fields are matched by their JSON names and enumerators by theirs, integers may have another
    type that has the value, other fields keep their values, at any depth of nesting, in lists and in maps.
    Missing: values for which C60_round_trip_partial says nothing either; integers and enumerators that do not exist in the other version (see C60_number_refuted and
    C60_enum_refuted: they become 0 and -1). *)
Theorem C94_reads_partial : forall mj ok conv sch nm fm sch' nm' m m' base obj r' t,
  right_on mj ok -> (forall t, ok t -> quotes_only t) ->
  JsonReadSpec.names_ok sch nm -> schema_ok sch -> JsonReadSpec.names_ok sch' nm' -> schema_ok sch' ->
  object_ok sch m obj -> json_serializes sch nm fm m obj t -> ok t ->
  fine sch nm fm numbered (fun t x s => number s /\ reads_as conv t x s) m obj -> nowhere_empty sch m obj ->
  (forall m i e, Values.f_ty (Values.field_at sch m i) <> Values.FMap Values.TBool e) ->
  object_ok sch' m' r' -> List.length base = List.length r' -> reads_object sch sch' nm nm' (reads_as conv) m m' obj base r' ->
  exists r, json_deserializes mj conv sch' nm' m' t base r /\ same sch' m' r r'.
Proof.
  intros mj ok conv sch nm fm sch' nm' m m' base obj r' t R Q N S N' S' O [fuel H] Ot F E Nb O' L Rd.
  destruct (object_text sch nm fm JsonSpec.named numbered (reads_as conv) (fun t x s => number s /\ reads_as conv t x s)
              (fun t x s _ X => conj (proj2 X) (proj1 X)) numbered_ok _ _ _ _ H F E) as (l & Sh & T).
  apply (C60_reads_partial mj ok conv sch' nm' m' base r' l t); auto.
  apply (reads_says sch sch' nm nm' (reads_as conv) N S Nb (jsize (JObj l)) m m' obj l base r'); auto.
Qed.

(** If the types of fields with the same name fit together ([versions]), this is so for every message.
    Missing: as in [C94_reads_partial], the values outside those of [C60_round_trip]. *)
Theorem C94_versions_partial : forall mj ok conv sch nm fm sch' nm' related m m' base obj t,
  right_on mj ok -> (forall t, ok t -> quotes_only t) ->
  JsonReadSpec.names_ok sch nm -> schema_ok sch -> JsonReadSpec.names_ok sch' nm' -> schema_ok sch' ->
  EvolveJsonSpec.versions sch sch' nm nm' related -> related m m' ->
  object_ok sch m obj -> object_ok sch' m' base -> json_serializes sch nm fm m obj t -> ok t ->
  fine sch nm fm numbered (fun t x s => number s /\ reads_as conv t x s) m obj -> nowhere_empty sch m obj ->
  (forall m i e, Values.f_ty (Values.field_at sch m i) <> Values.FMap Values.TBool e) ->
  exists r r', json_deserializes mj conv sch' nm' m' t base r /\ same sch' m' r r' /\ object_ok sch' m' r'
    /\ reads_object sch sch' nm nm' (reads_as conv) m m' obj base r'.
Proof.
  intros mj ok conv sch nm fm sch' nm' related m m' base obj t R Q N S N' S' Ve Re O Ob Se Ot F E Nb. pose proof Se as [fuel H].
  destruct (object_text sch nm fm JsonSpec.named numbered (reads_as conv) (fun t x s => number s /\ reads_as conv t x s)
              (fun t x s _ X => conj (proj2 X) (proj1 X)) numbered_ok _ _ _ _ H F E) as (l & Sh & T).
  assert (X : exists r', object_ok sch' m' r' /\ reads_object sch sch' nm nm' (reads_as conv) m m' obj base r') by (eapply reads_exists; eauto).
  destruct X as (r' & O' & Rd).
  destruct (C94_reads_partial mj ok conv sch nm fm sch' nm' m m' base obj r' t) as (r & D & Sm); auto.
  { rewrite (MessageFacts.object_ok_length sch' m' base Ob), (MessageFacts.object_ok_length sch' m' r' O'). reflexivity. }
  exists r, r'. auto.
Qed.

(** * Two programs *)

Lemma in_range t s z : same_type t s -> match range t with Some (a, b) => (a <= z <= b)%Z <-> scalar_ok s (Values.SNum z) | None => is_integer s = false end.
Proof. destruct 1; cbn; unfold in_s, in_u; try reflexivity; lia. Qed.

Lemma wider_may t t' s s' en en' : wider t t' -> same_type t s -> same_type t' s' -> scalar_may en en' s s'.
Proof.
  intros W T T'. unfold wider in W. pose proof (fun z => in_range t s z T) as R. pose proof (fun z => in_range t' s' z T') as R'.
  destruct (range t) as [[a b]|] eqn:E; [|contradiction]. destruct (range t') as [[a' b']|] eqn:E'; [|contradiction].
  assert (I : is_integer s = true) by (destruct T; try discriminate E; reflexivity). assert (I' : is_integer s' = true) by (destruct T'; try discriminate E'; reflexivity).
  assert (X : forall z, scalar_ok s (Values.SNum z) -> scalar_ok s' (Values.SNum z)) by (intros z H; apply R'; apply R in H; lia).
  unfold scalar_may. destruct s; try discriminate I; right; auto.
Qed.

(** Programs from different versions of the files understand each other's JSON texts in this way: fields with the same JSON name arrive, also if they have got other
    numbers or a wider integer type or if enumerators were added, other fields of the reader keep their values, other members are ignored.
    Missing: as above, and as C93_exchange_partial. *)
Theorem C94_programs_partial : forall json_name json_name' newer mj ok conv fm ps ps' qt qt' p q sch sch' nm nm' k k' c c' base obj t,
  right_on mj ok -> (forall t, ok t -> quotes_only t) ->
  files_valid ps -> json_valid json_name ps -> no_bool_keys ps -> files_valid ps' -> json_valid json_name' ps' ->
  json_versions newer ps ps' json_name json_name' ->
  program_of ps qt p -> usable ps qt (pr_qml p) -> json_runs_as json_name p sch nm ->
  program_of ps' qt' q -> usable ps' qt' (pr_qml q) -> json_runs_as json_name' q sch' nm' ->
  nth_error (classes_of ps) k = Some c -> nth_error (classes_of ps') k' = Some c' -> newer (g_id c) (g_id c') ->
  object_ok sch k obj -> object_ok sch' k' base -> json_serializes sch nm fm k obj t -> ok t ->
  fine sch nm fm numbered (fun t x s => number s /\ reads_as conv t x s) k obj -> nowhere_empty sch k obj ->
  exists r r', json_deserializes mj conv sch' nm' k' t base r /\ same sch' k' r r' /\ object_ok sch' k' r'
    /\ reads_object sch sch' nm nm' (reads_as conv) k k' obj base r'.
Proof.
  intros json_name json_name' newer mj ok conv fm ps ps' qt qt' p q sch sch' nm nm' k k' c c' base obj t Ro Qo V J NB V' J' Ve Pp Up Rp Pq Uq Rq K K' Nw O Ob Se Ot Fi Ne.
  destruct (C93_as_declared_partial json_name ps qt p sch nm V J Pp Up Rp) as (Sa & Na & So & No).
  destruct (C93_as_declared_partial json_name' ps' qt' q sch' nm' V' J' Pq Uq Rq) as (Sa' & Na' & So' & No').
  set (related := fun k k' => exists c c', nth_error (classes_of ps) k = Some c /\ nth_error (classes_of ps') k' = Some c' /\ newer (g_id c) (g_id c')).
  apply (C94_versions_partial mj ok conv sch nm fm sch' nm' related k k' base obj t); auto; [|now exists c, c' | exact (no_bool_maps ps sch Sa NB)].
  clear k k' c c' base obj t K K' Nw O Ob Se Ot Fi Ne. intros k k' (c & c' & K & K' & Nw) i i' Hi Hi' En.
  destruct (nth_same_field _ _ k c i Sa K Hi) as (f & N & Nu & Sh). destruct (nth_same_field _ _ k' c' i' Sa' K' Hi') as (f' & N' & Nu' & Sh').
  destruct (Na k c i f K N) as (Nj & Nenum). destruct (Na' k' c' i' f' K' N') as (Nj' & Nenum').
  pose proof (Ve c c' f f' (nth_error_In _ _ K) (nth_error_In _ _ K') Nw (nth_error_In _ _ N) (nth_error_In _ _ N')) as Kept. specialize (Kept ltac:(congruence)).
  assert (E : forall e e' t t', element_of (m_shape f) = e -> element_of (m_shape f') = e' -> element_json newer ps ps' e e' ->
              same_element (classes_of ps) e t -> same_element (classes_of ps') e' t' -> elem_may related (n_enum nm k i) (n_enum nm' k' i') t t').
  { intros e e' t t' Ef Ef' Ke Se Se'. destruct Ke as [u | u u' W | m m' M | x x' Ix Ix' In']; inversion Se as [u1 s Hs|j cj Kj Ej|]; subst;
      inversion Se' as [u1' s' Hs'|j' cj' Kj' Ej'|]; subst; cbn [elem_may].
    - rewrite (says_fun_type _ _ _ Hs Hs'). unfold scalar_may. destruct Hs'; left; split; congruence.
    - now apply (wider_may u u').
    - exists cj, cj'. auto.
    - cbn [scalar_may]. intros z Oz. exists z. split; [exact Oz|]. intro name. unfold JsonSpec.named. rewrite (Nenum x Ix Ef), (Nenum' x' Ix' Ef'). intro H.
      apply in_map_iff in H as (v & Ev & Iv). apply in_map_iff. exists v. split; [exact Ev | now apply In']. }
  inversion Kept as [e e' Ke Es Es' | e e' Ke Es Es' | u v v' Ke Es Es']; rewrite <- Es in Sh, E; rewrite <- Es' in Sh', E;
    inversion Sh as [ | |? ? ? ? T1]; subst; inversion Sh' as [ | | ? ? ? ? T2]; subst; cbn; try (eapply E; eauto; fail).
  split; [eapply says_fun_type; eassumption | eapply E; eauto].
Qed.

(** * An example *)

(** The next version of the file of C92 and C93: "note" is gone, "id" has become int64, lines have a count, there is another kind, and all numbers are others. *)
Definition v2_file : proto :=
  mkProto "shop"
    [ Message 5 "Order"
        [ mkMField "first" 1 (One (Mess 6)); mkMField "id" 2 (One (Simple TInt64)); mkMField "lines" 3 (Many (Mess 6));
          mkMField "tags" 4 (Assoc TString (Simple TInt64)); mkMField "kind" 5 (One (Enu 0)); mkMField "ratios" 6 (Many (Simple TDouble)) ]
        [ mkEnum 0 "Kind" [("None", 0%Z); ("Slow", 2%Z); ("Express", 1%Z)] ]
        [ Message 6 "Line" [ mkMField "count" 1 (One (Simple TUInt32)); mkMField "price" 2 (One (Simple TSInt64)); mkMField "name" 3 (One (Simple TString)) ] [] [] ] ]
    [].
Definition v2_names (m : nat) (n : Z) : list Z :=
  bytes_of
    (if Nat.eqb m 6 then (if (n =? 1)%Z then "count" else if (n =? 2)%Z then "price" else "name")
     else if (n =? 1)%Z then "first" else if (n =? 2)%Z then "id" else if (n =? 3)%Z then "lines" else if (n =? 4)%Z then "tags"
     else if (n =? 5)%Z then "kind" else "ratio-list").
Definition v2_program : program := mkProgram [v2_file] true (registrations [v2_file] []) (fun k => if Nat.eqb k 0 then [0; 1; 2] else seq 0 6).

Lemma v2_valid : files_valid [v2_file].
Proof. split; [cbn; repeat constructor; cbn; intuition discriminate|]. cbn. apply Forall_cons; [|apply Forall_cons; [|apply Forall_nil]]; easy_message. Qed.
Lemma v2_usable qt qml : usable [v2_file] qt qml.
Proof.
  assert (E0 : registered_enum [v2_file] 0).
  { right. do 2 eexists. split; [right; left; reflexivity |]. split; [left; reflexivity |]. split; [reflexivity |].
    eexists. split; [do 4 right; left; reflexivity |]. left. reflexivity. }
  assert (C1 : has_class [v2_file] 6) by (left; reflexivity).
  unfold usable. cbn [classes_of flat_map app v2_file o_messages classes goes_into existsb has_type m_shape g_id Nat.eqb orb].
  repeat (apply Forall_cons; [split; [no_clashes|]; cbn [g_fields];
    repeat (apply Forall_cons; [cbn [m_shape shape_supported element_supported no_qt]; unfold key_type, simple; repeat split; try discriminate; try assumption; try (apply not_qt; exact Logic.I) |]); apply Forall_nil |]).
  apply Forall_nil.
Qed.
Lemma v2_of : program_of [v2_file] [] v2_program.
Proof. split; [reflexivity|]. split; [apply Permutation.Permutation_refl|]. intros [|[|k]] c K; cbn in K; try (injection K as <-; apply Permutation.Permutation_refl). destruct k; discriminate. Qed.
Lemma v2_json_valid : json_valid v2_names [v2_file].
Proof.
  split; [|split].
  - cbn. repeat (apply Forall_cons; [split; [cbn; repeat constructor; cbn; intuition discriminate | cbn; repeat (apply Forall_cons; [plains|]); apply Forall_nil] |]).
    apply Forall_nil.
  - cbn. repeat constructor. cbn. tauto.
  - cbn. apply Forall_cons; [|apply Forall_nil]. split; [cbn; repeat constructor; cbn; intuition discriminate|].
    cbn [e_values]. repeat (apply Forall_cons; [do 2 eexists; split; [reflexivity|]; split; [cbn; intuition discriminate|]; cbn;
      repeat (apply Forall_cons; [apply name_char_in; cbn; intuition congruence|]); apply Forall_nil |]). apply Forall_nil.
Qed.

(** Values that the object has before: "first" has a count, "id" is 9. *)
Definition v2_base : list Values.value :=
  [ Values.VMsg [Values.VScalar (Values.SNum 3); Values.VScalar (Values.SNum 0); Values.VScalar (Values.SStr true [])]; Values.VScalar (Values.SNum 9); Values.VList []; Values.VMap [];
    Values.VScalar (Values.SNum 2); Values.VList [] ].

Example C94_case : exists t,
  let newer m m' := (m = 0 /\ m' = 5) \/ (m = 1 /\ m' = 6) in
  let sch := program_schema shop_program in let sch' := program_schema v2_program in
  let nm := program_names order_names shop_program in let nm' := program_names v2_names v2_program in
  files_valid [v2_file] /\ json_valid v2_names [v2_file] /\ json_versions newer [order_file] [v2_file] order_names v2_names
  /\ program_of [v2_file] [] v2_program /\ usable [v2_file] [] true /\ json_runs_as v2_names v2_program sch' nm'
  /\ map g_id (classes_of [order_file]) = [1; 0] /\ map g_id (classes_of [v2_file]) = [6; 5]
  /\ object_ok sch' 1 v2_base /\ json_serializes sch nm order_formats 1 an_order t
  /\ json_deserializes scanner order_conv sch' nm' 1 t v2_base
       [ Values.VMsg [Values.VScalar (Values.SNum 0); Values.VScalar (Values.SNum (-995)); Values.VScalar (Values.SStr true [])];
         Values.VScalar (Values.SNum (-7));
         Values.VList [Values.VMsg [Values.VScalar (Values.SNum 0); Values.VScalar (Values.SNum 995); Values.VScalar (Values.SStr false [98; 111; 111; 107]%Z)]];
         Values.VMap [(Values.SStr false [97%Z], Values.VScalar (Values.SNum 3))];
         Values.VScalar (Values.SNum 1); Values.VList [Values.VScalar (Values.SNum one_double)] ].
Proof.
  eexists. cbv zeta. split; [exact v2_valid|]. split; [exact v2_json_valid|]. split.
  { intros c c' f f' Ic Ic' N If If' Nu. cbn in Ic, Ic'. destruct Ic as [<- | [<- | []]]; destruct Ic' as [<- | [<- | []]]; cbn in N; try lia;
      cbn in If, If'; repeat destruct If as [<- | If]; try destruct If; repeat destruct If' as [<- | If']; try destruct If'; try discriminate Nu;
      constructor; try (apply json_simple); try (apply json_message; (left; now split) || (right; now split)); try (apply json_wider; cbn; lia).
    apply (json_enum _ _ _ (mkEnum 0 "Kind" [("None", 0%Z); ("Express", 1%Z)]) (mkEnum 0 "Kind" [("None", 0%Z); ("Slow", 2%Z); ("Express", 1%Z)])); [now left | now left |].
    intros v I. cbn in I |- *. tauto. }
  split; [exact v2_of|]. split; [apply v2_usable|]. split; [exact (json_runs v2_names _ _ _ v2_valid v2_json_valid v2_of (v2_usable _ _))|].
  split; [reflexivity|]. split; [reflexivity|]. split.
  { unfold object_ok, v2_base. cbn -[Z.pow in_s in_u bytes Z.opp]. repeat split; try (intro; discriminate); try (unfold in_s, in_u; lia); repeat constructor; unfold is_byte; lia. }
  split; [exists 20; vm_compute; reflexivity | exists 20; vm_compute; reflexivity].
Qed.

Print Assumptions C94_reads_partial.
Print Assumptions C94_versions_partial.
Print Assumptions C94_programs_partial.

(** Property C92: programs whose classes are generated from the same .proto files understand each other. *)

From Coq Require Import String ZArith List Bool Arith Permutation Lia.
From Verif Require Values.
From Verif Require Import Base WireModel MessageModel WireSpec MessageSpec MessageProofs RunFacts ExactSpec ExactWrite EvolveSpec.
From Verif Require Import GenModel GenSpec GenTypesModel GenTypesSpec LinkModel LinkSpec LinkProofs.
From Verif Require PropertiesEvolve.
Import ListNotations.
Open Scope nat_scope.
Open Scope string_scope.

(** * What a program runs with *)

(** The serializer finds its way through the generated classes, whether they are generated for QML or not, in whatever order types were
    registered and tables are traversed, if the fields of all messages can be serialized and their names do not clash.  Missing:
    other messages, see C92_unusable_refuted, and fields of Qt types, see C98. *)
Theorem C92_runs_partial : forall ps qt p,
  files_valid ps -> program_of ps qt p -> usable ps qt (pr_qml p) -> exists sch, runs_as p sch.
Proof. intros ps qt p V Pr U. exists (program_schema p). now apply (runs ps qt). Qed.

(** What it finds there is what the files say: all messages, each with its fields, by number and type.  The theorems about messages
    of a schema apply to it.  Missing: as above. *)
Theorem C92_as_declared_partial : forall ps qt p sch,
  files_valid ps -> program_of ps qt p -> usable ps qt (pr_qml p) -> runs_as p sch ->
  says (classes_of ps) sch /\ schema_ok sch.
Proof. intros ps qt p sch V Pr U R. split; [now apply (runs_says ps qt p) | now apply (runs_ok ps qt p)]. Qed.

(** Otherwise the serializer takes another value than that of the field, or there is no way to serialize it. *)
Theorem C92_unusable_refuted : forall ps qt p c,
  files_valid ps -> program_of ps qt p -> In c (classes_of ps) ->
  names_clash (pr_qml p) (g_fields c)
  \/ (exists f, In f (g_fields c) /\ (~ shape_supported ps qt (m_shape f) \/ ~ no_qt (m_shape f))) ->
  ~ exists sch, runs_as p sch.
Proof.
  intros ps qt p c V Pr Ic H (sch & R). destruct (does_not_run ps qt p V Pr c sch Ic R) as (NC & F).
  destruct H as [H | (f & If & H)]; [exact (NC H) | exact (F f If H)].
Qed.

(** * Two programs *)

(** A message that one program serializes is deserialized by every other program from the same files.  It gets exactly the values
    that should arrive ([arrives], see ExactSpec).  The programs may differ in everything else: QML support, the order of
    registrations, the order of tables and with it that of fields in the message, the Qt types that are linked.
    Missing: as above. *)
Theorem C92_exchange_partial : forall ps qt qt' p q sch sch' k obj bs,
  files_valid ps ->
  program_of ps qt p -> usable ps qt (pr_qml p) -> runs_as p sch ->
  program_of ps qt' q -> usable ps qt' (pr_qml q) -> runs_as q sch' ->
  object_ok sch k obj -> serializes sch k obj bs -> (Zlen bs <= INT_MAX)%Z ->
  exists r, deserializes sch' k bs r (Ok tt) /\ ExactSpec.arrives sch k obj r
    /\ forall r' o, deserializes sch' k bs r' o -> r' = r /\ o = Ok tt.
Proof.
  intros ps qt qt' p q sch sch' k obj bs V Pp Up Rp Pq Uq Rq O S B.
  destruct (run_arrives sch k obj bs (runs_ok ps qt p V Pp sch Rp Up) O S B) as (r & D & A).
  assert (D' : deserializes sch' k bs r (Ok tt)).
  { revert D. apply deserializes_congr. apply (says_same_fields (classes_of ps)); [apply V | now apply (runs_says ps qt p) | now apply (runs_says ps qt' q)]. }
  exists r. split; [exact D'|]. split; [exact A|]. intros r' o D''. exact (deserializes_fun _ _ _ _ _ _ _ D'' D').
Qed.

Lemma nested_nth (P : mfield -> Values.field -> Prop) cs sch : Forall2 (fun c d => Forall2 P (g_fields c) (Values.md_fields d)) cs sch ->
  forall k c i, nth_error cs k = Some c -> i < List.length (Values.md_fields (Values.msg_at sch k)) ->
  exists f, nth_error (g_fields c) i = Some f /\ P f (Values.field_at sch k i).
Proof.
  assert (G : forall l l', Forall2 P l l' -> forall i, i < List.length l' -> exists f, nth_error l i = Some f /\ P f (nth i l' Values.dummy_field)).
  { induction 1 as [|f x l l' Hx Hl IH]; intros i Hi; [cbn in Hi; lia|]. destruct i as [|i]; [now exists f|]. apply IH. cbn in Hi. lia. }
  unfold Values.field_at, Values.msg_at.
  induction 1 as [|c d l l' Hd Hl IH]; intros k c0 i K Hi; [destruct k; discriminate|].
  destruct k as [|k]; cbn in K, Hi |- *; [injection K as <-; now apply G | now apply IH].
Qed.

Lemma nth_same_field cs sch k c i : says cs sch -> nth_error cs k = Some c -> i < List.length (Values.md_fields (Values.msg_at sch k)) ->
  exists f, nth_error (g_fields c) i = Some f /\ Values.f_num (Values.field_at sch k i) = m_number f
    /\ same_shape cs (m_shape f) (Values.f_ty (Values.field_at sch k i)).
Proof.
  intros F K Hi. exact (nested_nth _ cs sch F k c i K Hi).
Qed.

(** Programs from different versions of the files understand each other in the same way: fields with the same number arrive, new ones have their
    default values, removed ones are ignored, at any depth of nesting.  Missing: changes of types, see C84. *)
Theorem C92_versions_partial : forall ps ps' qt qt' newer p q sch sch' k k' c c' obj bs,
  files_valid ps -> files_valid ps' -> files_versions newer ps ps' ->
  program_of ps qt p -> usable ps qt (pr_qml p) -> runs_as p sch ->
  program_of ps' qt' q -> usable ps' qt' (pr_qml q) -> runs_as q sch' ->
  nth_error (classes_of ps) k = Some c -> nth_error (classes_of ps') k' = Some c' -> newer (g_id c) (g_id c') ->
  object_ok sch k obj -> serializes sch k obj bs -> (Zlen bs <= INT_MAX)%Z ->
  exists r r', deserializes sch' k' bs r (Ok tt) /\ same sch' k' r r'
    /\ becomes sch sch' (Values.EM k) (Values.EM k') (Values.VMsg obj) (Values.VMsg r').
Proof.
  intros ps ps' qt qt' newer p q sch sch' k k' c c' obj bs V V' Ve Pp Up Rp Pq Uq Rq K K' Nw O S B.
  pose proof (runs_says ps qt p V Pp sch Rp Up) as Sa. pose proof (runs_says ps' qt' q V' Pq sch' Rq Uq) as Sa'.
  set (related := fun k k' => exists c c', nth_error (classes_of ps) k = Some c /\ nth_error (classes_of ps') k' = Some c' /\ newer (g_id c) (g_id c')).
  apply (PropertiesEvolve.C84_versions_partial sch sch' related k k' obj bs (runs_ok ps qt p V Pp sch Rp Up) (runs_ok ps' qt' q V' Pq sch' Rq Uq)); auto.
  2: { now exists c, c'. }
  clear k k' c c' obj bs K K' Nw O S B. intros k k' (c & c' & K & K' & Nw) i i' Hi Hi' En.
  destruct (nth_same_field _ _ k c i Sa K Hi) as (f & N & Nu & Sh). destruct (nth_same_field _ _ k' c' i' Sa' K' Hi') as (f' & N' & Nu' & Sh').
  pose proof (Ve c c' f f' (nth_error_In _ _ K) (nth_error_In _ _ K') Nw (nth_error_In _ _ N) (nth_error_In _ _ N')) as Kept.
  specialize (Kept ltac:(congruence)).
  assert (E : forall e e' t t', element_kept newer e e' -> same_element (classes_of ps) e t -> same_element (classes_of ps') e' t' ->
              elem_may related t t').
  { intros e e' t t' Ke Se Se'. inversion Ke; subst; inversion Se as [u s Hs|j cj Kj Ej|]; subst; inversion Se' as [u' s' Hs'|j' cj' Kj' Ej'|]; subst; cbn.
    - rewrite (says_fun_type _ _ _ Hs Hs'). split; [reflexivity|auto].
    - exists cj, cj'. auto.
    - split; [reflexivity|discriminate]. }
  inversion Kept as [e e' Ke Es Es' | e e' Ke Es Es' | t v v' Ke Es Es']; rewrite <- Es in Sh; rewrite <- Es' in Sh'; inversion Sh as [ | |? ? ? ? T1]; subst; inversion Sh' as [ | | ? ? ? ? T2]; subst; cbn; eauto.
  split; [eapply says_fun_type; eassumption | eauto].
Qed.

(** * An example *)

Definition order_file : proto :=
  mkProto "shop"
    [ Message 0 "Order"
        [ mkMField "id" 1 (One (Simple TInt32)); mkMField "lines" 2 (Many (Mess 1)); mkMField "tags" 3 (Assoc TString (Simple TInt64));
          mkMField "kind" 4 (One (Enu 0)); mkMField "note" 5 (One (Simple TString)); mkMField "ratios" 6 (Many (Simple TDouble));
          mkMField "first" 7 (One (Mess 1)) ]
        [ mkEnum 0 "Kind" [("None", 0%Z); ("Express", 1%Z)] ]
        [ Message 1 "Line" [ mkMField "price" 1 (One (Simple TSInt64)); mkMField "name" 2 (One (Simple TString)) ] [] [] ] ]
    [].
(** The next version: "note" is gone, lines have a count. *)
Definition newer_order_file : proto :=
  mkProto "shop"
    [ Message 5 "Order"
        [ mkMField "first" 7 (One (Mess 6)); mkMField "id" 1 (One (Simple TInt32)); mkMField "lines" 2 (Many (Mess 6));
          mkMField "tags" 3 (Assoc TString (Simple TInt64)); mkMField "kind" 4 (One (Enu 0)); mkMField "ratios" 6 (Many (Simple TDouble)) ]
        [ mkEnum 0 "Kind" [("None", 0%Z); ("Express", 1%Z)] ]
        [ Message 6 "Line" [ mkMField "price" 1 (One (Simple TSInt64)); mkMField "name" 2 (One (Simple TString)); mkMField "count" 3 (One (Simple TUInt32)) ] [] [] ] ]
    [].

(** One for QML, with tables in order; one without QML, with registrations and tables backwards; one with the next version. *)
Definition shop_program : program := mkProgram [order_file] true (registrations [order_file] []) (fun k => if Nat.eqb k 0 then [0; 1] else seq 0 7).
Definition client_program : program :=
  mkProgram [order_file] false (rev (registrations [order_file] ["QUrl"])) (fun k => if Nat.eqb k 0 then [1; 0] else rev (seq 0 7)).
Definition newer_program : program := mkProgram [newer_order_file] true (registrations [newer_order_file] []) (fun k => if Nat.eqb k 0 then [2; 0; 1] else seq 0 6).

Lemma not_qt e : match e with Qt _ => False | _ => True end -> ~ is_qt e.
Proof. intros T (q & ->). exact T. Qed.

Ltac easy_message :=
  split; [cbn; repeat constructor; cbn; intuition discriminate|]; split; [cbn; repeat constructor; cbn; intuition discriminate|];
  cbn [g_fields]; repeat (apply Forall_cons; [split; [unfold field_number; cbn; lia | cbn; unfold key_type, simple; repeat split; discriminate] |]); apply Forall_nil.

Lemma order_valid : files_valid [order_file].
Proof. split; [cbn; repeat constructor; cbn; intuition discriminate|]. cbn. apply Forall_cons; [|apply Forall_cons; [|apply Forall_nil]]; easy_message. Qed.
Lemma newer_valid : files_valid [newer_order_file].
Proof. split; [cbn; repeat constructor; cbn; intuition discriminate|]. cbn. apply Forall_cons; [|apply Forall_cons; [|apply Forall_nil]]; easy_message. Qed.

Ltac no_clashes :=
  let Cl := fresh in intro Cl; apply names_clash_iff, GenFields.clash_spec in Cl; [|solve [repeat constructor; cbn; unfold simple; repeat split; discriminate]]; destruct Cl as (f & g & If & Ig & (T & T' & T'') & E & _); cbn in If, Ig;
  repeat destruct If as [<- | If]; try discriminate T; try discriminate T'; try discriminate T''; try destruct If; repeat destruct Ig as [<- | Ig]; try discriminate E; destruct Ig.

Lemma order_usable qt qml : usable [order_file] qt qml.
Proof.
  assert (E0 : registered_enum [order_file] 0).
  { right. do 2 eexists. split; [right; left; reflexivity |]. split; [left; reflexivity |]. split; [reflexivity |].
    eexists. split; [right; right; right; left; reflexivity |]. left. reflexivity. }
  assert (C1 : has_class [order_file] 1) by (left; reflexivity).
  unfold usable. cbn [classes_of flat_map app order_file o_messages classes goes_into existsb has_type m_shape g_id Nat.eqb orb].
  repeat (apply Forall_cons; [split; [no_clashes|]; cbn [g_fields];
    repeat (apply Forall_cons; [cbn [m_shape shape_supported element_supported no_qt]; unfold key_type, simple; repeat split; try discriminate; try assumption; try (apply not_qt; exact Logic.I) |]); apply Forall_nil |]).
  apply Forall_nil.
Qed.
Lemma newer_usable qt qml : usable [newer_order_file] qt qml.
Proof.
  assert (E0 : registered_enum [newer_order_file] 0).
  { right. do 2 eexists. split; [right; left; reflexivity |]. split; [left; reflexivity |]. split; [reflexivity |].
    eexists. split; [do 4 right; left; reflexivity |]. left. reflexivity. }
  assert (C1 : has_class [newer_order_file] 6) by (left; reflexivity).
  unfold usable. cbn [classes_of flat_map app newer_order_file o_messages classes goes_into existsb has_type m_shape g_id Nat.eqb orb].
  repeat (apply Forall_cons; [split; [no_clashes|]; cbn [g_fields];
    repeat (apply Forall_cons; [cbn [m_shape shape_supported element_supported no_qt]; unfold key_type, simple; repeat split; try discriminate; try assumption; try (apply not_qt; exact Logic.I) |]); apply Forall_nil |]).
  apply Forall_nil.
Qed.

Lemma shop_of : program_of [order_file] [] shop_program.
Proof. split; [reflexivity|]. split; [apply Permutation_refl|]. intros [|[|k]] c K; cbn in K; try (injection K as <-; apply Permutation_refl). destruct k; discriminate. Qed.
Lemma client_of : program_of [order_file] ["QUrl"] client_program.
Proof.
  split; [reflexivity|]. split; [symmetry; apply Permutation_rev|].
  intros [|[|k]] c K; cbn in K; [| |destruct k; discriminate]; injection K as <-; cbn [g_fields List.length].
  - symmetry. apply (Permutation_rev (seq 0 2)).
  - symmetry. apply (Permutation_rev (seq 0 7)).
Qed.
Lemma newer_of : program_of [newer_order_file] [] newer_program.
Proof.
  split; [reflexivity|]. split; [apply Permutation_refl|]. intros [|[|k]] c K; cbn in K; try (injection K as <-; cbn); [|apply Permutation_refl | destruct k; discriminate].
  symmetry. apply (Permutation_trans (l' := [0; 2; 1])); [constructor; constructor | constructor].
Qed.

Definition an_order : list Values.value :=
  [ Values.VScalar (Values.SNum (-7));
    Values.VList [Values.VMsg [Values.VScalar (Values.SNum 995); Values.VScalar (Values.SStr false [98; 111; 111; 107]%Z)]; Values.VNull];
    Values.VMap [(Values.SStr false [97%Z], Values.VScalar (Values.SNum 3))];
    Values.VScalar (Values.SNum 1); Values.VScalar (Values.SStr true []);
    Values.VList [Values.VScalar (Values.SNum 4607182418800017408)];
    Values.VMsg [Values.VScalar (Values.SNum (-995)); Values.VScalar (Values.SStr true [])] ].
Definition an_order_bytes : list Z :=
  match serializeMessage 20 (program_schema shop_program) 1 an_order with Ok bs => bs | _ => [] end.

(** The schema that the first program runs with. *)
Definition shop_schema : Values.schema :=
  [ Values.mkMsg [Values.mkField 1 (Values.FSing (Values.ES Values.TSInt64)); Values.mkField 2 (Values.FSing (Values.ES Values.TString))] [0; 1];
    Values.mkMsg
      [ Values.mkField 1 (Values.FSing (Values.ES Values.TInt32)); Values.mkField 2 (Values.FRep (Values.EM 0));
        Values.mkField 3 (Values.FMap Values.TString (Values.ES Values.TInt64)); Values.mkField 4 (Values.FSing (Values.ES Values.TEnum));
        Values.mkField 5 (Values.FSing (Values.ES Values.TString)); Values.mkField 6 (Values.FRep (Values.ES Values.TDouble));
        Values.mkField 7 (Values.FSing (Values.EM 0)) ] [0; 1; 2; 3; 4; 5; 6] ].
Lemma shop_schema_is : program_schema shop_program = shop_schema.
Proof. vm_compute. reflexivity. Qed.

Lemma an_order_ok : object_ok shop_schema 1 an_order.
Proof.
  unfold object_ok, an_order, shop_schema. cbn -[Z.pow in_s in_u bytes Z.opp].
  repeat split; try (intro; discriminate); try (unfold in_s, in_u; lia); repeat constructor; unfold is_byte; lia.
Qed.

Example C92_case :
  let sch := program_schema shop_program in let sch' := program_schema client_program in
  files_valid [order_file] /\ program_of [order_file] [] shop_program /\ program_of [order_file] ["QUrl"] client_program
  /\ usable [order_file] [] true /\ usable [order_file] ["QUrl"] false /\ runs_as shop_program sch /\ runs_as client_program sch'
  /\ object_ok sch 1 an_order /\ serializes sch 1 an_order an_order_bytes /\ (Zlen an_order_bytes <= INT_MAX)%Z
  /\ deserializeMessage 100 false sch' 1 an_order_bytes
     = ([ Values.VScalar (Values.SNum (-7));
          Values.VList [Values.VMsg [Values.VScalar (Values.SNum 995); Values.VScalar (Values.SStr false [98; 111; 111; 107]%Z)]];
          Values.VMap [(Values.SStr false [97%Z], Values.VScalar (Values.SNum 3))];
          Values.VScalar (Values.SNum 1); Values.VScalar (Values.SStr true []);
          Values.VList [Values.VScalar (Values.SNum 4607182418800017408)];
          Values.VMsg [Values.VScalar (Values.SNum (-995)); Values.VScalar (Values.SStr true [])] ], Ok tt).
Proof.
  cbv zeta. split; [exact order_valid|]. split; [exact shop_of|]. split; [exact client_of|]. split; [apply order_usable|]. split; [apply order_usable|].
  split; [exact (runs _ _ _ order_valid shop_of (order_usable _ _))|]. split; [exact (runs _ _ _ order_valid client_of (order_usable _ _))|].
  split; [rewrite shop_schema_is; exact an_order_ok|]. split; [exists 20; vm_compute; reflexivity|]. split; [vm_compute; discriminate | vm_compute; reflexivity].
Qed.

(** The same bytes in the program with the next version. *)
Example C92_versions_case :
  let newer m m' := (m = 0 /\ m' = 5) \/ (m = 1 /\ m' = 6) in
  files_valid [newer_order_file] /\ files_versions newer [order_file] [newer_order_file]
  /\ program_of [newer_order_file] [] newer_program /\ usable [newer_order_file] [] true /\ runs_as newer_program (program_schema newer_program)
  /\ map g_id (classes_of [order_file]) = [1; 0] /\ map g_id (classes_of [newer_order_file]) = [6; 5]
  /\ deserializeMessage 100 false (program_schema newer_program) 1 an_order_bytes
     = ([ Values.VMsg [Values.VScalar (Values.SNum (-995)); Values.VScalar (Values.SStr true []); Values.VScalar (Values.SNum 0)];
          Values.VScalar (Values.SNum (-7));
          Values.VList [Values.VMsg [Values.VScalar (Values.SNum 995); Values.VScalar (Values.SStr false [98; 111; 111; 107]%Z); Values.VScalar (Values.SNum 0)]];
          Values.VMap [(Values.SStr false [97%Z], Values.VScalar (Values.SNum 3))];
          Values.VScalar (Values.SNum 1); Values.VList [Values.VScalar (Values.SNum 4607182418800017408)] ], Ok tt).
Proof.
  cbv zeta. split; [exact newer_valid|]. split.
  { intros c c' f f' Ic Ic' N If If' Nu. cbn in Ic, Ic'. destruct Ic as [<- | [<- | []]]; destruct Ic' as [<- | [<- | []]]; cbn in N; try lia;
      cbn in If, If'; repeat destruct If as [<- | If]; try destruct If; repeat destruct If' as [<- | If']; try destruct If'; try discriminate Nu;
      constructor; constructor; (left; now split) || (right; now split). }
  split; [exact newer_of|]. split; [apply newer_usable|]. split; [exact (runs _ _ _ newer_valid newer_of (newer_usable _ _))|].
  split; [reflexivity|]. split; [reflexivity|]. vm_compute. reflexivity.
Qed.

(** A file with "repeated Line lines" and "string lines_data", and one with a list of truth values, are not usable. *)
Definition clash_file : proto :=
  mkProto "" [ Message 0 "A" [ mkMField "lines" 1 (Many (Mess 0)); mkMField "lines_data" 2 (One (Simple TString)) ] [] [] ] [].
Definition bools_file : proto := mkProto "" [ Message 0 "A" [ mkMField "flags" 1 (Many (Simple TBool)) ] [] [] ] [].
Example C92_unusable_case :
  files_valid [clash_file] /\ files_valid [bools_file]
  /\ names_clash false [ mkMField "lines" 1 (Many (Mess 0)); mkMField "lines_data" 2 (One (Simple TString)) ]
  /\ ~ shape_supported [bools_file] [] (Many (Simple TBool)).
Proof.
  split; [split; [cbn; repeat constructor; cbn; intuition discriminate|]; cbn; apply Forall_cons; [easy_message | apply Forall_nil]|].
  split; [split; [cbn; repeat constructor; cbn; intuition discriminate|]; cbn; apply Forall_cons; [easy_message | apply Forall_nil]|].
  split.
  - apply names_clash_iff; [repeat constructor; discriminate|]. apply GenFields.clash_spec. do 2 eexists. split; [left; reflexivity|]. split; [right; left; reflexivity|].
    split; [now repeat split|]. split; [reflexivity|]. right. intros (T & _). discriminate T.
  - intros (_ & _ & N). congruence.
Qed.

Print Assumptions C92_runs_partial.
Print Assumptions C92_as_declared_partial.
Print Assumptions C92_unusable_refuted.
Print Assumptions C92_exchange_partial.
Print Assumptions C92_versions_partial.

(** Property C93: programs whose classes are generated from the same .proto files understand each other's JSON texts. *)

From Coq Require Import String Ascii ZArith List Bool Arith Permutation Lia.
From Verif Require Values.
From Verif Require Import Base MessageSpec JsonSpec JsonModel JsonReadModel JsonReadSpec JsonScan PropertiesJson PropertiesJsonRead.
From Verif Require Import GenModel GenSpec GenTypesModel GenTypesSpec GenClassSpec LinkModel LinkSpec LinkProofs LinkJsonModel LinkJsonSpec LinkJsonProofs PropertiesLink.
Import ListNotations.
Open Scope nat_scope.
Open Scope string_scope.

(** * What a program runs with *)

(** The JSON serializer finds its way through the generated classes by the names in the tables, whether they are generated for QML or not, in whatever
    order types were registered and tables are traversed.  Missing: as C92_runs_partial, and JSON names and enumerators that are not [json_valid]. *)
Theorem C93_runs_partial : forall json_name ps qt p,
  files_valid ps -> json_valid json_name ps -> program_of ps qt p -> usable ps qt (pr_qml p) ->
  exists sch nm, json_runs_as json_name p sch nm.
Proof. intros json_name ps qt p V J Pr U. exists (program_schema p), (program_names json_name p). exact (json_runs json_name ps qt p V J Pr U). Qed.

(** What it finds there is what the files say: all messages and their fields with their types, the JSON names of fields, and the enumerators, whose first letter
    becomes a capital.  The theorems about JSON texts apply to it.  Missing: as above. *)
Theorem C93_as_declared_partial : forall json_name ps qt p sch nm,
  files_valid ps -> json_valid json_name ps -> program_of ps qt p -> usable ps qt (pr_qml p) -> json_runs_as json_name p sch nm ->
  says (classes_of ps) sch /\ names_say json_name ps nm /\ schema_ok sch /\ JsonReadSpec.names_ok sch nm.
Proof.
  intros json_name ps qt p sch nm V J Pr U R. pose proof (json_runs_binary json_name ps qt p V J Pr U sch nm R) as B.
  split; [exact (runs_says ps qt p V Pr sch B U)|]. split; [exact (json_runs_say json_name ps qt p V J Pr U sch nm R)|].
  split; [exact (runs_ok ps qt p V Pr sch B U) | exact (json_runs_ok json_name ps qt p V J Pr U sch nm R)].
Qed.

(** * Names *)

(** The name of a field in the table is the JSON name of the file exactly if this has no quotation marks, backslashes, line ends and zero characters. *)
Theorem C93_table_names : forall json_name, table_name json_name = Some json_name <-> for_itself json_name.
Proof. exact table_name_same. Qed.

(** With another JSON name, the program does not use the names of the files, if it can be built at all. *)
Theorem C93_json_name_refuted : forall json_name ps qt p sch nm c f,
  program_of ps qt p -> In c (classes_of ps) -> In f (g_fields c) -> ~ for_itself (json_name (g_id c) (m_number f)) ->
  json_runs_as json_name p sch nm -> ~ names_say json_name ps nm.
Proof.
  intros json_name ps qt p sch nm c f Pr Ic If N (_ & _ & R) S. apply In_nth_error in Ic as (k & K). apply In_nth_error in If as (i & I).
  assert (K' : nth_error (program_classes p) k = Some c) by (destruct Pr as (Fp & _); rewrite program_classes_of, Fp; exact K).
  destruct (R k c K') as (_ & _ & W & _). destruct (W i f I) as (Wi & _). destruct (S k c i f K I) as (Sn & _). unfold json_written in Wi.
  destruct (table_name (json_name (g_id c) (m_number f))) as [n|] eqn:T; [|discriminate].
  destruct (serialized_property _ _ _) as [x|]; [|discriminate]. destruct (json_accessed p c x); [|discriminate]. cbn in Wi. injection Wi as -> _.
  rewrite Sn in T. apply table_name_same in T. contradiction.
Qed.

Lemma same_name a b : JsonReadModel.same_bytes a b = true <-> a = b.
Proof. apply JsonReadProofs.same_bytes_spec. Qed.

(** Fields are only found by their JSON names, not by the names in the .proto file where these are others.  (Parsers should accept both.) *)
Theorem C93_original_name_refuted : forall json_name ps qt p k c f,
  files_valid ps -> json_valid json_name ps -> program_of ps qt p -> usable ps qt (pr_qml p) ->
  nth_error (classes_of ps) k = Some c -> In f (g_fields c) ->
  (forall g, In g (g_fields c) -> json_name (g_id c) (m_number g) <> bytes_of (m_name f)) ->
  json_read json_name p c (pr_order p k) (bytes_of (m_name f)) = None.
Proof.
  intros json_name ps qt p k c f V J Pr U K If N. pose proof K as K'. rewrite <- (classes_ps ps qt p V Pr) in K'.
  rewrite (json_read_own json_name ps qt p V J Pr U c _ _ (nth_error_In _ _ K') (order_positions ps qt p V Pr k c K')).
  destruct (find _ (pr_order p k)) as [i|] eqn:E; [|reflexivity]. exfalso. apply find_some in E as (I & E). apply same_name in E.
  pose proof (order_positions ps qt p V Pr k c K') as F. rewrite Forall_forall in F. specialize (F i I).
  destruct (nth_error (g_fields c) i) as [g|] eqn:G; [|apply nth_error_None in G; lia]. exact (N g (nth_error_In _ _ G) E).
Qed.

Lemma capital_twice s : first_capital (first_capital s) = first_capital s.
Proof. destruct s as [|[[] [] [] [] [] [] [] []] s]; reflexivity. Qed.

(** Enumerators that begin with a small letter have another name in JSON texts than in the .proto file; their own is the name of none. *)
Theorem C93_enum_names_refuted : forall json_name ps qt p sch nm k c i f x v,
  files_valid ps -> json_valid json_name ps -> program_of ps qt p -> usable ps qt (pr_qml p) -> json_runs_as json_name p sch nm ->
  nth_error (classes_of ps) k = Some c -> nth_error (g_fields c) i = Some f -> In x (enums_of ps) -> element_of (m_shape f) = Enu (e_id x) ->
  In v (e_values x) -> first_capital (fst v) <> fst v ->
  In (bytes_of (first_capital (fst v)), snd v) (n_enum nm k i) /\ ~ In (bytes_of (fst v)) (map fst (n_enum nm k i)).
Proof.
  intros json_name ps qt p sch nm k c i f x v V J Pr U R K I Ix E Iv N.
  destruct (json_runs_say json_name ps qt p V J Pr U sch nm R k c i f K I) as (_ & S). rewrite (S x Ix E). split.
  - apply in_map_iff. now exists v.
  - rewrite map_map. cbn. intro H. apply in_map_iff in H as (w & H & _). apply bytes_of_inj in H. apply N. rewrite <- H. apply capital_twice.
Qed.

(** * Two programs *)

Lemma two_lengths {A B} (P : A -> B -> Prop) l l' : Forall2 P l l' -> List.length l = List.length l'.
Proof. induction 1; cbn; congruence. Qed.

(** No map of the files has bool keys. *)
Definition no_bool_keys (ps : list proto) : Prop := Forall (fun c => Forall (fun f => forall e, m_shape f <> Assoc TBool e) (g_fields c)) (classes_of ps).

Lemma no_bool_maps ps sch : says (classes_of ps) sch -> no_bool_keys ps -> forall m i e, Values.f_ty (Values.field_at sch m i) <> Values.FMap Values.TBool e.
Proof.
  intros S N m i e. destruct (le_lt_dec (List.length (Values.md_fields (Values.msg_at sch m))) i) as [L | L].
  { unfold Values.field_at. rewrite nth_overflow by exact L. discriminate. }
  destruct (nth_error (classes_of ps) m) as [c|] eqn:K.
  - destruct (nth_same_field _ _ _ _ _ S K L) as (f & F & _ & T). unfold no_bool_keys in N. rewrite Forall_forall in N. specialize (N c (nth_error_In _ _ K)).
    rewrite Forall_forall in N. specialize (N f (nth_error_In _ _ F)). intro E. rewrite E in T.
    destruct (m_shape f) as [x|x|kt x]; [inversion T | inversion T |]. apply (N x). f_equal.
    assert (Tk : same_type kt Values.TBool) by (inversion T; assumption). now inversion Tk.
  - exfalso. apply nth_error_None in K. assert (L' : List.length sch <= m) by (pose proof (two_lengths _ _ _ S); lia).
    unfold Values.msg_at in L. rewrite nth_overflow in L by exact L'. cbn in L. lia.
Qed.

(** The text that one program writes for a message is read by every other program from the same files, into any object, as the same message.  The programs may
    differ in everything else: QML support, the order of registrations, the order of tables and with it that of members in the text, the Qt types that are
    linked.  Missing: as above, and values for which C60_round_trip_partial says nothing either. *)
Theorem C93_exchange_partial : forall json_name mj ok conv fm ps qt qt' p q sch sch' nm nm' k base obj t,
  right_on mj ok -> (forall t, ok t -> quotes_only t) ->
  files_valid ps -> json_valid json_name ps -> no_bool_keys ps ->
  program_of ps qt p -> usable ps qt (pr_qml p) -> json_runs_as json_name p sch nm ->
  program_of ps qt' q -> usable ps qt' (pr_qml q) -> json_runs_as json_name q sch' nm' ->
  object_ok sch k obj -> List.length base = List.length obj ->
  json_serializes sch nm fm k obj t -> ok t ->
  fine sch nm fm numbered (fun t x s => number s /\ reads_as conv t x s) k obj -> nowhere_empty sch k obj ->
  exists r, json_deserializes mj conv sch' nm' k t base r /\ same sch k r (map drop_nulls obj)
    /\ forall r', json_deserializes mj conv sch' nm' k t base r' -> r' = r.
Proof.
  intros json_name mj ok conv fm ps qt qt' p q sch sch' nm nm' k base obj t Ro Qo V J NB Pp Up Rp Pq Uq Rq Ob L Se Ot Fi Ne.
  destruct (C93_as_declared_partial json_name ps qt p sch nm V J Pp Up Rp) as (Sa & _ & So & No).
  destruct (C60_round_trip_partial mj ok conv sch nm fm k base obj t Ro Qo No So Ob L Se Ot Fi Ne (no_bool_maps ps sch Sa NB)) as (r & (fuel & D) & Sm).
  rewrite (two_read json_name ps qt qt' p q sch sch' nm nm' V J Pp Up Rp Pq Uq Rq) in D. exists r. split; [now exists fuel|]. split.
  - exact Sm.
  - intros r' D'. apply (C60_one_result mj conv sch' nm' k t base); [exact D' | now exists fuel].
Qed.

(** * An example *)

(** JSON names for the file of the example of C92, one of them given in the file. *)
Definition order_names (m : nat) (n : Z) : list Z :=
  bytes_of
    (if Nat.eqb m 1 then (if (n =? 1)%Z then "price" else "name")
     else if (n =? 1)%Z then "id" else if (n =? 2)%Z then "lines" else if (n =? 3)%Z then "tags" else if (n =? 4)%Z then "kind"
     else if (n =? 5)%Z then "note" else if (n =? 6)%Z then "ratio-list" else "first").
Definition one_double : Z := 4607182418800017408.
Definition order_formats : formats := mkFormats (fun _ => bytes_of "1") (fun _ => bytes_of "1") (fun _ => bytes_of "1").
Definition order_conv : conversions := fun _ s => if JsonReadModel.same_bytes s (bytes_of "1") then (one_double, true) else (0%Z, false).

Lemma order_json_valid : json_valid order_names [order_file].
Proof.
  split; [|split].
  - cbn. repeat (apply Forall_cons; [split; [cbn; repeat constructor; cbn; intuition discriminate | cbn; repeat (apply Forall_cons; [plains|]); apply Forall_nil] |]).
    apply Forall_nil.
  - cbn. repeat constructor. cbn. tauto.
  - cbn. apply Forall_cons; [|apply Forall_nil]. split; [cbn; repeat constructor; cbn; intuition discriminate|].
    cbn [e_values]. repeat (apply Forall_cons; [do 2 eexists; split; [reflexivity|]; split; [cbn; intuition discriminate|]; cbn;
      repeat (apply Forall_cons; [apply name_char_in; cbn; intuition congruence|]); apply Forall_nil |]). apply Forall_nil.
Qed.

Lemma order_parts M O : part shop_schema 1 an_order M O ->
  (M = 1 /\ O = an_order) \/ (M = 0 /\ exists z b s, O = [Values.VScalar (Values.SNum z); Values.VScalar (Values.SStr b s)] /\ Forall JsonSpec.plain s).
Proof.
  assert (Sub : forall a b M O, part shop_schema 0 [a; b] M O -> M = 0 /\ O = [a; b]).
  { intros a b M' O' P. inversion P as [|m' obj' i m'' M1 O1 I1 Ty|m' obj' i m'' sub M1 O1 I1 Ty|m' obj' i k m'' kv M1 O1 I1 Ty]; subst;
      [now split|..]; destruct I1 as [<-|[<-|[]]]; discriminate Ty. }
  intro P. inversion P as [|m' obj' i m'' M1 O1 I1 Ty P1|m' obj' i m'' sub M1 O1 I1 Ty Is P1|m' obj' i k m'' kv M1 O1 I1 Ty]; subst; [now left|..];
    destruct I1 as [<-|[<-|[<-|[<-|[<-|[<-|[<-|[]]]]]]]]; try discriminate Ty; injection Ty as <-; right.
  - apply Sub in P1 as (-> & ->). split; [reflexivity|]. do 3 eexists. split; [reflexivity | constructor].
  - destruct Is as [Is|[Is|[]]]; [|discriminate Is]. injection Is as <-. apply Sub in P1 as (-> & ->). split; [reflexivity|]. do 3 eexists. split; [reflexivity | plains].
Qed.

Lemma number_1 : number (bytes_of "1").
Proof. apply (number_of [] [49%Z] [] []); [now left | ints | constructor | constructor]. Qed.

Lemma order_fine : fine shop_schema (program_names order_names shop_program) order_formats numbered (fun t x s => number s /\ reads_as order_conv t x s) 1 an_order.
Proof.
  destruct (program_names_ok order_names [order_file] [] shop_program order_valid order_json_valid shop_of) as (_ & Pn & _).
  intros M O P i Hi. apply order_parts in P as [[-> ->]|[-> (z & b & s & -> & Ps)]].
  - destruct Hi as [<-|[<-|[<-|[<-|[<-|[<-|[<-|[]]]]]]]]; (split; [exact (Pn _ _)|]); unfold fine_field; unfold Values.field_at; cbn;
      try (plains || exact I).
    + apply Forall_cons; [split; [plains | exact I]|]. apply Forall_nil.
    + exists (bytes_of "Express"). split; [lia|]. split; [reflexivity | plains].
    + split; [discriminate|]. apply Forall_cons; [|apply Forall_nil]. cbn. split; [exact number_1 | reflexivity].
  - destruct Hi as [<-|[<-|[]]]; (split; [exact (Pn _ _)|]); [exact I | exact Ps].
Qed.

Example C93_case : exists t,
  let sch := program_schema shop_program in let sch' := program_schema client_program in
  let nm := program_names order_names shop_program in let nm' := program_names order_names client_program in
  json_valid order_names [order_file] /\ no_bool_keys [order_file]
  /\ json_runs_as order_names shop_program sch nm /\ json_runs_as order_names client_program sch' nm'
  /\ object_ok sch 1 an_order /\ json_serializes sch nm order_formats 1 an_order t /\ quotes_only t /\ right_on scanner quotes_only
  /\ fine sch nm order_formats numbered (fun t x s => number s /\ reads_as order_conv t x s) 1 an_order /\ nowhere_empty sch 1 an_order
  /\ t = bytes_of "{""id"":-7,""lines"":[{""price"":995,""name"":""book""}],""tags"":{""a"":3},""kind"":""Express"",""note"":"""",""ratio-list"":[1],""first"":{""price"":-995,""name"":""""}}"
  /\ json_deserializes scanner order_conv sch' nm' 1 t (Values.default_obj sch' 1)
       [ Values.VScalar (Values.SNum (-7));
         Values.VList [Values.VMsg [Values.VScalar (Values.SNum 995); Values.VScalar (Values.SStr false [98; 111; 111; 107]%Z)]];
         Values.VMap [(Values.SStr false [97%Z], Values.VScalar (Values.SNum 3))];
         Values.VScalar (Values.SNum 1); Values.VScalar (Values.SStr true []);
         Values.VList [Values.VScalar (Values.SNum one_double)];
         Values.VMsg [Values.VScalar (Values.SNum (-995)); Values.VScalar (Values.SStr true [])] ].
Proof.
  eexists. cbv zeta. split; [exact order_json_valid|]. split.
  { unfold no_bool_keys. cbn. repeat (apply Forall_cons; [cbn; repeat (apply Forall_cons; [discriminate|]); apply Forall_nil|]). apply Forall_nil. }
  split; [exact (json_runs order_names _ _ _ order_valid order_json_valid shop_of (order_usable _ _))|].
  split; [exact (json_runs order_names _ _ _ order_valid order_json_valid client_of (order_usable _ _))|].
  rewrite shop_schema_is. split; [exact an_order_ok|]. split; [exists 20; vm_compute; reflexivity|].
  split; [apply quotes_checked; vm_compute; reflexivity|]. split; [exact scanner_right|]. split; [exact order_fine|].
  split; [intros M O P; apply order_parts in P as [[-> _]|[-> _]]; discriminate|]. split; [vm_compute; reflexivity | exists 20; vm_compute; reflexivity].
Qed.

(** The JSON names  say "hi"  and  a\tb , and the one that the file gives for "full_name"; an enumerator "express". *)
Definition kinds_file : proto :=
  mkProto "" [ Message 0 "Parcel" [ mkMField "full_name" 1 (One (Simple TString)); mkMField "kind" 2 (One (Enu 0)) ] [ mkEnum 0 "Kind" [("none", 0%Z); ("express", 1%Z)] ] [] ] [].
Definition kinds_names (m : nat) (n : Z) : list Z := bytes_of (if (n =? 1)%Z then "fullName" else "kind").
Definition kinds_program : program := mkProgram [kinds_file] false (registrations [kinds_file] []) (fun _ => [1; 0]).
Example C93_names_case :
  ~ for_itself (bytes_of "say ""hi""") /\ table_name (bytes_of "say ""hi""") = None
  /\ ~ for_itself (bytes_of "a\tb") /\ table_name (bytes_of "a\tb") = Some [97; 9; 98]%Z /\ for_itself (bytes_of "full-name")
  /\ json_valid kinds_names [kinds_file] /\ (forall n, kinds_names 0 n <> bytes_of "full_name")
  /\ json_read kinds_names kinds_program (Message 0 "Parcel" [ mkMField "full_name" 1 (One (Simple TString)); mkMField "kind" 2 (One (Enu 0)) ]
       [ mkEnum 0 "Kind" [("none", 0%Z); ("express", 1%Z)] ] []) [1; 0] (bytes_of "fullName") = Some (0, Values.FSing (Values.ES Values.TString))
  /\ first_capital "express" <> "express" /\ n_enum (program_names kinds_names kinds_program) 0 1 = [(bytes_of "None", 0%Z); (bytes_of "Express", 1%Z)]
  (** The value 1 is written as "Express", and "express" is read as -1. *)
  /\ json_serializes (program_schema kinds_program) (program_names kinds_names kinds_program) order_formats 0
       [Values.VScalar (Values.SStr true []); Values.VScalar (Values.SNum 1)] (bytes_of "{""kind"":""Express"",""fullName"":""""}")
  /\ json_deserializes scanner order_conv (program_schema kinds_program) (program_names kinds_names kinds_program) 0 (bytes_of "{""kind"":""express"",""full_name"":""x""}")
       [Values.VScalar (Values.SStr true []); Values.VScalar (Values.SNum 0)] [Values.VScalar (Values.SStr true []); Values.VScalar (Values.SNum (-1))].
Proof.
  split; [intro F; vm_compute in F; inversion F; subst; repeat (match goal with H : Forall _ (_ :: _) |- _ => inversion H; clear H; subst end); intuition congruence|].
  split; [reflexivity|].
  split; [intro F; vm_compute in F; inversion F; subst; repeat (match goal with H : Forall _ (_ :: _) |- _ => inversion H; clear H; subst end); intuition congruence|].
  split; [reflexivity|]. split; [vm_compute; repeat (apply Forall_cons; [repeat split; discriminate|]); apply Forall_nil|].
  split.
  { split; [|split].
    - cbn. repeat (apply Forall_cons; [split; [cbn; repeat constructor; cbn; intuition discriminate | cbn; repeat (apply Forall_cons; [plains|]); apply Forall_nil] |]).
      apply Forall_nil.
    - cbn. repeat constructor. cbn. tauto.
    - cbn. apply Forall_cons; [|apply Forall_nil]. split; [cbn; repeat constructor; cbn; intuition discriminate|].
      cbn [e_values]. repeat (apply Forall_cons; [do 2 eexists; split; [reflexivity|]; split; [cbn; intuition discriminate|]; cbn;
        repeat (apply Forall_cons; [apply name_char_in; cbn; intuition congruence|]); apply Forall_nil |]). apply Forall_nil. }
  split; [intro n; unfold kinds_names; destruct (n =? 1)%Z; discriminate|]. split; [reflexivity|]. split; [discriminate|]. split; [reflexivity|].
  split; [exists 3; vm_compute; reflexivity | exists 20; vm_compute; reflexivity].
Qed.

(** Escape sequences in JSON names and what is in the table for them: octal, hexadecimal and universal ones. *)
Example C93_escapes_case :
  table_name (bytes_of "\101b\7") = Some [65; 98; 7]%Z /\ table_name (bytes_of "\400") = None
  /\ table_name (bytes_of "\x4aG") = Some [74; 71]%Z /\ table_name (bytes_of "\xyz") = None /\ table_name (bytes_of "\x123") = None
  /\ table_name (bytes_of "\u00e9!") = Some [195; 169; 33]%Z /\ table_name (bytes_of "\u12") = None
  /\ table_name (bytes_of "\U0001F600") = Some [240; 159; 152; 128]%Z /\ table_name (bytes_of "a\0b") = Some [97]%Z.
Proof. vm_compute. repeat split. Qed.

Print Assumptions C93_runs_partial.
Print Assumptions C93_as_declared_partial.
Print Assumptions C93_table_names.
Print Assumptions C93_json_name_refuted.
Print Assumptions C93_original_name_refuted.
Print Assumptions C93_enum_names_refuted.
Print Assumptions C93_exchange_partial.

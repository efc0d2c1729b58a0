(** Properties C53 and C91: objects read from JSON texts, and messages that go from one format to the other. *)

From Coq Require Import String ZArith List Bool Lia.
From Verif Require Import Base WireModel Values WireSpec MessageSpec MessageModel MessageProofs SerializeProofs MessageFacts RunFacts PropFacts
  Examples ObjectModel ObjectSpec ObjectProofs TypedProofs ExactSpec ExactWrite JsonSpec JsonModel JsonProofs JsonUnique PropertiesJson JsonReadModel
  JsonReadSpec JsonReadProofs JsonReadFacts JsonScan PropertiesJsonRead JsonTyped JsonRelay.
Import ListNotations.
Open Scope Z_scope.

(** ** C53 Deserialization yields well-typed objects, from JSON too *)

(** Whatever the text is, JSON or not, every member of the object has a value of its type afterwards, and the keys of maps are in order
    and distinct.  Of microjson and Qt it is only expected that they give bytes and floating point numbers. *)
Theorem C53_json_well_typed : forall mj conv sch nm m t base r, gives_bytes mj -> gives_floats conv -> enum_values nm -> schema_ok sch ->
  bytes t -> object_ok sch m base -> json_deserializes mj conv sch nm m t base r -> object_ok sch m r.
Proof. intros mj conv sch nm m t base r Mj Cv En S B O (fuel & H). exact (read_object_ok mj conv sch nm Mj Cv En S fuel m t base r B O H). Qed.

(** Nor are null pointers put into it, unless there are maps to messages. *)
Theorem C53_json_no_null_elements : forall mj conv sch nm m t base r, schema_ok sch -> no_message_maps sch -> no_nulls (VMsg base) ->
  json_deserializes mj conv sch nm m t base r -> no_nulls (VMsg r).
Proof. intros mj conv sch nm m t base r S NM N (fuel & H). exact (read_object_nulls mj conv sch nm S NM fuel m t base r N H). Qed.

Lemma no_chars u : chars [] u -> u = [].
Proof.
  assert (U : forall c s, [] = utf8 c ++ s -> False) by (intros c s X; unfold utf8 in X; destruct (c <? 128), (c <? 2048), (c <? 65536); discriminate X).
  intro C. remember [] as l eqn:E in C. destruct C; try reflexivity; try discriminate E; symmetry in E; now apply U in E.
Qed.

(** A map to messages holds a null pointer if the text has an empty string in the place of a message. *)
Theorem C53_json_null_map_value_refuted : forall mj ok conv f en m' key t old, right_on mj ok -> (forall t, ok t -> letters_plain t) ->
  Forall plain f -> ok t -> text (JObj [(f, JObj [(key, JStr [])])]) t ->
  exists r, json_deserializes mj conv (one (FMap TString (EM m'))) (single_names f en) 0 t [old] r /\ ~ no_nulls (VMsg r).
Proof.
  intros mj ok conv f en m' key t old R A P O T. destruct (one_member mj ok R A f _ t T O P) as (x & H & E).
  destruct (handed_object ok _ _ H) as (u & -> & Ou & Tu & Nu & Nn). pose proof R as (_ & _ & _ & R4). destruct (R4 _ _ Ou Tu) as (ps & Pr & Hp).
  inversion Hp as [|p q l' ps' Hq Hl]; subst. inversion Hl; subst. destruct q as [name v]. destruct Hq as (H1 & H2 & H3). cbn [fst snd] in *.
  assert (v = (StringType, [])) as ->.
  { destruct H3 as (w & _ & Tw & ->). inversion Tw as [| | | |s' u' C| | | |]; subst. now rewrite (no_chars _ C). }
  inversion Pr as [| |s0 i v vs Ne Ex Le Pr']; subst. apply Nat.leb_le in Le. set (ky := read_key conv TString name).
  assert (Rd : forall n, (2 <= n)%nat -> forall rec, read_value mj conv (one (FMap TString (EM m'))) (single_names f en) rec n 0 0 (ObjectType, u)
                 = Ok (Some (VMap [(ky, VNull)]), true)).
  { intros n Ln rec. unfold read_value, field_at. cbn [one msg_at nth md_fields f_ty snd single_names n_enum].
    assert (Stop : forall k acc, read_pairs mj conv rec (Datatypes.S k) en TString (EM m') (skipn i (unopened 123 u)) acc = Ok acc).
    { intros k acc. inversion Pr' as [E0|s0 Ne' Ex'|]; subst; [reflexivity|]. cbn [read_pairs].
      destruct (skipn i (unopened 123 u)); [contradiction|]. now rewrite skip_open_spec, Ex'. }
    destruct n as [|[|n]]; [lia | lia|]. remember (Datatypes.S n) as n1. destruct u as [|c u]; [contradiction|]. cbn [read_pairs]. rewrite skip_open_spec, Ex. cbn [read_entry_value snd bind].
    rewrite Le, Heqn1, Stop. reflexivity. }
  eexists. split; [apply (one_value mj ok conv (FMap TString (EM m')) f en (JObj [(key, JStr [])]) t old (ObjectType, u)
                             (Some (VMap [(ky, VNull)])) true 2 E)|].
  - cbn [fst snd is_object]. destruct (same_bytes u (bytes_of "null")) eqn:X; [apply same_bytes_spec in X; contradiction | reflexivity].
  - apply Rd. lia.
  - exact H.
  - cbn. tauto.
Qed.

(** ** C91 The formats agree *)

(** The receiver of a binary message writes the same JSON text as the sender.  Missing: negative zeros, see the next theorem. *)
Theorem C91_text_partial : forall sch nm fm m obj bs r o t, schema_ok sch -> object_ok sch m obj -> serializes sch m obj bs -> Zlen bs <= INT_MAX ->
  deserializes sch m bs r o -> no_minus_zero sch m obj -> (json_serializes sch nm fm m r t <-> json_serializes sch nm fm m obj t).
Proof.
  intros sch nm fm m obj bs r o t S O H B D N. destruct (run_arrives sch m obj bs S O H B) as (r1 & D1 & A).
  destruct (deserializes_fun _ _ _ _ _ _ _ D D1) as [-> ->]. unfold json_serializes.
  split; intros (f & E); exists f; rewrite <- E; [| symmetry]; now apply arrives_same_text.
Qed.

(** A negative zero in a field is written as such by the sender, and as zero by the receiver. *)
Theorem C91_text_refuted : forall name en fm bs r o t t', fmt_float fm (2 ^ 31) <> fmt_float fm 0 ->
  serializes (single TFloat) 0 [VScalar (SNum (2 ^ 31))] bs -> deserializes (single TFloat) 0 bs r o ->
  json_serializes (single TFloat) (single_names name en) fm 0 [VScalar (SNum (2 ^ 31))] t ->
  json_serializes (single TFloat) (single_names name en) fm 0 r t' -> t <> t'.
Proof.
  intros name en fm bs r o t t' F H D (f & E) (f' & E') Et.
  assert (Eb : bs = [13; 0; 0; 0; 128]). { apply (serializes_fun (single TFloat) 0 [VScalar (SNum (2 ^ 31))]); [exact H | exists 1%nat; vm_compute; reflexivity]. }
  subst bs. assert (D' : deserializes (single TFloat) 0 [13; 0; 0; 0; 128] [VScalar (SNum 0)] (Ok tt)) by (split; [discriminate | exists 3%nat; vm_compute; reflexivity]).
  destruct (deserializes_fun _ _ _ _ _ _ _ D D') as [-> _].
  apply single_text in E, E'. rewrite E, E' in Et. injection Et as Et. apply app_inv_head in Et. injection Et as Et. apply app_inv_tail in Et. exact (F Et).
Qed.

(** [relayed m obj r]: a message with the values [obj] goes from one program to the next, as bytes or as JSON text, each of them reading it
    and sending on what it read; the last one holds the values [r]. *)
Section Relay.
  Variable mj : microjson.
  Variable ok : list Z -> Prop.
  Variable conv : conversions.
  Variable sch : schema.
  Variable nm : names.
  Variable fm : formats.

  Inductive relayed (m : nat) : list value -> list value -> Prop :=
  | relayed_not obj : relayed m obj obj
  | relayed_binary obj bs r o r' : serializes sch m obj bs -> Zlen bs <= INT_MAX -> deserializes sch m bs r o -> relayed m r r' -> relayed m obj r'
  | relayed_json obj t base r r' : json_serializes sch nm fm m obj t -> ok t -> bytes t -> object_ok sch m base ->
      json_deserializes mj conv sch nm m t base r -> relayed m r r' -> relayed m obj r'.
End Relay.

(** However long the way is and whatever formats are used, the message that arrives is the one that was sent.  Missing: messages with null
    elements, which the first step drops, and what JSON cannot transport, see C43 and C60. *)
Theorem C91_relay_partial : forall mj ok conv sch nm fm m obj r,
  right_on mj ok -> (forall t, ok t -> quotes_only t) -> gives_bytes mj -> gives_floats conv -> names_ok sch nm -> enum_values nm -> schema_ok sch ->
  (forall m i e, f_ty (field_at sch m i) <> FMap TBool e) ->
  zeros_fine fm (fun t x s => number s /\ reads_as conv t x s) ->
  object_ok sch m obj -> no_nulls (VMsg obj) ->
  fine sch nm fm numbered (fun t x s => number s /\ reads_as conv t x s) m obj -> nowhere_empty sch m obj ->
  relayed mj ok conv sch nm fm m obj r -> same sch m r obj.
Proof.
  intros mj ok conv sch nm fm m obj r Ro Qo Gb Gf Nm En S Nb Zf O N F E R.
  assert (G : forall a, object_ok sch m a -> same sch m a obj -> relayed mj ok conv sch nm fm m a r -> same sch m r obj); [| exact (G obj O eq_refl R)].
  clear R. intros a Oa Sa R. induction R as [a | a bs x o y H B D R IH | a t base x y H Ot Bt Ob D R IH].
  - exact Sa.
  - pose proof (same_nulls sch m a obj Oa O Sa N) as Na. destruct H as (f & H).
    destruct (round_trip sch S f (Datatypes.S (length bs)) m a bs Oa H B ltac:(lia)) as (r1 & R1 & _ & R3).
    assert (D1 : deserializes sch m bs r1 (Ok tt)) by (split; [discriminate | eexists; exact R1]).
    destruct (deserializes_fun _ _ _ _ _ _ _ D D1) as [-> ->].
    destruct (message_write sch S f m a bs Oa H B) as (g & Eg & _).
    apply IH; [| unfold same in *; rewrite R3; rewrite (drop_nulls_obj a Na); exact Sa].
    exact (proj1 (deserialize_typed sch m bs r1 (Ok tt) (enc_recs_bytes _ _ Eg) D1)).
  - pose proof (same_nulls sch m a obj Oa O Sa N) as Na.
    assert (L : length base = length a) by (rewrite (object_ok_length sch m base Ob), (object_ok_length sch m a Oa); reflexivity).
    destruct (C60_round_trip_partial mj ok conv sch nm fm m base a t Ro Qo Nm S Oa L H Ot) as (r1 & D1 & S1).
    + now apply (fine_same sch S nm fm numbered _ Zf m a obj).
    + now apply (nowhere_empty_same sch S m a obj).
    + exact Nb.
    + pose proof (C60_one_result _ _ _ _ _ _ _ _ _ D D1) as ->.
      apply IH; [exact (C53_json_well_typed mj conv sch nm m t base r1 Gb Gf En S Bt Ob D) |].
      unfold same in *. rewrite S1. rewrite (drop_nulls_obj a Na). exact Sa.
Qed.

(** ** Cases *)

Lemma bytes_tl s : bytes s -> bytes (tl s).
Proof. intro B. destruct s; [exact B | now inversion B]. Qed.
Lemma bytes_rev s : bytes s -> bytes (rev s).
Proof. intro B. apply Forall_forall. intros x X. apply in_rev in X. revert x X. now apply Forall_forall. Qed.
Lemma bytes_drop_ws s : bytes s -> bytes (drop_ws s).
Proof. induction 1; cbn [drop_ws]; [constructor |]. destruct (is_ws x); [assumption | now constructor]. Qed.
Lemma bytes_trim s : bytes s -> bytes (trim s).
Proof. intro B. unfold trim. now apply bytes_rev, bytes_drop_ws, bytes_rev, bytes_drop_ws. Qed.
Lemma bytes_cut s : bytes s -> forall d p, bytes (fst (cut d p s)) /\ bytes (snd (cut d p s)).
Proof.
  induction 1 as [| c s C B IH]; intros d p; cbn [cut]; [split; constructor |].
  assert (G : forall d p, bytes (fst (let '(a, b) := cut d p s in (c :: a, b))) /\ bytes (snd (let '(a, b) := cut d p s in (c :: a, b)))).
  { intros d' p'. destruct (IH d' p') as [I1 I2]. destruct (cut d' p' s). cbn in *. split; [now constructor | exact I2]. }
  assert (St : bytes (fst (@nil Z, c :: s)) /\ bytes (snd (@nil Z, c :: s))) by (split; [constructor | now constructor]).
  destruct p; [| | apply G].
  - destruct (c =? 34); [apply G |]. destruct ((c =? 91) || (c =? 123)); [apply G |]. destruct ((c =? 93) || (c =? 125)); [destruct d; [exact St | apply G] |].
    destruct (c =? 44); [destruct d; [exact St | apply G] | apply G].
  - destruct (c =? 34); [apply G |]. destruct (c =? 92); apply G.
Qed.
Lemma bytes_string_end s : bytes s -> forall e, bytes (fst (string_end e s)) /\ bytes (snd (string_end e s)).
Proof.
  induction 1 as [| c s C B IH]; intro e; cbn [string_end]; [split; constructor |].
  destruct (negb e && (c =? 34)); [split; [constructor | exact B] |].
  destruct (IH (negb e && (c =? 92))) as [I1 I2]. destruct (string_end _ s). cbn in *. split; [now constructor | exact I2].
Qed.
Lemma bytes_removelast s : bytes s -> bytes (removelast s).
Proof. induction 1 as [| c s C B IH]; [constructor |]. cbn [removelast]. destruct s; [constructor | now constructor]. Qed.
Lemma bytes_hand_over s : bytes s -> bytes (snd (hand_over s)).
Proof.
  intro B. destruct s as [| c s]; [constructor |]. cbn [hand_over]. destruct (c =? 34); [apply bytes_removelast; now inversion B |].
  destruct (c =? 91); [exact B |]. destruct (_ || _); [exact B |]. destruct (_ || _); exact B.
Qed.
Lemma bytes_property s : bytes s -> bytes (fst (property_of s)) /\ bytes (snd (snd (property_of s))).
Proof.
  intro B. unfold property_of. destruct (bytes_string_end (tl (drop_ws s)) (bytes_tl _ (bytes_drop_ws _ B)) false) as [I1 I2].
  destruct (string_end false (tl (drop_ws s))) as [name rest]. cbn in *. split; [exact I1 |]. now apply bytes_hand_over, bytes_trim, bytes_tl, bytes_drop_ws.
Qed.
Lemma bytes_pieces : forall n s, bytes s -> Forall bytes (pieces n s).
Proof.
  induction n as [| n IH]; intros s B; cbn [pieces]; [constructor |]. destruct (bytes_cut s B 0%nat Outside) as [I1 I2].
  destruct (cut 0 Outside s) as [a b]. cbn in I1, I2. apply bytes_trim in I1. destruct (trim a) as [| x l]; [constructor |]. constructor; [exact I1 |].
  destruct b as [| c b]; [constructor |]. destruct (c =? 44); [| constructor]. apply IH. now inversion I2.
Qed.

Lemma scanner_bytes : gives_bytes scanner.
Proof.
  split; [| split; [| split]]; cbn [parseJsonObject parseJsonArray extractValue extractProperty scanner].
  - intros s B. apply Forall_forall. intros p P. apply in_map_iff in P. destruct P as (x & <- & X). apply bytes_property.
    exact (proj1 (Forall_forall _ _) (bytes_pieces _ _ (bytes_tl _ B)) x X).
  - intros s B. apply Forall_forall. intros p P. apply in_map_iff in P. destruct P as (x & <- & X). apply bytes_hand_over.
    exact (proj1 (Forall_forall _ _) (bytes_pieces _ _ (bytes_tl _ B)) x X).
  - intros s c i v B H. destruct (bytes_cut s B 0%nat Outside) as [I1 I2]. destruct (cut 0 Outside s) as [a b]. cbn in I1. apply bytes_trim in I1.
    destruct (trim a) as [| x l]; [discriminate H |]. assert (v = hand_over (x :: l)) as -> by congruence. now apply bytes_hand_over.
  - intros s c i n v B H. destruct (bytes_cut s B 0%nat Outside) as [I1 I2]. destruct (cut 0 Outside s) as [a b]. cbn in I1. apply bytes_trim in I1.
    destruct (trim a) as [| x l]; [discriminate H |]. assert (E : (n, v) = property_of (x :: l)) by congruence.
    pose proof (bytes_property _ I1) as P. rewrite <- E in P. exact P.
Qed.

(** message Point { float x = 1; repeated double path = 2; string name = 3; Point next = 4; } with numbers 0, -0 and 1. *)
Definition point_sch : schema :=
  [ mkMsg [mkField 1 (FSing (ES TFloat)); mkField 2 (FRep (ES TDouble)); mkField 3 (FSing (ES TString)); mkField 4 (FRep (EM 1))] [0; 1; 2; 3]%nat;
    mkMsg [mkField 1 (FSing (ES TSInt32))] [0%nat] ].
Definition point_names : names :=
  mkNames (fun m i => nth i (nth m [[bytes_of "x"; bytes_of "path"; bytes_of "name"; bytes_of "next"]; [bytes_of "n"]] []) [65])
  (fun _ _ => []).
Definition point_formats : formats :=
  mkFormats (fun x => if x =? 0 then bytes_of "0" else if x =? 2 ^ 31 then bytes_of "-0" else bytes_of "1")
            (fun x => if x =? 0 then bytes_of "0" else if x =? 2 ^ 63 then bytes_of "-0" else bytes_of "1")
            (fun x => if x =? 0 then bytes_of "0" else if x =? 2 ^ 63 then bytes_of "-0" else bytes_of "1").
Definition point_conv : conversions := fun t s =>
  let one := match t with TFloat => 1065353216 | _ => 4607182418800017408 end in
  let minus := match t with TFloat => 2 ^ 31 | _ => 2 ^ 63 end in
  if same_bytes s (bytes_of "0") then (0, true) else if same_bytes s (bytes_of "-0") then (minus, true)
  else if same_bytes s (bytes_of "1") then (one, true) else (0, false).
Definition point_obj (x : Z) : list value :=
  [ VScalar (SNum x); VList [VScalar (SNum (2 ^ 63)); VScalar (SNum 4607182418800017408)]; VScalar (SStr false (bytes_of "way"));
    VList [VMsg [VScalar (SNum (-3))]] ].
Definition point_bytes (x : Z) : list Z := match serializeMessage 3 point_sch 0 (point_obj x) with Ok bs => bs | _ => [] end.
Definition point_text (x : Z) : list Z := match json_object 3 point_sch point_names point_formats 0 (point_obj x) with Ok t => t | _ => [] end.

Lemma point_sch_ok : schema_ok point_sch.
Proof.
  unfold schema_ok, point_sch. constructor; [| constructor; [| constructor]]; unfold msg_ok; cbn [md_fields md_order map f_num];
    (split; [| split; [| split]]);
    try (repeat (apply NoDup_cons; [cbn; lia |]); apply NoDup_nil);
    try (repeat (apply Forall_cons; [split; [vm_compute; split; congruence | cbn; exact Logic.I] |]); apply Forall_nil);
    intro i; cbn; lia.
Qed.

Lemma point_names_ok : names_ok point_sch point_names.
Proof.
  split; [| split].
  - intros [| [| m]]; cbn; [repeat constructor; cbn; intuition discriminate | repeat constructor; intros [] | destruct m; cbn; apply NoDup_nil].
  - intros [| [| m]] i; cbn [n_json point_names nth]; [| | destruct m, i; plains].
    + do 4 (destruct i as [| i]; [plains |]). destruct i; plains.
    + destruct i as [| [| i]]; plains.
  - intros m i. cbn [n_enum point_names]. split; [apply NoDup_nil | intros p []].
Qed.

Lemma point_parts x M O : part point_sch 0 (point_obj x) M O -> (M = 0%nat /\ O = point_obj x) \/ (M = 1%nat /\ O = [VScalar (SNum (-3))]).
Proof.
  assert (Sub : forall M O, part point_sch 1 [VScalar (SNum (-3))] M O -> M = 1%nat /\ O = [VScalar (SNum (-3))]).
  { intros M' O' P. inversion P as [|m' obj' i m'' M1 O1 I1 Ty|m' obj' i m'' sub M1 O1 I1 Ty|m' obj' i k m'' kv M1 O1 I1 Ty]; subst;
      [now split |..]; destruct I1 as [<-|[]]; discriminate Ty. }
  intro P. inversion P as [|m' obj' i m'' M1 O1 I1 Ty|m' obj' i m'' sub M1 O1 I1 Ty Is P1|m' obj' i k m'' kv M1 O1 I1 Ty]; subst; [now left |..];
    destruct I1 as [<-|[<-|[<-|[<-|[]]]]]; try discriminate Ty.
  injection Ty as <-. right. destruct Is as [Is|[]]. injection Is as <-. now apply Sub.
Qed.

Lemma point_ok x : in_u 32 x -> object_ok point_sch 0 (point_obj x).
Proof. intro X. ok_values; unfold in_u in *; cbn in *; lia. Qed.

Definition floats : sty -> Z -> list Z -> Prop := fun t x s => number s /\ reads_as point_conv t x s.
Lemma text_0 : number (bytes_of "0").
Proof. apply (number_of [] [48] [] []); [now left | constructor | constructor | constructor]. Qed.
Lemma text_minus_0 : number (bytes_of "-0").
Proof. apply (number_of [45] [48] [] []); [now right | constructor | constructor | constructor]. Qed.
Lemma text_1 : number (bytes_of "1").
Proof. apply (number_of [] [49] [] []); [now left | ints | constructor | constructor]. Qed.

Lemma point_zeros : zeros_fine point_formats floats.
Proof.
  split; intros x [-> | ->]; repeat split; try exact text_0; try exact text_minus_0.
Qed.

Lemma point_fine x : x = 1065353216 \/ x = 2 ^ 31 -> fine point_sch point_names point_formats numbered floats 0 (point_obj x).
Proof.
  intros X M O P i Hi. apply point_parts in P as [[-> ->]|[-> ->]].
  - destruct Hi as [<-|[<-|[<-|[<-|[]]]]]; (split; [plains |]); unfold fine_field; cbn [f_ty field_at]; unfold field_at; cbn [nth point_sch msg_at md_fields f_ty].
    + cbn [fine_scalar point_obj nth scalar_of num_of]. destruct X as [-> | ->]; split; try exact text_1; try exact text_minus_0; reflexivity.
    + split; [discriminate |]. cbn [point_obj nth list_of map scalar_of].
      apply Forall_cons; [split; [exact text_minus_0 | reflexivity] |]. apply Forall_cons; [split; [exact text_1 | reflexivity] |]. apply Forall_nil.
    + plains.
    + exact I.
  - destruct Hi as [<-|[]]. split; [plains | exact I].
Qed.

Lemma point_floats : gives_floats point_conv.
Proof.
  assert (Zf : forall z, z = 0 \/ z = 2 ^ 31 \/ z = 1065353216 -> scalar_ok TFloat (SNum z)) by (intros z [-> | [-> | ->]]; vm_compute; split; congruence).
  assert (Zd : forall z, z = 0 \/ z = 2 ^ 63 \/ z = 4607182418800017408 -> scalar_ok TDouble (SNum z))
    by (intros z [-> | [-> | ->]]; vm_compute; split; congruence).
  intros t s F. unfold point_conv. destruct t; try discriminate F; [apply Zf | apply Zd];
    (destruct (same_bytes s (bytes_of "0")); [now left |]); (destruct (same_bytes s (bytes_of "-0")); [right; now left |]);
    (destruct (same_bytes s (bytes_of "1")); [right; now right | now left]).
Qed.

Lemma point_bool m i e : f_ty (field_at point_sch m i) <> FMap TBool e.
Proof.
  revert m i. intros [| [| m]] i; unfold field_at; cbn [msg_at point_sch nth md_fields].
  - do 4 (destruct i as [| i]; [discriminate |]). destruct i; discriminate.
  - destruct i as [| [| i]]; discriminate.
  - destruct m; cbn; destruct i; discriminate.
Qed.

(** A message with -0 in a list is read from bytes and written as JSON; the text is the sender's. *)
Example C91_text_case : exists bs r, schema_ok point_sch /\ object_ok point_sch 0 (point_obj 1065353216) /\
  serializes point_sch 0 (point_obj 1065353216) bs /\ Zlen bs <= INT_MAX /\ deserializes point_sch 0 bs r (Ok tt) /\
  no_minus_zero point_sch 0 (point_obj 1065353216) /\
  json_serializes point_sch point_names point_formats 0 r (bytes_of "{""x"":1,""path"":[-0,1],""name"":""way"",""next"":[{""n"":-3}]}").
Proof.
  exists (point_bytes 1065353216). eexists. split; [exact point_sch_ok |]. split; [apply point_ok; vm_compute; split; congruence |].
  split; [exists 3%nat; vm_compute; reflexivity |]. split; [vm_compute; discriminate |].
  split; [split; [discriminate | exists 40%nat; vm_compute; reflexivity] |]. split; [| exists 3%nat; vm_compute; reflexivity].
  intros M O i P Hi. apply point_parts in P as [[-> ->]|[-> ->]].
  - destruct Hi as [<-|[<-|[<-|[<-|[]]]]]; split; intro E; try discriminate E. cbn. discriminate.
  - destruct Hi as [<-|[]]; split; intro E; discriminate E.
Qed.

Example C91_text_refuted_case : exists bs r t t', fmt_float point_formats (2 ^ 31) <> fmt_float point_formats 0 /\
  serializes (single TFloat) 0 [VScalar (SNum (2 ^ 31))] bs /\ deserializes (single TFloat) 0 bs r (Ok tt) /\
  json_serializes (single TFloat) (single_names (bytes_of "x") []) point_formats 0 [VScalar (SNum (2 ^ 31))] t /\
  json_serializes (single TFloat) (single_names (bytes_of "x") []) point_formats 0 r t' /\
  t = bytes_of "{""x"":-0}" /\ t' = bytes_of "{""x"":0}".
Proof.
  do 4 eexists. split; [discriminate |]. split; [exists 3%nat; vm_compute; reflexivity |].
  split; [split; [discriminate | exists 9%nat; vm_compute; reflexivity] |].
  split; [exists 3%nat; vm_compute; reflexivity |]. split; [exists 3%nat; vm_compute; reflexivity |]. split; reflexivity.
Qed.

(** Bytes, JSON, bytes: the -0 of [x] is a zero at the end, which is the same number. *)
Example C91_relay_case : exists r, right_on scanner quotes_only /\ gives_bytes scanner /\ gives_floats point_conv /\ names_ok point_sch point_names /\
  enum_values point_names /\ schema_ok point_sch /\ (forall m i e, f_ty (field_at point_sch m i) <> FMap TBool e) /\ zeros_fine point_formats floats /\
  object_ok point_sch 0 (point_obj (2 ^ 31)) /\ no_nulls (VMsg (point_obj (2 ^ 31))) /\
  fine point_sch point_names point_formats numbered floats 0 (point_obj (2 ^ 31)) /\ nowhere_empty point_sch 0 (point_obj (2 ^ 31)) /\
  relayed scanner quotes_only point_conv point_sch point_names point_formats 0 (point_obj (2 ^ 31)) r /\ r = point_obj 0.
Proof.
  eexists. split; [exact scanner_right |]. split; [exact scanner_bytes |]. split; [exact point_floats |]. split; [exact point_names_ok |].
  split; [intros m i p [] |]. split; [exact point_sch_ok |]. split; [exact point_bool |]. split; [exact point_zeros |].
  split; [apply point_ok; vm_compute; split; congruence |]. split; [cbn; repeat split; discriminate |].
  split; [apply point_fine; auto |]. split; [intros M O P; apply point_parts in P as [[-> _]|[-> _]]; discriminate |].
  split; [| reflexivity].
  eapply relayed_binary with (bs := point_bytes (2 ^ 31)) (r := point_obj 0) (o := Ok tt);
    [exists 3%nat; vm_compute; reflexivity | vm_compute; discriminate | split; [discriminate | exists 40%nat; vm_compute; reflexivity] |].
  eapply relayed_json with (t := point_text 0) (base := default_obj point_sch 0) (r := point_obj 0);
    [exists 3%nat; vm_compute; reflexivity | apply quotes_checked; vm_compute; reflexivity
    | vm_compute; repeat (apply Forall_cons; [split; congruence |]); apply Forall_nil | apply default_ok
    | exists 9%nat; vm_compute; reflexivity |].
  eapply relayed_binary with (bs := point_bytes 0) (r := point_obj 0) (o := Ok tt);
    [exists 3%nat; vm_compute; reflexivity | vm_compute; discriminate | split; [discriminate | exists 40%nat; vm_compute; reflexivity] |].
  apply relayed_not.
Qed.

(** A text that is no JSON. *)
Example C53_json_case : exists r, gives_bytes scanner /\ gives_floats point_conv /\ enum_values point_names /\ schema_ok point_sch /\
  bytes (bytes_of "{""x"":[1,""path"":[1,zz],,""name"":7,""next"":{""n"":99999999999}") /\ object_ok point_sch 0 (point_obj 0) /\
  json_deserializes scanner point_conv point_sch point_names 0 (bytes_of "{""x"":[1,""path"":[1,zz],,""name"":7,""next"":{""n"":99999999999}")
    (point_obj 0) r.
Proof.
  eexists. split; [exact scanner_bytes |]. split; [exact point_floats |]. split; [intros m i p [] |]. split; [exact point_sch_ok |].
  split; [vm_compute; repeat (apply Forall_cons; [split; congruence |]); apply Forall_nil |].
  split; [apply point_ok; vm_compute; split; congruence |]. exists 9%nat. vm_compute. reflexivity.
Qed.

Example C53_json_no_null_case : exists t r, schema_ok point_sch /\ no_message_maps point_sch /\ no_nulls (VMsg (point_obj 0)) /\
  t = bytes_of "{""next"":[{},null,""""]}" /\ json_deserializes scanner point_conv point_sch point_names 0 t (point_obj 0) r /\
  nth 3 r VNull = VList [VMsg [VScalar (SNum 0)]; VMsg [VScalar (SNum 0)]; VMsg [VScalar (SNum 0)]].
Proof.
  do 2 eexists. split; [exact point_sch_ok |]. split.
  - intros [| [| m]] f k m' I; [| | destruct m; destruct I].
    + destruct I as [<- | [<- | [<- | [<- | []]]]]; discriminate.
    + destruct I as [<- | []]; discriminate.
  - split; [cbn; repeat split; discriminate |]. split; [reflexivity |]. split; [exists 9%nat; vm_compute; reflexivity | reflexivity].
Qed.

(** {"f":{"k":""}} *)
Example C53_json_null_case : exists t, one_text (JObj [(bytes_of "k", JStr [])]) letters_plain t /\
  json_deserializes scanner no_floats (one (FMap TString (EM 0))) (single_names (bytes_of "f") []) 0 t [VMap []]
    [VMap [(SStr false (bytes_of "k"), VNull)]].
Proof.
  eexists. split; [apply one_texts; [texts | vm_compute; reflexivity] | exists 9%nat; vm_compute; reflexivity].
Qed.

Print Assumptions C53_json_well_typed.
Print Assumptions C53_json_no_null_elements.
Print Assumptions C53_json_null_map_value_refuted.
Print Assumptions C91_text_partial.
Print Assumptions C91_text_refuted.
Print Assumptions C91_relay_partial.

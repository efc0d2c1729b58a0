(** Properties C43 and C56: the output of the JSON serializer. *)

From Coq Require Import String ZArith List Bool Lia.
From Verif Require Import Base Values MessageModel Examples JsonSpec JsonModel JsonProofs JsonUnique.
Import ListNotations.
Open Scope Z_scope.

(** serialize of the object [obj] with the JSON serializer returns [t]. *)
Definition json_serializes (sch : schema) (nm : names) (fm : formats) (m : nat) (obj : list value) (t : list Z) : Prop :=
  exists fuel, json_object fuel sch nm fm m obj = Ok t.

(** ** C43 The output is a JSON text *)

(** The names of the enumerators need no escaping (they are C++ identifiers). *)
Definition plain_names (en : list (list Z * Z)) (z : Z) : Prop := Forall (fun p => Forall plain (fst p)) en.

Lemma plain_names_ok en z : plain_names en z -> True /\ Forall plain (enum_key en z).
Proof.
  intro H. split; [exact I|]. unfold enum_key. destruct (z <? 0); [constructor|].
  destruct (nth_error en (Z.to_nat z)) as [p|] eqn:E; [|constructor].
  apply nth_error_In in E. unfold plain_names in H. rewrite Forall_forall in H. now apply H.
Qed.

(** The text of a floating point number is a JSON number (so it is finite). *)
Definition any_number (t : sty) (x : Z) (s : list Z) : Prop := number s.

Lemma any_number_ok fm t x s : qt_text fm t x s -> any_number t x s -> True /\ number s.
Proof. now split. Qed.

(** Not every output is a JSON text, see below. It is one if strings need no escaping, numbers are finite, and no
    message without fields occurs. Missing: the other values, whose output is no JSON text (see below). *)
Theorem C43_well_formed_partial : forall sch nm fm m obj t, json_serializes sch nm fm m obj t ->
  fine sch nm fm plain_names any_number m obj -> nowhere_empty sch m obj -> well_formed t.
Proof.
  intros sch nm fm m obj t [fuel H] F E.
  now apply (well_formed_iff sch nm fm (fun _ _ _ => True) plain_names (fun _ _ _ => True) any_number (any_number_ok fm) plain_names_ok _ _ _ _ H F).
Qed.

(** A message without fields, wherever it occurs, makes the output invalid. *)
Theorem C43_empty_message_refuted : forall sch nm fm m obj t M O, json_serializes sch nm fm m obj t ->
  fine sch nm fm plain_names any_number m obj -> part sch m obj M O -> md_order (msg_at sch M) = [] -> ~ well_formed t.
Proof.
  intros sch nm fm m obj t M O [fuel H] F P E W.
  apply (well_formed_iff sch nm fm (fun _ _ _ => True) plain_names (fun _ _ _ => True) any_number (any_number_ok fm) plain_names_ok _ _ _ _ H F) in W.
  exact (W _ _ P E).
Qed.

(** A message type with a single field. *)
Definition single (ty : sty) : schema := [mkMsg [mkField 1 (FSing (ES ty))] [0%nat]].
Definition single_names (name : list Z) (en : list (list Z * Z)) : names := mkNames (fun _ _ => name) (fun _ _ => en).

Lemma single_text ty name en fm v fuel t : json_object fuel (single ty) (single_names name en) fm 0 [VScalar v] = Ok t ->
  t = 123 :: 34 :: name ++ 34 :: 58 :: json_scalar fm en ty v ++ [125].
Proof.
  destruct fuel as [|fuel]; [discriminate|]. cbn [json_object single msg_at nth md_order map].
  unfold json_property, json_field, field_at. cbn [msg_at md_fields nth f_ty single json_value concat_res single_names n_json n_enum bind].
  rewrite app_nil_r. cbn [scalar_of]. intro H.
  assert (Et : t = chop (123 :: (34 :: name ++ 34 :: 58 :: json_scalar fm en ty v ++ [44])) ++ [125]) by (injection H as <-; reflexivity).
  subst t. change (34 :: name ++ 34 :: 58 :: json_scalar fm en ty v ++ [44]) with ((34 :: name) ++ (34 :: 58 :: json_scalar fm en ty v) ++ [44]).
  rewrite app_assoc, chop_comma. cbn [app]. rewrite <- !app_assoc. reflexivity.
Qed.

Lemma single_scan name u d : Forall plain name ->
  scan (123 :: 34 :: name ++ 34 :: 58 :: u ++ [125]) (Out, d) = scan [125] (scan u (Out, d + 1)).
Proof.
  intro P. rewrite !scan_cons. change (lex_step (lex_step (Out, d) 123) 34) with (Inside, d + 1).
  rewrite scan_app, scan_plain by exact P. rewrite !scan_cons.
  change (lex_step (lex_step (Inside, d + 1) 34) 58) with (Out, d + 1). apply scan_app.
Qed.

(** A string with a control character, a single quotation mark or a backslash at its end makes the output invalid. *)
Theorem C43_unescaped_refuted : forall name en fm null a c b t, Forall plain name -> Forall plain a ->
  json_serializes (single TString) (single_names name en) fm 0 [VScalar (SStr null (a ++ c :: b))] t ->
  (0 <= c < 32) \/ (c = 34 /\ Forall plain b) \/ (c = 92 /\ b = []) -> ~ well_formed t.
Proof.
  intros name en fm null a c b t N A [fuel H] Hc W. apply single_text in H. subst t. apply scan_well_formed in W.
  rewrite single_scan in W by exact N. cbn [json_scalar blob_of] in W. unfold quoted in W.
  rewrite <- app_assoc in W. cbn [app] in W. rewrite (scan_cons 34) in W. change (lex_step (Out, 0 + 1) 34) with (Inside, 1) in W.
  rewrite scan_app, scan_plain in W by exact A. rewrite (scan_cons c) in W. destruct Hc as [Hc|[[-> B]|[-> ->]]].
  - assert (E : lex_step (Inside, 1) c = (Bad, 1)).
    { cbn [lex_step fst snd]. destruct (Z.eqb_spec c 34); [lia|]. destruct (Z.eqb_spec c 92); [lia|].
      destruct (Z.ltb_spec c 32); [reflexivity|lia]. }
    rewrite E, scan_bad in W. discriminate W.
  - change (lex_step (Inside, 1) 34) with (Out, 1) in W. rewrite scan_app in W.
    assert (X : forall u d, Forall plain u -> (exists d', scan u (Out, d) = (Out, d')) \/ (exists d', scan u (Out, d) = (Nul, d')) \/ exists d', scan u (Out, d) = (Bad, d')).
    { clear. induction u as [|x u IH]; intros d F; [left; now exists d|]. inversion F as [|x' u' [P1 [P2 P3]] Fu]; subst. rewrite scan_cons.
      cbn [lex_step fst snd]. destruct (Z.eqb_spec x 34); [contradiction|]. destruct (Z.eqb_spec x 110).
      - destruct u as [|y u]; [right; left; now exists d|]. rewrite scan_cons. cbn [lex_step fst snd].
        destruct (Z.eqb_spec y 117); [|right; right; exists d; apply scan_bad]. specialize (IH d Fu). rewrite scan_cons in IH.
        subst y. change (lex_step (Out, d) 117) with (Out, d) in IH. exact IH.
      - destruct ((x =? 123) || (x =? 91)); [now apply IH|]. destruct ((x =? 125) || (x =? 93)); [now apply IH|].
        destruct (out_char x); [now apply IH|]. right; right. exists d. apply scan_bad. }
    destruct (X b 1 B) as [[d E]|[[d E]|[d E]]]; rewrite E in W; cbn in W; discriminate W.
  - discriminate W.
Qed.

(** A floating point field that Qt prints as "nan", "inf" or "-inf" makes the output invalid. *)
Theorem C43_not_finite_refuted : forall name en fm x t, Forall plain name ->
  In (fmt_float fm x) [bytes_of "nan"; bytes_of "inf"; bytes_of "-inf"] ->
  json_serializes (single TFloat) (single_names name en) fm 0 [VScalar (SNum x)] t -> ~ well_formed t.
Proof.
  intros name en fm x t N Hx [fuel H] W. apply single_text in H. subst t. apply scan_well_formed in W.
  rewrite single_scan in W by exact N. cbn [json_scalar num_of] in W.
  destruct Hx as [E|[E|[E|[]]]]; rewrite <- E in W; discriminate W.
Qed.

(** The serializer returns exactly when the binary serializer does: it ends on every message whose nesting is finite. *)
Definition is_ok {A} (r : res A) : bool := match r with Ok _ => true | _ => false end.

Lemma is_ok_bind {A B} (r : res A) (f : A -> res B) : (forall a, is_ok (f a) = true) -> is_ok (x <- r ;; f x) = is_ok r.
Proof. intro H. destruct r; try reflexivity. apply H. Qed.

Lemma is_ok_concat : forall l, is_ok (concat_res l) = forallb is_ok l.
Proof.
  induction l as [|r l IH]; [reflexivity|]. cbn [concat_res forallb]. rewrite <- IH.
  destruct r; try reflexivity. cbn [bind is_ok andb]. now destruct (concat_res l).
Qed.

Lemma forallb_map_ext {A} (f g : A -> res (list Z)) l : (forall x, is_ok (f x) = is_ok (g x)) ->
  forallb is_ok (map f l) = forallb is_ok (map g l).
Proof. intro H. induction l as [|x l IH]; [reflexivity|]. cbn. now rewrite H, IH. Qed.

Lemma json_defined : forall fuel sch nm fm m obj, is_ok (json_object fuel sch nm fm m obj) = is_ok (serializeMessage fuel sch m obj).
Proof.
  induction fuel as [|fuel IH]; intros sch nm fm m obj; [reflexivity|]. cbn [json_object serializeMessage].
  rewrite is_ok_bind by reflexivity. rewrite !is_ok_concat. apply forallb_map_ext. intro i.
  unfold json_property. rewrite is_ok_bind by reflexivity. unfold json_field, serializeProperty.
  assert (EL : forall en idx e v, is_ok (json_value sch fm (json_object fuel sch nm fm) en e v) =
                                  is_ok (serializeElement sch (serializeMessage fuel sch) idx e v)).
  { intros en idx e v. destruct e as [t|m']; [reflexivity|].
    destruct v; cbn; unfold serializeObject; rewrite is_ok_bind by reflexivity; apply IH. }
  destruct (f_ty (field_at sch m i)) as [e|[t|m']|k e].
  - apply EL.
  - reflexivity.
  - rewrite is_ok_bind by reflexivity. rewrite !is_ok_concat. apply forallb_map_ext. intro v.
    unfold json_list_object, serializeListElement. destruct v; try reflexivity.
    unfold serializeObject. rewrite !is_ok_bind by reflexivity. apply IH.
  - rewrite is_ok_bind by reflexivity. rewrite !is_ok_concat. apply forallb_map_ext. intro kv.
    unfold json_map_pair, serializeMapElement.
    destruct e as [t|m']; [destruct (snd kv); reflexivity|]. destruct (snd kv) eqn:V; try reflexivity;
      cbn [json_value serializeElement]; rewrite !is_ok_bind by reflexivity; try apply IH;
      unfold serializeObject; rewrite !is_ok_bind by reflexivity; apply IH.
Qed.

Theorem C43_defined : forall sch nm fm m obj,
  (exists t, json_serializes sch nm fm m obj t) <-> (exists bs, serializes sch m obj bs).
Proof.
  intros sch nm fm m obj. split.
  - intros (t & fuel & H). pose proof (json_defined fuel sch nm fm m obj) as D. rewrite H in D.
    destruct (serializeMessage fuel sch m obj) as [bs| | |] eqn:E; try discriminate D. now exists bs, fuel.
  - intros (bs & fuel & H). pose proof (json_defined fuel sch nm fm m obj) as D. rewrite H in D.
    destruct (json_object fuel sch nm fm m obj) as [t| | |] eqn:E; try discriminate D. now exists t, fuel.
Qed.

(** ** C56 The output denotes the values of the message *)

(** The enumerator with the value [z] is the one at index [z]: enumerators are numbered 0, 1, 2, ... in order. *)
Definition numbered (en : list (list Z * Z)) (z : Z) : Prop :=
  exists name, 0 <= z /\ nth_error en (Z.to_nat z) = Some (name, z) /\ Forall plain name.

Lemma numbered_ok en z : numbered en z -> named en z (enum_key en z) /\ Forall plain (enum_key en z).
Proof.
  intros (name & B & E & P). unfold enum_key. destruct (Z.ltb_spec z 0); [lia|]. rewrite E. cbn [fst].
  split; [|exact P]. unfold named. eapply nth_error_In; eauto.
Qed.

Lemma qt_text_ok fm t x s : qt_text fm t x s -> any_number t x s -> qt_text fm t x s /\ number s.
Proof. now split. Qed.

(** Read as JSON, the output is an object with a member for each field, with the field's value, and nothing else.
    Missing: keys that are no text without escapes, infinite numbers, and messages without fields, see C43. *)
Theorem C56_denotes_partial : forall sch nm fm m obj t, json_serializes sch nm fm m obj t ->
  fine sch nm fm numbered any_number m obj -> nowhere_empty sch m obj ->
  exists j, shows sch nm (qt_text fm) named [] (EM m) (VMsg obj) j /\ forall j', json_text j' t <-> j' = j.
Proof.
  intros sch nm fm m obj t [fuel H] F E.
  destruct (object_text sch nm fm named numbered (qt_text fm) any_number (qt_text_ok fm) numbered_ok _ _ _ _ H F E) as (l & L & T).
  assert (J : json_text (JObj l) t) by (exists [], t, []; rewrite app_nil_r; repeat split; [constructor .. | exact T]).
  exists (JObj l). split; [now constructor|]. intro j'. split; [|now intros ->]. intro J'. now apply (json_text_unique _ _ t).
Qed.

Lemma single_member name en fm ty v t j u : Forall plain name ->
  json_serializes (single ty) (single_names name en) fm 0 [VScalar v] t ->
  json_scalar fm en ty v = u -> text j u -> json_text (JObj [(name, j)]) t.
Proof.
  intros N [fuel H] E T. apply single_text in H. subst t u. exists [], (123 :: 34 :: name ++ 34 :: 58 :: json_scalar fm en ty v ++ [125]), [].
  split; [constructor|]. split; [constructor|]. split; [|now rewrite app_nil_r].
  pose proof (members_one [] [] [] [] name name j (json_scalar fm en ty v)
                (Forall_nil _) (Forall_nil _) (Forall_nil _) (Forall_nil _) (plain_chars _ N) T) as M.
  apply text_obj in M. cbn [app] in M. rewrite app_nil_r in M. rewrite <- app_assoc in M. cbn [app] in M. exact M.
Qed.

Lemma single_shows fl name en ty v j : shows (single ty) (single_names name en) fl named [] (EM 0) (VMsg [VScalar v]) j ->
  exists j0, j = JObj [(name, j0)] /\ shows_scalar fl named en ty v j0.
Proof.
  intro Sh. inversion Sh as [|en' m' obj l F|en' m' v' j' Hno]; subst; [|now destruct (Hno [VScalar v])].
  cbn in F. inversion F as [|i p o l' Hp F']; subst. inversion F'; subst. destruct p as [n j0]. cbn [fst snd] in Hp.
  destruct Hp as [Hn Hf]. exists j0. split; [now rewrite Hn|]. inversion Hf as [m' i' e v' j' Ty Hs|m' i' e v' j' Ty|m' i' e v' j' Ty|m' i' e1 e2 v' j' Ty]; subst;
    unfold field_at in Ty; cbn in Ty; try discriminate Ty.
  injection Ty as <-. now inversion Hs.
Qed.

(** An enum field whose value is not the index of its enumerator is written with the name of another one, or with the
    empty name. *)
Theorem C56_enum_refuted : forall name en fm z t, Forall plain name ->
  Forall (fun p => fst p <> [] /\ Forall plain (fst p)) en ->
  z < 0 \/ (forall n z', nth_error en (Z.to_nat z) = Some (n, z') -> ~ named en z n) ->
  json_serializes (single TEnum) (single_names name en) fm 0 [VScalar (SNum z)] t ->
  exists n, json_text (JObj [(name, JStr n)]) t /\ ~ named en z n /\
    forall j, json_text j t -> ~ shows (single TEnum) (single_names name en) (qt_text fm) named [] (EM 0) (VMsg [VScalar (SNum z)]) j.
Proof.
  intros name en fm z t N En Hz H.
  assert (K : Forall plain (enum_key en z) /\ ~ named en z (enum_key en z)).
  { rewrite Forall_forall in En.
    assert (Nil : ~ named en z []) by (intro I; apply En in I; now apply (proj1 I)).
    unfold enum_key. destruct (Z.ltb_spec z 0); [now split|].
    destruct (nth_error en (Z.to_nat z)) as [[n z']|] eqn:E; [|now split]. cbn [fst]. split.
    - apply nth_error_In in E. apply En in E. apply E.
    - destruct Hz as [Hz|Hz]; [lia | now apply (Hz n z')]. }
  destruct K as [P Nn]. exists (enum_key en z).
  assert (J : json_text (JObj [(name, JStr (enum_key en z))]) t).
  { eapply single_member; eauto. cbn [json_scalar num_of]. unfold quoted. constructor. now apply plain_chars. }
  split; [exact J|]. split; [exact Nn|]. intros j J' Sh. apply single_shows in Sh as (j0 & -> & n & Hn & ->). cbn [num_of] in Hn.
  pose proof (json_text_unique _ _ _ J J') as E. injection E as E. now rewrite E in Nn.
Qed.

(** A string can add members to the object. *)
Theorem C56_injection_refuted : forall f g x y en fm null t, Forall plain f -> Forall plain g -> Forall plain x -> Forall plain y ->
  json_serializes (single TString) (single_names f en) fm 0
    [VScalar (SStr null (x ++ bytes_of """,""" ++ g ++ bytes_of """:""" ++ y))] t ->
  json_text (JObj [(f, JStr x); (g, JStr y)]) t /\
  forall j, json_text j t -> ~ shows (single TString) (single_names f en) (qt_text fm) named [] (EM 0)
                               (VMsg [VScalar (SStr null (x ++ bytes_of """,""" ++ g ++ bytes_of """:""" ++ y))]) j.
Proof.
  intros f g x y en fm null t F G X Y [fuel H]. apply single_text in H.
  assert (J : json_text (JObj [(f, JStr x); (g, JStr y)]) t).
  { exists [], t, []. split; [constructor|]. split; [constructor|]. split; [|now rewrite app_nil_r]. subst t.
    pose proof (members_one [] [] [] [] g g (JStr y) (34 :: y ++ [34]) (Forall_nil _) (Forall_nil _) (Forall_nil _) (Forall_nil _)
                  (plain_chars _ G) (text_str _ _ (plain_chars _ Y))) as M2.
    pose proof (members_more [] [] [] [] f f (JStr x) (34 :: x ++ [34]) _ _ (Forall_nil _) (Forall_nil _) (Forall_nil _) (Forall_nil _)
                  (plain_chars _ F) (text_str _ _ (plain_chars _ X)) M2) as M.
    apply text_obj in M. cbn [app] in M. rewrite app_nil_r in M.
    match type of M with text _ ?a => match goal with |- text _ ?b => replace b with a; [exact M|] end end.
    cbn [json_scalar blob_of]. unfold quoted. cbn [bytes_of]. cbn -[Z.of_nat]. repeat (rewrite <- ?app_assoc; cbn [app]). reflexivity. }
  split; [exact J|]. intros j J' Sh. apply single_shows in Sh as (j0 & -> & _).
  pose proof (json_text_unique _ _ _ J J') as E. discriminate E.
Qed.

(** ** Cases *)

(** message Inner { bool on = 1; }
    message Outer { string name = 1; repeated Inner inner = 2; Color color = 3; map<string, int32> sizes = 4; bytes raw = 5; } *)
Definition json_sch : schema :=
  [ mkMsg [ mkField 1 (FSing (ES TString)); mkField 2 (FRep (EM 1)); mkField 3 (FSing (ES TEnum)); mkField 4 (FMap TString (ES TInt32));
            mkField 5 (FSing (ES TBytes)) ] [0; 1; 2; 3; 4]%nat;
    mkMsg [ mkField 1 (FSing (ES TBool)) ] [0%nat] ].
Definition json_names : names :=
  mkNames (fun m i => nth i (nth m [[bytes_of "name"; bytes_of "inner"; bytes_of "color"; bytes_of "sizes"; bytes_of "raw"]; [bytes_of "on"]] []) [])
          (fun _ _ => [(bytes_of "Red", 0); (bytes_of "Green", 1)]).
Definition json_formats : formats := mkFormats (fun _ => bytes_of "1.5") (fun _ => bytes_of "1.5") (fun _ => bytes_of "1.5").
Definition json_obj : list value :=
  [ VScalar (SStr false (bytes_of "box")); VList [VMsg [VScalar (SNum 1)]; VMsg [VScalar (SNum 0)]]; VScalar (SNum 1);
    VMap [(SStr false (bytes_of "h"), VScalar (SNum 340)); (SStr false (bytes_of "w"), VScalar (SNum (-12)))];
    VScalar (SStr false [255; 0]) ].

Lemma json_parts M O : part json_sch 0 json_obj M O ->
  (M = 0%nat /\ O = json_obj) \/ (M = 1%nat /\ exists z, O = [VScalar (SNum z)]).
Proof.
  assert (Sub : forall z M O, part json_sch 1 [VScalar (SNum z)] M O -> M = 1%nat /\ exists z, O = [VScalar (SNum z)]).
  { intros z M' O' P. inversion P as [|m' obj' i m'' M1 O1 I1 Ty|m' obj' i m'' sub M1 O1 I1 Ty|m' obj' i k m'' kv M1 O1 I1 Ty]; subst;
      [split; [reflexivity | now exists z]|..]; destruct I1 as [<-|[]]; discriminate Ty. }
  intro P. inversion P as [|m' obj' i m'' M1 O1 I1 Ty|m' obj' i m'' sub M1 O1 I1 Ty Is P1|m' obj' i k m'' kv M1 O1 I1 Ty]; subst; [now left|..];
    destruct I1 as [<-|[<-|[<-|[<-|[<-|[]]]]]]; try discriminate Ty.
  injection Ty as <-. right. destruct Is as [Is|[Is|[]]]; injection Is as <-; eapply Sub; exact P1.
Qed.

Ltac plains := repeat (apply Forall_cons; [unfold plain; cbn; lia|]); apply Forall_nil.

Lemma json_fine (ok : list (list Z * Z) -> Z -> Prop) fl : ok [(bytes_of "Red", 0); (bytes_of "Green", 1)] 1 ->
  fine json_sch json_names json_formats ok fl 0 json_obj.
Proof.
  intros Hok M O P i Hi. apply json_parts in P as [[-> ->]|[-> [z ->]]].
  - destruct Hi as [<-|[<-|[<-|[<-|[<-|[]]]]]]; (split; [plains|]); unfold fine_field; cbn [f_ty field_at]; unfold field_at; cbn;
      try (plains || exact I || exact Hok).
    + repeat (apply Forall_cons; [split; [plains | exact I]|]). apply Forall_nil.
    + repeat (apply Forall_cons; [unfold is_byte; lia|]). apply Forall_nil.
  - destruct Hi as [<-|[]]. split; [plains|exact I].
Qed.

Example C43_case : exists t, json_serializes json_sch json_names json_formats 0 json_obj t /\
  fine json_sch json_names json_formats plain_names any_number 0 json_obj /\ nowhere_empty json_sch 0 json_obj /\
  t = bytes_of "{""name"":""box"",""inner"":[{""on"":true},{""on"":false}],""color"":""Green"",""sizes"":{""h"":340,""w"":-12},""raw"":""/wA=""}".
Proof.
  eexists. split; [exists 2%nat; vm_compute; reflexivity|]. split.
  - apply json_fine. unfold plain_names. repeat (apply Forall_cons; [plains|]). apply Forall_nil.
  - split; [|vm_compute; reflexivity]. intros M O P. apply json_parts in P as [[-> _]|[-> _]]; discriminate.
Qed.

(** A message type without fields is written as "}". *)
Example C43_refuted_case :
  json_serializes [mkMsg [] []] json_names json_formats 0 [] (bytes_of "}") /\ fine [mkMsg [] []] json_names json_formats plain_names any_number 0 [] /\
  json_serializes (single TString) (single_names (bytes_of "f") []) json_formats 0 [VScalar (SStr false (bytes_of "a" ++ 10 :: bytes_of "b"))]
    (bytes_of "{""f"":""a" ++ 10 :: bytes_of "b""}") /\
  json_serializes (single TFloat) (single_names (bytes_of "f") []) (mkFormats (fun _ => bytes_of "nan") (fun _ => []) (fun _ => [])) 0
    [VScalar (SNum 2143289344)] (bytes_of "{""f"":nan}").
Proof.
  split; [exists 1%nat; reflexivity|]. split; [|split; exists 1%nat; vm_compute; reflexivity].
  intros M O P i Hi. inversion P as [|m' obj' i' m'' M1 O1 I1|m' obj' i' m'' sub M1 O1 I1|m' obj' i' k m'' kv M1 O1 I1]; subst; contradiction.
Qed.

Example C56_case : fine json_sch json_names json_formats numbered any_number 0 json_obj /\ nowhere_empty json_sch 0 json_obj /\
  exists t, json_serializes json_sch json_names json_formats 0 json_obj t.
Proof.
  split; [apply json_fine; exists (bytes_of "Green"); split; [lia|]; split; [reflexivity|plains]|].
  split; [intros M O P; apply json_parts in P as [[-> _]|[-> _]]; discriminate|].
  eexists. exists 2%nat. vm_compute. reflexivity.
Qed.

(** enum Color { Red = 0; Blue = 2; Green = 1; }: Blue is written as Green.  The string  x","g":"y  adds a member. *)
Example C56_refuted_case :
  let en := [(bytes_of "Red", 0); (bytes_of "Blue", 2); (bytes_of "Green", 1)] in
  (forall n z', nth_error en (Z.to_nat 2) = Some (n, z') -> ~ named en 2 n) /\
  json_serializes (single TEnum) (single_names (bytes_of "c") en) json_formats 0 [VScalar (SNum 2)] (bytes_of "{""c"":""Green""}") /\
  json_serializes (single TString) (single_names (bytes_of "f") en) json_formats 0 [VScalar (SStr false (bytes_of "x"",""g"":""y"))]
    (bytes_of "{""f"":""x"",""g"":""y""}").
Proof.
  split; [|split; exists 1%nat; vm_compute; reflexivity].
  intros n z' E I. injection E as <- <-. destruct I as [I|[I|[I|[]]]]; discriminate I.
Qed.

Print Assumptions C43_well_formed_partial.
Print Assumptions C43_empty_message_refuted.
Print Assumptions C43_unescaped_refuted.
Print Assumptions C43_not_finite_refuted.
Print Assumptions C43_defined.
Print Assumptions C56_denotes_partial.
Print Assumptions C56_enum_refuted.
Print Assumptions C56_injection_refuted.

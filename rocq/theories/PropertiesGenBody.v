(** C76: what the generated comparison, copies, assignments and moves do, from the text of their bodies. *)

From Coq Require Import String Ascii ZArith List Bool Arith Lia.
From Verif Require Values.
From Verif Require PropertiesObject.
From Verif Require Import Base MessageSpec MessageProofs SerializeProofs PropFacts ObjectModel ObjectSpec ObjectProofs ObjectTotal AssignProofs ObjectFacts.
From Verif Require Import GenModel GenSpec GenStrings GenTypesModel GenClassModel GenClassSpec GenClassProofs GenClassMembers GenClassBodies
  GenBodyModel GenBodySpec GenBodyProofs GenBodyCopy GenBodyMove GenBodySelf GenBodyFacts.
Import ListNotations.
Local Close Scope Z_scope.
Open Scope string_scope.

(** ** A generated class with every shape of a field, and one it contains *)

Definition gb_class (i : nat) : message :=
  match i with
  | 0 => Message 0 "Outer" [mkMField "count" 1 (One (Simple TInt32)); mkMField "ratio" 2 (One (Simple TFloat)); mkMField "title" 3 (One (Simple TString));
           mkMField "inner" 4 (One (Mess 1)); mkMField "items" 5 (Many (Mess 1)); mkMField "codes" 6 (Many (Simple TInt32));
           mkMField "table" 7 (Assoc TString (Simple TBytes))] [] []
  | 1 => Message 1 "Inner" [mkMField "id" 1 (One (Simple TSInt64)); mkMField "name" 2 (One (Simple TString))] [] []
  | _ => Message i "None" [] [] []
  end.
Definition gb_names (i : nat) : string := g_name (gb_class i).

Lemma gb_describes : describes PropertiesObject.pr_sch gb_class.
Proof.
  split; [intros [| [| [| i]]]; reflexivity |].
  intros [| [| i]]; (split; [unfold fields_distinct; cbn; repeat constructor; cbn; intuition discriminate |]); cbn; repeat constructor;
    cbn; unfold known_type; repeat split; discriminate.
Qed.

(** ** Comparison *)

(** The printed operator== tells whether the values are the same in every field. Missing: maps to messages with as many
    entries but other keys, see C25. *)
Theorem C76_comparison_partial : forall classes sch h m xs ys vs ws, describes sch classes ->
  schema_ok sch -> comparable sch m vs ws -> denotes sch h m xs vs -> denotes sch h m ys ws -> proper sch m vs -> proper sch m ws ->
  exists b, returns (fun fuel => run_equal classes sch h fuel m xs ys) b /\ (b = true <-> same sch m vs ws).
Proof.
  intros classes sch h m xs ys vs ws DS SO C DX DY PX PY.
  destruct (PropertiesObject.C25_equality_decides_partial sch h m xs ys vs ws SO C DX DY PX PY) as (b & (n & R) & _ & I).
  exists b. split; [| exact I]. exists n. intros fuel L. rewrite (equal_agrees classes sch h DS fuel m xs ys vs ws DX DY). now apply R.
Qed.

Example C76_comparison_case :
  comparable PropertiesObject.pr_sch 0 PropertiesObject.pr_obj PropertiesObject.pr_obj0
  /\ denotes PropertiesObject.pr_sch PropertiesObject.pr_heap 0 PropertiesObject.pr_mems PropertiesObject.pr_obj
  /\ proper PropertiesObject.pr_sch 0 PropertiesObject.pr_obj /\ proper PropertiesObject.pr_sch 0 PropertiesObject.pr_obj0
  /\ run_equal gb_class PropertiesObject.pr_sch PropertiesObject.pr_heap 5 0 PropertiesObject.pr_mems PropertiesObject.pr_mems = Ok true
  /\ run_equal gb_class PropertiesObject.pr_sch PropertiesObject.pr_heap 5 0 PropertiesObject.pr_mems PropertiesObject.pr_mems0 = Ok false.
Proof.
  split. { apply no_map_comparable; [apply PropertiesObject.C25_keys_case | apply PropertiesObject.pr_proper | apply PropertiesObject.pr_proper0]. }
  split; [exact PropertiesObject.pr_denotes |]. split; [exact PropertiesObject.pr_proper |]. split; [exact PropertiesObject.pr_proper0 |].
  split; vm_compute; reflexivity.
Qed.

(** ** Copies *)

(** The printed copy constructor gives every field the value of the other object, whatever was in memory before. *)
Theorem C76_copy : forall classes names qml field_numbers sch h m ys ws junk, describes sch classes ->
  schema_ok sch -> denotes sch h m ys ws -> proper sch m ws -> junk_ok sch m junk ->
  exists xs us, returns (fun fuel => run_copy_constructor classes names qml field_numbers sch h fuel junk m ys) xs /\ denotes sch h m xs us /\
    same sch m us ws /\ returns (fun fuel => run_equal classes sch h fuel m xs ys) true.
Proof.
  intros classes names qml field_numbers sch h m ys ws junk DS SO DY PY J.
  destruct (PropertiesObject.C25_copy_equal sch h m ys ws junk SO DY PY J) as (xs & us & (n & R) & DU & SU & (n' & E)).
  exists xs, us. split. { exists n. intros fuel L. rewrite (copy_agrees classes names qml field_numbers sch h DS fuel junk m ys ws DY). now apply R. }
  split; [exact DU |]. split; [exact SU |]. exists n'. intros fuel L. rewrite (equal_agrees classes sch h DS fuel m xs ys us ws DU DY). now apply E.
Qed.

(** The printed operator= gives every field the value of the other object; the signal of a field is emitted exactly if
    the value changes, and at most once. Missing: nested messages with maps to messages that cannot be compared, see C25;
    fields that are lists of messages or maps to messages may emit although nothing changes, see C24. *)
Theorem C76_assignment_partial : forall classes names qml field_numbers sch h m xs ys vs ws, describes sch classes ->
  schema_ok sch -> nested_comparable sch m vs ws -> denotes sch h m xs vs -> denotes sch h m ys ws -> proper sch m vs -> proper sch m ws ->
  exists xs' us sigs, returns (fun fuel => run_assign classes names qml field_numbers sch h fuel false m xs ys) (xs', sigs) /\
    denotes sch h m xs' us /\ same sch m us ws /\ returns (fun fuel => run_equal classes sch h fuel m xs' ys) true /\ NoDup sigs /\
    (forall s, In s sigs -> exists f, In f (g_fields (classes m)) /\ s = signal_name f) /\
    (forall j f, nth_error (g_fields (classes m)) j = Some f ->
       (~ same_field sch (fty_of (m_shape f)) (nth j vs Values.VNull) (nth j ws Values.VNull) -> In (signal_name f) sigs) /\
       (match m_shape f with Many (Mess _) | Assoc _ (Mess _) => False | _ => True end ->
        In (signal_name f) sigs -> ~ same_field sch (fty_of (m_shape f)) (nth j vs Values.VNull) (nth j ws Values.VNull))).
Proof.
  intros classes names qml field_numbers sch h m xs ys vs ws DS SO NC DX DY PX PY.
  destruct (PropertiesObject.C25_assignment_equal_partial sch h m xs ys vs ws SO NC DX DY PX PY) as (xs' & us & sg & R & DU & SU & (n' & E)).
  destruct (PropertiesObject.C24_assignment_signals_partial sch h m xs ys vs ws SO NC DX DY PX PY) as (xs2 & sg2 & R2 & ND & RG & SG).
  pose proof (returns_fun _ _ _ R R2) as Q. injection Q as <- <-. clear R2. destruct R as (n & R).
  exists xs', us, (map (signal_at (g_fields (classes m))) sg).
  split. { exists n. intros fuel L. rewrite (assign_agrees classes names qml field_numbers sch h DS fuel m xs ys vs ws DX DY), (R fuel L). reflexivity. }
  split; [exact DU |]. split; [exact SU |].
  split. { exists n'. intros fuel L. rewrite (equal_agrees classes sch h DS fuel m xs' ys us ws DU DY). now apply E. }
  assert (DF : distinct (g_fields (classes m))) by apply (proj2 DS).
  rewrite (fields_described _ _ DS), map_length in RG, SG.
  assert (AT : forall j, j < List.length (g_fields (classes m)) -> exists f, nth_error (g_fields (classes m)) j = Some f /\ signal_at (g_fields (classes m)) j = signal_name f).
  { intros j L. apply nth_error_Some in L. destruct (nth_error (g_fields (classes m)) j) as [f |] eqn:F; [| now destruct L]. exists f. split; [reflexivity |].
    unfold signal_at. now rewrite F. }
  assert (INJ : forall i j f g, nth_error (g_fields (classes m)) i = Some f -> nth_error (g_fields (classes m)) j = Some g -> signal_name f = signal_name g -> i = j).
  { intros i j f g I J Q. apply signal_inj in Q. unfold distinct in DF. rewrite NoDup_nth_error in DF. apply DF.
    - rewrite map_length. apply nth_error_Some. now rewrite I.
    - rewrite !nth_error_map, I, J. cbn [option_map]. now rewrite Q. }
  split; [| split].
  - clear R SG. revert ND RG. induction sg as [| i sg IH]; intros ND RG; [constructor |]. inversion ND as [| ? ? N ND']; subst. cbn [map]. constructor.
    + intros I. apply in_map_iff in I. destruct I as (j & Q & I). destruct (AT i (RG i (or_introl eq_refl))) as (f & F & SF).
      destruct (AT j (RG j (or_intror I))) as (g & G & SG). rewrite SF, SG in Q. apply N. now rewrite <- (INJ j i g f G F Q).
    + apply IH; [exact ND' | intros j I; apply RG; now right].
  - intros s I. apply in_map_iff in I. destruct I as (j & <- & I). destruct (AT j (RG j I)) as (f & F & SF). exists f. split; [now apply nth_error_In in F | exact SF].
  - intros j f F.
    assert (L : j < List.length (g_fields (classes m))) by (apply nth_error_Some; now rewrite F).
    assert (T : Values.f_ty (Values.field_at sch m j) = fty_of (m_shape f)).
    { unfold Values.field_at. rewrite (fields_described _ _ DS).
      assert (G : nth_error (map descriptor (g_fields (classes m))) j = Some (descriptor f)) by (rewrite nth_error_map, F; reflexivity).
      now rewrite (nth_error_nth _ j _ G). }
    destruct (SG j L) as [S1 S2]. rewrite T in S1, S2.
    assert (I : In (signal_name f) (map (signal_at (g_fields (classes m))) sg) <-> In j sg).
    { split.
      - intros I. apply in_map_iff in I. destruct I as (i & Q & I). destruct (AT i (RG i I)) as (g & G & SG'). rewrite SG' in Q. now rewrite <- (INJ i j g f G F Q).
      - intros I. apply in_map_iff. exists j. split; [| exact I]. destruct (AT j L) as (g & G & SG'). rewrite G in F. injection F as <-. exact SG'. }
    rewrite I. split; [exact S1 |]. intros Sh. apply S2. destruct (m_shape f) as [[] | [] | ? []]; cbn in *; auto.
Qed.

(** An object assigned to itself keeps its value. *)
Theorem C76_self_assignment : forall classes names qml field_numbers sch h fuel m xs vs xs' sigs, describes sch classes -> denotes sch h m xs vs ->
  run_assign classes names qml field_numbers sch h fuel true m xs xs = Ok (xs', sigs) -> xs' = xs.
Proof. intros. eapply self_assigned; eauto. Qed.

(** And emits nothing if no number in it is NaN. *)
Theorem C76_self_assignment_quiet : forall classes names qml field_numbers sch h m xs vs, describes sch classes ->
  schema_ok sch -> denotes sch h m xs vs -> proper sch m vs ->
  returns (fun fuel => run_assign classes names qml field_numbers sch h fuel true m xs xs) (xs, []).
Proof.
  intros classes names qml field_numbers sch h m xs vs DS SO DX (O & N & N2). exists (2 + odepth vs). intros [| fuel] L; [lia |].
  apply (self_assigned_quietly classes names qml field_numbers sch h DS fuel m xs vs); auto. lia.
Qed.

Example C76_assignment_case :
  nested_comparable PropertiesObject.pr_sch 0 PropertiesObject.pr_obj0 PropertiesObject.pr_obj
  /\ (exists xs,
      run_assign gb_class gb_names true true PropertiesObject.pr_sch PropertiesObject.pr_heap 5 false 0 PropertiesObject.pr_mems0 PropertiesObject.pr_mems
      = Ok (xs, ["countChanged"; "ratioChanged"; "titleChanged"; "innerChanged"; "itemsChanged"; "codesChanged"; "tableChanged"]))
  /\ (exists xs, run_copy_constructor gb_class gb_names true true PropertiesObject.pr_sch PropertiesObject.pr_heap 5 (fun _ => Values.SNum 77) 0
                   PropertiesObject.pr_mems = Ok xs)
  /\ run_assign gb_class gb_names true true PropertiesObject.pr_sch PropertiesObject.pr_heap 5 true 0 PropertiesObject.pr_mems PropertiesObject.pr_mems
     = Ok (PropertiesObject.pr_mems, []).
Proof.
  split; [apply nested_default_left |].
  split; [eexists; vm_compute; reflexivity |]. split; [eexists; vm_compute; reflexivity | vm_compute; reflexivity].
Qed.

(** ** Moves *)

(** The printed move constructor: the new object gets every value; the other one is left as an object that can be used. *)
Theorem C76_move_constructor : forall classes names qml field_numbers sch h m ys ws junk, describes sch classes ->
  schema_ok sch -> denotes sch h m ys ws -> proper sch m ws -> junk_ok sch m junk ->
  exists xs ys' us left, returns (fun fuel => run_move_constructor classes names qml field_numbers sch h fuel junk m ys) (xs, ys') /\
    denotes sch h m xs us /\ same sch m us ws /\ denotes sch h m ys' left /\ object_ok sch m left /\ no_nulls (Values.VMsg left).
Proof.
  intros classes names qml field_numbers sch h m ys ws junk DS SO DY PY J.
  destruct (PropertiesObject.C27_move_construction sch h m ys ws junk SO DY PY J) as (xs & ys' & us & left & (n & R) & DU & SU & _ & DL).
  exists xs, ys', us, left. split; [| auto].
  exists n. intros fuel L. rewrite (move_construct_agrees classes names qml field_numbers sch h DS fuel junk m ys ws DY). now apply R.
Qed.

(** The printed move assignment: the object gets every value; the other one is left as an object that can be used.
    Missing: nested messages with maps to messages that cannot be compared, see C27. *)
Theorem C76_move_assignment_partial : forall classes names qml field_numbers sch h m xs ys vs ws, describes sch classes ->
  schema_ok sch -> nested_comparable sch m vs ws -> denotes sch h m xs vs -> denotes sch h m ys ws -> proper sch m vs -> proper sch m ws ->
  exists n, forall fuel, n <= fuel -> exists w us left, run_move classes names qml field_numbers sch h fuel false m xs ys = Ok w /\
    denotes sch h m (w_this w) us /\ same sch m us ws /\ denotes sch h m (w_other w) left /\ object_ok sch m left /\ no_nulls (Values.VMsg left).
Proof.
  intros classes names qml field_numbers sch h m xs ys vs ws DS SO NC DX DY PX PY.
  destruct (PropertiesObject.C27_move_assignment_partial sch h m xs ys vs ws SO NC DX DY PX PY) as (xs' & ys' & us & left & (n & R) & DU & SU & _ & DL).
  exists n. intros fuel L. eexists. exists us, left.
  split. { rewrite (move_agrees classes names qml field_numbers sch h DS fuel m xs ys vs ws DX DY), (R fuel L). reflexivity. }
  cbn [w_this w_other]. auto.
Qed.

(** The signals of a move assignment: at most one of each field; the target emits the one of a field whose value changes,
    and the source, too. Missing: enumerations, for which nothing is emitted, and the source's number fields, which emit
    always (see below); fields that are lists of messages or maps to messages may emit although nothing changes, as in C24. *)
Theorem C76_move_signals_partial : forall classes names qml field_numbers sch h fuel m xs ys vs ws w, describes sch classes -> schema_ok sch ->
  denotes sch h m xs vs -> denotes sch h m ys ws -> proper sch m vs -> proper sch m ws ->
  run_move classes names qml field_numbers sch h fuel false m xs ys = Ok w ->
  NoDup (w_emitted w) /\ NoDup (w_other_emitted w) /\
  (forall s, In s (w_emitted w) \/ In s (w_other_emitted w) -> exists f, In f (g_fields (classes m)) /\ s = signal_name f) /\
  forall j f, nth_error (g_fields (classes m)) j = Some f ->
    let changes := ~ same_field sch (fty_of (m_shape f)) (nth j vs Values.VNull) (nth j ws Values.VNull) in
    match m_shape f with
    | One (Enu _) => True
    | One (Simple TString) | One (Simple TBytes) | One (Mess _) | Many (Simple _) | Many (Enu _) | Assoc _ (Simple _) | Assoc _ (Enu _) =>
        (In (signal_name f) (w_emitted w) <-> changes) /\ (In (signal_name f) (w_other_emitted w) <-> changes)
    | One (Simple _) => (In (signal_name f) (w_emitted w) <-> changes) /\ (changes -> In (signal_name f) (w_other_emitted w))
    | _ => (changes -> In (signal_name f) (w_emitted w)) /\ (changes -> In (signal_name f) (w_other_emitted w))
    end.
Proof.
  intros classes names qml field_numbers sch h fuel m xs ys vs ws w DS SO DX DY PX PY R.
  destruct (moved classes names qml field_numbers sch h DS fuel m xs ys vs ws w DX DY R) as (n & -> & M & E1 & E2).
  assert (DF : distinct (g_fields (classes m))) by apply (proj2 DS). rewrite E1, E2.
  split; [now apply signals_nodup |]. split; [now apply signals_nodup |].
  split; [intros s [I | I]; now apply signals_only in I |].
  intros j f F changes.
  destruct (members_at classes sch h DS m xs vs DX j f F) as (x & v & X & V & DV).
  destruct (members_at classes sch h DS m ys ws DY j f F) as (y & u & Y & U & DU).
  pose proof (field_proper_at classes sch DS m vs PX j f v F V) as PV. pose proof (field_proper_at classes sch DS m ws PY j f u F U) as PU.
  assert (G : nth_error (map descriptor (g_fields (classes m))) j = Some (descriptor f)) by (rewrite nth_error_map, F; reflexivity).
  destruct (move_fields_ok _ _ _ _ _ _ _ _ M j _ x y G X Y) as (x' & y' & MF & _).
  destruct (differ_spec classes sch h DS SO m n j f x y v u F DV DU PV PU (ex_intro _ _ MF)) as [A B].
  pose proof (signals_in (target_emits sch (eq_obj n sch h)) _ xs ys DF j f x y F X Y) as T.
  pose proof (signals_in (source_emits sch (eq_obj n sch h)) _ xs ys DF j f x y F X Y) as S.
  unfold changes. rewrite (nth_error_nth vs j _ V), (nth_error_nth ws j _ U). clear changes.
  unfold target_emits in T. unfold source_emits in S.
  pose proof (proj2 (proj2 DS m)) as SUP. rewrite Forall_forall in SUP. specialize (SUP f (nth_error_In _ _ F)). unfold supported in SUP.
  destruct (m_shape f) as [[t | m' | e | q] | [t | m' | e | q] | k [t | m' | e | q]]; try exact Logic.I; cbn [known_element] in SUP;
    try destruct t; cbn [decided] in B; rewrite T, S; split; auto; split; auto.
Qed.

(** The signal of an enumeration is emitted by neither object, although the target's value becomes the source's. *)
Theorem C76_move_enum_refuted : forall classes names qml field_numbers sch h fuel m xs ys vs ws w j f e, describes sch classes ->
  denotes sch h m xs vs -> denotes sch h m ys ws -> run_move classes names qml field_numbers sch h fuel false m xs ys = Ok w ->
  nth_error (g_fields (classes m)) j = Some f -> m_shape f = One (Enu e) ->
  nth_error (w_this w) j = nth_error ys j /\ ~ In (signal_name f) (w_emitted w) /\ ~ In (signal_name f) (w_other_emitted w).
Proof.
  intros classes names qml field_numbers sch h fuel m xs ys vs ws w j f e DS DX DY R F E.
  destruct (moved classes names qml field_numbers sch h DS fuel m xs ys vs ws w DX DY R) as (n & -> & M & E1 & E2).
  assert (DF : distinct (g_fields (classes m))) by apply (proj2 DS). rewrite E1, E2.
  destruct (members_at classes sch h DS m xs vs DX j f F) as (x & v & X & V & DV).
  destruct (members_at classes sch h DS m ys ws DY j f F) as (y & u & Y & U & DU).
  assert (G : nth_error (map descriptor (g_fields (classes m))) j = Some (descriptor f)) by (rewrite nth_error_map, F; reflexivity).
  destruct (move_fields_ok _ _ _ _ _ _ _ _ M j _ x y G X Y) as (x' & y' & MF & MX & _).
  split.
  - cbn [fst] in MX. rewrite MX, Y. cbn [descriptor Values.f_ty] in MF. rewrite E in MF. cbn in MF. now injection MF as <- _.
  - rewrite (signals_in _ _ xs ys DF j f x y F X Y), (signals_in _ _ xs ys DF j f x y F X Y). unfold target_emits, source_emits. rewrite E. split; discriminate.
Qed.

(** The source of a move emits the signal of a number whether its value changes or not. *)
Theorem C76_move_number_refuted : forall classes names qml field_numbers sch h fuel m xs ys vs ws w j f t, describes sch classes ->
  denotes sch h m xs vs -> denotes sch h m ys ws -> run_move classes names qml field_numbers sch h fuel false m xs ys = Ok w ->
  nth_error (g_fields (classes m)) j = Some f -> m_shape f = One (Simple t) -> t <> TString -> t <> TBytes ->
  In (signal_name f) (w_other_emitted w).
Proof.
  intros classes names qml field_numbers sch h fuel m xs ys vs ws w j f t DS DX DY R F E N1 N2.
  destruct (moved classes names qml field_numbers sch h DS fuel m xs ys vs ws w DX DY R) as (n & -> & M & E1 & E2).
  assert (DF : distinct (g_fields (classes m))) by apply (proj2 DS). rewrite E2.
  destruct (members_at classes sch h DS m xs vs DX j f F) as (x & v & X & V & DV).
  destruct (members_at classes sch h DS m ys ws DY j f F) as (y & u & Y & U & DU).
  rewrite (signals_in _ _ xs ys DF j f x y F X Y). unfold source_emits. rewrite E. destruct t; congruence.
Qed.

(** An object moved to itself keeps its value. *)
Theorem C76_self_move : forall classes names qml field_numbers sch h fuel m xs vs w, describes sch classes -> denotes sch h m xs vs ->
  run_move classes names qml field_numbers sch h fuel true m xs xs = Ok w -> exists us, denotes sch h m (w_this w) us /\ same sch m us vs.
Proof. intros. eapply self_moved; eauto. Qed.

(** A class with an enumeration and numbers: the target's enumeration changes from 1 to 0 silently; the source says that
    its level has changed, which was and is 0. *)
Definition gb_enum_class (i : nat) : message :=
  match i with
  | 0 => Message 0 "Setting" [mkMField "mode" 1 (One (Enu 0)); mkMField "level" 2 (One (Simple TInt32)); mkMField "title" 3 (One (Simple TString))] [] []
  | _ => Message i "None" [] [] []
  end.
Definition gb_enum_sch : Values.schema :=
  [Values.mkMsg [Values.mkField 1 (Values.FSing (Values.ES Values.TEnum)); Values.mkField 2 (Values.FSing (Values.ES Values.TInt32));
                 Values.mkField 3 (Values.FSing (Values.ES Values.TString))] [0; 1; 2]].
Definition gb_text (l : list Z) : mem := MScalar (Values.SStr false l).

Lemma gb_enum_describes : describes gb_enum_sch gb_enum_class.
Proof.
  split; [intros [| [| i]]; reflexivity |].
  intros [| i]; (split; [unfold fields_distinct; cbn; repeat constructor; cbn; intuition discriminate |]); cbn; repeat constructor;
    cbn; unfold known_type; repeat split; discriminate.
Qed.

Example C76_move_case :
  describes gb_enum_sch gb_enum_class
  /\ run_move gb_enum_class (fun i => g_name (gb_enum_class i)) true true gb_enum_sch [] 3 false 0
       [MScalar (Values.SNum 1); MScalar (Values.SNum 4); gb_text [97]%Z] [MScalar (Values.SNum 0); MScalar (Values.SNum 0); gb_text [98]%Z]
     = Ok (mkWorld [MScalar (Values.SNum 0); MScalar (Values.SNum 0); gb_text [98]%Z] [MScalar (Values.SNum 0); MScalar (Values.SNum 0); gb_text [97]%Z]
             ["levelChanged"; "titleChanged"] ["levelChanged"; "titleChanged"])
  /\ run_move gb_enum_class (fun i => g_name (gb_enum_class i)) true true gb_enum_sch [] 3 false 0
       [MScalar (Values.SNum 1); MScalar (Values.SNum 0); gb_text [97]%Z] [MScalar (Values.SNum 0); MScalar (Values.SNum 0); gb_text [97]%Z]
     = Ok (mkWorld [MScalar (Values.SNum 0); MScalar (Values.SNum 0); gb_text [97]%Z] [MScalar (Values.SNum 0); MScalar (Values.SNum 0); gb_text [97]%Z]
             [] ["levelChanged"])
  /\ (exists w, run_move gb_class gb_names true true PropertiesObject.pr_sch PropertiesObject.pr_heap 5 false 0 PropertiesObject.pr_mems0 PropertiesObject.pr_mems
                = Ok w /\ w_emitted w = ["countChanged"; "ratioChanged"; "titleChanged"; "innerChanged"; "itemsChanged"; "codesChanged"; "tableChanged"])
  /\ (exists xs ys, run_move_constructor gb_class gb_names true true PropertiesObject.pr_sch PropertiesObject.pr_heap 5 (fun _ => Values.SNum 77) 0
                      PropertiesObject.pr_mems = Ok (xs, ys))
  /\ (exists w, run_move gb_class gb_names true true PropertiesObject.pr_sch PropertiesObject.pr_heap 5 true 0 PropertiesObject.pr_mems PropertiesObject.pr_mems
                = Ok w /\ w_this w = PropertiesObject.pr_mems).
Proof.
  split; [exact gb_enum_describes |]. split; [vm_compute; reflexivity |]. split; [vm_compute; reflexivity |].
  split; [eexists; split; vm_compute; reflexivity |].
  split; [do 2 eexists; vm_compute; reflexivity |]. eexists. split; vm_compute; reflexivity.
Qed.

Print Assumptions C76_comparison_partial.
Print Assumptions C76_copy.
Print Assumptions C76_assignment_partial.
Print Assumptions C76_self_assignment.
Print Assumptions C76_self_assignment_quiet.
Print Assumptions C76_move_constructor.
Print Assumptions C76_move_assignment_partial.
Print Assumptions C76_move_signals_partial.
Print Assumptions C76_move_enum_refuted.
Print Assumptions C76_move_number_refuted.
Print Assumptions C76_self_move.

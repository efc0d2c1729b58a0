(** Proofs about programs that are generated from .proto files. *)

From Coq Require Import String ZArith List Bool Arith Permutation Lia.
From Verif Require Values.
From Verif Require Import Base WireModel MessageModel WireSpec MessageSpec MessageProofs.
From Verif Require Import GenModel GenSpec GenTypesModel GenBodyModel GenTypesSpec GenFields GenTypesProofs LinkModel LinkSpec.
From Verif Require PropertiesGenerator PropertiesGenTypes.
Import ListNotations.
Open Scope nat_scope.

(** * The order of the table does not matter to the reader *)

Section Congruence.
  Context (fuel : nat) (hard : bool) (rec rec' : nat -> list Z -> list Values.value * res unit).
  Context (E : forall m d, rec m d = rec' m d).

  Lemma object_congr m data it : deserializeObject hard rec m data it = deserializeObject hard rec' m data it.
  Proof. unfold deserializeObject. destruct (deserializeLengthDelimited hard data it) as [[a i]| | |]; cbn; try reflexivity. now rewrite E. Qed.

  Lemma element_congr e data it : deserializeElement hard rec e data it = deserializeElement hard rec' e data it.
  Proof. destruct e; cbn [deserializeElement]; [reflexivity|]. now rewrite object_congr. Qed.

  Lemma map_loop_congr n : forall k e data it last key val,
    map_loop hard rec n k e data it last key val = map_loop hard rec' n k e data it last key val.
  Proof.
    induction n as [|n IH]; intros k e data it last key val; [reflexivity|]. cbn [map_loop].
    destruct (it_pos it =? last)%Z; [reflexivity|]. destruct (decodeHeader data it) as [[[[a b] c] it1]| | |]; cbn [bind]; try reflexivity.
    destruct (a =? 1)%Z.
    - destruct (deserializeBasic hard k data it1) as [[s it2]| | |]; cbn [bind]; try reflexivity. apply IH.
    - rewrite element_congr. destruct (deserializeElement hard rec' e data it1) as [[s it2]| | |]; cbn [bind]; try reflexivity. apply IH.
  Qed.

  Lemma field_congr ty old data it : deserializeField fuel hard rec ty old data it = deserializeField fuel hard rec' ty old data it.
  Proof.
    destruct ty as [[t|m]|[t|m]|k e]; cbn [deserializeField]; try reflexivity; try now rewrite object_congr.
    unfold deserializeMapPair. destruct (deserializeVarintCommon 32 data it) as [[c it1]| | |]; cbn [bind]; try reflexivity.
    destruct (it_plus hard it1 (toS 32 c)) as [last| | |]; cbn [bind]; try reflexivity. now rewrite map_loop_congr.
  Qed.
End Congruence.

Definition same_fields (a b : Values.schema) : Prop := forall m, Values.md_fields (Values.msg_at a m) = Values.md_fields (Values.msg_at b m).

Lemma loop_congr hard a b (S : same_fields a b) fuel : forall m data it obj,
  deserialize_loop fuel hard a m data it obj = deserialize_loop fuel hard b m data it obj.
Proof.
  assert (D : forall m, Values.default_obj a m = Values.default_obj b m) by (intro m; unfold Values.default_obj; now rewrite S).
  induction fuel as [|fuel IH]; intros m data it obj; [reflexivity|]. cbn [deserialize_loop].
  destruct (it_pos it =? Zlen data)%Z; [reflexivity|].
  set (ra := fun m' data' => deserialize_loop fuel hard a m' data' (it_begin data') (Values.default_obj a m')).
  set (rb := fun m' data' => deserialize_loop fuel hard b m' data' (it_begin data') (Values.default_obj b m')).
  assert (R : forall m d, ra m d = rb m d) by (intros m0 d; unfold ra, rb; now rewrite D, IH).
  assert (P : deserializeProperty fuel hard a ra m data it obj = deserializeProperty fuel hard b rb m data it obj).
  { unfold deserializeProperty. destruct (decodeHeader data it) as [[[[n w] v] it1]| | |]; cbn [bind]; try reflexivity.
    destruct (negb v); [reflexivity|]. unfold Values.find_field, Values.field_at. rewrite S.
    destruct (Values.find_from 0 (Values.md_fields (Values.msg_at b m)) n); [|reflexivity]. now rewrite (field_congr fuel hard ra rb R). }
  rewrite P. destruct (deserializeProperty fuel hard b rb m data it obj) as [[o' it']| | |]; try reflexivity. apply IH.
Qed.

Lemma deserializes_congr a b m data r o : same_fields a b -> deserializes a m data r o -> deserializes b m data r o.
Proof.
  intros S (N & fuel & H). split; [exact N|]. exists fuel. rewrite <- H. unfold deserializeMessage.
  rewrite (loop_congr false a b S). unfold Values.default_obj. now rewrite S.
Qed.

(** * Classes *)

Lemma program_classes_of p : program_classes p = classes_of (pr_files p).
Proof. reflexivity. Qed.

Lemma position_found : forall l i k c, NoDup (map g_id l) -> nth_error l k = Some c -> position_from i l (g_id c) = Some (i + k).
Proof.
  induction l as [|x l IH]; intros i k c ND N; [destruct k; discriminate|]. cbn in ND. apply NoDup_cons_iff in ND as [NI ND].
  destruct k as [|k]; cbn in N |- *.
  - injection N as ->. rewrite Nat.eqb_refl. f_equal. lia.
  - destruct (Nat.eqb (g_id x) (g_id c)) eqn:Eq.
    + apply Nat.eqb_eq in Eq. exfalso. apply NI. rewrite Eq. apply in_map. now apply nth_error_In in N.
    + rewrite (IH (Datatypes.S i) k c ND N). f_equal. lia.
Qed.

Lemma position_of_class p m : NoDup (map g_id (program_classes p)) -> In m (map g_id (program_classes p)) ->
  exists k c, position p m = Some k /\ nth_error (program_classes p) k = Some c /\ g_id c = m.
Proof.
  intros ND I. apply in_map_iff in I as (c & <- & I). apply In_nth_error in I as (k & N). exists k, c.
  split; [|split; [exact N | reflexivity]]. exact (position_found _ 0 k c ND N).
Qed.

(** * Types *)

Definition field_type (p : program) (f : mfield) : option Values.fty :=
  match field_handlers (pr_registered p) (m_shape f) with Some hs => handled_field p hs | None => None end.

Lemma sty_same t : simple t -> same_type t (sty_of t).
Proof. intros [N1 N2]. destruct t; try constructor; congruence. Qed.

Lemma element_type_found ps qt p e : program_of ps qt p -> NoDup (map g_id (classes_of ps)) -> element_supported ps qt e -> ~ is_qt e ->
  exists t, handled_element p (element_handler e) = Some t /\ same_element (classes_of ps) e t.
Proof.
  intros (<- & _ & _) ND S Q. destruct e as [t|m|e|q]; cbn in S |- *.
  - eexists. split; [reflexivity|]. constructor. now apply sty_same.
  - unfold has_class in S. destruct (position_of_class p m ND S) as (k & c & -> & N & <-). eexists. split; [reflexivity|]. now constructor.
  - eexists. split; [reflexivity|]. constructor.
  - exfalso. apply Q. now eexists.
Qed.

Lemma field_type_found ps qt p c f : program_of ps qt p -> NoDup (map g_id (classes_of ps)) ->
  In c (classes_of ps) -> In f (g_fields c) -> shape_supported ps qt (m_shape f) -> no_qt (m_shape f) ->
  exists t, field_type p f = Some t /\ same_shape (classes_of ps) (m_shape f) t.
Proof.
  intros Pr ND C F S Q. pose proof Pr as (_ & Pm & _). unfold field_type. rewrite (field_supported ps qt _ c f Pm C F S).
  destruct (m_shape f) as [e|e|k v]; cbn in S, Q |- *.
  - destruct (element_type_found ps qt p e Pr ND S Q) as (t & H & E). exists (Values.FSing t). split; [|now constructor].
    destruct e; cbn in H |- *; try (now injection H as <-); try discriminate.
    destruct (position p m); [now injection H as <- | discriminate].
  - destruct S as (S & _ & _). destruct (element_type_found ps qt p e Pr ND S Q) as (t & H & E). exists (Values.FRep t). split; [|now constructor].
    destruct e; cbn in H |- *; try (now injection H as <-); try discriminate.
    destruct (position p m); [now injection H as <- | discriminate].
  - destruct S as ((Sk & _) & S & _). destruct (element_type_found ps qt p v Pr ND S Q) as (t & H & E).
    exists (Values.FMap (sty_of k) t). split; [|constructor; [now apply sty_same | exact E]]. cbn. now rewrite H.
Qed.

Lemma field_type_none ps qt p c f : program_of ps qt p -> In c (classes_of ps) -> In f (g_fields c) -> type_exists (m_shape f) ->
  ~ shape_supported ps qt (m_shape f) \/ ~ no_qt (m_shape f) -> field_type p f = None.
Proof.
  intros (_ & Pm & _) C F T N. unfold field_type.
  assert (U : ~ shape_supported ps qt (m_shape f) -> field_handlers (pr_registered p) (m_shape f) = None)
    by (exact (field_unsupported ps qt _ c f Pm C F T)).
  destruct N as [N | N]; [now rewrite (U N)|].
  destruct (m_shape f) as [e|e|k v] eqn:Sh; cbn in N.
  - assert (Q : exists q, e = Qt q). { destruct e; try (exfalso; apply N; intros [q0 Eq]; discriminate). eauto. } destruct Q as (q & ->).
    destruct (field_handlers (pr_registered p) (One (Qt q))) as [hs|] eqn:H; [|reflexivity].
    unfold field_handlers in H. cbn [property_type] in H. destruct (find_handler (pr_registered p) (CQt q)) as [h|] eqn:L; [|discriminate H]. injection H as <-.
    unfold find_handler in L. rewrite basic_none in L by exact I. unfold lookup_type in L.
    destruct (find (fun x => ctype_eqb (fst x) (CQt q)) (rev (pr_registered p))) as [[t h']|] eqn:Fd; [|discriminate]. injection L as <-.
    apply find_some in Fd as [I Eq]. cbn in Eq. apply in_rev in I. apply (Permutation_in _ Pm) in I.
    destruct t; try discriminate. cbn in Eq. apply String.eqb_eq in Eq as ->.
    unfold registrations in I. apply in_app_iff in I as [I | I].
    + exfalso. apply in_flat_map in I as (pf & _ & I). unfold register_proto in I. apply in_app_iff in I as [I | I].
      * apply in_flat_map in I as (en & _ & I). cbn in I. destruct I as [I | [I | []]]; discriminate.
      * apply in_flat_map in I as (m & _ & I). apply in_flat_map in I as (c' & _ & I). unfold qRegisterProtobufType in I.
        apply in_app_iff in I as [I | [I | [I | []]]]; try discriminate.
        apply in_flat_map in I as (f' & _ & I). unfold register_field in I.
        destruct (m_shape f') as [[]|[]|k' []]; cbn in I; try destruct (isLocalEnum _ _); cbn in I; intuition discriminate.
    + unfold register_qt in I. apply in_map_iff in I as (q' & Eq & _). injection Eq as _ <-. reflexivity.
  - rewrite U; [reflexivity|]. intros (_ & Q & _). exact (N Q).
  - rewrite U; [reflexivity|]. intros (_ & _ & Q). exact (N Q).
Qed.

(** * What is found for a field number *)

Lemma descriptor_numbers fs : map f_number (map descriptor_field fs) = map m_number fs.
Proof. rewrite map_map. apply map_ext. intro f. unfold descriptor_field. now destruct (m_shape f). Qed.
Lemma descriptor_names fs : map (fun f => key (f_name f)) (map descriptor_field fs) = map (fun f => key (m_name f)) fs.
Proof. rewrite map_map. apply map_ext. intro f. unfold descriptor_field. now destruct (m_shape f). Qed.
Lemma descriptor_number f : f_number (descriptor_field f) = m_number f.
Proof. unfold descriptor_field. now destruct (m_shape f). Qed.

Lemma descriptor_valid c : message_valid c -> valid_fields (map descriptor_field (g_fields c)).
Proof. intros (N & K & _). split; [now rewrite descriptor_numbers | now rewrite descriptor_names]. Qed.

Lemma descriptor_nth fs i f : nth_error fs i = Some f -> nth_error (map descriptor_field fs) i = Some (descriptor_field f).
Proof. apply map_nth_error. Qed.

Lemma accessed_own p c x i f : belongs_to x i -> nth_error (g_fields c) i = Some f ->
  accessed p c x = option_map (pair i) (field_type p f).
Proof.
  intros [Ei Ea] N. unfold accessed, field_type. rewrite Ea, Ei, N. now destruct (field_handlers (pr_registered p) (m_shape f)).
Qed.

Lemma read_own p c i f : message_valid c -> nth_error (g_fields c) i = Some f ->
  read_as p c (m_number f) = option_map (pair i) (field_type p f).
Proof.
  intros V N. pose proof (descriptor_valid c V) as (ND & _). unfold read_as.
  destruct (PropertiesGenerator.C28_deserialized (pr_qml p) _ i _ ND (descriptor_nth _ _ _ N)) as (x & D & B).
  rewrite descriptor_number in D. rewrite D. now apply accessed_own.
Qed.

Lemma names_clash_iff qml fs : Forall (fun f => type_exists (m_shape f)) fs -> names_clash qml fs <-> clash qml (map descriptor_field fs).
Proof.
  intro T. rewrite Forall_forall in T.
  assert (M : forall f, In f fs -> many_messages (m_shape f) <-> repeated_message (descriptor_field f)).
  { intros f I. specialize (T f I). revert T. unfold type_exists, many_messages, repeated_message, descriptor_field, simple.
    destruct (m_shape f) as [e|[]|k v]; cbn; intuition (try discriminate). }
  assert (C : forall f n, property_called (m_name f) n <-> called (descriptor_field f) n).
  { intros f n. unfold property_called, called. assert (E : f_name (descriptor_field f) = m_name f) by (unfold descriptor_field; now destruct (m_shape f)).
    now rewrite E. }
  split.
  - intros (f & g & n & If & Ig & R & Cf & Cg & Q). exists (descriptor_field f), (descriptor_field g), n. rewrite <- !M, <- !C by assumption.
    repeat split; try assumption; now apply in_map.
  - intros (f' & g' & n & If & Ig & R & Cf & Cg & Q). apply in_map_iff in If as (f & <- & If). apply in_map_iff in Ig as (g & <- & Ig).
    exists f, g, n. rewrite !M, !C by assumption. tauto.
Qed.
Lemma names_fine_iff qml c : message_valid c -> names_fine qml c <-> ~ clash qml (map descriptor_field (g_fields c)).
Proof.
  intros (_ & _ & F). unfold names_fine. rewrite names_clash_iff; [reflexivity|]. revert F. apply Forall_impl. tauto.
Qed.

Lemma written_own p c i f : message_valid c -> names_fine (pr_qml p) c -> nth_error (g_fields c) i = Some f ->
  written_as p c (m_number f) = option_map (pair i) (field_type p f).
Proof.
  intros V NC N. apply names_fine_iff in NC; [|exact V]. unfold written_as.
  destruct (PropertiesGenerator.C28_serialized_partial (pr_qml p) _ i _ (descriptor_valid c V) NC (descriptor_nth _ _ _ N)) as (x & D & B).
  rewrite descriptor_number in D. rewrite D. now apply accessed_own.
Qed.

Lemma nothing_else p c n : ~ In n (map m_number (g_fields c)) -> read_as p c n = None /\ written_as p c n = None.
Proof.
  intro NI. rewrite <- descriptor_numbers in NI. unfold read_as, written_as.
  destruct (PropertiesGenerator.C28_unknown_number (pr_qml p) _ n NI) as (-> & ->). now split.
Qed.

Lemma ordering_numbers : forall fs i, map fst (fields_ordering i fs) = map f_number fs.
Proof. induction fs as [|f fs IH]; intro i; [reflexivity|]. cbn. now rewrite IH. Qed.

Lemma find_number_at : forall fs i k x, NoDup (map Values.f_num fs) -> nth_error fs k = Some x ->
  Values.find_from i fs (Values.f_num x) = Some (i + k).
Proof.
  induction fs as [|y fs IH]; intros i k x ND N; [destruct k; discriminate|]. cbn in ND. apply NoDup_cons_iff in ND as [NI ND].
  destruct k as [|k]; cbn in N |- *.
  - injection N as ->. rewrite Z.eqb_refl. f_equal. lia.
  - destruct (Values.f_num y =? Values.f_num x)%Z eqn:Eq.
    + apply Z.eqb_eq in Eq. exfalso. apply NI. rewrite Eq. apply in_map. now apply nth_error_In in N.
    + rewrite (IH (Datatypes.S i) k x ND N). f_equal. lia.
Qed.

Lemma find_number_none : forall fs i n, ~ In n (map Values.f_num fs) -> Values.find_from i fs n = None.
Proof.
  induction fs as [|y fs IH]; intros i n NI; [reflexivity|]. cbn in NI |- *.
  destruct (Values.f_num y =? n)%Z eqn:Eq; [apply Z.eqb_eq in Eq; tauto|]. apply IH. tauto.
Qed.

Lemma looked_up_at sch k i n : NoDup (map Values.f_num (Values.md_fields (Values.msg_at sch k))) ->
  nth_error (map Values.f_num (Values.md_fields (Values.msg_at sch k))) i = Some n ->
  looked_up sch k n = Some (i, Values.f_ty (Values.field_at sch k i)).
Proof.
  intros ND N. rewrite nth_error_map in N. destruct (nth_error (Values.md_fields (Values.msg_at sch k)) i) as [x|] eqn:E; [|discriminate].
  injection N as <-. unfold looked_up, Values.find_field. now rewrite (find_number_at _ 0 i x ND E).
Qed.

Lemma looked_up_none sch k n : ~ In n (map Values.f_num (Values.md_fields (Values.msg_at sch k))) -> looked_up sch k n = None.
Proof. intro NI. unfold looked_up, Values.find_field. now rewrite find_number_none. Qed.

(** * The schema of a program *)

Definition type_or_none (p : program) (f : mfield) : Values.fty :=
  match field_type p f with Some t => t | None => Values.FSing (Values.ES Values.TInt32) end.
Definition class_desc (p : program) (k : nat) (c : message) : Values.msgdesc :=
  Values.mkMsg (map (fun f => Values.mkField (m_number f) (type_or_none p f)) (g_fields c)) (pr_order p k).
Fixpoint descs (p : program) (k : nat) (cs : list message) : Values.schema :=
  match cs with [] => [] | c :: cs' => class_desc p k c :: descs p (Datatypes.S k) cs' end.
Definition program_schema (p : program) : Values.schema := descs p 0 (program_classes p).

Lemma descs_length p : forall cs k, List.length (descs p k cs) = List.length cs.
Proof. induction cs as [|c cs IH]; intro k; [reflexivity|]. cbn. now rewrite IH. Qed.

Lemma descs_nth p : forall cs k i c, nth_error cs i = Some c -> nth i (descs p k cs) (Values.mkMsg [] []) = class_desc p (k + i) c.
Proof.
  induction cs as [|x cs IH]; intros k i c N; [destruct i; discriminate|]. destruct i as [|i]; cbn in N |- *.
  - injection N as ->. now rewrite Nat.add_0_r.
  - rewrite (IH (Datatypes.S k) i c N). f_equal. lia.
Qed.

Lemma program_schema_at p k c : nth_error (program_classes p) k = Some c -> Values.msg_at (program_schema p) k = class_desc p k c.
Proof. intro N. unfold Values.msg_at, program_schema. now rewrite (descs_nth p _ 0 k c N). Qed.

Section Program.
  Context (ps : list proto) (qt : list string) (p : program).
  Context (V : files_valid ps) (Pr : program_of ps qt p).

  Lemma class_valid c : In c (program_classes p) -> message_valid c.
  Proof. intro I. destruct V as [_ F]. rewrite Forall_forall in F. apply F. destruct Pr as (<- & _). exact I. Qed.

  Lemma classes_ps : program_classes p = classes_of ps.
  Proof. destruct Pr as (<- & _). reflexivity. Qed.

  (** What a schema with which the program runs is like. *)
  Lemma runs_type sch k c i f : runs_as p sch -> nth_error (program_classes p) k = Some c -> nth_error (g_fields c) i = Some f ->
    nth_error (Values.md_fields (Values.msg_at sch k)) i = Some (Values.field_at sch k i)
    /\ Values.f_num (Values.field_at sch k i) = m_number f /\ field_type p f = Some (Values.f_ty (Values.field_at sch k i)).
  Proof.
    intros (_ & R) K N. destruct (R k c K) as (Nu & _ & L). pose proof (class_valid c (nth_error_In _ _ K)) as Vc.
    rewrite ordering_numbers, descriptor_numbers in Nu. pose proof Vc as (ND & _).
    assert (Ni : nth_error (map Values.f_num (Values.md_fields (Values.msg_at sch k))) i = Some (m_number f)) by (rewrite Nu; now apply map_nth_error).
    destruct (L (m_number f)) as (Rd & _). rewrite (read_own p c i f Vc N) in Rd.
    rewrite (looked_up_at sch k i) in Rd by (rewrite ?Nu; assumption || (rewrite <- Nu; assumption)).
    rewrite nth_error_map in Ni. destruct (nth_error (Values.md_fields (Values.msg_at sch k)) i) as [x|] eqn:E; [|discriminate].
    assert (Ex : Values.field_at sch k i = x) by (unfold Values.field_at; now apply nth_error_nth). rewrite Ex in *.
    injection Ni as Ni. split; [reflexivity|]. split; [exact Ni|].
    destruct (field_type p f) as [t|]; cbn in Rd; [now injection Rd as -> | discriminate].
  Qed.

  Lemma runs_length sch k c : runs_as p sch -> nth_error (program_classes p) k = Some c ->
    List.length (Values.md_fields (Values.msg_at sch k)) = List.length (g_fields c).
  Proof.
    intros (_ & R) K. destruct (R k c K) as (Nu & _). rewrite ordering_numbers, descriptor_numbers in Nu.
    apply (f_equal (@List.length _)) in Nu. now rewrite !map_length in Nu.
  Qed.

  Lemma runs_fields sch k c : runs_as p sch -> nth_error (program_classes p) k = Some c ->
    Values.md_fields (Values.msg_at sch k) = map (fun f => Values.mkField (m_number f) (type_or_none p f)) (g_fields c).
  Proof.
    intros R K. apply nth_ext with (d := Values.dummy_field) (d' := Values.dummy_field).
    { rewrite map_length. exact (runs_length sch k c R K). }
    intros i Hi. rewrite (runs_length sch k c R K) in Hi.
    destruct (nth_error (g_fields c) i) as [f|] eqn:N; [|apply nth_error_None in N; lia].
    destruct (runs_type sch k c i f R K N) as (_ & Nu & Ty). fold (Values.field_at sch k i).
    rewrite (nth_error_nth _ _ Values.dummy_field (map_nth_error (fun f => Values.mkField (m_number f) (type_or_none p f)) i (g_fields c) N)).
    unfold type_or_none. rewrite Ty, <- Nu. now destruct (Values.field_at sch k i).
  Qed.

  Lemma runs_says sch : runs_as p sch -> usable ps qt (pr_qml p) -> says (classes_of ps) sch.
  Proof.
    intros R U. pose proof R as (Le & _). rewrite classes_ps in Le.
    assert (G : forall k c, nth_error (classes_of ps) k = Some c ->
      Forall2 (fun f x => Values.f_num x = m_number f /\ same_shape (classes_of ps) (m_shape f) (Values.f_ty x))
        (g_fields c) (Values.md_fields (Values.msg_at sch k))).
    { intros k c K. pose proof (nth_error_In _ _ K) as Ic. pose proof K as K'. rewrite <- classes_ps in K'.
      rewrite (runs_fields sch k c R K'). unfold usable in U. rewrite Forall_forall in U. destruct (U c Ic) as (_ & F).
      rewrite Forall_forall in F.
      assert (H : forall l, (forall f, In f l -> In f (g_fields c)) ->
        Forall2 (fun f x => Values.f_num x = m_number f /\ same_shape (classes_of ps) (m_shape f) (Values.f_ty x)) l
          (map (fun f => Values.mkField (m_number f) (type_or_none p f)) l)); [|now apply H].
      induction l as [|f l IH]; intro Sub; [constructor|]. cbn [map]. constructor; [|apply IH; intros g Hg; apply Sub; now right].
      split; [reflexivity|]. cbn. destruct (F f (Sub f (or_introl eq_refl))) as (S & Q). destruct V as [ND _].
      destruct (field_type_found ps qt p c f Pr ND Ic (Sub f (or_introl eq_refl)) S Q) as (t & T & E). unfold type_or_none. now rewrite T. }
    unfold says. clear - Le G. set (P := fun f x => _ /\ same_shape (classes_of ps) _ _) in *. clearbody P.
    unfold Values.msg_at in G. revert sch Le G. generalize (classes_of ps) as cs. induction cs as [|c cs IH]; intros [|d sch] Le G; try discriminate; [constructor|].
    constructor; [exact (G 0 c eq_refl)|]. apply IH; [now injection Le|]. intros k c' K. exact (G (Datatypes.S k) c' K).
  Qed.

  Lemma shape_ok f t : type_exists (m_shape f) -> shape_supported ps qt (m_shape f) -> field_number (m_number f) ->
    same_shape (classes_of ps) (m_shape f) t -> field_ok (Values.mkField (m_number f) t).
  Proof.
    intros T S N E. split; [exact N|]. cbn. inversion E as [e u He Es | e u He Es | k s v u Hk Hv Es]; subst; auto.
    - destruct u as [[]|]; auto. rewrite <- Es in S. destruct S as (_ & _ & NB). inversion He as [t' s' Hs| |]; subst. inversion Hs; subst. congruence.
    - rewrite <- Es in S. destruct S as ((_ & N1 & N2 & N3) & _). inversion Hk; subst; cbn; auto; congruence.
  Qed.

  Lemma runs_ok sch : runs_as p sch -> usable ps qt (pr_qml p) -> schema_ok sch.
  Proof.
    intros R U. unfold schema_ok. rewrite Forall_forall. intros d Id. apply In_nth_error in Id as (k & K).
    pose proof R as (Le & R'). assert (Lt : k < List.length sch) by (apply nth_error_Some; congruence). rewrite Le in Lt.
    destruct (nth_error (program_classes p) k) as [c|] eqn:Kc; [|apply nth_error_None in Kc; lia].
    assert (Ed : Values.msg_at sch k = d) by (unfold Values.msg_at; now apply nth_error_nth).
    destruct (R' k c Kc) as (Nu & Or & _). rewrite Ed in Nu, Or. rewrite ordering_numbers, descriptor_numbers in Nu.
    pose proof (class_valid c (nth_error_In _ _ Kc)) as (ND & _ & Fv).
    pose proof (runs_fields sch k c R Kc) as Ef. rewrite Ed in Ef.
    split; [now rewrite Nu|]. rewrite classes_ps in Kc. pose proof (nth_error_In _ _ Kc) as Ic.
    unfold usable in U. rewrite Forall_forall in U. destruct (U c Ic) as (_ & F).
    split.
    - rewrite Ef. rewrite Forall_forall. intros x Ix. apply in_map_iff in Ix as (f & <- & If). rewrite Forall_forall in F, Fv.
      destruct (F f If) as (S & Q). destruct (Fv f If) as (Nf & T). destruct V as [NDi _].
      destruct (field_type_found ps qt p c f Pr NDi Ic If S Q) as (t & Ft & E). unfold type_or_none. rewrite Ft. now apply shape_ok.
    - destruct Pr as (_ & _ & O). specialize (O k c Kc). rewrite Or.
      split; [apply (Permutation_NoDup (Permutation_sym O)); apply seq_NoDup|].
      intro i. rewrite Ef, map_length. split; intro H.
      + apply (Permutation_in _ O) in H. apply in_seq in H. lia.
      + apply (Permutation_in _ (Permutation_sym O)). apply in_seq. lia.
  Qed.

  Lemma runs : usable ps qt (pr_qml p) -> runs_as p (program_schema p).
  Proof.
    intro U. split; [apply descs_length|]. intros k c K. rewrite (program_schema_at p k c K).
    pose proof (class_valid c (nth_error_In _ _ K)) as Vc. pose proof Vc as (ND & _).
    assert (Nu : map Values.f_num (Values.md_fields (class_desc p k c)) = map m_number (g_fields c)).
    { cbn. rewrite map_map. reflexivity. }
    rewrite ordering_numbers, descriptor_numbers. split; [exact Nu|]. split; [reflexivity|]. intro n.
    unfold usable in U. rewrite Forall_forall, <- classes_ps in U. destruct (U c (nth_error_In _ _ K)) as (NC & F).
    destruct (in_dec Z.eq_dec n (map m_number (g_fields c))) as [I | NI].
    - apply in_map_iff in I as (f & <- & I). apply In_nth_error in I as (i & N).
      rewrite (read_own p c i f Vc N), (written_own p c i f Vc NC N).
      rewrite (looked_up_at (program_schema p) k i).
      + rewrite Forall_forall in F. destruct (F f (nth_error_In _ _ N)) as (S & Q). destruct V as [NDi _].
        pose proof (nth_error_In _ _ K) as Ic. rewrite classes_ps in Ic.
        destruct (field_type_found ps qt p c f Pr NDi Ic (nth_error_In _ _ N) S Q) as (t & Ft & _).
        unfold Values.field_at. rewrite (program_schema_at p k c K). cbn [class_desc Values.md_fields].
        rewrite (nth_error_nth _ _ Values.dummy_field (map_nth_error (fun f => Values.mkField (m_number f) (type_or_none p f)) i (g_fields c) N)).
        cbn. unfold type_or_none. rewrite Ft. now split.
      + rewrite (program_schema_at p k c K), Nu. exact ND.
      + rewrite (program_schema_at p k c K), Nu. now apply map_nth_error.
    - destruct (nothing_else p c n NI) as (-> & ->). rewrite looked_up_none; [now split|]. now rewrite (program_schema_at p k c K), Nu.
  Qed.

  Lemma does_not_run c sch : In c (classes_of ps) -> runs_as p sch ->
    names_fine (pr_qml p) c /\ forall f, In f (g_fields c) -> ~ (~ shape_supported ps qt (m_shape f) \/ ~ no_qt (m_shape f)).
  Proof.
    intros Ic R. rewrite <- classes_ps in Ic. pose proof (class_valid c Ic) as Vc. apply In_nth_error in Ic as (k & K). split.
    - apply names_fine_iff; [exact Vc|]. intro Cl. destruct (PropertiesGenerator.C28_clash_refuted (pr_qml p) _ (descriptor_valid c Vc) Cl) as (i & g & x & N & Sp & NB).
      rewrite nth_error_map in N. destruct (nth_error (g_fields c) i) as [f|] eqn:Nf; [|discriminate]. injection N as <-.
      rewrite descriptor_number in Sp. destruct (runs_type sch k c i f R K Nf) as (_ & _ & Ty).
      destruct R as (_ & R). destruct (R k c K) as (_ & _ & L). destruct (L (m_number f)) as (Rd & Wr). rewrite <- Rd in Wr.
      rewrite (read_own p c i f Vc Nf), Ty in Wr. unfold written_as in Wr. rewrite Sp in Wr. cbn in Wr. unfold accessed in Wr.
      destruct (p_access x) eqn:Ax; try discriminate. destruct (nth_error (g_fields c) (p_field x)) as [g|]; [|discriminate].
      destruct (field_handlers (pr_registered p) (m_shape g)) as [hs|]; [|discriminate].
      destruct (handled_field p hs) as [t|]; [|discriminate]. cbn in Wr. injection Wr as Ei _. apply NB. now split.
    - intros f If N. pose proof K as K'. rewrite classes_ps in K'. apply nth_error_In in K' as Ic. apply In_nth_error in If as (i & Nf).
      destruct (runs_type sch k c i f R K Nf) as (_ & _ & Ty). destruct Vc as (_ & _ & Fv). rewrite Forall_forall in Fv.
      destruct (Fv f (nth_error_In _ _ Nf)) as (_ & T).
      rewrite (field_type_none ps qt p c f Pr Ic (nth_error_In _ _ Nf) T N) in Ty. discriminate.
  Qed.
End Program.

(** * Two programs *)

Lemma says_fun_type t s s' : same_type t s -> same_type t s' -> s = s'.
Proof. intros H H'. inversion H; subst; inversion H'; reflexivity. Qed.

Lemma nodup_position (cs : list message) k k' c c' : NoDup (map g_id cs) -> nth_error cs k = Some c -> nth_error cs k' = Some c' -> g_id c = g_id c' -> k = k'.
Proof.
  intros ND K K' E. apply (proj1 (NoDup_nth_error (map g_id cs)) ND).
  - rewrite map_length. apply nth_error_Some. congruence.
  - rewrite (map_nth_error g_id k cs K), (map_nth_error g_id k' cs K'). now rewrite E.
Qed.

Lemma says_fun_element cs e t t' : NoDup (map g_id cs) -> same_element cs e t -> same_element cs e t' -> t = t'.
Proof.
  intros ND H H'. inversion H as [u s Hs|k c K|]; subst; inversion H' as [u' s' Hs'|k' c' K' E|]; subst.
  - f_equal. eapply says_fun_type; eassumption.
  - f_equal. symmetry. eapply nodup_position; eassumption.
  - reflexivity.
Qed.

Lemma says_fun_shape cs s t t' : NoDup (map g_id cs) -> same_shape cs s t -> same_shape cs s t' -> t = t'.
Proof.
  intros ND H H'. inversion H; subst; inversion H'; subst; f_equal; try (eapply says_fun_element; eassumption). eapply says_fun_type; eassumption.
Qed.

Lemma says_same_fields cs a b : NoDup (map g_id cs) -> says cs a -> says cs b -> same_fields a b.
Proof.
  intros ND Ha Hb m. unfold Values.msg_at, says in *.
  set (P := fun f x => Values.f_num x = m_number f /\ same_shape cs (m_shape f) (Values.f_ty x)) in *.
  assert (Fu : forall f x y, P f x -> P f y -> x = y).
  { intros f [n t] [n' t'] [N T] [N' T']. cbn in *. subst. f_equal. eapply says_fun_shape; eassumption. }
  clearbody P. clear ND. revert b Hb m. induction Ha as [|c d l l' Hd Hl IH]; intros b Hb m; inversion Hb as [|? d' ? b' Hd' Hb']; subst; [reflexivity|].
  destruct m as [|m]; cbn [nth]; [|now apply IH].
  clear - Fu Hd Hd'. revert Hd'. generalize (Values.md_fields d'). induction Hd as [|f x l l' Hx Hl IH]; intros y Hy; inversion Hy as [|? y1 ? y2 H1 H2]; subst; [reflexivity|].
  f_equal; [eapply Fu; eassumption | now apply IH].
Qed.

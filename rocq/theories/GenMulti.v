(** Proofs about the generator of one file for each message. *)

From Coq Require Import String Ascii ZArith List Bool Arith Lia.
From Verif Require Import GenModel GenSpec GenStrings GenOutput.
Import ListNotations.
Open Scope list_scope.

Section Lookup.
Variable lookup : nat -> reference.

Definition forward_path (t : nat) : list string :=
  let r := lookup t in
  if r_nested r then getNestedNamespaces (r_package r) (r_full r) else getNamespaces (r_full r).

Definition dependency_spot (d : descriptor) (t : nat) : list (list string * item) :=
  if match r_containing (lookup t) with Some c => Nat.eqb c (d_id d) | None => false end then []
  else [(forward_path t, Forward t (upperCaseName (r_name (lookup t))))].

Lemma block_dependency : forall d t, block [] (forward_dependency lookup d t) (dependency_spot d t).
Proof.
  intros d t. unfold forward_dependency, dependency_spot, forward_path.
  destruct (match r_containing (lookup t) with Some c => Nat.eqb c (d_id d) | None => false end);
    [apply block_nil |].
  apply (block_nss _ [] [Forward t (upperCaseName (r_name (lookup t)))]). apply block_one; discriminate.
Qed.

Lemma multi_header_placed : forall o parts d,
  package_parts parts -> name_ok (d_name d) ->
  placed (multi_header lookup o (package_of parts) d)
  = Some (flat_map (dependency_spot d) (dependencies d)
          ++ map declare_spot (spots (outer_namespaces o parts) d)).
Proof.
  intros o parts d P N. apply block_placed. apply block_app.
  - apply block_flat. intros t _. apply block_dependency.
  - apply block_enclosed; [exact P | exact N |]. apply block_declare.
Qed.

Lemma multi_source_placed : forall o parts d,
  package_parts parts -> name_ok (d_name d) ->
  placed (multi_source o (package_of parts) d) = Some (map define_spot (spots (outer_namespaces o parts) d)).
Proof.
  intros o parts d P N. apply block_placed. apply block_enclosed; [exact P | exact N |]. apply block_define.
Qed.

Lemma dependency_ids : forall d t,
  declared_ids (forward_dependency lookup d t) = []
  /\ (forward_ids (forward_dependency lookup d t) = []
      \/ forward_ids (forward_dependency lookup d t) = [t] /\ r_containing (lookup t) <> Some (d_id d)).
Proof.
  intros d t. unfold forward_dependency.
  destruct (match r_containing (lookup t) with Some c => Nat.eqb c (d_id d) | None => false end) eqn:E; [auto |].
  set (ns := if r_nested (lookup t) then _ else _). clearbody ns.
  rewrite !declared_app, !forward_app.
  destruct (open_no_ids ns) as (A & B & _). destruct (close_no_ids (List.length ns)) as (C & D & _).
  rewrite A, B, C, D. split; [reflexivity |]. right. split; [reflexivity |].
  intro Q. rewrite Q, Nat.eqb_refl in E. discriminate.
Qed.

Lemma dependencies_ids : forall d ts,
  declared_ids (flat_map (forward_dependency lookup d) ts) = []
  /\ forall t, In t (forward_ids (flat_map (forward_dependency lookup d) ts)) ->
       r_containing (lookup t) <> Some (d_id d).
Proof.
  induction ts as [| x ts (A & B)]; cbn [flat_map]; [split; [reflexivity | intros t []] |].
  rewrite declared_app, forward_app, A. destruct (dependency_ids d x) as (C & D). rewrite C. split; [reflexivity |].
  intros t I. apply in_app_or in I. destruct I as [I | I]; [| exact (B t I)].
  destruct D as [D | (D & E)]; rewrite D in I; [destruct I | destruct I as [<- | []]; exact E].
Qed.

Lemma multi_declared : forall o package d, declared_ids (multi_header lookup o package d) = map d_id (sub d).
Proof.
  intros o package d. unfold multi_header, printClassDeclaration. rewrite declared_app.
  rewrite (proj1 (dependencies_ids d (dependencies d))), (proj1 (enclosed_ids _ _ _)).
  apply declare_ids.
Qed.

Lemma multi_defined : forall o package d, defined_ids (multi_source o package d) = map d_id (sub d).
Proof.
  intros o package d. unfold multi_source, printClassDefinition.
  rewrite (proj2 (proj2 (enclosed_ids _ _ _))). apply define_private_ids.
Qed.

(** The class of the outermost message is the last one. *)
Lemma multi_last : forall o package d, exists a b,
  multi_header lookup o package d
  = a ++ Declare (d_id d) (upperCaseName (d_name d)) (class_mentions (d_fields d) (d_nested d)) :: b
  /\ declared_ids b = []
  /\ (forall t, In t (declared_ids (multi_header lookup o package d)) -> t = d_id d \/ In t (declared_ids a)).
Proof.
  intros o package d. unfold multi_header, printClassDeclaration. rewrite enclosed_eq.
  set (full := full_name package (d_name d)).
  destruct d as [id name fs nested]. cbn [declare_private d_id d_name d_fields d_nested].
  set (w := flat_map (fun n => if visited fs n then declare_private n else []) nested).
  exists (flat_map (forward_dependency lookup (Descriptor id name fs nested)) (dependencies (Descriptor id name fs nested))
          ++ map Open (namespaces o full) ++ Open (upperCaseName name ++ nested_suffix)%string :: w ++ [Close]).
  exists (repeat Close (List.length (namespaces o full))).
  split; [| split].
  - rewrite <- !app_assoc. cbn [app]. rewrite <- !app_assoc. reflexivity.
  - apply close_no_ids.
  - intros t I. rewrite !declared_app in I |- *. cbn [declared_ids app] in I |- *.
    rewrite !declared_app in I |- *. cbn [declared_ids app] in I |- *.
    destruct (open_no_ids (namespaces o full)) as (A & _). rewrite A in *.
    destruct (close_no_ids (List.length (namespaces o full))) as (B & _). rewrite B in *.
    cbn [app] in *. rewrite app_nil_r in *. rewrite !in_app_iff in *. destruct I as [I | I]; [tauto |].
    rewrite declared_app in I. cbn [declared_ids] in I. apply in_app_or in I. destruct I as [I | [I | []]]; auto.
Qed.

Lemma declare_unique : forall id1 id2 n1 n2 m1 m2 (a1 a2 b1 b2 : list item),
  a1 ++ Declare id1 n1 m1 :: b1 = a2 ++ Declare id2 n2 m2 :: b2 ->
  NoDup (declared_ids (a1 ++ Declare id1 n1 m1 :: b1)) -> id1 = id2 -> a1 = a2 /\ n1 = n2 /\ m1 = m2 /\ b1 = b2.
Proof.
  intros id1 id2 n1 n2 m1 m2. induction a1 as [| x a1 IH]; intros a2 b1 b2 E N Q; subst id2.
  - destruct a2 as [| y a2]; cbn in E.
    + injection E as En Em Eb. auto.
    + injection E as Ex Eb. subst y b1. exfalso. cbn in N. inversion N as [| z l Hz _]; subst.
      apply Hz. rewrite declared_app. apply in_or_app. right. left. reflexivity.
  - destruct a2 as [| y a2]; cbn in E.
    + injection E as Ex Eb. subst x b2. exfalso. cbn in N. inversion N as [| z l Hz _]; subst.
      apply Hz. rewrite declared_app. apply in_or_app. right. left. reflexivity.
    + injection E as Ex Eb. subst y.
      assert (N' : NoDup (declared_ids (a1 ++ Declare id1 n1 m1 :: b1)))
        by (destruct x; cbn in N; try exact N; inversion N; assumption).
      destruct (IH a2 b1 b2 Eb N' eq_refl) as (A & B & C & D). subst. auto.
Qed.

(** What the class of the outermost message mentions is known or included. *)
Lemma multi_self : forall d t,
  right_lookup lookup d ->
  In t (class_mentions (d_fields d) (d_nested d)) ->
  In t (map d_id (sub d)) \/ (r_highest (lookup t) <> d_id d /\ In (r_highest (lookup t)) (multi_includes lookup d))
  \/ (r_highest (lookup t) = d_id d /\ ~ In t (map d_id (sub d))).
Proof.
  intros d t R I.
  destruct (in_dec Nat.eq_dec t (map d_id (sub d))) as [S | S]; [left; exact S | right].
  destruct (Nat.eq_dec (r_highest (lookup t)) (d_id d)) as [H | H]; [right; auto | left].
  split; [exact H |]. unfold class_mentions in I. apply in_app_or in I. destruct I as [I | I].
  - exfalso. apply S. apply in_map_iff in I. destruct I as (n & <- & I). apply filter_In in I.
    destruct I as (J & V). apply in_map. eapply sub_nested; [apply sub_self | exact J | exact V].
  - apply in_flat_map in I. destruct I as (f & F & I). unfold multi_includes. apply in_or_app. left.
    apply in_flat_map. exists f. split; [exact F |].
    destruct (R t) as (R1 & R2).
    assert (X : In (r_highest (lookup t)) (include_of lookup d t)).
    { unfold include_of. destruct (r_nested (lookup t)) eqn:E; cbn [negb].
      - assert (C : match r_containing (lookup t) with Some c => Nat.eqb c (d_id d) | None => false end = false).
        { destruct (r_containing (lookup t)) as [c |]; [| reflexivity].
          destruct (Nat.eqb_spec c (d_id d)) as [Q | Q]; [| reflexivity]. subst c.
          exfalso. apply H. apply R2. reflexivity. }
        rewrite C. destruct (Nat.eqb_spec (r_highest (lookup t)) (d_id d)); [contradiction |].
        left; reflexivity.
      - left. symmetry. apply R1. reflexivity. }
    unfold field_mentions in I. unfold field_includes. destruct (f_qt f); [destruct I |].
    destruct (f_map f).
    + destruct (f_value_of f); [| destruct I]. destruct I as [<- | []]. exact X.
    + destruct (f_type_of f); [| destruct I]. destruct I as [<- | []]. exact X.
Qed.

(** A nested message that uses one declared behind it. *)
Lemma multi_siblings : forall o package id name fs l1 a l2 b l3,
  let d := Descriptor id name fs (l1 ++ a :: l2 ++ b :: l3) in
  NoDup (map d_id (messages_of d)) ->
  visited fs a = true -> field_of_type a b ->
  (forall f, In f (d_fields a) -> f_type_of f = Some (d_id b) -> f_qt f = false) ->
  r_containing (lookup (d_id b)) = Some id ->
  exists x n ms y, multi_header lookup o package d = x ++ Declare (d_id a) n ms :: y
    /\ In (d_id b) ms /\ ~ known x (d_id a) (d_id b).
Proof.
  intros o package id name fs l1 a l2 b l3 d N V (f & F & Fm & Ft) Q C.
  set (vis := fun n => if visited fs n then declare_private n else []).
  assert (A : declare_private a = declare_private a) by reflexivity.
  destruct a as [ia na fa la]. cbn [d_fields d_id] in *.
  set (inner := flat_map (fun n => if visited fa n then declare_private n else []) la).
  set (full := full_name package name).
  exists ((flat_map (forward_dependency lookup d) (dependencies d))
    ++ map Open (namespaces o full) ++ Open (upperCaseName name ++ nested_suffix)%string
       :: flat_map vis l1 ++ Open (upperCaseName na ++ nested_suffix)%string :: inner ++ [Close]).
  exists (upperCaseName na), (class_mentions fa la).
  exists (flat_map vis (l2 ++ b :: l3)
    ++ [Close; Declare id (upperCaseName name) (class_mentions fs (l1 ++ Descriptor ia na fa la :: l2 ++ b :: l3))]
    ++ repeat Close (List.length (namespaces o full))).
  split; [| split].
  - unfold multi_header, printClassDeclaration. rewrite enclosed_eq. cbn [d_name]. fold full.
    rewrite <- app_assoc. f_equal. rewrite <- app_assoc. f_equal.
    unfold d at 1. cbn [declare_private]. fold vis.
    rewrite flat_map_app. cbn [flat_map]. unfold vis at 2. rewrite V. cbn [declare_private]. fold inner.
    cbn [app]. f_equal. repeat (rewrite <- app_assoc; cbn [app]). reflexivity.
  - unfold class_mentions. apply in_or_app. right. apply in_flat_map. exists f. split; [exact F |].
    unfold field_mentions. rewrite (Q f F Ft), Fm, Ft. left. reflexivity.
  - cbn [d] in N. unfold d in N. cbn [messages_of map] in N. inversion N as [| z l Hz Hn]; subst z l. clear Hz.
    rewrite flat_map_app in Hn. cbn [flat_map] in Hn.
    rewrite map_app in Hn. apply NoDup_app_inv in Hn. destruct Hn as (_ & Hn & D1).
    rewrite map_app in Hn. apply NoDup_app_inv in Hn. destruct Hn as (_ & _ & D2).
    assert (B : In (d_id b) (map d_id (flat_map messages_of (l2 ++ b :: l3)))).
    { apply in_map. apply in_flat_map. exists b. split; [apply in_or_app; right; left; reflexivity |].
      apply messages_self. }
    assert (Na : d_id b <> ia).
    { intro E. apply (D2 ia); [left; reflexivity |]. rewrite <- E. exact B. }
    assert (Nin : ~ In (d_id b) (declared_ids inner)).
    { intro I. unfold inner in I. rewrite (ids_flat _ _ declared_ids) in I by (auto using declared_app).
      apply in_flat_map in I. destruct I as (n & J & I). destruct (visited fa n); [| destruct I].
      rewrite (proj1 (declare_ids n)) in I. apply in_map_iff in I. destruct I as (m & E & I).
      apply (D2 (d_id b)); [| exact B]. rewrite <- E. cbn [messages_of map]. right. apply in_map.
      apply in_flat_map. exists n. split; [exact J | apply sub_messages; exact I]. }
    assert (Nl : ~ In (d_id b) (declared_ids (flat_map vis l1))).
    { intro I. rewrite (ids_flat _ _ declared_ids) in I by (auto using declared_app).
      apply in_flat_map in I. destruct I as (n & J & I). unfold vis in I. destruct (visited fs n); [| destruct I].
      rewrite (proj1 (declare_ids n)) in I. apply in_map_iff in I. destruct I as (m & E & I).
      apply (D1 (d_id b)).
      - rewrite <- E. apply in_map. apply in_flat_map. exists n. split; [exact J | apply sub_messages; exact I].
      - rewrite map_app. apply in_or_app. right. exact B. }
    unfold known. intros [E | [I | I]].
    + contradiction.
    + rewrite !forward_app in I. cbn [forward_ids] in I. rewrite !forward_app in I. cbn [forward_ids] in I.
      rewrite !forward_app in I. cbn [forward_ids] in I.
      assert (Fv : forward_ids (flat_map vis l1) = []).
      { rewrite (ids_flat _ _ forward_ids) by (auto using forward_app). clear. induction l1 as [| n l IH]; [reflexivity |].
        cbn. rewrite IH, app_nil_r. unfold vis. destruct (visited fs n); [apply declare_ids | reflexivity]. }
      assert (Fi : forward_ids inner = []).
      { unfold inner. rewrite (ids_flat _ _ forward_ids) by (auto using forward_app). clear.
        induction la as [| n l IH]; [reflexivity |].
        cbn. rewrite IH, app_nil_r. destruct (visited fa n); [apply declare_ids | reflexivity]. }
      rewrite Fv, Fi, (proj1 (proj2 (open_no_ids _))) in I. cbn [app] in I. rewrite app_nil_r in I.
      apply (proj2 (dependencies_ids d (dependencies d))) in I. apply I. exact C.
    + rewrite !declared_app in I. cbn [declared_ids] in I. rewrite !declared_app in I. cbn [declared_ids] in I.
      rewrite !declared_app in I. cbn [declared_ids] in I.
      rewrite (proj1 (dependencies_ids d (dependencies d))), (proj1 (open_no_ids _)) in I. cbn [app] in I.
      rewrite app_nil_r in I. apply in_app_or in I. tauto.
Qed.

End Lookup.

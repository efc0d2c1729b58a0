(** Proofs about the lookup of names. *)

From Coq Require Import String Ascii ZArith List Bool Arith Lia.
From Verif Require Import GenModel GenSpec GenStrings GenOutput GenTypesModel GenTypesSpec GenTypesNames GenLookupModel GenLookupSpec.
Import ListNotations.
Open Scope string_scope.

(** Lookup, where the place is inside of where the name is to be found. *)
Lemma found_not_hidden : forall D place outer inner parts, closed D -> parts <> [] ->
  place = (outer ++ inner)%list -> D (outer ++ parts)%list ->
  found D place parts (outer ++ parts)%list <-> ~ hidden D place outer parts.
Proof.
  intros D place outer inner parts C N E Dp.
  assert (Df : D (outer ++ [first_part parts])%list).
  { destruct parts as [| a parts]; [elim N; reflexivity |]. cbn [first_part].
    apply (C _ parts); [| destruct outer; discriminate]. rewrite <- app_assoc. exact Dp. }
  split.
  - intros (o1 & i1 & P & F & H & Q & _) (o2 & i2 & P2 & L & D2).
    apply app_inv_tail in Q. subst o1. exact (H o2 i2 P2 L D2).
  - intro H. exists outer, inner. split; [exact E |]. split; [exact Df |]. split; [| split; [reflexivity | exact Dp]].
    intros o' i' P L D'. apply H. exists o', i'. split; [exact P |]. split; [exact L | exact D'].
Qed.

Lemma hidden_not_found : forall D place outer parts p, hidden D place outer parts -> p = (outer ++ parts)%list -> ~ found D place parts p.
Proof.
  intros D place outer parts p (o2 & i2 & P2 & L & D2) -> (o1 & i1 & P & F & H & Q & _).
  apply app_inv_tail in Q. subst o1. exact (H o2 i2 P2 L D2).
Qed.

Lemma found_suffix : forall D place parts p, found D place parts p -> exists outer, p = (outer ++ parts)%list.
Proof. intros D place parts p (o1 & i1 & _ & _ & _ & Q & _). exists o1. exact Q. Qed.

(** * What is printed *)

Lemma ref_full_parts : forall pt at_ nt, message_names_ok pt at_ nt ->
  ref_full (mkMessageRef (package_of pt) at_ nt) = package_of (pt ++ at_ ++ [nt]).
Proof.
  intros pt at_ nt (P & A & N). unfold ref_full. cbn [mr_package mr_around mr_name].
  rewrite message_full_join by (apply part_package; exact P). reflexivity.
Qed.

Lemma part_name_ok : forall s, part_ok s -> name_ok s.
Proof. intros s (N & D & _). split; assumption. Qed.

Lemma parts_names_ok : forall l, Forall part_ok l -> Forall name_ok l.
Proof. intros l F. eapply Forall_impl; [| exact F]. exact part_name_ok. Qed.

Definition printed_nested (around : list string) : list string := map (fun n => (n ++ nested_suffix)%string) around.

(** The namespaces without those of the scope. *)
Definition target_namespaces (o : options) (pt at_ : list string) : list string :=
  match at_ with [] => outer_namespaces o pt | _ => pt ++ printed_nested at_ end%list.

Lemma nested_namespace_list_spec : forall o pt at_ nt, message_names_ok pt at_ nt ->
  nested_namespace_list o (mkMessageRef (package_of pt) at_ nt) = target_namespaces o pt at_.
Proof.
  intros o pt at_ nt M. pose proof (ref_full_parts pt at_ nt M) as F. destruct M as (P & A & N).
  unfold nested_namespace_list, message_namespaces. rewrite F. cbn [mr_around mr_package]. destruct at_ as [| a at_].
  - cbn [app target_namespaces]. unfold namespaces, outer_namespaces.
    rewrite getNamespaces_parts; [reflexivity |]. apply parts_app; [apply part_package; exact P | apply part_one; exact N].
  - cbn [target_namespaces]. apply nested_namespaces_parts;
      [apply part_package; exact P | apply parts_names_ok; exact A | apply part_name_ok; exact N].
Qed.

Lemma part_printed_nested : forall l, Forall part_ok l -> Forall part_ok (printed_nested l).
Proof.
  induction l as [| a l IH]; intro F; [constructor |]. inversion F; subst. cbn. constructor; [| apply IH; assumption].
  apply part_suffix; [assumption | |]; vm_compute; intuition discriminate.
Qed.

Lemma part_target : forall o pt at_, (o_extra o = "" \/ part_ok (o_extra o)) -> Forall part_ok pt -> Forall part_ok at_ ->
  Forall part_ok (target_namespaces o pt at_).
Proof.
  intros o pt at_ E P A. unfold target_namespaces. destruct at_ as [| a at_]; [apply part_outer; assumption |].
  apply Forall_app. split; [exact P | apply part_printed_nested; exact A].
Qed.

(** A printed name in the scope of a class: whole, or the rest after the names of the scope. *)
Lemma scope_text_cases : forall o pt at_ nt ps as_ m last, (o_extra o = "" \/ part_ok (o_extra o)) ->
  message_names_ok pt at_ nt -> scope_names_ok ps as_ m ->
  let ns := target_namespaces o pt at_ in
  let printed := in_namespace (message_scope_namespaces o (mkMessageRef (package_of pt) at_ nt) (scope_of ps as_ m)) last in
  (printed = text (ns ++ [last])%list /\ ((ps ++ as_)%list = [] \/ forall rest, ns <> (ps ++ as_ ++ rest)%list))
  \/ (exists rest, (ps ++ as_)%list <> [] /\ ns = (ps ++ as_ ++ rest)%list /\ printed = text (rest ++ [last])%list).
Proof.
  intros o pt at_ nt ps as_ m last E M S ns printed. pose proof M as (P & A & N). pose proof S as (Sp & Sa & _).
  assert (Pn : Forall part_ok ns) by (apply part_target; assumption).
  assert (Ps : Forall part_ok (ps ++ as_)%list) by (apply Forall_app; split; assumption).
  subst printed. unfold message_scope_namespaces. rewrite (nested_namespace_list_spec o pt at_ nt M), namespaces_string_join.
  rewrite (scope_namespaces_spec ps as_ m S). fold ns.
  destruct (scope_namespaces_cases ns (ps ++ as_)%list Pn Ps) as [(Q & H) | (rest & Ne & H & Q)].
  - left. rewrite Q. split; [apply in_namespace_text; exact Pn |]. destruct H as [H | H]; [left; exact H | right].
    intros rest R. apply (H rest). rewrite R, app_assoc. reflexivity.
  - right. exists rest. split; [exact Ne |]. rewrite <- app_assoc in H. split; [exact H |]. rewrite Q. apply in_namespace_text.
    rewrite H in Pn. apply Forall_app in Pn. destruct Pn as [_ Pn]. apply Forall_app in Pn. apply Pn.
Qed.

(** Where a class and the type of its lists are. *)
Definition target_path (o : options) (pt at_ : list string) (last : string) : path :=
  (outer_namespaces o pt ++ map (fun a => (first_capital a ++ "_QtProtobufNested")%string) at_ ++ [last])%list.

Lemma outer_extra : forall o parts, outer_namespaces o parts = (extra_path o ++ parts)%list.
Proof. intros o parts. unfold outer_namespaces, extra_path. destruct (o_extra o); reflexivity. Qed.

Lemma capital_nested : forall l, Forall capital l ->
  map (fun a => (first_capital a ++ "_QtProtobufNested")%string) l = printed_nested l.
Proof.
  induction l as [| a l IH]; intro F; [reflexivity |]. inversion F as [| ? ? Ca F']; subst. cbn [map printed_nested].
  unfold printed_nested in IH. rewrite (IH F'). rewrite (Ca : first_capital a = a). reflexivity.
Qed.

Lemma prefix_cases : forall (A : Type) (a b c d : list A), (a ++ b = c ++ d)%list ->
  (exists e, c = (a ++ e)%list /\ b = (e ++ d)%list) \/ (exists e, e <> [] /\ a = (c ++ e)%list /\ d = (e ++ b)%list).
Proof.
  induction a as [| x a IH]; intros b c d E; cbn in E.
  - left. exists c. split; [reflexivity | exact E].
  - destruct c as [| y c]; cbn in E.
    + right. exists (x :: a). split; [discriminate |]. split; [reflexivity | symmetry; exact E].
    + injection E as -> E. destruct (IH b c d E) as [(e & -> & ->) | (e & Ne & -> & ->)].
      * left. exists e. split; reflexivity.
      * right. exists e. split; [exact Ne |]. split; reflexivity.
Qed.

(** The names of the scope can be left out only outside of nested messages. *)
Lemma scope_prefix : forall o pt at_ ps as_ rest,
  (o_extra o = "" \/ part_ok (o_extra o)) -> messages_apart o ps as_ pt -> plain_names as_ -> (ps ++ as_)%list <> [] ->
  target_namespaces o pt at_ = (ps ++ as_ ++ rest)%list -> as_ = [] /\ (at_ = [] -> o_extra o = "").
Proof.
  intros o pt at_ ps as_ rest E (Ap & Ex) Pl Ne H. unfold target_namespaces in H. destruct at_ as [| a at_].
  - destruct (string_dec (o_extra o) "") as [Z | Z].
    + split; [| intros _; exact Z]. unfold outer_namespaces in H. rewrite Z in H.
      destruct as_ as [| x as_]; [reflexivity |]. exfalso. apply (Ap rest); [discriminate | exact H].
    + exfalso. destruct Ex as [Ex | (_ & Ex)]; [exact (Z Ex) |]. unfold outer_namespaces in H.
      destruct (o_extra o) as [| c e] eqn:Eo; [apply Z; reflexivity |]. rewrite app_assoc in H.
      destruct (ps ++ as_)%list as [| y l]; [apply Ne; reflexivity |]. cbn in H. injection H as <- H.
      apply (Ex l). reflexivity.
  - split; [| discriminate]. destruct as_ as [| x as_] using rev_ind; [reflexivity |]. exfalso. clear IHas_.
    rewrite !app_assoc in H. rewrite <- (app_assoc ps) in H.
    destruct (prefix_cases _ _ _ _ _ H) as [(e & Ep & Er) | (e & Nn & Ep & Er)].
    + destruct e as [| y e] using rev_ind.
      * rewrite app_nil_r in Ep. apply (Ap []); [destruct as_; discriminate |]. rewrite app_nil_r. symmetry. exact Ep.
      * clear IHe. rewrite !app_assoc in Ep. apply app_inj_tail in Ep. destruct Ep as [_ <-].
        assert (I : In x (printed_nested (a :: at_))) by (rewrite Er; apply in_or_app; left; apply in_or_app; right; left; reflexivity).
        apply in_map_iff in I. destruct I as (z & <- & _).
        apply (Pl (z ++ nested_suffix)%string) with (x := z); [apply in_or_app; right; left; reflexivity | reflexivity].
    + apply (Ap e); [destruct as_; discriminate |]. rewrite Ep, <- !app_assoc. reflexivity.
Qed.

(** The path of what is printed, in two parts: the first one is left out, and is around the place. *)
Lemma scope_text_found : forall o pt at_ nt ps as_ m last, (o_extra o = "" \/ part_ok (o_extra o)) ->
  message_names_ok pt at_ nt -> scope_names_ok ps as_ m -> messages_apart o ps as_ pt -> plain_names as_ -> Forall capital at_ ->
  exists outer parts inner,
    in_namespace (message_scope_namespaces o (mkMessageRef (package_of pt) at_ nt) (scope_of ps as_ m)) last = text parts
    /\ target_path o pt at_ last = (outer ++ parts)%list /\ parts <> []
    /\ class_path o ps as_ (g_name m) = (outer ++ inner)%list.
Proof.
  intros o pt at_ nt ps as_ m last E M S Ap Pl C.
  assert (T : target_path o pt at_ last
              = ((match at_ with [] => [] | _ => extra_path o end) ++ target_namespaces o pt at_ ++ [last])%list).
  { unfold target_path, target_namespaces. rewrite (capital_nested at_ C). destruct at_ as [| a at_]; [reflexivity |].
    rewrite outer_extra, <- !app_assoc. reflexivity. }
  destruct (scope_text_cases o pt at_ nt ps as_ m last E M S) as [(Q & _) | (rest & Ne & H & Q)].
  - exists (match at_ with [] => [] | _ => extra_path o end), (target_namespaces o pt at_ ++ [last])%list.
    unfold class_path. rewrite outer_extra. destruct at_ as [| a at_].
    + eexists. split; [exact Q |]. split; [exact T |]. split; [destruct (target_namespaces o pt []); discriminate | reflexivity].
    + eexists. split; [exact Q |]. split; [exact T |].
      split; [destruct (target_namespaces o pt (a :: at_)); discriminate | rewrite <- !app_assoc; reflexivity].
  - destruct (scope_prefix o pt at_ ps as_ rest E Ap Pl Ne H) as (-> & X). cbn [app] in H.
    exists (match at_ with [] => [] | _ => extra_path o end ++ ps)%list, (rest ++ [last])%list, [first_capital (g_name m)].
    split; [exact Q |]. split; [rewrite T, H, <- !app_assoc; reflexivity |]. split; [destruct rest; discriminate |].
    unfold class_path. cbn [map app]. rewrite outer_extra. destruct at_ as [| a at_]; [| reflexivity].
    unfold extra_path. rewrite (X eq_refl). reflexivity.
Qed.

(** A nested message in one whose name has a small letter. *)
Lemma small_not_suffix : forall o pt at_ last parts outer pre,
  parts = (pre ++ printed_nested at_ ++ [last])%list -> target_path o pt at_ last = (outer ++ parts)%list -> Forall capital at_.
Proof.
  intros o pt at_ last parts outer pre -> H. unfold target_path in H. rewrite !app_assoc in H. apply app_inj_tail in H.
  destruct H as [H _]. apply nested_place_inj.
  assert (L : List.length (map nested_place at_) = List.length (printed_nested at_)) by (unfold printed_nested; rewrite !map_length; reflexivity).
  assert (Q : map (fun a => (first_capital a ++ "_QtProtobufNested")%string) at_ = map nested_place at_).
  { apply map_ext. intro a. rewrite first_capital_eq. reflexivity. }
  rewrite Q in H. clear Q.
  destruct (prefix_cases _ _ _ _ _ H) as [(e & Ep & Er) | (e & Nn & Ep & Er)].
  - rewrite Er in L. rewrite app_length in L. destruct e; [exact Er | cbn in L; lia].
  - fold (printed_nested at_). rewrite Er in L. rewrite app_length in L. destruct e; [elim Nn; reflexivity | cbn in L; lia].
Qed.

Lemma small_not_found : forall o pt at_ nt ps as_ m last, (o_extra o = "" \/ part_ok (o_extra o)) ->
  message_names_ok pt at_ nt -> scope_names_ok ps as_ m -> messages_apart o ps as_ pt -> plain_names (ps ++ as_)%list ->
  exists parts pre,
    in_namespace (message_scope_namespaces o (mkMessageRef (package_of pt) at_ nt) (scope_of ps as_ m)) last = text parts
    /\ parts = (pre ++ printed_nested at_ ++ [last])%list.
Proof.
  intros o pt at_ nt ps as_ m last E M S Ap Pl.
  assert (T : exists pre, target_namespaces o pt at_ = (pre ++ printed_nested at_)%list).
  { destruct at_ as [| a at_]; [exists (outer_namespaces o pt); cbn; rewrite app_nil_r; reflexivity | exists pt; reflexivity]. }
  destruct (scope_text_cases o pt at_ nt ps as_ m last E M S) as [(Q & _) | (rest & Ne & H & Q)].
  - destruct T as (pre & T). exists (target_namespaces o pt at_ ++ [last])%list, pre. split; [exact Q |].
    rewrite T, <- app_assoc. reflexivity.
  - exists (rest ++ [last])%list. destruct at_ as [| a at_]; [exists rest; split; [exact Q | reflexivity] |].
    rewrite app_assoc in H. cbn [target_namespaces] in H.
    destruct (prefix_cases _ _ _ _ _ H) as [(e & Ep & Er) | (e & Nn & Ep & Er)].
    + destruct e as [| y e] using rev_ind; [exists []; split; [exact Q | cbn [app] in Er; rewrite <- Er; reflexivity] |].
      exfalso. clear IHe.
      assert (I : In y (printed_nested (a :: at_))) by (rewrite Er; apply in_or_app; left; apply in_or_app; right; left; reflexivity).
      apply in_map_iff in I. destruct I as (z & <- & _).
      apply (Pl (z ++ nested_suffix)%string) with (x := z); [| reflexivity].
      rewrite Ep. apply in_or_app. right. apply in_or_app. right. left. reflexivity.
    + exists e. split; [exact Q |]. rewrite Er, <- app_assoc. reflexivity.
Qed.

(** Proofs about the strings of the generator: splitting, options, names of files. *)

From Coq Require Import String Ascii ZArith List Bool Arith Lia.
From Verif Require Import GenModel GenSpec.
Import ListNotations.
Open Scope string_scope.

(** * Strings *)

Lemma app_assoc_s : forall a b c : string, (a ++ b) ++ c = a ++ (b ++ c).
Proof. induction a; intros; cbn; [reflexivity | now rewrite IHa]. Qed.

Lemma app_nil_s : forall a : string, a ++ "" = a.
Proof. induction a; cbn; [reflexivity | now rewrite IHa]. Qed.

Lemma length_app_s : forall a b : string, String.length (a ++ b) = String.length a + String.length b.
Proof. induction a; intros; cbn; [reflexivity | now rewrite IHa]. Qed.

Lemma ascii_app : forall a b, list_ascii_of_string (a ++ b) = (list_ascii_of_string a ++ list_ascii_of_string b)%list.
Proof. induction a; intros; cbn; [reflexivity | now rewrite IHa]. Qed.

Lemma free_app : forall c a b, free_of c (a ++ b) <-> free_of c a /\ free_of c b.
Proof.
  unfold free_of; intros c a b; rewrite ascii_app; split.
  - intro H; split; intro I; apply H; apply in_or_app; auto.
  - intros [A B] I; apply in_app_or in I; destruct I; auto.
Qed.

Lemma free_cons : forall c x s, free_of c (String x s) <-> x <> c /\ free_of c s.
Proof.
  unfold free_of; intros c x s; cbn; split.
  - intro H; split; intro I; apply H; auto.
  - intros [A B] [I | I]; auto.
Qed.

Lemma free_nil : forall c, free_of c "".
Proof. intros c H; exact H. Qed.

Lemma free_dec : forall c s, {free_of c s} + {~ free_of c s}.
Proof.
  intros c s; unfold free_of.
  destruct (in_dec Ascii.ascii_dec c (list_ascii_of_string s)); [right; tauto | left; assumption].
Defined.

Lemma app_inv_head_s : forall a b c : string, a ++ b = a ++ c -> b = c.
Proof. induction a; intros b c H; cbn in H; [exact H | injection H as H; eauto]. Qed.

Lemma string_list_inj : forall a b, list_ascii_of_string a = list_ascii_of_string b -> a = b.
Proof.
  intros a b H. rewrite <- (string_of_list_ascii_of_string a), <- (string_of_list_ascii_of_string b), H.
  reflexivity.
Qed.

Lemma app_inv_tail_s : forall a b c : string, a ++ c = b ++ c -> a = b.
Proof.
  intros a b c H. apply string_list_inj. apply (f_equal list_ascii_of_string) in H.
  rewrite !ascii_app in H. exact (app_inv_tail _ _ _ H).
Qed.

(** * Splitting *)

Lemma split_free : forall d x, free_of d x -> x <> "" -> split d x = [x].
Proof.
  induction x as [| c x IH]; intros F N; [congruence |].
  apply free_cons in F; destruct F as [Nc F]. cbn.
  destruct (Ascii.eqb_spec c d) as [E | E]; [congruence |].
  destruct x as [| c' x]; [reflexivity |].
  rewrite IH; [reflexivity | exact F | discriminate].
Qed.

Lemma split_app : forall d x rest, free_of d x -> split d (x ++ String d rest) = x :: split d rest.
Proof.
  induction x as [| c x IH]; intros rest F; cbn.
  - rewrite Ascii.eqb_refl; reflexivity.
  - apply free_cons in F; destruct F as [Nc F].
    destruct (Ascii.eqb_spec c d) as [E | E]; [congruence |].
    rewrite IH by exact F. reflexivity.
Qed.

(** Splitting undoes joining, except that an empty last string is lost. *)
Fixpoint trimmed (l : list string) : list string :=
  match l with
  | [] => []
  | [x] => match x with EmptyString => [] | _ => [x] end
  | x :: l' => x :: trimmed l'
  end.

Lemma join_cons : forall d x y l, join d (x :: y :: l) = x ++ d ++ join d (y :: l).
Proof. reflexivity. Qed.

Lemma split_join : forall c l, Forall (free_of c) l -> split c (join (String c "") l) = trimmed l.
Proof.
  induction l as [| x l IH]; intro F; [reflexivity |].
  pose proof (Forall_inv F) as Fx; pose proof (Forall_inv_tail F) as Fl.
  destruct l as [| y l].
  - cbn. destruct x; [reflexivity |]. apply split_free; [exact Fx | discriminate].
  - rewrite join_cons. change (String c "" ++ join (String c "") (y :: l)) with (String c (join (String c "") (y :: l))).
    rewrite split_app by exact Fx. rewrite IH by exact Fl. reflexivity.
Qed.

Lemma trimmed_in : forall l x, x <> "" -> (In x (trimmed l) <-> In x l).
Proof.
  induction l as [| y l IH]; intros x N; [reflexivity |].
  destruct l as [| z l].
  - cbn. destruct y as [| c y]; cbn; [| reflexivity]. split; [tauto | intros [E | []]; congruence].
  - change (trimmed (y :: z :: l)) with (y :: trimmed (z :: l)).
    cbn [In]. rewrite (IH x N). cbn [In]. reflexivity.
Qed.

Lemma trimmed_last : forall l x, x <> "" -> trimmed (l ++ [x])%list = (l ++ [x])%list.
Proof.
  induction l as [| y l IH]; intros x N; cbn [app].
  - cbn. destruct x; [congruence | reflexivity].
  - destruct (l ++ [x])%list as [| z r] eqn:E; [destruct l; discriminate |].
    change (trimmed (y :: z :: r)) with (y :: trimmed (z :: r)). rewrite <- E, IH by exact N. reflexivity.
Qed.

Lemma split_parts : forall l, package_parts l -> split "." (package_of l) = l.
Proof.
  intros l H. unfold package_of. rewrite (split_join "." l).
  - destruct l as [| x l] using rev_ind; [reflexivity |]. clear IHl. apply trimmed_last.
    unfold package_parts in H. rewrite Forall_app in H. destruct H as [_ H]. apply (Forall_inv H).
  - eapply Forall_impl; [| exact H]. intros a [_ A]; exact A.
Qed.

Lemma join_snoc : forall d l x, l <> [] -> join d (l ++ [x])%list = join d l ++ d ++ x.
Proof.
  induction l as [| y l IH]; intros x N; [congruence |].
  destruct l as [| z l]; [reflexivity |].
  change ((y :: z :: l) ++ [x])%list with (y :: (z :: (l ++ [x])))%list.
  rewrite join_cons. change (z :: (l ++ [x]))%list with ((z :: l) ++ [x])%list.
  rewrite IH by discriminate. rewrite join_cons. now rewrite !app_assoc_s.
Qed.

Lemma join_app : forall d l m, l <> [] -> m <> [] -> join d (l ++ m)%list = join d l ++ d ++ join d m.
Proof.
  induction l as [| y l IH]; intros m N M; [congruence |].
  destruct l as [| z l].
  - cbn [app]. destruct m as [| w m]; [congruence | reflexivity].
  - change ((y :: z :: l) ++ m)%list with (y :: (z :: (l ++ m)))%list.
    rewrite join_cons. change (z :: (l ++ m))%list with ((z :: l) ++ m)%list.
    rewrite IH by (discriminate || exact M). rewrite join_cons. now rewrite !app_assoc_s.
Qed.

Lemma join_free : forall c d l, free_of c d -> Forall (free_of c) l -> free_of c (join d l).
Proof.
  induction l as [| x l IH]; intros D F; [apply free_nil |].
  pose proof (Forall_inv F) as Fx; pose proof (Forall_inv_tail F) as Fl.
  destruct l as [| y l]; [exact Fx |].
  rewrite join_cons, !free_app. auto.
Qed.

(** * Options *)

Lemma parse_flags : forall env l o,
  let r := fold_left (parse_option env) l o in
  (o_multi r = true <-> o_multi o = true \/ In "MULTI" l)
  /\ (o_qml r = true <-> o_qml o = true \/ In "QML" l)
  /\ (o_comments r = true <-> o_comments o = true \/ In "COMMENTS" l)
  /\ (o_folder r = true <-> o_folder o = true \/ In "FOLDER" l)
  /\ (o_fieldenum r = true <-> o_fieldenum o = true \/ In "FIELDENUM" l).
Proof.
  induction l as [| x l IH]; intros o r; [subst r; cbn; tauto |].
  specialize (IH (parse_option env o x)). cbn [fold_left] in r. fold r in IH.
  destruct IH as (A & B & C & D & E).
  assert (P : (o_multi (parse_option env o x) = true <-> o_multi o = true \/ x = "MULTI")
    /\ (o_qml (parse_option env o x) = true <-> o_qml o = true \/ x = "QML")
    /\ (o_comments (parse_option env o x) = true <-> o_comments o = true \/ x = "COMMENTS")
    /\ (o_folder (parse_option env o x) = true <-> o_folder o = true \/ x = "FOLDER")
    /\ (o_fieldenum (parse_option env o x) = true <-> o_fieldenum o = true \/ x = "FIELDENUM")).
  { unfold parse_option.
    repeat match goal with
    | |- context [String.eqb x ?y] => destruct (String.eqb_spec x y); [subst x |]
    end;
    try (cbn; repeat split; intros; try tauto; try (destruct H; [assumption | discriminate]); fail).
    assert (Q : forall b y, x <> y -> (b = true <-> b = true \/ x = y))
      by (intros b y N; split; [auto | intros [H | H]; [exact H | contradiction]]).
    destruct (prefix "EXTRA_NAMESPACE" x); [destruct (split "=" env) as [| a [| b [| ? ?]]] |];
      cbn; repeat split; intros; try tauto; destruct H; tauto. }
  destruct P as (P1 & P2 & P3 & P4 & P5).
  cbn [In]. rewrite A, B, C, D, E, P1, P2, P3, P4, P5. tauto.
Qed.

Lemma parse_extra_same : forall env l o,
  (forall x, In x l -> prefix "EXTRA_NAMESPACE" x = false) ->
  o_extra (fold_left (parse_option env) l o) = o_extra o.
Proof.
  induction l as [| x l IH]; intros o H; [reflexivity |].
  cbn [fold_left]. rewrite IH by (intros; apply H; right; assumption).
  unfold parse_option. rewrite (H x (or_introl eq_refl)).
  repeat match goal with |- context [String.eqb x ?y] => destruct (String.eqb x y); [reflexivity |] end.
  reflexivity.
Qed.

(** Once an option for the namespace has been seen the result depends only on the whole string. *)
Lemma parse_extra_seen : forall env a ns l o,
  split "=" env = [a; ns] ->
  o_extra (fold_left (parse_option env) l o)
  = if existsb (fun x => prefix "EXTRA_NAMESPACE" x) l then unquote ns else o_extra o.
Proof.
  induction l as [| x l IH]; intros o S; [reflexivity |].
  cbn [fold_left existsb]. rewrite IH by exact S.
  assert (X : o_extra (parse_option env o x) = if prefix "EXTRA_NAMESPACE" x then unquote ns else o_extra o).
  { unfold parse_option. rewrite S.
    repeat match goal with
    | |- context [String.eqb x ?y] => destruct (String.eqb_spec x y); [subst x; reflexivity |]
    end.
    destruct (prefix "EXTRA_NAMESPACE" x); reflexivity. }
  rewrite X. destruct (prefix "EXTRA_NAMESPACE" x); cbn [orb]; [| reflexivity].
  destruct (existsb (fun x => prefix "EXTRA_NAMESPACE" x) l); reflexivity.
Qed.

Lemma prefix_app : forall p s, prefix p (p ++ s) = true.
Proof.
  induction p as [| c p IH]; intro s; [destruct s; reflexivity |].
  cbn. destruct (ascii_dec c c); [apply IH | congruence].
Qed.

Lemma last_char_app : forall a c, last_char (a ++ String c "") = Some c.
Proof.
  induction a as [| x a IH]; intro c; [reflexivity |].
  cbn. rewrite IH. destruct (a ++ String c "") eqn:E; [destruct a; discriminate | reflexivity].
Qed.

Lemma last_char_some : forall s c, last_char s = Some c -> exists a, s = a ++ String c "".
Proof.
  induction s as [| x s IH]; intros c H; [discriminate |].
  destruct s as [| y s].
  - cbn in H. injection H as <-. exists "". reflexivity.
  - change (last_char (String y s) = Some c) in H. destruct (IH c H) as [a E].
    exists (String x a). cbn. now rewrite <- E.
Qed.

Lemma substring_app : forall a b, substring 0 (String.length a) (a ++ b) = a.
Proof. induction a; intro b; cbn; [destruct b; reflexivity | now rewrite IHa]. Qed.

Lemma unquote_quoted : forall x, unquote (String quote (x ++ String quote "")) = x.
Proof.
  intro x. unfold unquote.
  assert (L : last_char (String quote (x ++ String quote "")) = Some quote)
    by exact (last_char_app (String quote x) quote).
  rewrite L. cbn [String.length]. rewrite length_app_s. cbn [String.length].
  replace (Nat.ltb 1 (S (String.length x + 1))) with true by (symmetry; apply Nat.ltb_lt; lia).
  rewrite Ascii.eqb_refl. cbn [andb].
  replace (S (String.length x + 1) - 2) with (String.length x) by lia.
  cbn [substring]. apply substring_app.
Qed.

Lemma unquote_plain : forall c x, c <> quote -> unquote (String c x) = String c x.
Proof.
  intros c x N. unfold unquote. destruct (last_char (String c x)); [| reflexivity].
  destruct (Ascii.eqb_spec c quote); [congruence |].
  rewrite andb_false_r. reflexivity.
Qed.

(** Taking off quotes does not touch what stands between them. *)
Lemma unquote_cases : forall s, unquote s = s \/ exists x, s = String quote (x ++ String quote "") /\ unquote s = x.
Proof.
  intros [| c s]; [left; reflexivity |].
  unfold unquote. destruct (last_char (String c s)) as [l |] eqn:L; [| left; reflexivity].
  destruct (Nat.ltb 1 (String.length (String c s)) && Ascii.eqb c quote && Ascii.eqb l quote) eqn:E;
    [| left; reflexivity].
  apply andb_prop in E; destruct E as [E El]; apply andb_prop in E; destruct E as [En Ec].
  apply Ascii.eqb_eq in El, Ec. subst c l. apply Nat.ltb_lt in En.
  destruct (last_char_some _ _ L) as [[| q a] A].
  - cbn in A. injection A as A. subst s. cbn in En. lia.
  - cbn in A. injection A as Q A. subst q. right. exists a. rewrite A. split; [reflexivity |].
    cbn [String.length]. rewrite length_app_s. cbn [String.length substring].
    replace (S (String.length a + 1) - 2) with (String.length a) by lia. apply substring_app.
Qed.

(** * Names of files *)

Lemma cut_last_free : forall d s, free_of d s -> cut_last d s = None.
Proof.
  induction s as [| c s IH]; intro F; [reflexivity |].
  apply free_cons in F; destruct F as [N F]. cbn. rewrite IH by exact F.
  destruct (Ascii.eqb_spec c d); [congruence | reflexivity].
Qed.

Lemma cut_last_app : forall d a b, free_of d b -> cut_last d (a ++ String d b) = Some (a, b).
Proof.
  induction a as [| c a IH]; intros b F; cbn.
  - rewrite cut_last_free by exact F. now rewrite Ascii.eqb_refl.
  - rewrite IH by exact F. reflexivity.
Qed.

Lemma cut_last_some : forall d s a b, cut_last d s = Some (a, b) -> s = a ++ String d b /\ free_of d b.
Proof.
  induction s as [| c s IH]; intros a b H; [discriminate |].
  cbn in H. destruct (cut_last d s) as [[a' b'] |] eqn:C.
  - injection H as <- <-. destruct (IH _ _ eq_refl) as [E F]. rewrite E. split; [reflexivity | exact F].
  - destruct (Ascii.eqb_spec c d) as [E | E]; [| discriminate].
    injection H as <- <-. subst c. split; [reflexivity |].
    intro I. clear IH. assert (X : exists p, cut_last d s = Some p).
    { clear C. induction s as [| x s IH]; [destruct I |]. cbn.
      destruct (cut_last d s) as [[p q] |]; [eexists; reflexivity |].
      destruct (Ascii.eqb_spec x d); [eexists; reflexivity |].
      cbn in I. destruct I as [I | I]; [contradiction |]. destruct (IH I) as [? ?]; discriminate. }
    destruct X as [? X]. congruence.
Qed.

Lemma cut_last_none : forall d s, cut_last d s = None -> free_of d s.
Proof.
  induction s as [| c s IH]; intro H; [apply free_nil |].
  cbn in H. destruct (cut_last d s) as [[a b] |]; [discriminate |].
  destruct (Ascii.eqb_spec c d); [discriminate |]. apply free_cons; auto.
Qed.

Lemma fold_folder : forall l a,
  fold_left (fun acc p => acc ++ p ++ "/") l a = a ++ match l with [] => "" | _ => join "/" l ++ "/" end.
Proof.
  induction l as [| x l IH]; intro a; cbn [fold_left]; [now rewrite app_nil_s |].
  rewrite IH. destruct l as [| y l].
  - cbn. now rewrite app_nil_s.
  - rewrite join_cons. now rewrite !app_assoc_s.
Qed.

Lemma base_name_folder : forall o parts name,
  package_parts parts -> o_folder o = true ->
  generateBaseName o (package_of parts) name = join "/" (parts ++ [name])%list.
Proof.
  intros o parts name P F. unfold generateBaseName. rewrite F, split_parts by exact P.
  rewrite fold_folder. destruct parts as [| x l]; [reflexivity |].
  rewrite join_snoc by discriminate. cbn [append]. now rewrite app_assoc_s.
Qed.

(** * Letters *)

Lemma to_small_eq : forall c, to_small c = tolower_char c.
Proof. intros [[] [] [] [] [] [] [] []]; reflexivity. Qed.

Lemma to_capital_eq : forall c, to_capital c = toupper c.
Proof. intros [[] [] [] [] [] [] [] []]; reflexivity. Qed.

Lemma first_capital_eq : forall s, first_capital s = upperCaseName s.
Proof. intros [| c s]; [reflexivity |]. cbn [first_capital upperCaseName]. now rewrite to_capital_eq. Qed.

Lemma first_small_eq : forall s, first_small s = lowerCaseName s.
Proof. intros [| c s]; [reflexivity |]. cbn [first_small lowerCaseName]. now rewrite to_small_eq. Qed.

Lemma in_small_eq : forall s, in_small s = tolower s.
Proof. induction s as [| c s IH]; [reflexivity |]. cbn [in_small tolower]. now rewrite to_small_eq, IH. Qed.

(** Proofs on comments in generated headers. *)

From Coq Require Import ZArith List Bool Lia.
From Verif Require Import Base CommentModel CommentSpec.
Import ListNotations.
Open Scope Z_scope.

(** * Trimming *)

Lemma is_space_spec c : is_space c = true <-> space c.
Proof. unfold is_space, space. cbn. lia. Qed.

Lemma ltrim_app a t : Forall space a -> (forall c t', t = c :: t' -> ~ space c) -> ltrim (a ++ t) = t.
Proof.
  intros A H. induction A as [|c a C _ IH]; cbn [app].
  - destruct t as [|c t]; [reflexivity|]. cbn. specialize (H c t eq_refl). rewrite <- is_space_spec in H. destruct (is_space c); [now destruct H | reflexivity].
  - cbn. apply is_space_spec in C. now rewrite C.
Qed.

Lemma ltrim_spec s : exists a, s = a ++ ltrim s /\ Forall space a /\ forall c t', ltrim s = c :: t' -> ~ space c.
Proof.
  induction s as [|c s (a & E & A & H)]; [exists []; repeat split; [constructor | discriminate]|]. cbn. destruct (is_space c) eqn:C.
  - exists (c :: a). cbn. rewrite <- E. repeat split; [constructor; [now apply is_space_spec | exact A] | exact H].
  - exists []. repeat split; [constructor|]. intros x t' X Sx. injection X as <- _. apply is_space_spec in Sx. congruence.
Qed.

Lemma trimmed_trim s t : trimmed s t -> trim s = t.
Proof.
  intros (a & b & -> & A & B & H & H'). unfold trim, rtrim. rewrite !rev_app_distr, <- app_assoc.
  destruct t as [|x t0] eqn:Et.
  - cbn [rev app]. rewrite <- (app_nil_r (rev b ++ rev a)), ltrim_app; [reflexivity | | discriminate].
    apply Forall_app. split; now apply Forall_rev.
  - rewrite <- Et in *. rewrite ltrim_app; [| now apply Forall_rev |].
    + rewrite rev_app_distr, !rev_involutive. now apply ltrim_app.
    + intros c t' E. destruct (exists_last (l := t)) as (t1 & y & ->); [rewrite Et; discriminate|]. rewrite rev_app_distr in E. cbn in E.
      injection E as <- _. now apply (H' y t1).
Qed.

Lemma trim_trimmed s : trimmed s (trim s).
Proof.
  unfold trim. destruct (ltrim_spec (rev s)) as (b & Eb & B & Hb). destruct (ltrim_spec (rtrim s)) as (a & Ea & A & Ha).
  exists a, (rev b). split; [|repeat split]; auto.
  - rewrite app_assoc, <- Ea. unfold rtrim. rewrite <- rev_app_distr, <- Eb. now rewrite rev_involutive.
  - now apply Forall_rev.
  - intros c t' E. rewrite E in Ea. unfold rtrim in Ea. apply (f_equal (@rev Z)) in Ea. rewrite rev_involutive, !rev_app_distr in Ea. cbn in Ea.
    exact (Hb c _ Ea).
Qed.

(** * The printer *)

Section Print.
  Context (debug : bool) (indent : list Z).
  Let P := print debug indent.

  (** Texts without dollar signs. *)
  Fixpoint indented (start : bool) (t : list Z) : list Z :=
    match t with
    | [] => []
    | c :: t' => if c =? 10 then 10 :: indented true t' else (if start then indent else []) ++ c :: indented false t'
    end.
  Fixpoint ends (start : bool) (t : list Z) : bool := match t with [] => start | c :: t' => ends (c =? 10) t' end.

  Lemma indented_line start p t : ~ In 10 p -> indented start (p ++ t) = match p with [] => indented start t | _ => (if start then indent else []) ++ p ++ indented false t end.
  Proof.
    revert start. induction p as [|c p IH]; intros start H; [reflexivity|]. cbn [app indented].
    assert (C : c =? 10 = false) by (apply Z.eqb_neq; intros ->; apply H; now left). rewrite C. f_equal. cbn [app]. f_equal.
    rewrite IH by (intro I; apply H; now right). destruct p; reflexivity.
  Qed.

  Lemma ends_line start p t : ~ In 10 p -> ends start (p ++ t) = match p with [] => ends start t | _ => ends false t end.
  Proof.
    revert start. induction p as [|c p IH]; intros start H; [reflexivity|]. cbn [app ends].
    assert (C : c =? 10 = false) by (apply Z.eqb_neq; intros ->; apply H; now left). rewrite C.
    rewrite IH by (intro I; apply H; now right). destruct p; reflexivity.
  Qed.

  Lemma print_literal : forall t p o, ~ In 36 t -> ~ In 10 p ->
    print_loop debug indent None p t o = Printed (mkOut (o_text o ++ indented (o_start o) (p ++ t)) (ends (o_start o) (p ++ t))).
  Proof.
    induction t as [|c t IH]; intros p o D N.
    - cbn [print_loop]. rewrite indented_line, ends_line by exact N. destruct o as [x s]. cbn [o_text o_start indented ends]. destruct p as [|c p].
      + cbn. now rewrite app_nil_r.
      + unfold write_raw. cbn [o_start o_text]. replace (c =? 10) with false by (symmetry; apply Z.eqb_neq; intros ->; apply N; now left).
        rewrite app_nil_r. destruct s; reflexivity.
    - cbn [print_loop]. assert (C36 : is_dollar c = false) by (apply Z.eqb_neq; intros ->; apply D; now left).
      rewrite C36. destruct (Z.eqb_spec c 10) as [->|C10].
      + rewrite IH; [|intro I; apply D; now right | intros []]. rewrite (indented_line _ p), (ends_line _ p) by exact N. cbn [o_text o_start app indented ends].
        change (10 =? 10) with true. cbn match. destruct o as [x s]. destruct p as [|c p].
        * cbn. rewrite andb_false_r. cbn. now rewrite <- app_assoc.
        * unfold write_raw. cbn [app o_start o_text]. replace (c =? 10) with false by (symmetry; apply Z.eqb_neq; intros ->; apply N; now left).
          destruct s; cbn [andb negb o_text]; rewrite <- ?app_assoc; cbn [app]; rewrite <- ?app_assoc; reflexivity.
      + rewrite IH; [now rewrite <- app_assoc | intro I; apply D; now right |]. intro I. apply in_app_iff in I. destruct I as [I|[I|[]]]; [now apply N | congruence].
  Qed.

  Lemma printed_literal t o : ~ In 36 t -> P t o = Printed (mkOut (o_text o ++ indented (o_start o) t) (ends (o_start o) t)).
  Proof. intro D. apply (print_literal t [] o D). intros []. Qed.
End Print.

(** * The layout *)

Definition deco (indent c : list Z) : list Z := flat_map (fun x => if x =? 10 then 10 :: indent ++ [32; 42] else [x]) c.

Lemma deco_cons indent x c : deco indent (x :: c) = (if x =? 10 then 10 :: indent ++ [32; 42] else [x]) ++ deco indent c.
Proof. reflexivity. Qed.

Lemma indented_starred indent c start : indented indent start (starred c) =
  match c with x :: _ => if (x =? 10) then [] else if start then indent else [] | [] => [] end ++ deco indent c.
Proof.
  revert start. induction c as [|x c IH]; intro start; [reflexivity|]. unfold starred in *. cbn [flat_map]. rewrite deco_cons. destruct (x =? 10) eqn:X.
  - cbn [app indented]. change (10 =? 10) with true. change (32 =? 10) with false. change (42 =? 10) with false. cbn match. rewrite IH.
    rewrite <- !app_assoc. cbn [app]. repeat f_equal. destruct c as [|y c]; [reflexivity|]. now destruct (y =? 10).
  - cbn [app indented]. rewrite X. rewrite IH. repeat f_equal. destruct c as [|y c]; [reflexivity|]. now destruct (y =? 10).
Qed.

Lemma lines_nonempty c : lines c <> [].
Proof. destruct c as [|x c]; cbn; [discriminate|]. destruct (x =? 10); [discriminate|]. destruct (lines c); discriminate. Qed.

Lemma joined_first b x l ls : joined b ((x :: l) :: ls) = x :: joined b (l :: ls).
Proof. destruct ls; reflexivity. Qed.

Lemma deco_joined indent c : deco indent c = joined (10 :: indent ++ [32; 42]) (lines c).
Proof.
  induction c as [|x c IH]; [reflexivity|]. rewrite deco_cons. cbn [lines]. destruct (x =? 10) eqn:X.
  - assert (N := lines_nonempty c). destruct (lines c) as [|l ls]; [contradiction|]. rewrite IH. reflexivity.
  - assert (N := lines_nonempty c). destruct (lines c) as [|l ls]; [contradiction|]. rewrite joined_first. cbn [app]. now rewrite IH.
Qed.

Lemma lines_single c : existsb (fun x => x =? 10) c = false -> lines c = [c].
Proof.
  induction c as [|x c IH]; [reflexivity|]. cbn. intro H. apply orb_false_iff in H as [-> H]. now rewrite IH.
Qed.
Lemma lines_multi c : existsb (fun x => x =? 10) c = true -> exists l l' ls, lines c = l :: l' :: ls.
Proof.
  induction c as [|x c IH]; cbn; [discriminate|]. destruct (x =? 10); cbn [orb].
  - intros _. assert (N := lines_nonempty c). destruct (lines c) as [|l ls]; [contradiction|]. eauto.
  - intro H. destruct (IH H) as (l & l' & ls & ->). eauto.
Qed.

Lemma starred_last c : c <> [] -> last (starred c) 0 =? 10 = false.
Proof.
  induction c as [|x c IH]; [contradiction|]. intros _. unfold starred in *. cbn [flat_map]. destruct c as [|y c].
  - destruct (x =? 10) eqn:X; [reflexivity|]. cbn. exact X.
  - assert (N : flat_map (fun c => if c =? 10 then [10; 32; 42] else [c]) (y :: c) <> []) by (cbn [flat_map]; destruct (y =? 10); discriminate).
    specialize (IH ltac:(discriminate)). remember (flat_map _ (y :: c)) as f. 
    assert (L : forall a, last (a ++ f) 0 = last f 0).
    { intro a. induction a as [|z a IHa]; [reflexivity|]. cbn [app]. destruct (a ++ f) eqn:E; [destruct a; [contradiction | discriminate]|]. exact IHa. }
    now rewrite L.
Qed.

Lemma starred_dollar c : In 36 (starred c) <-> In 36 c.
Proof.
  unfold starred. rewrite in_flat_map. split.
  - intros (x & I & J). destruct (Z.eqb_spec x 10); [destruct J as [J|[J|[J|[]]]]; discriminate|]. destruct J as [<-|[]]. exact I.
  - intro I. exists 36. split; [exact I | now left].
Qed.

Definition is_marked (c : list Z) : bool := match c with x :: _ => (x =? 33) || (x =? 42) | [] => true end.

Lemma prefixed_spec single c : (forall x c', c = x :: c' -> ~ space x) -> c <> [] ->
  prefixed single c = (if is_marked c then [] else if single then [32] else [10; 32]) ++ c.
Proof.
  intros H N. destruct c as [|x c]; [contradiction|]. specialize (H x c eq_refl). unfold prefixed, is_marked.
  assert (X : x =? 32 = false) by (apply Z.eqb_neq; intros ->; apply H; now left). rewrite X.
  destruct (x =? 33), (x =? 42), single; reflexivity.
Qed.

Lemma layout_multi indent c : existsb (fun x => x =? 10) c = true ->
  comment_text indent c = 10 :: indent ++ 47 :: 42 :: (if is_marked c then [] else 10 :: indent ++ [32; 42; 32]) ++ deco indent c ++ 10 :: indent ++ [32; 42; 47].
Proof.
  intro M. destruct (lines_multi c M) as (l & l' & ls & L). unfold comment_text. fold (is_marked c). rewrite deco_joined. rewrite L.
  replace ((10 :: indent ++ [32]) ++ [42]) with (10 :: indent ++ [32; 42]) by (cbn; now rewrite <- app_assoc).
  replace ((10 :: indent ++ [32]) ++ [42; 32]) with (10 :: indent ++ [32; 42; 32]) by (cbn; now rewrite <- app_assoc).
  remember (joined _ _) as j. clear. destruct (is_marked c); cbn [app]; rewrite <- !app_assoc; cbn [app]; rewrite <- ?app_assoc; cbn [app]; rewrite <- ?app_assoc; reflexivity.
Qed.

Lemma layout_single indent c : existsb (fun x => x =? 10) c = false ->
  comment_text indent c = 10 :: indent ++ 47 :: 42 :: (if is_marked c then [] else [32]) ++ c ++ [32; 42; 47].
Proof.
  intro M. unfold comment_text. fold (is_marked c). rewrite lines_single by exact M. cbn [app]. rewrite <- !app_assoc. reflexivity.
Qed.

Lemma comment_layout debug indent leading c o : trimmed leading c -> c <> [] -> ~ In 36 c ->
  printComments debug indent leading o = Printed (mkOut (o_text o ++ comment_text indent c) false).
Proof.
  intros T N D. assert (E := trimmed_trim _ _ T). destruct T as (_ & _ & _ & _ & _ & H & _). unfold printComments. rewrite E.
  destruct c as [|x0 c0] eqn:Ec; [contradiction|]. rewrite <- Ec in *. clear x0 c0 Ec.
  assert (Dl : forall single, ~ In 36 (prefixed single c)).
  { intros single I. rewrite prefixed_spec in I by assumption. apply in_app_iff in I. destruct I as [I|I]; [|now apply D].
    destruct (is_marked c), single; cbn in I; intuition discriminate. }
  rewrite printed_literal by (cbn; intuition discriminate). cbn [after o_text o_start indented ends]. change (10 =? 10) with true. change (47 =? 10) with false.
  change (42 =? 10) with false. cbn match. cbn [app]. change (if true then indent else []) with indent.
  destruct (existsb (fun x => x =? 10) c) eqn:M; cbn [negb].
  - rewrite printed_literal by (rewrite starred_dollar; apply Dl). cbn [after o_text o_start].
    rewrite starred_last by (rewrite prefixed_spec by assumption; intro X; apply app_eq_nil in X; now destruct X).
    rewrite printed_literal by (cbn; intuition discriminate). cbn [after o_text o_start indented ends]. change (10 =? 10) with true. cbn match.
    rewrite printed_literal by (cbn; intuition discriminate). cbn [after o_text o_start indented ends]. change (32 =? 10) with false. change (42 =? 10) with false.
    change (47 =? 10) with false. cbn match. rewrite indented_starred.
    assert (A : match prefixed false c with [] => [] | x :: _ => if x =? 10 then [] else [] end = @nil Z) by (destruct (prefixed false c) as [|y ?]; [|destruct (y =? 10)]; reflexivity).
    rewrite A. rewrite prefixed_spec by assumption. rewrite layout_multi by exact M. clear. f_equal. f_equal.
    destruct (is_marked c); cbn [app]; rewrite ?deco_cons; change (10 =? 10) with true; change (32 =? 10) with false; cbn [app]; rewrite <- ?app_assoc; cbn [app];
      rewrite <- ?app_assoc; cbn [app]; rewrite <- ?app_assoc; reflexivity.
  - rewrite printed_literal by apply Dl. cbn [after o_text o_start]. rewrite printed_literal by (cbn; intuition discriminate).
    cbn [after o_text o_start indented ends]. change (32 =? 10) with false. change (42 =? 10) with false. change (47 =? 10) with false. cbn match.
    rewrite layout_single by exact M. rewrite prefixed_spec by assumption.
    assert (S : forall s, existsb (fun x => x =? 10) s = false -> indented indent false s = s /\ ends false s = false).
    { clear. induction s as [|x s IH]; [split; reflexivity|]. cbn. intro H. apply orb_false_iff in H as [-> H]. destruct (IH H) as [-> ->]. split; reflexivity. }
    destruct (S ((if is_marked c then [] else [32]) ++ c)) as [S1 S2].
    { rewrite existsb_app, M. destruct (is_marked c); reflexivity. }
    rewrite S1, S2. f_equal. f_equal. destruct (is_marked c); cbn [app]; rewrite <- !app_assoc; cbn [app]; rewrite <- ?app_assoc; reflexivity.
Qed.

(** * The comment in the code *)

Fixpoint has2 (a b : Z) (s : list Z) : bool := match s with x :: s' => ((x =? a) && match s' with y :: _ => y =? b | [] => false end) || has2 a b s' | [] => false end.

Lemma has2_part a b s : has2 a b s = true <-> part [a; b] s.
Proof.
  split.
  - induction s as [|x s IH]; cbn; [discriminate|]. intro H. apply orb_true_iff in H as [H|H].
    + apply andb_true_iff in H as [X Y]. destruct s as [|y s]; [discriminate|]. apply Z.eqb_eq in X, Y. subst. now exists [], s.
    + destruct (IH H) as (p & q & ->). now exists (x :: p), q.
  - intros (p & q & ->). induction p as [|x p IH]; [cbn; now rewrite !Z.eqb_refl|]. cbn [app] in *. cbn [has2]. rewrite IH. apply orb_true_r.
Qed.
Lemma has2_not a b s : has2 a b s = false <-> ~ part [a; b] s.
Proof. rewrite <- has2_part. destruct (has2 a b s); intuition congruence. Qed.

Lemma has2_app a b s t : has2 a b (s ++ t) = has2 a b s || has2 a b t || (match s with [] => false | _ => last s 0 =? a end && match t with y :: _ => y =? b | [] => false end).
Proof.
  induction s as [|x s IH]; cbn [app has2]; [now rewrite andb_false_l, orb_false_r|]. rewrite IH. destruct s as [|y s].
  - cbn [app last has2]. destruct (x =? a), (has2 a b t), (match t with y :: _ => y =? b | [] => false end); reflexivity.
  - cbn [app]. replace (last (x :: y :: s) 0) with (last (y :: s) 0) by reflexivity.
    rewrite !orb_assoc. reflexivity.
Qed.

Definition firstz (s : list Z) : Z := match s with x :: _ => x | [] => 0 end.
Lemma has2_cons a b x s : b <> 0 -> has2 a b (x :: s) = ((x =? a) && (firstz s =? b)) || has2 a b s.
Proof. intro B. destruct s as [|y s]; [|reflexivity]. cbn [has2 firstz]. rewrite (proj2 (Z.eqb_neq 0 b)) by congruence. reflexivity. Qed.

Lemma has2_blank a b s t : Forall (fun x => x = 32) s -> a <> 32 -> b <> 32 -> b <> 0 -> has2 a b (s ++ 32 :: t) = has2 a b t.
Proof.
  intros F A B B0. induction F as [|x s -> F IH]; cbn [app].
  - rewrite has2_cons by exact B0. now rewrite (proj2 (Z.eqb_neq 32 a)) by congruence.
  - rewrite has2_cons by exact B0. rewrite IH. now rewrite (proj2 (Z.eqb_neq 32 a)) by congruence.
Qed.

Lemma has2_deco indent c : Forall (fun x => x = 32) indent -> has2 42 47 (deco indent c) = has2 42 47 c || has2 10 47 c.
Proof.
  intro F. induction c as [|x c IH]; [reflexivity|]. rewrite deco_cons, (has2_cons 42 47 x), (has2_cons 10 47 x) by discriminate.
  assert (E : firstz (deco indent c) =? 47 = (firstz c =? 47)).
  { destruct c as [|y c]; [reflexivity|]. rewrite deco_cons. cbn [firstz]. destruct (Z.eqb_spec y 10) as [->|]; reflexivity. }
  destruct (Z.eqb_spec x 10) as [->|X].
  - rewrite <- app_comm_cons, <- app_assoc, has2_cons by discriminate. cbn [app]. rewrite has2_blank by (auto; discriminate).
    rewrite has2_cons, IH, E by discriminate. cbn. destruct (firstz c =? 47), (has2 42 47 c), (has2 10 47 c); reflexivity.
  - cbn [app]. rewrite has2_cons, IH, E by discriminate. cbn [andb]. destruct (x =? 42), (firstz c =? 47), (has2 42 47 c), (has2 10 47 c); reflexivity.
Qed.

(** Up to the first asterisk and slash. *)
Lemma block_end p s : has2 42 47 p = false -> code_of Block (p ++ 42 :: 47 :: s) = code_of Code s.
Proof.
  induction p as [|x p IH]; [reflexivity|]. intro H. rewrite has2_cons in H by discriminate. apply orb_false_iff in H as [H0 H].
  cbn [app code_of]. specialize (IH H). destruct (x =? 42); [|exact IH]. destruct p as [|y p]; [exact IH|]. cbn [app]. cbn in H0. now rewrite H0.
Qed.

Lemma has2_split p : has2 42 47 p = true -> exists a b, p = a ++ 42 :: 47 :: b /\ has2 42 47 a = false.
Proof.
  induction p as [|x p IH]; [discriminate|]. intro H. destruct (has2 42 47 p) eqn:P.
  - destruct ((x =? 42) && (firstz p =? 47)) eqn:X.
    + apply andb_true_iff in X as [X Y]. apply Z.eqb_eq in X, Y. destruct p as [|y p]; [discriminate|]. cbn in Y. subst. now exists [], p.
    + destruct (IH eq_refl) as (a & b & -> & A). exists (x :: a), b. split; [reflexivity|]. rewrite has2_cons, A by discriminate. rewrite orb_false_r.
      destruct a as [|y a]; [apply andb_false_r | exact X].
  - rewrite has2_cons, P in H by discriminate. rewrite orb_false_r in H. apply andb_true_iff in H as [X Y]. apply Z.eqb_eq in X, Y.
    destruct p as [|y p]; [discriminate|]. cbn in Y. subst. now exists [], p.
Qed.

Lemma code_nonempty s : s <> [] -> code_of Code s <> [].
Proof.
  destruct s as [|x s]; [contradiction|]. intros _. cbn. destruct (x =? 47).
  - destruct s as [|y s]; [discriminate|]. destruct (y =? 42); [discriminate|]. destruct (y =? 47); discriminate.
  - destruct ((x =? 34) || (x =? 39)); discriminate.
Qed.

Lemma code_blank s t : Forall (fun x => x = 32) s -> code_of Code (s ++ t) = s ++ code_of Code t.
Proof. induction 1 as [|x s -> _ IH]; [reflexivity|]. cbn. now rewrite IH. Qed.

Lemma code_opening indent t : Forall (fun x => x = 32) indent -> code_of Code (10 :: indent ++ 47 :: 42 :: t) = 10 :: indent ++ 32 :: code_of Block t.
Proof. intro F. cbn [code_of]. change (10 =? 47) with false. cbn match. change ((10 =? 34) || (10 =? 39)) with false. cbn match. now rewrite code_blank. Qed.

(** The comment between its opening and its end. *)
Definition inner (indent c : list Z) : list Z :=
  if existsb (fun x => x =? 10) c then (if is_marked c then [] else 10 :: indent ++ [32; 42; 32]) ++ deco indent c ++ 10 :: indent ++ [32]
  else (if is_marked c then [] else [32]) ++ c ++ [32].

Lemma comment_inner indent c : comment_text indent c = 10 :: indent ++ 47 :: 42 :: inner indent c ++ [42; 47].
Proof.
  unfold inner. destruct (existsb (fun x => x =? 10) c) eqn:M; [rewrite layout_multi by exact M | rewrite layout_single by exact M];
    rewrite <- ?app_assoc; cbn [app]; rewrite <- ?app_assoc; reflexivity.
Qed.

Lemma has2_single c : existsb (fun x => x =? 10) c = false -> has2 10 47 c = false.
Proof. induction c as [|x c IH]; [reflexivity|]. cbn. intro H. apply orb_false_iff in H as [-> H]. now rewrite IH. Qed.

Lemma has2_trail indent s : Forall (fun x => x = 32) indent -> has2 42 47 (s ++ 10 :: indent ++ [32]) = has2 42 47 s.
Proof.
  intro F. rewrite has2_app. cbn [has2]. change (10 =? 42) with false. change (10 =? 47) with false. cbn [andb orb]. rewrite has2_blank by (auto; discriminate).
  cbn. now rewrite andb_false_r, !orb_false_r.
Qed.
Lemma has2_lead indent c s : Forall (fun x => x = 32) indent -> has2 42 47 ((if is_marked c then [] else 10 :: indent ++ [32; 42; 32]) ++ s) = has2 42 47 s.
Proof.
  intro F. destruct (is_marked c); [reflexivity|]. rewrite <- app_comm_cons, <- app_assoc, has2_cons by discriminate. cbn [app].
  rewrite has2_blank by (auto; discriminate). rewrite !has2_cons by discriminate. reflexivity.
Qed.
Lemma has2_lead1 c s : has2 42 47 ((if is_marked c then [] else [32]) ++ s) = has2 42 47 s.
Proof. destruct (is_marked c); [reflexivity|]. cbn [app]. now rewrite has2_cons by discriminate. Qed.

Lemma has2_inner indent c : Forall (fun x => x = 32) indent -> has2 42 47 (inner indent c) = has2 42 47 c || has2 10 47 c.
Proof.
  intro F. unfold inner. destruct (existsb (fun x => x =? 10) c) eqn:M.
  - rewrite has2_lead, has2_trail by exact F. now apply has2_deco.
  - rewrite has2_lead1, (has2_single c M), has2_app. cbn. now rewrite andb_false_r, !orb_false_r.
Qed.

Lemma ends_has2 c : ends_comment c <-> has2 42 47 c || has2 10 47 c = true.
Proof. unfold ends_comment. rewrite <- !has2_part. symmetry. apply orb_true_iff. Qed.

Lemma comment_code indent c : Forall (fun x => x = 32) indent ->
  (forall rest, code_of Code (comment_text indent c ++ rest) = 10 :: indent ++ 32 :: code_of Code rest) <-> ~ ends_comment c.
Proof.
  intro F. rewrite ends_has2, <- (has2_inner indent) by exact F.
  assert (E : forall rest, code_of Code (comment_text indent c ++ rest) = 10 :: indent ++ 32 :: code_of Block (inner indent c ++ 42 :: 47 :: rest)).
  { intro rest. rewrite comment_inner. rewrite <- app_comm_cons, <- app_assoc. cbn [app]. rewrite <- app_assoc. cbn [app]. now apply code_opening. }
  split.
  - intros H T. destruct (has2_split _ T) as (a & b & X & A). specialize (H []). rewrite E, X, <- app_assoc in H. cbn [app] in H.
    rewrite block_end in H by exact A. injection H as H. apply app_inv_head in H. injection H as H.
    apply (code_nonempty (b ++ [42; 47])); [now destruct b | exact H].
  - intros N rest. rewrite E, block_end; [reflexivity|]. now destruct (has2 42 47 (inner indent c)).
Qed.

(** The text that becomes code. *)
Lemma comment_broken indent l c rest : Forall (fun x => x = 32) indent -> ~ ends_comment l -> forall r, c = l ++ 42 :: 47 :: r \/ c = l ++ 10 :: 47 :: r ->
  code_of Code (comment_text indent c ++ rest) =
  10 :: indent ++ 32 :: code_of Code (joined (10 :: indent ++ [32; 42]) (lines r) ++ (if existsb (fun x => x =? 10) c then 10 :: indent ++ [32] else [32]) ++ 42 :: 47 :: rest).
Proof.
  intros F N r C. rewrite ends_has2 in N. apply not_true_is_false in N. rewrite comment_inner. rewrite <- app_comm_cons, <- app_assoc. cbn [app]. rewrite <- app_assoc. cbn [app].
  rewrite code_opening by exact F. f_equal. f_equal. f_equal. rewrite <- deco_joined. unfold inner. destruct (existsb (fun x => x =? 10) c) eqn:M.
  - destruct C as [C|C].
    + replace (deco indent c) with (deco indent l ++ 42 :: 47 :: deco indent r) by (rewrite C; unfold deco; now rewrite flat_map_app).
      rewrite <- !app_assoc, <- app_comm_cons. cbn [app]. rewrite app_assoc, block_end; [now rewrite <- ?app_assoc|].
      rewrite has2_lead by exact F. now rewrite has2_deco.
    + replace (deco indent c) with ((deco indent l ++ 10 :: indent ++ [32]) ++ 42 :: 47 :: deco indent r).
      2:{ rewrite C. unfold deco. rewrite flat_map_app. cbn [flat_map]. change (10 =? 10) with true. change (47 =? 10) with false. cbn match.
          rewrite <- !app_assoc. cbn [app]. rewrite <- !app_assoc. reflexivity. }
      transitivity (code_of Block (((if is_marked c then [] else 10 :: indent ++ [32; 42; 32]) ++ deco indent l ++ 10 :: indent ++ [32]) ++ 42 :: 47 ::
        (deco indent r ++ (10 :: indent ++ [32]) ++ 42 :: 47 :: rest))).
      { f_equal. destruct (is_marked c); repeat (rewrite <- ?app_assoc; cbn [app]); reflexivity. }
      rewrite block_end; [reflexivity|]. rewrite has2_lead, has2_trail by exact F. now rewrite has2_deco.
  - destruct C as [C|C].
    + assert (Mr : existsb (fun x => x =? 10) r = false).
      { rewrite C, existsb_app in M. apply orb_false_iff in M as [_ M]. exact M. }
      assert (D : deco indent r = r) by (clear - Mr; induction r as [|x r IH]; [reflexivity|]; cbn in Mr; apply orb_false_iff in Mr as [X Mr]; rewrite deco_cons, X, IH by exact Mr; reflexivity).
      transitivity (code_of Block (((if is_marked c then [] else [32]) ++ l) ++ 42 :: 47 :: (r ++ [32] ++ 42 :: 47 :: rest))).
      { f_equal. rewrite C at 2. destruct (is_marked c); repeat (rewrite <- ?app_assoc; cbn [app]); reflexivity. }
      rewrite D, block_end; [reflexivity|]. rewrite has2_lead1. now apply orb_false_iff in N as [N _].
    + rewrite C, existsb_app in M. apply orb_false_iff in M as [_ M]. discriminate.
Qed.

(** * Dollar signs *)

Section Dollars.
  Context (debug : bool) (indent : list Z).

  Definition reserve (start : bool) : nat := if start then length indent else 0%nat.
  Definition potential (o : out) : nat := (length (o_text o) + reserve (o_start o))%nat.
  Fixpoint weight (t : list Z) : nat := match t with [] => 0 | c :: t' => S ((if c =? 10 then length indent else 0) + weight t') end.

  Lemma weight_app s t : weight (s ++ t) = (weight s + weight t)%nat.
  Proof. induction s as [|c s IH]; cbn [weight app]; [reflexivity | rewrite IH; lia]. Qed.

  Lemma write_raw_potential p o : (potential (write_raw indent p o) <= potential o + length p)%nat.
  Proof.
    destruct o as [t s]. unfold write_raw, potential. destruct p as [|c p]; cbn [o_text o_start length]; [lia|].
    destruct (s && negb (c =? 10)) eqn:E; cbn [o_text o_start].
    - apply andb_true_iff in E as [-> _]. rewrite !app_length. cbn. lia.
    - rewrite app_length. cbn [length]. lia.
  Qed.

  Lemma weight_length p : (length p <= weight p)%nat.
  Proof. induction p as [|c p IH]; cbn [weight length]; [lia|]. destruct (c =? 10); lia. Qed.

  Lemma print_potential : forall n t, (length t <= n)%nat -> forall name p o o', (name <> None -> p = []) -> print_loop debug indent name p t o = Printed o' ->
    (potential o' + (match name with Some _ => 0 | None => if existsb is_dollar t then 1 else 0 end) <= potential o + weight p + weight t)%nat.
  Proof.
    induction n as [|n IH]; intros t L name p o o' NP H.
    - destruct t; [|cbn in L; lia]. cbn in H. injection H as <-. assert (W := write_raw_potential p o). assert (X := weight_length p). destruct name; cbn; lia.
    - destruct t as [|c t].
      { cbn in H. injection H as <-. assert (W := write_raw_potential p o). assert (X := weight_length p). destruct name; cbn; lia. }
      cbn [length] in L. cbn [print_loop] in H. cbn [existsb weight]. destruct name as [v|].
      + destruct (is_dollar c).
        * destruct v as [|x v].
          -- apply IH in H; [|lia | congruence]. assert (W := write_raw_potential [36] o). cbn [length weight] in *. destruct (existsb is_dollar t); lia.
          -- destruct debug; [discriminate|]. apply IH in H; [|lia | congruence]. cbn [weight] in *. destruct (existsb is_dollar t); lia.
        * apply IH in H; [|lia | reflexivity]. cbn [weight] in *. lia.
      + destruct (Z.eqb_spec c 10) as [->|C].
        * apply IH in H; [|lia | congruence]. assert (W := write_raw_potential (p ++ [10]) o). assert (X := weight_length p).
          rewrite app_length in W. cbn [length] in W. change (is_dollar 10) with false. cbn [orb]. unfold potential in H at 2. cbn [o_text o_start reserve weight] in H.
          unfold potential in W at 1. lia.
        * destruct (is_dollar c) eqn:D.
          -- assert (W := write_raw_potential p o). assert (X := weight_length p). destruct (existsb is_dollar t).
             ++ apply IH in H; [|lia | reflexivity]. cbn [weight orb] in *. lia.
             ++ destruct debug; [discriminate|]. destruct t as [|d t]; [discriminate|]. cbn [length] in L. apply IH in H; [|lia | congruence].
                assert (W' := write_raw_potential [36] (write_raw indent p o)). cbn [length weight orb] in *. destruct (existsb is_dollar t); lia.
          -- apply IH in H; [|lia | congruence]. rewrite weight_app in H. cbn [weight] in H. rewrite (proj2 (Z.eqb_neq c 10) C) in H. cbn [orb]. lia.
  Qed.

  Lemma printed_potential t o o' : print debug indent t o = Printed o' -> (potential o' + (if existsb is_dollar t then 1 else 0) <= potential o + weight t)%nat.
  Proof. intro H. assert (X := print_potential (length t) t (le_n _) None [] o o' ltac:(congruence) H). cbn [weight] in X. lia. Qed.

  Lemma deco_weight c : length (deco indent c) = weight (starred c).
  Proof.
    induction c as [|x c IH]; [reflexivity|]. rewrite deco_cons. unfold starred in *. cbn [flat_map]. rewrite app_length, weight_app, IH.
    destruct (x =? 10) eqn:X; cbn [weight length]; [rewrite app_length; cbn; lia | rewrite X; lia].
  Qed.
  Lemma single_weight c : existsb (fun x => x =? 10) c = false -> length c = weight c.
  Proof. induction c as [|x c IH]; [reflexivity|]. cbn. intro H. apply orb_false_iff in H as [-> H]. now rewrite IH. Qed.

  Lemma in_dollar t : In 36 t -> existsb is_dollar t = true.
  Proof. intro I. apply existsb_exists. now exists 36. Qed.

  Lemma comment_dollar leading c o o' : trimmed leading c -> In 36 c -> printComments debug indent leading o = Printed o' ->
    (length (o_text o') < length (o_text o ++ comment_text indent c))%nat.
  Proof.
    intros T D R. assert (E := trimmed_trim _ _ T). destruct T as (_ & _ & _ & _ & _ & H & _). unfold printComments in R. rewrite E in R.
    assert (N : c <> []) by (intros ->; destruct D).
    destruct c as [|x0 c0] eqn:Ec; [contradiction|]. rewrite <- Ec in *. clear x0 c0 Ec.
    rewrite printed_literal in R by (cbn; intuition discriminate). cbn [after o_text o_start indented ends] in R. change (10 =? 10) with true in R. change (47 =? 10) with false in R.
    change (42 =? 10) with false in R. cbn [app] in R.
    remember (mkOut (o_text o ++ 10 :: indent ++ [47; 42]) false) as o1 eqn:O1.
    assert (P1 : potential o1 = (length (o_text o) + 3 + length indent)%nat) by (rewrite O1; unfold potential; cbn; rewrite app_length; cbn; rewrite app_length; cbn; lia).
    assert (FIN : forall a b, print debug indent [32; 42; 47] a = Printed b -> (length (o_text b) <= potential a + 3)%nat).
    { intros a b F. rewrite printed_literal in F by (cbn; intuition discriminate). injection F as <-. cbn. rewrite !app_length. unfold potential, reserve. destruct (o_start a); cbn; rewrite ?app_length; cbn; lia. }
    destruct (existsb (fun x => x =? 10) c) eqn:M; cbn [negb] in R.
    - rewrite starred_last in R by (rewrite prefixed_spec by assumption; intro X; apply app_eq_nil in X; now destruct X).
      destruct (print debug indent (starred (prefixed false c)) o1) as [o2| |] eqn:R2; cbn [after] in R; try discriminate.
      assert (P2 := printed_potential _ _ _ R2). rewrite in_dollar in P2 by (rewrite starred_dollar, prefixed_spec by assumption; apply in_or_app; now right).
      destruct (print debug indent [10] o2) as [o3| |] eqn:R3; cbn [after] in R; try discriminate. assert (P3 := printed_potential _ _ _ R3). cbn in P3.
      apply FIN in R. rewrite app_length, layout_multi by exact M. rewrite <- deco_weight, prefixed_spec in P2 by assumption. cbn [length]. rewrite !app_length. cbn [length].
      rewrite !app_length. cbn [length]. rewrite app_length. cbn [length]. unfold deco in P2. rewrite flat_map_app, app_length in P2. fold (deco indent c) in P2.
      destruct (is_marked c); cbn [flat_map app length] in *; [lia|]. change (10 =? 10) with true in P2. change (32 =? 10) with false in P2. cbn [length app] in P2.
      rewrite !app_length in *. cbn [length] in *. lia.
    - destruct (print debug indent (prefixed true c) o1) as [o2| |] eqn:R2; cbn [after] in R; try discriminate.
      assert (P2 := printed_potential _ _ _ R2). rewrite in_dollar in P2 by (rewrite prefixed_spec by assumption; apply in_or_app; now right).
      apply FIN in R. rewrite app_length, layout_single by exact M. rewrite prefixed_spec in P2 by assumption. rewrite weight_app, <- (single_weight c M) in P2. cbn [length].
      rewrite !app_length. cbn [length]. rewrite !app_length. cbn [length]. destruct (is_marked c); cbn in *; lia.
  Qed.

  Lemma comment_empty leading o : trimmed leading [] -> printComments debug indent leading o = Printed o.
  Proof. intro T. unfold printComments. now rewrite (trimmed_trim _ _ T). Qed.
End Dollars.

Definition dollars (t : list Z) : nat := count_occ Z.eq_dec t 36.

Lemma dollars_cons c t : dollars (c :: t) = ((if is_dollar c then 1 else 0) + dollars t)%nat.
Proof. unfold dollars, is_dollar. cbn. destruct (Z.eq_dec c 36) as [->|N]; [reflexivity|]. now rewrite (proj2 (Z.eqb_neq c 36) N). Qed.
Lemma dollars_none t : existsb is_dollar t = false <-> dollars t = 0%nat.
Proof.
  induction t as [|c t IH]; [intuition|]. rewrite dollars_cons. cbn [existsb]. destruct (is_dollar c); cbn; [intuition discriminate | exact IH].
Qed.

Lemma print_odd indent : forall t name p o,
  match name with None => Nat.odd (dollars t) = true | Some _ => Nat.odd (dollars t) = false /\ dollars t <> 0%nat end ->
  print_loop true indent name p t o = Fatal.
Proof.
  induction t as [|c t IH]; intros name p o H.
  - destruct name; [now destruct H | discriminate].
  - rewrite dollars_cons in H. cbn [print_loop]. destruct name as [v|].
    + destruct H as [O N]. destruct (is_dollar c).
      * destruct v; [|reflexivity]. apply IH. cbn [Nat.add] in O. rewrite Nat.odd_succ, <- Nat.negb_odd in O. now apply negb_false_iff in O.
      * apply IH. now split.
    + destruct (Z.eqb_spec c 10) as [->|C]; [now apply IH|]. destruct (is_dollar c); [|now apply IH].
      destruct (existsb is_dollar t) eqn:X; [|reflexivity]. apply IH. cbn [Nat.add] in H. rewrite Nat.odd_succ, <- Nat.negb_odd in H. split; [now apply negb_true_iff in H|].
      rewrite <- dollars_none. congruence.
Qed.

Lemma dollars_starred c : dollars (starred c) = dollars c.
Proof.
  induction c as [|x c IH]; [reflexivity|]. rewrite dollars_cons, <- IH. unfold starred. cbn [flat_map]. destruct (Z.eqb_spec x 10) as [->|]; [reflexivity|]. cbn [app].
  apply dollars_cons.
Qed.
Lemma dollars_prefixed single c : dollars (prefixed single c) = dollars c.
Proof. destruct c as [|x c]; [reflexivity|]. unfold prefixed. destruct (_ && _), single; reflexivity. Qed.

Lemma comment_odd indent leading c o : trimmed leading c -> Nat.odd (dollars c) = true -> printComments true indent leading o = Fatal.
Proof.
  intros T D. assert (E := trimmed_trim _ _ T). unfold printComments. rewrite E. destruct c as [|x0 c0] eqn:Ec; [discriminate|]. rewrite <- Ec in *. clear x0 c0 Ec.
  rewrite printed_literal by (cbn; intuition discriminate). cbn [after]. unfold print.
  destruct (existsb (fun x => x =? 10) c); cbn [negb]; rewrite print_odd; try reflexivity; now rewrite ?dollars_starred, dollars_prefixed.
Qed.

Lemma print_last indent : forall t p o, ~ In 36 t -> print_loop false indent None p (t ++ [36]) o = Undefined.
Proof.
  induction t as [|c t IH]; intros p o D; [reflexivity|]. cbn [app print_loop].
  assert (C : is_dollar c = false) by (apply Z.eqb_neq; intros ->; apply D; now left). rewrite C. assert (D' : ~ In 36 t) by (intro I; apply D; now right).
  destruct (c =? 10); now apply IH.
Qed.

Lemma comment_last indent leading c o : trimmed leading (c ++ [36]) -> ~ In 36 c -> printComments false indent leading o = Undefined.
Proof.
  intros T D. assert (E := trimmed_trim _ _ T). destruct T as (_ & _ & _ & _ & _ & H & _). unfold printComments. rewrite E. assert (N : c ++ [36] <> []) by now destruct c.
  destruct (c ++ [36]) as [|x0 c0] eqn:Ec; [contradiction|]. rewrite <- Ec in *. clear x0 c0 Ec.
  rewrite printed_literal by (cbn; intuition discriminate). cbn [after]. unfold print. rewrite !prefixed_spec by assumption.
  assert (DP : forall b, ~ In 36 ((if is_marked (c ++ [36]) then [] else if b : bool then [32] else [10; 32]) ++ c)).
  { intros b I. apply in_app_iff in I. destruct I as [I|I]; [|now apply D]. destruct (is_marked _), b; cbn in I; intuition discriminate. }
  destruct (existsb (fun x => x =? 10) (c ++ [36])); cbn [negb].
  - rewrite app_assoc. unfold starred. rewrite flat_map_app. change (flat_map _ [36]) with [36]. fold (starred ((if is_marked (c ++ [36]) then [] else [10; 32]) ++ c)).
    rewrite print_last; [reflexivity|]. rewrite starred_dollar. apply (DP false).
  - rewrite app_assoc, print_last; [reflexivity|]. apply (DP true).
Qed.

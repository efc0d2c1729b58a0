(** The scan by lines finds what is declared. *)

From Coq Require Import String Ascii ZArith List Bool Arith Lia.
From Verif Require Import GenModel GenSpec GenStrings BuildModel BuildSpec BuildProofs.
Import ListNotations.
Open Scope string_scope.

(** * Reading *)

Definition good (r : reading) : Prop :=
  (r_depth r <> 0 -> r_start r = false /\ r_word r = None)
  /\ (r_inside r <> None -> r_start r = false /\ r_word r = None)
  /\ (r_start r = true -> r_word r = None).

Ltac is_good := unfold good; cbn [r_depth r_start r_word r_inside r_found reading_start]; split; [| split]; intros; try split; congruence.

Lemma good_start : good reading_start.
Proof. is_good. Qed.

Lemma good_token : forall r t, good r -> good (read_token r t).
Proof.
  intros [d s w i f] t (A & B & C). cbn [r_depth r_start r_word r_inside] in *. destruct t as [x | c | x | x | x]; cbn [read_token r_word r_start r_depth r_inside r_found].
  - destruct w as [k |].
    + destruct (existsb (String.eqb k) kinds); is_good.
    + destruct s; [| split; [exact A | split; [exact B | exact C]]]. unfold good. cbn [r_depth r_start r_word r_inside r_found]. split; [| split].
      * intro H. exfalso. destruct (A H) as [X _]. discriminate X.
      * intro H. exfalso. destruct (B H) as [X _]. discriminate X.
      * discriminate.
  - destruct (Ascii.eqb c "{"); [is_good |].
    destruct (Ascii.eqb c "}"); [destruct d as [| [| d]]; is_good |].
    destruct (Ascii.eqb c ";"); [destruct d as [| d]; is_good |]. is_good.
  - is_good.
  - split; [exact A | split; [exact B | exact C]].
  - split; [exact A | split; [exact B | exact C]].
Qed.

Lemma good_line : forall l r, good r -> good (read_line r l).
Proof. induction l as [| t l IH]; intros r G; [exact G |]. cbn. apply IH. apply good_token. exact G. Qed.

Lemma read_line_app : forall a b r, read_line r (a ++ b)%list = read_line (read_line r a) b.
Proof. intros a b r. unfold read_line. apply fold_left_app. Qed.

Lemma line_fits_app : forall a b r, line_fits r (a ++ b)%list <-> line_fits r a /\ line_fits (read_line r a) b.
Proof.
  induction a as [| t a IH]; intros b r; [cbn; tauto |]. cbn [app line_fits read_line fold_left].
  rewrite IH. unfold read_line. tauto.
Qed.

(** Found declarations stay. *)
Lemma found_token : forall r t, exists new, r_found (read_token r t) = (r_found r ++ new)%list
  /\ (new = [] \/ exists k w, new = [(k, w)] /\ In k kinds).
Proof.
  intros [d s w i f] t. cbn [r_found].
  assert (Z : exists new, f = (f ++ new)%list /\ (new = [] \/ exists k w, new = [(k, w)] /\ In k kinds))
    by (exists []; split; [rewrite app_nil_r; reflexivity | left; reflexivity]).
  destruct t as [x | c | x | x | x]; cbn [read_token r_word r_start r_depth r_inside r_found]; try exact Z.
  - destruct w as [k |]; [| destruct s; exact Z].
    destruct (existsb (String.eqb k) kinds) eqn:K; [| exact Z]. exists [(k, x)]. split; [reflexivity |].
    right. exists k, x. split; [reflexivity |]. apply existsb_exists in K. destruct K as (y & I & E). apply String.eqb_eq in E. subst. exact I.
  - destruct (Ascii.eqb c "{"); [exact Z |]. destruct (Ascii.eqb c "}"); [destruct d as [| [| d]]; exact Z |].
    destruct (Ascii.eqb c ";"); [destruct d; exact Z | exact Z].
Qed.

Lemma found_kinds : forall l r, exists new, r_found (read_line r l) = (r_found r ++ new)%list /\ Forall (fun d => In (fst d) kinds) new.
Proof.
  induction l as [| t l IH]; intro r; [exists []; rewrite app_nil_r; split; [reflexivity | constructor] |].
  cbn. destruct (IH (read_token r t)) as (n2 & E2 & K2). destruct (found_token r t) as (n1 & E1 & K1).
  exists (n1 ++ n2)%list. unfold read_line in E2. rewrite E2, E1, app_assoc. split; [reflexivity |]. apply Forall_app. split; [| exact K2].
  destruct K1 as [-> | (k & w & -> & K)]; [constructor | constructor; [exact K | constructor]].
Qed.

Lemma found_line : forall l r, exists new, r_found (read_line r l) = (r_found r ++ new)%list.
Proof. intros l r. destruct (found_kinds l r) as (new & E & _). exists new. exact E. Qed.

Lemma new_kinds : forall r l new, new_found r l new -> Forall (fun d => In (fst d) kinds) new.
Proof.
  intros r l new N. destruct (found_kinds l r) as (n2 & E & K). unfold new_found in N. rewrite E in N. apply app_inv_head in N. subst. exact K.
Qed.

Lemma new_exists : forall r l, exists new, new_found r l new.
Proof. intros r l. exact (found_line l r). Qed.

Lemma new_unique : forall r l a b, new_found r l a -> new_found r l b -> a = b.
Proof. intros r l a b A B. unfold new_found in *. rewrite A in B. apply app_inv_head in B. exact B. Qed.

(** Outside of a message one stays there if nothing is declared. *)
Lemma outside_stays : forall l r, r_inside r <> Some "message" -> r_found (read_line r l) = r_found r ->
  r_inside (read_line r l) <> Some "message".
Proof.
  induction l as [| t l IH]; intros r N F; [exact N |]. cbn in *.
  destruct (found_token r t) as (n1 & E1 & _). destruct (found_line l (read_token r t)) as (n2 & E2). unfold read_line in E2.
  assert (n1 = [] /\ n2 = []) as [-> ->].
  { rewrite E2, E1, <- app_assoc in F. apply (f_equal (@List.length _)) in F. rewrite !app_length in F.
    split; [destruct n1 | destruct n2]; try reflexivity; cbn in F; lia. }
  rewrite app_nil_r in E1, E2. apply IH; [| exact E2]. clear E2 F IH.
  destruct r as [d s w i f]. cbn [r_found r_inside] in *.
  destruct t as [x | c | x | x | x]; cbn [read_token r_word r_start r_depth r_inside r_found] in *; try exact N.
  - destruct w as [k |]; [| destruct s; exact N].
    destruct (existsb (String.eqb k) kinds); [| exact N]. cbn in E1. exfalso.
    apply (f_equal (@List.length _)) in E1. rewrite app_length in E1. cbn in E1. lia.
  - destruct (Ascii.eqb c "{"); [exact N |]. destruct (Ascii.eqb c "}"); [destruct d as [| [| d]]; cbn; congruence |].
    destruct (Ascii.eqb c ";"); [destruct d; cbn; congruence | exact N].
Qed.

(** Inside of a message, what has no braces changes nothing. *)
Lemma inside_same : forall l r, good r -> r_inside r = Some "message" -> Forall brace_free l -> line_fits r l -> read_line r l = r.
Proof.
  induction l as [| t l IH]; intros r G I B F; [reflexivity |]. cbn in F. destruct F as [(F1 & F2) F].
  inversion B as [| ? ? Bt B']; subst.
  assert (E : read_token r t = r); [| cbn; rewrite E in *; exact (IH r G I B' F)].
  clear IH F B B'. destruct r as [d s w i f]. destruct G as (_ & G & _). cbn [r_depth r_start r_word r_inside] in *.
  destruct G as [-> ->]; [congruence |].
  destruct t as [x | c | x | x | x]; cbn [read_token r_word r_start r_depth r_inside r_found]; try reflexivity.
  destruct Bt as [B1 B2]. cbn in B1, B2.
  destruct (Ascii.eqb c "{") eqn:E1; [apply Ascii.eqb_eq in E1; subst; elim B1; left; reflexivity |].
  destruct (Ascii.eqb c "}") eqn:E2; [apply Ascii.eqb_eq in E2; subst; elim B2; left; reflexivity |].
  destruct (Ascii.eqb c ";") eqn:E3; [| reflexivity]. apply Ascii.eqb_eq in E3. subst c.
  destruct d; [elim (F2 eq_refl I); reflexivity | reflexivity].
Qed.

(** * The two together *)

Definition of_kind (k : string) (l : list (string * string)) : list string := map snd (filter (fun d => String.eqb (fst d) k) l).

Lemma of_kind_app : forall k a b, of_kind k (a ++ b)%list = (of_kind k a ++ of_kind k b)%list.
Proof. intros k a b. unfold of_kind. rewrite filter_app, map_app. reflexivity. Qed.

Record agree (st : scan) (r : reading) : Prop := mkAgree {
  ag_inside : s_inside st = true <-> r_inside r = Some "message";
  ag_braces : s_braces st = if s_inside st then Z.of_nat (r_depth r) else 0%Z;
  ag_messages : s_messages st = of_kind "message" (r_found r);
  ag_services : s_services st = of_kind "service" (r_found r);
  ag_package : s_package st = last (of_kind "package" (r_found r)) "";
  ag_enums : s_enums st = [] -> of_kind "enum" (r_found r) = [];
  ag_same_enums : of_kind "message" (r_found r) = [] -> s_enums st = of_kind "enum" (r_found r);
  ag_nonempty : s_inside st = true -> of_kind "message" (r_found r) <> []
}.

Lemma agree_start : agree scan_start reading_start.
Proof. constructor; cbn; try congruence; try tauto. split; discriminate. Qed.

Lemma show_line_app : forall a b, show_line (a ++ b)%list = show_line a ++ show_line b.
Proof.
  induction a as [| t a IH]; intro b; [reflexivity |]. unfold show_line in *. cbn. rewrite IH.
  rewrite app_assoc_s. reflexivity.
Qed.

Lemma free_line : forall c l, Forall (fun t => free_of c (show t)) l -> has_char c (show_line l) = false.
Proof.
  induction l as [| t l IH]; intro F; [reflexivity |]. inversion F; subst. unfold show_line in *. cbn. rewrite has_char_app, IH by assumption.
  rewrite has_char_free by assumption. reflexivity.
Qed.

(** The braces of a line inside of a message, where nothing is declared behind it. *)
Lemma inside_line : forall st r l item, good r -> agree st r -> r_inside r = Some "message" ->
  line_fits r l -> plain_braces l -> r_found (read_line r l) = r_found r ->
  has_char "{" item = has_char "{" (show_line l) -> has_char "}" item = has_char "}" (show_line l) ->
  agree (scan_braces st item) (read_line r l).
Proof.
  intros st r l item G A I F (a & b & c & op & cl & E & Bf & Op & Cl) Fd Hi Hi2.
  pose proof (proj2 (ag_inside _ _ A) I) as Si.
  rewrite !Forall_app in Bf. destruct Bf as (Ba & Bb & Bc).
  assert (Ho : has_char "{" (show_line l) = match op with [] => false | _ => true end).
  { rewrite E, !show_line_app, !has_char_app.
    rewrite (free_line "{" a), (free_line "{" b), (free_line "{" c) by (eapply Forall_impl; [| eassumption]; intros t X; apply X).
    destruct Op as [-> | ->], Cl as [-> | ->]; reflexivity. }
  assert (Hc : has_char "}" (show_line l) = match cl with [] => false | _ => true end).
  { rewrite E, !show_line_app, !has_char_app.
    rewrite (free_line "}" a), (free_line "}" b), (free_line "}" c) by (eapply Forall_impl; [| eassumption]; intros t X; apply X).
    destruct Op as [-> | ->], Cl as [-> | ->]; reflexivity. }
  unfold scan_braces. rewrite Si, Hi, Hi2. rewrite Ho, Hc. clear Ho Hc Hi Hi2.
  subst l. rewrite !read_line_app in *. rewrite !line_fits_app in F. destruct F as (Fa & Fo & Fb & Fc & Fd').
  rewrite (inside_same a r G I Ba Fa) in *.
  set (d := r_depth r) in *. set (d1 := match op with [] => d | _ => S d end).
  assert (R1 : read_line r op = mkReading d1 false None (Some "message") (r_found r)).
  { destruct r as [d0 s w i f]. destruct G as (_ & G & _). cbn [r_inside r_start r_word r_depth r_found] in *. subst d. subst i.
    destruct G as [-> ->]; [discriminate |]. destruct Op as [-> | ->]; reflexivity. }
  rewrite R1 in *.
  set (r1 := mkReading d1 false None (Some "message") (r_found r)) in *.
  assert (G1 : good r1) by (unfold r1; is_good).
  rewrite (inside_same b r1 G1 eq_refl Bb Fb) in *.
  assert (Sb : s_braces (match op with [] => st | _ => with_braces st (s_braces st + 1) true end) = Z.of_nat d1).
  { rewrite (ag_braces _ _ A), Si in *. destruct Op as [-> | ->]; subst d1; cbn [with_braces s_braces].
    - rewrite (ag_braces _ _ A), Si. reflexivity.
    - fold d. lia. }
  assert (So : (if match op with [] => false | _ => true end then with_braces st (s_braces st + 1) true else st)
               = match op with [] => st | _ => with_braces st (s_braces st + 1) true end) by (destruct op; reflexivity).
  rewrite So. clear So.
  set (st1 := match op with [] => st | _ => with_braces st (s_braces st + 1) true end) in *.
  assert (A1 : agree st1 r1).
  { destruct A as [P1 P2 P3 P4 P5 P6 P7 P8]. destruct Op as [-> | ->]; subst st1 r1;
      constructor; cbn [with_braces s_inside s_braces s_messages s_services s_package s_enums r_inside r_depth r_found];
      [rewrite Si; split; reflexivity | rewrite Si; exact Sb | exact P3 | exact P4 | exact P5 | exact P6 | exact P7 | exact P8
      | split; reflexivity | exact Sb | exact P3 | exact P4 | exact P5 | exact P6 | exact P7 | intros _; exact (P8 Si)]. }
  assert (S1 : s_inside st1 = true) by (apply (ag_inside _ _ A1); reflexivity).
  destruct Cl as [-> | ->].
  - cbn [read_line fold_left] in *. fold (read_line r1 c) in *. rewrite (inside_same c r1 G1 eq_refl Bc Fd') in *. exact A1.
  - cbn [line_fits] in Fc. destruct Fc as [(Fc & _) _]. specialize (Fc eq_refl). cbn in Fc.
    change (read_line r1 [Symbol "}"]) with (read_token r1 (Symbol "}")) in *.
    assert (R2 : read_token r1 (Symbol "}")
                 = match d1 with 1 => mkReading 0 true None None (r_found r) | _ => mkReading (pred d1) false None (Some "message") (r_found r) end).
    { subst r1. clearbody d1. destruct d1 as [| [| d2]]; reflexivity. }
    rewrite R2 in *. rewrite Sb.
    destruct d1 as [| [| d2]] eqn:Ed; [elim Fc; reflexivity | |].
    + (* the message ends *)
      set (r2 := mkReading 0 true None None (r_found r)) in *.
      assert (N : r_inside (read_line r2 c) <> Some "message") by (apply outside_stays; [discriminate | exact Fd]).
      cbn [Z.of_nat]. change (1 - 1 =? 0)%Z with true. cbn [negb]. destruct A1.
      constructor; cbn; rewrite ?Fd; try assumption; try reflexivity; try discriminate.
      split; [discriminate | intro X; elim N; exact X].
    + set (r2 := mkReading (pred (S (S d2))) false None (Some "message") (r_found r)) in *.
      assert (G2 : good r2) by (unfold r2; is_good).
      rewrite (inside_same c r2 G2 eq_refl Bc Fd') in *.
      replace (Z.of_nat (S (S d2)) - 1 =? 0)%Z with false by (symmetry; apply Z.eqb_neq; lia). cbn [negb]. destruct A1.
      constructor; cbn [with_braces s_inside s_braces s_messages s_services s_package s_enums r_inside r_depth r_found];
        try assumption; [split; reflexivity | cbn [Nat.pred r2 r_depth]; lia | intros _; apply ag_nonempty0; exact S1].
Qed.

(** The rest of a line. *)
Lemma brace_not_free : forall c, (c = "{"%char \/ c = "}"%char) -> ~ brace_free (Symbol c).
Proof. intros c [-> | ->] [A B]; cbn in A, B; [apply A | apply B]; left; reflexivity. Qed.

Lemma split_cases : forall (A : Type) (a b c d : list A), (a ++ b = c ++ d)%list ->
  (exists e, c = (a ++ e)%list /\ b = (e ++ d)%list) \/ (exists e, e <> [] /\ a = (c ++ e)%list /\ d = (e ++ b)%list).
Proof.
  induction a as [| x a IH]; intros b c d E; cbn in E.
  - left. exists c. split; [reflexivity | exact E].
  - destruct c as [| y c]; cbn in E.
    + right. exists (x :: a). split; [discriminate |]. split; [reflexivity | symmetry; exact E].
    + injection E as -> E. destruct (IH b c d E) as [(e & -> & ->) | (e & Ne & -> & ->)].
      * left. exists e. split; reflexivity.
      * right. exists e. split; [exact Ne |]. split; reflexivity.
Qed.

Lemma plain_rest : forall h t, plain_braces (h ++ t)%list -> Forall brace_free h -> plain_braces t.
Proof.
  intros h t (a & b & c & op & cl & E & Bf & Op & Cl) H. rewrite !Forall_app in Bf. destruct Bf as (Ba & Bb & Bc).
  destruct (split_cases _ _ _ _ _ E) as [(e & Ea & Et) | (e & Ne & Eh & Et)].
  - exists e, b, c, op, cl. split; [exact Et |]. split; [| split; assumption]. rewrite Ea in Ba. rewrite !Forall_app in *. tauto.
  - rewrite Eh, Forall_app in H. destruct H as [_ He].
    assert (op = []) as ->.
    { destruct Op as [Op | Op]; [exact Op |]. exfalso. subst op. destruct e as [| x e]; [elim Ne; reflexivity |]. cbn in Et. injection Et as <- _.
      inversion He as [| ? ? X _]; subst. exact (brace_not_free "{" (or_introl eq_refl) X). }
    cbn [app] in Et. symmetry in Et. destruct (split_cases _ _ _ _ _ Et) as [(e2 & Ea & Et2) | (e2 & Ne2 & Eh2 & Et2)].
    + exists [], e2, c, [], cl. split; [exact Et2 |]. split; [| split; [left; reflexivity | exact Cl]].
      cbn [app]. rewrite Ea, Forall_app in Bb. rewrite Forall_app. tauto.
    + rewrite Eh2, Forall_app in He. destruct He as [_ He].
      assert (cl = []) as ->.
      { destruct Cl as [Cl | Cl]; [exact Cl |]. exfalso. subst cl. destruct e2 as [| x e2]; [elim Ne2; reflexivity |]. cbn in Et2. injection Et2 as <- _.
        inversion He as [| ? ? X _]; subst. exact (brace_not_free "}" (or_intror eq_refl) X). }
      cbn [app] in Et2. subst c. exists t, [], [], [], []. cbn [app]. rewrite !app_nil_r. split; [reflexivity |].
      rewrite Forall_app in Bc. split; [apply Bc |]. split; left; reflexivity.
Qed.

(** The first line of a declaration. *)
Lemma read_header : forall r blanks k gap n rest, r_start r = true -> good r -> Forall is_blank_token blanks -> In k kinds ->
  read_line r (blanks ++ Word k :: Blank gap :: Word n :: rest)%list
  = read_line (mkReading 0 false None (Some k) (r_found r ++ [(k, n)])) rest.
Proof.
  intros r blanks k gap n rest S G B K. rewrite read_line_app.
  assert (E : read_line r blanks = r).
  { clear -B. induction B as [| t l (s & ->) F IH]; [reflexivity | exact IH]. }
  rewrite E. destruct r as [d s w i f]. destruct G as (G1 & G2 & G3). cbn [r_start r_depth r_inside r_word r_found] in *. subst s.
  rewrite (G3 eq_refl). assert (d = 0) as -> by (destruct d; [reflexivity | destruct G1 as [X _]; [discriminate | discriminate X]]).
  cbn [read_line fold_left read_token r_word r_start r_depth r_inside r_found].
  assert (X : existsb (String.eqb k) kinds = true) by (apply existsb_exists; exists k; split; [exact K | apply String.eqb_refl]).
  rewrite X. reflexivity.
Qed.

Lemma word_brace_free : forall t, token_ok t -> (is_blank_token t \/ exists s, t = Word s) -> brace_free t.
Proof.
  assert (H : forall c, (c = "{"%char \/ c = "}"%char) -> ~ (In c word_letters \/ c = "."%char) /\ ~ In c blank_letters).
  { intros c [-> | ->]; split; [intros [X | X]; [apply ident_letters in X; vm_compute in X |]; discriminate X
      | intro X; apply blank_chars in X; vm_compute in X; discriminate X
      | intros [X | X]; [apply ident_letters in X; vm_compute in X |]; discriminate X
      | intro X; apply blank_chars in X; vm_compute in X; discriminate X]. }
  intros t T [(s & ->) | (s & ->)]; destruct T as [_ T]; rewrite Forall_forall in T; split; intro I; specialize (T _ I).
  - exact (proj2 (H _ (or_introl eq_refl)) T).
  - exact (proj2 (H _ (or_intror eq_refl)) T).
  - exact (proj1 (H _ (or_introl eq_refl)) T).
  - exact (proj1 (H _ (or_intror eq_refl)) T).
Qed.

Lemma header_brace_free : forall blanks k gap n rest, Forall token_ok (blanks ++ Word k :: Blank gap :: Word n :: rest)%list ->
  Forall is_blank_token blanks -> Forall brace_free (blanks ++ [Word k; Blank gap; Word n])%list.
Proof.
  intros blanks k gap n rest F B. rewrite Forall_app in F. destruct F as [F1 F2].
  inversion F2 as [| ? ? T1 F3]; subst. inversion F3 as [| ? ? T2 F4]; subst. inversion F4 as [| ? ? T3 _]; subst.
  rewrite Forall_app. split.
  - rewrite Forall_forall in *. intros t I. apply word_brace_free; [exact (F1 t I) | left; exact (B t I)].
  - constructor; [| constructor; [| constructor; [| constructor]]]; apply word_brace_free; try assumption;
      [right | left | right]; eexists; reflexivity.
Qed.

Lemma blanks_text : forall blanks, Forall is_blank_token blanks -> Forall token_ok blanks -> all_chars is_blank (show_line blanks).
Proof.
  induction blanks as [| t l IH]; intros B F; [constructor |]. inversion B as [| ? ? (s & ->) B']; inversion F as [| ? ? T F']; subst.
  unfold show_line in *. cbn. apply all_chars_app. split; [apply all_blanks; apply T | apply IH; assumption].
Qed.

Lemma apart_app : forall a b, apart (a ++ b)%list -> apart b.
Proof.
  induction a as [| t a IH]; intros b H; [exact H |]. apply IH. clear IH. cbn [app] in H.
  destruct t as [x | c | x | x | x]; try exact H. destruct (a ++ b)%list as [| t' l]; [exact Logic.I |].
  destruct t' as [y | c | y | y | y]; cbn in H; try exact H; [destruct H | apply H].
Qed.

Lemma rest_not_name : forall n rest, Forall token_ok rest -> apart (Word n :: rest) -> name_ends rest -> ~ starts is_package (show_line rest).
Proof.
  intros n rest F A [-> | (t & more & -> & H)] (c & s & E & P); [discriminate E |]. inversion F as [| ? ? T F']; subst.
  unfold show_line in E. cbn [fold_right] in E. destruct H as [(x & ->) | [-> | [-> | (x & ->)]]].
  - destruct T as [Nx T]. cbn [show] in E. destruct x as [| d x]; [elim Nx; reflexivity |]. cbn in E. injection E as <- _.
    inversion T as [| ? ? X _]; subst. apply blank_chars in X. apply ident_not_blank in P. congruence.
  - cbn in E. injection E as <- _. discriminate P.
  - cbn in E. injection E as <- _. discriminate P.
  - cbn in A. destruct A as [(x' & ->) _]. cbn in E. injection E as <- _. discriminate P.
Qed.

Lemma kinds_all : forall k, In k kinds -> k = "package" \/ k = "message" \/ k = "service" \/ k = "enum".
Proof. intros k I. cbn in I. intuition congruence. Qed.

Definition key_chars (k : string) : ascii -> bool := if String.eqb k "package" then is_package else is_ident.

Lemma key_chars_ok : forall k, key_chars k ";"%char = false /\ key_chars k backslash = false /\ forall c, key_chars k c = true -> is_package c = true.
Proof.
  intro k. unfold key_chars. destruct (String.eqb k "package"); (split; [reflexivity |]); (split; [reflexivity |]); intros c H; [exact H | apply ident_package; exact H].
Qed.

Lemma key_of_declaration : forall blanks k gap n rest, In k kinds -> line_ok (blanks ++ Word k :: Blank gap :: Word n :: rest)%list ->
  Forall is_blank_token blanks -> (k = "package" \/ free_of "." n) -> name_ends rest ->
  match_key (key_chars k) k (escape (show_line (blanks ++ Word k :: Blank gap :: Word n :: rest)%list)) = Some n.
Proof.
  intros blanks k gap n rest K (F & A) B D E. destruct (key_chars_ok k) as (C1 & C2 & C3).
  rewrite match_key_escape by assumption. rewrite show_line_app.
  pose proof F as F0. rewrite Forall_app in F. destruct F as [F1 F2].
  inversion F2 as [| ? ? T1 F3]; subst. inversion F3 as [| ? ? T2 F4]; subst. inversion F4 as [| ? ? T3 F5]; subst.
  change (show_line (Word k :: Blank gap :: Word n :: rest)) with (k ++ gap ++ n ++ show_line rest).
  destruct T2 as [Ng T2]. destruct T3 as [Nn T3].
  assert (An : all_chars (key_chars k) n).
  { unfold all_chars. rewrite Forall_forall in *. intros c I. specialize (T3 c I). unfold key_chars. destruct (String.eqb k "package") eqn:Ek.
    - destruct T3 as [X | ->]; [apply ident_package; apply ident_letters; exact X | reflexivity].
    - destruct T3 as [X | ->]; [apply ident_letters; exact X |]. exfalso.
      destruct D as [D | D]; [subst k; discriminate Ek | exact (D I)]. }
  apply match_key_found; try assumption.
  - apply blanks_text; assumption.
  - apply all_blanks. exact T2.
  - intros (c & s & Q & P). apply (rest_not_name n rest F5).
    + apply apart_app in A. cbn in A. destruct rest; [exact Logic.I | exact A].
    + exact E.
    + exists c, s. split; [exact Q | apply C3; exact P].
Qed.

(** No other keyword matches. *)
Lemma key_refused : forall r l new k, no_lookalike r l -> new_found r l new -> In k kinds ->
  (forall n, new <> [(k, n)]) -> (r_inside r <> Some "message" \/ r_depth r = 0 \/ (k <> "message" /\ k <> "enum")) ->
  match_key (key_chars k) k (escape (show_line l)) = None.
Proof.
  intros r l new k N Nf K H O. destruct (key_chars_ok k) as (C1 & C2 & _). rewrite match_key_escape by assumption.
  destruct (match_key (key_chars k) k (show_line l)) as [n |] eqn:E; [| reflexivity]. exfalso.
  destruct (N k K (match_key_looks k _ n K E)) as [(name & X) | (X & Y & Z)].
  - apply (H name). exact (new_unique _ _ _ _ Nf X).
  - destruct O as [O | [O | O]]; [exact (O X) | exact (Y O) | destruct Z; tauto].
Qed.

Lemma of_kind_one : forall k k' n, of_kind k [(k', n)] = if String.eqb k' k then [n] else [].
Proof. intros k k' n. unfold of_kind. cbn. destruct (String.eqb k' k); reflexivity. Qed.

Lemma step_line : forall st r l, good r -> agree st r -> line_ok l -> line_fits r l -> tidy_line r l ->
  agree (scan_item st (escape (show_line l))) (read_line r l).
Proof.
  intros st r l G A L F (D & N & B). destruct (new_exists r l) as (new & Nf).
  assert (KP : In "package" kinds) by (cbn; tauto). assert (KM : In "message" kinds) by (cbn; tauto).
  assert (KS : In "service" kinds) by (cbn; tauto). assert (KE : In "enum" kinds) by (cbn; tauto).
  destruct (D new Nf) as [-> | (k & n & blanks & gap & rest & -> & Rs & Bl & El & Dt & Ne)].
  - (* nothing is declared *)
    assert (Fd : r_found (read_line r l) = r_found r) by (unfold new_found in Nf; rewrite Nf, app_nil_r; reflexivity).
    assert (Hn : forall k n, ([] : list (string * string)) <> [(k, n)]) by discriminate.
    destruct (s_inside st) eqn:Si.
    + pose proof (proj1 (ag_inside _ _ A) Si) as I.
      pose proof (key_refused r l [] "package" N Nf KP (Hn _) ltac:(right; right; split; discriminate)) as Mp.
      pose proof (key_refused r l [] "service" N Nf KS (Hn _) ltac:(right; right; split; discriminate)) as Ms.
      assert (Ak : agree (scan_key st (escape (show_line l))) r).
      { unfold scan_key. change is_package with (key_chars "package"). rewrite Mp. change is_ident with (key_chars "message") at 1.
        destruct (match_key (key_chars "message") "message" (escape (show_line l))) as [n |] eqn:Mm.
        - destruct (Z.eqb (s_braces st) 0) eqn:Z; [| exact A]. exfalso.
          apply Z.eqb_eq in Z. rewrite (ag_braces _ _ A), Si in Z.
          rewrite (key_refused r l [] "message" N Nf KM (Hn _) ltac:(right; left; lia)) in Mm. discriminate Mm.
        - change is_ident with (key_chars "service") at 1. rewrite Ms.
          destruct (match_key is_ident "enum" (escape (show_line l))) as [n |]; [| exact A].
          destruct A as [P1 P2 P3 P4 P5 P6 P7 P8]. constructor; cbn; try assumption.
          + intro X. destruct (s_enums st); discriminate X.
          + intro X. elim (P8 Si X). }
      unfold scan_item. apply inside_line; try assumption; [apply B; left; exact I | |]; apply has_char_escape; discriminate.
    + assert (I : r_inside r <> Some "message") by (intro X; apply (ag_inside _ _ A) in X; congruence).
      assert (M : forall k, In k kinds -> match_key (key_chars k) k (escape (show_line l)) = None)
        by (intros k K; apply (key_refused r l []); try assumption; [apply Hn | left; exact I]).
      unfold scan_item, scan_key. change is_package with (key_chars "package"). rewrite (M _ KP).
      change is_ident with (key_chars "message") at 1. rewrite (M _ KM). change is_ident with (key_chars "service") at 1. rewrite (M _ KS).
      change is_ident with (key_chars "enum") at 1. rewrite (M _ KE). unfold scan_braces. rewrite Si.
      pose proof (outside_stays l r I Fd) as I'.
      destruct A as [P1 P2 P3 P4 P5 P6 P7 P8]. constructor; rewrite ?Fd; try assumption.
      * rewrite Si. split; [discriminate | intro X; elim I'; exact X].
      * rewrite Si in *. exact P2.
  - (* a declaration *)
    assert (K : In k kinds) by (pose proof (new_kinds _ _ _ Nf) as X; inversion X; subst; assumption).
    assert (I : r_inside r = None) by (destruct (r_inside r) eqn:E; [| reflexivity]; destruct G as (_ & G & _); destruct G as [X _]; congruence).
    assert (Si : s_inside st = false) by (destruct (s_inside st) eqn:E; [apply (ag_inside _ _ A) in E; congruence | reflexivity]).
    assert (Sb : s_braces st = 0%Z) by (rewrite (ag_braces _ _ A), Si; reflexivity).
    assert (M : forall k', In k' kinds -> k' <> k -> match_key (key_chars k') k' (escape (show_line l)) = None)
      by (intros k' K' X; apply (key_refused r l [(k, n)]); try assumption; [intros n' E; injection E as E _; congruence | left; congruence]).
    assert (Mk : match_key (key_chars k) k (escape (show_line l)) = Some n) by (subst l; apply key_of_declaration; assumption).
    set (r1 := mkReading 0 false None (Some k) (r_found r ++ [(k, n)])) in *.
    assert (R : read_line r l = read_line r1 rest) by (subst l; apply read_header; assumption).
    assert (Fd : r_found (read_line r1 rest) = r_found r1) by (rewrite <- R; exact Nf).
    assert (Sep : forall k', of_kind k' (r_found r1) = (of_kind k' (r_found r) ++ if String.eqb k k' then [n] else [])%list)
      by (intro k'; cbn [r1 r_found]; rewrite of_kind_app, of_kind_one; reflexivity).
    rewrite R. unfold scan_item. set (item := escape (show_line l)) in *.
    destruct (kinds_all k K) as [-> | [-> | [-> | ->]]].
    + assert (E : scan_key st item = mkScan n (s_messages st) (s_services st) (s_enums st) (s_braces st) (s_inside st)).
      { unfold scan_key. change is_package with (key_chars "package"). rewrite Mk. reflexivity. }
      rewrite E. unfold scan_braces. cbn [s_inside]. rewrite Si.
      pose proof (outside_stays rest r1 ltac:(discriminate) Fd) as I'.
      destruct A as [P1 P2 P3 P4 P5 P6 P7 P8]. constructor; cbn [s_inside s_braces s_messages s_services s_package s_enums]; rewrite ?Fd, ?Sep; cbn [String.eqb Ascii.eqb Bool.eqb]; rewrite ?app_nil_r; try assumption.
      * split; [discriminate | intro X; elim I'; exact X].
      * rewrite last_last. reflexivity.
      * discriminate.
    + assert (E : scan_key st item = mkScan (s_package st) (s_messages st ++ [n]) (s_services st) (s_enums st) (s_braces st) true).
      { unfold scan_key. change is_package with (key_chars "package"). rewrite (M "package" KP ltac:(discriminate)).
        change is_ident with (key_chars "message") at 1. rewrite Mk, Sb. reflexivity. }
      rewrite E. subst l.
      assert (Hf : Forall brace_free (blanks ++ [Word "message"; Blank gap; Word n])%list).
      { apply (header_brace_free blanks "message" gap n rest); [apply L | exact Bl]. }
      assert (El : (blanks ++ Word "message" :: Blank gap :: Word n :: rest = (blanks ++ [Word "message"; Blank gap; Word n]) ++ rest)%list)
        by (rewrite <- app_assoc; reflexivity).
      apply inside_line.
      * unfold r1. is_good.
      * destruct A as [P1 P2 P3 P4 P5 P6 P7 P8]. constructor; cbn [s_inside s_braces s_messages s_services s_package s_enums]; rewrite ?Sep; cbn [String.eqb Ascii.eqb Bool.eqb]; rewrite ?app_nil_r; try assumption.
        -- split; reflexivity.
        -- rewrite P3. reflexivity.
        -- intro X. destruct (of_kind "message" (r_found r)); discriminate X.
        -- intros _. destruct (of_kind "message" (r_found r)); discriminate.
      * reflexivity.
      * rewrite El, line_fits_app in F. destruct F as [_ F].
        pose proof (read_header r blanks "message" gap n [] Rs G Bl K) as H. cbn [read_line fold_left] in H.
        fold (read_line r (blanks ++ [Word "message"; Blank gap; Word n])%list) in H. rewrite H in F. exact F.
      * apply (plain_rest (blanks ++ [Word "message"; Blank gap; Word n])%list); [| exact Hf]. rewrite <- El. apply B. right. exists n. exact Nf.
      * exact Fd.
      * unfold item. rewrite has_char_escape by discriminate. rewrite El, show_line_app, has_char_app, free_line; [reflexivity |].
        eapply Forall_impl; [| exact Hf]. intros t X. apply X.
      * unfold item. rewrite has_char_escape by discriminate. rewrite El, show_line_app, has_char_app, free_line; [reflexivity |].
        eapply Forall_impl; [| exact Hf]. intros t X. apply X.
    + assert (E : scan_key st item = mkScan (s_package st) (s_messages st) (s_services st ++ [n]) (s_enums st) (s_braces st) (s_inside st)).
      { unfold scan_key. change is_package with (key_chars "package"). rewrite (M "package" KP ltac:(discriminate)).
        change is_ident with (key_chars "message") at 1. rewrite (M "message" KM ltac:(discriminate)).
        change is_ident with (key_chars "service") at 1. rewrite Mk. reflexivity. }
      rewrite E. unfold scan_braces. cbn [s_inside]. rewrite Si.
      pose proof (outside_stays rest r1 ltac:(discriminate) Fd) as I'.
      destruct A as [P1 P2 P3 P4 P5 P6 P7 P8]. constructor; cbn [s_inside s_braces s_messages s_services s_package s_enums]; rewrite ?Fd, ?Sep; cbn [String.eqb Ascii.eqb Bool.eqb]; rewrite ?app_nil_r; try assumption.
      * split; [discriminate | intro X; elim I'; exact X].
      * rewrite P4. reflexivity.
      * discriminate.
    + assert (E : scan_key st item = mkScan (s_package st) (s_messages st) (s_services st) (s_enums st ++ [n]) (s_braces st) (s_inside st)).
      { unfold scan_key. change is_package with (key_chars "package"). rewrite (M "package" KP ltac:(discriminate)).
        change is_ident with (key_chars "message") at 1. rewrite (M "message" KM ltac:(discriminate)).
        change is_ident with (key_chars "service") at 1. rewrite (M "service" KS ltac:(discriminate)).
        change is_ident with (key_chars "enum") at 1. rewrite Mk. reflexivity. }
      rewrite E. unfold scan_braces. cbn [s_inside]. rewrite Si.
      pose proof (outside_stays rest r1 ltac:(discriminate) Fd) as I'.
      destruct A as [P1 P2 P3 P4 P5 P6 P7 P8]. constructor; cbn [s_inside s_braces s_messages s_services s_package s_enums]; rewrite ?Fd, ?Sep; cbn [String.eqb Ascii.eqb Bool.eqb]; rewrite ?app_nil_r; try assumption.
      * split; [discriminate | intro X; elim I'; exact X].
      * intro X. destruct (s_enums st); discriminate X.
      * intro X. rewrite (P7 X). reflexivity.
      * discriminate.
Qed.

(** * Whole sources *)

Lemma scan_lines : forall ls st r, good r -> agree st r -> tidy r ls ->
  agree (fold_left scan_item (map escape (map show_line ls)) st) (fold_left read_line ls r).
Proof.
  induction ls as [| l ls IH]; intros st r G A T; [exact A |]. cbn in T. destruct T as (L & F & T & R). cbn [map fold_left].
  apply IH; [apply good_line; exact G | apply step_line; assumption | exact R].
Qed.

Lemma free_app : forall c a b, free_of c a -> free_of c b -> free_of c (a ++ b).
Proof. intros c a b A B I. change (In c (letters (a ++ b))) in I. rewrite letters_app in I. apply in_app_or in I. destruct I; [exact (A H) | exact (B H)]. Qed.

Lemma line_free_newline : forall l, Forall token_ok l -> free_of newline (show_line l).
Proof.
  induction l as [| t l IH]; intro F; [intros [] |]. inversion F as [| ? ? T F']; subst. unfold show_line. cbn [fold_right]. apply free_app; [| exact (IH F')].
  destruct t as [x | c | x | x | x]; cbn [show token_ok] in *.
  - destruct T as [_ T]. intro I. rewrite Forall_forall in T. destruct (T _ I) as [X | X]; [apply ident_letters in X; vm_compute in X |]; discriminate X.
  - intros [E | []]. subst c. apply member_spec in T. vm_compute in T. discriminate T.
  - destruct T as (c & s' & _ & _ & T). exact T.
  - exact T.
  - destruct T as [_ T]. intro I. rewrite Forall_forall in T. specialize (T _ I). apply blank_chars in T. vm_compute in T. discriminate T.
Qed.

Lemma tidy_ok : forall ls r, tidy r ls -> Forall (fun l => Forall token_ok l) ls.
Proof. induction ls as [| l ls IH]; intros r T; [constructor |]. cbn in T. destruct T as ((L & _) & _ & _ & T). constructor; [exact L | exact (IH _ T)]. Qed.

Lemma scan_source : forall ls, ls <> [] -> tidy_source ls -> agree (scan_text (source_text ls)) (read_source ls).
Proof.
  intros ls N (T & B). unfold scan_text, source_text. rewrite items_lines.
  - apply scan_lines; [exact good_start | exact agree_start | exact T].
  - destruct ls; [elim N; reflexivity | discriminate].
  - apply Forall_forall. intros s I. apply in_map_iff in I. destruct I as (l & <- & I).
    pose proof (tidy_ok ls _ T) as K. rewrite Forall_forall in K, B. destruct (B l I) as [B1 B2].
    split; [apply line_free_newline; exact (K l I) |]. split; [exact B2 |]. unfold balance. rewrite B1. lia.
Qed.

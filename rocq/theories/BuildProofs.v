(** Proofs about the scan of schemas. *)

From Coq Require Import String Ascii ZArith List Bool Arith Lia.
From Verif Require Import GenModel GenSpec GenStrings BuildModel BuildSpec.
Import ListNotations.
Open Scope string_scope.

(** * Characters *)

Definition member (c : ascii) (l : list ascii) : bool := existsb (Ascii.eqb c) l.

Lemma member_spec : forall c l, In c l <-> member c l = true.
Proof.
  intros c l. unfold member. rewrite existsb_exists. split.
  - intro I. exists c. split; [exact I | apply Ascii.eqb_refl].
  - intros (x & I & E). apply Ascii.eqb_eq in E. subst. exact I.
Qed.

Lemma ident_letters : forall c, In c word_letters <-> is_ident c = true.
Proof.
  intro c. rewrite member_spec. assert (E : member c word_letters = is_ident c); [| rewrite E; reflexivity].
  destruct c as [[] [] [] [] [] [] [] []]; vm_compute; reflexivity.
Qed.

Lemma blank_chars : forall c, In c blank_letters <-> is_blank c = true.
Proof.
  intro c. rewrite member_spec. assert (E : member c blank_letters = is_blank c); [| rewrite E; reflexivity].
  destruct c as [[] [] [] [] [] [] [] []]; vm_compute; reflexivity.
Qed.

Definition all_chars (p : ascii -> bool) (s : string) : Prop := Forall (fun c => p c = true) (letters s).

Lemma all_blanks : forall s, Forall (fun c => In c blank_letters) (letters s) <-> all_chars is_blank s.
Proof.
  intro s. unfold all_chars. split; intro F; eapply Forall_impl; try exact F; intro c; apply blank_chars.
Qed.

Lemma letters_app : forall a b, letters (a ++ b) = (letters a ++ letters b)%list.
Proof. induction a as [| c a IH]; intro b; [reflexivity |]. cbn. rewrite IH. reflexivity. Qed.

Lemma all_chars_app : forall p a b, all_chars p (a ++ b) <-> all_chars p a /\ all_chars p b.
Proof. intros p a b. unfold all_chars. rewrite letters_app, Forall_app. reflexivity. Qed.

(** * Regular expressions *)

Lemma skip_blanks_app : forall a s, all_chars is_blank a -> skip_blanks (a ++ s) = skip_blanks s.
Proof.
  induction a as [| c a IH]; intros s B; [reflexivity |]. inversion B as [| ? ? X F]; subst. cbn. rewrite X. exact (IH s F).
Qed.

Definition starts (p : ascii -> bool) (s : string) : Prop := exists c s', s = String c s' /\ p c = true.

Lemma skip_blanks_stop : forall s, ~ starts is_blank s -> skip_blanks s = s.
Proof.
  intros [| c s] N; [reflexivity |]. cbn. destruct (is_blank c) eqn:E; [| reflexivity]. exfalso. apply N. exists c, s. split; [reflexivity | exact E].
Qed.

Lemma skip_blanks_split : forall s, exists a, s = a ++ skip_blanks s /\ all_chars is_blank a /\ ~ starts is_blank (skip_blanks s).
Proof.
  induction s as [| c s IH].
  - exists "". split; [reflexivity |]. split; [constructor |]. intros (c & s' & E & _). discriminate.
  - cbn. destruct (is_blank c) eqn:E.
    + destruct IH as (a & A & B & N). exists (String c a). split; [cbn; rewrite <- A; reflexivity |].
      split; [constructor; assumption | exact N].
    + exists "". split; [reflexivity |]. split; [constructor |]. intros (d & s' & Q & D). injection Q as <- _. congruence.
Qed.

Lemma behind_app : forall w s, behind w (w ++ s) = Some s.
Proof. induction w as [| c w IH]; intro s; [destruct s; reflexivity |]. cbn. rewrite Ascii.eqb_refl. apply IH. Qed.

Lemma behind_spec : forall w s t, behind w s = Some t -> s = w ++ t.
Proof.
  induction w as [| c w IH]; intros s t H; [injection H as ->; reflexivity |].
  destruct s as [| d s]; [discriminate |]. cbn in H. destruct (Ascii.eqb c d) eqn:E; [| discriminate].
  apply Ascii.eqb_eq in E. subst d. rewrite (IH s t H). reflexivity.
Qed.

Lemma take_while_app : forall p n s, all_chars p n -> ~ starts p s -> take_while p (n ++ s) = n.
Proof.
  induction n as [| c n IH]; intros s F N.
  - cbn. destruct s as [| c s]; [reflexivity |]. cbn. destruct (p c) eqn:E; [| reflexivity]. exfalso. apply N. exists c, s. split; [reflexivity | exact E].
  - inversion F as [| ? ? X F']; subst. cbn. rewrite X. f_equal. exact (IH s F' N).
Qed.

Lemma ident_not_blank : forall c, is_package c = true -> is_blank c = false.
Proof. intro c. destruct c as [[] [] [] [] [] [] [] []]; vm_compute; congruence. Qed.

Lemma ident_package : forall c, is_ident c = true -> is_package c = true.
Proof. intros c H. unfold is_package. rewrite H. reflexivity. Qed.

(** Keywords do not start with a blank. *)
Lemma kinds_start : forall k s, In k kinds -> ~ starts is_blank (k ++ s).
Proof.
  intros k s I (c & s' & E & B). cbn in I.
  repeat (destruct I as [<- | I]; [cbn in E; injection E as <- _; vm_compute in B; discriminate B |]). destruct I.
Qed.

Lemma match_key_found : forall p k indent gap n rest,
  In k kinds -> (forall c, p c = true -> is_package c = true) ->
  all_chars is_blank indent -> all_chars is_blank gap -> gap <> "" -> all_chars p n -> n <> "" -> ~ starts p rest ->
  match_key p k (indent ++ k ++ gap ++ n ++ rest) = Some n.
Proof.
  intros p k indent gap n rest K P I G Ng N Nn R. unfold match_key.
  rewrite (skip_blanks_app indent _ I), skip_blanks_stop by (apply kinds_start; exact K). rewrite behind_app.
  destruct gap as [| g gap]; [elim Ng; reflexivity |]. inversion G as [| ? ? Bg G']; subst. cbn [append]. rewrite Bg.
  rewrite (skip_blanks_app gap _ G'). rewrite skip_blanks_stop.
  - rewrite take_while_app by assumption. destruct n; [elim Nn; reflexivity | reflexivity].
  - intros (c & s' & E & B). destruct n as [| d n]; [elim Nn; reflexivity |]. cbn in E. injection E as <- _.
    inversion N as [| ? ? X _]; subst. apply P in X. apply ident_not_blank in X. congruence.
Qed.

Lemma match_key_split : forall p k s n, match_key p k s = Some n ->
  exists indent gap c rest, s = indent ++ k ++ gap ++ String c rest
    /\ all_chars is_blank indent /\ all_chars is_blank gap /\ gap <> "" /\ p c = true.
Proof.
  intros p k s n H. unfold match_key in H. destruct (skip_blanks_split s) as (indent & E & I & _).
  destruct (behind k (skip_blanks s)) as [t |] eqn:B; [| discriminate]. apply behind_spec in B.
  destruct t as [| g t]; [discriminate |]. destruct (is_blank g) eqn:Bg; [| discriminate].
  destruct (skip_blanks_split t) as (gap & E2 & G & _).
  destruct (skip_blanks t) as [| c rest] eqn:Sk; [discriminate |].
  cbn in H. destruct (p c) eqn:Pc; [| discriminate].
  exists indent, (String g gap), c, rest. split; [rewrite E at 1; rewrite B; cbn; rewrite E2 at 1; reflexivity |].
  split; [exact I |]. split; [constructor; assumption |]. split; [discriminate | exact Pc].
Qed.

Lemma match_key_looks : forall k s n, In k kinds ->
  match_key (if String.eqb k "package" then is_package else is_ident) k s = Some n -> looks_like k s.
Proof.
  intros k s n K H. destruct (match_key_split _ _ _ _ H) as (indent & gap & c & rest & E & I & G & Ng & P).
  exists indent, gap, c, rest. split; [exact E |]. split; [apply all_blanks; exact I |]. split; [apply all_blanks; exact G |].
  split; [exact Ng |]. destruct (String.eqb k "package") eqn:Ek.
  - apply String.eqb_eq in Ek. unfold is_package in P. rewrite !orb_true_iff, !Ascii.eqb_eq in P.
    destruct P as [[P | P] | P]; [left; apply ident_letters; exact P | right; split; [exact Ek | left; exact P] | right; split; [exact Ek | right; exact P]].
  - left. apply ident_letters. exact P.
Qed.

(** * Items *)

(** What a line becomes as item. *)
Fixpoint escape (s : string) : string :=
  match s with
  | EmptyString => EmptyString
  | String c s' => if Ascii.eqb c ";" then String backslash (String ";" (escape s')) else String c (escape s')
  end.

Lemma escape_app : forall a b, escape (a ++ b) = escape a ++ escape b.
Proof. induction a as [| c a IH]; intro b; [reflexivity |]. cbn. rewrite IH. destruct (Ascii.eqb c ";"); reflexivity. Qed.

Lemma skip_blanks_escape : forall s, skip_blanks (escape s) = escape (skip_blanks s).
Proof.
  induction s as [| c s IH]; [reflexivity |]. cbn. destruct (Ascii.eqb c ";") eqn:E.
  - apply Ascii.eqb_eq in E. subst c. reflexivity.
  - cbn. destruct (is_blank c); [exact IH | cbn; rewrite E; reflexivity].
Qed.

Lemma take_while_escape : forall p s, p ";"%char = false -> p backslash = false -> take_while p (escape s) = take_while p s.
Proof.
  intros p s P Q. induction s as [| c s IH]; [reflexivity |]. cbn [escape take_while]. destruct (Ascii.eqb c ";") eqn:E.
  - apply Ascii.eqb_eq in E. subst c. cbn [escape take_while]. rewrite P, Q. reflexivity.
  - cbn [escape take_while]. rewrite IH. reflexivity.
Qed.

Lemma behind_escape : forall w s, free_of ";" w -> free_of backslash w -> behind w (escape s) = option_map escape (behind w s).
Proof.
  induction w as [| c w IH]; intros s F G; [destruct s; reflexivity |]. apply free_cons in F. apply free_cons in G.
  destruct F as [Nc F], G as [Gc G]. destruct s as [| d s]; [reflexivity |]. cbn [escape behind has_char]. destruct (Ascii.eqb d ";") eqn:E.
  - apply Ascii.eqb_eq in E. subst d. cbn [escape behind has_char]. destruct (Ascii.eqb c backslash) eqn:E1; [apply Ascii.eqb_eq in E1; contradiction |].
    destruct (Ascii.eqb c ";") eqn:E2; [apply Ascii.eqb_eq in E2; contradiction | reflexivity].
  - cbn [escape behind has_char]. destruct (Ascii.eqb c d); [exact (IH s F G) | reflexivity].
Qed.

Lemma kinds_free : forall k, In k kinds -> free_of ";" k /\ free_of backslash k.
Proof.
  intros k I. cbn in I. repeat (destruct I as [<- | I]; [split; vm_compute; intuition discriminate |]). destruct I.
Qed.

Lemma match_key_escape : forall p k s, In k kinds -> p ";"%char = false -> p backslash = false ->
  match_key p k (escape s) = match_key p k s.
Proof.
  intros p k s K P Q. destruct (kinds_free k K) as [F G]. unfold match_key.
  rewrite skip_blanks_escape, behind_escape by assumption. destruct (behind k (skip_blanks s)) as [[| c t] |]; cbn [option_map]; [reflexivity | | reflexivity].
  cbn [escape]. destruct (Ascii.eqb c ";") eqn:E.
  - apply Ascii.eqb_eq in E. subst c. reflexivity.
  - destruct (is_blank c); [| reflexivity]. rewrite skip_blanks_escape, take_while_escape by assumption. reflexivity.
Qed.

Lemma has_char_escape : forall c s, c <> ";"%char -> c <> backslash -> has_char c (escape s) = has_char c s.
Proof.
  intros c s N M. induction s as [| d s IH]; [reflexivity |]. cbn [escape behind has_char]. destruct (Ascii.eqb d ";") eqn:E.
  - apply Ascii.eqb_eq in E. subst d. cbn [escape behind has_char]. rewrite IH.
    destruct (Ascii.eqb c backslash) eqn:E1; [apply Ascii.eqb_eq in E1; contradiction | reflexivity].
  - cbn [escape behind has_char]. rewrite IH. reflexivity.
Qed.

Lemma has_char_app : forall c a b, has_char c (a ++ b) = has_char c a || has_char c b.
Proof. induction a as [| d a IH]; intro b; [reflexivity |]. cbn. rewrite IH, orb_assoc. reflexivity. Qed.

Lemma has_char_free : forall c s, free_of c s -> has_char c s = false.
Proof.
  intros c s. induction s as [| d s IH]; intro F; [reflexivity |]. apply free_cons in F. destruct F as [N F]. cbn.
  rewrite (IH F). destruct (Ascii.eqb c d) eqn:E; [apply Ascii.eqb_eq in E; subst; elim N; reflexivity | reflexivity].
Qed.

(** Some text in front of the first item. *)
Definition prepend (s : string) (l : list string) : list string := match l with [] => [s] | x :: l' => (s ++ x) :: l' end.

Definition balance (s : string) : Z := (Z.of_nat (count "[" s) - Z.of_nat (count "]" s))%Z.

Lemma put_nonempty : forall c l, put c l <> [].
Proof. intros c [| x l]; discriminate. Qed.

Lemma items_nonempty : forall s d, items d s <> [].
Proof.
  intros [| c s] d; [discriminate |]. cbn [items].
  destruct (Ascii.eqb c newline); [destruct (Z.eqb d 0); [discriminate | apply put_nonempty] |].
  destruct (Ascii.eqb c ";"); [apply put_nonempty |].
  destruct (Ascii.eqb c "["); [apply put_nonempty |].
  destruct (Ascii.eqb c "]"); [apply put_nonempty |].
  destruct s as [| n s]; [apply put_nonempty |].
  destruct (Ascii.eqb c backslash && Ascii.eqb n newline); apply put_nonempty.
Qed.

Lemma put_prepend : forall c s l, l <> [] -> put c (prepend s l) = prepend (String c s) l.
Proof. intros c s [| x l] N; [elim N; reflexivity | reflexivity]. Qed.

Lemma items_line : forall s d rest, free_of newline s -> ~ ends_with (String backslash "") s ->
  (rest = "" \/ exists r, rest = String newline r) ->
  items d (s ++ rest) = prepend (escape s) (items (d + balance s) rest).
Proof.
  induction s as [| c s IH]; intros d rest F Nb R.
  - cbn [append escape]. unfold balance. cbn [count]. replace (d + (Z.of_nat 0 - Z.of_nat 0))%Z with d by lia.
    pose proof (items_nonempty rest d) as Ne. destruct (items d rest) as [| x l]; [elim Ne; reflexivity | reflexivity].
  - apply free_cons in F. destruct F as [Nc F].
    assert (Nb' : ~ ends_with (String backslash "") s).
    { intros (a & E). apply Nb. exists (String c a). rewrite E. reflexivity. }
    assert (Ec : Ascii.eqb c newline = false) by (destruct (Ascii.eqb c newline) eqn:X; [apply Ascii.eqb_eq in X; contradiction | reflexivity]).
    cbn [append items escape]. rewrite Ec.
    destruct (Ascii.eqb c ";") eqn:E1.
    + apply Ascii.eqb_eq in E1. subst c. rewrite (IH d rest F Nb' R).
      replace (balance (String ";" s)) with (balance s) by reflexivity.
      rewrite !put_prepend by apply items_nonempty. reflexivity.
    + destruct (Ascii.eqb c "[") eqn:E2.
      * apply Ascii.eqb_eq in E2. subst c. rewrite (IH (d + 1)%Z rest F Nb' R).
        replace (d + 1 + balance s)%Z with (d + balance (String "[" s))%Z by (unfold balance; cbn [count]; rewrite Ascii.eqb_refl; cbn [Ascii.eqb Bool.eqb]; lia).
        rewrite put_prepend by apply items_nonempty. reflexivity.
      * destruct (Ascii.eqb c "]") eqn:E3.
        -- apply Ascii.eqb_eq in E3. subst c. rewrite (IH (d - 1)%Z rest F Nb' R).
           replace (d - 1 + balance s)%Z with (d + balance (String "]" s))%Z by (unfold balance; cbn [count]; rewrite Ascii.eqb_refl; cbn [Ascii.eqb Bool.eqb]; lia).
           rewrite put_prepend by apply items_nonempty. reflexivity.
        -- assert (B : balance (String c s) = balance s).
           { unfold balance. cbn [count]. rewrite (Ascii.eqb_sym "[" c), (Ascii.eqb_sym "]" c), E2, E3. reflexivity. }
           rewrite B, <- put_prepend by apply items_nonempty. rewrite <- (IH d rest F Nb' R).
           destruct (s ++ rest) as [| n t] eqn:Q; [reflexivity |].
           destruct (Ascii.eqb c backslash) eqn:E4; [| reflexivity]. destruct (Ascii.eqb n newline) eqn:E5; [| reflexivity]. exfalso.
           apply Ascii.eqb_eq in E4. apply Ascii.eqb_eq in E5. subst c n. destruct s as [| m s].
           ++ apply Nb. exists "". reflexivity.
           ++ cbn in Q. injection Q as -> _. apply free_cons in F. destruct F as [X _]. apply X. reflexivity.
Qed.

Lemma line_end_newline : line_end = newline.
Proof. reflexivity. Qed.

Lemma items_lines : forall ls, ls <> [] ->
  Forall (fun s => free_of newline s /\ ~ ends_with (String backslash "") s /\ balance s = 0%Z) ls ->
  items 0 (lines_text ls) = map escape ls.
Proof.
  induction ls as [| x [| y ls] IH]; intros N F; [elim N; reflexivity | |].
  - inversion F as [| ? ? (A & B & C) _]; subst. cbn [lines_text map]. pose proof (items_line x 0%Z "" A B (or_introl eq_refl)) as H.
    rewrite app_nil_s in H. rewrite H, C. cbn. rewrite app_nil_s. reflexivity.
  - inversion F as [| ? ? (A & B & C) F']; subst.
    change (lines_text (x :: y :: ls)) with (x ++ String line_end (lines_text (y :: ls))).
    rewrite (items_line x 0%Z _ A B (or_intror (ex_intro _ _ eq_refl))), C.
    change (0 + 0)%Z with 0%Z. cbn [items]. rewrite Ascii.eqb_refl. cbn [Z.eqb prepend].
    rewrite IH by (try discriminate; exact F'). rewrite app_nil_s. reflexivity.
Qed.

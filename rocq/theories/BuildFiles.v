(** Checking that a source is tidy by computing, and lists of files. *)

From Coq Require Import String Ascii ZArith List Bool Arith Lia.
From Verif Require Import GenModel GenSpec GenStrings BuildModel BuildSpec BuildProofs BuildScan.
Import ListNotations.
Open Scope string_scope.

(** * A check for tidy sources *)

Lemma looks_match : forall k s, In k kinds -> looks_like k s -> match_key (key_chars k) k s <> None.
Proof.
  intros k s K (indent & gap & c & rest & -> & I & G & N & C).
  apply all_blanks in I. apply all_blanks in G. unfold match_key.
  rewrite skip_blanks_app by exact I. rewrite skip_blanks_stop by (apply kinds_start; exact K). rewrite behind_app.
  destruct gap as [| g gap]; [elim N; reflexivity |]. cbn [append]. inversion G as [| ? ? Hg Hgap]; subst. rewrite Hg.
  rewrite skip_blanks_app by exact Hgap.
  assert (P : key_chars k c = true).
  { unfold key_chars. destruct C as [C | [-> [-> | ->]]]; [| reflexivity | reflexivity].
    apply ident_letters in C. destruct (String.eqb k "package"); [apply ident_package |]; exact C. }
  destruct (key_chars_ok k) as (_ & _ & Q).
  rewrite skip_blanks_stop.
  - cbn [take_while]. rewrite P. discriminate.
  - intros (d & t & E & B). injection E as <- _. apply Q in P. apply ident_not_blank in P. congruence.
Qed.

Definition word_char (c : ascii) : bool := is_ident c || Ascii.eqb c ".".
Definition token_okb (t : token) : bool :=
  match t with
  | Word s => negb (String.eqb s "") && forallb word_char (letters s)
  | Symbol c => member c symbols
  | Blank s => negb (String.eqb s "") && forallb is_blank (letters s)
  | Quoted s => match s with String c _ => (Ascii.eqb c quote || Ascii.eqb c "'") && negb (member line_end (letters s)) | EmptyString => false end
  | Comment s => negb (member line_end (letters s))
  end.

Lemma not_empty : forall s, negb (String.eqb s "") = true -> s <> "".
Proof. intros s H ->. discriminate H. Qed.

Lemma not_member : forall c s, negb (member c (letters s)) = true -> free_of c s.
Proof. intros c s H I. apply member_spec in I. unfold letters in H. rewrite I in H. discriminate H. Qed.

Lemma token_okb_ok : forall t, token_okb t = true -> token_ok t.
Proof.
  intros t H. destruct t as [s | c | s | s | s]; cbn [token_okb token_ok] in *.
  - apply andb_true_iff in H. destruct H as [H1 H2]. split; [apply not_empty; exact H1 |].
    rewrite forallb_forall in H2. apply Forall_forall. intros c I. specialize (H2 c I). unfold word_char in H2.
    apply orb_true_iff in H2. destruct H2 as [H2 | H2]; [left; apply ident_letters; exact H2 | right; apply Ascii.eqb_eq; exact H2].
  - apply member_spec. exact H.
  - destruct s as [| c s]; [discriminate H |]. apply andb_true_iff in H. destruct H as [H1 H2]. exists c, s. split; [reflexivity |].
    split; [apply orb_true_iff in H1; destruct H1 as [H1 | H1]; apply Ascii.eqb_eq in H1; tauto | apply not_member; exact H2].
  - apply not_member. exact H.
  - apply andb_true_iff in H. destruct H as [H1 H2]. split; [apply not_empty; exact H1 |].
    rewrite forallb_forall in H2. apply Forall_forall. intros c I. apply blank_chars. exact (H2 c I).
Qed.

Fixpoint apartb (l : list token) : bool :=
  match l with
  | Word _ :: ((Word _ :: _) as l') => false
  | Word _ :: ((Comment s :: _) as l') => match s with String c _ => Ascii.eqb c "/" | _ => false end && apartb l'
  | _ :: l' => apartb l'
  | [] => true
  end.

Lemma apartb_ok : forall l, apartb l = true -> apart l.
Proof.
  induction l as [| t l IH]; intro H; [exact Logic.I |].
  destruct t as [s | c | s | s | s]; try (apply IH; exact H).
  destruct l as [| t' l']; [exact Logic.I |]. destruct t' as [y | c | y | y | y]; try (apply IH; exact H); [discriminate H |].
  change (match y with String c _ => Ascii.eqb c "/" | _ => false end && apartb (Comment y :: l') = true) in H.
  apply andb_true_iff in H. destruct H as [H1 H2].
  change ((exists s', y = String "/" s') /\ apart (Comment y :: l')). split; [| apply IH; exact H2].
  destruct y as [| c y]; [discriminate H1 |]. apply Ascii.eqb_eq in H1. subst c. exists y. reflexivity.
Qed.

Definition token_fitsb (r : reading) (t : token) : bool :=
  match t with
  | Symbol c =>
      (negb (Ascii.eqb c "}") || negb (Nat.eqb (r_depth r) 0))
      && (negb (Ascii.eqb c ";") || negb (match r_inside r with Some k => String.eqb k "message" | None => false end) || negb (Nat.eqb (r_depth r) 0))
  | _ => true
  end.
Fixpoint line_fitsb (r : reading) (l : list token) : bool :=
  match l with [] => true | t :: l' => token_fitsb r t && line_fitsb (read_token r t) l' end.

Lemma line_fitsb_ok : forall l r, line_fitsb r l = true -> line_fits r l.
Proof.
  induction l as [| t l IH]; intros r H; [exact Logic.I |]. cbn in H. apply andb_true_iff in H. destruct H as [H1 H2]. split; [| apply IH; exact H2].
  split; [intros -> | intros -> I]; cbn in H1; [| rewrite I in H1; cbn in H1]; intro D; rewrite D in H1; discriminate H1.
Qed.

Definition blank_token (t : token) : bool := match t with Blank _ => true | _ => false end.
Fixpoint behind_blanks (l : list token) : list token :=
  match l with t :: l' => if blank_token t then behind_blanks l' else l | [] => [] end.

Lemma behind_blanks_ok : forall l, exists b, l = (b ++ behind_blanks l)%list /\ Forall is_blank_token b.
Proof.
  induction l as [| t l IH]; [exists []; split; [reflexivity | constructor] |]. cbn. destruct (blank_token t) eqn:E.
  - destruct IH as (b & H & B). exists (t :: b). split; [cbn; rewrite <- H; reflexivity |]. constructor; [| exact B].
    destruct t; try discriminate E. eexists. reflexivity.
  - exists []. split; [reflexivity | constructor].
Qed.

Definition name_endsb (l : list token) : bool :=
  match l with
  | [] => true
  | Blank _ :: _ | Comment _ :: _ => true
  | Symbol c :: _ => Ascii.eqb c "{" || Ascii.eqb c ";"
  | _ => false
  end.

Lemma name_endsb_ok : forall l, name_endsb l = true -> name_ends l.
Proof.
  intros [| t l] H; [left; reflexivity | right; exists t, l; split; [reflexivity |]].
  destruct t as [s | c | s | s | s]; cbn in H; try discriminate H.
  - apply orb_true_iff in H. destruct H as [H | H]; apply Ascii.eqb_eq in H; subst c; tauto.
  - right. right. right. exists s. reflexivity.
  - left. exists s. reflexivity.
Qed.

Definition new_of (r : reading) (l : list token) : list (string * string) := skipn (List.length (r_found r)) (r_found (read_line r l)).

Lemma new_of_ok : forall r l, new_found r l (new_of r l).
Proof.
  intros r l. destruct (new_exists r l) as (new & H). unfold new_of. pose proof H as H'. unfold new_found in H'. rewrite H'.
  rewrite skipn_app, skipn_all, Nat.sub_diag. exact H.
Qed.

Definition declaration_firstb (r : reading) (l : list token) : bool :=
  match new_of r l with
  | [] => true
  | [(k, n)] =>
      r_start r &&
      match behind_blanks l with
      | Word k' :: Blank _ :: Word n' :: rest =>
          String.eqb k k' && String.eqb n n' && (String.eqb k "package" || negb (member "." (letters n))) && name_endsb rest
      | _ => false
      end
  | _ => false
  end.

Lemma declaration_firstb_ok : forall r l, declaration_firstb r l = true -> declaration_first r l.
Proof.
  intros r l H new N. pose proof (new_unique _ _ _ _ N (new_of_ok r l)) as ->. unfold declaration_firstb in H.
  destruct (new_of r l) as [| [k n] [|]]; [left; reflexivity | right | discriminate H].
  apply andb_true_iff in H. destruct H as [H1 H2]. destruct (behind_blanks_ok l) as (b & E & B).
  destruct (behind_blanks l) as [| [w | c | w | w | w] [| [w' | c' | w' | w' | gap] [| [n' | c'' | w'' | w'' | w''] rest]]]; try discriminate H2.
  rewrite !andb_true_iff in H2. destruct H2 as (((K & M) & D) & R). apply String.eqb_eq in K. apply String.eqb_eq in M. subst w n'.
  exists k, n, b, gap, rest. split; [reflexivity |]. split; [exact H1 |]. split; [exact B |]. split; [exact E |]. split; [| apply name_endsb_ok; exact R].
  apply orb_true_iff in D. destruct D as [D | D]; [left; apply String.eqb_eq; exact D | right; apply not_member; exact D].
Qed.

Definition no_lookalikeb (r : reading) (l : list token) : bool :=
  forallb (fun k =>
    match match_key (key_chars k) k (show_line l) with
    | None => true
    | Some _ =>
        match new_of r l with [(k', _)] => String.eqb k' k | _ => false end
        || match r_inside r with Some m => String.eqb m "message" | None => false end && negb (Nat.eqb (r_depth r) 0)
           && (String.eqb k "message" || String.eqb k "enum")
    end) kinds.

Lemma no_lookalikeb_ok : forall r l, no_lookalikeb r l = true -> no_lookalike r l.
Proof.
  intros r l H k K L. unfold no_lookalikeb in H. rewrite forallb_forall in H. specialize (H k K). pose proof (looks_match k _ K L) as M.
  destruct (match_key (key_chars k) k (show_line l)) as [x |]; [| elim M; reflexivity].
  apply orb_true_iff in H. destruct H as [H | H].
  - left. pose proof (new_of_ok r l) as N. destruct (new_of r l) as [| [k' n] [|]]; try discriminate H. apply String.eqb_eq in H. subst k'. exists n. exact N.
  - right. rewrite !andb_true_iff in H. destruct H as ((H1 & H2) & H3). destruct (r_inside r) as [m |]; [| discriminate H1].
    apply String.eqb_eq in H1. subst m. split; [reflexivity |]. split.
    + intro D. rewrite D in H2. discriminate H2.
    + apply orb_true_iff in H3. destruct H3 as [H3 | H3]; apply String.eqb_eq in H3; tauto.
Qed.

Definition brace_freeb (t : token) : bool := negb (member "{" (letters (show t))) && negb (member "}" (letters (show t))).

Lemma brace_freeb_ok : forall t, brace_freeb t = true -> brace_free t.
Proof. intros t H. apply andb_true_iff in H. destruct H as [H1 H2]. split; apply not_member; assumption. Qed.

Fixpoint cut_free (l : list token) : list token * list token :=
  match l with t :: l' => if brace_freeb t then let (a, b) := cut_free l' in (t :: a, b) else ([], l) | [] => ([], []) end.

Lemma cut_free_ok : forall l a b, cut_free l = (a, b) -> l = (a ++ b)%list /\ Forall brace_free a.
Proof.
  induction l as [| t l IH]; intros a b H; cbn in H; [injection H as <- <-; split; [reflexivity | constructor] |].
  destruct (brace_freeb t) eqn:E.
  - destruct (cut_free l) as [a' b'] eqn:C. injection H as <- <-. destruct (IH _ _ eq_refl) as [-> F].
    split; [reflexivity |]. constructor; [apply brace_freeb_ok; exact E | exact F].
  - injection H as <- <-. split; [reflexivity | constructor].
Qed.

Definition is_symbol (c : ascii) (t : token) : bool := match t with Symbol d => Ascii.eqb c d | _ => false end.
Lemma is_symbol_ok : forall c t, is_symbol c t = true -> t = Symbol c.
Proof. intros c [s | d | s | s | s] H; try discriminate H. apply Ascii.eqb_eq in H. subst d. reflexivity. Qed.

Definition take_symbol (c : ascii) (l : list token) : list token * list token :=
  match l with t :: l' => if is_symbol c t then ([t], l') else ([], l) | [] => ([], []) end.
Lemma take_symbol_ok : forall c l a b, take_symbol c l = (a, b) -> l = (a ++ b)%list /\ (a = [] \/ a = [Symbol c]).
Proof.
  intros c [| t l] a b H; cbn in H; [injection H as <- <-; split; [reflexivity | left; reflexivity] |].
  destruct (is_symbol c t) eqn:E; injection H as <- <-; (split; [reflexivity |]); [right; rewrite (is_symbol_ok _ _ E) | left]; reflexivity.
Qed.

Definition plain_bracesb (l : list token) : bool :=
  let (a, l1) := cut_free l in let (opening, l2) := take_symbol "{" l1 in let (b, l3) := cut_free l2 in
  let (closing, l4) := take_symbol "}" l3 in let (c, l5) := cut_free l4 in is_nil l5.

Lemma plain_bracesb_ok : forall l, plain_bracesb l = true -> plain_braces l.
Proof.
  intros l H. unfold plain_bracesb in H.
  destruct (cut_free l) as [a l1] eqn:C1. destruct (take_symbol "{" l1) as [o l2] eqn:C2. destruct (cut_free l2) as [b l3] eqn:C3.
  destruct (take_symbol "}" l3) as [k l4] eqn:C4. destruct (cut_free l4) as [c l5] eqn:C5.
  apply cut_free_ok in C1. apply take_symbol_ok in C2. apply cut_free_ok in C3. apply take_symbol_ok in C4. apply cut_free_ok in C5.
  destruct l5; [| discriminate H]. destruct C1 as [-> F1], C2 as [-> F2], C3 as [-> F3], C4 as [-> F4], C5 as [-> F5].
  exists a, b, c, o, k. split; [rewrite app_nil_r; reflexivity |]. rewrite !Forall_app. tauto.
Qed.

Definition braces_apartb (r : reading) (l : list token) : bool :=
  negb (match r_inside r with Some m => String.eqb m "message" | None => false end
        || match new_of r l with [(k, _)] => String.eqb k "message" | _ => false end) || plain_bracesb l.

Lemma braces_apartb_ok : forall r l, braces_apartb r l = true -> braces_apart r l.
Proof.
  intros r l H K. apply plain_bracesb_ok. unfold braces_apartb in H. apply orb_true_iff in H. destruct H as [H | H]; [exfalso | exact H].
  destruct K as [K | (n & K)].
  - rewrite K in H. discriminate H.
  - pose proof (new_unique _ _ _ _ K (new_of_ok r l)) as N. rewrite <- N in H. rewrite orb_true_r in H. discriminate H.
Qed.

Fixpoint tidyb (r : reading) (ls : list (list token)) : bool :=
  match ls with
  | [] => true
  | l :: ls' =>
      forallb token_okb l && apartb l && line_fitsb r l && declaration_firstb r l && no_lookalikeb r l && braces_apartb r l
      && tidyb (read_line r l) ls'
  end.

Lemma tidyb_ok : forall ls r, tidyb r ls = true -> tidy r ls.
Proof.
  induction ls as [| l ls IH]; intros r H; [exact Logic.I |]. cbn [tidyb] in H. rewrite !andb_true_iff in H.
  destruct H as ((((((H1 & H2) & H3) & H4) & H5) & H6) & H7). cbn [tidy]. split; [| split; [| split]].
  - split; [| apply apartb_ok; exact H2]. rewrite forallb_forall in H1. apply Forall_forall. intros t I. apply token_okb_ok. exact (H1 t I).
  - apply line_fitsb_ok. exact H3.
  - split; [apply declaration_firstb_ok; exact H4 |]. split; [apply no_lookalikeb_ok; exact H5 | apply braces_apartb_ok; exact H6].
  - apply IH. exact H7.
Qed.

Definition closedb (l : list token) : bool :=
  Nat.eqb (count "[" (show_line l)) (count "]" (show_line l))
  && match last_char (show_line l) with Some c => negb (Ascii.eqb c backslash) | None => true end.

Lemma closedb_ok : forall l, closedb l = true -> brackets_closed l.
Proof.
  intros l H. apply andb_true_iff in H. destruct H as [H1 H2]. split; [apply Nat.eqb_eq; exact H1 |].
  intros (a & E). rewrite E, last_char_app in H2. discriminate H2.
Qed.

Lemma tidy_source_check : forall ls, tidyb reading_start ls && forallb closedb ls = true -> tidy_source ls.
Proof.
  intros ls H. apply andb_true_iff in H. destruct H as [H1 H2]. split; [apply tidyb_ok; exact H1 |].
  rewrite forallb_forall in H2. apply Forall_forall. intros l I. apply closedb_ok. exact (H2 l I).
Qed.

(** * Paths *)

Lemma slashes_app : forall a b, slashes (a ++ b) = slashes a ++ slashes b.
Proof. induction a as [| c a IH]; intro b; [reflexivity |]. cbn. rewrite IH. reflexivity. Qed.

Lemma slashes_free : forall s, free_of "." s -> slashes s = s.
Proof.
  induction s as [| c s IH]; intro F; [reflexivity |]. apply free_cons in F. destruct F as [N F]. cbn. rewrite IH by exact F.
  destruct (Ascii.eqb_spec c "."); [contradiction | reflexivity].
Qed.

Lemma slashes_parts : forall parts, package_parts parts -> slashes (package_of parts) = join "/" parts.
Proof.
  unfold package_of. induction parts as [| p parts IH]; intro P; [reflexivity |]. inversion P as [| ? ? [_ F] P']; subst.
  destruct parts as [| q parts]; [apply slashes_free; exact F |]. rewrite !join_cons, !slashes_app, IH by exact P'. rewrite slashes_free by exact F. reflexivity.
Qed.

Lemma same_path_refl : forall a, same_path a a.
Proof. intro a. reflexivity. Qed.

Lemma same_path_slash : forall a, same_path (String "/" a) a.
Proof. intro a. unfold same_path. cbn. reflexivity. Qed.

Lemma base_app : forall o package a b, generateBaseName o package a ++ b = generateBaseName o package (a ++ b).
Proof. intros o package a b. unfold generateBaseName. destruct (o_folder o); [apply app_assoc_s | reflexivity]. Qed.

Lemma folder_path : forall o parts x, package_parts parts -> o_folder o = true ->
  same_path (slashes (package_of parts) ++ "/" ++ x) (generateBaseName o (package_of parts) x).
Proof.
  intros o parts x P F. rewrite base_name_folder by assumption. rewrite slashes_parts by exact P.
  destruct parts as [| p parts]; [apply same_path_slash |]. rewrite join_snoc by discriminate. apply same_path_refl.
Qed.

Lemma path_base : forall base path, path_to base path -> name_wle path = base /\ extractFileBasename path = Some base.
Proof.
  intros base path (F & H). unfold name_wle, extractFileBasename, removeFileSuffix.
  assert (D : forall a, cut_last "." (a ++ ".proto") = Some (a, "proto")).
  { intro a. change ".proto" with (String "." "proto"). apply cut_last_app. intro I. cbn in I. intuition discriminate. }
  destruct H as [-> | (dir & ->)].
  - rewrite (cut_last_free "/" (base ++ ".proto")) by (apply GenStrings.free_app; split; [exact F | intro I; cbn in I; intuition discriminate]).
    rewrite D. cbn [option_map fst]. rewrite cut_last_free by exact F. auto.
  - change ("/" ++ base ++ ".proto") with (String "/" (base ++ ".proto")).
    rewrite (cut_last_app "/" dir (base ++ ".proto")) by (apply GenStrings.free_app; split; [exact F | intro I; cbn in I; intuition discriminate]). rewrite D. split; [reflexivity |].
    replace (dir ++ String "/" (base ++ ".proto")) with ((dir ++ String "/" base) ++ ".proto") by (rewrite app_assoc_s; reflexivity).
    rewrite D. cbn [option_map fst]. rewrite cut_last_app by exact F. reflexivity.
Qed.

(** * Lists *)

Lemma each_in_nil : forall l, each_in [] l.
Proof. intros l x []. Qed.

Lemma each_in_app : forall a b c d, each_in a c -> each_in b d -> each_in (a ++ b)%list (c ++ d)%list.
Proof.
  intros a b c d H K x I. apply in_app_or in I. destruct I as [I | I]; [destruct (H x I) as (y & J & S) | destruct (K x I) as (y & J & S)];
    exists y; (split; [apply in_or_app; tauto | exact S]).
Qed.

Lemma same_files_app : forall a b c d, same_files a c -> same_files b d -> same_files (a ++ b)%list (c ++ d)%list.
Proof. intros a b c d [H1 H2] [K1 K2]. split; apply each_in_app; assumption. Qed.

Lemma same_files_refl : forall a, same_files a a.
Proof. intro a. split; intros x I; exists x; (split; [exact I | apply same_path_refl]). Qed.

Lemma same_path_sym : forall a b, same_path a b -> same_path b a.
Proof. unfold same_path. intros a b H. congruence. Qed.

Lemma both_same : forall a b, (forall s, same_path (a ++ s) (b ++ s)) -> same_files (both a) (both b).
Proof.
  intros a b H. split; intros x [<- | [<- | []]].
  - exists (b ++ ".h"). split; [left; reflexivity | apply H].
  - exists (b ++ ".cpp"). split; [right; left; reflexivity | apply H].
  - exists (a ++ ".h"). split; [left; reflexivity | apply same_path_sym; apply H].
  - exists (a ++ ".cpp"). split; [right; left; reflexivity | apply same_path_sym; apply H].
Qed.

Lemma flat_same : forall (A : Type) (f g : A -> list string) l, (forall x, In x l -> same_files (f x) (g x)) -> same_files (flat_map f l) (flat_map g l).
Proof.
  intros A f g l. induction l as [| x l IH]; intro H; [apply same_files_refl |]. cbn. apply same_files_app; [apply H; left; reflexivity |].
  apply IH. intros y I. apply H. right. exact I.
Qed.

(** * Expected and written *)

Lemma generated_in : forall a files x,
  In x (generated_files a files) <->
  (In x (flat_map (fun f => output_files (a_multi a) (a_multi a || a_folder a) (fst f) (scan_text (snd f))) files)
   \/ (a_multi a = true /\ x = "globalenums.h")) /\ ~ In x (a_exclude a).
Proof.
  intros a files x. unfold generated_files. rewrite <- in_rev, nodup_In, <- in_rev, filter_In. rewrite negb_true_iff.
  assert (E : existsb (String.eqb x) (a_exclude a) = false <-> ~ In x (a_exclude a)).
  { split.
    - intros H I. assert (T : existsb (String.eqb x) (a_exclude a) = true) by (apply existsb_exists; exists x; split; [exact I | apply String.eqb_refl]).
      congruence.
    - intro H. destruct (existsb (String.eqb x) (a_exclude a)) eqn:T; [| reflexivity]. apply existsb_exists in T. destruct T as (y & I & Q).
      apply String.eqb_eq in Q. subst y. contradiction. }
  rewrite E. destruct (a_multi a).
  - rewrite in_app_iff. cbn [In]. split; intros [H K]; (split; [| exact K]); [destruct H as [H | [H | []]] | destruct H as [H | [_ H]]]; auto.
  - split; intros [H K]; (split; [| exact K]); [left; exact H | destruct H as [H | [H _]]; [exact H | discriminate H]].
Qed.

Lemma false_spec : forall s, means_false s <-> false_constant s = true.
Proof.
  intro s. unfold means_false, false_constant. rewrite in_small_eq, orb_true_iff, existsb_exists, String.eqb_eq. split.
  - intros [H | H]; [left | right; exact H]. exists (tolower s). split; [cbn in H |- *; intuition | apply String.eqb_refl].
  - intros [(y & I & E) | H]; [left | right; exact H]. apply String.eqb_eq in E. subst y. cbn in I |- *. intuition.
Qed.

Lemma holds_names : forall l, not_false l -> holds l = negb (is_nil l).
Proof.
  intros [| x [| y l]] H; [reflexivity | | reflexivity]. cbn. destruct (false_constant x) eqn:E; [| reflexivity].
  elim (H x eq_refl). apply false_spec. exact E.
Qed.

Lemma described_scan : forall path ls f, ls <> [] -> tidy_source ls -> described path ls f ->
  let st := scan_text (source_text ls) in
  s_package st = f_package f /\ s_messages st = f_messages f /\ s_services st = f_services f
  /\ (s_enums st = [] -> f_enums f = []) /\ (f_messages f = [] -> s_enums st = f_enums f).
Proof.
  intros path ls f N T (_ & P & M & E & S) st. pose proof (scan_source ls N T) as [A1 A2 A3 A4 A5 A6 A7 A8].
  rewrite P, M, E, S. unfold declared. repeat split; assumption.
Qed.

Lemma single_same : forall folder o path ls f parts, ls <> [] -> tidy_source ls -> described path ls f ->
  package_parts parts -> f_package f = package_of parts -> not_false (f_messages f) -> not_false (f_enums f) -> not_false (f_services f) ->
  o_folder o = folder ->
  exists w, single_files o f = Some w /\ same_files (output_files false folder path (scan_text (source_text ls))) w.
Proof.
  intros folder o path ls f parts N T D P Q Nm Ne Ns F. destruct (described_scan path ls f N T D) as (Sp & Sm & Ss & Se & Sq).
  destruct D as ((base & B1 & B2) & _). apply path_base in B1. apply path_base in B2. destruct B1 as [B1 _], B2 as [_ B2].
  unfold single_files, single_file, single_service_file, both_of. rewrite B2. cbn [option_map]. unfold output_files. rewrite B1, Sp, Sm, Ss.
  assert (H : holds (f_messages f) || holds (s_enums (scan_text (source_text ls))) = negb (is_nil (f_messages f) && is_nil (f_enums f))).
  { rewrite holds_names by exact Nm. destruct (f_messages f) as [| m l]; [| reflexivity]. rewrite (Sq eq_refl). cbn. apply holds_names. exact Ne. }
  rewrite H, holds_names by exact Ns.
  set (fp := if folder then slashes (f_package f) ++ "/" else "").
  assert (W : forall x, same_files (both (fp ++ x)) (both (generateBaseName o (f_package f) x))).
  { intro x. apply both_same. intro s. rewrite base_app. unfold fp. destruct folder.
    - rewrite !app_assoc_s. rewrite Q. apply folder_path; assumption.
    - unfold generateBaseName. rewrite F. apply same_path_refl. }
  assert (A : forall x y, generateBaseName o (f_package f) x ++ y = generateBaseName o (f_package f) (x ++ y)) by (intros; apply base_app).
  destruct (is_nil (f_messages f) && is_nil (f_enums f)), (is_nil (f_services f)); cbn [negb]; eexists; (split; [reflexivity |]).
  - apply same_files_refl.
  - rewrite A. apply W.
  - rewrite A, !app_nil_r. apply W.
  - rewrite !A. apply same_files_app; apply W.
Qed.

Lemma multi_same : forall o path ls f parts, ls <> [] -> tidy_source ls -> described path ls f ->
  package_parts parts -> f_package f = package_of parts -> o_folder o = true ->
  same_files (output_files true true path (scan_text (source_text ls))) (multi_files o f).
Proof.
  intros o path ls f parts N T D P Q F. destruct (described_scan path ls f N T D) as (Sp & Sm & Ss & _).
  unfold output_files, multi_files, multi_file, multi_service_file. rewrite Sp, Sm, Ss.
  apply same_files_app; apply flat_same; intros n _; apply both_same; intro s.
  - rewrite base_app, !app_assoc_s, Q. apply folder_path; assumption.
  - rewrite !base_app, !app_assoc_s, Q. apply folder_path; assumption.
Qed.

(** * Pieces of paths *)

Definition pieces (s : string) : list string := filter (fun x => negb (String.eqb x "")) (split_path s).

Lemma split_path_nonempty : forall s, split_path s <> [].
Proof. induction s as [| c s IH]; [discriminate |]. cbn. destruct (Ascii.eqb c "/"); [discriminate |]. destruct (split_path s); [exact IH | discriminate]. Qed.

Lemma split_path_free : forall s, free_of "/" s -> split_path s = [s].
Proof.
  induction s as [| c s IH]; intro F; [reflexivity |]. apply free_cons in F. destruct F as [N F]. cbn. rewrite (IH F).
  destruct (Ascii.eqb_spec c "/"); [contradiction | reflexivity].
Qed.

Lemma split_path_app : forall a b, split_path (a ++ String "/" b) = (split_path a ++ split_path b)%list.
Proof.
  induction a as [| c a IH]; intro b; [reflexivity |]. cbn [append split_path]. rewrite IH. pose proof (split_path_nonempty a) as N.
  destruct (Ascii.eqb c "/"); [reflexivity |]. destruct (split_path a); [elim N; reflexivity | reflexivity].
Qed.

Lemma pieces_app : forall a b, pieces (a ++ String "/" b) = (pieces a ++ pieces b)%list.
Proof. intros a b. unfold pieces. rewrite split_path_app. apply filter_app. Qed.

Lemma pieces_free : forall s, free_of "/" s -> s <> "" -> pieces s = [s].
Proof. intros s F N. unfold pieces. rewrite split_path_free by exact F. cbn. destruct (String.eqb_spec s ""); [contradiction | reflexivity]. Qed.

Lemma pieces_nonempty : forall s x, In x (pieces s) -> x <> "".
Proof. intros s x I. apply filter_In in I. destruct I as [_ I]. apply not_empty. exact I. Qed.

(** The words that are found are words of the source. *)
Definition slash_free (r : reading) : Prop := Forall (fun d => free_of "/" (snd d)) (r_found r).

Lemma found_words : forall l r, Forall token_ok l -> slash_free r -> slash_free (read_line r l).
Proof.
  induction l as [| t l IH]; intros r F H; [exact H |]. inversion F as [| ? ? T F']; subst. cbn [read_line fold_left]. apply IH; [exact F' |].
  unfold slash_free in *. destruct t as [w | c | w | w | w]; cbn [read_token]; try exact H.
  - destruct (r_word r) as [k |].
    + destruct (existsb (String.eqb k) kinds); [| exact H]. apply Forall_app. split; [exact H |]. constructor; [| constructor].
      intro I. destruct T as [_ T]. rewrite Forall_forall in T. destruct (T _ I) as [X | X]; [apply ident_letters in X; vm_compute in X |]; discriminate X.
    + destruct (r_start r); exact H.
  - destruct (Ascii.eqb c "{"); [exact H |]. destruct (Ascii.eqb c "}"); [destruct (r_depth r) as [| [|]]; exact H |].
    destruct (Ascii.eqb c ";"); [destruct (r_depth r); exact H | exact H].
Qed.

Lemma declared_words : forall ls k n, tidy_source ls -> In n (declared k ls) -> free_of "/" n.
Proof.
  intros ls k n (T & _) I.
  assert (H : forall ms r, Forall (fun l => Forall token_ok l) ms -> slash_free r -> slash_free (fold_left read_line ms r)).
  { induction ms as [| l ms IH]; intros r F S; [exact S |]. inversion F; subst. apply IH; [assumption | apply found_words; assumption]. }
  specialize (H ls reading_start (tidy_ok ls _ T) (Forall_nil _)). unfold declared in I. apply in_map_iff in I. destruct I as (d & <- & I).
  apply filter_In in I. destruct I as [I _]. unfold slash_free in H. rewrite Forall_forall in H. exact (H d I).
Qed.

Lemma slashes_pieces : forall parts, package_parts parts -> Forall (free_of "/") parts -> pieces (slashes (package_of parts)) = parts.
Proof.
  intros parts P F. rewrite slashes_parts by exact P. induction parts as [| p parts IH]; [reflexivity |].
  inversion P as [| ? ? [N _] P']; inversion F as [| ? ? Fp F']; subst. destruct parts as [| q parts]; [cbn [join]; apply pieces_free; assumption |].
  rewrite join_cons. change ("/" ++ join "/" (q :: parts)) with (String "/" (join "/" (q :: parts))).
  rewrite pieces_app, IH, pieces_free by assumption. reflexivity.
Qed.

Lemma tolower_free : forall n, free_of "/" n -> free_of "/" (tolower n).
Proof.
  induction n as [| c n IH]; intro F; [exact F |]. apply free_cons in F. destruct F as [N F]. cbn. apply free_cons. split; [| apply IH; exact F].
  intro E. unfold tolower_char in E. destruct (between 65 90 c) eqn:B; [| contradiction].
  destruct c as [[] [] [] [] [] [] [] []]; vm_compute in B, E; discriminate.
Qed.

Lemma tolower_app : forall a b, tolower (a ++ b) = tolower a ++ tolower b.
Proof. induction a as [| c a IH]; intro b; [reflexivity |]. cbn. rewrite IH. reflexivity. Qed.

Lemma parts_free : forall parts, free_of "/" (package_of parts) -> Forall (free_of "/") parts.
Proof.
  unfold package_of. induction parts as [| p parts IH]; intro F; [constructor |]. destruct parts as [| q parts]; [constructor; [exact F | constructor] |].
  rewrite join_cons in F. apply GenStrings.free_app in F. destruct F as [Fp F]. apply GenStrings.free_app in F. destruct F as [_ F].
  constructor; [exact Fp | apply IH; exact F].
Qed.

(** The names of a schema that protoc has read have no slashes. *)
Lemma described_free : forall path ls f parts, tidy_source ls -> described path ls f -> f_package f = package_of parts ->
  Forall (free_of "/") parts /\ Forall (free_of "/") (f_messages f) /\ Forall (free_of "/") (f_services f).
Proof.
  intros path ls f parts T (_ & P & M & _ & S) Q. split; [| split].
  - apply parts_free. rewrite <- Q, P. destruct (declared "package" ls) as [| x l] eqn:D; [intros [] |].
    apply (declared_words ls "package" _ T). rewrite D. assert (L : forall (m : list string) y, In (last (y :: m) "") (y :: m)).
    { induction m as [| z m IH]; intro y; [left; reflexivity |]. right. apply IH. }
    apply L.
  - rewrite M. apply Forall_forall. intros n I. exact (declared_words ls _ n T I).
  - rewrite S. apply Forall_forall. intros n I. exact (declared_words ls _ n T I).
Qed.

(** The files for a schema with one for each message: their pieces. *)
Lemma output_pieces : forall path ls f parts x, ls <> [] -> tidy_source ls -> described path ls f -> package_parts parts -> f_package f = package_of parts ->
  In x (output_files true true path (scan_text (source_text ls))) ->
  exists b, pieces x = (parts ++ [b])%list
    /\ ((exists n, In n (f_messages f) /\ (b = tolower n ++ ".h" \/ b = tolower n ++ ".cpp"))
        \/ (exists n, In n (f_services f) /\ (b = tolower n ++ "client.h" \/ b = tolower n ++ "client.cpp"))).
Proof.
  intros path ls f parts x N T D P Q I. destruct (described_scan path ls f N T D) as (Sp & Sm & Ss & _).
  destruct (described_free path ls f parts T D Q) as (F1 & F2 & F3). rewrite Forall_forall in F2, F3.
  unfold output_files in I. rewrite Sp, Sm, Ss, Q in I.
  assert (G : forall n s, free_of "/" n -> free_of "/" s -> s <> "" -> pieces ((slashes (package_of parts) ++ "/" ++ tolower n) ++ s) = (parts ++ [(tolower n ++ s)%string])%list).
  { intros n s Fn Fs Ns. rewrite !app_assoc_s. change ("/" ++ tolower n ++ s) with (String "/" (tolower n ++ s)).
    rewrite pieces_app, slashes_pieces by assumption. rewrite (pieces_free (tolower n ++ s)); [reflexivity | |].
    - apply GenStrings.free_app. split; [apply tolower_free; exact Fn | exact Fs].
    - intro E. apply Ns. destruct (tolower n); [exact E | discriminate E]. }
  apply in_app_or in I. destruct I as [I | I]; apply in_flat_map in I; destruct I as (n & In' & [<- | [<- | []]]).
  - eexists. split; [apply G; [exact (F2 n In') | intro J; cbn in J; intuition discriminate | discriminate] |]. left. exists n. auto.
  - eexists. split; [apply G; [exact (F2 n In') | intro J; cbn in J; intuition discriminate | discriminate] |]. left. exists n. auto.
  - exists (tolower n ++ "client.h"). split; [| right; exists n; auto]. rewrite <- G by (exact (F3 n In') || discriminate || (intro J; cbn in J; intuition discriminate)).
    rewrite !app_assoc_s. reflexivity.
  - exists (tolower n ++ "client.cpp"). split; [| right; exists n; auto]. rewrite <- G by (exact (F3 n In') || discriminate || (intro J; cbn in J; intuition discriminate)).
    rewrite !app_assoc_s. reflexivity.
Qed.

(** Lines that do not look like an enumeration leave the list of these alone. *)
Lemma no_enums : forall ls st, Forall (fun l => ~ looks_like "enum" (show_line l)) ls ->
  s_enums (fold_left scan_item (map escape (map show_line ls)) st) = s_enums st.
Proof.
  induction ls as [| l ls IH]; intros st F; [reflexivity |]. inversion F as [| ? ? H F']; subst. cbn [map fold_left]. rewrite IH by exact F'.
  assert (K : s_enums (scan_key st (escape (show_line l))) = s_enums st).
  { unfold scan_key. destruct (match_key is_package "package" (escape (show_line l))); [reflexivity |].
    destruct (match_key is_ident "message" (escape (show_line l))); [destruct (Z.eqb (s_braces st) 0); reflexivity |].
    destruct (match_key is_ident "service" (escape (show_line l))); [reflexivity |].
    destruct (match_key is_ident "enum" (escape (show_line l))) as [n |] eqn:E; [| reflexivity]. exfalso. apply H.
    rewrite match_key_escape in E by (reflexivity || (cbn; tauto)). apply (match_key_looks "enum" _ n); [cbn; tauto | exact E]. }
  unfold scan_item, scan_braces. destruct (s_inside (scan_key st (escape (show_line l)))); [| exact K].
  destruct (has_char "{" (escape (show_line l))), (has_char "}" (escape (show_line l))); exact K.
Qed.

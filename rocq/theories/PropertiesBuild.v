(** C72: the build expects the files that the generator writes.  The build does not ask the generator about them but reads the
    schemas itself, line by line. *)

From Coq Require Import String Ascii ZArith List Bool Arith Lia.
From Verif Require Import GenModel GenSpec GenStrings PropertiesGenerator BuildModel BuildSpec BuildProofs BuildScan BuildFiles.
Import ListNotations.
Open Scope string_scope.

(** * The options *)

Definition flags (a : arguments) : list string :=
  (if a_multi a then "MULTI" else "SIGNLE")
   :: ((if a_qml a then ["QML"] else []) ++ (if a_comments a then ["COMMENTS"] else [])
       ++ (if a_multi a || a_folder a then ["FOLDER"] else []) ++ (if a_fieldenum a then ["FIELDENUM"] else []))%list.

Lemma join_colon_eq : forall l, join_colon l = join ":" l.
Proof. induction l as [| x l IH]; [reflexivity |]. cbn. rewrite IH. reflexivity. Qed.

Lemma options_text : forall quotes a,
  generation_options quotes a
  = join ":" (flags a ++ if String.eqb (a_extra a) "" then [] else [namespace_option (BuildModel.quoted quotes (a_extra a))])%list.
Proof.
  intros quotes a. unfold generation_options. fold (flags a). rewrite join_colon_eq.
  destruct (String.eqb (a_extra a) ""); [rewrite app_nil_r; apply app_nil_s |]. rewrite join_snoc by discriminate. reflexivity.
Qed.

Lemma flags_free : forall a, Forall (fun t => (free_of ":" t /\ free_of "=" t) /\ prefix "EXTRA_NAMESPACE" t = false) (flags a).
Proof.
  intro a. unfold flags. destruct (a_multi a), (a_qml a), (a_comments a), (a_folder a), (a_fieldenum a); cbn [app orb];
    repeat constructor; intro I; cbn in I; intuition discriminate.
Qed.

Lemma quoted_free : forall c quotes s, c <> quote -> free_of c s -> free_of c (BuildModel.quoted quotes s).
Proof.
  intros c quotes s N F. destruct quotes; [| exact F]. cbn [BuildModel.quoted]. apply free_cons. split; [congruence |].
  apply GenStrings.free_app. split; [exact F |]. apply free_cons. split; [congruence | apply free_nil].
Qed.

Lemma cmake_flags : forall quotes a, free_of ":" (a_extra a) ->
  let o := parseFromEnv (generation_options quotes a) in
  o_multi o = a_multi a /\ o_qml o = a_qml a /\ o_comments o = a_comments a /\ o_folder o = (a_multi a || a_folder a)
  /\ o_fieldenum o = a_fieldenum a.
Proof.
  intros quotes a F o. unfold o. rewrite options_text.
  set (ts := (flags a ++ if String.eqb (a_extra a) "" then [] else [namespace_option (BuildModel.quoted quotes (a_extra a))])%list).
  assert (Fr : Forall (free_of ":") ts).
  { apply Forall_app. split; [eapply Forall_impl; [| apply flags_free]; cbn; tauto |]. destruct (String.eqb (a_extra a) ""); [constructor |].
    constructor; [| constructor]. unfold namespace_option. apply GenStrings.free_app. split; [intro I; cbn in I; intuition discriminate |].
    apply quoted_free; [discriminate | exact F]. }
  assert (Iff : forall w, prefix "EXTRA_NAMESPACE" w = false -> (In w ts <-> In w (flags a))).
  { intros w P. unfold ts. rewrite in_app_iff. split; [intros [I | I]; [exact I |] | tauto].
    destruct (String.eqb (a_extra a) ""); [destruct I |]. destruct I as [<- | []]. unfold namespace_option in P.
    change ("EXTRA_NAMESPACE=" ++ BuildModel.quoted quotes (a_extra a)) with ("EXTRA_NAMESPACE" ++ "=" ++ BuildModel.quoted quotes (a_extra a)) in P.
    rewrite prefix_app in P. discriminate P. }
  destruct (C46_flags ts Fr) as (M & Q & C & D & E).
  rewrite Iff in M, Q, C, D, E by reflexivity.
  repeat split; apply Bool.eq_iff_eq_true; [rewrite M | rewrite Q | rewrite C | rewrite D | rewrite E]; unfold flags;
    destruct (a_multi a), (a_qml a), (a_comments a), (a_folder a), (a_fieldenum a); cbn; intuition discriminate.
Qed.

(** What is asked for in CMake is what the generator does, whether the shell leaves the quotes around the namespace or not.  With one
    file for each message there are folders as well. *)
Theorem C46_cmake : forall quotes a,
  free_of ":" (a_extra a) -> free_of "=" (a_extra a) -> free_of quote (a_extra a) ->
  parseFromEnv (generation_options quotes a)
  = mkOptions (a_multi a) (a_qml a) (a_comments a) (a_multi a || a_folder a) (a_fieldenum a) (a_extra a).
Proof.
  intros quotes a Fc Fe Fq. destruct (cmake_flags quotes a Fc) as (M & Q & C & D & E).
  assert (X : o_extra (parseFromEnv (generation_options quotes a)) = a_extra a).
  { rewrite options_text. destruct (String.eqb_spec (a_extra a) "") as [N | N].
    - rewrite N, app_nil_r. apply C46_no_namespace. eapply Forall_impl; [| apply flags_free]. cbn. tauto.
    - destruct (C46_namespace_last_partial (flags a) (a_extra a)) as [P1 P2]; try assumption.
      + eapply Forall_impl; [| apply flags_free]. cbn. tauto.
      + destruct quotes; [exact P2 | exact P1]. }
  destruct (parseFromEnv (generation_options quotes a)) as [m q c d e x]. cbn in *. congruence.
Qed.

Example C46_cmake_case :
  parseFromEnv (generation_options true (mkArguments true true false false true "my_ns" [])) = mkOptions true true false true true "my_ns"
  /\ generation_options true (mkArguments true true false false true "my_ns" []) = "MULTI:QML:FOLDER:FIELDENUM:EXTRA_NAMESPACE=""my_ns""".
Proof. split; reflexivity. Qed.

(** * The scan *)

(** In a tidy source the scan finds all messages and services of the top level, in their order, and the package.  It finds
    an enumeration if there is one (it may find those inside of messages, too, but then there is a message).
    Missing: other sources, see below. *)
Theorem C72_scan_partial : forall ls,
  ls <> [] -> tidy_source ls ->
  let st := scan_text (source_text ls) in
  s_messages st = declared "message" ls
  /\ s_services st = declared "service" ls
  /\ s_package st = last (declared "package" ls) ""
  /\ (s_messages st = [] -> s_enums st = declared "enum" ls)
  /\ (s_enums st = [] -> declared "enum" ls = []).
Proof.
  intros ls N T st. destruct (scan_source ls N T) as [_ _ A3 A4 A5 A6 A7 _]. unfold declared. unfold st.
  repeat split; try assumption. intro H. apply A7. rewrite <- A3. exact H.
Qed.

(** * The files *)

(** A schema with the package that protoc has read from it. *)
Definition schema_ok (path : string) (ls : list (list token)) (f : proto_file) : Prop :=
  ls <> [] /\ tidy_source ls /\ described path ls f /\ exists parts, package_parts parts /\ f_package f = package_of parts.
Definition texts (srcs : list (string * list (list token))) : list (string * string) :=
  map (fun s => (fst s, source_text (snd s))) srcs.

(** With one file for each schema, the build expects the files that the generator writes, and no others.  Missing: sources that are not tidy,
    and names that CMake takes for false, see below. *)
Theorem C72_single_partial : forall quotes a srcs fs,
  a_multi a = false -> a_exclude a = [] -> free_of ":" (a_extra a) ->
  Forall2 (fun s f => schema_ok (fst s) (snd s) f) srcs fs ->
  Forall (fun f => not_false (f_messages f) /\ not_false (f_enums f) /\ not_false (f_services f)) fs ->
  exists w, written_files (parseFromEnv (generation_options quotes a)) fs = Some w
    /\ same_files (generated_files a (texts srcs)) w.
Proof.
  intros quotes a srcs fs M X F S N. destruct (cmake_flags quotes a F) as (Om & _ & _ & Of & _).
  set (o := parseFromEnv (generation_options quotes a)) in *. unfold written_files. rewrite Om, M. rewrite M in Of. cbn [orb] in Of.
  assert (G : exists w, all_single o fs = Some w
    /\ same_files (flat_map (fun f => output_files (a_multi a) (a_multi a || a_folder a) (fst f) (scan_text (snd f))) (texts srcs)) w).
  { rewrite M. cbn [orb]. induction S as [| [path ls] f srcs fs (Nl & T & D & parts & P & Q) S IH]; [exists []; split; [reflexivity | apply same_files_refl] |].
    inversion N as [| ? ? (N1 & N2 & N3) N']; subst. destruct (IH N') as (w & W & E).
    destruct (single_same (a_folder a) o path ls f parts Nl T D P Q N1 N2 N3 Of) as (w1 & W1 & E1).
    exists (w1 ++ w)%list. cbn [all_single]. rewrite W1, W. split; [reflexivity |]. cbn [texts map flat_map fst snd]. apply same_files_app; assumption. }
  destruct G as (w & W & E1 & E2). exists w. split; [exact W |]. split.
  - intros x I. apply generated_in in I. destruct I as [[I | [I _]] _]; [apply E1; exact I | congruence].
  - intros y I. destruct (E2 y I) as (x & J & K). exists x. split; [| exact K]. apply generated_in. rewrite X. split; [left; exact J | intros []].
Qed.

(** With one file for each message, the build expects only files that are written; and all of them but one.  Missing: that one,
    globalenums.cpp, and sources that are not tidy, see below. *)
Theorem C72_multi_partial : forall quotes a srcs fs,
  a_multi a = true -> a_exclude a = [] -> free_of ":" (a_extra a) ->
  Forall2 (fun s f => schema_ok (fst s) (snd s) f) srcs fs ->
  exists w, written_files (parseFromEnv (generation_options quotes a)) fs = Some w
    /\ each_in (generated_files a (texts srcs)) w
    /\ each_in (filter (fun x => negb (String.eqb x "globalenums.cpp")) w) (generated_files a (texts srcs)).
Proof.
  intros quotes a srcs fs M X F S. destruct (cmake_flags quotes a F) as (Om & _ & _ & Of & _).
  set (o := parseFromEnv (generation_options quotes a)) in *. unfold written_files. rewrite Om, M. rewrite M in Of. cbn [orb] in Of.
  assert (G : same_files (flat_map (fun f => output_files (a_multi a) (a_multi a || a_folder a) (fst f) (scan_text (snd f))) (texts srcs)) (flat_map (multi_files o) fs)).
  { rewrite M. cbn [orb]. induction S as [| [path ls] f srcs fs (Nl & T & D & parts & P & Q) S IH]; [apply same_files_refl |].
    cbn [texts map flat_map fst snd]. apply same_files_app; [| exact IH]. apply (multi_same o path ls f parts); assumption. }
  destruct G as [E1 E2]. eexists. split; [reflexivity |]. split.
  - intros x I. apply generated_in in I. destruct I as [[I | [_ ->]] _].
    + destruct (E1 x I) as (y & J & K). exists y. split; [apply in_or_app; right; exact J | exact K].
    + exists "globalenums.h". split; [apply in_or_app; left; left; reflexivity | apply same_path_refl].
  - intros y I. apply filter_In in I. destruct I as [I Q]. apply in_app_or in I. destruct I as [[<- | [<- | []]] | I].
    + exists "globalenums.h". split; [| apply same_path_refl]. apply generated_in. rewrite X. split; [right; split; [exact M | reflexivity] | intros []].
    + discriminate Q.
    + destruct (E2 y I) as (x & J & K). exists x. split; [| exact K]. apply generated_in. rewrite X. split; [left; exact J | intros []].
Qed.

(** * Where the two differ *)

(** Letters that can stand in a name. *)
Definition plain_name (n : string) : Prop := n <> "" /\ Forall (fun c => In c word_letters) (letters n).

Definition message_line (n : string) (rest : list token) : list token := Word "message" :: Blank " " :: Word n :: rest.

Lemma plain_chars : forall n, plain_name n -> all_chars is_ident n.
Proof. intros n [_ F]. unfold all_chars. eapply Forall_impl; [| exact F]. intros c I. apply ident_letters. exact I. Qed.

Lemma plain_free : forall n c, plain_name n -> is_ident c = false -> free_of c n.
Proof. intros n c P H I. apply plain_chars in P. unfold all_chars in P. rewrite Forall_forall in P. rewrite (P c I) in H. discriminate H. Qed.

(** The first line of a message. *)
Lemma message_key : forall st n rest, plain_name n -> ~ starts is_ident rest ->
  scan_key st (escape ("message " ++ n ++ rest))
  = if Z.eqb (s_braces st) 0 then mkScan (s_package st) (s_messages st ++ [n]) (s_services st) (s_enums st) (s_braces st) true else st.
Proof.
  intros st n rest P S. unfold scan_key.
  assert (A : match_key is_package "package" (escape ("message " ++ n ++ rest)) = None) by reflexivity. rewrite A.
  rewrite match_key_escape by (reflexivity || (cbn; tauto)).
  change ("message " ++ n ++ rest) with ("" ++ "message" ++ " " ++ n ++ rest).
  rewrite (match_key_found is_ident "message" "" " " n rest); [reflexivity | cbn; tauto | apply ident_package | constructor | repeat constructor
    | discriminate | apply plain_chars; exact P | apply P | exact S].
Qed.

Ltac not_in := let J := fresh in intro J; vm_compute in J; intuition discriminate.

Lemma one_line : forall s, free_of newline s -> ~ ends_with (String backslash "") s -> balance s = 0%Z -> items 0 s = [escape s].
Proof.
  intros s F B Z. pose proof (items_lines [s] ltac:(discriminate)) as H. cbn [lines_text map] in H. apply H. constructor; [auto | constructor].
Qed.

Lemma count_free : forall c s, free_of c s -> count c s = 0.
Proof.
  intros c s. induction s as [| d s IH]; intro F; [reflexivity |]. apply free_cons in F. destruct F as [N F]. cbn. rewrite IH by exact F.
  destruct (Ascii.eqb_spec c d); [congruence | reflexivity].
Qed.

Lemma count_app : forall c a b, count c (a ++ b) = count c a + count c b.
Proof. intros c a b. induction a as [| d a IH]; [reflexivity |]. cbn. rewrite IH. lia. Qed.

Lemma balance_app : forall a b, balance (a ++ b) = (balance a + balance b)%Z.
Proof. intros a b. unfold balance. rewrite !count_app. lia. Qed.

Lemma plain_balance : forall n, plain_name n -> balance n = 0%Z.
Proof. intros n P. unfold balance. rewrite !count_free by (apply plain_free; [exact P | reflexivity]). reflexivity. Qed.

Lemma ends_not : forall c a x, x <> c -> ~ ends_with (String c "") (a ++ String x "").
Proof. intros c a x N (b & E). apply (f_equal last_char) in E. rewrite !last_char_app in E. congruence. Qed.

Lemma ends_free : forall c s, free_of c s -> ~ ends_with (String c "") s.
Proof. intros c s F (a & ->). apply GenStrings.free_app in F. destruct F as [_ F]. apply F. left. reflexivity. Qed.

Lemma comment_state : forall ls n,
  ls <> [] -> tidy_source ls -> r_inside (read_source ls) = None -> plain_name n ->
  let st := scan_text (source_text ls) in
  scan_text (source_text (ls ++ [[Comment ("message " ++ n)]])%list)
  = mkScan (s_package st) (s_messages st ++ [n]) (s_services st) (s_enums st) 0 true.
Proof.
  intros ls n N (T & B) I P st. unfold st. clear st. set (more := (ls ++ [[Comment ("message " ++ n)]])%list). pose proof (scan_source ls N (conj T B)) as [A1 A2 A3 _ _ _ _ _].
  assert (E : scan_text (source_text more) = scan_item (scan_text (source_text ls)) (escape ("message " ++ n))).
  { unfold scan_text, source_text. assert (L : forall k, k <> [] -> Forall (fun s => free_of newline s /\ ~ ends_with (String backslash "") s /\ balance s = 0%Z) (map show_line k) ->
      items 0 (lines_text (map show_line k)) = map escape (map show_line k)).
    { intros k Nk Fk. apply items_lines; [destruct k; [elim Nk; reflexivity | discriminate] | exact Fk]. }
    assert (F : Forall (fun s => free_of newline s /\ ~ ends_with (String backslash "") s /\ balance s = 0%Z) (map show_line ls)).
    { apply Forall_forall. intros s J. apply in_map_iff in J. destruct J as (l & <- & J). pose proof (tidy_ok ls _ T) as K.
      rewrite Forall_forall in K, B. destruct (B l J) as [B1 B2]. split; [apply line_free_newline; exact (K l J) |]. split; [exact B2 |].
      unfold balance. rewrite B1. lia. }
    rewrite (L ls) by assumption. unfold more. rewrite L.
    - rewrite !map_app, fold_left_app. unfold show_line at 1. cbn [map fold_right show fold_left]. rewrite app_nil_s. reflexivity.
    - destruct ls; discriminate.
    - rewrite map_app. apply Forall_app. split; [exact F |]. constructor; [| constructor]. unfold show_line. cbn [fold_right show]. rewrite app_nil_s.
      split; [| split].
      + apply GenStrings.free_app. split; [not_in | apply plain_free; [exact P | reflexivity]].
      + apply ends_free. apply GenStrings.free_app. split; [not_in | apply plain_free; [exact P | reflexivity]].
      + rewrite balance_app, (plain_balance n P). reflexivity. }
  rewrite E. unfold scan_item. rewrite <- (app_nil_s n) at 1 2. rewrite message_key by (exact P || (intros (c & s & Q & _); discriminate Q)).
  assert (Si : s_inside (scan_text (source_text ls)) = false) by (destruct (s_inside (scan_text (source_text ls))) eqn:Q; [rewrite (proj1 A1 eq_refl) in I; discriminate I | reflexivity]).
  rewrite Si in A2. rewrite A2. cbn [Z.eqb]. unfold scan_braces. cbn [s_inside].
  assert (H : forall c, is_ident c = false -> c <> ";"%char -> c <> backslash -> ~ In c (letters "message ") -> has_char c (escape ("message " ++ n ++ "")) = false).
  { intros c H1 H2 H3 H4. rewrite has_char_escape by assumption. apply has_char_free. rewrite app_nil_s. apply GenStrings.free_app.
    split; [exact H4 | apply plain_free; assumption]. }
  rewrite H by (reflexivity || discriminate || not_in).
  rewrite H by (reflexivity || discriminate || not_in).
  reflexivity.
Qed.

(** A line of a comment that looks like the start of a message counts as one.  (Comments over several lines have a token for each
    line.) *)
Theorem C72_comment_refuted : forall ls n,
  ls <> [] -> tidy_source ls -> r_inside (read_source ls) = None -> plain_name n ->
  let more := (ls ++ [[Comment ("message " ++ n)]])%list in
  declared "message" more = declared "message" ls
  /\ s_messages (scan_text (source_text more)) = (declared "message" ls ++ [n])%list.
Proof.
  intros ls n N T I P more. pose proof (scan_source ls N T) as [_ _ A3 _ _ _ _ _].
  split; [unfold declared, more, read_source; rewrite fold_left_app; reflexivity |].
  unfold more. rewrite comment_state by assumption. cbn [s_messages]. rewrite A3. reflexivity.
Qed.

(** The lines of sources without square brackets and backslashes. *)
Lemma scan_plain : forall ls, ls <> [] ->
  Forall (fun l => free_of newline (show_line l) /\ free_of backslash (show_line l) /\ free_of "[" (show_line l) /\ free_of "]" (show_line l)) ls ->
  scan_text (source_text ls) = fold_left scan_item (map (fun l => escape (show_line l)) ls) scan_start.
Proof.
  intros ls N F. unfold scan_text, source_text. rewrite items_lines; [rewrite map_map; reflexivity | destruct ls; [elim N; reflexivity | discriminate] |].
  apply Forall_forall. intros s I. apply in_map_iff in I. destruct I as (l & <- & I). rewrite Forall_forall in F. destruct (F l I) as (F1 & F2 & F3 & F4).
  split; [exact F1 |]. split; [apply ends_free; exact F2 |]. unfold balance. rewrite !count_free by assumption. reflexivity.
Qed.

Ltac plain_text := repeat first [apply GenStrings.free_app; split | apply plain_free; [assumption | reflexivity] | not_in].

Lemma has_message : forall c n rest, plain_name n -> is_ident c = false -> c <> ";"%char -> c <> backslash -> c <> " "%char ->
  has_char c (escape ("message " ++ n ++ rest)) = has_char c (escape rest).
Proof.
  intros c n rest P H1 H2 H3 H4. rewrite !has_char_escape by assumption. rewrite !has_char_app.
  rewrite (has_char_free c n) by (apply plain_free; assumption).
  rewrite (has_char_free c "message "); [reflexivity |]. intro I. cbn in I.
  repeat (destruct I as [<- | I]; [discriminate H1 || (apply H4; reflexivity) |]). destruct I.
Qed.

Definition one_line_two (n m : string) : list (list token) :=
  [message_line n [Symbol "{"; Symbol "}"; Blank " "; Word "message"; Blank " "; Word m; Symbol "{"; Symbol "}"]].

(** Only the first message of a line is found. *)
Theorem C72_same_line_refuted : forall n m, plain_name n -> plain_name m ->
  declared "message" (one_line_two n m) = [n; m] /\ s_messages (scan_text (source_text (one_line_two n m))) = [n].
Proof.
  intros n m P Q. split; [reflexivity |]. unfold one_line_two. rewrite scan_plain.
  - cbn [map fold_left]. change (show_line (message_line n [Symbol "{"; Symbol "}"; Blank " "; Word "message"; Blank " "; Word m; Symbol "{"; Symbol "}"]))
      with ("message " ++ n ++ "{} message " ++ m ++ "{}").
    unfold scan_item. rewrite message_key by (exact P || (intros (c & s & E & H); injection E as <- _; discriminate H)).
    unfold scan_braces. cbn [scan_start s_braces s_messages s_inside Z.eqb]. rewrite !has_message by (exact P || reflexivity || discriminate).
    reflexivity.
  - discriminate.
  - constructor; [| constructor]. change (show_line (message_line n [Symbol "{"; Symbol "}"; Blank " "; Word "message"; Blank " "; Word m; Symbol "{"; Symbol "}"]))
      with ("message " ++ n ++ "{} message " ++ m ++ "{}").
    split; [| split; [| split]]; plain_text.
Qed.

Definition two_braces (n m k : string) : list (list token) :=
  [message_line n [Blank " "; Symbol "{"; Blank " "; Word "message"; Blank " "; Word m; Blank " "; Symbol "{"];
   [Symbol "}"];
   message_line k [Blank " "; Symbol "{"];
   [Symbol "}"];
   [Symbol "}"]].

(** Two opening braces of a line count as one: then a message inside of another one is taken for one of the top level. *)
Theorem C72_braces_refuted : forall n m k, plain_name n -> plain_name m -> plain_name k ->
  declared "message" (two_braces n m k) = [n] /\ s_messages (scan_text (source_text (two_braces n m k))) = [n; k].
Proof.
  intros n m k P Q R. split; [reflexivity |]. unfold two_braces. rewrite scan_plain.
  - cbn [map fold_left].
    change (show_line (message_line n [Blank " "; Symbol "{"; Blank " "; Word "message"; Blank " "; Word m; Blank " "; Symbol "{"]))
      with ("message " ++ n ++ " { message " ++ m ++ " {").
    change (show_line (message_line k [Blank " "; Symbol "{"])) with ("message " ++ k ++ " {").
    assert (S1 : scan_item scan_start (escape ("message " ++ n ++ " { message " ++ m ++ " {")) = mkScan "" [n] [] [] 1 true).
    { unfold scan_item. rewrite message_key by (exact P || (intros (c & s & E & H); injection E as <- _; discriminate H)).
      unfold scan_braces. cbn [scan_start s_braces s_messages s_inside s_package s_services s_enums Z.eqb app].
      rewrite !has_message by (exact P || reflexivity || discriminate).
      rewrite (has_char_escape "}") by discriminate. rewrite (has_char_free "}") by plain_text. reflexivity. }
    assert (S2 : scan_item (mkScan "" [n] [] [] 1 true) (escape (show_line [Symbol "}"])) = mkScan "" [n] [] [] 0 false) by reflexivity.
    assert (S3 : scan_item (mkScan "" [n] [] [] 0 false) (escape ("message " ++ k ++ " {")) = mkScan "" [n; k] [] [] 1 true).
    { unfold scan_item. rewrite message_key by (exact R || (intros (c & s & E & H); injection E as <- _; discriminate H)).
      unfold scan_braces. cbn [s_braces s_messages s_inside s_package s_services s_enums Z.eqb app].
      rewrite !has_message by (exact R || reflexivity || discriminate). reflexivity. }
    rewrite S1, S2, S3. reflexivity.
  - discriminate.
  - repeat (constructor; [split; [| split; [| split]];
      [change (show_line (message_line n [Blank " "; Symbol "{"; Blank " "; Word "message"; Blank " "; Word m; Blank " "; Symbol "{"]))
      with ("message " ++ n ++ " { message " ++ m ++ " {") || change (show_line (message_line k [Blank " "; Symbol "{"])) with ("message " ++ k ++ " {") || idtac; plain_text ..] |]).
    constructor.
Qed.

Definition glued (c n : string) : list (list token) :=
  [[Comment c]; message_line n [Blank " "; Symbol "{"]; [Symbol "}"]].

Lemma item_single : forall d s, d <> 0%Z -> free_of newline s -> ~ ends_with (String backslash "") s -> balance s = 0%Z -> forall rest,
  (exists t, items d rest = [t]) -> (rest = "" \/ exists r, rest = String newline r) -> exists t, items d (s ++ rest) = [t].
Proof.
  intros d s D F B Z rest (t & E) R. rewrite items_line by assumption. rewrite Z, Z.add_0_r, E. eexists. reflexivity.
Qed.

Lemma item_newline : forall d, d <> 0%Z -> forall rest, (exists t, items d rest = [t]) -> exists t, items d (String newline rest) = [t].
Proof.
  intros d D rest (t & E). cbn [items]. rewrite (proj2 (Ascii.eqb_eq newline newline) eq_refl). rewrite (proj2 (Z.eqb_neq d 0) D), E. eexists. reflexivity.
Qed.

(** Behind a comment with a square bracket that it does not close, lines are lost: their messages, too. *)
Theorem C72_brackets_refuted : forall c n,
  (exists t, c = "//" ++ t) -> free_of line_end c -> ~ ends_with (String (ascii_of_nat 92) "") c -> count "]" c < count "[" c -> plain_name n ->
  declared "message" (glued c n) = [n] /\ scan_text (source_text (glued c n)) = scan_start.
Proof.
  intros c n (t & ->) F B C P. split; [reflexivity |].
  assert (E : source_text (glued ("//" ++ t) n) = ("//" ++ t) ++ String newline (("message " ++ n ++ " {") ++ String newline ("}" ++ ""))).
  { unfold source_text, glued. cbn [map lines_text]. unfold show_line at 1. cbn [fold_right show]. rewrite app_nil_s. reflexivity. }
  assert (D : balance ("//" ++ t) <> 0%Z) by (unfold balance; lia).
  assert (G : exists u, items 0 (source_text (glued ("//" ++ t) n)) = [String "/" (String "/" u)]).
  { rewrite E, items_line; [| exact F | exact B | right; eexists; reflexivity]. rewrite Z.add_0_l.
    assert (H : exists u, items (balance ("//" ++ t)) (String newline (("message " ++ n ++ " {") ++ String newline ("}" ++ ""))) = [u]).
    { apply item_newline; [exact D |]. apply item_single; [exact D | plain_text | apply ends_free; plain_text | rewrite !balance_app, (plain_balance n P); reflexivity | |
        right; eexists; reflexivity].
      apply item_newline; [exact D |]. apply item_single; [exact D | plain_text | apply ends_free; plain_text | reflexivity | exists ""; reflexivity | left; reflexivity]. }
    destruct H as (u & ->). eexists. reflexivity. }
  unfold scan_text. destruct G as (u & ->). reflexivity.
Qed.

Definition two_lines (n : string) : list (list token) := [[Word "message"]; [Word n; Blank " "; Symbol "{"]; [Symbol "}"]].

Lemma cut_blank : forall a b x y s t, all_chars is_ident a -> all_chars is_ident b -> is_blank x = true -> is_blank y = true ->
  a ++ String x s = b ++ String y t -> a = b /\ s = t.
Proof.
  assert (H : forall c, is_ident c = true -> is_blank c = true -> False).
  { intros c A B. apply ident_package in A. apply ident_not_blank in A. congruence. }
  induction a as [| c a IH]; intros b x y s t A B X Y E; destruct b as [| d b]; cbn in E; injection E as E1 E2.
  - auto.
  - subst d. inversion B; subst. exfalso. eauto.
  - subst c. inversion A; subst. exfalso. eauto.
  - subst d. inversion A; inversion B; subst. destruct (IH b x y s t) as [-> ->]; auto.
Qed.

Lemma kinds_ident : forall k, In k kinds -> all_chars is_ident k.
Proof. intros k I. apply kinds_all in I. destruct I as [-> | [-> | [-> | ->]]]; repeat constructor. Qed.

Lemma no_key : forall p k n, In k kinds -> (forall c, p c = true -> is_package c = true) -> plain_name n -> match_key p k (n ++ " {") = None.
Proof.
  intros p k n K Q P. destruct (match_key p k (n ++ " {")) as [x |] eqn:E; [| reflexivity]. exfalso.
  apply match_key_split in E. destruct E as (indent & gap & c & rest & E & I & G & N & C).
  assert (In0 : indent = "").
  { destruct indent as [| d indent]; [reflexivity |]. exfalso. destruct P as [Nn Pn]. destruct n as [| e n]; [elim Nn; reflexivity |].
    cbn in E. injection E as -> _. inversion I as [| ? ? Bd _]; subst. inversion Pn as [| ? ? Wd _]; subst. apply ident_letters in Wd.
    apply ident_package in Wd. apply ident_not_blank in Wd. congruence. }
  subst indent. cbn [append] in E. destruct gap as [| g gap]; [elim N; reflexivity |]. inversion G as [| ? ? Gg Gr]; subst.
  cbn [append] in E. apply cut_blank in E; [| apply plain_chars; exact P | apply kinds_ident; exact K | reflexivity | exact Gg].
  destruct E as [_ E]. destruct gap as [| g' gap]; cbn in E; injection E as <- _.
  - apply Q in C. discriminate C.
  - inversion Gr; subst. discriminate.
Qed.

(** A message whose name stands on the next line is not found. *)
Theorem C72_split_name_refuted : forall n, plain_name n ->
  declared "message" (two_lines n) = [n] /\ scan_text (source_text (two_lines n)) = scan_start.
Proof.
  intros n P. split; [reflexivity |]. unfold two_lines. rewrite scan_plain.
  - cbn [map fold_left]. change (show_line [Word n; Blank " "; Symbol "{"]) with (n ++ " {").
    assert (S2 : scan_item scan_start (escape (n ++ " {")) = scan_start).
    { unfold scan_item, scan_key. rewrite !match_key_escape by (reflexivity || (cbn; tauto)).
      rewrite !no_key by (exact P || apply ident_package || (intros; assumption) || (cbn; tauto)). reflexivity. }
    change (scan_item scan_start (escape (show_line [Word "message"]))) with scan_start. rewrite S2. reflexivity.
  - discriminate.
  - constructor; [| constructor; [| constructor; [| constructor]]]; try (split; [| split; [| split]]; not_in).
    change (show_line [Word n; Blank " "; Symbol "{"]) with (n ++ " {"). split; [| split; [| split]]; plain_text.
Qed.

(** With one file for each message, the definitions for enumerations of the top level are written to globalenums.cpp, which the build does not
    know and so does not compile. *)
Theorem C72_global_enums_refuted : forall quotes a srcs fs,
  a_multi a = true -> free_of ":" (a_extra a) ->
  Forall2 (fun s f => schema_ok (fst s) (snd s) f) srcs fs ->
  (forall f n, In f fs -> f_package f = "" -> In n (f_messages f) -> in_small n <> "globalenums") ->
  exists w, written_files (parseFromEnv (generation_options quotes a)) fs = Some w
    /\ In "globalenums.cpp" w
    /\ forall x, In x (generated_files a (texts srcs)) -> ~ same_path x "globalenums.cpp".
Proof.
  intros quotes a srcs fs M F S G. destruct (cmake_flags quotes a F) as (Om & _ & _ & Of & _).
  set (o := parseFromEnv (generation_options quotes a)) in *. unfold written_files. rewrite Om, M. eexists. split; [reflexivity |].
  split; [right; left; reflexivity |]. intros x I H. apply generated_in in I. destruct I as [[I | [_ ->]] _]; [| discriminate H].
  rewrite M in I. cbn [orb] in I. apply in_flat_map in I. destruct I as ([path text] & J & I). cbn [fst snd] in I.
  unfold texts in J. apply in_map_iff in J. destruct J as ([p ls] & E & J). cbn [fst snd] in E. injection E as <- <-.
  assert (K : exists f, In f fs /\ schema_ok p ls f).
  { clear - S J. induction S as [| s f srcs fs H S IH]; [destruct J |]. destruct J as [-> | J].
    - exists f. split; [left; reflexivity | exact H].
    - destruct (IH J) as (g & I & Q). exists g. split; [right; exact I | exact Q]. }
  destruct K as (f & Jf & (Nl & T & D & parts & P & Q)).
  destruct (output_pieces p ls f parts x Nl T D P Q I) as (b & B & C). change (pieces x = pieces "globalenums.cpp") in H. rewrite B in H.
  change (pieces "globalenums.cpp") with ["globalenums.cpp"] in H.
  destruct parts as [| y [| z parts]]; [| discriminate H | discriminate H]. injection H as ->.
  destruct C as [(n & In' & [E | E]) | (n & In' & [E | E])].
  - apply (f_equal last_char) in E. change ".h" with ("." ++ String "h" "") in E. rewrite <- app_assoc_s, last_char_app in E. discriminate E.
  - apply (G f n Jf Q In'). rewrite in_small_eq. symmetry. apply (app_inv_tail_s _ _ ".cpp"). exact E.
  - apply (f_equal last_char) in E. change "client.h" with ("client." ++ String "h" "") in E. rewrite <- app_assoc_s, last_char_app in E. discriminate E.
  - change "client.cpp" with ("client" ++ ".cpp") in E. rewrite <- app_assoc_s in E. change "globalenums.cpp" with ("globalenums" ++ ".cpp") in E.
    apply app_inv_tail_s in E. apply (f_equal last_char) in E. change "client" with ("clien" ++ String "t" "") in E.
    rewrite <- app_assoc_s, last_char_app in E. discriminate E.
Qed.

(** The files for a message of that name without package are these same files. *)
Theorem C45_global_clash_refuted : forall o fs f n,
  o_multi o = true -> In f fs -> f_package f = "" -> In n (f_messages f) -> in_small n = "globalenums" ->
  exists w, written_files o fs = Some w /\ ~ NoDup w.
Proof.
  intros o fs f n M I P J E. unfold written_files. rewrite M. eexists. split; [reflexivity |]. intro N.
  cbn [both append app] in N. inversion N as [| ? ? H _]; subst. apply H. right. apply in_flat_map. exists f. split; [exact I |].
  unfold multi_files. apply in_or_app. left. apply in_flat_map. exists n. split; [exact J |]. left. rewrite P. unfold multi_file, generateBaseName.
  rewrite in_small_eq in E. rewrite E. destruct (o_folder o); reflexivity.
Qed.

(** A comment that looks like a message makes the build expect a file that is not written. *)
Theorem C72_comment_file_refuted : forall quotes a path ls f n,
  a_multi a = true -> a_exclude a = [] -> free_of ":" (a_extra a) ->
  schema_ok path ls f -> r_inside (read_source ls) = None -> plain_name n ->
  Forall (fun m => in_small m <> in_small n) (f_messages f) -> Forall (fun m => in_small m ++ "client" <> in_small n) (f_services f) ->
  (f_package f = "" -> in_small n <> "globalenums") ->
  let more := (ls ++ [[Comment ("message " ++ n)]])%list in
  described path more f
  /\ exists w x, written_files (parseFromEnv (generation_options quotes a)) [f] = Some w
     /\ In x (generated_files a (texts [(path, more)])) /\ forall y, In y w -> ~ same_path x y.
Proof.
  intros quotes a path ls f n M X F (Nl & T & D & parts & P & Q) I Pn Nm Ns Ng more. rewrite !Forall_forall in *.
  assert (Dm : described path more f).
  { destruct D as (D1 & D2 & D3 & D4 & D5). assert (E : forall k, declared k more = declared k ls) by
      (intro k; unfold declared, more, read_source; rewrite fold_left_app; reflexivity). unfold described. rewrite !E. auto. }
  split; [exact Dm |]. destruct (cmake_flags quotes a F) as (Om & _ & _ & Of & _). rewrite M in Of. cbn [orb] in Of.
  set (o := parseFromEnv (generation_options quotes a)) in *. unfold written_files. rewrite Om, M.
  destruct (described_free path ls f parts T D Q) as (F1 & F2 & F3). destruct (described_scan path ls f Nl T D) as (Sp & Sm & Ss & _).
  set (x := (slashes (f_package f) ++ "/" ++ tolower n) ++ ".h").
  exists (both "globalenums" ++ flat_map (multi_files o) [f])%list, x. split; [reflexivity |].
  assert (Fn : free_of "/" (tolower n)) by (apply tolower_free; apply plain_free; [exact Pn | reflexivity]).
  assert (Px : pieces x = (parts ++ [(tolower n ++ ".h")%string])%list).
  { unfold x. rewrite Q, !app_assoc_s. change ("/" ++ tolower n ++ ".h") with (String "/" (tolower n ++ ".h")). rewrite pieces_app, slashes_pieces by assumption.
    rewrite (pieces_free (tolower n ++ ".h")); [reflexivity | apply GenStrings.free_app; split; [exact Fn | not_in] |].
    destruct (tolower n); discriminate. }
  split.
  - apply generated_in. rewrite X. split; [left | intros []]. rewrite M. cbn [orb texts map flat_map fst snd]. apply in_or_app. left.
    unfold more. rewrite comment_state by assumption. unfold output_files. cbn [s_package s_messages s_services]. apply in_or_app. left.
    apply in_flat_map. exists n. split; [apply in_or_app; right; left; reflexivity |]. left. unfold x. rewrite Sp. reflexivity.
  - intros y J H. change (pieces x = pieces y) in H. rewrite Px in H. apply in_app_or in J. destruct J as [[<- | [<- | []]] | J].
    + change (pieces ("globalenums" ++ ".h")) with ["globalenums.h"] in H. destruct parts as [| p [| q parts]]; [| discriminate H | discriminate H].
      injection H as H. apply (Ng Q). rewrite in_small_eq. apply (app_inv_tail_s _ _ ".h"). exact H.
    + change (pieces ("globalenums" ++ ".cpp")) with ["globalenums.cpp"] in H. apply (f_equal (fun l => last l "")) in H. rewrite last_last in H. cbn [last] in H.
      apply (f_equal last_char) in H. change ".h" with ("." ++ String "h" "") in H. rewrite <- app_assoc_s, last_char_app in H. discriminate H.
    + cbn [flat_map] in J. rewrite app_nil_r in J. destruct (proj2 (multi_same o path ls f parts Nl T D P Q Of) y J) as (z & Iz & Ez).
      unfold same_path in Ez. fold (pieces y) in Ez. fold (pieces z) in Ez.
      destruct (output_pieces path ls f parts z Nl T D P Q Iz) as (b & Bz & C). rewrite Ez, Bz in H. apply app_inj_tail in H. destruct H as [_ <-].
      destruct C as [(m & Im & [E | E]) | (m & Im & [E | E])].
      * apply (Nm m Im). rewrite !in_small_eq. symmetry. apply (app_inv_tail_s _ _ ".h"). exact E.
      * apply (f_equal last_char) in E. change ".h" with ("." ++ String "h" "") in E. change ".cpp" with (".cp" ++ String "p" "") in E.
        rewrite <- !app_assoc_s, !last_char_app in E. discriminate E.
      * apply (Ns m Im). rewrite !in_small_eq. symmetry. apply (app_inv_tail_s _ _ ".h"). rewrite app_assoc_s. exact E.
      * apply (f_equal last_char) in E. change ".h" with ("." ++ String "h" "") in E. change "client.cpp" with ("client.cp" ++ String "p" "") in E.
        rewrite <- !app_assoc_s, !last_char_app in E. discriminate E.
Qed.

(** A schema with one message whose name means false to CMake, as "No" or "Off": nothing is expected, but files are written. *)
Theorem C72_false_name_refuted : forall quotes a path ls f n,
  a_multi a = false -> free_of ":" (a_extra a) ->
  schema_ok path ls f -> f_messages f = [n] -> means_false n -> f_services f = [] ->
  Forall (fun l => ~ looks_like "enum" (show_line l)) ls ->
  generated_files a (texts [(path, ls)]) = []
  /\ exists w, written_files (parseFromEnv (generation_options quotes a)) [f] = Some w /\ w <> [].
Proof.
  intros quotes a path ls f n M F (Nl & T & D & parts & P & Q) Em Fn Es Ne. destruct (cmake_flags quotes a F) as (Om & _ & _ & Of & _).
  set (o := parseFromEnv (generation_options quotes a)) in *. split.
  - assert (H : forall x, ~ In x (generated_files a (texts [(path, ls)]))).
    { intros x I. apply generated_in in I. destruct I as [[I | [I _]] _]; [| congruence]. rewrite M in I. cbn [texts map flat_map fst snd] in I. rewrite app_nil_r in I.
      destruct (described_scan path ls f Nl T D) as (Sp & Sm & Ss & _). unfold output_files in I. rewrite Sm, Ss, Em, Es in I. cbn [holds] in I.
      rewrite (proj1 (false_spec n) Fn) in I.
      assert (E : s_enums (scan_text (source_text ls)) = []).
      { unfold scan_text, source_text. destruct T as (T & B). rewrite items_lines.
        - rewrite no_enums by exact Ne. reflexivity.
        - destruct ls; [elim Nl; reflexivity | discriminate].
        - apply Forall_forall. intros s J. apply in_map_iff in J. destruct J as (l & <- & J). pose proof (tidy_ok ls _ T) as K.
          rewrite Forall_forall in K, B. destruct (B l J) as [B1 B2]. split; [apply line_free_newline; exact (K l J) |]. split; [exact B2 |].
          unfold balance. rewrite B1. lia. }
      rewrite E in I. destruct I. }
    destruct (generated_files a (texts [(path, ls)])) as [| x l]; [reflexivity | elim (H x); left; reflexivity].
  - unfold written_files. rewrite Om, M. cbn [all_single]. unfold single_files. rewrite Em, Es. cbn [is_nil andb].
    destruct D as ((base & _ & B) & _). apply path_base in B. unfold single_file. rewrite (proj2 B). cbn [option_map both_of].
    eexists. split; [reflexivity | discriminate].
Qed.

(** Excluded files are taken off the list, and no others. *)
Definition without_exclude (a : arguments) : arguments :=
  mkArguments (a_multi a) (a_qml a) (a_comments a) (a_folder a) (a_fieldenum a) (a_extra a) [].

Theorem C72_exclude : forall a files x,
  In x (generated_files a files) <-> In x (generated_files (without_exclude a) files) /\ ~ In x (a_exclude a).
Proof. intros a files x. rewrite !generated_in. cbn [without_exclude a_multi a_folder a_exclude In]. tauto. Qed.

(** If there is no package, a file is not excluded by its path: the build knows it with a slash in front. *)
Theorem C72_exclude_refuted : forall quotes a path ls f y w,
  a_multi a = true -> free_of ":" (a_extra a) -> Forall (fun x => ~ starts (Ascii.eqb "/") x) (a_exclude a) ->
  schema_ok path ls f -> f_package f = "" ->
  written_files (parseFromEnv (generation_options quotes a)) [f] = Some w -> In y w -> ~ In y (both "globalenums") ->
  exists x, In x (generated_files a (texts [(path, ls)])) /\ same_path x y.
Proof.
  intros quotes a path ls f y w M F E (Nl & T & D & parts & P & Q) Ep W I G. destruct (cmake_flags quotes a F) as (Om & _ & _ & Of & _). rewrite M in Of. cbn [orb] in Of.
  set (o := parseFromEnv (generation_options quotes a)) in *. unfold written_files in W. rewrite Om, M in W. injection W as <-.
  assert (J : In y (multi_files o f)).
  { assert (K : In y (both "globalenums") \/ In y (flat_map (multi_files o) [f])) by (apply in_app_or; exact I).
    destruct K as [K | K]; [contradiction |]. cbn [flat_map] in K. rewrite app_nil_r in K. exact K. }
  destruct (proj2 (multi_same o path ls f parts Nl T D P Q Of) y J) as (x & Ix & Sx).
  exists x. split; [| apply same_path_sym; exact Sx]. apply generated_in. split.
  - left. rewrite M. cbn [orb texts map flat_map fst snd]. apply in_or_app. left. exact Ix.
  - intro K. rewrite Forall_forall in E. apply (E x K). unfold output_files in Ix. destruct (described_scan path ls f Nl T D) as (Sp & Sm & Ss & _).
    rewrite Sp, Ep in Ix. cbn [slashes append] in Ix.
    apply in_app_or in Ix. destruct Ix as [Ix | Ix]; apply in_flat_map in Ix; destruct Ix as (n & _ & [<- | [<- | []]]); eexists; eexists; (split; reflexivity).
Qed.

(** * Cases *)

(** syntax = "proto3"; with a package, two messages, one of them with an enumeration and a message inside, an enumeration, a service, and
    comments. *)
Definition sample : list (list token) :=
  [ [Comment "// about braces { and messages"];
    [Word "syntax"; Blank " "; Symbol "="; Blank " "; Quoted """proto3"""; Symbol ";"];
    [];
    [Word "package"; Blank " "; Word "my.pkg"; Symbol ";"];
    [Word "message"; Blank " "; Word "Outer"; Blank " "; Symbol "{"; Blank " "; Comment "// message Inner"];
    [Blank "    "; Word "enum"; Blank " "; Word "Kind"; Symbol "{"; Word "A"; Symbol "="; Word "0"; Symbol ";"; Symbol "}"];
    [Blank "    "; Word "message"; Blank " "; Word "Inner"; Blank " "; Symbol "{"];
    [Blank "        "; Word "int32"; Blank " "; Word "x"; Symbol "="; Word "1"; Symbol "["; Word "json_name"; Symbol "="; Quoted """y"""; Symbol "]"; Symbol ";"];
    [Blank "    "; Symbol "}"];
    [Blank "    "; Word "Inner"; Blank " "; Word "message"; Blank " "; Symbol "="; Blank " "; Word "1"; Symbol ";"];
    [Symbol "}"];
    [Word "enum"; Blank " "; Word "Top"];
    [Symbol "{"; Word "B"; Symbol "="; Word "0"; Symbol ";"; Symbol "}"];
    [Word "message"; Blank " "; Word "Empty"; Blank " "; Symbol "{"; Symbol "}"];
    [Word "service"; Blank " "; Word "Calls"; Blank " "; Symbol "{"];
    [Blank "  "; Word "rpc"; Blank " "; Word "Do"; Symbol "("; Word "Outer"; Symbol ")"; Blank " "; Word "returns"; Blank " "; Symbol "("; Word "Empty"; Symbol ")";
       Blank " "; Symbol "{"; Symbol "}"];
    [Symbol "}"] ].
Definition sample_file : proto_file := mkProtoFile "sample.proto" "my.pkg" ["Outer"; "Empty"] ["Top"] ["Calls"].

Lemma sample_ok : schema_ok "/home/me/sample.proto" sample sample_file.
Proof.
  split; [discriminate |]. split; [apply tidy_source_check; vm_compute; reflexivity |]. split.
  - split; [| split; [vm_compute; reflexivity | split; [vm_compute; reflexivity | split; vm_compute; reflexivity]]].
    exists "sample". split; (split; [intro I; cbn in I; intuition discriminate |]); [right; exists "/home/me"; reflexivity | left; reflexivity].
  - exists ["my"; "pkg"]. split; [| reflexivity]. repeat constructor; try discriminate; intro I; cbn in I; intuition discriminate.
Qed.

Definition single_arguments : arguments := mkArguments false true false true false "" [].
Definition multi_arguments : arguments := mkArguments true false false false false "ns" [].

Example C72_case :
  schema_ok "/home/me/sample.proto" sample sample_file
  /\ (not_false (f_messages sample_file) /\ not_false (f_enums sample_file) /\ not_false (f_services sample_file))
  /\ generated_files single_arguments (texts [("/home/me/sample.proto", sample)])
     = ["my/pkg/sample.qpb.h"; "my/pkg/sample.qpb.cpp"; "my/pkg/sample_grpc.qpb.h"; "my/pkg/sample_grpc.qpb.cpp"]
  /\ written_files (parseFromEnv (generation_options true single_arguments)) [sample_file]
     = Some ["my/pkg/sample.qpb.h"; "my/pkg/sample.qpb.cpp"; "my/pkg/sample_grpc.qpb.h"; "my/pkg/sample_grpc.qpb.cpp"]
  /\ generated_files multi_arguments (texts [("/home/me/sample.proto", sample)])
     = ["my/pkg/outer.h"; "my/pkg/outer.cpp"; "my/pkg/empty.h"; "my/pkg/empty.cpp"; "my/pkg/callsclient.h"; "my/pkg/callsclient.cpp"; "globalenums.h"]
  /\ written_files (parseFromEnv (generation_options true multi_arguments)) [sample_file]
     = Some ["globalenums.h"; "globalenums.cpp"; "my/pkg/outer.h"; "my/pkg/outer.cpp"; "my/pkg/empty.h"; "my/pkg/empty.cpp"; "my/pkg/callsclient.h";
             "my/pkg/callsclient.cpp"].
Proof.
  split; [exact sample_ok |]. split; [| split; [vm_compute; reflexivity | split; [vm_compute; reflexivity | split; vm_compute; reflexivity]]].
  split; [| split]; intros n E; try discriminate E; injection E as <-; intros [I | I]; try discriminate I; cbn in I; intuition discriminate.
Qed.

Definition false_source : list (list token) :=
  [[Word "syntax"; Blank " "; Symbol "="; Blank " "; Quoted """proto3"""; Symbol ";"]; message_line "Off" [Blank " "; Symbol "{"; Symbol "}"]].
Definition false_file : proto_file := mkProtoFile "dir/off.proto" "" ["Off"] [] [].

Lemma not_looking : forall k s, In k kinds -> match_key (key_chars k) k s = None -> ~ looks_like k s.
Proof. intros k s K M L. exact (looks_match k s K L M). Qed.

Example C72_refuted_case :
  r_inside (read_source sample) = None /\ plain_name "Shown"
  /\ In "my/pkg/shown.h" (generated_files multi_arguments (texts [("/home/me/sample.proto", (sample ++ [[Comment ("message " ++ "Shown")]])%list)]))
  /\ schema_ok "off.proto" false_source false_file /\ means_false "Off" /\ Forall (fun l => ~ looks_like "enum" (show_line l)) false_source
  /\ scan_text (source_text (glued "// see [1" "A")) = scan_start
  /\ In "/off.h" (generated_files (mkArguments true false false false false "" ["off.h"]) (texts [("off.proto", false_source)])).
Proof.
  split; [reflexivity |]. split; [split; [discriminate | apply Forall_forall; intros c I; apply member_spec; cbn in I; repeat (destruct I as [<- | I]; [reflexivity |]); destruct I] |].
  split; [vm_compute; tauto |]. split; [| split; [| split; [| split]]].
  - split; [discriminate |]. split; [apply tidy_source_check; vm_compute; reflexivity |]. split.
    + split; [| split; [vm_compute; reflexivity | split; [vm_compute; reflexivity | split; vm_compute; reflexivity]]]. exists "off".
      split; (split; [intro I; cbn in I; intuition discriminate |]); [left; reflexivity | right; exists "dir"; reflexivity].
    + exists []. split; [constructor | reflexivity].
  - left. cbn. tauto.
  - repeat constructor; apply not_looking; (reflexivity || (cbn; tauto)).
  - vm_compute. reflexivity.
  - vm_compute. tauto.
Qed.

Print Assumptions C46_cmake.
Print Assumptions C72_scan_partial.
Print Assumptions C72_single_partial.
Print Assumptions C72_multi_partial.
Print Assumptions C72_comment_refuted.
Print Assumptions C72_same_line_refuted.
Print Assumptions C72_braces_refuted.
Print Assumptions C72_brackets_refuted.
Print Assumptions C72_split_name_refuted.
Print Assumptions C72_global_enums_refuted.
Print Assumptions C45_global_clash_refuted.
Print Assumptions C72_comment_file_refuted.
Print Assumptions C72_false_name_refuted.
Print Assumptions C72_exclude.
Print Assumptions C72_exclude_refuted.

(** Proofs about the headers that the header of a client includes. *)

From Coq Require Import String Ascii ZArith List Bool Arith Lia.
From Verif Require Import GenModel GenSpec GenStrings GenTypesModel GenLookupModel GenClassSpec BuildModel BuildFiles ClientModel ClientSpec.
Import ListNotations.
Open Scope string_scope.

Lemma directory_join : forall o ps n, o_folder o = true -> header_directory o ps ++ n = join "/" (ps ++ [n])%list.
Proof.
  intros o ps n F. unfold header_directory. rewrite F. destruct ps as [| p ps]; [reflexivity |].
  rewrite (join_snoc "/" (p :: ps) n) by discriminate. now rewrite app_assoc_s.
Qed.

Lemma split_path : forall ps n, Forall (free_of "/") ps -> free_of "/" n -> n <> "" -> split "/" (join "/" (ps ++ [n])%list) = (ps ++ [n])%list.
Proof.
  intros ps n P F N. rewrite (split_join "/" (ps ++ [n])%list); [now apply trimmed_last |]. apply Forall_app. split; [exact P |]. now constructor.
Qed.

Lemma file_folder : forall o pm n s, package_parts pm -> o_folder o = true ->
  multi_file o (package_of pm) n ++ s = join "/" (pm ++ [(tolower n ++ s)%string])%list.
Proof.
  intros o pm n s P F. unfold multi_file. rewrite base_name_folder by assumption. destruct pm as [| p pm]; [reflexivity |].
  rewrite !join_snoc by discriminate. now rewrite !app_assoc_s.
Qed.

Lemma header_free : forall n, free_of "/" n -> free_of "/" (tolower n ++ ".h").
Proof.
  intros n F. apply GenStrings.free_app. split; [now apply tolower_free |]. intro I. cbn in I. intuition discriminate.
Qed.

Lemma header_nonempty : forall n, tolower n ++ ".h" <> "".
Proof. intros n E. apply (f_equal String.length) in E. rewrite length_app_s in E. cbn in E. lia. Qed.

Lemma include_top : forall o ps pm n, package_parts pm -> Forall (free_of "/") (ps ++ pm)%list -> free_of "/" n ->
  (include_gives o ps (tolower n ++ ".h") (multi_file o (package_of pm) n ++ ".h") <-> o_folder o = false \/ pm = ps \/ pm = []).
Proof.
  intros o ps pm n P F Fn. apply Forall_app in F. destruct F as [Fs Fm]. unfold include_gives. destruct (o_folder o) eqn:D.
  - rewrite directory_join, file_folder by assumption. pose proof (header_free n Fn) as H. pose proof (header_nonempty n) as N. split.
    + intros [E | E]; right.
      * left. apply (f_equal (split "/")) in E. rewrite !split_path in E by assumption. apply app_inj_tail in E. apply E.
      * right. change (tolower n ++ ".h") with (join "/" ([] ++ [(tolower n ++ ".h")%string])%list) in E at 2.
        apply (f_equal (split "/")) in E. rewrite !split_path in E by (assumption || constructor). apply app_inj_tail in E. apply E.
    + intros [E | [E | E]]; [discriminate E | subst pm; now left | subst pm; now right].
  - split; [auto |]. intros _. right. unfold multi_file, generateBaseName. now rewrite D.
Qed.

Lemma base_last : forall o pm b s, package_parts pm -> exists d, generateBaseName o (package_of pm) b ++ s = d ++ b ++ s /\ (d = "" \/ exists e, d = e ++ "/").
Proof.
  intros o pm b s P. destruct (o_folder o) eqn:F.
  - rewrite base_name_folder by assumption. destruct pm as [| p pm]; [exists ""; auto |]. rewrite join_snoc by discriminate.
    exists (join "/" (p :: pm) ++ "/"). split; [now rewrite !app_assoc_s | right; now eexists].
  - unfold generateBaseName. rewrite F. exists "". auto.
Qed.

Lemma last_same : forall d d' a b, (d = "" \/ exists e, d = e ++ "/") -> (d' = "" \/ exists e, d' = e ++ "/") ->
  free_of "/" a -> free_of "/" b -> d ++ a = d' ++ b -> a = b.
Proof.
  assert (G : forall d a, (d = "" \/ exists e, d = e ++ "/") -> free_of "/" a -> match cut_last "/" (d ++ a) with Some (_, x) => x | None => d ++ a end = a).
  { intros d a [-> | (e & ->)] F; [cbn; now rewrite cut_last_free |]. rewrite app_assoc_s. change ("/" ++ a) with (String "/" a).
    now rewrite cut_last_app. }
  intros d d' a b D D' A B E. rewrite <- (G d a D A), <- (G d' b D' B). now rewrite E.
Qed.

Lemma header_extension : forall a b, a ++ ".h" <> b ++ ".cpp".
Proof.
  intros a b E. apply (f_equal (fun s => last_char s)) in E. change ".cpp" with (".cp" ++ "p") in E. change ".h" with ("." ++ "h") in E.
  rewrite <- !app_assoc_s, !last_char_app in E. discriminate E.
Qed.

Lemma include_missing : forall o fs l ps n,
  o_multi o = true -> written_files o fs = Some l -> files_ok fs -> free_of "/" n ->
  tolower n <> "globalenums" ->
  (forall f m, In f fs -> In m (f_messages f) -> tolower m <> tolower n) ->
  (forall f s, In f fs -> In s (f_services f) -> tolower s ++ "client" <> tolower n) ->
  forall file, include_gives o ps (tolower n ++ ".h") file -> ~ In file l.
Proof.
  intros o fs l ps n M W Ok Fn G1 G2 G3 file I L. unfold written_files in W. rewrite M in W.
  assert (El : l = (both "globalenums" ++ flat_map (multi_files o) fs)%list) by congruence. clear W. rewrite El in L.
  assert (D : exists d, file = d ++ tolower n ++ ".h" /\ (d = "" \/ exists e, d = e ++ "/")).
  { destruct I as [-> | ->]; [| exists ""; auto]. exists (header_directory o ps). split; [reflexivity |]. unfold header_directory.
    destruct (o_folder o); [| auto]. destruct ps; [auto |]. right. now eexists. }
  destruct D as (d & -> & D). pose proof (header_free n Fn) as H.
  assert (C : forall x d' , (d' = "" \/ exists e, d' = e ++ "/") -> free_of "/" x -> x <> tolower n ->
    ~ In (d ++ tolower n ++ ".h") [d' ++ x ++ ".h"; d' ++ x ++ ".cpp"]).
  { intros x d' D' Fx Nx J.
    assert (Fh : forall s, free_of "/" s -> free_of "/" (x ++ s)) by (intros s Fs; apply GenStrings.free_app; now split).
    destruct J as [J | [J | []]]; symmetry in J; apply last_same in J; try assumption; try (apply Fh; intro K; cbn in K; intuition discriminate).
    - apply app_inv_tail_s in J. now apply Nx.
    - exact (header_extension _ _ J). }
  apply in_app_or in L. destruct L as [L | L].
  - refine (C "globalenums" "" (or_introl eq_refl) _ _ L); [intro K; cbn in K; intuition discriminate | congruence].
  - apply in_flat_map in L. destruct L as (f & If & L). destruct (Ok f If) as ((parts & Pp & Ep) & Fr). apply Forall_app in Fr. destruct Fr as [F1 F2].
    rewrite Forall_forall in F1, F2. unfold multi_files in L. apply in_app_or in L.
    destruct L as [L | L]; apply in_flat_map in L; destruct L as (m & Im & L); rewrite Ep in L.
    + unfold multi_file, both in L.
      assert (B : exists d', (d' = "" \/ exists e, d' = e ++ "/") /\ generateBaseName o (package_of parts) (tolower m) = d' ++ tolower m).
      { destruct (base_last o parts (tolower m) "" Pp) as (d' & E & D'). rewrite !app_nil_s in E. eauto. }
      destruct B as (d' & D' & B). rewrite B, !app_assoc_s in L. exact (C (tolower m) d' D' (tolower_free _ (F1 m Im)) (G2 f m If Im) L).
    + unfold multi_service_file, both in L.
      assert (B : exists d', (d' = "" \/ exists e, d' = e ++ "/") /\ generateBaseName o (package_of parts) (tolower m) = d' ++ tolower m).
      { destruct (base_last o parts (tolower m) "" Pp) as (d' & E & D'). rewrite !app_nil_s in E. eauto. }
      destruct B as (d' & D' & B). rewrite B, !app_assoc_s in L. rewrite <- !(app_assoc_s (tolower m)) in L.
      refine (C (tolower m ++ "client") d' D' _ (G3 f m If Im) L). apply GenStrings.free_app. split; [exact (tolower_free _ (F2 m Im)) |].
      intro K; cbn in K; intuition discriminate.
Qed.

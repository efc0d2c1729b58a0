(** C82: comments of the proto file in generated headers. *)

From Coq Require Import ZArith List Bool Lia.
From Verif Require Import Base CommentModel CommentSpec CommentProofs.
Import ListNotations.
Open Scope Z_scope.

(** Without dollar signs, the lines of the comment arrive in the header, in the layout of block comments, and nothing else changes.
    Every leading comment has exactly one text without white space at its ends. *)
Theorem C82_text : forall debug indent leading c o, trimmed leading c -> c <> [] -> ~ In 36 c ->
  printComments debug indent leading o = Printed (mkOut (o_text o ++ comment_text indent c) false).
Proof. intros. now apply comment_layout. Qed.

Theorem C82_trimmed : forall leading, exists! c, trimmed leading c.
Proof. intro s. exists (trim s). split; [apply trim_trimmed | intros c T; now apply trimmed_trim]. Qed.

(** Comments of white space print nothing. *)
Theorem C82_empty : forall debug indent leading o, trimmed leading [] -> printComments debug indent leading o = Printed o.
Proof. intros. now apply comment_empty. Qed.

(** The comment is a comment, and the code before and after it is that without it, exactly if it has no asterisk before a slash and no
    line after the first that begins with a slash.  Missing: comments of these kinds and those with dollar signs, for which the claim is
    false, see below. *)
Theorem C82_comment_partial : forall debug indent leading c o, blank indent -> trimmed leading c -> c <> [] -> ~ In 36 c -> closed (o_text o) ->
  exists o', printComments debug indent leading o = Printed o' /\
  ((forall rest, code_of Code (o_text o' ++ rest) = code_of Code (o_text o) ++ 10 :: indent ++ 32 :: code_of Code rest) <-> ~ ends_comment c).
Proof.
  intros debug indent leading c o B T N D C. eexists. split; [exact (comment_layout debug indent leading c o T N D)|]. cbn [o_text]. rewrite <- (comment_code indent c B). split; intros H rest.
  - specialize (H rest). rewrite <- app_assoc, C in H. now apply app_inv_head in H.
  - now rewrite <- app_assoc, C, H.
Qed.

(** A line after the first that begins with a slash, as all lines do in comments of three slashes: from there on the comment is code. *)
Theorem C82_slash_refuted : forall debug indent leading l r o, blank indent -> trimmed leading (l ++ 10 :: 47 :: r) -> ~ In 36 (l ++ r) -> ~ ends_comment l -> closed (o_text o) ->
  exists o', printComments debug indent leading o = Printed o' /\
  forall rest, code_of Code (o_text o' ++ rest) =
    code_of Code (o_text o) ++ 10 :: indent ++ 32 :: code_of Code (joined (10 :: indent ++ [32; 42]) (lines r) ++ 10 :: indent ++ [32; 42; 47] ++ rest).
Proof.
  intros debug indent leading l r o B T D N C. eexists. split.
  - apply comment_layout; [exact T | now destruct l |]. intro I. apply D. apply in_app_iff in I. apply in_app_iff. destruct I as [I|[I|[I|I]]]; [now left | discriminate | discriminate | now right].
  - intro rest. cbn [o_text]. rewrite <- app_assoc, C. f_equal. rewrite (comment_broken indent l _ rest B N r (or_intror eq_refl)). repeat f_equal.
    rewrite existsb_app. cbn [existsb]. change (10 =? 10) with true. cbn [orb]. rewrite orb_true_r. cbn [app]. rewrite <- app_assoc. reflexivity.
Qed.

(** An asterisk and a slash within a line comment of the proto file: the rest of the comment is code. *)
Theorem C82_star_refuted : forall debug indent leading l r o, blank indent -> trimmed leading (l ++ 42 :: 47 :: r) -> ~ In 36 (l ++ r) -> ~ ends_comment l -> closed (o_text o) ->
  exists o', printComments debug indent leading o = Printed o' /\
  forall rest, exists between, Forall space between /\ code_of Code (o_text o' ++ rest) =
    code_of Code (o_text o) ++ 10 :: indent ++ 32 :: code_of Code (joined (10 :: indent ++ [32; 42]) (lines r) ++ between ++ [42; 47] ++ rest).
Proof.
  intros debug indent leading l r o B T D N C. eexists. split.
  - apply comment_layout; [exact T | now destruct l |]. intro I. apply D. apply in_app_iff in I. apply in_app_iff. destruct I as [I|[I|[I|I]]]; [now left | discriminate | discriminate | now right].
  - intro rest. exists (if existsb (fun x => x =? 10) (l ++ 42 :: 47 :: r) then 10 :: indent ++ [32] else [32]). split.
    + assert (S : space 32) by (now left). assert (F : Forall space (indent ++ [32])).
      { apply Forall_app. split; [|now repeat constructor]. eapply Forall_impl; [|exact B]. now intros x ->. }
      destruct (existsb _ _); constructor; auto. right; right; now left.
    + cbn [o_text]. rewrite <- app_assoc, C. f_equal. rewrite (comment_broken indent l _ rest B N r (or_introl eq_refl)). reflexivity.
Qed.

(** A dollar sign: the comment never arrives. *)
Theorem C82_dollar_refuted : forall debug indent leading c o o', trimmed leading c -> In 36 c ->
  printComments debug indent leading o = Printed o' -> (length (o_text o') < length (o_text o ++ comment_text indent c))%nat.
Proof. intros. eapply comment_dollar; eauto. Qed.

(** With a libprotobuf built for debugging, an odd number of dollar signs ends the generator; otherwise a comment whose last character
    is its only dollar sign has undefined behaviour. *)
Theorem C82_dollar_fatal_refuted : forall indent leading c o, trimmed leading c -> Nat.odd (count_occ Z.eq_dec c 36) = true ->
  printComments true indent leading o = Fatal.
Proof. intros. eapply comment_odd; eauto. Qed.

Theorem C82_dollar_undefined_refuted : forall indent leading c o, trimmed leading (c ++ [36]) -> ~ In 36 c ->
  printComments false indent leading o = Undefined.
Proof. intros. eapply comment_last; eauto. Qed.

(** ** Cases *)

(** " first\n second\n", "/ a\n/ b\n" (of "/// a" and "/// b"), "use a*/b;", "5 $" and "costs $5 or $6". *)
Definition ex_two : list Z := [32; 102; 105; 10; 32; 115; 101; 10].
Definition ex_doc : list Z := [47; 32; 97; 10; 47; 32; 98; 10].
Definition ex_star : list Z := [97; 42; 47; 98; 59].
Definition ex_price : list Z := [53; 32; 36].
Definition ex_prices : list Z := [36; 53; 32; 111; 114; 32; 36; 54].

Lemma ex_out : closed [] /\ blank [32; 32; 32; 32].
Proof. split; [intro t; reflexivity | repeat constructor]. Qed.

Lemma ex_trim s t : trim s = t -> trimmed s t.
Proof. intros <-. apply trim_trimmed. Qed.

Example C82_case :
  trimmed ex_two [102; 105; 10; 32; 115; 101] /\ ~ ends_comment [102; 105; 10; 32; 115; 101] /\
  printComments false [32; 32] ex_two (mkOut [] true) =
    Printed (mkOut ([10; 32; 32; 47; 42; 10; 32; 32; 32; 42; 32; 102; 105; 10; 32; 32; 32; 42; 32; 115; 101; 10; 32; 32; 32; 42; 47]) false).
Proof.
  split; [now apply ex_trim|]. split; [|reflexivity].
  rewrite ends_has2. discriminate.
Qed.

(** The second line of the comment is code: " b" and an asterisk and slash. *)
Example C82_doc_case :
  trimmed ex_doc ([47; 32; 97] ++ 10 :: 47 :: [32; 98]) /\ ~ ends_comment [47; 32; 97] /\
  exists o', printComments false [32; 32] ex_doc (mkOut [] true) = Printed o' /\
  code_of Code (o_text o') = [10; 32; 32; 32; 32; 98; 10; 32; 32; 32; 42; 47].
Proof.
  split; [now apply ex_trim|]. split; [rewrite ends_has2; discriminate|]. eexists. split; reflexivity.
Qed.

Example C82_star_case :
  trimmed ex_star ([97] ++ 42 :: 47 :: [98; 59]) /\ ~ ends_comment [97] /\
  exists o', printComments false [] ex_star (mkOut [] true) = Printed o' /\ code_of Code (o_text o') = [10; 32; 98; 59; 32; 42; 47].
Proof.
  split; [now apply ex_trim|]. split; [rewrite ends_has2; discriminate|]. eexists. split; reflexivity.
Qed.

Example C82_dollar_case :
  trimmed ex_prices ex_prices /\ In 36 ex_prices /\
  printComments false [] ex_prices (mkOut [] true) = Printed (mkOut [10; 47; 42; 32; 54; 32; 42; 47] false) /\
  printComments true [] ex_prices (mkOut [] true) = Fatal /\
  trimmed ex_price ([53; 32] ++ [36]) /\ Nat.odd (count_occ Z.eq_dec ex_price 36) = true.
Proof. repeat split; try (now apply ex_trim); cbn; auto. Qed.

Print Assumptions C82_text.
Print Assumptions C82_trimmed.
Print Assumptions C82_empty.
Print Assumptions C82_comment_partial.
Print Assumptions C82_slash_refuted.
Print Assumptions C82_star_refuted.
Print Assumptions C82_dollar_refuted.
Print Assumptions C82_dollar_fatal_refuted.
Print Assumptions C82_dollar_undefined_refuted.

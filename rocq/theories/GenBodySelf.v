(** Proofs about printed bodies: an object assigned to itself. *)

From Coq Require Import String Ascii ZArith List Bool Arith Lia.
From Verif Require Values.
From Verif Require Import Base MessageSpec MessageProofs SerializeProofs PropFacts ObjectModel ObjectSpec ObjectProofs ObjectTotal AssignProofs ObjectFacts.
From Verif Require Import GenModel GenSpec GenStrings GenTypesModel GenClassModel GenClassSpec GenClassProofs GenClassMembers GenClassBodies
  GenBodyModel GenBodySpec GenBodyProofs GenBodyCopy GenBodyMove.
Import ListNotations.
Local Close Scope Z_scope.
Open Scope string_scope.

Section Self.
  Context (sch : Values.schema) (h : heap) (fns : list (func * body)).
  Context (rec_eq : nat -> list mem -> list mem -> res bool).
  Context (rec_assign : bool -> nat -> list mem -> list mem -> res (list mem)).
  Context (rec_move : bool -> nat -> list mem -> list mem -> res (list mem * list mem)).
  Context (RA : forall m l vs l', denotes sch h m l vs -> rec_assign true m l l = Ok l' -> l' = l).

  Lemma self_one : forall pre f suf, distinct (pre ++ f :: suf) ->
    (pure_message (m_shape f) = false -> find_setter fns (setter_name f) = Some (Stores (variable_name f) (signal_name f))) ->
    forall xpre x xs v o em oem w', List.length xpre = List.length pre -> den_field sch h (fty_of (m_shape f)) x v ->
    do_statement sch (pre ++ f :: suf) fns true rec_eq rec_assign rec_move
      (if pure_message (m_shape f) then assign_complex_field f else copy_field f) (mkWorld (xpre ++ x :: xs) o em oem) = Ok w' ->
    exists em', w' = mkWorld (xpre ++ x :: xs) o em' oem.
  Proof.
    intros pre f suf D FS xpre x xs v o em oem w' LX DX R. destruct (bool_cases (pure_message (m_shape f))) as [P | P]; rewrite P in R.
    - destruct (pure_shape f P) as (m & E). unfold assign_complex_field, do_statement in R. cbn [w_this other_of] in R.
      rewrite (read_at pre f suf D xpre x xs LX) in R. cbn [bind] in R. unfold same_variables at 1 in R. rewrite (type_at pre f suf D), E in R.
      cbn [fty_of elty_of] in R. destruct (lazy_eq sch rec_eq m (own_of x) (own_of x)) as [[|] | | |] eqn:L; cbn [bind] in R; try discriminate R.
      + injection R as <-. eexists. reflexivity.
      + unfold do_simples, do_simple in R. cbn [w_this other_of] in R. rewrite (read_at pre f suf D xpre x xs LX) in R. cbn [bind] in R.
        rewrite (type_at pre f suf D), E in R. cbn [fty_of elty_of] in R. rewrite E in DX. cbn [fty_of elty_of] in DX.
        destruct (den_own_inv _ _ _ _ _ DX) as [-> | (ob & vs & -> & O)]; [discriminate L |]. cbn [own_of deref] in R.
        destruct (rec_assign true m ob ob) as [l | | |] eqn:A; cbn [bind] in R; try discriminate R. apply (RA _ _ _ _ O) in A. subst l.
        rewrite (write_at pre f suf D xpre _ xs _ LX) in R. cbn [bind with_this emit w_this w_other w_emitted w_other_emitted] in R.
        injection R as <-. eexists. reflexivity.
    - unfold copy_field, do_statement, do_simple in R. cbn [w_this other_of] in R. rewrite (read_at pre f suf D xpre x xs LX) in R. cbn [bind] in R.
      rewrite (setter_effect sch fns rec_eq pre f suf D FS xpre x xs LX P) in R. unfold set_plain in R.
      destruct (mem_eqb (fty_of (m_shape f)) x x); injection R as <-; eexists; reflexivity.
  Qed.

  Lemma self_all : forall suf pre xpre xs vs o em oem w', distinct (pre ++ suf) -> setters_found fns suf -> List.length xpre = List.length pre ->
    den_fields sch h (map descriptor suf) xs vs ->
    do_statements sch (pre ++ suf) fns true rec_eq rec_assign rec_move
      (map (fun f => if pure_message (m_shape f) then assign_complex_field f else copy_field f) suf) (mkWorld (xpre ++ xs) o em oem) = Ok w' ->
    w_this w' = (xpre ++ xs)%list.
  Proof.
    induction suf as [| f suf IH]; intros pre xpre xs vs o em oem w' D FS LX DX R; cbn [map do_statements] in R.
    - injection R as <-. reflexivity.
    - cbn [map] in DX. inversion DX as [| ? ? x xs1 v vs1 DX1 DX2]; subst.
      destruct (do_statement _ _ _ _ _ _ _ _ _) as [w1 | | |] eqn:R1 in R; cbn [bind] in R; try discriminate R.
      destruct (self_one pre f suf D (FS f (or_introl eq_refl)) xpre x xs1 v o em oem w1 LX DX1 R1) as (em' & ->).
      rewrite (snoc_app pre f suf) in *. rewrite (snoc_app xpre x xs1) in *.
      apply (IH _ _ _ vs1 _ _ _ _) in R; auto; [intros g G; apply FS; now right | rewrite !app_length; cbn [List.length]; lia].
  Qed.

  (** Without NaN. *)
  Lemma self_quiet : forall suf pre xpre xs vs o em oem, distinct (pre ++ suf) -> setters_found fns suf -> List.length xpre = List.length pre ->
    den_fields sch h (map descriptor suf) xs vs ->
    Forall2 (fun f x => if pure_message (m_shape f) then forall m, m_shape f = One (Mess m) -> lazy_eq sch rec_eq m (own_of x) (own_of x) = Ok true
                        else mem_eqb (fty_of (m_shape f)) x x = true) suf xs ->
    do_statements sch (pre ++ suf) fns true rec_eq rec_assign rec_move
      (map (fun f => if pure_message (m_shape f) then assign_complex_field f else copy_field f) suf) (mkWorld (xpre ++ xs) o em oem)
    = Ok (mkWorld (xpre ++ xs) o em oem).
  Proof.
    clear RA.
    induction suf as [| f suf IH]; intros pre xpre xs vs o em oem D FS LX DX Q; cbn [map do_statements]; [reflexivity |].
    cbn [map] in DX. inversion DX as [| ? ? x xs1 v vs1 DX1 DX2]; subst. inversion Q as [| ? ? ? ? Q1 Q2]; subst.
    assert (R : do_statement sch (pre ++ f :: suf) fns true rec_eq rec_assign rec_move
      (if pure_message (m_shape f) then assign_complex_field f else copy_field f) (mkWorld (xpre ++ x :: xs1) o em oem)
      = Ok (mkWorld (xpre ++ x :: xs1) o em oem)).
    { clear IH. destruct (bool_cases (pure_message (m_shape f))) as [P | P]; rewrite P in Q1 |- *.
      - destruct (pure_shape f P) as (m & E). unfold assign_complex_field, do_statement. cbn [w_this other_of].
        rewrite (read_at pre f suf D xpre x xs1 LX). cbn [bind]. unfold same_variables at 1. rewrite (type_at pre f suf D), E.
        cbn [fty_of elty_of]. rewrite (Q1 m E). reflexivity.
      - unfold copy_field, do_statement, do_simple. cbn [w_this other_of]. rewrite (read_at pre f suf D xpre x xs1 LX). cbn [bind].
        rewrite (setter_effect sch fns rec_eq pre f suf D (FS f (or_introl eq_refl)) xpre x xs1 LX P). unfold set_plain. rewrite Q1. now rewrite app_nil_r. }
    rewrite R. cbn [bind]. rewrite (snoc_app pre f suf) in *. rewrite (snoc_app xpre x xs1) in *.
    apply (IH _ _ _ vs1); auto; [intros g G; apply FS; now right | rewrite !app_length; cbn [List.length]; lia].
  Qed.
End Self.

(** * Moves to itself *)

Section SelfMove.
  Context (sch : Values.schema) (h : heap) (fns : list (func * body)).
  Context (rec_eq : nat -> list mem -> list mem -> res bool).
  Context (rec_assign : bool -> nat -> list mem -> list mem -> res (list mem)).
  Context (rec_move : bool -> nat -> list mem -> list mem -> res (list mem * list mem)).
  Context (RM : forall m l vs l' l'', denotes sch h m l vs -> rec_move true m l l = Ok (l', l'') ->
                l'' = l' /\ exists us, denotes sch h m l' us /\ same sch m us vs).

  Lemma self_move_one : forall pre f suf, distinct (pre ++ f :: suf) -> supported f ->
    (pure_message (m_shape f) = false -> find_setter fns (setter_name f) = Some (Stores (variable_name f) (signal_name f))) ->
    forall xpre x xs v o em oem w', List.length xpre = List.length pre -> den_field sch h (fty_of (m_shape f)) x v ->
    do_statements sch (pre ++ f :: suf) fns true rec_eq rec_assign rec_move (move_assign_one f) (mkWorld (xpre ++ x :: xs) o em oem) = Ok w' ->
    exists x' u em', w' = mkWorld (xpre ++ x' :: xs) o em' oem /\ den_field sch h (fty_of (m_shape f)) x' u /\ same_field sch (fty_of (m_shape f)) u v.
  Proof.
    intros pre f suf D S FS xpre x xs v o em oem w' LX DX R.
    assert (W : moved_as_whole (m_shape f) = true -> pure_message (m_shape f) = false -> exists em', w' = mkWorld (xpre ++ x :: xs) o em' oem).
    { intros M P. unfold move_assign_one in R. rewrite M, P in R. unfold move_complex_field, do_statements, do_statement in R. cbn [w_this other_of] in R.
      rewrite (read_at pre f suf D xpre x xs LX) in R. cbn [bind] in R. rewrite (plain_type sch fns rec_eq pre f suf D FS P) in R. cbn [bind] in R.
      destruct (mem_eqb (fty_of (m_shape f)) x x); [injection R as <-; eexists; reflexivity |]. unfold do_simples, do_simple in R. cbn [w_this other_of] in R.
      rewrite (read_at pre f suf D xpre x xs LX) in R. cbn [bind] in R. rewrite (write_at pre f suf D xpre x xs _ LX) in R.
      cbn [bind with_this with_other other_of w_this w_other w_emitted w_other_emitted] in R. rewrite (write_at pre f suf D xpre x xs _ LX) in R.
      cbn [bind emit emit_other w_this w_other w_emitted w_other_emitted] in R. injection R as <-. eexists. reflexivity. }
    destruct (bool_cases (moved_as_whole (m_shape f))) as [M | M]; [destruct (bool_cases (pure_message (m_shape f))) as [P | P] |].
    - clear W. unfold move_assign_one in R. rewrite M, P in R. destruct (pure_shape f P) as (m & E).
      unfold move_assign_message_field, do_statements, do_statement in R. cbn [w_this other_of] in R.
      rewrite (read_at pre f suf D xpre x xs LX) in R. cbn [bind] in R. unfold same_variables at 1 in R. rewrite (type_at pre f suf D), E in R.
      rewrite E in DX |- *. cbn [fty_of elty_of] in R, DX |- *.
      destruct (lazy_eq sch rec_eq m (own_of x) (own_of x)) as [[|] | | |] eqn:L; cbn [bind] in R; try discriminate R.
      + injection R as <-. exists x, v, em. repeat split. exact DX.
      + unfold do_simples, do_simple in R. cbn [w_this other_of] in R. rewrite (read_at pre f suf D xpre x xs LX) in R. cbn [bind] in R.
        rewrite (type_at pre f suf D), E in R. cbn [fty_of elty_of] in R.
        destruct (den_own_inv _ _ _ _ _ DX) as [-> | (ob & vs & -> & O)]; [discriminate L |]. cbn [own_of deref] in R.
        destruct (rec_move true m ob ob) as [[l l'] | | |] eqn:A; cbn [bind] in R; try discriminate R.
        destruct (RM _ _ _ _ _ O A) as (-> & us & U1 & U2).
        rewrite (write_at pre f suf D xpre _ xs _ LX) in R. cbn [bind with_this with_other other_of w_this w_other w_emitted w_other_emitted] in R.
        rewrite (write_at pre f suf D xpre _ xs _ LX) in R. cbn [bind emit emit_other w_this w_other w_emitted w_other_emitted] in R.
        injection R as <-. inversion DX as [| | ? ? vs0 O' | | | |]; subst. pose proof (denotes_fun _ _ _ _ _ _ O O') as ->.
        exists (MOwn (Some l)), (Values.VMsg us). eexists. repeat split; [now constructor |].
        unfold same_field. cbn [canon_field]. f_equal. unfold same in U2. rewrite !canon_obj_spec in U2.
        transitivity (Values.VMsg (canon_obj sch m us)); [cbn [canon_elem]; reflexivity |].
        transitivity (Values.VMsg (canon_obj sch m vs0)); [rewrite !canon_obj_spec; now rewrite U2 | reflexivity].
    - destruct (W M P) as (em' & ->). exists x, v, em'. repeat split. exact DX.
    - clear W. unfold move_assign_one in R. rewrite M in R. unfold supported in S.
      destruct (m_shape f) as [[t | m | e | q] | [[] | m | e | q] | k e] eqn:E; cbn [known_element] in S; try discriminate M; try match type of S with False => destruct S end.
      + cbn [is_enum_type] in R. unfold move_plain_field, do_statements, do_statement, do_simple in R. cbn [w_this other_of] in R.
        rewrite (read_at pre f suf D xpre x xs LX) in R. cbn [bind] in R. rewrite (write_at pre f suf D xpre x xs _ LX) in R.
        cbn [bind with_other with_this w_this w_other w_emitted w_other_emitted] in R.
        assert (P : pure_message (m_shape f) = false) by now rewrite E.
        unfold with_this in R. cbn [w_this w_other w_emitted w_other_emitted] in R.
        rewrite <- E in FS. rewrite (setter_effect sch fns rec_eq pre f suf D FS xpre _ xs LX P) in R. rewrite E in R. cbn [fty_of elty_of] in *.
        unfold set_plain in R. inversion DX; subst.
        destruct (mem_eqb (Values.FSing (Values.ES (sty_of t))) (MScalar (Values.SNum 0)) (MScalar s)) eqn:Z;
          cbn [bind emit emit_other w_this w_other w_emitted w_other_emitted] in R; injection R as <-.
        * eexists (MScalar (Values.SNum 0)), (Values.VScalar (Values.SNum 0)), _. split; [reflexivity |]. split; [constructor |].
          cbn [mem_eqb] in Z. apply scalar_eqb_canon in Z. unfold same_field. cbn [canon_field]. f_equal. rewrite !canon_elem_scalar. cbn [Values.scalar_of]. now rewrite Z.
        * eexists (MScalar s), (Values.VScalar s), _. split; [reflexivity |]. split; [constructor | reflexivity].
      + cbn [is_enum_type] in R. unfold move_enum_field, do_statements, do_statement, do_simple in R. cbn [w_this other_of] in R.
        rewrite (read_at pre f suf D xpre x xs LX) in R. cbn [bind] in R. rewrite (write_at pre f suf D xpre x xs _ LX) in R.
        cbn [bind with_this w_this w_other w_emitted w_other_emitted] in R. injection R as <-. exists x, v, em. repeat split. exact DX.
  Qed.

  Lemma self_move_all : forall suf pre xpre xs vs o em oem w', distinct (pre ++ suf) -> Forall supported suf -> setters_found fns suf ->
    List.length xpre = List.length pre -> den_fields sch h (map descriptor suf) xs vs ->
    do_statements sch (pre ++ suf) fns true rec_eq rec_assign rec_move (flat_map move_assign_one suf) (mkWorld (xpre ++ xs) o em oem) = Ok w' ->
    exists xs' us, w_this w' = (xpre ++ xs')%list /\ den_fields sch h (map descriptor suf) xs' us /\
      canon_fields sch (map descriptor suf) us = canon_fields sch (map descriptor suf) vs.
  Proof.
    induction suf as [| f suf IH]; intros pre xpre xs vs o em oem w' D S FS LX DX R; cbn [flat_map] in R.
    - injection R as <-. inversion DX; subst. exists [], []. repeat split. constructor.
    - cbn [map] in DX. inversion DX as [| ? ? x xs1 v vs1 DX1 DX2]; subst. inversion S as [| ? ? S1 S2]; subst. rewrite do_app in R.
      destruct (do_statements _ _ _ _ _ _ _ (move_assign_one f) _) as [w1 | | |] eqn:R1 in R; cbn [bind] in R; try discriminate R.
      destruct (self_move_one pre f suf D S1 (FS f (or_introl eq_refl)) xpre x xs1 v o em oem w1 LX DX1 R1) as (x' & u & em' & -> & U1 & U2).
      rewrite (snoc_app pre f suf) in *. rewrite (snoc_app xpre x' xs1) in *.
      destruct (IH (pre ++ [f])%list (xpre ++ [x'])%list xs1 vs1 o em' oem w') as (xs' & us & E1 & E2 & E3);
        auto; [intros g G; apply FS; now right | rewrite !app_length; cbn [List.length]; lia |].
      exists (x' :: xs'), (u :: us). split; [rewrite E1, <- app_assoc; reflexivity |]. split; [now constructor |].
      cbn [map canon_fields]. rewrite E3. f_equal. exact U2.
  Qed.
End SelfMove.

Section Classes.
  Context (classes : nat -> message) (names : nat -> string) (qml field_numbers : bool) (sch : Values.schema) (h : heap)
    (DS : describes sch classes).

  Theorem self_assigned : forall fuel m xs vs xs' sigs, denotes sch h m xs vs ->
    run_assign classes names qml field_numbers sch h fuel true m xs xs = Ok (xs', sigs) -> xs' = xs.
  Proof.
    induction fuel as [| n IH]; intros m xs vs xs' sigs DX R; [discriminate R |]. cbn [run_assign] in R.
    match type of R with (bind ?a _) = _ => destruct a as [w' | | |] eqn:W; cbn [bind] in R; try discriminate R end.
    injection R as <- _. inversion DX as [? ? ? FX]; subst. rewrite (fields_described _ _ DS) in *. unfold assignment_body, fields_of in W.
    refine (self_all sch h (functions_of classes names qml field_numbers m) (run_equal classes sch h n) _ _ _
      (g_fields (classes m)) [] [] xs vs xs [] [] w' (proj1 (proj2 DS m)) (found classes names qml field_numbers sch DS m) eq_refl FX W).
    intros m' l us l' L A. destruct (run_assign classes names qml field_numbers sch h n true m' l l) as [[a sg] | | |] eqn:B; cbn [bind] in A; try discriminate A.
    injection A as <-. eapply IH; eauto.
  Qed.

  Lemma mem_refl : forall ty x v, is_message ty = false -> key_ok ty -> den_field sch h ty x v -> field_nan_free sch ty v -> mem_eqb ty x x = true.
  Proof.
    intros ty x v M K D N. destruct (is_plain ty) eqn:P.
    - eapply mem_eqb_complete; eauto. reflexivity.
    - destruct ty as [[t|m]|[t|m]|k [t|m]]; try discriminate P; try discriminate M; inversion D; subst; cbn [mem_eqb].
      + now apply (ptrs_eqb_eq l l).
      + unfold qmap_eqb. clear. induction l as [| [a p] l IH]; [reflexivity |]. cbn [Values.list_eqb fst snd]. rewrite ptr_eqb_refl.
        rewrite key_ltb_irrefl. exact IH.
  Qed.

  Theorem self_assigned_quietly : forall fuel m xs vs, schema_ok sch -> denotes sch h m xs vs -> object_ok sch m vs ->
    nan_free sch (Values.EM m) (Values.VMsg vs) -> odepth vs < fuel ->
    run_assign classes names qml field_numbers sch h (S fuel) true m xs xs = Ok (xs, []).
  Proof.
    intros n m xs vs SO DX O N L. cbn [run_assign].
    inversion DX as [? ? ? FX]; subst. apply nan_free_spec in N; [| eapply den_length; eauto]. apply object_ok_spec in O.
    pose proof (schema_keys sch SO m) as K. rewrite (fields_described _ _ DS) in *. unfold assignment_body, fields_of.
    rewrite <- (app_nil_l (g_fields (classes m))) at 1. rewrite <- (app_nil_l xs) at 1.
    rewrite (self_quiet sch h (functions_of classes names qml field_numbers m)) with (vs := vs);
      [reflexivity | exact (proj1 (proj2 DS m)) | exact (found classes names qml field_numbers sch DS m) | reflexivity | exact FX |].
    assert (L' : odepth vs <= n) by lia.
    clear DX L. revert xs vs FX O N K L'. induction (g_fields (classes m)) as [| f fs IH]; intros xs vs FX O N K L;
      cbn [map] in *; inversion FX as [| ? ? x xs1 v vs1 F1 F2]; subst; [constructor |].
    inversion O as [| ? ? ? ? O1 O2]; subst. inversion N as [| ? ? ? ? N1 N2]; subst. inversion K as [| ? ? K1 K2]; subst.
    constructor; [| eapply IH; eauto; apply odepth_cons in L; lia].
    destruct (pure_message (m_shape f)) eqn:P.
    - intros m' E. cbn [descriptor Values.f_ty] in *. rewrite E in *. cbn [fty_of elty_of] in *.
      destruct (den_own_inv _ _ _ _ _ F1) as [-> | (ob & us & -> & OB)]; [reflexivity |]. cbn [own_of lazy_eq].
      inversion F1 as [| | ? ? vs0 O' | | | |]; subst. pose proof (denotes_fun _ _ _ _ _ _ OB O') as ->.
      apply odepth_cons in L. destruct L as [L _].
      change (vdepth (Values.VMsg vs0)) with (S (odepth vs0)) in L.
      rewrite (equal_agrees classes sch h DS n m' ob ob vs0 vs0 O' O'). apply (eq_obj_same sch h SO n m' ob ob vs0 vs0); auto; try lia. reflexivity.
    - apply (mem_refl _ _ v); auto. destruct (m_shape f) as [[t | m' | e | q] | e | k e]; try discriminate P; reflexivity.
  Qed.

  Theorem self_moved : forall fuel m xs vs w, denotes sch h m xs vs ->
    run_move classes names qml field_numbers sch h fuel true m xs xs = Ok w ->
    exists us, denotes sch h m (w_this w) us /\ same sch m us vs.
  Proof.
    induction fuel as [| n IH]; intros m xs vs w DX R; [discriminate R |]. cbn [run_move] in R.
    inversion DX as [? ? ? FX]; subst. rewrite (fields_described _ _ DS) in *.
    change (move_assignment_body (classes m)) with (flat_map move_assign_one (g_fields (classes m))) in R. unfold fields_of in R.
    assert (RM : forall m' l us l' l'', denotes sch h m' l us ->
      (w <- run_move classes names qml field_numbers sch h n true m' l l ;; Ok (w_this w, w_this w)) = Ok (l', l'') ->
      l'' = l' /\ exists us', denotes sch h m' l' us' /\ same sch m' us' us).
    { intros m' l us l' l'' L A. destruct (run_move classes names qml field_numbers sch h n true m' l l) as [w' | | |] eqn:B; cbn [bind] in A; try discriminate A.
      injection A as <- <-. split; [reflexivity |]. eapply IH; eauto. }
    destruct (self_move_all sch h (functions_of classes names qml field_numbers m) (run_equal classes sch h n) _ _ RM (g_fields (classes m)) [] [] xs vs xs [] [] w
      (proj1 (proj2 DS m)) (proj2 (proj2 DS m)) (found classes names qml field_numbers sch DS m) eq_refl FX R) as (xs' & us & E1 & E2 & E3).
    exists us. cbn [app] in E1. rewrite E1. split; [constructor; now rewrite (fields_described _ _ DS) |].
      unfold same. rewrite !canon_obj_spec, (fields_described _ _ DS). exact E3.
  Qed.
End Classes.

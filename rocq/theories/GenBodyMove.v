(** Proofs about printed bodies: move assignment and move constructor. *)

From Coq Require Import String Ascii ZArith List Bool Arith Lia.
From Verif Require Values.
From Verif Require Import Base MessageSpec ObjectModel ObjectSpec ObjectProofs ObjectFacts.
From Verif Require Import GenModel GenSpec GenStrings GenTypesModel GenClassModel GenClassSpec GenClassProofs GenClassMembers GenClassBodies
  GenBodyModel GenBodySpec GenBodyProofs GenBodyCopy.
Import ListNotations.
Local Close Scope Z_scope.
Open Scope string_scope.

Lemma do_app : forall sch fields fns self re ra rm a b w,
  do_statements sch fields fns self re ra rm (a ++ b) w
  = (w' <- do_statements sch fields fns self re ra rm a w ;; do_statements sch fields fns self re ra rm b w').
Proof.
  intros sch fields fns self re ra rm. induction a as [| s a IH]; intros b w; cbn [app do_statements]; [reflexivity |].
  rewrite bind_assoc. apply bind_ext. intros w' _. apply IH.
Qed.

Definition move_assign_one (f : mfield) : list statement :=
  if moved_as_whole (m_shape f) then
    if pure_message (m_shape f) then move_assign_message_field f else move_complex_field f
  else if is_enum_type (m_shape f) then move_enum_field f else move_plain_field f.
Definition move_construct_one (f : mfield) : list statement :=
  if moved_as_whole (m_shape f) then
    if pure_message (m_shape f) then move_message_field f else move_complex_field_constructor f
  else if is_enum_type (m_shape f) then move_enum_field f else move_plain_field f.

Section Move.
  Context (sch : Values.schema) (h : heap) (fns : list (func * body)) (fuel : nat).
  Context (rec_eq : nat -> list mem -> list mem -> res bool).
  Context (rec_assign : bool -> nat -> list mem -> list mem -> res (list mem)).
  Context (rec_move : bool -> nat -> list mem -> list mem -> res (list mem * list mem)).
  Context (rec : nat -> list mem -> list mem -> res (list mem * list mem)).
  Context (RE : forall m xs ys vs ws, denotes sch h m xs vs -> denotes sch h m ys ws -> rec_eq m xs ys = eq_obj fuel sch h m xs ys).
  Context (RM : forall m xs ys vs ws, denotes sch h m xs vs -> denotes sch h m ys ws -> rec_move false m xs ys = rec m xs ys).

  Context (pre : list mfield) (f : mfield) (suf : list mfield) (D : distinct (pre ++ f :: suf)) (S : supported f).
  Context (FS : pure_message (m_shape f) = false -> find_setter fns (setter_name f) = Some (Stores (variable_name f) (signal_name f))).
  Context (xpre : list mem) (x : mem) (xs : list mem) (ypre : list mem) (y : mem) (ys : list mem).
  Context (LX : List.length xpre = List.length pre) (LY : List.length ypre = List.length pre).
  Context (v w : Values.value) (DX : den_field sch h (fty_of (m_shape f)) x v) (DY : den_field sch h (fty_of (m_shape f)) y w).

  Notation sigs b := (if b : bool then [signal_name f] else []).

  Lemma number_moved : forall t, m_shape f = One (Simple t) -> text_type (m_shape f) = false -> forall em oem,
    do_statements sch (pre ++ f :: suf) fns false rec_eq rec_assign rec_move (move_plain_field f)
      (mkWorld (xpre ++ x :: xs) (ypre ++ y :: ys) em oem)
    = Ok (mkWorld (xpre ++ fst (set_plain (fty_of (m_shape f)) x y) :: xs) (ypre ++ MScalar (Values.SNum 0) :: ys)
           (em ++ sigs (negb (mem_eqb (fty_of (m_shape f)) x y)))%list (oem ++ [signal_name f])%list).
  Proof.
    intros t E T em oem. unfold move_plain_field, do_statements, do_statement, do_simple. cbn [other_of w_other].
    rewrite (read_at pre f suf D ypre y ys LY), (write_at pre f suf D ypre y ys _ LY). cbn [bind with_other w_this w_emitted w_other_emitted].
    rewrite (setter_effect sch fns rec_eq pre f suf D FS xpre x xs LX) by now rewrite E.
    unfold set_plain. destruct (mem_eqb (fty_of (m_shape f)) x y); reflexivity.
  Qed.

  Lemma enum_moved : forall em oem,
    do_statements sch (pre ++ f :: suf) fns false rec_eq rec_assign rec_move (move_enum_field f)
      (mkWorld (xpre ++ x :: xs) (ypre ++ y :: ys) em oem)
    = Ok (mkWorld (xpre ++ y :: xs) (ypre ++ y :: ys) em oem).
  Proof.
    intros em oem. unfold move_enum_field, do_statements, do_statement, do_simple. cbn [other_of w_other w_this].
    rewrite (read_at pre f suf D ypre y ys LY). cbn [bind]. rewrite (write_at pre f suf D xpre x xs _ LX). reflexivity.
  Qed.

  Lemma whole_moved : pure_message (m_shape f) = false -> forall em oem,
    do_statements sch (pre ++ f :: suf) fns false rec_eq rec_assign rec_move (move_complex_field f)
      (mkWorld (xpre ++ x :: xs) (ypre ++ y :: ys) em oem)
    = if mem_eqb (fty_of (m_shape f)) x y then Ok (mkWorld (xpre ++ x :: xs) (ypre ++ y :: ys) em oem)
      else Ok (mkWorld (xpre ++ y :: xs) (ypre ++ x :: ys) (em ++ [signal_name f])%list (oem ++ [signal_name f])%list).
  Proof.
    intros P em oem. unfold move_complex_field, do_statements, do_statement. cbn [other_of w_other w_this].
    rewrite (read_at pre f suf D xpre x xs LX), (read_at pre f suf D ypre y ys LY). cbn [bind].
    rewrite (plain_type sch fns rec_eq pre f suf D FS P). cbn [bind]. destruct (mem_eqb (fty_of (m_shape f)) x y); [reflexivity |].
    unfold do_simples, do_simple. cbn [other_of w_other w_this].
    rewrite (read_at pre f suf D xpre x xs LX), (read_at pre f suf D ypre y ys LY). cbn [bind].
    rewrite (write_at pre f suf D xpre x xs _ LX). cbn [bind with_this other_of w_other w_this].
    rewrite (write_at pre f suf D ypre y ys _ LY). reflexivity.
  Qed.

  Lemma whole_moved_constructor : forall em oem,
    do_statements sch (pre ++ f :: suf) fns false rec_eq rec_assign rec_move (move_complex_field_constructor f)
      (mkWorld (xpre ++ x :: xs) (ypre ++ y :: ys) em oem)
    = Ok (mkWorld (xpre ++ y :: xs) (ypre ++ x :: ys) em (oem ++ [signal_name f])%list).
  Proof.
    intros em oem. unfold move_complex_field_constructor, do_statements, do_statement, do_simple. cbn [other_of w_other w_this].
    rewrite (read_at pre f suf D xpre x xs LX), (read_at pre f suf D ypre y ys LY). cbn [bind].
    rewrite (write_at pre f suf D xpre x xs _ LX). cbn [bind with_this other_of w_other w_this].
    rewrite (write_at pre f suf D ypre y ys _ LY). reflexivity.
  Qed.

  Lemma object_moved : forall (b : bool) m em oem, m_shape f = One (Mess m) ->
    do_statements sch (pre ++ f :: suf) fns false rec_eq rec_assign rec_move (if b then move_assign_message_field f else move_message_field f)
      (mkWorld (xpre ++ x :: xs) (ypre ++ y :: ys) em oem)
    = '(x', y') <- move_field sch h fuel rec (fty_of (m_shape f)) x y ;;
      Ok (mkWorld (xpre ++ x' :: xs) (ypre ++ y' :: ys)
           (em ++ sigs (b && differ sch (eq_obj fuel sch h) (m_shape f) x y))%list
           (oem ++ sigs (b && differ sch (eq_obj fuel sch h) (m_shape f) x y))%list).
  Proof.
    intros b m em oem E. unfold move_assign_message_field, move_message_field, do_statements, do_statement.
    transitivity (w' <- do_statement sch (pre ++ f :: suf) fns false rec_eq rec_assign rec_move
        (IfDifferent (variable_name f) (MoveObject (variable_name f) :: if b then [Emit (signal_name f); EmitOther (signal_name f)] else []))
        (mkWorld (xpre ++ x :: xs) (ypre ++ y :: ys) em oem) ;; Ok w').
    { destruct b; reflexivity. }
    unfold do_statement. cbn [other_of w_other w_this].
    rewrite (read_at pre f suf D xpre x xs LX), (read_at pre f suf D ypre y ys LY). cbn [bind].
    unfold same_variables at 1. rewrite (type_at pre f suf D). rewrite E in DX, DY |- *. cbn [fty_of elty_of move_field differ] in DX, DY |- *.
    unfold move_message. rewrite (lazy_agree sch h rec_eq (eq_obj fuel sch h) RE m x y v w DX DY).
    destruct (lazy_eq sch (eq_obj fuel sch h) m (own_of x) (own_of y)) as [[|] | | |]; cbn [bind]; try reflexivity.
    + rewrite !andb_false_r, !app_nil_r. inversion DX; subst; inversion DY; subst; reflexivity.
    + cbn [do_simples]. unfold do_simple at 1. cbn [w_this other_of w_other].
      rewrite (read_at pre f suf D xpre x xs LX), (read_at pre f suf D ypre y ys LY). cbn [bind].
      rewrite (type_at pre f suf D), E. cbn [fty_of elty_of].
      destruct (deref_denoted sch h m x v DX) as (vs & X), (deref_denoted sch h m y w DY) as (ws & Y).
      rewrite (RM m _ _ vs ws X Y).
      destruct (rec m (deref sch m (own_of x)) (deref sch m (own_of y))) as [[o o'] | | |]; cbn [bind]; try reflexivity.
      rewrite (write_at pre f suf D xpre x xs (MOwn (Some o)) LX). cbn [bind with_this other_of w_other w_this].
      rewrite (write_at pre f suf D ypre y ys (MOwn (Some o')) LY). destruct b; cbn; rewrite ?app_nil_r; reflexivity.
  Qed.

  Lemma move_one : forall em oem,
    do_statements sch (pre ++ f :: suf) fns false rec_eq rec_assign rec_move (move_assign_one f)
      (mkWorld (xpre ++ x :: xs) (ypre ++ y :: ys) em oem)
    = '(x', y') <- move_field sch h fuel rec (fty_of (m_shape f)) x y ;;
      Ok (mkWorld (xpre ++ x' :: xs) (ypre ++ y' :: ys)
           (em ++ sigs (target_emits sch (eq_obj fuel sch h) f x y))%list
           (oem ++ sigs (source_emits sch (eq_obj fuel sch h) f x y))%list).
  Proof.
    intros em oem. unfold move_assign_one, target_emits, source_emits.
    pose proof (object_moved true) as OM. pose proof whole_moved as WM. pose proof number_moved as NM. pose proof enum_moved as EM.
    cbn [andb] in OM. clear FS RM RE DX DY. unfold supported in S.
    destruct (m_shape f) as [[t | m | e | q] | [t | m | e | q] | k [t | m | e | q]] eqn:E; cbn [known_element] in S;
      try match type of S with False => destruct S | _ /\ False => destruct S as [_ []] end.
    - destruct S as [S1 S2]. destruct t; try (destruct S1; reflexivity); try (destruct S2; reflexivity);
        cbn [moved_as_whole message_type text_type is_repeated orb pure_message is_enum_type];
        first [ rewrite (NM _ eq_refl eq_refl); reflexivity
              | rewrite (WM eq_refl); cbn [fty_of elty_of sty_of move_field Values.is_blob differ];
                match goal with |- (if ?c then _ else _) = _ => destruct c end; cbn; rewrite ?app_nil_r; reflexivity ].
    - cbn [moved_as_whole message_type orb pure_message]. rewrite (OM m em oem eq_refl). reflexivity.
    - cbn [moved_as_whole message_type text_type is_repeated orb is_enum_type]. rewrite EM, !app_nil_r. reflexivity.
    - replace (moved_as_whole (Many (Simple t))) with true by (destruct t; reflexivity). cbn [pure_message]. rewrite (WM eq_refl).
      cbn [fty_of elty_of move_field differ]. match goal with |- (if ?c then _ else _) = _ => destruct c end; cbn; rewrite ?app_nil_r; reflexivity.
    - cbn [moved_as_whole message_type orb pure_message]. rewrite (WM eq_refl).
      cbn [fty_of elty_of move_field differ]. match goal with |- (if ?c then _ else _) = _ => destruct c end; cbn; rewrite ?app_nil_r; reflexivity.
    - cbn [moved_as_whole message_type text_type is_repeated orb pure_message]. rewrite (WM eq_refl).
      cbn [fty_of elty_of move_field differ]. match goal with |- (if ?c then _ else _) = _ => destruct c end; cbn; rewrite ?app_nil_r; reflexivity.
    - cbn [moved_as_whole message_type orb pure_message]. rewrite (WM eq_refl).
      cbn [fty_of elty_of move_field differ]. match goal with |- (if ?c then _ else _) = _ => destruct c end; cbn; rewrite ?app_nil_r; reflexivity.
    - cbn [moved_as_whole message_type orb pure_message]. rewrite (WM eq_refl).
      cbn [fty_of elty_of move_field differ]. match goal with |- (if ?c then _ else _) = _ => destruct c end; cbn; rewrite ?app_nil_r; reflexivity.
    - cbn [moved_as_whole message_type orb pure_message]. rewrite (WM eq_refl).
      cbn [fty_of elty_of move_field differ]. match goal with |- (if ?c then _ else _) = _ => destruct c end; cbn; rewrite ?app_nil_r; reflexivity.
  Qed.
End Move.

Section MoveLoop.
  Context (sch : Values.schema) (h : heap) (fns : list (func * body)) (fuel : nat).
  Context (rec_eq : nat -> list mem -> list mem -> res bool).
  Context (rec_assign : bool -> nat -> list mem -> list mem -> res (list mem)).
  Context (rec_move : bool -> nat -> list mem -> list mem -> res (list mem * list mem)).
  Context (RE : forall m xs ys vs ws, denotes sch h m xs vs -> denotes sch h m ys ws -> rec_eq m xs ys = eq_obj fuel sch h m xs ys).

  Lemma move_all : forall rec,
    (forall m xs ys vs ws, denotes sch h m xs vs -> denotes sch h m ys ws -> rec_move false m xs ys = rec m xs ys) ->
    forall suf pre xpre xs ypre ys vs ws em oem, distinct (pre ++ suf) -> Forall supported suf -> setters_found fns suf ->
    List.length xpre = List.length pre -> List.length ypre = List.length pre ->
    den_fields sch h (map descriptor suf) xs vs -> den_fields sch h (map descriptor suf) ys ws ->
    do_statements sch (pre ++ suf) fns false rec_eq rec_assign rec_move (flat_map move_assign_one suf)
      (mkWorld (xpre ++ xs) (ypre ++ ys) em oem)
    = '(xs', ys') <- move_fields sch h fuel rec (map descriptor suf) xs ys ;;
      Ok (mkWorld (xpre ++ xs') (ypre ++ ys')
            (em ++ signals_of (target_emits sch (eq_obj fuel sch h)) suf xs ys)
            (oem ++ signals_of (source_emits sch (eq_obj fuel sch h)) suf xs ys)).
  Proof.
    intros rec RM. induction suf as [| f suf IH]; intros pre xpre xs ypre ys vs ws em oem D S FS LX LY DX DY; cbn [flat_map].
    - cbn [do_statements map move_fields bind signals_of]. now rewrite !app_nil_r.
    - cbn [map] in DX, DY. inversion DX as [| ? ? x xs1 v vs1 DX1 DX2]; subst. inversion DY as [| ? ? y ys1 w ws1 DY1 DY2]; subst.
      inversion S as [| ? ? S1 S2]; subst. change (Values.f_ty (descriptor f)) with (fty_of (m_shape f)) in DX1, DY1.
      rewrite do_app, (move_one sch h fns fuel rec_eq rec_assign rec_move rec RE RM pre f suf D S1 (FS f (or_introl eq_refl)) xpre x xs1 ypre y ys1 LX LY v w DX1 DY1).
      cbn [map move_fields signals_of]. change (Values.f_ty (descriptor f)) with (fty_of (m_shape f)).
      destruct (move_field sch h fuel rec (fty_of (m_shape f)) x y) as [[x' y'] | | |]; cbn [bind]; try reflexivity.
      rewrite (snoc_app pre f suf) in *. rewrite (snoc_app xpre x' xs1), (snoc_app ypre y' ys1).
      rewrite (IH (pre ++ [f])%list (xpre ++ [x'])%list xs1 (ypre ++ [y'])%list ys1 vs1 ws1);
        try assumption; try (rewrite !app_length; cbn [List.length]; lia); [| intros g G; apply FS; now right].
      destruct (move_fields sch h fuel rec (map descriptor suf) xs1 ys1) as [[xs2 ys2] | | |]; cbn [bind]; try reflexivity.
      rewrite <- !app_assoc. reflexivity.
  Qed.

  Context (RM : forall m xs ys vs ws, denotes sch h m xs vs -> denotes sch h m ys ws -> rec_move false m xs ys = move_assign fuel sch h m xs ys).

  Lemma construct_one : forall pre f suf, distinct (pre ++ f :: suf) -> supported f ->
    (pure_message (m_shape f) = false -> find_setter fns (setter_name f) = Some (Stores (variable_name f) (signal_name f))) ->
    forall xpre x xs ypre y ys, List.length xpre = List.length pre -> List.length ypre = List.length pre ->
    forall v w, den_field sch h (fty_of (m_shape f)) x v -> den_field sch h (fty_of (m_shape f)) y w ->
    forall em oem, exists em' oem',
    do_statements sch (pre ++ f :: suf) fns false rec_eq rec_assign rec_move (move_construct_one f)
      (mkWorld (xpre ++ x :: xs) (ypre ++ y :: ys) em oem)
    = '(x', y') <- move_construct_field fuel sch h (fty_of (m_shape f)) x y ;;
      Ok (mkWorld (xpre ++ x' :: xs) (ypre ++ y' :: ys) em' oem').
  Proof.
    intros pre f suf D S FS xpre x xs ypre y ys LX LY v w DX DY em oem.
    pose proof (move_one sch h fns fuel rec_eq rec_assign rec_move (move_assign fuel sch h) RE RM pre f suf D S FS xpre x xs ypre y ys LX LY v w DX DY em oem) as MO.
    pose proof (object_moved sch h fns fuel rec_eq rec_assign rec_move (move_assign fuel sch h) RE RM pre f suf D xpre x xs ypre y ys LX LY v w DX DY false) as OM.
    pose proof (whole_moved_constructor sch fns rec_eq rec_assign rec_move pre f suf D xpre x xs ypre y ys LX LY em oem) as WM.
    unfold move_assign_one, move_construct_one, supported in *. clear DX DY FS.
    destruct (m_shape f) as [[t | m | e | q] | [t | m | e | q] | k [t | m | e | q]] eqn:E; cbn [known_element] in S;
      try match type of S with False => destruct S | _ /\ False => destruct S as [_ []] end.
    - destruct S as [S1 S2]. destruct t; try (destruct S1; reflexivity); try (destruct S2; reflexivity);
        cbn [moved_as_whole message_type text_type is_repeated orb pure_message is_enum_type fty_of elty_of sty_of move_construct_field Values.is_blob] in *;
        first [do 2 eexists; exact MO | do 2 eexists; rewrite WM; reflexivity].
    - cbn [moved_as_whole message_type orb pure_message] in *. do 2 eexists. rewrite (OM m em oem eq_refl). reflexivity.
    - cbn [moved_as_whole message_type text_type is_repeated orb is_enum_type fty_of elty_of move_construct_field] in *. do 2 eexists. exact MO.
    - replace (moved_as_whole (Many (Simple t))) with true by (destruct t; reflexivity). cbn [pure_message]. do 2 eexists. rewrite WM. reflexivity.
    - do 2 eexists. cbn [moved_as_whole message_type orb pure_message]. rewrite WM. reflexivity.
    - do 2 eexists. cbn [moved_as_whole message_type text_type is_repeated orb pure_message]. rewrite WM. reflexivity.
    - do 2 eexists. cbn [moved_as_whole message_type orb pure_message]. rewrite WM. reflexivity.
    - do 2 eexists. cbn [moved_as_whole message_type orb pure_message]. rewrite WM. reflexivity.
    - do 2 eexists. cbn [moved_as_whole message_type orb pure_message]. rewrite WM. reflexivity.
  Qed.

  Lemma construct_all : forall suf pre xpre xs ypre ys vs ws em oem, distinct (pre ++ suf) -> Forall supported suf -> setters_found fns suf ->
    List.length xpre = List.length pre -> List.length ypre = List.length pre ->
    den_fields sch h (map descriptor suf) xs vs -> den_fields sch h (map descriptor suf) ys ws ->
    (w <- do_statements sch (pre ++ suf) fns false rec_eq rec_assign rec_move (flat_map move_construct_one suf)
      (mkWorld (xpre ++ xs) (ypre ++ ys) em oem) ;; Ok (w_this w, w_other w))
    = '(xs', ys') <- move_construct_fields fuel sch h (map descriptor suf) xs ys ;; Ok (xpre ++ xs', ypre ++ ys')%list.
  Proof.
    induction suf as [| f suf IH]; intros pre xpre xs ypre ys vs ws em oem D S FS LX LY DX DY; cbn [flat_map].
    - reflexivity.
    - cbn [map] in DX, DY. inversion DX as [| ? ? x xs1 v vs1 DX1 DX2]; subst. inversion DY as [| ? ? y ys1 w ws1 DY1 DY2]; subst.
      inversion S as [| ? ? S1 S2]; subst. change (Values.f_ty (descriptor f)) with (fty_of (m_shape f)) in DX1, DY1.
      destruct (construct_one pre f suf D S1 (FS f (or_introl eq_refl)) xpre x xs1 ypre y ys1 LX LY v w DX1 DY1 em oem) as (em' & oem' & CO).
      rewrite do_app, CO. cbn [map move_construct_fields]. change (Values.f_ty (descriptor f)) with (fty_of (m_shape f)).
      destruct (move_construct_field fuel sch h (fty_of (m_shape f)) x y) as [[x' y'] | | |]; cbn [bind]; try reflexivity.
      rewrite (snoc_app pre f suf) in *. rewrite (snoc_app xpre x' xs1), (snoc_app ypre y' ys1).
      rewrite (IH (pre ++ [f])%list (xpre ++ [x'])%list xs1 (ypre ++ [y'])%list ys1 vs1 ws1 em' oem');
        try assumption; try (rewrite !app_length; cbn [List.length]; lia); [| intros g G; apply FS; now right].
      destruct (move_construct_fields fuel sch h (map descriptor suf) xs1 ys1) as [[xs2 ys2] | | |]; cbn [bind]; try reflexivity.
      rewrite <- !app_assoc. reflexivity.
  Qed.
End MoveLoop.

Section Classes.
  Context (classes : nat -> message) (names : nat -> string) (qml field_numbers : bool) (sch : Values.schema) (h : heap)
    (DS : describes sch classes).

  Theorem move_agrees : forall fuel m xs ys vs ws, denotes sch h m xs vs -> denotes sch h m ys ws ->
    run_move classes names qml field_numbers sch h fuel false m xs ys
    = '(xs', ys') <- move_assign fuel sch h m xs ys ;;
      Ok (mkWorld xs' ys' (signals_of (target_emits sch (eq_obj (pred fuel) sch h)) (g_fields (classes m)) xs ys)
                          (signals_of (source_emits sch (eq_obj (pred fuel) sch h)) (g_fields (classes m)) xs ys)).
  Proof.
    induction fuel as [| n IH]; intros m xs ys vs ws DX DY; [reflexivity |]. cbn [run_move move_assign pred].
    inversion DX as [? ? ? FX]; subst. inversion DY as [? ? ? FY]; subst. rewrite (fields_described _ _ DS) in *.
    change (move_assignment_body (classes m)) with (flat_map move_assign_one (g_fields (classes m))). unfold fields_of.
    refine (move_all sch h (functions_of classes names qml field_numbers m) n (run_equal classes sch h n) _ _
      (equal_agrees classes sch h DS n) (move_assign n sch h) _ (g_fields (classes m)) [] [] xs [] ys vs ws [] []
      (proj1 (proj2 DS m)) (proj2 (proj2 DS m)) (found classes names qml field_numbers sch DS m) eq_refl eq_refl FX FY).
    intros m' xs' ys' vs' ws' X Y. rewrite (IH m' xs' ys' vs' ws' X Y), bind_assoc.
    destruct (move_assign n sch h m' xs' ys') as [[a b] | | |]; reflexivity.
  Qed.

  Theorem move_construct_agrees : forall fuel junk m ys ws, denotes sch h m ys ws ->
    run_move_constructor classes names qml field_numbers sch h fuel junk m ys = move_construct fuel sch h junk m ys.
  Proof.
    intros fuel junk m ys ws DY. unfold run_move_constructor, move_construct.
    inversion DY as [? ? ? FY]; subst. rewrite (fields_described _ _ DS) in *.
    change (move_constructor_body (classes m)) with (flat_map move_construct_one (g_fields (classes m))). unfold fields_of, copy_initializers.
    rewrite initial_raw by exact (proj2 (proj2 DS m)).
    destruct (raw_denoted sch h junk (map descriptor (g_fields (classes m))) 0) as (vs & R).
    etransitivity;
      [refine (construct_all sch h (functions_of classes names qml field_numbers m) fuel (run_equal classes sch h fuel) _ _
      (equal_agrees classes sch h DS fuel) _ (g_fields (classes m)) [] [] _ [] ys vs ws [] []
      (proj1 (proj2 DS m)) (proj2 (proj2 DS m)) (found classes names qml field_numbers sch DS m) eq_refl eq_refl R FY) |].
    - intros m' xs' ys' vs' ws' X Y. rewrite (move_agrees fuel m' xs' ys' vs' ws' X Y), bind_assoc.
      destruct (move_assign fuel sch h m' xs' ys') as [[a b] | | |]; reflexivity.
    - destruct (move_construct_fields fuel sch h (map descriptor (g_fields (classes m))) _ ys) as [[a b] | | |]; reflexivity.
  Qed.
End Classes.

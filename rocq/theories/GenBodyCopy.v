(** Proofs about printed bodies: assignment and copy constructor. *)

From Coq Require Import String Ascii ZArith List Bool Arith Lia.
From Verif Require Values.
From Verif Require Import Base MessageSpec ObjectModel ObjectSpec ObjectProofs ObjectFacts.
From Verif Require Import GenModel GenSpec GenStrings GenTypesModel GenClassModel GenClassSpec GenClassProofs GenClassMembers GenClassBodies
  GenBodyModel GenBodySpec GenBodyProofs.
Import ListNotations.
Local Close Scope Z_scope.
Open Scope string_scope.

Lemma bind_assoc : forall {A B C : Type} (a : res A) (f : A -> res B) (g : B -> res C),
  (y <- (x <- a ;; f x) ;; g y) = (x <- a ;; y <- f x ;; g y).
Proof. intros A B C [] f g; reflexivity. Qed.

Lemma bind_ext : forall {A B : Type} (a : res A) (f g : A -> res B), (forall x, a = Ok x -> f x = g x) -> (x <- a ;; f x) = (x <- a ;; g x).
Proof. intros A B [] f g H; cbn; auto. Qed.

Lemma pure_shape : forall f, pure_message (m_shape f) = true -> exists m, m_shape f = One (Mess m).
Proof. intros f P. destruct (m_shape f) as [[t | m | e | q] | e | k e]; try discriminate P. eauto. Qed.

Lemma bool_cases : forall b : bool, b = true \/ b = false.
Proof. intros []; auto. Qed.

Section Assign.
  Context (sch : Values.schema) (h : heap) (fns : list (func * body)) (fuel : nat).
  Context (rec_eq : nat -> list mem -> list mem -> res bool).
  Context (rec_assign : bool -> nat -> list mem -> list mem -> res (list mem)).
  Context (rec_move : bool -> nat -> list mem -> list mem -> res (list mem * list mem)).
  Context (rec : nat -> list mem -> list mem -> res (list mem * list nat)).
  Context (RE : forall m xs ys vs ws, denotes sch h m xs vs -> denotes sch h m ys ws -> rec_eq m xs ys = eq_obj fuel sch h m xs ys).
  Context (RA : forall m xs ys vs ws, denotes sch h m xs vs -> denotes sch h m ys ws ->
                rec_assign false m xs ys = ('(l, _) <- rec m xs ys ;; Ok l)).

  Lemma deref_denoted : forall m x v, den_field sch h (Values.FSing (Values.EM m)) x v -> exists vs, denotes sch h m (deref sch m (own_of x)) vs.
  Proof.
    intros m x v D. destruct (den_own_inv _ _ _ _ _ D) as [-> | (o & vs & -> & O)]; cbn [own_of deref]; [eexists; apply den_default | eauto].
  Qed.

  Context (pre : list mfield) (f : mfield) (suf : list mfield) (D : distinct (pre ++ f :: suf)) (S : supported f).
  Context (FS : pure_message (m_shape f) = false -> find_setter fns (setter_name f) = Some (Stores (variable_name f) (signal_name f))).
  Context (xpre : list mem) (x : mem) (xs : list mem) (ypre : list mem) (y : mem) (ys : list mem).
  Context (LX : List.length xpre = List.length pre) (LY : List.length ypre = List.length pre).

  (** Fields that are no messages. *)
  Lemma plain_type : pure_message (m_shape f) = false -> forall a b,
    same_variables sch (pre ++ f :: suf) rec_eq (variable_name f) a b = Ok (mem_eqb (fty_of (m_shape f)) a b).
  Proof.
    intros P a b. unfold same_variables. rewrite (type_at pre f suf D).
    destruct (m_shape f) as [[t | m | e | q] | e | k e]; try discriminate P; reflexivity.
  Qed.

  Lemma setter_effect : pure_message (m_shape f) = false -> forall new other em oem,
    call_setter sch (pre ++ f :: suf) fns rec_eq (setter_name f) new (mkWorld (xpre ++ x :: xs) other em oem)
    = let '(x', s) := set_plain (fty_of (m_shape f)) x new in
      Ok (mkWorld (xpre ++ x' :: xs) other (em ++ if s : bool then [signal_name f] else [])%list oem).
  Proof.
    intros P new other em oem. unfold call_setter. rewrite (FS P). cbn [w_this]. rewrite (read_at pre f suf D xpre x xs LX). cbn [bind].
    rewrite (plain_type P). cbn [bind]. unfold set_plain. destruct (mem_eqb (fty_of (m_shape f)) x new).
    - now rewrite app_nil_r.
    - rewrite (write_at pre f suf D xpre x xs new LX). reflexivity.
  Qed.

  Context (v w : Values.value) (DX : den_field sch h (fty_of (m_shape f)) x v) (DY : den_field sch h (fty_of (m_shape f)) y w).

  Lemma assign_one : forall em oem,
    do_statement sch (pre ++ f :: suf) fns false rec_eq rec_assign rec_move
      (if pure_message (m_shape f) then assign_complex_field f else copy_field f)
      (mkWorld (xpre ++ x :: xs) (ypre ++ y :: ys) em oem)
    = '(x', s) <- assign_field sch h fuel rec (fty_of (m_shape f)) x y ;;
      Ok (mkWorld (xpre ++ x' :: xs) (ypre ++ y :: ys) (em ++ if s : bool then [signal_name f] else [])%list oem).
  Proof.
    intros em oem. destruct (bool_cases (pure_message (m_shape f))) as [P | P]; rewrite P.
    - destruct (pure_shape f P) as (m & E). unfold assign_complex_field, do_statement. cbn [w_this other_of w_other].
      rewrite (read_at pre f suf D xpre x xs LX), (read_at pre f suf D ypre y ys LY). cbn [bind].
      unfold same_variables at 1. rewrite (type_at pre f suf D). rewrite E in DX, DY |- *. cbn [fty_of elty_of assign_field] in DX, DY |- *. unfold assign_message.
      rewrite (lazy_agree sch h rec_eq (eq_obj fuel sch h) RE m x y v w DX DY).
      destruct (lazy_eq sch (eq_obj fuel sch h) m (own_of x) (own_of y)) as [[|] | | |]; cbn [bind]; try reflexivity.
      + rewrite app_nil_r. inversion DX; subst; reflexivity.
      + unfold do_simples, do_simple. cbn [w_this other_of w_other].
        rewrite (read_at pre f suf D xpre x xs LX), (read_at pre f suf D ypre y ys LY). cbn [bind].
        rewrite (type_at pre f suf D), E. cbn [fty_of elty_of].
        destruct (deref_denoted m x v DX) as (vs & X), (deref_denoted m y w DY) as (ws & Y).
        rewrite (RA m _ _ vs ws X Y).
        destruct (rec m (deref sch m (own_of x)) (deref sch m (own_of y))) as [[o sg] | | |]; cbn [bind]; try reflexivity.
        rewrite (write_at pre f suf D xpre x xs (MOwn (Some o)) LX). reflexivity.
    - unfold copy_field, do_statement, do_simple. cbn [w_this other_of w_other]. rewrite (read_at pre f suf D ypre y ys LY). cbn [bind].
      rewrite (setter_effect P). 
      replace (assign_field sch h fuel rec (fty_of (m_shape f)) x y) with (Ok (set_plain (fty_of (m_shape f)) x y))
        by (destruct (m_shape f) as [[t | m | e | q] | e | k e]; try discriminate P; reflexivity).
      cbn [bind]. destruct (set_plain (fty_of (m_shape f)) x y). reflexivity.
  Qed.

  Lemma copy_one : forall em oem, exists em',
    do_statement sch (pre ++ f :: suf) fns false rec_eq rec_assign rec_move
      (if pure_message (m_shape f) then copy_complex_field f else copy_field f)
      (mkWorld (xpre ++ x :: xs) (ypre ++ y :: ys) em oem)
    = '(x', s) <- assign_field sch h fuel rec (fty_of (m_shape f)) x y ;;
      Ok (mkWorld (xpre ++ x' :: xs) (ypre ++ y :: ys) em' oem).
  Proof.
    intros em oem. destruct (bool_cases (pure_message (m_shape f))) as [P | P]; rewrite P.
    - exists em. destruct (pure_shape f P) as (m & E). unfold copy_complex_field, do_statement. cbn [w_this other_of w_other].
      rewrite (read_at pre f suf D xpre x xs LX), (read_at pre f suf D ypre y ys LY). cbn [bind].
      unfold same_variables at 1. rewrite (type_at pre f suf D). rewrite E in DX, DY |- *. cbn [fty_of elty_of assign_field] in DX, DY |- *. unfold assign_message.
      rewrite (lazy_agree sch h rec_eq (eq_obj fuel sch h) RE m x y v w DX DY).
      destruct (lazy_eq sch (eq_obj fuel sch h) m (own_of x) (own_of y)) as [[|] | | |]; cbn [bind]; try reflexivity.
      + inversion DX; subst; reflexivity.
      + unfold do_simples, do_simple. cbn [w_this other_of w_other].
        rewrite (read_at pre f suf D xpre x xs LX), (read_at pre f suf D ypre y ys LY). cbn [bind].
        rewrite (type_at pre f suf D), E. cbn [fty_of elty_of].
        destruct (deref_denoted m x v DX) as (vs & X), (deref_denoted m y w DY) as (ws & Y).
        rewrite (RA m _ _ vs ws X Y).
        destruct (rec m (deref sch m (own_of x)) (deref sch m (own_of y))) as [[o sg] | | |]; cbn [bind]; try reflexivity.
        rewrite (write_at pre f suf D xpre x xs (MOwn (Some o)) LX). reflexivity.
    - exists (em ++ if snd (set_plain (fty_of (m_shape f)) x y) then [signal_name f] else [])%list.
      unfold copy_field, do_statement, do_simple. cbn [w_this other_of w_other]. rewrite (read_at pre f suf D ypre y ys LY). cbn [bind].
      rewrite (setter_effect P). 
      replace (assign_field sch h fuel rec (fty_of (m_shape f)) x y) with (Ok (set_plain (fty_of (m_shape f)) x y))
        by (destruct (m_shape f) as [[t | m | e | q] | e | k e]; try discriminate P; reflexivity).
      cbn [bind]. destruct (set_plain (fty_of (m_shape f)) x y). reflexivity.
  Qed.
End Assign.

(** The signal of the field at this position. *)
Definition signal_at (fs : list mfield) (i : nat) : string := match nth_error fs i with Some f => signal_name f | None => "" end.

Definition setters_found (fns : list (func * body)) (fs : list mfield) : Prop :=
  forall f, In f fs -> pure_message (m_shape f) = false -> find_setter fns (setter_name f) = Some (Stores (variable_name f) (signal_name f)).

Section Loop.
  Context (sch : Values.schema) (h : heap) (fns : list (func * body)) (fuel : nat).
  Context (rec_eq : nat -> list mem -> list mem -> res bool).
  Context (rec_assign : bool -> nat -> list mem -> list mem -> res (list mem)).
  Context (rec_move : bool -> nat -> list mem -> list mem -> res (list mem * list mem)).
  Context (rec : nat -> list mem -> list mem -> res (list mem * list nat)).
  Context (RE : forall m xs ys vs ws, denotes sch h m xs vs -> denotes sch h m ys ws -> rec_eq m xs ys = eq_obj fuel sch h m xs ys).
  Context (RA : forall m xs ys vs ws, denotes sch h m xs vs -> denotes sch h m ys ws ->
                rec_assign false m xs ys = ('(l, _) <- rec m xs ys ;; Ok l)).

  Lemma snoc_app : forall {A : Type} (a : list A) b c, (a ++ b :: c = (a ++ [b]) ++ c)%list.
  Proof. intros A a b c. rewrite <- app_assoc. reflexivity. Qed.

  Lemma assign_all : forall suf pre xpre xs ypre ys vs ws em oem, distinct (pre ++ suf) -> Forall supported suf -> setters_found fns suf ->
    List.length xpre = List.length pre -> List.length ypre = List.length pre ->
    den_fields sch h (map descriptor suf) xs vs -> den_fields sch h (map descriptor suf) ys ws ->
    do_statements sch (pre ++ suf) fns false rec_eq rec_assign rec_move
      (map (fun f => if pure_message (m_shape f) then assign_complex_field f else copy_field f) suf)
      (mkWorld (xpre ++ xs) (ypre ++ ys) em oem)
    = '(xs', sigs) <- assign_fields sch h fuel rec (List.length pre) (map descriptor suf) xs ys ;;
      Ok (mkWorld (xpre ++ xs') (ypre ++ ys) (em ++ map (signal_at (pre ++ suf)) sigs) oem).
  Proof.
    induction suf as [| f suf IH]; intros pre xpre xs ypre ys vs ws em oem D S FS LX LY DX DY; cbn [map do_statements].
    - inversion DX; subst. cbn [assign_fields bind map]. now rewrite !app_nil_r.
    - cbn [map] in DX, DY. inversion DX as [| ? ? x xs1 v vs1 DX1 DX2]; subst. inversion DY as [| ? ? y ys1 w ws1 DY1 DY2]; subst.
      inversion S as [| ? ? S1 S2]; subst. change (Values.f_ty (descriptor f)) with (fty_of (m_shape f)) in DX1, DY1.
      rewrite (assign_one sch h fns fuel rec_eq rec_assign rec_move rec RE RA pre f suf D (FS f (or_introl eq_refl)) xpre x xs1 ypre y ys1 LX LY v w DX1 DY1).
      cbn [assign_fields]. change (Values.f_ty (descriptor f)) with (fty_of (m_shape f)).
      destruct (assign_field sch h fuel rec (fty_of (m_shape f)) x y) as [[x' s] | | |]; cbn [bind]; try reflexivity.
      rewrite (snoc_app pre f suf) in *. rewrite (snoc_app xpre x' xs1), (snoc_app ypre y ys1).
      rewrite (IH (pre ++ [f])%list (xpre ++ [x'])%list xs1 (ypre ++ [y])%list ys1 vs1 ws1);
        try assumption; try (rewrite !app_length; cbn [List.length]; lia); [| intros g G; apply FS; now right].
      rewrite app_length. cbn [List.length]. rewrite Nat.add_1_r.
      destruct (assign_fields sch h fuel rec (Datatypes.S (List.length pre)) (map descriptor suf) xs1 ys1) as [[xs2 sigs] | | |]; cbn [bind]; try reflexivity.
      rewrite <- !app_assoc. cbn [app]. do 2 f_equal. f_equal. destruct s; [| reflexivity]. cbn [map app]. f_equal.
      unfold signal_at. rewrite nth_error_app2, Nat.sub_diag by lia. reflexivity.
  Qed.

  Lemma copy_all : forall suf pre xpre xs ypre ys vs ws em oem, distinct (pre ++ suf) -> Forall supported suf -> setters_found fns suf ->
    List.length xpre = List.length pre -> List.length ypre = List.length pre ->
    den_fields sch h (map descriptor suf) xs vs -> den_fields sch h (map descriptor suf) ys ws -> forall i,
    (w <- do_statements sch (pre ++ suf) fns false rec_eq rec_assign rec_move
      (map (fun f => if pure_message (m_shape f) then copy_complex_field f else copy_field f) suf)
      (mkWorld (xpre ++ xs) (ypre ++ ys) em oem) ;; Ok (w_this w))
    = '(xs', sigs) <- assign_fields sch h fuel rec i (map descriptor suf) xs ys ;; Ok (xpre ++ xs')%list.
  Proof.
    induction suf as [| f suf IH]; intros pre xpre xs ypre ys vs ws em oem D S FS LX LY DX DY i; cbn [map do_statements].
    - reflexivity.
    - cbn [map] in DX, DY. inversion DX as [| ? ? x xs1 v vs1 DX1 DX2]; subst. inversion DY as [| ? ? y ys1 w ws1 DY1 DY2]; subst.
      inversion S as [| ? ? S1 S2]; subst. change (Values.f_ty (descriptor f)) with (fty_of (m_shape f)) in DX1, DY1.
      destruct (copy_one sch h fns fuel rec_eq rec_assign rec_move rec RE RA pre f suf D (FS f (or_introl eq_refl)) xpre x xs1 ypre y ys1 LX LY v w DX1 DY1 em oem)
        as (em' & ->).
      cbn [assign_fields]. change (Values.f_ty (descriptor f)) with (fty_of (m_shape f)).
      destruct (assign_field sch h fuel rec (fty_of (m_shape f)) x y) as [[x' s] | | |]; cbn [bind]; try reflexivity.
      rewrite (snoc_app pre f suf) in *. rewrite (snoc_app xpre x' xs1), (snoc_app ypre y ys1).
      rewrite (IH (pre ++ [f])%list (xpre ++ [x'])%list xs1 (ypre ++ [y])%list ys1 vs1 ws1 em' oem) with (i := Datatypes.S i);
        try assumption; try (rewrite !app_length; cbn [List.length]; lia); [| intros g G; apply FS; now right].
      destruct (assign_fields sch h fuel rec (Datatypes.S i) (map descriptor suf) xs1 ys1) as [[xs2 sigs] | | |]; cbn [bind]; try reflexivity.
      rewrite <- !app_assoc. reflexivity.
  Qed.
End Loop.

Section Classes.
  Context (classes : nat -> message) (names : nat -> string) (qml field_numbers : bool) (sch : Values.schema) (h : heap)
    (DS : describes sch classes).

  Lemma found : forall m, setters_found (functions_of classes names qml field_numbers m) (g_fields (classes m)).
  Proof.
    intros m f F P. unfold functions_of. rewrite (setter_found qml field_numbers (names m) (classes m) f (proj1 (proj2 DS m)) F), P. reflexivity.
  Qed.

  Theorem assign_agrees : forall fuel m xs ys vs ws, denotes sch h m xs vs -> denotes sch h m ys ws ->
    run_assign classes names qml field_numbers sch h fuel false m xs ys
    = '(xs', sigs) <- assign fuel sch h m xs ys ;; Ok (xs', map (signal_at (g_fields (classes m))) sigs).
  Proof.
    induction fuel as [| n IH]; intros m xs ys vs ws DX DY; [reflexivity |]. cbn [run_assign assign].
    inversion DX as [? ? ? FX]; subst. inversion DY as [? ? ? FY]; subst. rewrite (fields_described _ _ DS) in *. unfold assignment_body, fields_of.
    pose proof (assign_all sch h (functions_of classes names qml field_numbers m) n (run_equal classes sch h n)
      (fun s m xs ys => '(l, _) <- run_assign classes names qml field_numbers sch h n s m xs ys ;; Ok l) (fun _ _ _ _ => UB TypeConfusion)
      (assign n sch h) (equal_agrees classes sch h DS n)) as L.
    rewrite <- (app_nil_l xs) at 1. rewrite <- (app_nil_l ys) at 1.
    rewrite <- (app_nil_l (g_fields (classes m))) at 1.
    rewrite (L) with (vs := vs) (ws := ws); try reflexivity; try assumption.
    - cbn [List.length]. rewrite bind_assoc. apply bind_ext. intros [xs' sigs] _. reflexivity.
    - intros m' xs' ys' vs' ws' X Y. rewrite (IH m' xs' ys' vs' ws' X Y), bind_assoc. apply bind_ext. intros [] _. reflexivity.
    - exact (proj1 (proj2 DS m)).
    - exact (proj2 (proj2 DS m)).
    - apply found.
  Qed.

  Lemma initial_raw : forall junk fs i, Forall supported fs ->
    initial_members junk i fs (map (fun f => if pure_message (m_shape f) then INull else INone) fs) = raw_mems junk i (map descriptor fs).
  Proof.
    intros junk. induction fs as [| f fs IH]; intros i S; [reflexivity |]. inversion S as [| ? ? S1 S2]; subst.
    cbn [map initial_members raw_mems]. rewrite (IH _ S2). f_equal. unfold initial, descriptor, supported in *. cbn [Values.f_ty].
    destruct (m_shape f) as [[t | m | e | q] | [t | m | e | q] | k [t | m | e | q]]; cbn in *; try (destruct t); try reflexivity; try (destruct S1; congruence).
  Qed.

  Lemma raw_denoted : forall junk fs i, exists vs, den_fields sch h fs (raw_mems junk i fs) vs.
  Proof.
    intros junk. induction fs as [| f fs IH]; intros i; [exists []; constructor |]. destruct (IH (S i)) as (vs & R).
    cbn [raw_mems]. destruct (Values.f_ty f) as [[t | m] | [t | m] | k [t | m]] eqn:E.
    1: destruct (raw_type t).
    all: eexists; constructor; [rewrite E; first [apply den_default_field | constructor] | exact R].
  Qed.

  Theorem copy_agrees : forall fuel junk m ys ws, denotes sch h m ys ws ->
    run_copy_constructor classes names qml field_numbers sch h fuel junk m ys = copy_construct fuel sch h junk m ys.
  Proof.
    intros [| n] junk m ys ws DY; [reflexivity |]. unfold run_copy_constructor, copy_construct.
    inversion DY as [? ? ? FY]; subst. rewrite (fields_described _ _ DS) in *. unfold copy_body, fields_of, copy_initializers.
    rewrite initial_raw by exact (proj2 (proj2 DS m)).
    destruct (raw_denoted junk (map descriptor (g_fields (classes m))) 0) as (vs & R).
    pose proof (copy_all sch h (functions_of classes names qml field_numbers m) n (run_equal classes sch h n)
      (fun s m xs ys => '(l, _) <- run_assign classes names qml field_numbers sch h n s m xs ys ;; Ok l) (fun _ _ _ _ => UB TypeConfusion)
      (assign n sch h) (equal_agrees classes sch h DS n)) as L.
    refine (L _ (g_fields (classes m)) [] [] _ [] ys vs ws [] [] (proj1 (proj2 DS m)) (proj2 (proj2 DS m)) (found m) eq_refl eq_refl R FY 0).
    intros m' xs' ys' vs' ws' X Y. rewrite (assign_agrees n m' xs' ys' vs' ws' X Y), bind_assoc. apply bind_ext. intros [] _. reflexivity.
  Qed.
End Classes.

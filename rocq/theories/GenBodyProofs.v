(** Proofs about printed bodies: names, and comparison. *)

From Coq Require Import String Ascii ZArith List Bool Arith Lia.
From Verif Require Values.
From Verif Require Import Base MessageSpec ObjectModel ObjectSpec ObjectProofs ObjectFacts.
From Verif Require Import GenModel GenSpec GenStrings GenTypesModel GenClassModel GenClassSpec GenClassProofs GenClassMembers GenClassBodies
  GenBodyModel GenBodySpec.
Import ListNotations.
Local Close Scope Z_scope.
Open Scope string_scope.

(** * Variables *)

Lemma append_inj_l : forall a b c : string, a ++ b = a ++ c -> b = c.
Proof. induction a as [| x a IH]; intros b c E; [exact E |]. injection E as E. auto. Qed.

Lemma variable_inj : forall f g, variable_name f = variable_name g -> pname f = pname g.
Proof. intros f g E. exact (append_inj_l "m_" _ _ E). Qed.

Definition distinct (fs : list mfield) : Prop := NoDup (map (fun f => key (m_name f)) fs).

Lemma slot_app : forall pre f suf i, distinct (pre ++ f :: suf) -> slot_from i (pre ++ f :: suf) (variable_name f) = Some (i + List.length pre).
Proof.
  induction pre as [| g pre IH]; intros f suf i D; cbn [app slot_from List.length].
  - rewrite String.eqb_refl. f_equal. lia.
  - destruct (String.eqb_spec (variable_name g) (variable_name f)) as [E | E].
    + exfalso. apply variable_inj, pname_key in E. unfold distinct in D. cbn [app map] in D. inversion D as [| ? ? X _]; subst.
      apply X. rewrite E. apply in_map_iff. exists f. split; [reflexivity |]. apply in_or_app. right. now left.
    + rewrite IH; [f_equal; lia |]. unfold distinct in *. cbn [app map] in D. now inversion D.
Qed.

Section At.
  Context (pre : list mfield) (f : mfield) (suf : list mfield) (D : distinct (pre ++ f :: suf)).

  Lemma slot_at : slot (pre ++ f :: suf) (variable_name f) = Some (List.length pre).
  Proof. unfold slot. now rewrite slot_app. Qed.

  Lemma type_at : type_of (pre ++ f :: suf) (variable_name f) = fty_of (m_shape f).
  Proof. unfold type_of. rewrite slot_at, nth_error_app2, Nat.sub_diag by lia. reflexivity. Qed.

  Lemma read_at : forall (xpre : list mem) x xs, List.length xpre = List.length pre ->
    read (pre ++ f :: suf) (variable_name f) (xpre ++ x :: xs) = Ok x.
  Proof. intros xpre x xs L. unfold read. rewrite slot_at, nth_error_app2 by lia. rewrite L, Nat.sub_diag. reflexivity. Qed.

  Lemma write_at : forall (xpre : list mem) x xs y, List.length xpre = List.length pre ->
    write (pre ++ f :: suf) (variable_name f) y (xpre ++ x :: xs) = Ok (xpre ++ y :: xs)%list.
  Proof.
    intros xpre x xs y L. unfold write. rewrite slot_at. f_equal. rewrite <- L. clear L.
    induction xpre as [| z xpre IH]; cbn [List.length app upd]; [reflexivity | now rewrite IH].
  Qed.
End At.

(** * Setters *)

Lemma functions_has : forall qml fn full m f b, has_body (declarations qml fn full m) (definitions qml full m) f b ->
  In (f, b) (functions qml fn full m).
Proof.
  intros qml fn full m f b [H | [_ H]]; unfold functions; apply in_or_app; [left | right]; apply in_flat_map; eexists; (split; [exact H |]); now left.
Qed.

(** Functions with one parameter. *)
Lemma one_parameter : forall qml fn full m g b, In (g, b) (functions qml fn full m) -> List.length (fn_params g) = 1 ->
  fn_name g = "serialize"
  \/ (exists f, In f (g_fields m) /\ g = setter f
       /\ b = if pure_message (m_shape f) then StoresObject (variable_name f) (signal_name f) else Stores (variable_name f) (signal_name f))
  \/ exists f, fn_name g = setter_name f ++ "_p".
Proof.
  intros qml fn full m g b I L. unfold functions in I. apply in_app_iff in I. destruct I as [I | I]; apply in_flat_map in I; destruct I as (d & I & J).
  - destruct d as [f0 b0 | | | | | | | | | | |]; cbn in J; try (destruct J; fail). destruct J as [J | []]. injection J as -> ->.
    apply (Permutation.Permutation_in _ (declarations_permuted qml fn full m)) in I. rewrite !in_app_iff in I.
    destruct I as [I | [I | [I | I]]].
    + unfold special_declarations in I. apply in_map_iff in I. destruct I as (s & I & _). discriminate I.
    + cbn in I. repeat (destruct I as [I | I]; [try discriminate I; injection I as <- <-; cbn in L; try discriminate L; left; reflexivity |]). destruct I.
    + exfalso. unfold type_members in I. rewrite !in_app_iff in I.
      repeat match type of I with _ \/ _ => destruct I as [I | I] end.
      all: try (unfold enum_declarations in I; rewrite !in_app_iff in I; repeat match type of I with _ \/ _ => destruct I as [I | I] end).
      all: try (destruct fn; [| destruct I]; destruct I as [I | I]; [discriminate I |]; unfold enumerator_declarations in I; apply in_map_iff in I; destruct I as (x & I & _); discriminate I).
      all: try (apply in_map_iff in I; destruct I as (x & I & _); discriminate I).
      all: unfold nested_aliases, map_aliases in *; try (apply in_flat_map in I; destruct I as (x & _ & I)).
      all: try (destruct I as [I | I]; [discriminate I |]; unfold enumerator_declarations in I; apply in_map_iff in I; destruct I as (y & I & _); discriminate I).
      all: try (match type of I with In _ (if ?c then _ else _) => destruct c end; repeat (destruct I as [I | I]; [discriminate I |]); destruct I).
    + right. apply in_flat_map in I. destruct I as (f & F & I). unfold own in I. rewrite !in_app_iff in I.
      unfold getter_declarations, setter_declarations, signal_declarations, private_getter_declarations, private_setter_declarations,
        private_method_declarations, variable_declarations in I.
      rewrite in_app_iff in I.
      destruct (pure_message (m_shape f)) eqn:P; destruct (is_repeated (m_shape f)); destruct (message_type (m_shape f) && negb (is_map (m_shape f)) && qml);
        destruct (message_type (m_shape f) || text_type (m_shape f)) eqn:MT; destruct (qml_alias qml (m_shape f)); cbn [In] in I;
        repeat match type of I with _ \/ _ => destruct I as [I | I] end; try discriminate I; try (destruct I; fail);
        try (injection I as <- <-; cbn in L; try discriminate L);
        try (left; exists f; rewrite P; split; [exact F | split; reflexivity]);
        try (right; exists f; reflexivity).
      all: try (exfalso; destruct (m_shape f) as [[| | |] | |]; discriminate).
  - destruct d as [f0 b0 | |]; cbn in J; try (destruct J; fail). destruct J as [J | []]. injection J as -> ->.
    unfold definitions in I. rewrite !in_app_iff in I. destruct I as [I | [I | [I | I]]].
    + cbn in I. repeat (destruct I as [I | I]; [try discriminate I; injection I as <- <-; discriminate L |]). destruct I.
    + unfold special_definitions in I. apply in_map_iff in I. destruct I as (s & I & _). discriminate I.
    + apply in_flat_map in I. destruct I as (f & _ & I). unfold getter_definitions in I. apply in_app_iff in I. exfalso.
      destruct I as [I | I];
        match type of I with In _ (if ?c then _ else _) => destruct c end;
        repeat (destruct I as [I | I]; [injection I as <- <-; discriminate L |]); destruct I.
    + right. apply in_flat_map in I. destruct I as (f & F & I). unfold setter_definitions in I.
      destruct (message_type (m_shape f)) eqn:M; [| destruct (text_type (m_shape f)) eqn:T]; destruct (pure_message (m_shape f)) eqn:P;
        try (exfalso; destruct (m_shape f) as [[| | |] | |]; discriminate);
        repeat (destruct I as [I | I]; [injection I as <- <-; first [left; exists f; rewrite P; split; [exact F | split; reflexivity] | right; exists f; reflexivity] |]);
        destruct I.
Qed.

Lemma setter_found : forall qml fn full m f, fields_distinct m -> In f (g_fields m) ->
  find_setter (functions qml fn full m) (setter_name f)
  = Some (if pure_message (m_shape f) then StoresObject (variable_name f) (signal_name f) else Stores (variable_name f) (signal_name f)).
Proof.
  intros qml fn full m f FD F. unfold find_setter.
  pose proof (functions_has _ _ _ _ _ _ (body_setter qml fn full m f F)) as B.
  destruct (find _ _) as [[g b] |] eqn:E.
  - apply find_some in E. destruct E as [I E]. cbn [fst snd] in *. apply andb_true_iff in E. destruct E as [N L].
    apply String.eqb_eq in N. apply Nat.eqb_eq in L. cbn [option_map snd]. f_equal.
    destruct (one_parameter _ _ _ _ _ _ I L) as [X | [(f' & F' & -> & ->) | (f' & X)]].
    + exfalso. rewrite N in X. unfold setter_name in X. cbn in X. discriminate X.
    + cbn [setter fn_name] in N. apply setter_inj, pname_key in N.
      rewrite (nodup_map_inj _ _ (fun f => key (m_name f)) (g_fields m) f' f FD F' F N). reflexivity.
    + exfalso. rewrite N in X. destruct (cut_setter f) as [C | (c & C)]; rewrite X, cut_p in C; discriminate C.
  - exfalso. pose proof (find_none _ _ E _ B) as X. cbn [fst setter fn_name fn_params List.length] in X. rewrite String.eqb_refl in X. discriminate X.
Qed.

(** * Comparison *)

Section Agree.
  Context (sch : Values.schema) (h : heap).
  Context (rec rec' : nat -> list mem -> list mem -> res bool).
  Context (R : forall m xs ys vs ws, denotes sch h m xs vs -> denotes sch h m ys ws -> rec m xs ys = rec' m xs ys).

  Lemma den_own_inv : forall m x v, den_field sch h (Values.FSing (Values.EM m)) x v ->
    x = MOwn None \/ exists o vs, x = MOwn (Some o) /\ denotes sch h m o vs.
  Proof. intros m x v D. inversion D; subst; [now left | right; eauto]. Qed.

  Lemma lazy_agree : forall m x y v w, den_field sch h (Values.FSing (Values.EM m)) x v -> den_field sch h (Values.FSing (Values.EM m)) y w ->
    lazy_eq sch rec m (own_of x) (own_of y) = lazy_eq sch rec' m (own_of x) (own_of y).
  Proof.
    intros m x y v w Dx Dy.
    destruct (den_own_inv _ _ _ Dx) as [-> | (o & vs & -> & O)], (den_own_inv _ _ _ Dy) as [-> | (o' & ws & -> & O')]; cbn [own_of lazy_eq];
      try reflexivity; eapply R; eauto; apply den_default.
  Qed.

  Lemma deref_agree : forall m x y v w, den_field sch h (Values.FSing (Values.EM m)) x v -> den_field sch h (Values.FSing (Values.EM m)) y w ->
    rec m (deref sch m (own_of x)) (deref sch m (own_of y)) = rec' m (deref sch m (own_of x)) (deref sch m (own_of y)).
  Proof.
    intros m x y v w Dx Dy.
    assert (X : forall z u, den_field sch h (Values.FSing (Values.EM m)) z u -> exists us, denotes sch h m (deref sch m (own_of z)) us).
    { intros z u D. destruct (den_own_inv _ _ _ D) as [-> | (o & vs & -> & O)]; cbn [own_of deref]; [eexists; apply den_default | eauto]. }
    destruct (X _ _ Dx), (X _ _ Dy). eapply R; eauto.
  Qed.

  Lemma pointee_agree : forall m p q v w, den_ptr sch h m p v -> den_ptr sch h m q w -> pointee_eq h rec m p q = pointee_eq h rec' m p q.
  Proof.
    intros m p q v w P Q. unfold pointee_eq. destruct (ptr_eqb p q); [reflexivity |].
    inversion P as [| ? a xs vs Ea Da]; subst; [reflexivity |]. inversion Q as [| ? b ys ws Eb Db]; subst; [reflexivity |].
    rewrite Ea, Eb. eapply R; eauto.
  Qed.

  Lemma list_agree : forall m a b vs ws, den_list sch h m a vs -> den_list sch h m b ws -> list_compare h rec m a b = list_compare h rec' m a b.
  Proof.
    intros m a. induction a as [| p a IH]; intros b vs ws A B; [reflexivity |]. destruct b as [| q b]; [reflexivity |].
    inversion A; subst. inversion B; subst. cbn [list_compare]. erewrite pointee_agree by eauto.
    destruct (pointee_eq h rec' m p q) as [[|] | | |]; cbn [bind]; [| reflexivity ..]. eapply IH; eauto.
  Qed.

  Lemma value_denoted : forall m k key b kvs, den_entries sch h m b kvs -> exists v, den_ptr sch h m (qmap_value k key b) v.
  Proof.
    intros m k key b. induction b as [| [a p] b IH]; intros kvs B; cbn [qmap_value]; [exists Values.VNull; constructor |].
    inversion B; subst. destruct (_ || _); eauto.
  Qed.

  Lemma map_agree : forall k m a b vs ws, den_entries sch h m a vs -> den_entries sch h m b ws ->
    map_compare h rec k m a b = map_compare h rec' k m a b.
  Proof.
    intros k m a. induction a as [| [x p] a IH]; intros b vs ws A B; [reflexivity |]. inversion A; subst. cbn [map_compare].
    destruct (value_denoted m k x b ws B) as (u & U). erewrite pointee_agree by eauto.
    destruct (pointee_eq h rec' m (qmap_value k x b) p) as [[|] | | |]; cbn [bind]; [| reflexivity ..]. eapply IH; eauto.
  Qed.

  Context (fields : list mfield).

  (** One field. *)
  Lemma conjunct_agree : forall pre f suf xpre x xs ypre y ys v w,
    distinct (pre ++ f :: suf) -> supported f -> List.length xpre = List.length pre -> List.length ypre = List.length pre ->
    den_field sch h (fty_of (m_shape f)) x v -> den_field sch h (fty_of (m_shape f)) y w ->
    eval_conjunct sch h (pre ++ f :: suf) rec
      (if pure_message (m_shape f) then SameObjects (variable_name f)
       else if message_type (m_shape f) && is_repeated (m_shape f) then SameElements (variable_name f) else SameVariables (variable_name f))
      (xpre ++ x :: xs) (ypre ++ y :: ys)
    = field_eq sch h rec' (fty_of (m_shape f)) x y.
  Proof.
    intros pre f suf xpre x xs ypre y ys v w D S Lx Ly Dx Dy. unfold supported in S.
    assert (RX := read_at pre f suf D xpre x xs Lx). assert (RY := read_at pre f suf D ypre y ys Ly). assert (T := type_at pre f suf D).
    destruct (m_shape f) as [[t | m | e | q] | [t | m | e | q] | k [t | m | e | q]] eqn:E; cbn [pure_message message_type is_repeated andb known_element] in *;
      try match type of S with False => destruct S | _ /\ False => destruct S as [_ []] end; unfold eval_conjunct, same_variables; rewrite RX, RY; cbn [bind]; rewrite ?T; cbn [fty_of elty_of field_eq] in *;
      try reflexivity.
    - unfold message_eq. erewrite lazy_agree by eauto. destruct (lazy_eq sch rec' m (own_of x) (own_of y)) as [[|] | | |]; cbn [bind]; try reflexivity.
      erewrite deref_agree by eauto. reflexivity.
    - inversion Dx as [| | | | ? ? ? Lx' | |]; subst. inversion Dy as [| | | | ? ? ? Ly' | |]; subst. cbn [ptrs_of]. unfold repeatedValueCompare.
      destruct (Nat.eqb _ _); [| reflexivity]. eapply list_agree; eauto.
    - inversion Dx as [| | | | | | ? ? ? ? Lx']; subst. inversion Dy as [| | | | | | ? ? ? ? Ly']; subst. cbn [ptr_map_of]. unfold repeatedMapCompare.
      destruct (Nat.eqb _ _); [| reflexivity]. eapply map_agree; eauto.
  Qed.
End Agree.

Definition descriptor (f : mfield) : Values.field := Values.mkField (m_number f) (fty_of (m_shape f)).

Lemma conjuncts_agree : forall sch h rec rec',
  (forall m xs ys vs ws, denotes sch h m xs vs -> denotes sch h m ys ws -> rec m xs ys = rec' m xs ys) ->
  forall suf pre xpre xs ypre ys vs ws, distinct (pre ++ suf) -> Forall supported suf ->
  List.length xpre = List.length pre -> List.length ypre = List.length pre ->
  den_fields sch h (map descriptor suf) xs vs -> den_fields sch h (map descriptor suf) ys ws ->
  eval_conjuncts sch h (pre ++ suf) rec
    (map (fun f => if pure_message (m_shape f) then SameObjects (variable_name f)
       else if message_type (m_shape f) && is_repeated (m_shape f) then SameElements (variable_name f) else SameVariables (variable_name f)) suf)
    (xpre ++ xs) (ypre ++ ys)
  = fields_eq sch h rec' (map descriptor suf) xs ys.
Proof.
  intros sch h rec rec' R. induction suf as [| f suf IH]; intros pre xpre xs ypre ys vs ws D S Lx Ly Dx Dy; cbn [map eval_conjuncts].
  - cbn [fields_eq]. inversion Dx; subst. inversion Dy; subst. reflexivity.
  - cbn [map] in Dx, Dy. inversion Dx as [| ? ? x xs' v vs' Dx1 Dx2]; subst. inversion Dy as [| ? ? y ys' w ws' Dy1 Dy2]; subst.
    inversion S as [| ? ? S1 S2]; subst. cbn [fields_eq].
    rewrite (conjunct_agree sch h rec rec' R pre f suf xpre x xs' ypre y ys' v w D S1 Lx Ly Dx1 Dy1).
    change (Values.f_ty (descriptor f)) with (fty_of (m_shape f)).
    destruct (field_eq sch h rec' (fty_of (m_shape f)) x y) as [[|] | | |]; cbn [bind]; try reflexivity.
    replace (pre ++ f :: suf)%list with ((pre ++ [f]) ++ suf)%list in * by (rewrite <- app_assoc; reflexivity).
    replace (xpre ++ x :: xs')%list with ((xpre ++ [x]) ++ xs')%list by (rewrite <- app_assoc; reflexivity).
    replace (ypre ++ y :: ys')%list with ((ypre ++ [y]) ++ ys')%list by (rewrite <- app_assoc; reflexivity).
    eapply IH; eauto; rewrite !app_length; cbn [List.length]; lia.
Qed.

Section Classes.
  Context (classes : nat -> message) (sch : Values.schema) (h : heap) (DS : describes sch classes).

  Lemma fields_described : forall m, Values.md_fields (Values.msg_at sch m) = map descriptor (g_fields (classes m)).
  Proof. exact (proj1 DS). Qed.

  Theorem equal_agrees : forall fuel m xs ys vs ws, denotes sch h m xs vs -> denotes sch h m ys ws ->
    run_equal classes sch h fuel m xs ys = eq_obj fuel sch h m xs ys.
  Proof.
    induction fuel as [| n IH]; intros m xs ys vs ws Dx Dy; [reflexivity |]. cbn [run_equal eq_obj].
    inversion Dx as [? ? ? Fx]; subst. inversion Dy as [? ? ? Fy]; subst. rewrite fields_described in *. unfold equality_body, fields_of.
    exact (conjuncts_agree sch h _ _ IH (g_fields (classes m)) [] [] xs [] ys vs ws (proj1 (proj2 DS m)) (proj2 (proj2 DS m)) eq_refl eq_refl Fx Fy).
  Qed.
End Classes.

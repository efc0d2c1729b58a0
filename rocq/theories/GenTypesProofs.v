(** Proofs about types of properties and their registration. *)

From Coq Require Import String Ascii ZArith List Bool Arith Lia Permutation.
From Verif Require Import GenModel GenSpec GenStrings GenTypesModel GenTypesSpec.
Import ListNotations.
Open Scope string_scope.

(** * Equality of types *)

Lemma ftype_eqb_spec : forall a b, ftype_eqb a b = true <-> a = b.
Proof. intros a b. split; [destruct a, b; cbn; congruence | intros ->; destruct b; reflexivity]. Qed.

Lemma element_eqb_spec : forall a b, element_eqb a b = true <-> a = b.
Proof.
  intros [t | m | e | q] [u | n | f | r]; cbn [element_eqb]; split; intro H; try discriminate H.
  - apply ftype_eqb_spec in H. congruence.
  - injection H as ->. apply ftype_eqb_spec. reflexivity.
  - apply Nat.eqb_eq in H. congruence.
  - injection H as ->. apply Nat.eqb_refl.
  - apply Nat.eqb_eq in H. congruence.
  - injection H as ->. apply Nat.eqb_refl.
  - apply String.eqb_eq in H. congruence.
  - injection H as ->. apply String.eqb_refl.
Qed.

Lemma ctype_eqb_spec : forall a b, ctype_eqb a b = true <-> a = b.
Proof.
  intros a b. split.
  - destruct a, b; cbn [ctype_eqb]; intro H; try discriminate H;
      try (apply andb_true_iff in H; destruct H as [H1 H2]; apply ftype_eqb_spec in H1; apply element_eqb_spec in H2; congruence);
      try (apply ftype_eqb_spec in H; congruence); try (apply Nat.eqb_eq in H; congruence);
      apply String.eqb_eq in H; congruence.
  - intros ->. destruct b; cbn [ctype_eqb]; try apply ftype_eqb_spec; try apply Nat.eqb_refl; try apply String.eqb_refl; try reflexivity;
      apply andb_true_iff; split; [apply ftype_eqb_spec | apply element_eqb_spec | apply ftype_eqb_spec | apply element_eqb_spec]; reflexivity.
Qed.

(** * Look-up *)

(** The handler that belongs to a type, wherever it is registered. *)
Definition handler_of (t : ctype) : option handler :=
  match t with
  | CSimple t => Some (HSimple t)
  | CSimples t => Some (HSimples t)
  | CPointer m => Some (HObject m)
  | CPointers m => Some (HList m)
  | CEnum e => Some (HEnum e)
  | CEnums e => Some (HEnumList e)
  | CMap k v => Some (HMap k v)
  | CSharedMap k v => Some (HMap k v)
  | CQt q => Some (HQt q)
  | CNone _ => None
  end.

Lemma lookup_in : forall regs t,
  (forall u h, In (u, h) regs -> handler_of u = Some h) ->
  (exists h, In (t, h) regs) -> lookup_type regs t = handler_of t.
Proof.
  intros regs t R (h & I). unfold lookup_type.
  destruct (find (fun p => ctype_eqb (fst p) t) (rev regs)) as [[u h'] |] eqn:F.
  - apply find_some in F. destruct F as [F E]. apply ctype_eqb_spec in E. cbn [fst] in E. subst u.
    apply in_rev in F. cbn. symmetry. exact (R _ _ F).
  - exfalso. assert (Q := find_none _ _ F (t, h)). rewrite <- in_rev in Q. specialize (Q I). cbn [fst] in Q.
    assert (T : ctype_eqb t t = true) by (apply ctype_eqb_spec; reflexivity). congruence.
Qed.

Lemma lookup_not_in : forall regs t, (forall h, ~ In (t, h) regs) -> lookup_type regs t = None.
Proof.
  intros regs t N. unfold lookup_type.
  destruct (find (fun p => ctype_eqb (fst p) t) (rev regs)) as [[u h'] |] eqn:F; [| reflexivity].
  apply find_some in F. destruct F as [F E]. apply ctype_eqb_spec in E. cbn [fst] in E. subst u.
  apply in_rev in F. exfalso. exact (N _ F).
Qed.

(** What is registered, by type. *)
Definition registered (ps : list proto) (qt : list string) (t : ctype) : Prop :=
  match t with
  | CPointer m | CPointers m => has_class ps m
  | CEnum e | CEnums e => registered_enum ps e
  | CMap k v => (~ exists m, v = Mess m) /\ exists m f, In m (classes_of ps) /\ In f (g_fields m) /\ m_shape f = Assoc k v
  | CSharedMap k v => (exists n, v = Mess n) /\ exists m f, In m (classes_of ps) /\ In f (g_fields m) /\ m_shape f = Assoc k v
  | CQt q => In q qt
  | CSimple _ | CSimples _ | CNone _ => False
  end.

Lemma in_registrations : forall ps qt u h,
  In (u, h) (registrations ps qt) <->
  (exists p x, In p ps /\ In x (o_enums p) /\ In (u, h) (qRegisterProtobufEnumType (e_id x)))
  \/ (exists m, In m (classes_of ps) /\ In (u, h) (qRegisterProtobufType m))
  \/ (exists q, In q qt /\ u = CQt q /\ h = HQt q).
Proof.
  intros ps qt u h. unfold registrations, register_qt. rewrite in_app_iff, in_flat_map, in_map_iff. split.
  - intros [(p & P & I) | (q & E & Q)].
    + unfold register_proto in I. rewrite in_app_iff, !in_flat_map in I. destruct I as [(x & X & I) | (m & M & I)].
      * left. exists p, x. auto.
      * right. left. apply in_flat_map in I. destruct I as (c & C & I). exists c. split; [| exact I].
        apply in_flat_map. exists p. split; [exact P |]. apply in_flat_map. exists m. auto.
    + right. right. exists q. injection E as <- <-. auto.
  - intros [(p & x & P & X & I) | [(c & C & I) | (q & Q & -> & ->)]].
    + left. exists p. split; [exact P |]. unfold register_proto. rewrite in_app_iff, in_flat_map. left. exists x. auto.
    + left. apply in_flat_map in C. destruct C as (p & P & C). apply in_flat_map in C. destruct C as (m & M & C).
      exists p. split; [exact P |]. unfold register_proto. rewrite in_app_iff, !in_flat_map. right. exists m. split; [exact M |].
      apply in_flat_map. exists c. auto.
    + right. exists q. auto.
Qed.

Lemma isLocalEnum_spec : forall e es, isLocalEnum e es = true <-> exists x, In x es /\ e_id x = e.
Proof.
  intros e es. unfold isLocalEnum. rewrite existsb_exists. split.
  - intros (x & I & E). apply Nat.eqb_eq in E. eauto.
  - intros (x & I & <-). exists x. split; [exact I | apply Nat.eqb_refl].
Qed.

Lemma in_register_field : forall es f u h, In (u, h) (register_field es f) <->
  (exists e, (m_shape f = One (Enu e) \/ m_shape f = Many (Enu e)) /\ (exists x, In x es /\ e_id x = e)
     /\ In (u, h) (qRegisterProtobufEnumType e))
  \/ (exists k v, m_shape f = Assoc k v /\ In (u, h) (qRegisterProtobufMapType k v)).
Proof.
  intros es f u h. unfold register_field. split.
  - destruct (m_shape f) as [[t | m | e | q] | [t | m | e | q] | k v]; try (intros []).
    + destruct (isLocalEnum e es) eqn:L; [| intros []]. apply isLocalEnum_spec in L. intro I. left. exists e. auto.
    + destruct (isLocalEnum e es) eqn:L; [| intros []]. apply isLocalEnum_spec in L. intro I. left. exists e. auto.
    + intro I. right. exists k, v. auto.
  - intros [(e & S & L & I) | (k & v & S & I)].
    + apply isLocalEnum_spec in L. destruct S as [-> | ->]; rewrite L; exact I.
    + rewrite S. exact I.
Qed.

Lemma registrations_spec : forall ps qt t,
  (forall h, In (t, h) (registrations ps qt) -> handler_of t = Some h /\ registered ps qt t)
  /\ (registered ps qt t -> exists h, In (t, h) (registrations ps qt)).
Proof.
  intros ps qt t. split.
  - intros h I. apply in_registrations in I. destruct I as [(p & x & P & X & I) | [(m & M & I) | (q & Q & -> & ->)]].
    + assert (R : registered_enum ps (e_id x)) by (left; exists p, x; auto).
      cbn in I. destruct I as [E | [E | []]]; injection E as <- <-; split; try reflexivity; exact R.
    + unfold qRegisterProtobufType, registerTypes in I. rewrite in_app_iff, in_flat_map in I.
      destruct I as [(f & F & I) | I].
      * apply in_register_field in I. destruct I as [(e & S & (x & X & E) & I) | (k & v & S & I)].
        -- assert (R : registered_enum ps e).
           { right. exists m, x. split; [exact M |]. split; [exact X |]. split; [exact E |]. exists f. auto. }
           cbn in I. destruct I as [H | [H | []]]; injection H as <- <-; split; try reflexivity; exact R.
        -- unfold qRegisterProtobufMapType in I. destruct v as [t0 | n | e | q]; destruct I as [H | []]; injection H as <- <-;
             (split; [reflexivity |]); cbn [registered].
           ++ split; [intros (? & H); discriminate | exists m, f; auto].
           ++ split; [exists n; reflexivity | exists m, f; auto].
           ++ split; [intros (? & H); discriminate | exists m, f; auto].
           ++ split; [intros (? & H); discriminate | exists m, f; auto].
      * assert (R : has_class ps (g_id m)) by (unfold has_class; apply in_map; exact M).
        cbn in I. destruct I as [H | [H | []]]; injection H as <- <-; split; try reflexivity; exact R.
    + split; [reflexivity | exact Q].
  - intro R. destruct t; cbn [registered] in R; try contradiction.
    + unfold has_class in R. apply in_map_iff in R. destruct R as (c & <- & C). eexists. apply in_registrations.
      right. left. exists c. split; [exact C |]. unfold qRegisterProtobufType. rewrite in_app_iff. right. left. reflexivity.
    + unfold has_class in R. apply in_map_iff in R. destruct R as (c & <- & C). eexists. apply in_registrations.
      right. left. exists c. split; [exact C |]. unfold qRegisterProtobufType. rewrite in_app_iff. right. right. left. reflexivity.
    + exists (HEnum e). apply in_registrations. destruct R as [(p & x & P & X & <-) | (m & x & M & X & E & (f & F & S))].
      * left. exists p, x. repeat split; auto. left. reflexivity.
      * right. left. exists m. split; [exact M |]. unfold qRegisterProtobufType, registerTypes. rewrite in_app_iff, in_flat_map.
        left. exists f. split; [exact F |]. apply in_register_field. left. exists e. split; [exact S |]. split; [eauto |].
        left. reflexivity.
    + exists (HEnumList e). apply in_registrations. destruct R as [(p & x & P & X & <-) | (m & x & M & X & E & (f & F & S))].
      * left. exists p, x. repeat split; auto. right. left. reflexivity.
      * right. left. exists m. split; [exact M |]. unfold qRegisterProtobufType, registerTypes. rewrite in_app_iff, in_flat_map.
        left. exists f. split; [exact F |]. apply in_register_field. left. exists e. split; [exact S |]. split; [eauto |].
        right. left. reflexivity.
    + destruct R as (N & m & f & M & F & S). exists (HMap k v). apply in_registrations. right. left. exists m. split; [exact M |].
      unfold qRegisterProtobufType, registerTypes. rewrite in_app_iff, in_flat_map.
      left. exists f. split; [exact F |]. apply in_register_field. right. exists k, v. split; [exact S |].
      destruct v as [t0 | n | e | q]; try (left; reflexivity). exfalso. apply N. eauto.
    + destruct R as ((n & ->) & m & f & M & F & S). exists (HMap k (Mess n)). apply in_registrations. right. left. exists m. split; [exact M |].
      unfold qRegisterProtobufType, registerTypes. rewrite in_app_iff, in_flat_map.
      left. exists f. split; [exact F |]. apply in_register_field. right. exists k, (Mess n). split; [exact S |]. left. reflexivity.
    + eexists. apply in_registrations. right. right. exists name. split; [exact R |]. split; reflexivity.
Qed.

(** The look-up after all registrations, in any order. *)
Lemma lookup_registered : forall ps qt regs t,
  Permutation regs (registrations ps qt) ->
  (registered ps qt t -> lookup_type regs t = handler_of t)
  /\ (~ registered ps qt t -> lookup_type regs t = None).
Proof.
  intros ps qt regs t P. split.
  - intro R. apply lookup_in.
    + intros u h I. apply (Permutation_in _ P) in I. apply (proj1 (registrations_spec ps qt u)) in I. apply I.
    + destruct (proj2 (registrations_spec ps qt t) R) as (h & I). exists h.
      apply (Permutation_in _ (Permutation_sym P)). exact I.
  - intro N. apply lookup_not_in. intros h I. apply (Permutation_in _ P) in I.
    apply (proj1 (registrations_spec ps qt t)) in I. apply N. apply I.
Qed.

Lemma basic_simple : forall t, simple t -> lookup_type basic_handlers (CSimple t) = Some (HSimple t).
Proof. intros t [N1 N2]. destruct t; try reflexivity; congruence. Qed.

Lemma basic_simples : forall t, simple t -> t <> TBool -> lookup_type basic_handlers (CSimples t) = Some (HSimples t).
Proof. intros t [N1 N2] B. destruct t; try reflexivity; congruence. Qed.

Lemma basic_none : forall t, match t with CSimple _ | CSimples _ => False | _ => True end -> lookup_type basic_handlers t = None.
Proof.
  intros t T. apply lookup_not_in. intros h I. unfold basic_handlers in I. rewrite in_app_iff, !in_map_iff in I.
  destruct I as [(u & E & _) | (u & E & _)]; injection E as <- _; exact T.
Qed.

Lemma named_simple : forall t, simple t -> named (simple_full_type t) = CSimple t.
Proof. intros t [N1 N2]. destruct t; try reflexivity; congruence. Qed.

Lemma named_list : forall t, simple t -> t <> TBool -> named (simple_full_list_type t) = CSimples t.
Proof. intros t [N1 N2] B. destruct t; try reflexivity; congruence. Qed.

Lemma find_registered : forall ps qt regs t,
  Permutation regs (registrations ps qt) ->
  match t with CSimple _ | CSimples _ => False | _ => True end ->
  (registered ps qt t -> find_handler regs t = handler_of t)
  /\ (~ registered ps qt t -> find_handler regs t = None).
Proof.
  intros ps qt regs t P T. unfold find_handler. rewrite (basic_none t T). exact (lookup_registered ps qt regs t P).
Qed.

Lemma find_element : forall ps qt regs e,
  Permutation regs (registrations ps qt) -> element_supported ps qt e ->
  find_handler regs (value_type e) = Some (element_handler e).
Proof.
  intros ps qt regs e P S. destruct e as [t | m | e | q]; cbn [element_supported value_type element_handler] in *.
  - rewrite (named_simple t S). unfold find_handler. rewrite (basic_simple t S). reflexivity.
  - rewrite (proj1 (find_registered ps qt regs (CPointer m) P Logic.I)) by exact S. reflexivity.
  - rewrite (proj1 (find_registered ps qt regs (CEnum e) P Logic.I)) by exact S. reflexivity.
  - rewrite (proj1 (find_registered ps qt regs (CQt q) P Logic.I)) by exact S. reflexivity.
Qed.

Lemma field_supported : forall ps qt regs m f,
  Permutation regs (registrations ps qt) -> In m (classes_of ps) -> In f (g_fields m) ->
  shape_supported ps qt (m_shape f) ->
  field_handlers regs (m_shape f) = needed_handlers (m_shape f).
Proof.
  intros ps qt regs m f P M F S. unfold field_handlers. destruct (m_shape f) as [e | e | k v] eqn:Sh.
  - assert (Q : property_type (One e) = value_type e) by (destruct e; reflexivity). rewrite Q.
    rewrite (find_element ps qt regs e P S). reflexivity.
  - cbn [shape_supported] in S. destruct S as (S & Nq & Nb). destruct e as [t | n | e | q]; cbn [property_type].
    + rewrite (named_list t S) by congruence. unfold find_handler. rewrite (basic_simples t S) by congruence. reflexivity.
    + rewrite (proj1 (find_registered ps qt regs (CPointers n) P Logic.I)) by exact S. reflexivity.
    + rewrite (proj1 (find_registered ps qt regs (CEnums e) P Logic.I)) by exact S. reflexivity.
    + exfalso. apply Nq. exists q. reflexivity.
  - cbn [shape_supported] in S. destruct S as ((Sk & _) & Sv & Nq). rewrite (named_simple k Sk), (basic_simple k Sk).
    rewrite (find_element ps qt regs v P Sv).
    assert (X : find_handler regs (property_type (Assoc k v)) = Some (HMap k v)).
    { destruct v as [t | n | e | q]; cbn [property_type].
      - rewrite (proj1 (find_registered ps qt regs (CMap k (Simple t)) P Logic.I)); [reflexivity |].
        split; [intros (? & H); discriminate | exists m, f; auto].
      - rewrite (proj1 (find_registered ps qt regs (CSharedMap k (Mess n)) P Logic.I)); [reflexivity |].
        split; [exists n; reflexivity | exists m, f; auto].
      - rewrite (proj1 (find_registered ps qt regs (CMap k (Enu e)) P Logic.I)); [reflexivity |].
        split; [intros (? & H); discriminate | exists m, f; auto].
      - exfalso. apply Nq. exists q. reflexivity. }
    rewrite X. reflexivity.
Qed.

Lemma field_unsupported : forall ps qt regs m f,
  Permutation regs (registrations ps qt) -> In m (classes_of ps) -> In f (g_fields m) ->
  match m_shape f with
  | One (Simple t) => simple t
  | Many (Simple t) => simple t
  | Assoc k v => key_type k /\ match v with Simple t => simple t | _ => True end
  | _ => True
  end ->
  ~ shape_supported ps qt (m_shape f) -> field_handlers regs (m_shape f) = None.
Proof.
  intros ps qt regs m f P M F V S. unfold field_handlers.
  assert (El : forall e, match e with Simple t => simple t | _ => True end -> ~ element_supported ps qt e ->
    find_handler regs (value_type e) = None).
  { intros e Ve Ne. destruct e as [t | n | e | q]; cbn [element_supported value_type] in *.
    - contradiction.
    - exact (proj2 (find_registered ps qt regs (CPointer n) P Logic.I) Ne).
    - exact (proj2 (find_registered ps qt regs (CEnum e) P Logic.I) Ne).
    - exact (proj2 (find_registered ps qt regs (CQt q) P Logic.I) Ne). }
  destruct (m_shape f) as [e | e | k v] eqn:Sh.
  - assert (Q : property_type (One e) = value_type e) by (destruct e; reflexivity). rewrite Q.
    rewrite (El e); [reflexivity | destruct e; exact V | exact S].
  - destruct e as [t | n | e | q]; cbn [property_type shape_supported element_supported] in *.
    + destruct t; try (exfalso; apply S; repeat split; try apply V; try discriminate; intros (? & H); discriminate).
      change (named (simple_full_list_type TBool)) with (CNone "QtProtobuf::BoolList").
      rewrite (proj2 (find_registered ps qt regs (CNone _) P Logic.I)); [reflexivity | intros []].
    + rewrite (proj2 (find_registered ps qt regs (CPointers n) P Logic.I)); [reflexivity |].
      intro R. apply S. split; [exact R |]. split; [intros (? & H); discriminate | discriminate].
    + rewrite (proj2 (find_registered ps qt regs (CEnums e) P Logic.I)); [reflexivity |].
      intro R. apply S. split; [exact R |]. split; [intros (? & H); discriminate | discriminate].
    + rewrite (proj2 (find_registered ps qt regs (CNone _) P Logic.I)); [reflexivity | intros []].
  - destruct V as [Vk Vv]. destruct v as [t | n | e | q].
    + exfalso. apply S. split; [exact Vk |]. split; [exact Vv | intros (? & H); discriminate].
    + rewrite (El (Mess n) Logic.I).
      * destruct (find_handler _ _); [| reflexivity]. destruct (lookup_type _ _); reflexivity.
      * intro R. apply S. split; [exact Vk |]. split; [exact R | intros (? & H); discriminate].
    + rewrite (El (Enu e) Logic.I).
      * destruct (find_handler _ _); [| reflexivity]. destruct (lookup_type _ _); reflexivity.
      * intro R. apply S. split; [exact Vk |]. split; [exact R | intros (? & H); discriminate].
    + cbn [property_type]. rewrite (proj2 (find_registered ps qt regs (CSharedMap k (Qt q)) P Logic.I)); [reflexivity |].
      intros ((n & H) & _). discriminate.
Qed.

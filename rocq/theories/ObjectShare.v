(** Null and shared elements: what comparison, setters and copies do with the pointers in repeated
    messages and maps to messages. *)

From Coq Require Import ZArith List Bool Lia.
From Verif Require Import Base WireModel Values MessageModel WireSpec MessageSpec MessageProofs ObjectModel ObjectSpec
  ObjectProofs ObjectTotal AssignProofs ObjectFacts.
Import ListNotations.
Open Scope Z_scope.

(** ** Two objects that differ in one member *)

Lemma fields_eq_upd sch h rec fields : forall i xs a b, fields_eq sch h rec fields xs xs = Ok true ->
  length xs = length fields -> (i < length fields)%nat ->
  fields_eq sch h rec fields (upd i a xs) (upd i b xs) =
  field_eq sch h rec (f_ty (nth i fields (mkField 0 (FSing (ES TInt32))))) a b.
Proof.
  induction fields as [|f fields IH]; intros i xs a b E L Hi; [cbn in Hi; lia|].
  destruct xs as [|x xs]; [discriminate|]. cbn [fields_eq] in E. apply bind_Ok in E. destruct E as (r & E1 & E2).
  destruct r; [|discriminate]. destruct i as [|i]; cbn [upd fields_eq nth].
  - rewrite E2. destruct (field_eq sch h rec (f_ty f) a b) as [[]| | |]; reflexivity.
  - rewrite E1. cbn [bind]. apply IH; auto; cbn in *; lia.
Qed.

Lemma den_mems_length sch h fields xs vs : den_fields sch h fields xs vs -> length xs = length fields.
Proof. revert xs vs. induction fields; intros xs vs D; inversion D; subst; cbn; [reflexivity|]. f_equal. eauto. Qed.

Lemma eq_obj_upd sch h m xs vs i a b : schema_ok sch -> denotes sch h m xs vs -> object_ok sch m vs ->
  nan_free sch (EM m) (VMsg vs) -> (i < length (md_fields (msg_at sch m)))%nat ->
  exists n, forall fuel, (n <= fuel)%nat ->
    eq_obj (S fuel) sch h m (upd i a xs) (upd i b xs) =
    field_eq sch h (eq_obj fuel sch h) (f_ty (field_at sch m i)) a b.
Proof.
  intros S D O N Hi. exists (1 + odepth vs)%nat. intros fuel L. cbn [eq_obj].
  assert (E : eq_obj (Datatypes.S fuel) sch h m xs xs = Ok true)
    by (apply (eq_obj_same sch h S (Datatypes.S fuel) m xs xs vs vs); auto; try lia; reflexivity).
  cbn [eq_obj] in E. inversion D as [? ? ? Df]; subst.
  rewrite (fields_eq_upd sch h _ _ i xs a b E); auto. eapply den_mems_length; eauto.
Qed.

(** ** Null pointers *)

Lemma qmap_value_null k key l : Forall (fun p => snd p = None) l -> qmap_value k key l = None.
Proof.
  intro F. induction F as [|[a p] l Hp F IH]; [reflexivity|]. cbn in *. subst p.
  destruct (key_ltb k key a || key_ltb k a key); [exact IH | reflexivity].
Qed.

Lemma map_compare_null h rec k m l l' : Forall (fun p => snd p = None) l -> Forall (fun p => snd p = None) l' ->
  map_compare h rec k m l l' = Ok true.
Proof.
  intros F F'. induction F as [|[a p] l Hp F IH]; [reflexivity|]. cbn in *. subst p.
  rewrite qmap_value_null by assumption. exact IH.
Qed.

Lemma list_compare_null h rec m ps : forall qs qs' a,
  list_compare h rec m (ps ++ None :: qs) (ps ++ Some a :: qs') = UB NullDeref /\
  list_compare h rec m (ps ++ Some a :: qs) (ps ++ None :: qs') = UB NullDeref.
Proof.
  induction ps as [|p ps IH]; intros qs qs' a; [split; reflexivity|]. cbn [app list_compare].
  unfold pointee_eq. rewrite ptr_eqb_refl. cbn [bind]. apply IH.
Qed.

Lemma null_maps_equal sch h m xs vs i k m' l l' : schema_ok sch -> denotes sch h m xs vs -> object_ok sch m vs ->
  nan_free sch (EM m) (VMsg vs) -> (i < length (md_fields (msg_at sch m)))%nat ->
  f_ty (field_at sch m i) = FMap k (EM m') -> length l = length l' ->
  Forall (fun p => snd p = None) l -> Forall (fun p => snd p = None) l' ->
  returns (fun fuel => eq_obj fuel sch h m (upd i (MPtrMap l) xs) (upd i (MPtrMap l') xs)) true.
Proof.
  intros S D O N Hi T L F F'. destruct (eq_obj_upd sch h m xs vs i (MPtrMap l) (MPtrMap l') S D O N Hi) as (n & E).
  exists (Datatypes.S n). intros [|fuel] Lf; [lia|]. rewrite E by lia. rewrite T. cbn [field_eq ptr_map_of].
  unfold repeatedMapCompare. rewrite L, Nat.eqb_refl. now apply map_compare_null.
Qed.

Lemma null_element_crashes sch h m xs vs i m' ps qs qs' a : schema_ok sch -> denotes sch h m xs vs -> object_ok sch m vs ->
  nan_free sch (EM m) (VMsg vs) -> (i < length (md_fields (msg_at sch m)))%nat ->
  f_ty (field_at sch m i) = FRep (EM m') -> length qs = length qs' ->
  crashes (fun fuel => eq_obj fuel sch h m (upd i (MPtrs (ps ++ None :: qs)) xs) (upd i (MPtrs (ps ++ Some a :: qs')) xs)) /\
  crashes (fun fuel => eq_obj fuel sch h m (upd i (MPtrs (ps ++ Some a :: qs)) xs) (upd i (MPtrs (ps ++ None :: qs')) xs)).
Proof.
  intros S D O N Hi T L. split.
  - destruct (eq_obj_upd sch h m xs vs i (MPtrs (ps ++ None :: qs)) (MPtrs (ps ++ Some a :: qs')) S D O N Hi) as (n & E).
    exists (Datatypes.S n), NullDeref. intros [|fuel] Lf; [lia|]. rewrite E by lia. rewrite T. cbn [field_eq ptrs_of].
    unfold repeatedValueCompare. rewrite !app_length. cbn [length]. rewrite L, Nat.eqb_refl. apply list_compare_null.
  - destruct (eq_obj_upd sch h m xs vs i (MPtrs (ps ++ Some a :: qs)) (MPtrs (ps ++ None :: qs')) S D O N Hi) as (n & E).
    exists (Datatypes.S n), NullDeref. intros [|fuel] Lf; [lia|]. rewrite E by lia. rewrite T. cbn [field_eq ptrs_of].
    unfold repeatedValueCompare. rewrite !app_length. cbn [length]. rewrite L, Nat.eqb_refl. apply list_compare_null.
Qed.

(** ** Setters compare pointers *)

Lemma set_other_pointers sch h m xs i new fuel : 
  match f_ty (field_at sch m i) with FRep (EM _) => ptrs_of (nth i xs (MOwn None)) <> ptrs_of new
  | FMap _ (EM _) => map snd (ptr_map_of (nth i xs (MOwn None))) <> map snd (ptr_map_of new) | _ => False end ->
  set_field fuel sch h m xs i new = Ok (upd i new xs, true).
Proof.
  intro H. unfold set_field. destruct (f_ty (field_at sch m i)) as [[t|m']|[t|m']|k [t|m']]; try contradiction.
  - unfold set_plain. replace (mem_eqb _ _ _) with false; [reflexivity|]. symmetry.
    destruct (mem_eqb _ _ _) eqn:E; [|reflexivity]. exfalso. apply H. cbn in E.
    destruct (nth i xs (MOwn None)), new; try discriminate. cbn. now apply ptrs_eqb_eq.
  - unfold set_plain. replace (mem_eqb _ _ _) with false; [reflexivity|]. symmetry.
    destruct (mem_eqb _ _ _) eqn:E; [|reflexivity]. exfalso. apply H. cbn in E.
    destruct (nth i xs (MOwn None)) as [| | | | |a], new as [| | | | |b]; try discriminate. cbn. clear H. revert b E.
    induction a as [|[x p] a IH]; intros [|[y q] b] E; try discriminate; [reflexivity|]. cbn in *.
    apply andb_prop in E. destruct E as [E1 E2]. apply andb_prop in E1. destruct E1 as [_ E1].
    apply ptr_eqb_eq in E1. subst q. f_equal. now apply IH.
Qed.

(** ** Copies *)

(** Members whose elements are pointers. *)
Definition container (ty : fty) : bool := match ty with FRep (EM _) | FMap _ (EM _) => true | _ => false end.

Lemma set_empty ty y v h sch : container ty = true -> den_field sch h ty y v -> fst (set_plain ty (default_mem ty) y) = y.
Proof.
  intros C D. unfold set_plain. destruct (mem_eqb ty (default_mem ty) y) eqn:E; [|reflexivity]. cbn [fst].
  destruct ty as [|[t|m]|k [t|m]]; try discriminate; inversion D; subst; cbn in E.
  - destruct l; [reflexivity | discriminate].
  - destruct l; [reflexivity | discriminate].
Qed.

Lemma copy_fields_container sch h fuel rec junk fields : forall n s ys vs xs sg i,
  assign_fields sch h fuel rec n fields (raw_mems junk s fields) ys = Ok (xs, sg) -> den_fields sch h fields ys vs ->
  (i < length fields)%nat -> container (f_ty (nth i fields (mkField 0 (FSing (ES TInt32))))) = true ->
  nth i xs (MOwn None) = nth i ys (MOwn None).
Proof.
  induction fields as [|f fields IH]; intros n s ys vs xs sg i E D Hi C; [cbn in Hi; lia|].
  inversion D as [|? ? y ys' v vs' Df Dfs]; subst. cbn [raw_mems assign_fields] in E.
  apply bind_Ok in E. destruct E as ([x' s'] & E1 & E2). apply bind_Ok in E2. destruct E2 as ([xs' sg'] & E2 & E3).
  injection E3 as <- <-. destruct i as [|i]; cbn [nth].
  - cbn in C. pose proof (set_empty _ _ _ _ _ C Df) as X.
    destruct (f_ty f) as [[t|m]|[t|m]|k [t|m]]; try discriminate; cbn [assign_field] in E1; injection E1 as E1;
      cbn [default_mem] in X, E1; rewrite E1 in X; exact X.
  - cbn in C, Hi. eapply IH; eauto. lia.
Qed.

Lemma copy_container sch h junk m ys vs xs i : denotes sch h m ys vs ->
  returns (fun fuel => copy_construct fuel sch h junk m ys) xs ->
  (i < length (md_fields (msg_at sch m)))%nat -> container (f_ty (field_at sch m i)) = true ->
  nth i xs (MOwn None) = nth i ys (MOwn None).
Proof.
  intros D [n R] Hi C. inversion D as [? ? ? Df]; subst. specialize (R (S n) ltac:(lia)). cbn [copy_construct] in R.
  apply bind_Ok in R. destruct R as ([xs' sg] & E & E'). injection E' as <-.
  eapply copy_fields_container; eauto.
Qed.

(** A step to an element of a container of an object of type [m]. *)
Definition into_container (sch : schema) (m : nat) (s : step) : Prop :=
  match s with
  | Nested _ => False
  | Element i _ | Entry i _ _ => (i < length (md_fields (msg_at sch m)))%nat /\ container (f_ty (field_at sch m i)) = true
  end.

Lemma modify_shared sch m xs ys s path j new h : into_container sch m s ->
  (forall i, (i < length (md_fields (msg_at sch m)))%nat -> container (f_ty (field_at sch m i)) = true ->
     nth i xs (MOwn None) = nth i ys (MOwn None)) ->
  modify sch (s :: path) j new m xs h =
  match modify sch (s :: path) j new m ys h with Some (_, h') => Some (xs, h') | None => None end.
Proof.
  intros I E. destruct s as [i|i n|i k key]; [contradiction| |]; destruct I as [Hi C]; cbn [modify]; rewrite (E i Hi C).
  - destruct (nth n (ptrs_of (nth i ys (MOwn None))) None) as [a|]; [|reflexivity].
    destruct (nth_error h a) as [o|]; [|reflexivity]. destruct (modify sch path j new _ o h) as [[o' h']|]; reflexivity.
  - destruct (qmap_value k key _) as [a|]; [|reflexivity].
    destruct (nth_error h a) as [o|]; [|reflexivity]. destruct (modify sch path j new _ o h) as [[o' h']|]; reflexivity.
Qed.

Lemma modify_same_object sch m ys s path j new h ys' h' : into_container sch m s ->
  modify sch (s :: path) j new m ys h = Some (ys', h') -> ys' = ys.
Proof.
  intros I E. destruct s as [i|i n|i k key]; [contradiction| |]; cbn [modify] in E.
  - destruct (nth n (ptrs_of (nth i ys (MOwn None))) None) as [a|]; [|discriminate].
    destruct (nth_error h a) as [o|]; [|discriminate]. destruct (modify sch path j new _ o h) as [[o' h'']|]; congruence.
  - destruct (qmap_value k key _) as [a|]; [|discriminate].
    destruct (nth_error h a) as [o|]; [|discriminate]. destruct (modify sch path j new _ o h) as [[o' h'']|]; congruence.
Qed.

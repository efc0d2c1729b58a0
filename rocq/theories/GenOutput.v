(** Proofs about what the generator prints: namespaces, classes and their order. *)

From Coq Require Import String Ascii ZArith List Bool Arith Permutation Lia.
From Verif Require Import GenModel GenSpec GenStrings.
Import ListNotations.
Open Scope list_scope.

(** * Induction on messages *)

Definition descriptor_rect' (P : descriptor -> Prop)
  (H : forall id name fs nested, Forall P nested -> P (Descriptor id name fs nested)) :
  forall d, P d :=
  fix go d :=
    match d with
    | Descriptor id name fs nested =>
        H id name fs nested
          ((fix all l : Forall P l :=
              match l with [] => Forall_nil P | n :: l' => Forall_cons n (go n) (all l') end) nested)
    end.

(** * Visited messages *)

Lemma used_by_spec : forall fs id,
  used_by fs id = true <-> exists f, In f fs /\ f_map f = false /\ f_type_of f = Some id.
Proof.
  intros fs id. unfold used_by. rewrite existsb_exists. split.
  - intros (f & I & H). apply andb_prop in H. destruct H as [A B]. apply negb_true_iff in A.
    destruct (f_type_of f) as [t |] eqn:T; [| discriminate]. apply Nat.eqb_eq in B. subst t. eauto.
  - intros (f & I & A & B). exists f. rewrite A, B, Nat.eqb_refl. auto.
Qed.

Lemma visited_spec : forall d n,
  visited (d_fields d) n = true <-> d_fields d = [] \/ field_of_type d n.
Proof.
  intros d n. unfold visited, field_of_type. destruct (d_fields d) as [| f fs] eqn:E.
  - split; auto.
  - rewrite <- used_by_spec. split; [auto |]. intros [H | H]; [discriminate | exact H].
Qed.

(** The visited messages in the order of their classes, each with its namespaces. *)
Fixpoint spots (path : list string) (d : descriptor) : list (list string * descriptor) :=
  match d with
  | Descriptor id name fs nested =>
      flat_map (fun n => if visited fs n then spots (path ++ [(upperCaseName name ++ nested_suffix)%string]) n else [])
        nested
      ++ [(path, Descriptor id name fs nested)]
  end.
Fixpoint sub (d : descriptor) : list descriptor :=
  match d with
  | Descriptor id name fs nested =>
      flat_map (fun n => if visited fs n then sub n else []) nested ++ [Descriptor id name fs nested]
  end.

Lemma flat_map_ext_Forall : forall A B (f g : A -> list B) l,
  Forall (fun x => f x = g x) l -> flat_map f l = flat_map g l.
Proof. induction 1; cbn; congruence. Qed.

Lemma map_flat_map : forall A B C (h : B -> C) (f : A -> list B) l,
  map h (flat_map f l) = flat_map (fun x => map h (f x)) l.
Proof. induction l; cbn; [reflexivity |]. rewrite map_app, IHl. reflexivity. Qed.

Lemma spots_sub : forall d path, map snd (spots path d) = sub d.
Proof.
  induction d as [id name fs nested IH] using descriptor_rect'. intro path. cbn [spots sub].
  rewrite map_app, map_flat_map. f_equal.
  apply flat_map_ext_Forall. eapply Forall_impl; [| exact IH].
  intros n Hn. cbn. destruct (visited fs n); [apply Hn | reflexivity].
Qed.

Lemma spots_path : forall ds base d path,
  at_path base ds path d -> forall p m, In (p, m) (spots path d) -> at_path base ds p m.
Proof.
  intros ds base. induction d as [id name fs nested IH] using descriptor_rect'.
  intros path A p m I. cbn [spots] in I. apply in_app_or in I. destruct I as [I | [I | []]].
  - apply in_flat_map in I. destruct I as (n & In_ & I).
    destruct (visited fs n); [| destruct I].
    rewrite Forall_forall in IH. eapply (IH n In_); [| exact I].
    rewrite <- first_capital_eq. exact (at_nested base ds path (Descriptor id name fs nested) n A In_).
  - injection I as <- <-. exact A.
Qed.

Lemma sub_self : forall d, In d (sub d).
Proof. destruct d. cbn [sub]. apply in_or_app. right. left. reflexivity. Qed.

Lemma messages_self : forall d, In d (messages_of d).
Proof. destruct d. left. reflexivity. Qed.

Lemma sub_messages : forall d, incl (sub d) (messages_of d).
Proof.
  induction d as [id name fs nested IH] using descriptor_rect'. intros m I.
  cbn [sub] in I. apply in_app_or in I. destruct I as [I | [<- | []]]; [| left; reflexivity].
  apply in_flat_map in I. destruct I as (n & J & I). destruct (visited fs n); [| destruct I].
  right. apply in_flat_map. exists n. split; [exact J |].
  rewrite Forall_forall in IH. exact (IH n J m I).
Qed.

Lemma messages_nested : forall d m n, In m (messages_of d) -> In n (d_nested m) -> In n (messages_of d).
Proof.
  induction d as [id name fs nested IH] using descriptor_rect'. intros m n I J.
  cbn [messages_of] in I. destruct I as [<- | I].
  - cbn in J. right. apply in_flat_map. exists n. split; [exact J | apply messages_self].
  - apply in_flat_map in I. destruct I as (k & K & I). right. apply in_flat_map. exists k.
    split; [exact K |]. rewrite Forall_forall in IH. exact (IH k K m n I J).
Qed.

Lemma all_nested : forall ds m n, In m (all_messages ds) -> In n (d_nested m) -> In n (all_messages ds).
Proof.
  intros ds m n I J. unfold all_messages in *. apply in_flat_map in I. destruct I as (d & D & I).
  apply in_flat_map. exists d. split; [exact D | eapply messages_nested; eauto].
Qed.

Lemma all_top : forall ds d, In d ds -> In d (all_messages ds).
Proof. intros ds d I. apply in_flat_map. exists d. split; [exact I | apply messages_self]. Qed.

Lemma wants_all : forall ds m, wants_class ds m -> In m (all_messages ds).
Proof.
  intros ds m H. induction H; [apply all_top; assumption |]. eapply all_nested; eassumption.
Qed.

(** Nested visited messages of visited messages are visited. *)
Lemma sub_nested : forall d m n, In m (sub d) -> In n (d_nested m) -> visited (d_fields m) n = true -> In n (sub d).
Proof.
  induction d as [id name fs nested IH] using descriptor_rect'. intros m n I J V.
  cbn [sub] in I. apply in_app_or in I. destruct I as [I | [<- | []]].
  - apply in_flat_map in I. destruct I as (k & K & I). cbn [sub]. apply in_or_app. left.
    apply in_flat_map. exists k. split; [exact K |]. destruct (visited fs k); [| destruct I].
    rewrite Forall_forall in IH. exact (IH k K m n I J V).
  - cbn [d_nested d_fields] in J, V. cbn [sub]. apply in_or_app. left. apply in_flat_map. exists n.
    split; [exact J |]. rewrite V. apply sub_self.
Qed.

(** Every visited message other than the outermost is a visited one of a visited one. *)
Lemma sub_inv : forall d m, In m (sub d) ->
  m = d \/ exists k, In k (sub d) /\ In m (d_nested k) /\ visited (d_fields k) m = true.
Proof.
  induction d as [id name fs nested IH] using descriptor_rect'. intros m I.
  cbn [sub] in I. apply in_app_or in I. destruct I as [I | [<- | []]]; [right | left; reflexivity].
  apply in_flat_map in I. destruct I as (n & J & I). destruct (visited fs n) eqn:V; [| destruct I].
  rewrite Forall_forall in IH. destruct (IH n J m I) as [E | (k & K & Ik & Vk)].
  - subst m. exists (Descriptor id name fs nested). split; [apply sub_self | auto].
  - exists k. split; [| auto]. cbn [sub]. apply in_or_app. left. apply in_flat_map. exists n.
    split; [exact J |]. rewrite V. exact K.
Qed.

Lemma NoDup_app_inv : forall A (l m : list A),
  NoDup (l ++ m) -> NoDup l /\ NoDup m /\ forall x, In x l -> ~ In x m.
Proof.
  induction l as [| a l IH]; intros m H; cbn in *.
  - repeat split; [constructor | exact H |]. intros x [].
  - inversion H as [| x r Hx Hr]; subst. destruct (IH m Hr) as (A1 & A2 & A3).
    repeat split; [| exact A2 |].
    + constructor; [| exact A1]. intro I. apply Hx. apply in_or_app; auto.
    + intros x [<- | I] J; [apply Hx; apply in_or_app; auto | exact (A3 x I J)].
Qed.

Lemma NoDup_app_intro : forall A (l m : list A),
  NoDup l -> NoDup m -> (forall x, In x l -> ~ In x m) -> NoDup (l ++ m).
Proof.
  induction l as [| a l IH]; intros m Hl Hm D; cbn; [exact Hm |].
  inversion Hl; subst. constructor.
  - intro I. apply in_app_or in I. destruct I as [I | I]; [contradiction | exact (D a (or_introl eq_refl) I)].
  - apply IH; [assumption | exact Hm |]. intros x I. apply D. right; exact I.
Qed.

(** A choice of parts with parts taken from lists without repetition has none. *)
Lemma NoDup_part : forall (f g : descriptor -> list descriptor) l,
  (forall x, In x l -> incl (f x) (g x)) ->
  (forall x, In x l -> NoDup (map d_id (g x)) -> NoDup (map d_id (f x))) ->
  NoDup (map d_id (flat_map g l)) -> NoDup (map d_id (flat_map f l)).
Proof.
  induction l as [| a l IH]; intros Inc Nd H; cbn in *; [constructor |].
  rewrite map_app in *. apply NoDup_app_inv in H. destruct H as (H1 & H2 & H3).
  apply NoDup_app_intro.
  - apply Nd; auto.
  - apply IH; auto.
  - intros x I J. apply (H3 x).
    + apply in_map_iff in I. destruct I as (y & <- & I). apply in_map. apply (Inc a); auto.
    + apply in_map_iff in J. destruct J as (y & <- & J). apply in_map.
      apply in_flat_map in J. destruct J as (z & Z1 & Z2). apply in_flat_map. exists z.
      split; [exact Z1 | apply (Inc z); auto].
Qed.

Lemma NoDup_sub : forall d, NoDup (map d_id (messages_of d)) -> NoDup (map d_id (sub d)).
Proof.
  induction d as [id name fs nested IH] using descriptor_rect'. intro H.
  cbn [messages_of] in H. cbn [map] in H. inversion H as [| x l Hx Hn]; subst.
  cbn [sub]. rewrite map_app. rewrite Forall_forall in IH.
  apply NoDup_app_intro.
  - apply (NoDup_part _ messages_of); [| | exact Hn].
    + intros n J m I. destruct (visited fs n); [apply sub_messages; exact I | destruct I].
    + intros n J N. destruct (visited fs n); [apply IH; assumption | constructor].
  - repeat constructor. intros [].
  - intros y I [J | []]. cbn in J. subst y. apply Hx.
    apply in_map_iff in I. destruct I as (m & E & I). rewrite <- E. apply in_map.
    apply in_flat_map in I. destruct I as (n & J & I). apply in_flat_map. exists n. split; [exact J |].
    destruct (visited fs n); [apply sub_messages; exact I | destruct I].
Qed.

Lemma NoDup_subs : forall ds, NoDup (map d_id (all_messages ds)) -> NoDup (map d_id (flat_map sub ds)).
Proof.
  intros ds H. apply (NoDup_part sub messages_of ds); [| | exact H].
  - intros x _. apply sub_messages.
  - intros x _. apply NoDup_sub.
Qed.

Lemma NoDup_id_inj : forall l a b, NoDup (map d_id l) -> In a l -> In b l -> d_id a = d_id b -> a = b.
Proof.
  induction l as [| x l IH]; intros a b N Ia Ib E; [destruct Ia |].
  cbn in N. inversion N as [| y r Hx Hn]; subst.
  destruct Ia as [<- | Ia], Ib as [<- | Ib]; auto.
  - exfalso. apply Hx. rewrite E. apply in_map; exact Ib.
  - exfalso. apply Hx. rewrite <- E. apply in_map; exact Ia.
Qed.

Lemma subs_wants : forall ds m, valid_messages ds -> In m (flat_map sub ds) -> wants_class ds m.
Proof.
  intros ds m (_ & V) I. apply in_flat_map in I. destruct I as (d & D & I).
  assert (K : forall x, In x (messages_of d) -> In x (all_messages ds)).
  { intros x X. apply in_flat_map. exists d. auto. }
  pose proof (wants_top ds d D) as W. clear D. revert W K m I.
  induction d as [id name fs nested IH] using descriptor_rect'. intros W K m I.
  cbn [sub] in I. apply in_app_or in I. destruct I as [I | [<- | []]]; [| exact W].
  apply in_flat_map in I. destruct I as (n & J & I). destruct (visited fs n) eqn:Vn; [| destruct I].
  rewrite Forall_forall in IH. apply (IH n J); [| | exact I].
  - eapply wants_nested; [exact W | exact J |].
    intro M. destruct (V (Descriptor id name fs nested) n (K _ (messages_self _)) J M) as [NF _].
    change fs with (d_fields (Descriptor id name fs nested)) in Vn. apply visited_spec in Vn.
    destruct Vn as [E | F]; [| contradiction].
    destruct M as (f & If & _). rewrite E in If. destruct If.
  - intros x X. apply K. right. apply in_flat_map. exists n. auto.
Qed.

(** Every message but the outermost ones stands in exactly one other. *)
Lemma messages_nested_once_list : forall l,
  Forall (fun d => Permutation (messages_of d) (d :: flat_map d_nested (messages_of d))) l ->
  Permutation (flat_map messages_of l) (l ++ flat_map d_nested (flat_map messages_of l)).
Proof.
  induction l as [| x l IH]; intro F; [constructor |]. cbn [flat_map].
  rewrite flat_map_app. rewrite (Forall_inv F) at 1. rewrite (IH (Forall_inv_tail F)) at 1.
  cbn [app]. constructor. rewrite !app_assoc. apply Permutation_app_tail. apply Permutation_app_comm.
Qed.

Lemma messages_nested_once : forall d, Permutation (messages_of d) (d :: flat_map d_nested (messages_of d)).
Proof.
  induction d as [id name fs nested IH] using descriptor_rect'. cbn [messages_of flat_map d_nested].
  constructor. apply messages_nested_once_list. exact IH.
Qed.

Lemma flat_map_NoDup_inj : forall A B (f : A -> list B) l a b x,
  NoDup (flat_map f l) -> In a l -> In b l -> In x (f a) -> In x (f b) -> a = b.
Proof.
  induction l as [| y l IH]; intros a b x N Ia Ib Xa Xb; [destruct Ia |].
  cbn in N. apply NoDup_app_inv in N. destruct N as (_ & N & D).
  destruct Ia as [<- | Ia]; destruct Ib as [<- | Ib]; [reflexivity | | | eauto].
  - exfalso. apply (D x Xa). apply in_flat_map. eauto.
  - exfalso. apply (D x Xb). apply in_flat_map. eauto.
Qed.

Lemma nested_parent : forall ds,
  NoDup (map d_id (all_messages ds)) ->
  forall d n, In d (all_messages ds) -> In n (d_nested d) ->
    ~ In n ds /\ forall k, In k (all_messages ds) -> In n (d_nested k) -> k = d.
Proof.
  intros ds N d n D J. apply NoDup_map_inv in N. unfold all_messages in *.
  pose proof (messages_nested_once_list ds (proj2 (Forall_forall _ ds) (fun x _ => messages_nested_once x))) as P.
  apply (Permutation_NoDup P) in N. apply NoDup_app_inv in N. destruct N as (_ & N & X). split.
  - intro T. apply (X n T). apply in_flat_map. eauto.
  - intros k K Jk. eapply flat_map_NoDup_inj; eassumption.
Qed.

(** * Namespaces *)

(** Printed constructs that leave the open namespaces as they were. *)
Definition block (stack : list string) (l : list item) (r : list (list string * item)) : Prop :=
  forall rest, placed_in stack (l ++ rest) = option_map (app r) (placed_in stack rest).

Lemma option_map_app : forall A (r s : list A) o, option_map (app (r ++ s)) o = option_map (app r) (option_map (app s) o).
Proof. intros A r s [x |]; cbn; [now rewrite app_assoc | reflexivity]. Qed.

Lemma block_nil : forall stack, block stack [] [].
Proof. intros stack rest. cbn. destruct (placed_in stack rest); reflexivity. Qed.

Lemma block_app : forall stack l m r s, block stack l r -> block stack m s -> block stack (l ++ m) (r ++ s).
Proof. intros stack l m r s L M rest. rewrite <- app_assoc, L, M, option_map_app. reflexivity. Qed.

Lemma block_flat : forall A stack (f : A -> list item) g l,
  (forall x, In x l -> block stack (f x) (g x)) -> block stack (flat_map f l) (flat_map g l).
Proof.
  induction l as [| x l IH]; intro H; cbn; [apply block_nil |].
  apply block_app; [apply H; left; reflexivity | apply IH; intros; apply H; right; assumption].
Qed.

Lemma block_one : forall stack x,
  (forall ns, x <> Open ns) -> x <> Close -> block stack [x] [(stack, x)].
Proof. intros stack x A B rest. destruct x; try congruence; reflexivity. Qed.

Lemma block_ns : forall stack ns l r, block (stack ++ [ns]) l r -> block stack (Open ns :: l ++ [Close]) r.
Proof.
  intros stack ns l r H rest. cbn [app placed_in]. rewrite <- app_assoc, H. cbn [app placed_in].
  destruct (stack ++ [ns]) eqn:E; [destruct stack; discriminate |]. rewrite <- E, removelast_last. reflexivity.
Qed.

Lemma repeat_snoc : forall A (x : A) n, repeat x n ++ [x] = repeat x (S n).
Proof. induction n; cbn; [reflexivity | now rewrite IHn]. Qed.

Lemma block_nss : forall nss stack l r,
  block (stack ++ nss) l r -> block stack (map Open nss ++ l ++ repeat Close (List.length nss)) r.
Proof.
  induction nss as [| ns nss IH]; intros stack l r H; cbn.
  - rewrite app_nil_r in *. exact H.
  - change (Close :: repeat Close (List.length nss)) with (repeat Close (S (List.length nss))).
    rewrite <- repeat_snoc, !app_assoc, <- (app_assoc _ l). apply block_ns. apply IH.
    rewrite <- app_assoc. exact H.
Qed.

Lemma block_placed : forall l r, block [] l r -> placed l = Some r.
Proof.
  intros l r H. specialize (H []). rewrite app_nil_r in H. unfold placed. rewrite H. cbn.
  now rewrite app_nil_r.
Qed.

Definition forward_spot (x : list string * descriptor) : list string * item :=
  (fst x, Forward (d_id (snd x)) (upperCaseName (d_name (snd x)))).
Definition declare_spot (x : list string * descriptor) : list string * item :=
  (fst x, Declare (d_id (snd x)) (upperCaseName (d_name (snd x)))
            (class_mentions (d_fields (snd x)) (d_nested (snd x)))).
Definition define_spot (x : list string * descriptor) : list string * item :=
  (fst x, Define (d_id (snd x)) (upperCaseName (d_name (snd x)))).

Lemma has_nested_visited : forall id name fs nested,
  hasNestedMessages (Descriptor id name fs nested) = existsb (visited fs) nested.
Proof.
  intros id name fs nested. unfold hasNestedMessages. cbn [d_nested d_fields].
  destruct nested as [| n nested]; [destruct fs; reflexivity |].
  destruct fs as [| f fs]; reflexivity.
Qed.

Lemma none_visited : forall A (fs : list field) (f : descriptor -> list A) nested,
  existsb (visited fs) nested = false -> flat_map (fun n => if visited fs n then f n else []) nested = [].
Proof.
  induction nested as [| n l IH]; intro H; cbn in *; [reflexivity |].
  apply orb_false_elim in H. destruct H as [V W]. rewrite V. apply IH; exact W.
Qed.

Lemma block_forward : forall d path, block path (forward_private d) (map forward_spot (spots path d)).
Proof.
  induction d as [id name fs nested IH] using descriptor_rect'. intro path.
  cbn [forward_private spots]. rewrite map_app, map_flat_map. apply block_app; [| apply block_one; discriminate].
  rewrite has_nested_visited. destruct (existsb (visited fs) nested) eqn:V.
  - apply block_ns. apply block_flat. intros n J. rewrite Forall_forall in IH.
    destruct (visited fs n); [apply IH; exact J | apply block_nil].
  - assert (E : forall g : list string * descriptor -> list string * item, flat_map (fun x : descriptor =>
      map g (if visited fs x then spots (path ++ [(upperCaseName name ++ nested_suffix)%string]) x else [])) nested
      = []).
    { intro g. rewrite <- map_flat_map, none_visited by exact V. reflexivity. }
    rewrite E. apply block_nil.
Qed.

Lemma block_define : forall d path, block path (define_private d) (map define_spot (spots path d)).
Proof.
  induction d as [id name fs nested IH] using descriptor_rect'. intro path.
  cbn [define_private spots]. rewrite map_app, map_flat_map. apply block_app; [| apply block_one; discriminate].
  rewrite has_nested_visited. destruct (existsb (visited fs) nested) eqn:V.
  - apply block_ns. apply block_flat. intros n J. rewrite Forall_forall in IH.
    destruct (visited fs n); [apply IH; exact J | apply block_nil].
  - assert (E : forall g : list string * descriptor -> list string * item, flat_map (fun x : descriptor =>
      map g (if visited fs x then spots (path ++ [(upperCaseName name ++ nested_suffix)%string]) x else [])) nested
      = []).
    { intro g. rewrite <- map_flat_map, none_visited by exact V. reflexivity. }
    rewrite E. apply block_nil.
Qed.

Lemma block_declare : forall d path, block path (declare_private d) (map declare_spot (spots path d)).
Proof.
  induction d as [id name fs nested IH] using descriptor_rect'. intro path.
  cbn [declare_private spots]. rewrite map_app, map_flat_map.
  change [Close; Declare id (upperCaseName name) (class_mentions fs nested)]
    with ([Close] ++ [Declare id (upperCaseName name) (class_mentions fs nested)]).
  rewrite app_assoc. rewrite app_comm_cons. apply block_app; [| apply block_one; discriminate].
  apply block_ns. apply block_flat. intros n J. rewrite Forall_forall in IH.
  destruct (visited fs n); [apply IH; exact J | apply block_nil].
Qed.

Lemma full_name_parts : forall parts name,
  package_parts parts -> full_name (package_of parts) name = package_of (parts ++ [name]).
Proof.
  intros parts name P. unfold full_name, package_of. destruct parts as [| p parts]; [reflexivity |].
  rewrite join_snoc by discriminate.
  destruct (join "." (p :: parts)) eqn:E; [| reflexivity].
  exfalso. inversion P as [| x l [Hp _] _]; subst. apply Hp.
  destruct parts as [| q parts]; [exact E |]. rewrite join_cons in E. destruct p; [reflexivity | discriminate].
Qed.

Lemma getNamespaces_parts : forall parts name,
  package_parts (parts ++ [name]) -> getNamespaces (package_of (parts ++ [name])) = parts.
Proof. intros parts name P. unfold getNamespaces. rewrite split_parts by exact P. apply removelast_last. Qed.

Lemma parts_snoc : forall parts name, package_parts parts -> name_ok name -> package_parts (parts ++ [name]).
Proof. intros parts name P N. apply Forall_app. split; [exact P |]. constructor; [exact N | constructor]. Qed.

Lemma namespaces_parts : forall o parts name,
  package_parts parts -> name_ok name ->
  namespaces o (full_name (package_of parts) name) = outer_namespaces o parts.
Proof.
  intros o parts name P N. unfold namespaces, outer_namespaces.
  rewrite full_name_parts, getNamespaces_parts by (try apply parts_snoc; assumption).
  destruct (o_extra o); reflexivity.
Qed.

Lemma enclosed_eq : forall o full l,
  enclosed o full l = map Open (namespaces o full) ++ l ++ repeat Close (List.length (namespaces o full)).
Proof.
  intros o full l. unfold enclosed, printNamespaces, encloseNamespaces, namespaces.
  destruct (o_extra o); reflexivity.
Qed.

Lemma block_enclosed : forall o parts name l r,
  package_parts parts -> name_ok name -> block (outer_namespaces o parts) l r ->
  block [] (enclosed o (full_name (package_of parts) name) l) r.
Proof.
  intros o parts name l r P N H. rewrite enclosed_eq, namespaces_parts by assumption.
  apply block_nss. exact H.
Qed.

Definition other_spot (path : list string) (name : string) : list string * item := (path, Other (upperCaseName name)).

Lemma flat_map_single : forall A B (g : A -> B) l, flat_map (fun x => [g x]) l = map g l.
Proof. induction l; cbn; congruence. Qed.

Lemma block_others : forall o parts l, package_parts parts -> Forall name_ok l ->
  block [] (flat_map (printOther o (package_of parts)) l) (map (other_spot (outer_namespaces o parts)) l).
Proof.
  intros o parts l P N. rewrite <- flat_map_single. apply block_flat. intros x I.
  rewrite Forall_forall in N. apply block_enclosed; auto. apply block_one; discriminate.
Qed.

Definition file_spots (o : options) (parts : list string) (f : file) : list (list string * descriptor) :=
  flat_map (spots (outer_namespaces o parts)) (p_messages f).

Lemma header_placed : forall o parts f,
  package_parts parts -> p_package f = package_of parts -> names_ok f ->
  placed (single_header o f)
  = Some (map (other_spot (outer_namespaces o parts)) (p_enums f)
          ++ map forward_spot (file_spots o parts f) ++ map declare_spot (file_spots o parts f)).
Proof.
  intros o parts f P E (Nm & Ne & _). apply block_placed. unfold single_header. rewrite E.
  rewrite Forall_forall in Nm.
  apply block_app; [apply block_others; assumption |].
  unfold file_spots. rewrite !map_flat_map.
  apply block_app; apply block_flat; intros d I; apply block_enclosed; auto.
  - apply block_forward.
  - apply block_declare.
Qed.

Lemma source_placed : forall o parts f,
  package_parts parts -> p_package f = package_of parts -> names_ok f ->
  placed (single_source o f)
  = Some (map (other_spot (outer_namespaces o parts)) (p_enums f) ++ map define_spot (file_spots o parts f)).
Proof.
  intros o parts f P E (Nm & Ne & _). apply block_placed. unfold single_source. rewrite E.
  rewrite Forall_forall in Nm.
  apply block_app; [apply block_others; assumption |].
  unfold file_spots. rewrite !map_flat_map.
  apply block_flat; intros d I; apply block_enclosed; auto. apply block_define.
Qed.

Lemma services_placed : forall o parts f,
  package_parts parts -> p_package f = package_of parts -> names_ok f ->
  placed (single_services o f) = Some (map (other_spot (outer_namespaces o parts)) (p_services f)).
Proof.
  intros o parts f P E (_ & _ & Ns). apply block_placed. unfold single_services. rewrite E.
  apply block_others; assumption.
Qed.

Lemma file_spots_path : forall o parts f p m,
  In (p, m) (file_spots o parts f) -> at_path (outer_namespaces o parts) (p_messages f) p m.
Proof.
  intros o parts f p m I. apply in_flat_map in I. destruct I as (d & D & I).
  eapply spots_path; [| exact I]. apply at_top. exact D.
Qed.

(** * The order of classes *)

Lemma declared_app : forall l m, declared_ids (l ++ m) = declared_ids l ++ declared_ids m.
Proof. induction l as [| [] l IH]; intro m; cbn; rewrite ?IH; reflexivity. Qed.
Lemma forward_app : forall l m, forward_ids (l ++ m) = forward_ids l ++ forward_ids m.
Proof. induction l as [| [] l IH]; intro m; cbn; rewrite ?IH; reflexivity. Qed.
Lemma defined_app : forall l m, defined_ids (l ++ m) = defined_ids l ++ defined_ids m.
Proof. induction l as [| [] l IH]; intro m; cbn; rewrite ?IH; reflexivity. Qed.

Lemma ids_flat : forall A B (h : list item -> list B) (f : A -> list item) l,
  (forall l m, h (l ++ m) = h l ++ h m) -> h [] = [] -> h (flat_map f l) = flat_map (fun x => h (f x)) l.
Proof. induction l; intros HA HN; cbn; [exact HN |]. rewrite HA, IHl by assumption. reflexivity. Qed.

Lemma open_no_ids : forall nss,
  declared_ids (map Open nss) = [] /\ forward_ids (map Open nss) = [] /\ defined_ids (map Open nss) = [].
Proof. induction nss; cbn; auto. Qed.
Lemma close_no_ids : forall n,
  declared_ids (repeat Close n) = [] /\ forward_ids (repeat Close n) = [] /\ defined_ids (repeat Close n) = [].
Proof. induction n; cbn; auto. Qed.

Lemma declare_ids : forall d, declared_ids (declare_private d) = map d_id (sub d)
  /\ forward_ids (declare_private d) = [] /\ defined_ids (declare_private d) = [].
Proof.
  induction d as [id name fs nested IH] using descriptor_rect'. cbn [declare_private sub].
  rewrite Forall_forall in IH.
  cbn [declared_ids forward_ids defined_ids]. rewrite declared_app, forward_app, defined_app, map_app, map_flat_map.
  cbn [declared_ids forward_ids defined_ids].
  rewrite (ids_flat _ _ declared_ids), (ids_flat _ _ forward_ids), (ids_flat _ _ defined_ids)
    by (auto using declared_app, forward_app, defined_app).
  rewrite !app_nil_r. repeat split.
  - f_equal. apply flat_map_ext_Forall. apply Forall_forall. intros n J.
    destruct (visited fs n); [apply IH; exact J | reflexivity].
  - rewrite (flat_map_ext_Forall _ _ _ (fun _ => [])); [clear; induction nested; auto |].
    apply Forall_forall. intros n J. destruct (visited fs n); [apply IH; exact J | reflexivity].
  - rewrite (flat_map_ext_Forall _ _ _ (fun _ => [])); [clear; induction nested; auto |].
    apply Forall_forall. intros n J. destruct (visited fs n); [apply IH; exact J | reflexivity].
Qed.

Lemma forward_private_ids : forall d, forward_ids (forward_private d) = map d_id (sub d)
  /\ declared_ids (forward_private d) = [].
Proof.
  induction d as [id name fs nested IH] using descriptor_rect'. cbn [forward_private sub].
  rewrite Forall_forall in IH. rewrite has_nested_visited, forward_app, declared_app, map_app, map_flat_map.
  cbn [declared_ids forward_ids]. rewrite app_nil_r.
  destruct (existsb (visited fs) nested) eqn:V.
  - cbn [declared_ids forward_ids]. rewrite declared_app, forward_app. cbn [declared_ids forward_ids].
    rewrite (ids_flat _ _ declared_ids), (ids_flat _ _ forward_ids) by (auto using declared_app, forward_app).
    rewrite !app_nil_r. split.
    + cbn. f_equal. apply flat_map_ext_Forall. apply Forall_forall. intros n J.
      destruct (visited fs n); [apply IH; exact J | reflexivity].
    + rewrite (flat_map_ext_Forall _ _ _ (fun _ => [])); [clear; induction nested; auto |].
      apply Forall_forall. intros n J. destruct (visited fs n); [apply IH; exact J | reflexivity].
  - assert (E : flat_map (fun x => map d_id (if visited fs x then sub x else [])) nested = []).
    { rewrite <- map_flat_map, none_visited by exact V. reflexivity. }
    rewrite E. split; reflexivity.
Qed.

Lemma define_private_ids : forall d, defined_ids (define_private d) = map d_id (sub d).
Proof.
  induction d as [id name fs nested IH] using descriptor_rect'. cbn [define_private sub].
  rewrite Forall_forall in IH. rewrite has_nested_visited, defined_app, map_app, map_flat_map.
  cbn [defined_ids].
  destruct (existsb (visited fs) nested) eqn:V.
  - cbn [defined_ids]. rewrite defined_app. cbn [defined_ids].
    rewrite (ids_flat _ _ defined_ids) by (auto using defined_app).
    rewrite !app_nil_r. cbn. f_equal. apply flat_map_ext_Forall. apply Forall_forall. intros n J.
    destruct (visited fs n); [apply IH; exact J | reflexivity].
  - assert (E : flat_map (fun x => map d_id (if visited fs x then sub x else [])) nested = []).
    { rewrite <- map_flat_map, none_visited by exact V. reflexivity. }
    rewrite E. reflexivity.
Qed.

Lemma enclosed_ids : forall o full l,
  declared_ids (enclosed o full l) = declared_ids l /\ forward_ids (enclosed o full l) = forward_ids l
  /\ defined_ids (enclosed o full l) = defined_ids l.
Proof.
  intros o full l. rewrite enclosed_eq, !declared_app, !forward_app, !defined_app.
  destruct (open_no_ids (namespaces o full)) as (A & B & C).
  destruct (close_no_ids (List.length (namespaces o full))) as (D & E & F).
  rewrite A, B, C, D, E, F, !app_nil_r. auto.
Qed.

Lemma others_ids : forall o package l,
  declared_ids (flat_map (printOther o package) l) = [] /\ forward_ids (flat_map (printOther o package) l) = []
  /\ defined_ids (flat_map (printOther o package) l) = [].
Proof.
  induction l as [| x l (A & B & C)]; [auto |]. cbn [flat_map].
  rewrite declared_app, forward_app, defined_app, A, B, C.
  unfold printOther. destruct (enclosed_ids o (full_name package x) [Other (upperCaseName x)]) as (D & E & F).
  rewrite D, E, F. auto.
Qed.

Lemma flat_map_map : forall A B C (h : B -> C) (f : A -> list B) l,
  flat_map (fun x => map h (f x)) l = map h (flat_map f l).
Proof. intros. symmetry. apply map_flat_map. Qed.

Lemma declarations_ids : forall o package ds,
  declared_ids (flat_map (printClassDeclaration o package) ds) = map d_id (flat_map sub ds)
  /\ forward_ids (flat_map (printClassDeclaration o package) ds) = [].
Proof.
  intros o package ds.
  rewrite (ids_flat _ _ declared_ids), (ids_flat _ _ forward_ids) by (auto using declared_app, forward_app).
  split.
  - rewrite <- flat_map_map. apply flat_map_ext. intro d. unfold printClassDeclaration.
    destruct (enclosed_ids o (full_name package (d_name d)) (declare_private d)) as (A & _).
    rewrite A. apply declare_ids.
  - induction ds as [| d ds IH]; [reflexivity |]. cbn [flat_map]. rewrite IH, app_nil_r.
    unfold printClassDeclaration.
    destruct (enclosed_ids o (full_name package (d_name d)) (declare_private d)) as (_ & A & _).
    rewrite A. apply declare_ids.
Qed.

Lemma forwards_ids : forall o package ds,
  forward_ids (flat_map (printClassForwardDeclaration o package) ds) = map d_id (flat_map sub ds)
  /\ declared_ids (flat_map (printClassForwardDeclaration o package) ds) = [].
Proof.
  intros o package ds.
  rewrite (ids_flat _ _ declared_ids), (ids_flat _ _ forward_ids) by (auto using declared_app, forward_app).
  split.
  - rewrite <- flat_map_map. apply flat_map_ext. intro d. unfold printClassForwardDeclaration.
    destruct (enclosed_ids o (full_name package (d_name d)) (forward_private d)) as (_ & A & _).
    rewrite A. apply forward_private_ids.
  - induction ds as [| d ds IH]; [reflexivity |]. cbn [flat_map]. rewrite IH, app_nil_r.
    unfold printClassForwardDeclaration.
    destruct (enclosed_ids o (full_name package (d_name d)) (forward_private d)) as (A & _).
    rewrite A. apply forward_private_ids.
Qed.

Lemma definitions_ids : forall o package ds,
  defined_ids (flat_map (printClassDefinition o package) ds) = map d_id (flat_map sub ds).
Proof.
  intros o package ds.
  rewrite (ids_flat _ _ defined_ids) by (auto using defined_app).
  rewrite <- flat_map_map. apply flat_map_ext. intro d. unfold printClassDefinition.
  destruct (enclosed_ids o (full_name package (d_name d)) (define_private d)) as (_ & _ & A).
  rewrite A. apply define_private_ids.
Qed.

Lemma header_ids : forall o f,
  declared_ids (single_header o f) = map d_id (flat_map sub (p_messages f))
  /\ forward_ids (single_header o f) = map d_id (flat_map sub (p_messages f)).
Proof.
  intros o f. unfold single_header. rewrite !declared_app, !forward_app.
  destruct (others_ids o (p_package f) (p_enums f)) as (A & B & _).
  destruct (declarations_ids o (p_package f) (p_messages f)) as (C & D).
  destruct (forwards_ids o (p_package f) (p_messages f)) as (E & F).
  rewrite A, B, C, D, E, F, app_nil_r. auto.
Qed.

Lemma source_ids : forall o f, defined_ids (single_source o f) = map d_id (flat_map sub (p_messages f)).
Proof.
  intros o f. unfold single_source. rewrite defined_app, definitions_ids.
  destruct (others_ids o (p_package f) (p_enums f)) as (_ & _ & C). rewrite C. reflexivity.
Qed.

(** Where a declaration stands all forward declarations have been printed. *)
Lemma declare_after_forwards : forall o f a id name ms b,
  single_header o f = a ++ Declare id name ms :: b ->
  forall t, In t (declared_ids (single_header o f)) -> In t (forward_ids a).
Proof.
  intros o f a id name ms b E t I.
  destruct (header_ids o f) as (Hd & Hf). rewrite Hd, <- Hf in I.
  assert (N : forward_ids b = []).
  { unfold single_header in E.
    set (x := flat_map (printOther o (p_package f)) (p_enums f)) in *.
    set (y := flat_map (printClassForwardDeclaration o (p_package f)) (p_messages f)) in *.
    set (z := flat_map (printClassDeclaration o (p_package f)) (p_messages f)) in *.
    assert (Dx : declared_ids (x ++ y) = []).
    { rewrite declared_app. subst x y. rewrite (proj1 (others_ids _ _ _)), (proj2 (forwards_ids _ _ _)). reflexivity. }
    assert (Fz : forward_ids z = []) by (subst z; apply declarations_ids).
    rewrite app_assoc in E.
    assert (L : exists c, a = (x ++ y) ++ c).
    { clear Fz. revert E Dx. generalize (x ++ y). intros w E Dx. clear -E Dx. revert a E.
      induction w as [| i w IH]; intros a E; [exists a; reflexivity |].
      destruct a as [| j a]; cbn in E.
      - injection E as Q _. subst i. discriminate Dx.
      - injection E as Q E. subst j. assert (Dw : declared_ids w = []) by (destruct i; [exact Dx .. | discriminate | exact Dx | exact Dx]).
        destruct (IH Dw a E) as [c C]. exists c. now rewrite C. }
    destruct L as [c L]. subst a. rewrite <- (app_assoc (x ++ y)) in E. apply app_inv_head in E.
    rewrite E in Fz. rewrite forward_app in Fz. apply app_eq_nil in Fz. destruct Fz as [_ Fz]. exact Fz. }
  rewrite E, forward_app in I. apply in_app_or in I. destruct I as [I | I]; [exact I |].
  cbn in I. rewrite N in I. destruct I.
Qed.

(** * Places of nested messages *)

Definition nested_place (name : string) : string := (upperCaseName name ++ nested_suffix)%string.

Lemma spots_inside : forall ds base d path around,
  path = base ++ map nested_place around -> inside ds around d ->
  forall p m, In (p, m) (spots path d) ->
    exists around', p = base ++ map nested_place around' /\ inside ds around' m.
Proof.
  intros ds base. induction d as [id name fs nested IH] using descriptor_rect'. intros path around E A p m I.
  cbn [spots] in I. apply in_app_or in I. destruct I as [I | [I | []]].
  - apply in_flat_map in I. destruct I as (n & J & I). destruct (visited fs n); [| destruct I].
    rewrite Forall_forall in IH.
    apply (IH n J (path ++ [nested_place name]) (around ++ [name])); [| | exact I].
    + rewrite map_app, app_assoc. cbn [map]. congruence.
    + change name with (d_name (Descriptor id name fs nested)). eapply inside_nested; [exact A | exact J].
  - injection I as <- <-. exists around. auto.
Qed.

Lemma file_spots_inside : forall o parts f p m,
  In (p, m) (file_spots o parts f) ->
  exists around, p = outer_namespaces o parts ++ map nested_place around /\ inside (p_messages f) around m.
Proof.
  intros o parts f p m I. unfold file_spots in I. apply in_flat_map in I. destruct I as (d & D & I).
  eapply spots_inside; [| apply inside_top; exact D | exact I]. symmetry. apply app_nil_r.
Qed.

Lemma inside_all : forall ds around m, inside ds around m -> In m (all_messages ds)
  /\ forall n, In n around -> exists d, In d (all_messages ds) /\ d_name d = n.
Proof.
  intros ds around m H. induction H as [d D | around d n H (IH & IA) J].
  - split; [apply all_top; exact D | intros n []].
  - split; [eapply all_nested; eassumption |]. intros x X. apply in_app_or in X.
    destruct X as [X | [<- | []]]; eauto.
Qed.

Lemma suffix_from_app : forall parts l, suffix_from (List.length parts) (parts ++ l) = parts ++ map (fun n => (n ++ nested_suffix)%string) l.
Proof.
  induction parts as [| p parts IH]; intro l; cbn [List.length suffix_from app].
  - induction l as [| n l IH]; [reflexivity |]. cbn. f_equal. exact IH.
  - f_equal. apply IH.
Qed.

Lemma nested_namespaces_parts : forall parts around name,
  package_parts parts -> Forall name_ok around -> name_ok name ->
  getNestedNamespaces (package_of parts) (package_of (parts ++ around ++ [name]))
  = parts ++ map (fun n => (n ++ nested_suffix)%string) around.
Proof.
  intros parts around name P A N. unfold getNestedNamespaces, getNamespaces.
  rewrite (split_parts parts P). rewrite split_parts.
  - rewrite app_assoc, removelast_last. apply suffix_from_app.
  - unfold package_parts. apply Forall_app. split; [exact P |]. apply Forall_app. split; [exact A |].
    constructor; [exact N | constructor].
Qed.

Lemma nested_place_inj : forall l, map nested_place l = map (fun n => (n ++ nested_suffix)%string) l <-> Forall capital l.
Proof.
  induction l as [| n l IH]; cbn; [split; constructor |]. split.
  - intro H. injection H as A B. constructor; [| apply IH; exact B].
    unfold capital. rewrite first_capital_eq. unfold nested_place in A. exact (app_inv_tail_s _ _ _ A).
  - intro F. f_equal; [| apply IH; exact (Forall_inv_tail F)].
    unfold nested_place. rewrite <- first_capital_eq, (Forall_inv F : first_capital n = n). reflexivity.
Qed.

(** The declaration of a class is printed with what it mentions. *)
Lemma declare_in : forall d m, In m (sub d) ->
  In (Declare (d_id m) (upperCaseName (d_name m)) (class_mentions (d_fields m) (d_nested m))) (declare_private d).
Proof.
  induction d as [id name fs nested IH] using descriptor_rect'. intros m I.
  cbn [sub] in I. cbn [declare_private]. right. apply in_or_app. apply in_app_or in I.
  destruct I as [I | [<- | []]]; [left | right; right; left; reflexivity].
  apply in_flat_map in I. destruct I as (n & J & I). apply in_flat_map. exists n. split; [exact J |].
  destruct (visited fs n); [| destruct I]. rewrite Forall_forall in IH. apply (IH n J). exact I.
Qed.

Lemma header_declare : forall o f m, In m (flat_map sub (p_messages f)) ->
  exists a b, single_header o f
    = a ++ Declare (d_id m) (upperCaseName (d_name m)) (class_mentions (d_fields m) (d_nested m)) :: b.
Proof.
  intros o f m I. apply in_split. unfold single_header. apply in_or_app. right. apply in_or_app. right.
  apply in_flat_map in I. destruct I as (d & D & I). apply in_flat_map. exists d. split; [exact D |].
  unfold printClassDeclaration, enclosed. apply in_or_app. right. apply in_or_app. left. apply declare_in. exact I.
Qed.

(** Whatever is read, the object stays well typed. *)

From Coq Require Import ZArith List Bool Lia.
From Verif Require Import Base WireModel Values MessageModel WireSpec WireProofs MessageSpec
  MessageProofs SerializeProofs MessageFacts PropFacts ObjectModel ObjectSpec ObjectProofs.
Import ListNotations.
Open Scope Z_scope.

Lemma varint_loop_range n w : 0 <= w -> forall data it k v u it',
  varint_loop n w data it k v = Ok (u, it') -> in_u w u.
Proof.
  intro W. induction n as [|n IH]; intros data it k v u it' H; cbn [varint_loop] in H; [discriminate|].
  apply bind_Ok in H. destruct H as (b & _ & H). destruct (64 <=? k); [discriminate|].
  apply bind_Ok in H. destruct H as (it1 & _ & H).
  destruct (Z.land b 128 =? 0); [injection H as <- <-; apply wrapU_range; exact W|]. eauto.
Qed.

Lemma varint_range w data it u it' : 0 <= w -> deserializeVarintCommon w data it = Ok (u, it') -> in_u w u.
Proof. intros W H. eapply varint_loop_range; eauto. Qed.

Lemma bytes_app a b : bytes a -> bytes b -> bytes (a ++ b).
Proof. intros A B. apply Forall_app. auto. Qed.

Lemma bytes_firstn n l : bytes l -> bytes (firstn n l).
Proof.
  intro B. rewrite <- (firstn_skipn n l) in B. apply Forall_app in B. tauto.
Qed.
Lemma bytes_skipn n l : bytes l -> bytes (skipn n l).
Proof.
  intro B. rewrite <- (firstn_skipn n l) in B. apply Forall_app in B. tauto.
Qed.
Lemma bytes_slice l p n : bytes l -> bytes (slice l p n).
Proof. intro B. unfold slice. now apply bytes_firstn, bytes_skipn. Qed.
Lemma bytes_nul l : bytes l -> bytes (l ++ [0]).
Proof. intro B. apply bytes_app; auto. repeat constructor; lia. Qed.

Lemma bytes_cstring l : bytes l -> bytes (cstring l).
Proof.
  induction 1 as [|b l B _ IH]; cbn [cstring]; [constructor|].
  destruct (b =? 0); constructor; auto.
Qed.

Lemma le_value_range l : bytes l -> 0 <= le_value l < 2 ^ (8 * Z.of_nat (length l)).
Proof.
  induction 1 as [|b l B _ IH]; [cbn; lia|].
  cbn [le_value length]. rewrite Nat2Z.inj_succ.
  replace (8 * Z.succ (Z.of_nat (length l))) with (8 + 8 * Z.of_nat (length l)) by lia.
  rewrite Z.pow_add_r by lia. change (2 ^ 8) with 256. unfold is_byte in B. lia.
Qed.

Lemma fixed_range hard n data it u it' : 0 <= n -> bytes data ->
  deserializeFixed hard n data it = Ok (u, it') -> in_u (8 * n) u.
Proof.
  intros N B H. unfold deserializeFixed in H. destruct (_ <=? _); [|discriminate].
  apply bind_Ok in H. destruct H as (it1 & _ & H). injection H as <- <-.
  pose proof (le_value_range _ (bytes_slice _ (it_pos it) n (bytes_nul _ B))) as R.
  assert (L : Z.of_nat (length (slice (data ++ [0]) (it_pos it) n)) <= n).
  { unfold slice. pose proof (firstn_le_length (Z.to_nat n) (skipn (Z.to_nat (it_pos it)) (data ++ [0]))). lia. }
  unfold in_u. split; [lia|]. eapply Z.lt_le_trans; [apply R|]. apply Z.pow_le_mono_r; lia.
Qed.

Lemma lendel_bytes hard data it bs it' : bytes data ->
  deserializeLengthDelimited hard data it = Ok (bs, it') -> bytes bs.
Proof.
  intros B H. unfold deserializeLengthDelimited in H. apply bind_Ok in H. destruct H as ([l it1] & _ & H).
  apply bind_Ok in H. destruct H as (r & H1 & H). apply bind_Ok in H. destruct H as (it2 & _ & H).
  injection H as <- <-. destruct (toS 32 l <? 0).
  - injection H1 as <-. now apply bytes_cstring, bytes_skipn.
  - destruct (_ <=? _); [|discriminate]. injection H1 as <-. now apply bytes_slice, bytes_nul.
Qed.

Lemma basic_ok hard t data it s it' : bytes data -> deserializeBasic hard t data it = Ok (s, it') ->
  scalar_ok t s.
Proof.
  intros B H. unfold deserializeBasic in H.
  destruct t; apply bind_Ok in H; destruct H as ([u it1] & H1 & H); injection H as <- <-; cbn [scalar_ok];
    try (eapply varint_range; [|exact H1]; lia); try (apply toS_range; lia);
    try (change 32 with (8 * 4); eapply fixed_range; [|exact B|exact H1]; lia);
    try (change 64 with (8 * 8); eapply fixed_range; [|exact B|exact H1]; lia).
  - destruct (u =? 0); auto.
  - split; [eapply lendel_bytes; eauto | discriminate].
  - split; [eapply lendel_bytes; eauto | discriminate].
Qed.

Lemma list_loop_ok fuel hard t data : bytes data -> forall it last l it',
  list_loop fuel hard t data it last = Ok (l, it') -> Forall (scalar_ok t) l.
Proof.
  intro B. induction fuel as [|fuel IH]; intros it last l it' H; cbn [list_loop] in H; [discriminate|].
  destruct (_ =? _); [injection H as <- <-; constructor|].
  apply bind_Ok in H. destruct H as ([s it1] & H1 & H). apply bind_Ok in H. destruct H as ([l1 it2] & H2 & H).
  injection H as <- <-. constructor; [eapply basic_ok; eauto | eauto].
Qed.

Lemma numeric_ok fuel hard t data it l it' : bytes data ->
  deserializeListNumeric fuel hard t data it = Ok (l, it') -> Forall (scalar_ok t) l.
Proof.
  intros B H. unfold deserializeListNumeric in H. apply bind_Ok in H. destruct H as ([c it1] & _ & H).
  apply bind_Ok in H. destruct H as (last & _ & H). eapply list_loop_ok; eauto.
Qed.

(** ** Maps *)

Lemma key_ltb_left k a b c : key_ltb k a b = false -> key_ltb k b a = false -> key_ltb k c a = key_ltb k c b.
Proof.
  unfold key_ltb. destruct (is_blob k); [|lia]. intros A B.
  assert (E : blob_of a = blob_of b) by (apply bytes_ltb_tri; assumption). now rewrite E.
Qed.

Lemma insert_keys k key v l p : In p (map_insert k key v l) ->
  In p l \/ fst p = key \/ (exists q, In q l /\ fst q = fst p).
Proof.
  induction l as [|[a w] l IH]; cbn [map_insert]; intro H.
  - destruct H as [<-|[]]. auto.
  - destruct (key_ltb k key a).
    + destruct H as [<-|H]; auto.
    + destruct (key_ltb k a key).
      * destruct H as [<-|H]; [left; now left|].
        destruct (IH H) as [I|[I|(q & I & E)]]; [left; now right | auto | right; right].
        exists q. split; [now right | exact E].
      * destruct H as [<-|H]; [|left; now right]. right. right. exists (a, w). split; [now left | reflexivity].
Qed.

Lemma insert_sorted k key v l : keys_sorted k l -> keys_sorted k (map_insert k key v l).
Proof.
  induction l as [|[a w] l IH]; intro H; [cbn; auto|]. cbn [map_insert keys_sorted] in *. destruct H as [H1 H2].
  destruct (key_ltb k key a) eqn:E1.
  - cbn [keys_sorted]. split; [|auto]. constructor; [exact E1|].
    rewrite Forall_forall in *. intros p I. eapply key_ltb_trans; [exact E1 | auto].
  - destruct (key_ltb k a key) eqn:E2.
    + cbn [keys_sorted]. split; [|auto]. rewrite Forall_forall in *. intros p I.
      destruct (insert_keys _ _ _ _ _ I) as [J|[->|(q & J & <-)]]; auto.
    + cbn [keys_sorted]. auto.
Qed.

Lemma insert_every k key v l (P : scalar * value -> Prop) :
  (forall a w, P (a, w) -> P (a, v)) -> P (key, v) -> every P l -> every P (map_insert k key v l).
Proof.
  intros C I. induction l as [|[a w] l IH]; cbn [map_insert every]; [auto|]. intros [H1 H2].
  destruct (key_ltb k key a); [cbn [every]; auto|].
  destruct (key_ltb k a key); cbn [every]; split; eauto.
Qed.

(** ** Objects *)

Section Read.
  Variable sch : schema.
  Variable fuel : nat.
  Variable hard : bool.

  (** Well typed, and without null elements if there are no maps to messages. *)
  Definition read_ok (ty : fty) (v : value) : Prop :=
    val_ok sch ty v /\ (no_message_maps sch -> no_nulls v).
  Definition obj_read_ok (m : nat) (obj : list value) : Prop :=
    Forall2 (fun f v => read_ok (f_ty f) v) (md_fields (msg_at sch m)) obj.

  Lemma obj_read_spec m obj : obj_read_ok m obj ->
    object_ok sch m obj /\ (no_message_maps sch -> no_nulls (VMsg obj)).
  Proof.
    intro F. split.
    - apply object_ok_spec. induction F as [|f v fs vs [A _]]; constructor; auto.
    - intro NM. cbn [no_nulls]. induction F as [|f v fs vs [_ A]]; cbn [every]; auto.
  Qed.

  Lemma default_read_ok m : obj_read_ok m (default_obj sch m).
  Proof.
    unfold obj_read_ok, default_obj. induction (md_fields (msg_at sch m)) as [|f fs IH]; constructor; auto.
    unfold read_ok. destruct (f_ty f) as [[t|m']|e|k e]; cbn; auto.
    split; auto. unfold default_scalar. destruct t; cbn; unfold in_s, in_u; auto; try lia; split; auto; constructor.
  Qed.

  Variable rec : nat -> list Z -> list value * res unit.
  Hypothesis R : forall m data, bytes data -> obj_read_ok m (fst (rec m data)).

  Lemma object_read_ok m data it obj it' : bytes data ->
    deserializeObject hard rec m data it = Ok (obj, it') -> obj_read_ok m obj.
  Proof.
    intros B H. unfold deserializeObject in H. apply bind_Ok in H. destruct H as ([array it1] & H1 & H).
    apply lendel_bytes in H1; auto. specialize (R m array H1).
    destruct (rec m array) as [o [u|e|r|]]; try discriminate. injection H as <- <-. exact R.
  Qed.

  Lemma element_read_ok e data it v it' : bytes data ->
    deserializeElement hard rec e data it = Ok (v, it') ->
    elem_ok sch e v /\ (no_message_maps sch -> no_nulls v) /\ v <> VNull.
  Proof.
    intros B H. destruct e as [t|m]; cbn [deserializeElement] in H; apply bind_Ok in H;
      destruct H as ([x it1] & H1 & H); injection H as <- <-.
    - apply basic_ok in H1; auto. repeat split; auto; try exact H1. discriminate.
    - apply object_read_ok in H1; auto. apply obj_read_spec in H1. destruct H1.
      repeat split; auto. discriminate.
  Qed.

  Lemma map_loop_ok n k e data : bytes data -> forall it last key val key' val' it',
    map_loop hard rec n k e data it last key val = Ok (key', val', it') ->
    scalar_ok k key -> elem_ok sch e val -> (no_message_maps sch -> no_nulls val) ->
    (match e with ES _ => val <> VNull | _ => True end) ->
    scalar_ok k key' /\ elem_ok sch e val' /\ (no_message_maps sch -> no_nulls val') /\
    (match e with ES _ => val' <> VNull | _ => True end).
  Proof.
    intro B. induction n as [|n IH]; intros it last key val key' val' it' H K V N X; cbn [map_loop] in H;
      [discriminate|].
    destruct (_ =? _); [injection H as <- <- <-; auto|].
    apply bind_Ok in H. destruct H as ([[[mi wt] vd] it1] & _ & H).
    destruct (mi =? 1); apply bind_Ok in H; destruct H as ([y it2] & H1 & H).
    - eapply IH in H; eauto. eapply basic_ok; eauto.
    - destruct (element_read_ok e data it1 y it2 B H1) as (A1 & A2 & A3).
      eapply IH in H; eauto. destruct e; auto.
  Qed.

  Lemma field_read_ok ty old data it v it' : bytes data -> read_ok ty old ->
    (forall k m, ty = FMap k (EM m) -> ~ no_message_maps sch) ->
    deserializeField fuel hard rec ty old data it = Ok (v, it') -> read_ok ty v.
  Proof.
    intros B O MM H. destruct ty as [[t|m]|[t|m]|k e]; cbn [deserializeField] in H.
    - apply bind_Ok in H. destruct H as ([s it1] & H1 & H). injection H as <- <-. apply basic_ok in H1; auto.
      split; [|cbn; auto]. destruct O as [O _]. cbn [val_ok] in *. destruct old; cbn in O; try contradiction.
      cbn [elem_ok scalar_of]. unfold store_scalar. destruct (scalar_eqb _ _ _); auto.
    - apply bind_Ok in H. destruct H as ([o it1] & H1 & H). injection H as <- <-.
      apply object_read_ok in H1; auto. now apply obj_read_spec in H1.
    - destruct O as [O N]. destruct old as [| | |l|]; cbn [val_ok] in O; try contradiction. cbn [list_of] in H.
      assert (C : forall new, every (elem_ok sch (ES t)) new ->
        read_ok (FRep (ES t)) (VList (store_scalars t l new))).
      { intros new E.
        assert (E' : every (elem_ok sch (ES t)) (store_scalars t l new))
          by (unfold store_scalars; destruct (list_eqb _ _ _); auto).
        split; [exact E'|]. intros _. cbn [no_nulls]. revert E'. generalize (store_scalars t l new).
        induction l0 as [|x l0 IHl]; cbn [every]; auto. intros [X Y]. split; auto.
        destruct x; cbn in X; try contradiction. cbn. split; auto. discriminate. }
      assert (V : forall ss, Forall (scalar_ok t) ss -> every (elem_ok sch (ES t)) (map VScalar ss)).
      { induction 1; cbn [map every elem_ok]; auto. }
      assert (App : forall a b, every (elem_ok sch (ES t)) a -> every (elem_ok sch (ES t)) b ->
        every (elem_ok sch (ES t)) (a ++ b)).
      { intros a b A D. rewrite every_Forall in *. apply Forall_app. auto. }
      destruct (is_blob t); [|destruct (is_enum t)];
        apply bind_Ok in H; destruct H as ([s it1] & H1 & H); injection H as <- <-; apply C.
      + apply App; auto. apply basic_ok in H1; auto. cbn [every elem_ok]. auto.
      + apply App; auto. apply V. eapply numeric_ok; eauto.
      + apply V. eapply numeric_ok; eauto.
    - apply bind_Ok in H. destruct H as ([o it1] & H1 & H). injection H as <- <-.
      apply object_read_ok in H1; auto. apply obj_read_spec in H1. destruct H1 as [A1 A2].
      destruct O as [O N]. destruct old as [| | |l|]; cbn [val_ok] in O; try contradiction. cbn [list_of].
      split.
      + cbn [val_ok]. rewrite every_Forall in *. apply Forall_app. split; auto.
      + intro NM. cbn [no_nulls] in N |- *. rewrite every_Forall in *. apply Forall_app. split; auto.
        constructor; auto. split; [discriminate | auto].
    - apply bind_Ok in H. destruct H as ([[key val] it1] & H1 & H). injection H as <- <-.
      unfold deserializeMapPair in H1. apply bind_Ok in H1. destruct H1 as ([c it2] & _ & H1).
      apply bind_Ok in H1. destruct H1 as (last & _ & H1).
      assert (D : forall t, scalar_ok t (default_scalar t)).
      { intro t. unfold default_scalar. destruct t; cbn; unfold in_s, in_u; auto; try lia; split; auto; constructor. }
      apply map_loop_ok in H1; auto;
        [|destruct e; cbn; auto | destruct e; cbn; auto | destruct e; cbn; auto; discriminate].
      destruct H1 as (K & V & N1 & N2).
      destruct O as [O N]. destruct old as [| | | |l]; cbn [val_ok] in O; try contradiction. cbn [map_of].
      destruct O as [O1 O2].
      assert (I : keys_sorted k (map_insert k key val l) /\
                  every (fun p => scalar_ok k (fst p) /\ elem_ok sch e (snd p)) (map_insert k key val l)).
      { split; [now apply insert_sorted|]. apply insert_every; cbn [fst snd]; auto. intros a w []. auto. }
      split.
      + cbn [val_ok]. unfold store_map. destruct e; auto. destruct (list_eqb _ _ _); auto.
      + intro NM. destruct e as [t|m]; [|exfalso; eapply MM; eauto]. cbn [store_map].
        destruct (list_eqb _ _ _); [exact (N NM)|]. cbn [no_nulls].
        destruct I as [_ I]. revert I. generalize (map_insert k key val l).
        induction l0 as [|p l0 IHl]; cbn [every]; auto. intros [[_ X] Y]. split; auto.
        destruct (snd p); cbn in X; try contradiction. split; [discriminate | cbn; auto].
  Qed.

  Lemma update_read_ok m obj i v : obj_read_ok m obj -> (i < length (md_fields (msg_at sch m)))%nat ->
    read_ok (f_ty (field_at sch m i)) v -> obj_read_ok m (update i v obj).
  Proof.
    unfold obj_read_ok, field_at. intro F. revert i.
    induction F; intros i L P; cbn [length] in L; [lia|].
    destruct i; cbn [nth update] in *; constructor; auto. apply IHF; auto. lia.
  Qed.

  Lemma nth_read_ok m obj i : obj_read_ok m obj -> (i < length (md_fields (msg_at sch m)))%nat ->
    read_ok (f_ty (field_at sch m i)) (nth i obj VNull).
  Proof.
    unfold obj_read_ok, field_at. intro F. revert i.
    induction F; intros i L; cbn [length] in L; [lia|]. destruct i; cbn [nth]; auto. apply IHF. lia.
  Qed.

  Lemma property_read_ok m data it obj obj' it' : bytes data -> obj_read_ok m obj ->
    deserializeProperty fuel hard sch rec m data it obj = Ok (obj', it') -> obj_read_ok m obj'.
  Proof.
    intros B O H. unfold deserializeProperty in H. apply bind_Ok in H. destruct H as ([[[num wt] vd] it1] & _ & H).
    destruct (negb vd); [discriminate|].
    destruct (find_field (msg_at sch m) num) as [i|] eqn:F.
    - apply bind_Ok in H. destruct H as ([v it2] & H1 & H). injection H as <- <-.
      assert (L : (i < length (md_fields (msg_at sch m)))%nat) by (destruct (find_field_range _ _ _ F); lia).
      apply update_read_ok; auto. eapply field_read_ok; [exact B | apply nth_read_ok; eauto | | exact H1].
      intros k m' E NM. eapply NM; [|exact E]. unfold field_at. now apply nth_In.
    - apply bind_Ok in H. destruct H as (it2 & _ & H). injection H as <- <-. exact O.
  Qed.
End Read.

Lemma loop_read_ok sch hard fuel : forall m data it obj, bytes data -> obj_read_ok sch m obj ->
  obj_read_ok sch m (fst (deserialize_loop fuel hard sch m data it obj)).
Proof.
  induction fuel as [|fuel IH]; intros m data it obj B O; cbn [deserialize_loop fst]; auto.
  destruct (_ =? _); auto.
  match goal with |- context [deserializeProperty fuel hard sch ?rec m data it obj] =>
    destruct (deserializeProperty fuel hard sch rec m data it obj) as [[obj' it']|e|r|] eqn:E end; auto.
  apply IH; auto. eapply property_read_ok; [|exact B|exact O|exact E].
  intros m' d Bd. apply IH; auto. apply default_read_ok.
Qed.

(** The object is well typed however deserialization ends; without maps to messages it has no null
    elements. *)
Lemma deserialize_typed sch m data r o : bytes data -> deserializes sch m data r o ->
  object_ok sch m r /\ (no_message_maps sch -> no_nulls (VMsg r)).
Proof.
  intros B [_ [fuel E]]. unfold deserializeMessage in E. apply obj_read_spec.
  pose proof (loop_read_ok sch false fuel m data (it_begin data) _ B (default_read_ok sch m)) as L.
  now rewrite E in L.
Qed.

(** ** Encodings are bytes *)

Scheme enc_val_ind' := Induction for enc_val Sort Prop
with enc_elems_ind' := Induction for enc_elems Sort Prop
with enc_recs_ind' := Induction for enc_recs Sort Prop.

Lemma delimited_bytes content bs : bytes content -> delimited content bs -> bytes bs.
Proof.
  intros B (len & W & E). subst bs. destruct W as [W _]. apply bytes_app; auto. eapply is_varint_bytes; eauto.
Qed.

Lemma enc_recs_bytes rs bs : enc_recs rs bs -> bytes bs.
Proof.
  apply (enc_recs_ind' (fun w bs _ => bytes bs) (fun ws bs _ => bytes bs) (fun rs bs _ => bytes bs)).
  - intros v b _ [W _]. eapply is_varint_bytes; eauto.
  - intros v b (_ & B & _). exact B.
  - intros v b (_ & B & _). exact B.
  - intros c b B D. eapply delimited_bytes; eauto.
  - intros ws c b _ B D. eapply delimited_bytes; eauto.
  - intros rs0 c b _ B D. eapply delimited_bytes; eauto.
  - constructor.
  - intros. now apply bytes_app.
  - constructor.
  - intros num w rs0 tag b rest _ [T _] _ B1 _ B2. apply bytes_app; [eapply is_varint_bytes; eauto|].
    now apply bytes_app.
Qed.

Lemma drop_nulls_id n : forall v, (vsize v <= n)%nat -> no_nulls v -> drop_nulls v = v.
Proof.
  induction n as [|n IH]; intros v L N; [destruct v; cbn in L; lia|].
  destruct v as [s| |fs|l|l]; cbn [drop_nulls]; auto; cbn [vsize no_nulls] in *; f_equal.
  - assert (A : forall x, In x fs -> drop_nulls x = x).
    { intros x I. rewrite every_Forall, Forall_forall in N. apply IH; auto.
      pose proof (list_sum_in (vsize x) (map vsize fs) (in_map _ _ _ I)). lia. }
    clear - A. induction fs as [|x fs IHf]; cbn [map]; auto. f_equal; [apply A; now left|].
    apply IHf. intros. apply A. now right.
  - assert (A : forall x, In x l -> x <> VNull /\ drop_nulls x = x).
    { intros x I. rewrite every_Forall, Forall_forall in N. destruct (N x I). split; auto. apply IH; auto.
      pose proof (list_sum_in (vsize x) (map vsize l) (in_map _ _ _ I)). lia. }
    clear - A. induction l as [|x l IHl]; cbn [flat_map]; auto.
    destruct (A x (or_introl eq_refl)) as [A1 A2].
    rewrite IHl by (intros; apply A; now right). destruct x; cbn [app]; try congruence.
  - assert (A : forall p, In p l -> snd p <> VNull /\ drop_nulls (snd p) = snd p).
    { intros x I. rewrite every_Forall, Forall_forall in N. destruct (N x I). split; auto. apply IH; auto.
      pose proof (list_sum_in (vsize (snd x)) (map (fun p => vsize (snd p)) l)
                    (in_map (fun p => vsize (snd p)) _ _ I)). lia. }
    clear - A. induction l as [|[k x] l IHl]; cbn [flat_map]; auto.
    destruct (A (k, x) (or_introl eq_refl)) as [A1 A2]. cbn [snd fst] in *.
    rewrite IHl by (intros; apply A; now right). destruct x; cbn [app]; congruence.
Qed.

Lemma drop_nulls_obj obj : no_nulls (VMsg obj) -> map drop_nulls obj = obj.
Proof.
  intro N. pose proof (drop_nulls_id _ (VMsg obj) (le_n _) N) as E. cbn [drop_nulls] in E. congruence.
Qed.

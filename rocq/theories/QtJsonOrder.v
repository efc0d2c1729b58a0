(** Proofs that the order of the tables does not matter to those who read JSON texts for messages with Qt types. *)

From Coq Require Import String ZArith List Bool Arith Permutation Lia.
From Verif Require Import Base Values MessageModel MessageSpec QtTypesModel QtFieldsModel JsonSpec JsonModel JsonReadModel JsonReadSpec JsonReadProofs
  QtJsonModel LinkProofs LinkJsonProofs.
From Verif Require LinkQtProofs.
Import ListNotations.

Section Order.
  Context (Url Image : Type) (url_parse : list Z -> Url) (image_load : list Z -> list Z -> Image).
  Context (qt_eq : qtval Url Image -> qtval Url Image -> bool) (new_qt : kind -> qtval Url Image).
  Context (mj : microjson) (conv : conversions) (a b : schema) (na nb : names) (qa qb : nat -> nat -> option kind).
  Context (Sf : same_fields a b) (Q : forall m i, qa m i = qb m i) (Sn : forall m i, n_enum na m i = n_enum nb m i).
  Context (Fi : forall m name, find (fun i => same_bytes (n_json na m i) name) (md_order (msg_at a m))
                             = find (fun i => same_bytes (n_json nb m i) name) (md_order (msg_at b m))).
  Local Notation reads_a := (mixed_json_value Url Image url_parse image_load a na qa mj conv).
  Local Notation reads_b := (mixed_json_value Url Image url_parse image_load b nb qb mj conv).

  Lemma fields_alike m i : field_at a m i = field_at b m i.
  Proof. unfold field_at. now rewrite Sf. Qed.

  Lemma plain_alike fuel m data : read_object fuel mj conv a na m data (default_obj a m) = read_object fuel mj conv b nb m data (default_obj b m).
  Proof. rewrite (read_object_congr mj conv a b na nb Sf Sn Fi). unfold default_obj. now rewrite Sf. Qed.

  Section Rec.
    Context (ra rb : nat -> list Z -> res (list (mvalue Url Image))) (E : forall m d, ra m d = rb m d).

    Lemma messages_alike n : forall m s acc, mixed_messages Url Image mj ra n m s acc = mixed_messages Url Image mj rb n m s acc.
    Proof.
      induction n as [|n IH]; intros m s acc; [reflexivity|]. cbn [mixed_messages]. destruct s; [reflexivity|].
      destruct (extractValue mj _ 93) as [[i v]|]; [|reflexivity]. rewrite E. destruct (rb m (snd v)); cbn; try reflexivity.
      destruct (_ <=? _); [apply IH | reflexivity].
    Qed.

    Lemma pairs_alike n : forall k m s acc, mixed_pairs Url Image mj conv ra n k m s acc = mixed_pairs Url Image mj conv rb n k m s acc.
    Proof.
      induction n as [|n IH]; intros k m s acc; [reflexivity|]. cbn [mixed_pairs]. destruct s; [reflexivity|].
      destruct (extractProperty mj _ 125) as [[i [name v]]|]; [|reflexivity].
      destruct (snd v); [|rewrite E; destruct (rb m _)]; cbn; try reflexivity; destruct (_ <=? _); try apply IH; reflexivity.
    Qed.

    Lemma value_alike n m i v : reads_a n ra m i v = reads_b n rb m i v.
    Proof.
      unfold mixed_json_value. rewrite Q, fields_alike. destruct (qb m i) as [k|].
      - destruct (snd v); [reflexivity|]. now rewrite plain_alike.
      - rewrite (read_value_congr mj conv a b na nb Sf Sn _ (fun m' data' => read_object n mj conv b nb m' data' (default_obj b m')));
          [|intros; apply plain_alike].
        destruct (f_ty (field_at b m i)) as [[t|m']|[t|m']|k [t|m']]; try reflexivity;
          destruct (snd v); try reflexivity; [rewrite E | rewrite messages_alike | rewrite pairs_alike]; reflexivity.
    Qed.

    Lemma write_alike m i old new : mixed_write Url Image qt_eq new_qt a qa m i old new = mixed_write Url Image qt_eq new_qt b qb m i old new.
    Proof. unfold mixed_write. now rewrite Q, fields_alike. Qed.

    Lemma members_alike n m : forall l obj,
      mixed_members Url Image url_parse image_load qt_eq new_qt a na qa mj conv n ra m l obj =
      mixed_members Url Image url_parse image_load qt_eq new_qt b nb qb mj conv n rb m l obj.
    Proof.
      induction l as [|[name v] l IH]; intro obj; [reflexivity|]. cbn [mixed_members]. rewrite Fi.
      destruct (find _ (md_order (msg_at b m))) as [i|]; [|apply IH]. rewrite !write_alike.
      destruct (_ && _); [apply IH|]. rewrite value_alike.
      destruct (reads_b n rb m i v) as [x| | |]; cbn; try reflexivity. rewrite write_alike. destruct (snd x); apply IH.
    Qed.
  End Rec.

  Lemma read_alike fuel : forall m data obj,
    mixed_json_read Url Image url_parse image_load qt_eq new_qt a na qa mj conv fuel m data obj =
    mixed_json_read Url Image url_parse image_load qt_eq new_qt b nb qb mj conv fuel m data obj.
  Proof.
    induction fuel as [|fuel IH]; intros m data obj; [reflexivity|]. cbn [mixed_json_read]. apply members_alike. intros m' d.
    now rewrite IH, (LinkQtProofs.new_object_congr Url Image new_qt a b qa qb Sf Q).
  Qed.
End Order.

Lemma orders_alike a b : same_fields a b -> schema_ok a -> schema_ok b -> forall m, Permutation (md_order (msg_at a m)) (md_order (msg_at b m)).
Proof.
  intros S A B m.
  assert (H : forall s, schema_ok s -> NoDup (md_order (msg_at s m)) /\ forall i, In i (md_order (msg_at s m)) <-> i < List.length (md_fields (msg_at s m))).
  { intros s K. unfold msg_at. destruct (Nat.lt_ge_cases m (List.length s)) as [L | G].
    - unfold schema_ok in K. rewrite Forall_forall in K. destruct (K _ (nth_In s (mkMsg [] []) L)) as (_ & K'). split; apply K'.
    - rewrite (nth_overflow s _ G). cbn. split; [constructor|]. intro i. split; [intros [] | lia]. }
  destruct (H a A) as (Na & Ia), (H b B) as (Nb & Ib). apply NoDup_Permutation; auto. intro i. now rewrite Ia, Ib, S.
Qed.

Lemma finds_alike a b na nb : same_fields a b -> schema_ok a -> schema_ok b -> names_ok a na -> (forall m i, n_json na m i = n_json nb m i) ->
  forall m name, find (fun i => same_bytes (n_json na m i) name) (md_order (msg_at a m))
               = find (fun i => same_bytes (n_json nb m i) name) (md_order (msg_at b m)).
Proof.
  intros S A B (ND & _) E m name.
  assert (F : forall l, find (fun i => same_bytes (n_json nb m i) name) l = find (fun i => same_bytes (n_json na m i) name) l).
  { induction l as [|i l IH]; [reflexivity|]. cbn. now rewrite E, IH. }
  rewrite F. apply find_permuted; [now apply orders_alike|]. intros x y Ix Iy Hx Hy. apply same_bytes_spec in Hx, Hy.
  apply (nodup_map_inj _ _ x y (ND m) Ix Iy). congruence.
Qed.

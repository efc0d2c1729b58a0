(** Proofs that reading a JSON text into a message with Qt types has one result, whatever the fuel. *)

From Coq Require Import String ZArith List Bool Arith Lia.
From Verif Require Import Base Values MessageModel MessageProofs JsonProofs QtTypesModel QtFieldsModel JsonSpec JsonModel JsonReadModel JsonReadFacts QtJsonModel.
Import ListNotations.
Open Scope nat_scope.

Section Fuel.
  Context (Url Image : Type) (url_parse : list Z -> Url) (image_load : list Z -> list Z -> Image).
  Context (qt_eq : qtval Url Image -> qtval Url Image -> bool) (new_qt : kind -> qtval Url Image).
  Context (sch : schema) (nm : names) (qf : nat -> nat -> option kind) (mj : microjson) (conv : conversions).

  Section Rec.
    Context (rec rec' : nat -> list Z -> res (list (mvalue Url Image))) (M : forall m d r, rec m d = Ok r -> rec' m d = Ok r).
    Context (n n' : nat) (NN : n <= n').

    Lemma mixed_messages_mono m : forall k k' s acc r, k <= k' -> mixed_messages Url Image mj rec k m s acc = Ok r -> mixed_messages Url Image mj rec' k' m s acc = Ok r.
    Proof.
      induction k as [|k IH]; intros k' s acc r L H; [discriminate|]. destruct k' as [|k']; [lia|]. cbn [mixed_messages] in *. destruct s; [exact H|].
      destruct (extractValue mj _ 93) as [[i v]|]; [|exact H]. apply bind_ok in H as (o & E & H). rewrite (M _ _ _ E). cbn [bind].
      destruct (_ <=? _)%nat; [|exact H]. apply IH; [lia | exact H].
    Qed.

    Lemma mixed_pairs_mono kt m : forall k k' s acc r, k <= k' ->
      mixed_pairs Url Image mj conv rec k kt m s acc = Ok r -> mixed_pairs Url Image mj conv rec' k' kt m s acc = Ok r.
    Proof.
      induction k as [|k IH]; intros k' s acc r L H; [discriminate|]. destruct k' as [|k']; [lia|]. cbn [mixed_pairs] in *. destruct s; [exact H|].
      destruct (extractProperty mj _ 125) as [[i [name v]]|]; [|exact H]. apply bind_ok in H as (o & E & H).
      assert (E' : match snd v with [] => Ok MNull | _ :: _ => obj <- rec' m (snd v) ;; Ok (MMsg obj) end = Ok o).
      { destruct (snd v); [exact E|]. apply bind_ok in E as (x & Ex & E). now rewrite (M _ _ _ Ex). }
      rewrite E'. cbn [bind]. destruct (_ <=? _)%nat; [|exact H]. apply IH; [lia | exact H].
    Qed.

    Lemma mixed_value_mono m i v r : mixed_json_value Url Image url_parse image_load sch nm qf mj conv n rec m i v = Ok r ->
      mixed_json_value Url Image url_parse image_load sch nm qf mj conv n' rec' m i v = Ok r.
    Proof.
      unfold mixed_json_value. destruct (qf m i) as [k|].
      - destruct (snd v); [auto|]. intro H. apply bind_ok in H as (fs & E & H). now rewrite (read_mono mj conv sch nm n n' _ _ _ _ NN E).
      - assert (P : forall x, read_value mj conv sch nm (fun m' data' => read_object n mj conv sch nm m' data' (default_obj sch m')) n m i v = Ok x ->
          read_value mj conv sch nm (fun m' data' => read_object n' mj conv sch nm m' data' (default_obj sch m')) n' m i v = Ok x).
        { intro x. apply value_mono; [|exact NN]. intros m' d r'. apply read_mono. exact NN. }
        destruct (f_ty (field_at sch m i)) as [[t|m']|[t|m']|kt [t|m']]; try (intro H; apply bind_ok in H as (x & E & H); now rewrite (P x E));
          destruct (snd v); auto; intro H; apply bind_ok in H as (x & E & H).
        + now rewrite (M _ _ _ E).
        + now rewrite (mixed_messages_mono _ _ _ _ _ _ NN E).
        + now rewrite (mixed_pairs_mono _ _ _ _ _ _ _ NN E).
    Qed.

    Lemma mixed_members_mono m : forall l obj r,
      mixed_members Url Image url_parse image_load qt_eq new_qt sch nm qf mj conv n rec m l obj = Ok r ->
      mixed_members Url Image url_parse image_load qt_eq new_qt sch nm qf mj conv n' rec' m l obj = Ok r.
    Proof.
      induction l as [|[name v] l IH]; intros obj r H; [exact H|]. cbn [mixed_members] in *. destruct (find _ _) as [i|]; [|now apply IH].
      destruct (_ && _); [now apply IH|]. apply bind_ok in H as (x & E & H). rewrite (mixed_value_mono _ _ _ _ E). cbn [bind].
      destruct (snd x); now apply IH.
    Qed.
  End Rec.

  Lemma mixed_read_mono : forall f f' m d base r, f <= f' ->
    mixed_json_read Url Image url_parse image_load qt_eq new_qt sch nm qf mj conv f m d base = Ok r ->
    mixed_json_read Url Image url_parse image_load qt_eq new_qt sch nm qf mj conv f' m d base = Ok r.
  Proof.
    induction f as [|f IH]; intros f' m d base r L H; [discriminate|]. destruct f' as [|f']; [lia|]. cbn [mixed_json_read] in *.
    eapply mixed_members_mono; [|apply le_S_n; exact L | exact H]. intros m' d' r' E. apply (IH f'); [lia | exact E].
  Qed.
End Fuel.

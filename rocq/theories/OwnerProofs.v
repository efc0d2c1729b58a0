(** Proofs about the ownership of nested messages. *)

From Coq Require Import List Bool Arith Lia.
From Verif Require Import Base OwnerModel OwnerSpec.
Import ListNotations.

(** * Updates *)

Lemma cell_set : forall w o i c o' i',
  w_cell (set_cell w o i c) o' i' = if Nat.eqb o' o && Nat.eqb i' i then c else w_cell w o' i'.
Proof. reflexivity. Qed.

Lemma cell_set_same : forall w o i c, w_cell (set_cell w o i c) o i = c.
Proof. intros. rewrite cell_set, !Nat.eqb_refl. reflexivity. Qed.

Lemma cell_set_other : forall w o i c o' i', (o', i') <> (o, i) -> w_cell (set_cell w o i c) o' i' = w_cell w o' i'.
Proof.
  intros w o i c o' i' N. rewrite cell_set. destruct (Nat.eqb_spec o' o); destruct (Nat.eqb_spec i' i); cbn; congruence.
Qed.

Lemma pair_dec : forall a b c d : nat, {(a, b) = (c, d)} + {(a, b) <> (c, d)}.
Proof. intros. decide equality; apply Nat.eq_dec. Qed.

(** * Nesting *)

Definition edges (w w' : world) : Prop := forall o i p, holds w' o i p -> holds w o i p.

Lemma nested_mono : forall w w', edges w w' -> forall o p, nested w' o p -> nested w o p.
Proof.
  intros w w' E o p H. induction H as [o i p H | o i p q H _ IH].
  - eapply nested_one. apply E. exact H.
  - eapply nested_more; [apply E; exact H | exact IH].
Qed.

Lemma nested_trans : forall w a b c, nested w a b -> nested w b c -> nested w a c.
Proof.
  intros w a b c H. induction H as [o i p H | o i p q H _ IH]; intro K.
  - eapply nested_more; eassumption.
  - eapply nested_more; [exact H | apply IH; exact K].
Qed.

Definition acyclic (w : world) : Prop := forall o, ~ nested w o o.

(** * The invariant *)

Record Inv (w : world) (x : option nat) : Prop := {
  i_next : forall p, state_of w p <> Dead -> p < w_next w;
  i_ptr : forall o i p, holds w o i p ->
    state_of w p <> Dead /\ state_of w o <> Dead /\ i < o_fields (w_obj w o);
  i_conn : forall o i p, c_conn (w_cell w o i) = Some p -> holds w o i p;
  i_own : forall o i p, holds w o i p -> o_own (w_obj w p) = true ->
    o_js (w_obj w p) = false /\ c_conn (w_cell w o i) = None
    /\ forall o' i', holds w o' i' p -> o' = o /\ i' = i;
  i_given : forall o i p, holds w o i p -> o_own (w_obj w p) = false -> c_conn (w_cell w o i) = Some p;
  i_acyclic : acyclic w;
  i_held : forall p, o_own (w_obj w p) = true -> state_of w p = Alive ->
    (exists o i, holds w o i p) \/ x = Some p;
  i_log : NoDup (map fst (w_log w));
  i_dead : forall p, In p (map fst (w_log w)) -> p < w_next w /\ state_of w p = Dead;
  i_logged : forall p, p < w_next w -> state_of w p = Dead -> In p (map fst (w_log w))
}.

(** Objects below a bound that are alive. *)
Fixpoint count_alive (w : world) (n : nat) : nat :=
  match n with
  | O => O
  | S k => (if is_alive (state_of w k) then 1 else 0) + count_alive w k
  end.

Lemma count_le : forall w n, count_alive w n <= n.
Proof. induction n; cbn; [lia |]. destruct (is_alive _); lia. Qed.

Lemma count_mono : forall w w' n, (forall p, state_of w' p = Alive -> state_of w p = Alive) ->
  count_alive w' n <= count_alive w n.
Proof.
  intros w w' n H. induction n as [| k IH]; cbn; [lia |].
  destruct (state_of w' k) eqn:E; cbn; [rewrite (H k E); cbn; lia | lia | lia].
Qed.

Lemma count_less : forall w w' n p, (forall q, state_of w' q = Alive -> state_of w q = Alive) ->
  p < n -> state_of w p = Alive -> state_of w' p <> Alive -> count_alive w' n < count_alive w n.
Proof.
  intros w w' n p H. induction n as [| k IH]; intros L A N; [lia |]. cbn.
  destruct (Nat.eq_dec p k) as [E | E].
  - subst k. rewrite A. cbn. pose proof (count_mono w w' p H). destruct (state_of w' p) eqn:Q; cbn; [congruence | lia | lia].
  - assert (count_alive w' k < count_alive w k) by (apply IH; [lia | assumption ..]).
    destruct (state_of w' k) eqn:Q; cbn; [rewrite (H k Q); cbn; lia | |]; destruct (is_alive (state_of w k)); lia.
Qed.

(** * Emptying a field *)

Lemma empty_edges : forall w o i, edges w (set_cell w o i empty).
Proof.
  intros w o i o' i' p H. unfold holds in *. destruct (pair_dec o' i' o i) as [E | E].
  - injection E as -> ->. rewrite cell_set_same in H. discriminate.
  - rewrite cell_set_other in H by exact E. exact H.
Qed.

Lemma empty_inv : forall w o i p x,
  Inv w None -> holds w o i p -> (o_own (w_obj w p) = true -> x = Some p) ->
  Inv (set_cell w o i empty) x.
Proof.
  intros w o i p x I H X. pose proof (empty_edges w o i) as E. destruct I. split; try assumption.
  - intros o' i' q K. apply E in K. exact (i_ptr0 o' i' q K).
  - intros o' i' q K. unfold holds. destruct (pair_dec o' i' o i) as [Q | Q].
    + injection Q as -> ->. rewrite cell_set_same in K. discriminate.
    + rewrite cell_set_other in K |- * by exact Q. apply i_conn0. exact K.
  - intros o' i' q K O. pose proof (E _ _ _ K) as K'. destruct (i_own0 o' i' q K' O) as (A & B & C).
    split; [exact A |]. split.
    + destruct (pair_dec o' i' o i) as [Q | Q]; [injection Q as -> ->; rewrite cell_set_same; reflexivity |].
      rewrite cell_set_other by exact Q. exact B.
    + intros o2 i2 K2. apply C. apply E. exact K2.
  - intros o' i' q K O. pose proof (E _ _ _ K) as K'. unfold holds in K.
    destruct (pair_dec o' i' o i) as [Q | Q]; [injection Q as -> ->; rewrite cell_set_same in K; discriminate |].
    rewrite cell_set_other by exact Q. apply i_given0; assumption.
  - intros a Ha. apply (i_acyclic0 a). eapply nested_mono; [exact E | exact Ha].
  - intros q O A. destruct (i_held0 q O A) as [(o' & i' & K) | K]; [| discriminate].
    destruct (pair_dec o' i' o i) as [Q | Q].
    + injection Q as -> ->. right. unfold holds in *. replace p with q in * by congruence. apply X. exact O.
    + left. exists o', i'. unfold holds. rewrite cell_set_other by exact Q. exact K.
Qed.

Lemma inv_same : forall w w' x,
  Inv w x -> w_next w' = w_next w -> w_obj w' = w_obj w -> w_log w' = w_log w ->
  (forall o i, w_cell w' o i = w_cell w o i) -> Inv w' x.
Proof.
  intros w w' x I En Eo El Ec.
  assert (Eh : forall o i p, holds w' o i p <-> holds w o i p) by (intros; unfold holds; rewrite Ec; reflexivity).
  assert (Es : forall p, state_of w' p = state_of w p) by (intros; unfold state_of; rewrite Eo; reflexivity).
  assert (Ed : edges w w') by (intros o i p H; apply Eh; exact H).
  destruct I. split.
  - intros p. rewrite Es, En. apply i_next0.
  - intros o i p H. apply Eh in H. rewrite !Es, Eo. apply i_ptr0. exact H.
  - intros o i p H. apply Eh. apply i_conn0. rewrite <- Ec. exact H.
  - intros o i p H O. rewrite Eo in *. apply Eh in H. rewrite Ec. destruct (i_own0 o i p H O) as (A & B & C).
    split; [exact A |]. split; [exact B |]. intros o' i' K. apply C. apply Eh. exact K.
  - intros o i p H O. rewrite Eo in *. rewrite Ec. apply Eh in H. apply i_given0; assumption.
  - intros a K. apply (i_acyclic0 a). eapply nested_mono; [exact Ed | exact K].
  - intros p O A. rewrite Eo in O. rewrite Es in A. destruct (i_held0 p O A) as [(o & i & K) | K]; [left | right; exact K].
    exists o, i. apply Eh. exact K.
  - rewrite El. exact i_log0.
  - intros p. rewrite El, En, Es. apply i_dead0.
  - intros p. rewrite El, En, Es. apply i_logged0.
Qed.

(** * Destruction *)

Lemma emit_edges : forall w p, edges w (emit_destroyed w p).
Proof.
  intros w p o i q H. unfold holds in *. cbn in H. destruct (c_conn (w_cell w o i)) as [r |]; [| exact H].
  destruct (Nat.eqb r p); [discriminate | exact H].
Qed.

Lemma state_set : forall w p s q, state_of (set_state w p s) q = if Nat.eqb q p then s else state_of w q.
Proof. intros. unfold state_of, set_state, set_object. cbn. destruct (Nat.eqb q p); reflexivity. Qed.

Lemma js_set : forall w p s q, o_js (w_obj (set_state w p s) q) = o_js (w_obj w q).
Proof. intros. unfold set_state, set_object. cbn. destruct (Nat.eqb_spec q p); [subst |]; reflexivity. Qed.
Lemma own_set : forall w p s q, o_own (w_obj (set_state w p s) q) = o_own (w_obj w q).
Proof. intros. unfold set_state, set_object. cbn. destruct (Nat.eqb_spec q p); [subst |]; reflexivity. Qed.
Lemma fields_set : forall w p s q, o_fields (w_obj (set_state w p s) q) = o_fields (w_obj w q).
Proof. intros. unfold set_state, set_object. cbn. destruct (Nat.eqb_spec q p); [subst |]; reflexivity. Qed.

(** What a call of [destroy] needs and does. *)
Definition ready (w : world) (q : nat) : Prop :=
  Inv w (Some q) /\ state_of w q = Alive
  /\ (forall d, state_of w d = Dying -> ~ nested w q d)
  /\ (forall o i, holds w o i q -> c_conn (w_cell w o i) = Some q).

Definition gone (q : nat) (w w' : world) : Prop :=
  Inv w' None /\ state_of w' q = Dead
  /\ w_next w' = w_next w
  /\ (forall p, o_js (w_obj w' p) = o_js (w_obj w p) /\ o_own (w_obj w' p) = o_own (w_obj w p)
        /\ o_fields (w_obj w' p) = o_fields (w_obj w p))
  /\ (forall p, p <> q -> state_of w' p = state_of w p
        \/ (state_of w p = Alive /\ state_of w' p = Dead /\ nested w q p /\ o_js (w_obj w p) = false))
  /\ (forall o i, w_cell w' o i = w_cell w o i
        \/ (w_cell w' o i = empty
            /\ ((exists p, holds w o i p /\ state_of w' p = Dead) \/ (state_of w o = Alive /\ state_of w' o = Dead))))
  /\ (forall i p, holds w q i p -> o_js (w_obj w p) = false -> state_of w' p = Dead).

Section Cells.
Variable destr : destroyer -> world -> nat -> res world.
Variable bound : nat.
Hypothesis destr_ok : forall by_ w p, ready w p -> count_alive w (w_next w) < bound ->
  exists w', destr by_ w p = Ok w' /\ gone p w w'.

(** The destructors of the fields of [q]. *)
Lemma cells_ok : forall n q w,
  Inv w None -> state_of w q = Dying -> n <= o_fields (w_obj w q) ->
  (forall i, n <= i -> w_cell w q i = empty) ->
  (forall d, state_of w d = Dying -> ~ nested w q d) ->
  count_alive w (w_next w) < bound ->
  exists w', destroy_cells destr true w q n = Ok w'
    /\ Inv w' None /\ state_of w' q = Dying /\ (forall i, w_cell w' q i = empty)
    /\ w_next w' = w_next w
    /\ (forall p, o_js (w_obj w' p) = o_js (w_obj w p) /\ o_own (w_obj w' p) = o_own (w_obj w p)
          /\ o_fields (w_obj w' p) = o_fields (w_obj w p))
    /\ (forall p, state_of w' p = state_of w p
          \/ (state_of w p = Alive /\ state_of w' p = Dead /\ nested w q p /\ o_js (w_obj w p) = false))
    /\ (forall o i, w_cell w' o i = w_cell w o i
          \/ (w_cell w' o i = empty
              /\ ((exists p, holds w o i p /\ state_of w' p = Dead) \/ o = q
                  \/ (state_of w o = Alive /\ state_of w' o = Dead))))
    /\ (forall i p, holds w q i p -> o_js (w_obj w p) = false -> state_of w' p = Dead).
Proof.
  induction n as [| i IH]; intros q w I D L E N B.
  - exists w. split; [reflexivity |]. split; [exact I |]. split; [exact D |].
    split; [intro j; apply E; lia |].
    assert (Ne : forall i p, ~ holds w q i p) by (intros i p H; unfold holds in H; rewrite E in H by lia; discriminate).
    repeat split; auto. intros i p H. destruct (Ne i p H).
  - cbn [destroy_cells]. unfold checkAndRelease.
    destruct (c_ptr (w_cell w q i)) as [p |] eqn:P.
    + assert (H : holds w q i p) by exact P.
      destruct (i_ptr _ _ I q i p H) as (NP & _ & _).
      assert (NR : nested w q p) by (eapply nested_one; exact H).
      assert (AP : state_of w p = Alive).
      { destruct (state_of w p) eqn:S; [reflexivity | | congruence]. exfalso. exact (N p S NR). }
      rewrite AP. cbn [is_dead].
      (* the state before the remaining fields *)
      assert (Next : exists w3,
        match (if o_js (w_obj w p) then Ok (set_cell w q i empty) else Ok w) with
        | Ok w1 => match c_ptr (w_cell w1 q i) with
                   | None => Ok (set_cell w1 q i empty)
                   | Some r => destr (ByField q i) (set_cell w1 q i empty) r
                   end
        | Throw e => Throw e | UB r => UB r | OutOfFuel => OutOfFuel
        end = Ok w3
        /\ Inv w3 None /\ state_of w3 q = Dying /\ w_next w3 = w_next w
        /\ (forall a, o_js (w_obj w3 a) = o_js (w_obj w a) /\ o_own (w_obj w3 a) = o_own (w_obj w a)
              /\ o_fields (w_obj w3 a) = o_fields (w_obj w a))
        /\ (forall a, state_of w3 a = state_of w a
              \/ (state_of w a = Alive /\ state_of w3 a = Dead /\ nested w q a /\ o_js (w_obj w a) = false))
        /\ (forall o j, w_cell w3 o j = w_cell w o j
              \/ (w_cell w3 o j = empty
                  /\ ((exists a, holds w o j a /\ state_of w3 a = Dead) \/ (o, j) = (q, i)
                      \/ (state_of w o = Alive /\ state_of w3 o = Dead))))
        /\ (forall j, i <= j -> w_cell w3 q j = empty)
        /\ (o_js (w_obj w p) = false -> state_of w3 p = Dead)).
      { destruct (o_js (w_obj w p)) eqn:J.
        - rewrite cell_set_same. cbn [c_ptr empty].
          exists (set_cell (set_cell w q i empty) q i empty). split; [reflexivity |].
          assert (Same : forall o j, w_cell (set_cell (set_cell w q i empty) q i empty) o j = w_cell (set_cell w q i empty) o j).
          { intros o j. destruct (pair_dec o j q i) as [Q | Q]; [injection Q as -> ->; rewrite !cell_set_same; reflexivity | apply cell_set_other; exact Q]. }
          split.
          { apply (inv_same (set_cell w q i empty)); try reflexivity; [| exact Same].
            apply (empty_inv w q i p None I H). intro O. destruct (i_own _ _ I q i p H O) as (A & _). congruence. }
          split; [exact D |]. split; [reflexivity |].
          split; [auto |]. split; [auto |]. split.
          + intros o j. destruct (pair_dec o j q i) as [Q | Q].
            * injection Q as -> ->. right. rewrite cell_set_same. split; [reflexivity |]. right. left. reflexivity.
            * left. rewrite Same. apply cell_set_other. exact Q.
          + split; [| discriminate]. intros j Lj. rewrite Same. destruct (Nat.eq_dec j i) as [Q | Q].
            * subst j. apply cell_set_same.
            * rewrite cell_set_other by congruence. apply E. lia.
        - rewrite P.
          set (w2 := set_cell w q i empty).
          assert (I2 : Inv w2 (Some p)) by (apply (empty_inv w q i p (Some p) I H); auto).
          assert (R : ready w2 p).
          { split; [exact I2 |]. split; [exact AP |]. split.
            - intros d Dd K. apply (nested_mono w w2 (empty_edges w q i)) in K.
              apply (N d Dd). eapply nested_more; [exact H | exact K].
            - intros o j K. pose proof (empty_edges w q i _ _ _ K) as K'.
              destruct (pair_dec o j q i) as [Q | Q].
              + injection Q as -> ->. unfold holds, w2 in K. rewrite cell_set_same in K. discriminate.
              + unfold w2. rewrite cell_set_other by exact Q.
                destruct (o_own (w_obj w p)) eqn:O; [| apply (i_given _ _ I); assumption].
                destruct (i_own _ _ I q i p H O) as (_ & _ & U). destruct (U o j K'). congruence. }
          assert (B2 : count_alive w2 (w_next w2) < bound).
          { eapply Nat.le_lt_trans; [| exact B]. apply count_mono. intros a Q. exact Q. }
          destruct (destr_ok (ByField q i) w2 p R B2) as (w3 & E3 & G). exists w3. split; [exact E3 |].
          destruct G as (I3 & D3 & X3 & A3 & S3 & C3 & _).
          assert (Nq : q <> p) by (intro; subst p; congruence).
          assert (Dq : state_of w3 q = Dying).
          { destruct (S3 q Nq) as [S | (S & _)]; [rewrite S; exact D |]. change (state_of w q = Alive) in S. congruence. }
          split; [exact I3 |]. split; [exact Dq |]. split; [exact X3 |].
          split; [exact A3 |]. split; [| split].
          + intro a. destruct (Nat.eq_dec a p) as [Q | Q].
            * subst a. right. auto.
            * destruct (S3 a Q) as [S | (S & T & U & V)]; [left; exact S | right].
              split; [exact S |]. split; [exact T |]. split; [| exact V].
              eapply nested_more; [exact H |]. eapply nested_mono; [apply empty_edges | exact U].
          + intros o j. destruct (pair_dec o j q i) as [Q | Q].
            * injection Q as -> ->. right. split; [| right; left; reflexivity].
              destruct (C3 q i) as [K | (K & _)]; [| exact K]. rewrite K. apply cell_set_same.
            * destruct (C3 o j) as [K | (K & M)].
              -- left. rewrite K. apply cell_set_other. exact Q.
              -- right. split; [exact K |]. destruct M as [(a & M & Z) | M]; [left; exists a | right; right; exact M].
                 split; [| exact Z]. apply (empty_edges w q i). exact M.
          + split; [| intros _; exact D3]. intros j Lj. destruct (C3 q j) as [K | (K & _)]; [rewrite K | exact K].
            destruct (Nat.eq_dec j i) as [Q | Q].
            * subst j. apply cell_set_same.
            * unfold w2. rewrite cell_set_other by congruence. apply E. lia. }
      destruct Next as (w3 & E3 & I3 & D3 & X3 & A3 & S3 & C3 & Z3 & J3).
      assert (Ed : edges w w3).
      { intros o j a K. unfold holds in *. destruct (C3 o j) as [Q | (Q & _)]; rewrite Q in K; [exact K | discriminate]. }
      assert (B3 : count_alive w3 (w_next w3) < bound).
      { rewrite X3. eapply Nat.le_lt_trans; [| exact B]. apply count_mono. intros a Q.
        destruct (S3 a) as [S | (S & T & _)]; congruence. }
      destruct (IH q w3 I3 D3) as (w' & E' & I' & D' & Z' & X' & A' & S' & C' & J'); [| exact Z3 | | exact B3 |].
      { destruct (A3 q) as (_ & _ & F). rewrite F. lia. }
      { intros d Dd K. apply (N d); [| eapply nested_mono; [exact Ed | exact K]].
        destruct (S3 d) as [S | (S & T & _)]; congruence. }
      exists w'. split.
      { destruct (o_js (w_obj w p)); cbn [bind] in *; rewrite E3; exact E'. }
      split; [exact I' |]. split; [exact D' |]. split; [exact Z' |]. split; [congruence |]. split; [| split; [| split]].
      * intro a. destruct (A3 a) as (? & ? & ?). destruct (A' a) as (? & ? & ?). repeat split; congruence.
      * intro a. destruct (S' a) as [S | (S & T & U & V)].
        -- destruct (S3 a) as [S2 | (S2 & T2 & U2 & V2)]; [left; congruence | right; repeat split; [exact S2 | congruence | exact U2 | exact V2]].
        -- right. destruct (S3 a) as [S2 | (S2 & T2 & _)]; [| congruence].
           repeat split; [congruence | exact T | eapply nested_mono; [exact Ed | exact U] |].
           destruct (A3 a) as (Q & _). congruence.
      * intros o j. destruct (C' o j) as [K | (K & M)].
        -- destruct (C3 o j) as [K2 | (K2 & M2)]; [left; congruence | right]. split; [congruence |].
           destruct M2 as [(a & M2 & T2) | [M2 | (M2 & T2)]].
           ++ left. exists a. split; [exact M2 |]. destruct (S' a) as [S | (S & _)]; congruence.
           ++ right. left. congruence.
           ++ right. right. split; [exact M2 |]. destruct (S' o) as [S | (S & T & _)]; congruence.
        -- right. split; [exact K |]. destruct M as [(a & M & T) | [M | (M & T)]].
           ++ left; exists a; split; [apply Ed; exact M | exact T].
           ++ right. left. exact M.
           ++ right. right. split; [| exact T]. destruct (S3 o) as [S | (S & T2 & _)]; congruence.
      * intros j a K Ja. destruct (Nat.eq_dec j i) as [Q | Q].
        -- subst j. assert (a = p) by (unfold holds in *; congruence). subst a.
           destruct (S' p) as [S | (S & T & _)]; [rewrite S; apply J3; exact Ja | exact T].
        -- destruct (C3 q j) as [K2 | (K2 & M2)].
           ++ apply (J' j a); [unfold holds; rewrite K2; exact K |]. destruct (A3 a) as (X & _). congruence.
           ++ destruct M2 as [(b & M2 & T2) | [M2 | (M2 & T2)]]; [| congruence | congruence].
              assert (b = a) by (unfold holds in *; congruence). subst b.
              destruct (S' a) as [S | (_ & S & _)]; congruence.
    + cbn [bind]. rewrite P.
      assert (W : w_cell w q i = empty).
      { destruct (w_cell w q i) as [a c] eqn:Q. cbn in P. subst a. destruct c as [c |]; [| reflexivity].
        assert (K : c_conn (w_cell w q i) = Some c) by (rewrite Q; reflexivity).
        apply (i_conn _ _ I) in K. unfold holds in K. rewrite Q in K. discriminate. }
      assert (Same : forall o j, w_cell (set_cell w q i empty) o j = w_cell w o j).
      { intros o j. destruct (pair_dec o j q i) as [Q | Q]; [injection Q as -> ->; rewrite cell_set_same; auto | apply cell_set_other; exact Q]. }
      assert (Ed : edges w (set_cell w q i empty)) by apply empty_edges.
      assert (I1 : Inv (set_cell w q i empty) None) by (apply (inv_same w); try reflexivity; assumption).
      destruct (IH q (set_cell w q i empty) I1 D) as (w' & E' & I' & D' & Z' & X' & A' & S' & C' & J').
      { cbn. lia. }
      { intros j Lj. rewrite Same. destruct (Nat.eq_dec j i) as [-> | Q]; [exact W | apply E; lia]. }
      { intros d Dd K. apply (N d Dd). eapply nested_mono; [exact Ed | exact K]. }
      { eapply Nat.le_lt_trans; [| exact B]. apply count_mono. intros a Q. exact Q. }
      exists w'. split; [exact E' |]. split; [exact I' |]. split; [exact D' |]. split; [exact Z' |]. split; [exact X' |].
      split; [exact A' |]. split; [| split].
      * intro a. destruct (S' a) as [S | (S & T & U & V)]; [left; exact S | right].
        repeat split; [exact S | exact T | eapply nested_mono; [exact Ed | exact U] | exact V].
      * intros o j. destruct (C' o j) as [K | (K & M)]; [left; rewrite K; apply Same | right].
        split; [exact K |]. destruct M as [(a & M & T) | M]; [left; exists a; split; [apply Ed; exact M | exact T] | right; exact M].
      * intros j a K Ja. apply (J' j a); [unfold holds; rewrite Same; exact K | exact Ja].
Qed.

End Cells.

Lemma dying_inv : forall w q, Inv w (Some q) -> state_of w q = Alive -> Inv (set_state w q Dying) None.
Proof.
  intros w q I A. destruct I.
  assert (Es : forall p, state_of (set_state w q Dying) p <> Dead <-> state_of w p <> Dead).
  { intro p. rewrite state_set. destruct (Nat.eqb_spec p q); [subst; rewrite A |]; intuition congruence. }
  split; try assumption.
  - intros p H. apply i_next0. apply Es. exact H.
  - intros o i p H. destruct (i_ptr0 o i p H) as (X & Y & Z). rewrite fields_set. split; [apply Es; exact X |].
    split; [apply Es; exact Y | exact Z].
  - intros o i p H O. rewrite own_set in O. rewrite js_set. exact (i_own0 o i p H O).
  - intros o i p H O. rewrite own_set in O. exact (i_given0 o i p H O).
  - intros a K. apply (i_acyclic0 a). eapply nested_mono; [| exact K]. intros o i p H. exact H.
  - intros p O S. rewrite own_set in O. rewrite state_set in S. destruct (Nat.eqb_spec p q); [discriminate |].
    destruct (i_held0 p O S) as [K | K]; [left; exact K | congruence].
  - intros p H. destruct (i_dead0 p H) as (X & Y). split; [exact X |]. rewrite state_set.
    destruct (Nat.eqb_spec p q); [subst; congruence | exact Y].
  - intros p L S. rewrite state_set in S. destruct (Nat.eqb_spec p q); [discriminate |]. apply i_logged0; assumption.
Qed.

Lemma dead_inv : forall w q by_,
  Inv w None -> state_of w q = Dying -> (forall i, w_cell w q i = empty) ->
  (forall o i, holds w o i q -> c_conn (w_cell w o i) = Some q) ->
  Inv (emit_destroyed (add_log (set_state w q Dead) q by_) q) None.
Proof.
  intros w q by_ I D Z C.
  set (w1 := add_log (set_state w q Dead) q by_). set (w2 := emit_destroyed w1 q).
  assert (Es : forall p, state_of w2 p = if Nat.eqb p q then Dead else state_of w p) by (intro p; apply state_set).
  assert (Eo : forall p, o_own (w_obj w2 p) = o_own (w_obj w p)) by (intro p; apply own_set).
  assert (Ej : forall p, o_js (w_obj w2 p) = o_js (w_obj w p)) by (intro p; apply js_set).
  assert (Ef : forall p, o_fields (w_obj w2 p) = o_fields (w_obj w p)) by (intro p; apply fields_set).
  assert (Ed : edges w w2).
  { intros o i p H. apply (emit_edges w1 q) in H. exact H. }
  assert (Nq : forall o i, ~ holds w2 o i q).
  { intros o i H. pose proof (C o i (Ed _ _ _ H)) as K. unfold holds, w2, emit_destroyed in H. cbn in H.
    rewrite K, Nat.eqb_refl in H. discriminate. }
  assert (Ec : forall o i, w_cell w2 o i = w_cell w o i \/ (w_cell w2 o i = empty /\ c_conn (w_cell w o i) = Some q)).
  { intros o i. unfold w2, emit_destroyed. cbn. destruct (c_conn (w_cell w o i)) as [r |]; [| left; reflexivity].
    destruct (Nat.eqb_spec r q); [right; subst; auto | left; reflexivity]. }
  assert (Lq : q < w_next w) by (apply (i_next _ _ I); congruence).
  destruct I. split.
  - intros p H. rewrite Es in H. destruct (Nat.eqb_spec p q); [congruence |]. apply i_next0. exact H.
  - intros o i p H. rewrite !Es, Ef. destruct (i_ptr0 o i p (Ed _ _ _ H)) as (X & Y & W).
    destruct (Nat.eqb_spec p q); [subst; destruct (Nq _ _ H) |]. split; [exact X |]. split; [| exact W].
    destruct (Nat.eqb_spec o q); [| exact Y]. subst o. exfalso. pose proof (Ed _ _ _ H) as K. unfold holds in K.
    rewrite Z in K. discriminate.
  - intros o i p H. destruct (Ec o i) as [E | (E & _)]; [| rewrite E in H; discriminate].
    unfold holds. rewrite E in *. apply i_conn0. exact H.
  - intros o i p H O. rewrite Eo in O. rewrite Ej. destruct (i_own0 o i p (Ed _ _ _ H) O) as (X & Y & W).
    split; [exact X |]. split; [| intros o' i' K; apply W; apply Ed; exact K].
    destruct (Ec o i) as [E | (E & _)]; rewrite E; [exact Y | reflexivity].
  - intros o i p H O. rewrite Eo in O. pose proof (i_given0 o i p (Ed _ _ _ H) O) as K.
    destruct (Ec o i) as [E | (E & _)]; [rewrite E; exact K |]. unfold holds in H. rewrite E in H. discriminate.
  - intros a K. apply (i_acyclic0 a). eapply nested_mono; [exact Ed | exact K].
  - intros p O A. rewrite Eo in O. rewrite Es in A. destruct (Nat.eqb_spec p q); [discriminate |].
    destruct (i_held0 p O A) as [(o & i & K) | K]; [| discriminate]. left. exists o, i. unfold holds.
    destruct (Ec o i) as [E | (E & F)]; [rewrite E; exact K |]. apply i_conn0 in F. unfold holds in *. congruence.
  - cbn. constructor; [| exact i_log0]. intro H. destruct (i_dead0 q H). congruence.
  - intros p [H | H].
    + cbn in H. subst p. rewrite Es, Nat.eqb_refl. split; [exact Lq | reflexivity].
    + destruct (i_dead0 p H) as (X & Y). rewrite Es. destruct (Nat.eqb p q); auto.
  - intros p L S. rewrite Es in S. destruct (Nat.eqb_spec p q); [left; cbn; congruence | right]. apply i_logged0; assumption.
Qed.

Lemma destroy_ok : forall fuel by_ w q,
  ready w q -> count_alive w (w_next w) < fuel ->
  exists w', destroy fuel true by_ w q = Ok w' /\ gone q w w'
    /\ exists l, w_log w' = (q, by_) :: l.
Proof.
  induction fuel as [| fuel IH]; intros by_ w q (I & A & N & C) B; [lia |].
  cbn [destroy]. rewrite A. cbn [is_alive negb].
  set (w0 := set_state w q Dying).
  pose proof (dying_inv w q I A) as I0. fold w0 in I0.
  assert (Lq : q < w_next w) by (apply (i_next _ _ I); congruence).
  assert (E0 : forall p, state_of w0 p = if Nat.eqb p q then Dying else state_of w p) by (intro; apply state_set).
  assert (Ed0 : edges w w0) by (intros o i p H; exact H).
  destruct (cells_ok (destroy fuel true) fuel) with (n := o_fields (w_obj w q)) (q := q) (w := w0)
    as (w1 & E1 & I1 & D1 & Z1 & X1 & A1 & S1 & C1 & J1).
  - intros by' w' p R B'. destruct (IH by' w' p R B') as (w2 & E2 & G2 & _). eauto.
  - exact I0.
  - rewrite E0, Nat.eqb_refl. reflexivity.
  - unfold w0. rewrite fields_set. lia.
  - intros i Li. change (w_cell w0 q i) with (w_cell w q i).
    destruct (w_cell w q i) as [a c] eqn:Q. destruct a as [a |].
    + assert (K : holds w q i a) by (unfold holds; rewrite Q; reflexivity).
      destruct (i_ptr _ _ I q i a K) as (_ & _ & L). lia.
    + destruct c as [c |]; [| reflexivity].
      assert (K : c_conn (w_cell w q i) = Some c) by (rewrite Q; reflexivity).
      apply (i_conn _ _ I) in K. unfold holds in K. rewrite Q in K. discriminate.
  - intros d Dd K. apply (nested_mono _ _ Ed0) in K. rewrite E0 in Dd. destruct (Nat.eqb_spec d q) as [Q | Q].
    + subst d. apply (i_acyclic _ _ I q). exact K.
    + apply (N d Dd). exact K.
  - eapply Nat.lt_le_trans; [| apply Nat.lt_succ_r; exact B].
    change (w_next w0) with (w_next w). apply (count_less w w0 (w_next w) q); [| exact Lq | exact A |].
    + intros p. rewrite E0. destruct (Nat.eqb p q); [discriminate | auto].
    + rewrite E0, Nat.eqb_refl. discriminate.
  - fold w0 in E1. rewrite E1. cbn [bind]. eexists. split; [reflexivity |]. split; [| eexists; reflexivity].
    assert (Ed : edges w w1).
    { intros o i p H. unfold holds in *. destruct (C1 o i) as [E | (E & _)]; rewrite E in H; [exact H | discriminate]. }
    assert (C1' : forall o i, holds w1 o i q -> c_conn (w_cell w1 o i) = Some q).
    { intros o i H. pose proof (C o i (Ed _ _ _ H)) as K. destruct (C1 o i) as [E | (E & _)].
      - rewrite E. exact K.
      - unfold holds in H. rewrite E in H. discriminate. }
    set (w2 := emit_destroyed (add_log (set_state w1 q Dead) q by_) q).
    assert (E2 : forall p, state_of w2 p = if Nat.eqb p q then Dead else state_of w1 p) by (intro; apply state_set).
    split; [apply dead_inv; assumption |]. split; [rewrite E2, Nat.eqb_refl; reflexivity |]. split; [exact X1 |].
    split; [| split; [| split]].
    + intro p. destruct (A1 p) as (J & O & F). unfold w0 in J, O, F. rewrite js_set in J. rewrite own_set in O. rewrite fields_set in F.
      change (w_obj w2 p) with (w_obj (set_state w1 q Dead) p). rewrite js_set, own_set, fields_set. auto.
    + intros p Np. rewrite E2. destruct (Nat.eqb_spec p q); [contradiction |].
      destruct (S1 p) as [S | (S & T & U & V)]; rewrite E0 in S; destruct (Nat.eqb_spec p q); try contradiction.
      * left. exact S.
      * right. unfold w0 in V. rewrite js_set in V. apply (nested_mono _ _ Ed0) in U. repeat split; auto.
    + intros o i.
      assert (Dead1 : forall p, state_of w1 p = Dead -> state_of w2 p = Dead).
      { intros p H. rewrite E2. destruct (Nat.eqb p q); auto. }
      assert (K : w_cell w2 o i = w_cell w1 o i \/ (w_cell w2 o i = empty /\ c_conn (w_cell w1 o i) = Some q)).
      { unfold w2, emit_destroyed. cbn. destruct (c_conn (w_cell w1 o i)) as [r |]; [| left; reflexivity].
        destruct (Nat.eqb_spec r q); [right; subst; auto | left; reflexivity]. }
      destruct K as [K | (K & Q)].
      * destruct (C1 o i) as [E | (E & M)]; [left; rewrite K; exact E | right]. split; [congruence |].
        destruct M as [(p & M & T) | [M | (M & T)]]; [left; exists p; split; [exact M | apply Dead1; exact T] | right | right].
        -- subst o. split; [exact A |]. rewrite E2, Nat.eqb_refl. reflexivity.
        -- split; [| apply Dead1; exact T]. rewrite E0 in M. destruct (Nat.eqb o q); [discriminate | exact M].
      * right. split; [exact K |]. left. exists q. split; [| rewrite E2, Nat.eqb_refl; reflexivity].
        apply Ed. apply (i_conn _ _ I1). exact Q.
    + intros i p H J. rewrite E2. destruct (Nat.eqb p q); [reflexivity |]. apply (J1 i p); [exact H |].
      unfold w0. rewrite js_set. exact J.
Qed.

(** * Operations *)

Definition calm (w : world) : Prop := forall p, state_of w p <> Dying.

(** A new edge that closes no cycle. *)
Lemma edge_nested : forall w w' o i p,
  (forall o' i' p', holds w' o' i' p' -> holds w o' i' p' \/ ((o', i') = (o, i) /\ p' = p)) ->
  forall a b, nested w' a b -> nested w a b \/ ((a = o \/ nested w a o) /\ (b = p \/ nested w p b)).
Proof.
  intros w w' o i p E a b H. induction H as [a j b H | a j b c H _ IH].
  - destruct (E _ _ _ H) as [K | (K & Q)]; [left; eapply nested_one; exact K | right].
    injection K as -> ->. subst. auto.
  - destruct (E _ _ _ H) as [K | (K & Q)].
    + destruct IH as [IH | (IH & Z)].
      * left. eapply nested_more; eassumption.
      * right. split; [| exact Z]. right. destruct IH as [-> | IH]; [eapply nested_one; exact K | eapply nested_more; eassumption].
    + injection K as -> ->. subst b. right. split; [left; reflexivity |].
      destruct IH as [IH | (_ & Z)]; [right; exact IH | exact Z].
Qed.

Lemma create_inv : forall w js own fields x,
  Inv w None -> (own = true -> x = Some (w_next w)) -> (own = false -> x = None) ->
  Inv (create w js own fields) x.
Proof.
  intros w js own fields x I X Y.
  set (w' := create w js own fields). set (n := w_next w).
  assert (Eo : forall p, p <> n -> w_obj w' p = w_obj w p).
  { intros p N. unfold w', create. cbn. destruct (Nat.eqb_spec p (w_next w)); [contradiction | reflexivity]. }
  assert (En : w_obj w' n = mkObject Alive js own fields).
  { unfold w', create. cbn. unfold n. rewrite Nat.eqb_refl. reflexivity. }
  assert (Dn : state_of w n = Dead).
  { destruct (state_of w n) eqn:S; [| | reflexivity]; exfalso; assert (n < w_next w) by (apply (i_next _ _ I); congruence); unfold n in *; lia. }
  assert (Nh : forall o i p, holds w o i p -> p <> n /\ o <> n).
  { intros o i p H. destruct (i_ptr _ _ I o i p H) as (A & B & _). split; intro; subst; congruence. }
  destruct I. split.
  - intros p H. destruct (Nat.eq_dec p n) as [-> | N]; [cbn; unfold n; lia |].
    unfold state_of in *. rewrite Eo in H by exact N. apply i_next0 in H. cbn. lia.
  - intros o i p H. destruct (Nh o i p H). unfold state_of in *. rewrite !Eo by assumption. apply (i_ptr0 o i p H).
  - exact i_conn0.
  - intros o i p H O. destruct (Nh o i p H). rewrite Eo in * by assumption. exact (i_own0 o i p H O).
  - intros o i p H O. destruct (Nh o i p H). rewrite Eo in * by assumption. exact (i_given0 o i p H O).
  - intros a K. apply (i_acyclic0 a). eapply nested_mono; [| exact K]. intros o i p H. exact H.
  - intros p O A. destruct (Nat.eq_dec p n) as [-> | N].
    + rewrite En in O. cbn in O. right. apply X. exact O.
    + unfold state_of in *. rewrite Eo in * by exact N. destruct (i_held0 p O A) as [K | K]; [left; exact K | discriminate].
  - exact i_log0.
  - intros p H. destruct (i_dead0 p H) as (A & B). split; [cbn; lia |].
    unfold state_of in *. rewrite Eo; [exact B | unfold n; lia].
  - intros p L S. destruct (Nat.eq_dec p n) as [-> | N]; [unfold state_of in S; rewrite En in S; discriminate |].
    apply i_logged0; [cbn in L; unfold n in N; lia |]. unfold state_of in *. rewrite Eo in S by exact N. exact S.
Qed.

Lemma ptr_none : forall w x o i, Inv w x -> c_ptr (w_cell w o i) = None -> w_cell w o i = empty.
Proof.
  intros w x o i I P. destruct (w_cell w o i) as [a c] eqn:Q. cbn in P. subst a. destruct c as [c |]; [| reflexivity].
  assert (K : c_conn (w_cell w o i) = Some c) by (rewrite Q; reflexivity).
  apply (i_conn _ _ I) in K. unfold holds in K. rewrite Q in K. discriminate.
Qed.

Lemma access_ok : forall w o i fields,
  Inv w None -> state_of w o = Alive -> i < o_fields (w_obj w o) ->
  let w' := access w o i fields in
  Inv w' None
  /\ (forall o' i', (o', i') <> (o, i) -> w_cell w' o' i' = w_cell w o' i')
  /\ (forall p, p < w_next w -> w_obj w' p = w_obj w p)
  /\ w_log w' = w_log w
  /\ ((w' = w /\ exists p, holds w o i p)
      \/ (holds w' o i (w_next w) /\ w_cell w o i = empty /\ w_next w' = S (w_next w)
          /\ w_obj w' (w_next w) = mkObject Alive false true fields)).
Proof.
  intros w o i fields I A L w'. unfold w', access. destruct (c_ptr (w_cell w o i)) as [p |] eqn:P.
  - split; [exact I |]. split; [auto |]. split; [auto |]. split; [reflexivity |]. left. split; [reflexivity | exists p; exact P].
  - set (n := w_next w). pose proof (ptr_none w None o i I P) as Z. rewrite Z. cbn [c_conn empty].
    set (w1 := create w false true fields). set (w2 := set_cell w1 o i (mkCell (Some n) None)).
    pose proof (create_inv w false true fields (Some n) I (fun _ => eq_refl) ltac:(discriminate)) as I1. fold w1 in I1.
    assert (Lo : o < n) by (apply (i_next _ _ I); congruence).
    assert (No : o <> n) by lia.
    assert (Dn : state_of w n = Dead).
    { destruct (state_of w n) eqn:S; [| | reflexivity]; exfalso; assert (n < w_next w) by (apply (i_next _ _ I); congruence); unfold n in *; lia. }
    assert (Nh : forall o' i' p, holds w o' i' p -> p <> n /\ o' <> n).
    { intros o' i' p H. destruct (i_ptr _ _ I o' i' p H) as (X & Y & _). split; intro; subst; congruence. }
    assert (E : forall o' i' p, holds w2 o' i' p -> holds w o' i' p \/ ((o', i') = (o, i) /\ p = n)).
    { intros o' i' p H. unfold holds in *. destruct (pair_dec o' i' o i) as [Q | Q].
      - injection Q as -> ->. unfold w2 in H. rewrite cell_set_same in H. cbn in H. right. split; [reflexivity | congruence].
      - unfold w2 in H. rewrite cell_set_other in H by exact Q. left. exact H. }
    assert (Ob : forall p, p < n -> w_obj w2 p = w_obj w p).
    { intros p Lp. cbn. destruct (Nat.eqb_spec p (w_next w)); [unfold n in *; lia | reflexivity]. }
    assert (On : w_obj w2 n = mkObject Alive false true fields) by (cbn; unfold n; rewrite Nat.eqb_refl; reflexivity).
    assert (Ho : holds w2 o i n) by (unfold holds, w2; rewrite cell_set_same; reflexivity).
    split; [| split; [| split; [exact Ob | split; [reflexivity |]]]].
    + pose proof (i_held _ _ I1) as Held. pose proof (i_own _ _ I1) as Own. pose proof (i_given _ _ I1) as Giv.
      pose proof (i_ptr _ _ I1) as Ptr. pose proof (i_conn _ _ I1) as Con.
      split; try apply I1.
      * intros o' i' p H. destruct (E _ _ _ H) as [K | (K & ->)]; [exact (Ptr o' i' p K) |].
        injection K as -> ->. unfold state_of. rewrite On. rewrite (Ob o Lo). unfold state_of in A. rewrite A.
        repeat split; [discriminate | discriminate | exact L].
      * intros o' i' p H. unfold holds. destruct (pair_dec o' i' o i) as [Q | Q].
        -- injection Q as -> ->. unfold w2 in H. rewrite cell_set_same in H. discriminate.
        -- unfold w2 in *. rewrite cell_set_other in * by exact Q. apply Con. exact H.
      * intros o' i' p H O. destruct (E _ _ _ H) as [K | (K & ->)].
        -- destruct (Own o' i' p K O) as (X & Y & W). split; [exact X |]. destruct (Nh _ _ _ K) as (Np & _). split.
           ++ destruct (pair_dec o' i' o i) as [Q | Q]; [injection Q as -> ->; unfold w2; rewrite cell_set_same; reflexivity |].
              unfold w2. rewrite cell_set_other by exact Q. exact Y.
           ++ intros o2 i2 H2. destruct (E _ _ _ H2) as [K2 | (_ & K2)]; [apply W; exact K2 | contradiction].
        -- injection K as -> ->. rewrite On. split; [reflexivity |]. split; [unfold w2; rewrite cell_set_same; reflexivity |].
           intros o2 i2 H2. destruct (E _ _ _ H2) as [K2 | (K2 & _)]; [destruct (Nh _ _ _ K2); congruence |].
           injection K2 as -> ->. auto.
      * intros o' i' p H O. destruct (E _ _ _ H) as [K | (K & ->)].
        -- destruct (pair_dec o' i' o i) as [Q | Q].
           ++ injection Q as -> ->. unfold holds in K. rewrite Z in K. discriminate.
           ++ unfold w2. rewrite cell_set_other by exact Q. apply Giv; assumption.
        -- rewrite On in O. discriminate.
      * intros a K. destruct (edge_nested w w2 o i n E a a K) as [K2 | (K2 & K3)].
        -- apply (i_acyclic _ _ I a). exact K2.
        -- assert (Nn : forall b, ~ nested w n b).
           { intros b K4. inversion K4 as [x j y H | x j y z H]; subst; destruct (Nh _ _ _ H); congruence. }
           destruct K3 as [-> | K3]; [| exact (Nn a K3)]. destruct K2 as [K2 | K2]; [congruence | exact (Nn o K2)].
      * intros p O S. destruct (Held p O S) as [(o' & i' & K) | K].
        -- left. exists o', i'. unfold holds. destruct (pair_dec o' i' o i) as [Q | Q].
           ++ injection Q as -> ->. change (c_ptr (w_cell w o i) = Some p) in K. congruence.
           ++ unfold w2. rewrite cell_set_other by exact Q. exact K.
        -- injection K as <-. left. exists o, i. exact Ho.
    + intros o' i' Q. unfold w2. rewrite cell_set_other by exact Q. reflexivity.
    + right. split; [exact Ho |]. split; [reflexivity |]. split; [reflexivity | exact On].
Qed.

Lemma empty_inv_x : forall w o i p x,
  Inv w None -> holds w o i p -> (o_own (w_obj w p) = false \/ x = Some p) ->
  Inv (set_cell w o i empty) x.
Proof. intros w o i p x I H X. apply (empty_inv w o i p x I H). intro O. destruct X; congruence. Qed.

Lemma fill_inv : forall w o i r x,
  Inv w x -> w_cell w o i = empty -> state_of w o <> Dead -> i < o_fields (w_obj w o) ->
  state_of w r <> Dead -> o_own (w_obj w r) = false -> r <> o -> ~ nested w r o ->
  Inv (set_cell w o i (mkCell (Some r) (Some r))) x.
Proof.
  intros w o i r x I Z So L Sr O No Nn. set (w2 := set_cell w o i (mkCell (Some r) (Some r))).
  assert (E : forall o' i' p, holds w2 o' i' p -> holds w o' i' p \/ ((o', i') = (o, i) /\ p = r)).
  { intros o' i' p H. unfold holds in *. destruct (pair_dec o' i' o i) as [Q | Q].
    - injection Q as -> ->. unfold w2 in H. rewrite cell_set_same in H. cbn in H. right. split; [reflexivity | congruence].
    - unfold w2 in H. rewrite cell_set_other in H by exact Q. left. exact H. }
  assert (Ho : holds w2 o i r) by (unfold holds, w2; rewrite cell_set_same; reflexivity).
  pose proof (i_acyclic _ _ I) as Ac.
  destruct I. split; try assumption.
  - intros o' i' p H. destruct (E _ _ _ H) as [K | (K & ->)]; [exact (i_ptr0 _ _ _ K) |].
    injection K as -> ->. auto.
  - intros o' i' p H. destruct (pair_dec o' i' o i) as [Q | Q].
    + injection Q as -> ->. unfold w2 in H. rewrite cell_set_same in H. cbn in H. injection H as <-. exact Ho.
    + unfold holds, w2 in *. rewrite cell_set_other in * by exact Q. apply i_conn0. exact H.
  - intros o' i' p H Op. destruct (E _ _ _ H) as [K | (_ & ->)]; [| change (o_own (w_obj w r) = true) in Op; congruence].
    destruct (i_own0 o' i' p K Op) as (A & B & C). split; [exact A |]. split.
    + destruct (pair_dec o' i' o i) as [Q | Q].
      * injection Q as -> ->. unfold holds in K. rewrite Z in K. discriminate.
      * unfold w2. rewrite cell_set_other by exact Q. exact B.
    + intros o2 i2 H2. destruct (E _ _ _ H2) as [K2 | (_ & ->)]; [apply C; exact K2 | change (o_own (w_obj w r) = true) in Op; congruence].
  - intros o' i' p H Op. destruct (E _ _ _ H) as [K | (K & ->)].
    + destruct (pair_dec o' i' o i) as [Q | Q].
      * injection Q as -> ->. unfold holds in K. rewrite Z in K. discriminate.
      * unfold w2. rewrite cell_set_other by exact Q. apply i_given0; assumption.
    + injection K as -> ->. unfold w2. rewrite cell_set_same. reflexivity.
  - intros a K. destruct (edge_nested w w2 o i r E a a K) as [K2 | (K2 & K3)]; [exact (Ac a K2) |].
    apply Nn. destruct K3 as [K3 | K3]; destruct K2 as [K2 | K2]; subst.
    + congruence.
    + exact K2.
    + exact K3.
    + eapply nested_trans; eassumption.
  - intros p Op A. destruct (i_held0 p Op A) as [(o' & i' & K) | K]; [left | right; exact K].
    exists o', i'. unfold holds. destruct (pair_dec o' i' o i) as [Q | Q].
    + injection Q as -> ->. unfold holds in K. rewrite Z in K. discriminate.
    + unfold w2. rewrite cell_set_other by exact Q. exact K.
Qed.

(** A field that holds [q] gets another pointer. *)
Lemma put_inv : forall w o i q p x,
  Inv w None -> holds w o i q -> state_of w o <> Dead ->
  (forall r, p = Some r -> state_of w r <> Dead /\ o_own (w_obj w r) = false /\ r <> o /\ ~ nested w r o) ->
  (o_own (w_obj w q) = false \/ x = Some q) ->
  Inv (set_cell w o i (mkCell p p)) x.
Proof.
  intros w o i q p x I H S P X.
  pose proof (empty_inv_x w o i q x I H X) as I1.
  destruct (i_ptr _ _ I o i q H) as (_ & _ & L).
  assert (I2 : Inv (set_cell (set_cell w o i empty) o i (mkCell p p)) x).
  { destruct p as [r |].
    - destruct (P r eq_refl) as (Sr & O & No & Nn). apply fill_inv; try assumption.
      + apply cell_set_same.
      + intro K. apply Nn. eapply nested_mono; [apply empty_edges | exact K].
    - apply (inv_same _ _ _ I1); try reflexivity. intros o' i'. destruct (pair_dec o' i' o i) as [Q | Q].
      + injection Q as -> ->. rewrite !cell_set_same. reflexivity.
      + apply cell_set_other. exact Q. }
  apply (inv_same _ _ _ I2); try reflexivity. intros o' i'. destruct (pair_dec o' i' o i) as [Q | Q].
  - injection Q as -> ->. rewrite !cell_set_same. reflexivity.
  - rewrite !cell_set_other by exact Q. reflexivity.
Qed.

Lemma inv_weaken : forall w x, Inv w None -> Inv w x.
Proof.
  intros w x I. destruct I. split; try assumption.
  intros p O A. destruct (i_held0 p O A) as [K | K]; [left; exact K | discriminate].
Qed.

(** The effect of reset on a field that holds [q]. *)
Lemma reset_ok : forall w o i q p,
  Inv w None -> calm w -> holds w o i q -> state_of w o = Alive -> p <> Some q ->
  (forall r, p = Some r -> state_of w r = Alive /\ o_own (w_obj w r) = false /\ r <> o /\ ~ nested w r o) ->
  exists w', reset true w o i p = Ok w' /\ Inv w' None /\ calm w' /\ w_next w' = w_next w
    /\ (forall a, o_js (w_obj w' a) = o_js (w_obj w a) /\ o_own (w_obj w' a) = o_own (w_obj w a)
          /\ o_fields (w_obj w' a) = o_fields (w_obj w a))
    /\ (o_js (w_obj w q) = true ->
          w_cell w' o i = mkCell p p /\ w_log w' = w_log w /\ forall a, state_of w' a = state_of w a)
    /\ (o_js (w_obj w q) = false ->
          state_of w' q = Dead /\ (exists l, w_log w' = (q, ByField o i) :: l)
          /\ (forall a, a <> q -> state_of w' a = state_of w a
                \/ (state_of w a = Alive /\ state_of w' a = Dead /\ nested w q a /\ o_js (w_obj w a) = false))
          /\ (w_cell w' o i = mkCell p p
              \/ exists r, p = Some r /\ nested w q r /\ state_of w' r = Dead /\ w_cell w' o i = empty)).
Proof.
  intros w o i q p I Cm H So Np P.
  assert (P' : forall r, p = Some r -> state_of w r <> Dead /\ o_own (w_obj w r) = false /\ r <> o /\ ~ nested w r o).
  { intros r E. destruct (P r E) as (A & B). split; [congruence | exact B]. }
  assert (Sd : state_of w o <> Dead) by congruence.
  assert (Aq : state_of w q = Alive).
  { destruct (i_ptr _ _ I o i q H) as (X & _). destruct (state_of w q) eqn:E; [reflexivity | exfalso; exact (Cm q E) | congruence]. }
  unfold reset, checkAndRelease. rewrite (H : c_ptr _ = _), Aq. cbn [is_dead].
  destruct (o_js (w_obj w q)) eqn:J.
  - cbn [bind]. rewrite cell_set_same. cbn [c_ptr empty].
    assert (G : match p with Some r => is_dead (state_of (set_cell w o i empty) r) | None => false end = false).
    { destruct p as [r |]; [| reflexivity]. destruct (P r eq_refl) as (A & _).
      change (state_of (set_cell w o i empty) r) with (state_of w r). rewrite A. reflexivity. }
    rewrite G. eexists. split; [reflexivity |].
    assert (Own : o_own (w_obj w q) = false).
    { destruct (o_own (w_obj w q)) eqn:O; [| reflexivity]. destruct (i_own _ _ I o i q H O). congruence. }
    split.
    { pose proof (put_inv w o i q p None I H Sd P' (or_introl Own)) as I2. apply (inv_same _ _ _ I2); try reflexivity.
      intros o' i'. destruct (pair_dec o' i' o i) as [Q | Q].
      - injection Q as -> ->. rewrite !cell_set_same. reflexivity.
      - rewrite !cell_set_other by exact Q. reflexivity. }
    split; [exact Cm |]. split; [reflexivity |]. split; [auto |]. split; [| discriminate].
    intros _. split; [apply cell_set_same |]. split; [reflexivity | auto].
  - cbn [bind]. rewrite (H : c_ptr _ = _).
    assert (G : match p with Some r => is_dead (state_of w r) | None => false end = false).
    { destruct p as [r |]; [| reflexivity]. destruct (P r eq_refl) as (A & _). rewrite A. reflexivity. }
    rewrite G. set (w2 := set_cell w o i (mkCell p p)).
    pose proof (put_inv w o i q p (Some q) I H Sd P' (or_intror eq_refl)) as I2. fold w2 in I2.
    assert (E : forall o' i' a, holds w2 o' i' a -> holds w o' i' a /\ (o', i') <> (o, i) \/ ((o', i') = (o, i) /\ p = Some a)).
    { intros o' i' a K. unfold holds in *. destruct (pair_dec o' i' o i) as [Q | Q].
      - injection Q as -> ->. unfold w2 in K. rewrite cell_set_same in K. right. auto.
      - unfold w2 in K. rewrite cell_set_other in K by exact Q. left. auto. }
    assert (R : ready w2 q).
    { split; [exact I2 |]. split; [exact Aq |]. split; [intros d Dd; exfalso; exact (Cm d Dd) |].
      intros o' i' K. destruct (E _ _ _ K) as [(K1 & Q) | (_ & K1)]; [| contradiction].
      unfold w2. rewrite cell_set_other by exact Q.
      destruct (o_own (w_obj w q)) eqn:O; [| apply (i_given _ _ I); assumption].
      destruct (i_own _ _ I o i q H O) as (_ & _ & U). destruct (U o' i' K1). congruence. }
    destruct (destroy_ok (S (w_next w2)) (ByField o i) w2 q R) as (w' & E' & (I' & D' & X' & A' & S' & C' & _) & Lg).
    { apply Nat.lt_succ_r. apply count_le. }
    (* what is nested in [q] is the same in both *)
    assert (Nq : forall a, nested w2 q a -> nested w q a).
    { intros a K.
      assert (G1 : forall x y, nested w2 x y -> (x = q \/ nested w q x) -> nested w q y).
      { intros x y K1. induction K1 as [x j y K1 | x j y z K1 _ IH]; intro K2.
        - destruct (E _ _ _ K1) as [(K3 & _) | (K3 & _)].
          + destruct K2 as [-> | K2]; [eapply nested_one; exact K3 | eapply nested_trans; [exact K2 | eapply nested_one; exact K3]].
          + injection K3 as -> ->. exfalso. apply (i_acyclic _ _ I q).
            assert (K4 : nested w o q) by (eapply nested_one; exact H).
            destruct K2 as [-> | K2]; [exact K4 | eapply nested_trans; [exact K2 | exact K4]].
        - apply IH. right. destruct (E _ _ _ K1) as [(K3 & _) | (K3 & _)].
          + destruct K2 as [-> | K2]; [eapply nested_one; exact K3 | eapply nested_trans; [exact K2 | eapply nested_one; exact K3]].
          + injection K3 as -> ->. exfalso. apply (i_acyclic _ _ I q).
            assert (K4 : nested w o q) by (eapply nested_one; exact H).
            destruct K2 as [-> | K2]; [exact K4 | eapply nested_trans; [exact K2 | exact K4]]. }
      apply (G1 q a K). left. reflexivity. }
    assert (S2 : forall a, a <> q -> state_of w' a = state_of w a
                \/ (state_of w a = Alive /\ state_of w' a = Dead /\ nested w q a /\ o_js (w_obj w a) = false)).
    { intros a Na. destruct (S' a Na) as [S | (S & T & U & V)]; [left; exact S | right]. repeat split; auto. }
    exists w'. split; [exact E' |]. split; [exact I' |]. split.
    { intros a Da. destruct (Nat.eq_dec a q) as [-> | Na]; [congruence |].
      destruct (S2 a Na) as [S | (_ & S & _)]; [exact (Cm a ltac:(congruence)) | congruence]. }
    split; [exact X' |]. split; [exact A' |]. split; [discriminate |]. intros _. split; [exact D' |]. split; [exact Lg |].
    split; [exact S2 |].
    assert (So' : state_of w' o = Alive).
    { assert (No : o <> q) by (intro; subst; apply (i_acyclic _ _ I q); eapply nested_one; exact H).
      destruct (S2 o No) as [S | (_ & _ & K & _)]; [congruence |]. exfalso. apply (i_acyclic _ _ I q).
      eapply nested_trans; [exact K | eapply nested_one; exact H]. }
    destruct (C' o i) as [K | (K & M)]; [left; rewrite K; apply cell_set_same | right].
    destruct M as [(r & M & T) | (_ & M)]; [| congruence].
    unfold holds, w2 in M. rewrite cell_set_same in M. cbn in M. subst p. exists r. split; [reflexivity |].
    assert (Nr : r <> q) by congruence.
    destruct (S2 r Nr) as [S | (_ & _ & U & _)].
    + destruct (P r eq_refl) as (Ar & _). congruence.
    + auto.
Qed.

Lemma calm_access : forall w o i fields, calm w -> calm (access w o i fields).
Proof.
  intros w o i fields C p. unfold access. destruct (c_ptr (w_cell w o i)); [apply C |].
  unfold state_of, set_cell, create. cbn. destruct (Nat.eqb p (w_next w)); [discriminate | apply C].
Qed.

(** One operation. *)
Lemma step_ok : forall w x, Inv w None -> calm w -> legal w x ->
  exists w', step true w x = Ok w' /\ Inv w' None /\ calm w'.
Proof.
  intros w x I C L. destruct x as [js fields | o i fields | o i p fields | p js | p]; cbn [step legal] in *.
  - eexists. split; [reflexivity |]. split.
    + apply create_inv; [exact I | discriminate | reflexivity].
    + intro p. unfold state_of, create. cbn. destruct (Nat.eqb p (w_next w)); [discriminate | apply C].
  - destruct L as ((_ & A) & L). change (o_state (w_obj w o)) with (state_of w o) in A. rewrite A. cbn [is_alive].
    eexists. split; [reflexivity |]. split; [apply access_ok; assumption | apply calm_access; exact C].
  - destruct L as ((Lo & A) & L & P). change (o_state (w_obj w o)) with (state_of w o) in A. rewrite A. cbn [is_alive].
    destruct (access_ok w o i fields I A L) as (I1 & C1 & O1 & G1 & D1). pose proof (calm_access w o i fields C) as Cm1.
    unfold assign. set (w1 := access w o i fields) in *.
    assert (H : exists q, holds w1 o i q).
    { destruct D1 as [(E & (q & H)) | (H & _)]; [exists q; rewrite E; exact H | eauto]. }
    destruct H as (q & H). rewrite (H : c_ptr _ = _).
    assert (A1 : state_of w1 o = Alive) by (unfold state_of; rewrite O1 by exact Lo; exact A).
    assert (P1 : forall r, p = Some r -> p <> Some q ->
      state_of w1 r = Alive /\ o_own (w_obj w1 r) = false /\ r <> o /\ ~ nested w1 r o).
    { intros r -> Nq. destruct P as [P | ((Lr & P) & Own & No & Nn)].
      - exfalso. destruct D1 as [(E & _) | (_ & E & _)].
        + rewrite E in H. unfold holds in *. congruence.
        + unfold holds in P. rewrite E in P. discriminate.
      - unfold state_of. rewrite O1 by exact Lr. split; [exact P |]. split; [unfold made_by_field in Own; destruct (o_own (w_obj w r)); congruence |].
        split; [exact No |]. intro K. destruct D1 as [(E & _) | (Hn & Z & _)].
        + rewrite E in K. contradiction.
        + assert (E : forall o' i' a, holds w1 o' i' a -> holds w o' i' a \/ ((o', i') = (o, i) /\ a = w_next w)).
          { intros o' i' a M. destruct (pair_dec o' i' o i) as [Q | Q].
            - injection Q as -> ->. right. unfold holds in *. split; [reflexivity | congruence].
            - left. unfold holds in *. rewrite C1 in M by exact Q. exact M. }
          destruct (edge_nested w w1 o i (w_next w) E r o K) as [K1 | (K1 & _)]; [contradiction |].
          destruct K1 as [K1 | K1]; contradiction. }
    destruct p as [r |].
    + destruct (Nat.eqb_spec q r) as [Q | Q]; [eauto |].
      destruct (reset_ok w1 o i q (Some r) I1 Cm1 H A1) as (w' & E' & I' & Cm' & _); [congruence | | eauto].
      intros r' E. apply P1; [exact E | congruence].
    + destruct (reset_ok w1 o i q None I1 Cm1 H A1) as (w' & E' & I' & Cm' & _); [discriminate | discriminate | eauto].
  - destruct L as ((_ & A) & Own). unfold made_by_field in Own. pose proof A as A0. change (o_state (w_obj w p)) with (state_of w p) in A. rewrite A. cbn [is_alive].
    eexists. split; [reflexivity |].
    set (w' := set_object w p _).
    assert (Es : forall a, state_of w' a = state_of w a).
    { intro a. unfold w', state_of, set_object. cbn. destruct (Nat.eqb_spec a p); [subst |]; reflexivity. }
    assert (Eo : forall a, o_own (w_obj w' a) = o_own (w_obj w a)).
    { intro a. unfold w', set_object. cbn. destruct (Nat.eqb_spec a p); [subst |]; reflexivity. }
    assert (Ef : forall a, o_fields (w_obj w' a) = o_fields (w_obj w a)).
    { intro a. unfold w', set_object. cbn. destruct (Nat.eqb_spec a p); [subst |]; reflexivity. }
    assert (Ej : forall a, a <> p -> o_js (w_obj w' a) = o_js (w_obj w a)).
    { intros a N. unfold w', set_object. cbn. destruct (Nat.eqb_spec a p); [contradiction | reflexivity]. }
    split; [| intro a; rewrite Es; apply C].
    destruct I. split; try assumption.
    + intros a. rewrite Es. apply i_next0.
    + intros o i a H. rewrite !Es, Ef. exact (i_ptr0 o i a H).
    + intros o i a H O. rewrite Eo in O. rewrite Ej by (intro; subst; contradiction). exact (i_own0 o i a H O).
    + intros o i a H O. rewrite Eo in O. exact (i_given0 o i a H O).
    + intros a K. apply (i_acyclic0 a). eapply nested_mono; [| exact K]. intros o i b H. exact H.
    + intros a O S. rewrite Eo in O. rewrite Es in S. exact (i_held0 a O S).
    + intros a H. rewrite Es. exact (i_dead0 a H).
    + intros a La. rewrite Es. apply i_logged0. exact La.
  - destruct L as ((_ & A) & Own). unfold made_by_field in Own.
    assert (O : o_own (w_obj w p) = false) by (destruct (o_own (w_obj w p)); congruence).
    destruct (destroy_ok (S (w_next w)) ByOther w p) as (w' & E' & (I' & D' & X' & A' & S' & C' & _) & _).
    + split; [apply inv_weaken; exact I |]. split; [exact A |]. split; [intros d Dd; exfalso; exact (C d Dd) |].
      intros o i H. apply (i_given _ _ I); assumption.
    + apply Nat.lt_succ_r. apply count_le.
    + exists w'. split; [exact E' |]. split; [exact I' |]. intros a Da. destruct (Nat.eq_dec a p) as [-> | Na]; [congruence |].
      destruct (S' a Na) as [S | (_ & S & _)]; [exact (C a ltac:(congruence)) | congruence].
Qed.

Lemma initial_inv : Inv initial None /\ calm initial.
Proof.
  split; [| intro p; discriminate]. split; try (intros; discriminate).
  - intros p H. exfalso. apply H. reflexivity.
  - intros a K. inversion K; discriminate.
  - constructor.
  - intros p [].
  - intros p L. cbn in L. lia.
Qed.

Lemma run_ok : forall xs w, Inv w None -> calm w -> legal_run true w xs ->
  exists w', run true w xs = Ok w' /\ Inv w' None /\ calm w'.
Proof.
  induction xs as [| x xs IH]; intros w I C L; [exists w; auto |].
  cbn [run legal_run] in *. destruct L as (L & R). destruct (step_ok w x I C L) as (w1 & E & I1 & C1).
  rewrite E. cbn [bind]. apply IH; auto.
Qed.

(** * Nothing stays behind *)

(** Every object that a field has made stands below one that none has made. *)
Lemma chain_up : forall w, Inv w None -> calm w ->
  (forall p, p < w_next w -> o_own (w_obj w p) = false -> state_of w p = Dead) ->
  forall p, state_of w p = Alive ->
  forall n, exists l top, List.length l = n /\ state_of w top = Alive
    /\ NoDup l /\ (forall a, In a l -> a < w_next w /\ nested w top a).
Proof.
  intros w I C D p A. induction n as [| n (l & top & Ln & At & N & R)].
  - exists [], p. repeat split; [exact A | constructor | destruct H | destruct H].
  - assert (Lt : top < w_next w) by (apply (i_next _ _ I); congruence).
    assert (O : o_own (w_obj w top) = true).
    { destruct (o_own (w_obj w top)) eqn:O; [reflexivity |]. rewrite (D top Lt O) in At. discriminate. }
    destruct (i_held _ _ I top O At) as [(o & i & H) | H]; [| discriminate].
    destruct (i_ptr _ _ I o i top H) as (_ & So & _).
    assert (Ao : state_of w o = Alive) by (destruct (state_of w o) eqn:S; [reflexivity | exfalso; exact (C o S) | congruence]).
    exists (top :: l), o. split; [cbn; congruence |]. split; [exact Ao |]. split.
    + constructor; [| exact N]. intro K. destruct (R top K) as (_ & Q). exact (i_acyclic _ _ I top Q).
    + intros a [<- | K]; [split; [exact Lt | eapply nested_one; exact H] |].
      destruct (R a K) as (La & Q). split; [exact La | eapply nested_more; eassumption].
Qed.

Lemma all_dead : forall w, Inv w None -> calm w ->
  (forall p, p < w_next w -> o_own (w_obj w p) = false -> state_of w p = Dead) ->
  forall p, p < w_next w -> state_of w p = Dead.
Proof.
  intros w I C D p L. destruct (state_of w p) eqn:S; [| exfalso; exact (C p S) | reflexivity]. exfalso.
  destruct (chain_up w I C D p S (Datatypes.S (w_next w))) as (l & top & Ln & _ & N & R).
  assert (K : List.length l <= List.length (seq 0 (w_next w))).
  { apply NoDup_incl_length; [exact N |]. intros a Ha. apply in_seq. destruct (R a Ha). lia. }
  rewrite seq_length in K. lia.
Qed.

(** * Who destroys *)

Definition by_field (e : nat * destroyer) : Prop := exists o i, snd e = ByField o i.

Lemma release_log : forall qml w o i w1, checkAndRelease qml w o i = Ok w1 ->
  w_log w1 = w_log w /\ w_obj w1 = w_obj w /\ w_next w1 = w_next w
  /\ (qml = false -> c_ptr (w_cell w1 o i) = None).
Proof.
  intros qml w o i w1 H. unfold checkAndRelease in H. destruct (c_ptr (w_cell w o i)) as [p |] eqn:P.
  - destruct qml.
    + destruct (is_dead (state_of w p)); [discriminate |]. destruct (o_js (w_obj w p)); injection H as <-; repeat split; discriminate.
    + injection H as <-. repeat split. intros _. rewrite cell_set_same. reflexivity.
  - injection H as <-. auto.
Qed.

Lemma cells_log : forall destr qml,
  (forall by_ w p w', destr by_ w p = Ok w' ->
     exists l, w_log w' = (p, by_) :: l ++ w_log w /\ Forall by_field l) ->
  forall n w o w', destroy_cells destr qml w o n = Ok w' ->
    exists l, w_log w' = l ++ w_log w /\ Forall by_field l.
Proof.
  intros destr qml D. induction n as [| i IH]; intros w o w' H; cbn [destroy_cells] in H.
  - injection H as <-. exists []. split; [reflexivity | constructor].
  - destruct (checkAndRelease qml w o i) as [w1 | | |] eqn:R; try discriminate. cbn [bind] in H.
    destruct (release_log qml w o i w1 R) as (L1 & _).
    assert (M : exists w3 l, w_log w3 = l ++ w_log w /\ Forall by_field l /\ destroy_cells destr qml w3 o i = Ok w').
    { destruct (c_ptr (w_cell w1 o i)) as [p |].
      - destruct (destr (ByField o i) (set_cell w1 o i empty) p) as [w3 | | |] eqn:E; try discriminate. cbn [bind] in H.
        destruct (D _ _ _ _ E) as (l & L & F). exists w3, ((p, ByField o i) :: l). cbn [set_cell w_log] in L.
        split; [rewrite L, L1; reflexivity |]. split; [| exact H]. constructor; [exists o, i; reflexivity | exact F].
      - cbn [bind] in H. exists (set_cell w1 o i empty), []. split; [exact L1 |]. split; [constructor | exact H]. }
    destruct M as (w3 & l & L & F & E). destruct (IH w3 o w' E) as (m & Lm & Fm).
    exists (m ++ l). split; [rewrite Lm, L, app_assoc; reflexivity | apply Forall_app; auto].
Qed.

Lemma destroy_log : forall fuel qml by_ w p w', destroy fuel qml by_ w p = Ok w' ->
  exists l, w_log w' = (p, by_) :: l ++ w_log w /\ Forall by_field l.
Proof.
  induction fuel as [| fuel IH]; intros qml by_ w p w' H; [discriminate |]. cbn [destroy] in H.
  destruct (negb (is_alive (state_of w p))); [discriminate |].
  destruct (destroy_cells (destroy fuel qml) qml (set_state w p Dying) p (o_fields (w_obj w p))) as [w1 | | |] eqn:E; try discriminate.
  cbn [bind] in H. injection H as <-.
  destruct (cells_log (destroy fuel qml) qml (IH qml) _ _ _ _ E) as (l & L & F).
  exists l. cbn [emit_destroyed add_log set_state set_object w_log]. rewrite L. auto.
Qed.

(** Objects made by fields are destroyed by fields. *)
Lemma step_log : forall qml w x w', legal w x -> step qml w x = Ok w' ->
  exists l, w_log w' = l ++ w_log w
    /\ forall p by_, In (p, by_) l -> by_field (p, by_) \/ (x = Delete p /\ by_ = ByOther).
Proof.
  intros qml w x w' L H. destruct x as [js fields | o i fields | o i p fields | p js | p]; cbn [step legal] in *.
  - injection H as <-. exists []. split; [reflexivity | intros p b []].
  - destruct (is_alive (state_of w o)); [| discriminate]. injection H as <-. exists []. split; [| intros p b []].
    unfold access. destruct (c_ptr (w_cell w o i)); reflexivity.
  - destruct (is_alive (state_of w o)); [| discriminate]. unfold assign in H.
    assert (A : w_log (access w o i fields) = w_log w) by (unfold access; destruct (c_ptr (w_cell w o i)); reflexivity).
    set (w1 := access w o i fields) in *.
    assert (R : forall q, reset qml w1 o i q = Ok w' -> exists l, w_log w' = l ++ w_log w
      /\ forall a by_, In (a, by_) l -> by_field (a, by_)).
    { intros q E. unfold reset in E. destruct (checkAndRelease qml w1 o i) as [w2 | | |] eqn:C; try discriminate.
      cbn [bind] in E. destruct (release_log _ _ _ _ _ C) as (L2 & _).
      destruct (match q with Some r => is_dead (state_of w2 r) | None => false end); [discriminate |].
      destruct (c_ptr (w_cell w2 o i)) as [r |].
      - destruct (destroy_log _ _ _ _ _ _ E) as (l & Ll & F). exists ((r, ByField o i) :: l).
        cbn [set_cell w_log] in Ll. split; [rewrite Ll, L2, A; reflexivity |].
        intros a b [K | K]; [injection K as <- <-; exists o, i; reflexivity |].
        rewrite Forall_forall in F. exact (F (a, b) K).
      - injection E as <-. exists []. split; [cbn [set_cell w_log app]; congruence | intros a b []]. }
    assert (N : w' = w1 -> exists l, w_log w' = l ++ w_log w
      /\ forall a by_, In (a, by_) l -> by_field (a, by_)).
    { intros ->. exists []. split; [exact A | intros a b []]. }
    assert (G : exists l, w_log w' = l ++ w_log w /\ forall a by_, In (a, by_) l -> by_field (a, by_)).
    { destruct (c_ptr (w_cell w1 o i)) as [q |]; destruct p as [r |].
      - destruct (Nat.eqb q r); [apply N; congruence | exact (R _ H)].
      - exact (R _ H).
      - exact (R _ H).
      - apply N; congruence. }
    destruct G as (l & Ll & F). exists l. split; [exact Ll |]. intros a b K. left. exact (F a b K).
  - destruct (is_alive (state_of w p)); [| discriminate]. injection H as <-. exists []. split; [reflexivity | intros q b []].
  - destruct (destroy_log _ _ _ _ _ _ H) as (l & Ll & F). exists ((p, ByOther) :: l). split; [exact Ll |].
    intros a b [K | K]; [injection K as <- <-; auto |]. left. rewrite Forall_forall in F. exact (F (a, b) K).
Qed.

(** * Without QML *)

Lemma cells_no_qml : forall destr n w o, exists w', destroy_cells destr false w o n = Ok w'
  /\ w_log w' = w_log w /\ w_obj w' = w_obj w /\ w_next w' = w_next w.
Proof.
  intros destr n. induction n as [| i IH]; intros w o; cbn [destroy_cells]; [exists w; auto |].
  destruct (checkAndRelease false w o i) as [w1 | | |] eqn:C;
    try (unfold checkAndRelease in C; destruct (c_ptr (w_cell w o i)); discriminate).
  destruct (release_log _ _ _ _ _ C) as (L & O & N & P). cbn [bind]. rewrite (P eq_refl). cbn [bind].
  destruct (IH (set_cell w1 o i empty) o) as (w' & E & A & B & D). exists w'. split; [exact E |].
  cbn in A, B, D. repeat split; congruence.
Qed.

Lemma destroy_no_qml : forall fuel by_ w p w', destroy fuel false by_ w p = Ok w' ->
  w_log w' = (p, by_) :: w_log w /\ w_next w' = w_next w
  /\ (forall q, q <> p -> w_obj w' q = w_obj w q) /\ state_of w p = Alive
  /\ o_own (w_obj w' p) = o_own (w_obj w p).
Proof.
  intros fuel by_ w p w' H. destruct fuel as [| fuel]; [discriminate |]. cbn [destroy] in H.
  destruct (state_of w p) eqn:S; cbn [is_alive negb] in H; try discriminate.
  destruct (cells_no_qml (destroy fuel false) (o_fields (w_obj w p)) (set_state w p Dying) p) as (w1 & E & A & B & C).
  rewrite E in H. cbn [bind] in H. injection H as <-. cbn. rewrite A, C, B. repeat split.
  - intros q N. unfold set_state, set_object. cbn. destruct (Nat.eqb_spec q p); [contradiction | reflexivity].
  - cbn. rewrite !Nat.eqb_refl. reflexivity.
Qed.

(** No operation but [Delete] destroys anything, and that only the one object. *)
Lemma step_no_qml : forall w x w', legal w x -> step false w x = Ok w' ->
  w_next w <= w_next w'
  /\ (forall p, p < w_next w -> o_own (w_obj w' p) = o_own (w_obj w p)
        /\ (x <> Delete p -> state_of w' p = state_of w p))
  /\ (forall p, w_next w <= p < w_next w' -> state_of w' p = Alive)
  /\ (forall p by_, In (p, by_) (w_log w') -> In (p, by_) (w_log w) \/ by_ = ByOther).
Proof.
  intros w x w' L H.
  assert (Acc : forall o i fields, let w1 := access w o i fields in
    w_next w <= w_next w1 /\ (forall p, p < w_next w -> w_obj w1 p = w_obj w p)
    /\ (forall p, w_next w <= p < w_next w1 -> state_of w1 p = Alive) /\ w_log w1 = w_log w).
  { intros o i fields w1. unfold w1, access. destruct (c_ptr (w_cell w o i)).
    - repeat split; auto. intros p K. lia.
    - cbn. repeat split; [lia | |].
      + intros p K. destruct (Nat.eqb_spec p (w_next w)); [lia | reflexivity].
      + intros p K. unfold state_of. cbn. destruct (Nat.eqb_spec p (w_next w)); [reflexivity | lia]. }
  destruct x as [js fields | o i fields | o i p fields | p js | p]; cbn [step legal] in *.
  - injection H as <-. cbn. repeat split; [lia | | | |auto].
    + destruct (Nat.eqb_spec p (w_next w)); [lia | reflexivity].
    + intros _. unfold state_of. cbn. destruct (Nat.eqb_spec p (w_next w)); [lia | reflexivity].
    + intros p K. unfold state_of. cbn. destruct (Nat.eqb_spec p (w_next w)); [reflexivity | lia].
  - destruct (is_alive (state_of w o)); [| discriminate]. injection H as <-.
    destruct (Acc o i fields) as (A & B & C & D). split; [exact A |]. split; [| split; [exact C | intros q b K; rewrite D in K; auto]].
    intros q K. unfold state_of. rewrite B by exact K. auto.
  - destruct (is_alive (state_of w o)); [| discriminate]. unfold assign in H.
    destruct (Acc o i fields) as (A & B & C & D). set (w1 := access w o i fields) in *.
    assert (R : forall q, reset false w1 o i q = Ok w' -> w_log w' = w_log w1 /\ w_obj w' = w_obj w1 /\ w_next w' = w_next w1).
    { intros q E. unfold reset in E. destruct (checkAndRelease false w1 o i) as [w2 | | |] eqn:K; try discriminate.
      cbn [bind] in E. destruct (release_log _ _ _ _ _ K) as (L2 & O2 & N2 & P2). rewrite (P2 eq_refl) in E.
      destruct (match q with Some r => is_dead (state_of w2 r) | None => false end); [discriminate |].
      injection E as <-. cbn. auto. }
    assert (G : w_log w' = w_log w1 /\ w_obj w' = w_obj w1 /\ w_next w' = w_next w1).
    { destruct (c_ptr (w_cell w1 o i)) as [q |]; destruct p as [r |].
      - destruct (Nat.eqb q r); [injection H as <-; auto | exact (R _ H)].
      - exact (R _ H).
      - exact (R _ H).
      - injection H as <-; auto. }
    destruct G as (G1 & G2 & G3). rewrite G1, G3. unfold state_of. rewrite G2. split; [exact A |].
    split; [| split; [exact C | intros q b K; rewrite D in K; auto]].
    intros q K. rewrite B by exact K. auto.
  - destruct (is_alive (state_of w p)); [| discriminate]. injection H as <-. cbn. repeat split; [lia | | | | auto].
    + destruct (Nat.eqb_spec p0 p); [subst |]; reflexivity.
    + intros _. unfold state_of. cbn. destruct (Nat.eqb_spec p0 p); [subst |]; reflexivity.
    + intros q K. lia.
  - destruct (destroy_no_qml _ _ _ _ _ H) as (A & B & C & D & E). rewrite A, B. split; [lia |]. split; [| split].
    + intros q K. destruct (Nat.eq_dec q p) as [-> | N]; [split; [exact E | congruence] |].
      unfold state_of. rewrite C by exact N. auto.
    + intros q K. lia.
    + intros q b [K | K]; [injection K as <- <-; auto | auto].
Qed.

Lemma run_no_qml : forall xs w w', legal_run false w xs -> run false w xs = Ok w' ->
  (forall p, p < w_next w -> made_by_field w p -> state_of w p = Alive) ->
  (forall p by_, In (p, by_) (w_log w) -> by_ = ByOther) ->
  (forall p, p < w_next w' -> made_by_field w' p -> state_of w' p = Alive)
  /\ (forall p by_, In (p, by_) (w_log w') -> by_ = ByOther).
Proof.
  induction xs as [| x xs IH]; intros w w' L H A B; cbn [run legal_run] in *; [injection H as <-; auto |].
  destruct L as (L & R). destruct (step false w x) as [w1 | | |] eqn:E; try discriminate. cbn [bind] in H.
  destruct (step_no_qml w x w1 L E) as (N & O & F & G).
  apply (IH w1 w' (R w1 eq_refl) H).
  - intros p Lp M. destruct (le_lt_dec (w_next w) p) as [K | K]; [apply F; lia |].
    destruct (O p K) as (Oo & Os). unfold made_by_field in M. rewrite Oo in M. rewrite Os; [apply A; assumption |].
    intros ->. cbn in L. destruct L as (_ & L). contradiction.
  - intros p b K. destruct (G p b K) as [Q | Q]; [exact (B p b Q) | exact Q].
Qed.

(** * A decision procedure for the examples *)

Fixpoint reach (fuel : nat) (w : world) (q : nat) : list nat :=
  match fuel with
  | O => [q]
  | S f => q :: flat_map (fun i => match c_ptr (w_cell w q i) with Some p => reach f w p | None => [] end)
                 (seq 0 (o_fields (w_obj w q)))
  end.
Definition memb (a : nat) (l : list nat) : bool := existsb (Nat.eqb a) l.
Definition closedb (w : world) (l : list nat) : bool :=
  forallb (fun a => forallb (fun i => match c_ptr (w_cell w a i) with Some p => memb p l | None => true end)
                     (seq 0 (o_fields (w_obj w a)))) l.
Definition aliveb (w : world) (p : nat) : bool := Nat.ltb p (w_next w) && is_alive (state_of w p).
Definition legalb (w : world) (x : op) : bool :=
  match x with
  | New _ _ => true
  | Access o i _ => aliveb w o && Nat.ltb i (o_fields (w_obj w o))
  | Assign o i p _ =>
      aliveb w o && Nat.ltb i (o_fields (w_obj w o))
      && match p with
         | None => true
         | Some q =>
             match c_ptr (w_cell w o i) with Some r => Nat.eqb r q | None => false end
             || (aliveb w q && negb (o_own (w_obj w q)) && negb (Nat.eqb q o)
                 && let l := reach (w_next w) w q in memb q l && closedb w l && negb (memb o l))
         end
  | SetOwnership p _ | Delete p => aliveb w p && negb (o_own (w_obj w p))
  end.
Fixpoint legal_runb (w : world) (xs : list op) : bool :=
  match xs with
  | [] => true
  | x :: xs' => legalb w x && match step true w x with Ok w' => legal_runb w' xs' | _ => false end
  end.

Lemma memb_in : forall a l, memb a l = true <-> In a l.
Proof.
  intros a l. unfold memb. rewrite existsb_exists. split.
  - intros (x & I & E). apply Nat.eqb_eq in E. subst. exact I.
  - intros I. exists a. rewrite Nat.eqb_refl. auto.
Qed.

Lemma closed_nested : forall w l, Inv w None -> closedb w l = true ->
  forall a b, nested w a b -> In a l -> In b l.
Proof.
  intros w l I C.
  assert (S : forall a i b, holds w a i b -> In a l -> In b l).
  { intros a i b H K. unfold closedb in C. rewrite forallb_forall in C. specialize (C a K).
    rewrite forallb_forall in C. destruct (i_ptr _ _ I _ _ _ H) as (_ & _ & L).
    specialize (C i). unfold holds in H. rewrite H in C. apply memb_in, C, in_seq. lia. }
  induction 1; eauto.
Qed.

Lemma aliveb_ok : forall w p, aliveb w p = true -> alive w p.
Proof.
  intros w p H. apply andb_true_iff in H. destruct H as (A & B). apply Nat.ltb_lt in A. split; [exact A |].
  unfold state_of in B. destruct (o_state (w_obj w p)); [reflexivity | discriminate ..].
Qed.

Lemma legalb_ok : forall w x, Inv w None -> legalb w x = true -> legal w x.
Proof.
  intros w x I H. destruct x as [js fields | o i fields | o i p fields | p js | p]; cbn [legalb legal] in *; auto.
  - apply andb_true_iff in H. destruct H as (A & B). apply Nat.ltb_lt in B. split; [apply aliveb_ok |]; assumption.
  - apply andb_true_iff in H. destruct H as (H & C). apply andb_true_iff in H. destruct H as (A & B).
    apply Nat.ltb_lt in B. split; [apply aliveb_ok; exact A |]. split; [exact B |]. destruct p as [q |]; [| exact Logic.I].
    apply orb_true_iff in C. destruct C as [C | C].
    + left. unfold holds. destruct (c_ptr (w_cell w o i)); [| discriminate]. apply Nat.eqb_eq in C. congruence.
    + right. apply andb_true_iff in C. destruct C as (C & D). apply andb_true_iff in C. destruct C as (C & E).
      apply andb_true_iff in C. destruct C as (C & F). apply andb_true_iff in D. destruct D as (D & G).
      apply andb_true_iff in D. destruct D as (D & D').
      apply negb_true_iff in E. apply negb_true_iff in F. apply negb_true_iff in G.
      split; [apply aliveb_ok; assumption |]. split; [unfold made_by_field; congruence |].
      split; [apply Nat.eqb_neq; assumption |].
      intros N. assert (K : In o (reach (w_next w) w q)).
      { apply (closed_nested w _ I) with (a := q); [assumption | exact N | apply memb_in; assumption]. }
      apply memb_in in K. congruence.
  - apply andb_true_iff in H. destruct H as (A & B). apply negb_true_iff in B.
    split; [apply aliveb_ok; exact A | unfold made_by_field; congruence].
  - apply andb_true_iff in H. destruct H as (A & B). apply negb_true_iff in B.
    split; [apply aliveb_ok; exact A | unfold made_by_field; congruence].
Qed.

Lemma legal_runb_ok : forall xs w, Inv w None -> calm w -> legal_runb w xs = true -> legal_run true w xs.
Proof.
  induction xs as [| x xs IH]; intros w I C H; cbn [legal_runb legal_run] in *; [exact Logic.I |].
  apply andb_true_iff in H. destruct H as (A & B). pose proof (legalb_ok w x I A) as L. split; [exact L |].
  intros w' E. rewrite E in B. destruct (step_ok w x I C L) as (w1 & E1 & I1 & C1).
  replace w1 with w' in * by congruence. apply IH; assumption.
Qed.

(** What does not change. *)
Lemma step_keeps : forall w x w', Inv w None -> calm w -> legal w x -> step true w x = Ok w' ->
  w_next w <= w_next w' /\ (forall p, p < w_next w -> o_own (w_obj w' p) = o_own (w_obj w p)).
Proof.
  intros w x w' I C L H. destruct x as [js fields | o i fields | o i p fields | p js | p]; cbn [step legal] in *.
  - injection H as <-. cbn. split; [lia |]. intros p K. destruct (Nat.eqb_spec p (w_next w)); [lia | reflexivity].
  - destruct L as ((Lo & Ao) & Li). unfold state_of in H. rewrite Ao in H. cbn in H. injection H as <-.
    destruct (access_ok w o i fields I Ao Li) as (_ & _ & O & _ & [(E & _) | (_ & _ & N & _)]).
    + rewrite E. auto.
    + split; [lia |]. intros p K. rewrite O by exact K. reflexivity.
  - destruct L as ((Lo & Ao) & Li & P). unfold state_of in H. rewrite Ao in H. cbn in H. unfold assign in H.
    assert (X : w_next w <= w_next (access w o i fields)
      /\ forall p, p < w_next w -> o_own (w_obj (access w o i fields) p) = o_own (w_obj w p)).
    { unfold access. destruct (c_ptr (w_cell w o i)); [auto |]. cbn. split; [lia |]. intros a K.
      destruct (Nat.eqb_spec a (w_next w)); [lia | reflexivity]. }
    destruct (access_ok w o i fields I Ao Li) as (I1 & Cell & O & _ & Case). set (w1 := access w o i fields) in *.
    assert (C1 : calm w1) by (apply calm_access; exact C).
    assert (Q : exists q, holds w1 o i q).
    { destruct Case as [(E & q & K) | (K & _)]; [exists q; rewrite E; exact K | eauto]. }
    destruct Q as (q & Hq). unfold holds in Hq. rewrite Hq in H.
    assert (A1 : state_of w1 o = Alive) by (unfold state_of; rewrite O by exact Lo; exact Ao).
    assert (R : p <> Some q -> reset true w1 o i p = Ok w' -> w_next w <= w_next w'
      /\ forall a, a < w_next w -> o_own (w_obj w' a) = o_own (w_obj w a)).
    { intros Np E. destruct (reset_ok w1 o i q p I1 C1 Hq A1 Np) as (w2 & E2 & _ & _ & N2 & B2 & _).
      - intros r Er. subst p. destruct P as [P | ((Lr & Ar) & M & No & Nn)].
        + exfalso. apply Np. destruct Case as [(Ew & _) | (_ & Ee & _)].
          * unfold holds in P. rewrite <- Ew in P. congruence.
          * unfold holds in P. rewrite Ee in P. discriminate.
        + unfold state_of. rewrite O by exact Lr. split; [exact Ar |]. split; [apply not_true_is_false; exact M |].
          split; [exact No |]. intros K. apply Nn. clear - K Case Cell No Lr I.
          destruct Case as [(Ew & _) | (Hn & Ee & _)]; [rewrite Ew in K; exact K |].
          assert (G : forall a b, nested w1 a b -> b = o -> a <> o -> nested w a b).
          { induction 1 as [a j b Hab | a j b c Hab Hbc IHn]; intros Eb Na.
            - apply nested_one with j. unfold holds in *. rewrite Cell in Hab by congruence. exact Hab.
            - assert (K' : holds w a j b) by (unfold holds in *; rewrite Cell in Hab by congruence; exact Hab).
              destruct (Nat.eq_dec b o) as [-> | Nb].
              + subst c. apply nested_one with j. exact K'.
              + apply nested_more with j b; [exact K' | apply IHn; assumption]. }
          apply G; auto.
      - replace w2 with w' in * by congruence. destruct X as (X1 & X2). split; [lia |]. intros a K.
        destruct (B2 a) as (_ & B & _). rewrite B. apply X2. exact K. }
    destruct p as [r |]; [destruct (Nat.eqb_spec q r) as [Er | Nr] |].
    + injection H as <-. exact X.
    + apply R; [congruence | exact H].
    + apply R; [discriminate | exact H].
  - destruct L as ((Lp & Ap) & _). unfold state_of in H. rewrite Ap in H. injection H as <-. cbn. split; [lia |].
    intros a K. destruct (Nat.eqb_spec a p); [subst |]; reflexivity.
  - destruct L as ((Lp & Ap) & M).
    destruct (destroy_ok (S (w_next w)) ByOther w p) as (w1 & E & G & _).
    + split.
      * apply inv_weaken. exact I.
      * split; [exact Ap |]. split; [intros d Dd; exfalso; exact (C d Dd) |].
        intros o i H'. apply (i_given _ _ I); [exact H' |]. apply not_true_is_false. exact M.
    + pose proof (count_le w (w_next w)). lia.
    + replace w1 with w' in * by congruence. destruct G as (_ & _ & N & B & _). split; [lia |]. intros a _. apply B.
Qed.

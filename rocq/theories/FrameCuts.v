(** Proofs about chunks that end in the header of a message. *)

From Coq Require Import ZArith List Bool Lia.
From Verif Require Import Base FrameSpec FrameModel FrameProofs.
Import ListNotations.
Open Scope Z_scope.

Lemma deliver_tail : forall ps fs, frames_of ps fs -> Forall fits ps -> ps <> [] ->
  forall t k fuel, 1 <= Zlen t <= 5 -> Zlen t < Zlen (last fs []) -> (length ps < fuel)%nat ->
  exists k', deliver fuel (fun _ => false) k (Zlen (hd [] fs)) (concat fs ++ t) = (ps, Ok (Zlen (last fs []), t, k')).
Proof.
  intros ps fs F. induction F as [|p f ps fs [fl Ff] F IH]; intros Fit N t k fuel Lt Ll L; [congruence|].
  destruct fuel as [|fuel]; [lia|]. inversion Fit; subst. cbn [hd concat deliver length] in *.
  pose proof (frame_length _ _ _ Ff) as Lf. pose proof (Zlen_nonneg p). rewrite <- app_assoc.
  replace (Zlen f <=? Zlen (f ++ concat fs ++ t)) with true.
  2: { symmetry. apply Z.leb_le. rewrite Zlen_app. pose proof (Zlen_nonneg (concat fs ++ t)). lia. }
  cbn [negb andb]. rewrite (mid5_frame fl p f) by exact Ff. rewrite remove0_frame by lia.
  destruct F as [|p' f' ps fs [fl' Ff'] F].
  - cbn [concat app last] in *. destruct (Z.ltb_spec 5 (Zlen t)); [lia|].
    destruct fuel as [|fuel]; [lia|]. cbn [deliver]. destruct (Z.leb_spec (Zlen f) (Zlen t)); [lia|]. cbn [andb].
    eexists. reflexivity.
  - pose proof (frame_length _ _ _ Ff') as Lf'. pose proof (Zlen_nonneg p').
    assert (L5 : 5 < Zlen (concat (f' :: fs) ++ t)).
    { cbn [concat]. rewrite !Zlen_app. pose proof (Zlen_nonneg (concat fs)). lia. }
    replace (5 <? Zlen (concat (f' :: fs) ++ t)) with true by (symmetry; apply Z.ltb_lt; lia).
    inversion H2; subst.
    rewrite (expected_frame fl' p' f' (concat fs ++ t)) by (auto; cbn [concat]; now rewrite <- app_assoc).
    destruct (IH H2 ltac:(discriminate) t (S k) fuel Lt) as [k' E]; [exact Ll | lia |].
    cbn [hd] in E. rewrite E. exists k'. reflexivity.
Qed.

Lemma chunk_tail ps fs t fuel : frames_of ps fs -> Forall fits ps -> ps <> [] ->
  1 <= Zlen t <= 5 -> Zlen t < Zlen (last fs []) -> (length ps < fuel)%nat ->
  ready_read fuel (fun _ => false) None (concat fs ++ t)
  = (ps, Ok (if Zlen t <? 5 then None else Some (Zlen (last fs []), t))).
Proof.
  intros F Fit N Lt Ll L. destruct (deliver_tail ps fs F Fit N t 0 fuel Lt Ll L) as [k' E].
  unfold ready_read. destruct F as [|p f ps fs [fl Ff] F]; [congruence|]. inversion Fit; subst.
  cbn [concat]. rewrite (expected_frame fl p f (concat fs ++ t)) by (auto; now rewrite <- app_assoc).
  pose proof (frame_length _ _ _ Ff). pose proof (Zlen_nonneg p). destruct (Z.eqb_spec (Zlen f) 0); [lia|].
  cbn [hd concat] in E. rewrite E. cbn [bind]. rewrite orb_false_r. destruct (Zlen t <? 5); reflexivity.
Qed.

(** What one call of the loop hands out first is shorter than what it was given by at least five bytes. *)
Lemma mid5_short c e : Zlen (mid5 c e) <= Z.max 0 (Zlen c - 5).
Proof.
  unfold mid5, Zlen. destruct (e <? 0); rewrite ?firstn_length, skipn_length; lia.
Qed.

Lemma deliver_first fuel k e c m out r : deliver fuel (fun _ => false) k e c = (m :: out, r) ->
  Zlen m <= Z.max 0 (Zlen c - 5) /\ e <= Zlen c.
Proof.
  destruct fuel as [|fuel]; cbn [deliver]; [discriminate|].
  destruct (Z.leb_spec e (Zlen c)) as [L|L]; cbn [andb negb]; [|discriminate].
  intro H. assert (E : m = mid5 c (e - 5)).
  { destruct (if 5 <? Zlen (remove0 c e) then getExpectedDataSize (remove0 c e) else Ok e);
      [destruct (deliver fuel (fun _ => false) (S k) a (remove0 c e))|..]; now injection H as <- _. }
  subst m. split; [apply mid5_short | exact L].
Qed.

Lemma last_frame ps fs : frames_of ps fs -> ps <> [] -> Zlen (last fs []) = 5 + Zlen (last ps []).
Proof.
  intros F N. induction F as [|p f ps fs [fl Ff] F IH]; [congruence|].
  destruct F as [|p' f' ps fs [fl' Ff'] F]; cbn [last].
  - apply (frame_length _ _ _ Ff).
  - apply IH. discriminate.
Qed.

(** The rest of a frame whose first bytes were dropped is not delivered as the message it belongs to. *)
Lemma be_zero w : length w = 4%nat -> bytes w -> be_number w = 0 -> w = [0; 0; 0; 0].
Proof.
  intros L B E. apply (be_inj 4); auto; [repeat constructor; lia].
Qed.

Lemma dropped_empty fl f j e : framed fl [] f -> (1 <= j <= 4)%nat ->
  getExpectedDataSize (skipn j f) = Ok e -> e = 5 /\ j = 1%nat.
Proof.
  intros (len & (L4 & B & Nn) & ->) Lj G. change (Zlen []) with 0 in Nn. rewrite (be_zero len L4 B Nn) in G.
  destruct j as [|[|[|[|[|j]]]]]; try lia; cbn [skipn app] in G; vm_compute in G; try discriminate.
  injection G as <-. auto.
Qed.

Lemma dropped_rest fl p f j fuel : framed fl p f -> fits p -> (1 <= j <= 4)%nat ->
  fst (ready_read fuel (fun _ => false) None (skipn j f)) <> [p].
Proof.
  intros F Fit Lj E. pose proof (frame_length _ _ _ F) as Lf. pose proof (Zlen_nonneg p).
  assert (Ls : Zlen (skipn j f) = Zlen f - Z.of_nat j) by (unfold Zlen in *; rewrite skipn_length; lia).
  unfold ready_read in E. destruct (getExpectedDataSize (skipn j f)) as [e|u|u|] eqn:G; try discriminate E.
  destruct (Z.eqb_spec e 0) as [->|].
  - injection E as <-. apply (dropped_empty fl f j 0 F Lj) in G. lia.
  - destruct (deliver fuel (fun _ => false) 0 e (skipn j f)) as [out r] eqn:D. cbn [fst] in E. subst out.
    apply deliver_first in D. destruct D as [D1 D2].
    assert (Z0 : Zlen p = 0) by lia. assert (p = []) by (destruct p; [reflexivity|]; unfold Zlen in Z0; cbn in Z0; lia).
    subst p. apply (dropped_empty fl f j e F Lj) in G. lia.
Qed.

(** A message whose header is kept with the size of the message before is not delivered, or cut off. *)
Lemma wrong_size fl p f n fuel : framed fl p f -> n <> Zlen f -> 5 < n ->
  fst (ready_read fuel (fun _ => false) (Some (n, firstn 5 f)) (skipn 5 f)) <> [p].
Proof.
  intros F N L E. pose proof (frame_length _ _ _ F) as Lf. unfold ready_read in E. rewrite firstn_skipn in E.
  destruct fuel as [|fuel]; cbn [deliver] in E; [discriminate|].
  destruct (Z.leb_spec n (Zlen f)) as [Le|]; cbn [andb negb] in E; [|discriminate].
  assert (M : mid5 f (n - 5) = p).
  { destruct (if 5 <? Zlen (remove0 f n) then getExpectedDataSize (remove0 f n) else Ok n);
      [destruct (deliver fuel (fun _ => false) 1 a (remove0 f n))|..]; now injection E. }
  apply (f_equal Zlen) in M. unfold mid5 in M. destruct (Z.ltb_spec (n - 5) 0); [lia|].
  unfold Zlen in *. rewrite firstn_length, skipn_length in M. lia.
Qed.

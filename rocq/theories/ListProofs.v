(** The field behaves as a plain list. *)

From Coq Require Import List Bool Arith ZArith Lia.
From Verif Require Import Base ListModel ListSpec.
Import ListNotations.
Local Open Scope nat_scope.

Lemma upd_same : forall A (f : nat -> A) k v, upd f k v k = v.
Proof. intros. unfold upd. rewrite Nat.eqb_refl. reflexivity. Qed.
Lemma upd_other : forall A (f : nat -> A) k v j, j <> k -> upd f k v j = f j.
Proof. intros. unfold upd. destruct (Nat.eqb_spec j k); congruence. Qed.

(** The number of times a block is in a list. *)
Fixpoint times (b : nat) (l : list (option nat)) : nat :=
  match l with
  | [] => 0
  | e :: l' => (match e with Some a => if Nat.eqb a b then 1 else 0 | None => 0 end) + times b l'
  end.

Lemma times_app : forall b l m, times b (l ++ m) = times b l + times b m.
Proof. intros b l m. induction l as [| e l IH]; cbn; [reflexivity |]. rewrite IH. lia. Qed.

Lemma times_in : forall b l, 0 < times b l <-> In (Some b) l.
Proof.
  intros b l. induction l as [| e l IH]; cbn; [split; [lia | tauto] |]. destruct e as [a |].
  - destruct (Nat.eqb_spec a b) as [-> | N].
    + split; [auto | lia].
    + cbn. rewrite IH. split; [auto |]. intros [E | E]; [congruence | exact E].
  - cbn. rewrite IH. split; [auto |]. intros [E | E]; [congruence | exact E].
Qed.

Definition blocks_of (n : nat) (l : list (option nat)) : Prop := forall b, In (Some b) l -> b < n.

(** All parts but the counts and the objects. *)
Definition same (w w' : lworld) : Prop :=
  l_made w' = l_made w /\ l_js w' = l_js w /\ l_blocks w' = l_blocks w /\ b_obj w' = b_obj w
  /\ l_field w' = l_field w /\ l_vars w' = l_vars w.

Lemma take_all_ok : forall l w,
  same w (take_all w l) /\ l_dead (take_all w l) = l_dead w /\ l_log (take_all w l) = l_log w
  /\ forall b, b_strong (take_all w l) b = b_strong w b + times b l.
Proof.
  unfold same. induction l as [| e l IH]; intros w; cbn [take_all times].
  - repeat split. intros b. lia.
  - destruct (IH (take w e)) as (S & D & G & C). destruct e as [a |]; cbn [take set_strong] in *; cbn in S, D, G, C.
    + split; [exact S |]. split; [exact D |]. split; [exact G |]. intros b. rewrite C. unfold upd.
      rewrite (Nat.eqb_sym a b). destruct (Nat.eqb_spec b a); [subst |]; lia.
    + split; [exact S |]. split; [exact D |]. split; [exact G |]. intros b. rewrite C. lia.
Qed.

Lemma drop_all_ok : forall l w c,
  (forall b, b < l_blocks w -> b_strong w b = times b l + c b) -> blocks_of (l_blocks w) l ->
  (forall a b, a < l_blocks w -> b < l_blocks w -> b_obj w a = b_obj w b -> a = b) ->
  (forall b, b < l_blocks w -> 0 < b_strong w b -> l_dead w (b_obj w b) = false) ->
  exists w', drop_all w l = Ok w' /\ same w w'
    /\ (forall b, b < l_blocks w -> b_strong w' b = c b)
    /\ (forall p, l_dead w' p = true <-> l_dead w p = true
          \/ exists b, b < l_blocks w /\ b_obj w b = p /\ In (Some b) l /\ c b = 0)
    /\ exists d, l_log w' = d ++ l_log w /\ NoDup d
         /\ forall p, In p d <-> l_dead w p = false /\ l_dead w' p = true.
Proof.
  induction l as [| e l IH]; intros w c St Bl Inj Al; cbn [drop_all].
  - exists w. split; [reflexivity |]. split; [unfold same; auto 10 |]. split; [intros b L; rewrite St by exact L; reflexivity |].
    split.
    + intros p. split; [auto |]. intros [H | (b & _ & _ & [] & _)]. exact H.
    + exists []. split; [reflexivity |]. split; [constructor |]. intros p. split; [intros [] |]. intros (A & B). congruence.
  - destruct (IH w (fun b => (match e with Some a => if Nat.eqb a b then 1 else 0 | None => 0 end) + c b))
      as (w1 & E & S & C & D & d & Lg & Nd & Dd); try assumption.
    + intros b L. rewrite St by exact L. cbn. lia.
    + intros b I. apply Bl. right. exact I.
    + rewrite E. cbn [bind]. destruct S as (S1 & S2 & S3 & S4 & S5 & S6). destruct e as [a |]; cbn [drop].
      * assert (La : a < l_blocks w) by (apply Bl; left; reflexivity).
        pose proof (C a La) as Ca. cbn beta iota in Ca. rewrite Nat.eqb_refl in Ca. cbn in Ca.
        assert (Aa : l_dead w1 (b_obj w a) = false).
        { destruct (l_dead w1 (b_obj w a)) eqn:Q; [| reflexivity]. exfalso. apply D in Q. destruct Q as [Q | (b & Lb & Eb & _ & Zb)].
          - rewrite Al in Q; [discriminate | exact La |]. rewrite St by exact La. cbn. rewrite Nat.eqb_refl. lia.
          - apply Inj in Eb; [| assumption ..]. subst b. rewrite Nat.eqb_refl in Zb. lia. }
        rewrite Ca. destruct (c a) as [| n] eqn:Z.
        { unfold delete. cbn [set_strong l_dead b_obj]. rewrite S4, Aa. eexists. split; [reflexivity |].
          split; [unfold same; cbn; auto 10 |]. cbn [b_strong l_dead l_log set_strong]. split; [| split].
          - intros b L. destruct (Nat.eq_dec b a) as [-> | N]; [rewrite upd_same; congruence |].
            rewrite upd_other by exact N. rewrite C by exact L. destruct (Nat.eqb_spec a b); [congruence |]. reflexivity.
          - intros p. destruct (Nat.eq_dec p (b_obj w a)) as [-> | N].
            + rewrite upd_same. split; [| auto]. intros _. right. exists a. split; [exact La |]. split; [reflexivity |].
              split; [left; reflexivity | exact Z].
            + rewrite upd_other by exact N. rewrite D. split; (intros [H | (b & Lb & Eb & Ib & Zb)]; [left; exact H |]).
              * right. exists b. split; [exact Lb |]. split; [exact Eb |]. split; [right; exact Ib | lia].
              * right. exists b. split; [exact Lb |]. split; [exact Eb |].
                destruct Ib as [Ib | Ib]; [injection Ib as <-; congruence |]. split; [exact Ib |].
                destruct (Nat.eqb_spec a b); [subst; congruence | exact Zb].
          - exists (b_obj w a :: d). split; [rewrite Lg; reflexivity |]. split.
            + constructor; [| exact Nd]. intros I. apply Dd in I. destruct I as (_ & I). congruence.
            + intros p. cbn [In]. destruct (Nat.eq_dec p (b_obj w a)) as [-> | N].
              * rewrite upd_same. split; [| auto]. intros _. split; [| reflexivity].
                destruct (l_dead w (b_obj w a)) eqn:Q; [| reflexivity]. rewrite (proj2 (D _) (or_introl Q)) in Aa. discriminate.
              * rewrite upd_other by exact N. rewrite <- Dd. split; [intros [H | H]; [congruence | exact H] | auto]. }
        { eexists. split; [reflexivity |]. split; [unfold same; cbn; auto 10 |].
          cbn [b_strong l_dead l_log set_strong]. split; [| split].
          - intros b L. destruct (Nat.eq_dec b a) as [-> | N]; [rewrite upd_same; congruence |].
            rewrite upd_other by exact N. rewrite C by exact L. destruct (Nat.eqb_spec a b); [congruence |]. reflexivity.
          - intros p. rewrite D. split; (intros [H | (b & Lb & Eb & Ib & Zb)]; [left; exact H |]).
              * right. exists b. split; [exact Lb |]. split; [exact Eb |]. split; [right; exact Ib | lia].
              * right. exists b. split; [exact Lb |]. split; [exact Eb |].
                destruct Ib as [Ib | Ib]; [injection Ib as <-; congruence |]. split; [exact Ib |].
                destruct (Nat.eqb_spec a b); [subst; congruence | exact Zb].
          - exists d. auto. }
      * exists w1. split; [reflexivity |]. split; [unfold same; auto 10 |]. split; [exact C |]. split.
        { intros p. rewrite D. split; (intros [H | (b & Lb & Eb & Ib & Zb)]; [left; exact H |]); right; exists b.
          - split; [exact Lb |]. split; [exact Eb |]. split; [right; exact Ib | exact Zb].
          - split; [exact Lb |]. split; [exact Eb |]. destruct Ib as [Ib | Ib]; [discriminate |]. split; [exact Ib | exact Zb]. }
        { exists d. auto. }
Qed.

(** * The relation to the plain list *)

Definition all_lists (w : lworld) : list (option nat) := l_field w ++ concat (l_vars w).

Record Sim (w : lworld) (s : plain) : Prop := {
  s_made : l_made w = p_made s;
  s_field : map (pointer_of w) (l_field w) = p_field s;
  s_vars : map (map (pointer_of w)) (l_vars w) = p_vars s;
  s_blocks : blocks_of (l_blocks w) (all_lists w);
  s_strong : forall b, b < l_blocks w -> b_strong w b = times b (all_lists w);
  s_inj : forall a b, a < l_blocks w -> b < l_blocks w -> b_obj w a = b_obj w b -> a = b;
  s_listed : forall p, In p (p_listed s) <-> exists b, b < l_blocks w /\ b_obj w b = p;
  s_dead : forall p, l_dead w p = false <-> lives s p;
  s_js : forall p, l_js w p = true <-> In p (p_engine s) /\ ~ In p (p_listed s);
  s_engine : forall p, In p (p_engine s) -> p < p_made s;
  s_range : forall p, In p (p_listed s) -> p < p_made s /\ ~ In p (p_gone s);
  s_gone : forall p, In p (p_gone s) -> p < p_made s;
  s_log : NoDup (l_log w);
  s_logged : forall p, In p (l_log w) <-> p < l_made w /\ l_dead w p = true
}.

Lemma in_concat_iff : forall A (e : A) L, In e (concat L) <-> exists l, In l L /\ In e l.
Proof.
  intros A e L. rewrite in_concat. split; intros (l & P & Q); exists l; auto.
Qed.

Lemma nodup_app : forall A (l m : list A), NoDup l -> NoDup m -> (forall x, In x l -> In x m -> False) -> NoDup (l ++ m).
Proof.
  intros A l m Nl Nm H. induction Nl as [| x l Nx Nl IH]; cbn; [exact Nm |]. constructor.
  - rewrite in_app_iff. intros [I | I]; [contradiction | apply (H x); [left; reflexivity | exact I]].
  - apply IH. intros y I J. apply (H y); [right; exact I | exact J].
Qed.

(** Being in a plain list is having a block in a list. *)
Lemma in_list_block : forall w s p, map (pointer_of w) (l_field w) = p_field s ->
  map (map (pointer_of w)) (l_vars w) = p_vars s ->
  (in_list s p <-> exists b, In (Some b) (all_lists w) /\ b_obj w b = p).
Proof.
  intros w s p F V. unfold in_list, all_lists. rewrite <- F, <- V.
  assert (G : forall l, In (Some p) (map (pointer_of w) l) <-> exists b, In (Some b) l /\ b_obj w b = p).
  { intros l. rewrite in_map_iff. split.
    - intros (e & E & I). destruct e as [b |]; [| discriminate]. injection E as E. exists b. auto.
    - intros (b & I & E). exists (Some b). cbn. rewrite E. auto. }
  rewrite G. split.
  - intros [(b & I & E) | (l & I & K)].
    + exists b. rewrite in_app_iff. auto.
    + apply in_map_iff in I. destruct I as (m & <- & I). apply G in K. destruct K as (b & K & E).
      exists b. rewrite in_app_iff, in_concat_iff. split; [right; exists m; auto | exact E].
  - intros (b & I & E). rewrite in_app_iff, in_concat_iff in I. destruct I as [I | (m & I & K)].
    + left. exists b. auto.
    + right. exists (map (pointer_of w) m). split; [apply in_map; exact I |]. apply G. exists b. auto.
Qed.

Lemma strong_alive : forall w s b, Sim w s -> b < l_blocks w -> 0 < b_strong w b -> l_dead w (b_obj w b) = false.
Proof.
  intros w s b S L P. apply (s_dead _ _ S).
  assert (K : In (b_obj w b) (p_listed s)) by (apply (s_listed _ _ S); exists b; auto).
  destruct (s_range _ _ S _ K) as (A & B). split; [exact A |]. split; [exact B |]. intros _.
  apply (in_list_block w s _ (s_field _ _ S) (s_vars _ _ S)). exists b. split; [| reflexivity].
  apply times_in. rewrite <- (s_strong _ _ S) by exact L. exact P.
Qed.

Lemma pointers_eqb_eq : forall a b, pointers_eqb a b = true <-> a = b.
Proof.
  induction a as [| x a IH]; intros [| y b]; cbn; split; try congruence; intros H.
  - apply andb_true_iff in H. destruct H as (E & H). apply IH in H. subst. f_equal.
    destruct x, y; cbn in E; try discriminate; [| reflexivity]. apply Nat.eqb_eq in E. congruence.
  - injection H as -> ->. apply andb_true_iff. split; [| apply IH; reflexivity].
    destruct y; cbn; [apply Nat.eqb_refl | reflexivity].
Qed.

(** Dropping elements that are in none of the lists any more, or in fewer. *)
Lemma drop_sim : forall w s l s',
  (* [w] has the new lists already, the counts include [l] *)
  l_made w = p_made s' ->
  map (pointer_of w) (l_field w) = p_field s' -> map (map (pointer_of w)) (l_vars w) = p_vars s' ->
  blocks_of (l_blocks w) (all_lists w) -> blocks_of (l_blocks w) l ->
  (forall b, b < l_blocks w -> b_strong w b = times b l + times b (all_lists w)) ->
  (forall a b, a < l_blocks w -> b < l_blocks w -> b_obj w a = b_obj w b -> a = b) ->
  (forall p, In p (p_listed s) <-> exists b, b < l_blocks w /\ b_obj w b = p) ->
  (forall b, b < l_blocks w -> 0 < b_strong w b -> l_dead w (b_obj w b) = false) ->
  (forall p, l_dead w p = false <-> lives s p) ->
  (forall b, b < l_blocks w -> (in_list s (b_obj w b) <-> In (Some b) l \/ In (Some b) (all_lists w))) ->
  (forall p, l_js w p = true <-> In p (p_engine s) /\ ~ In p (p_listed s)) ->
  (forall p, In p (p_engine s) -> p < p_made s) ->
  (forall p, In p (p_listed s) -> p < p_made s /\ ~ In p (p_gone s)) ->
  (forall p, In p (p_gone s) -> p < p_made s) ->
  NoDup (l_log w) -> (forall p, In p (l_log w) <-> p < l_made w /\ l_dead w p = true) ->
  p_made s' = p_made s -> p_listed s' = p_listed s -> p_engine s' = p_engine s -> p_gone s' = p_gone s ->
  exists w', drop_all w l = Ok w' /\ Sim w' s'.
Proof.
  intros w s l s' Hm Hf Hv Hb Hl Hs Hi Hls Ha Hd Hin Hj He Hr Hg Hn Hlog Em El Ee Eg.
  destruct (drop_all_ok l w (fun b => times b (all_lists w)) Hs Hl Hi Ha)
    as (w' & E & (S1 & S2 & S3 & S4 & S5 & S6) & C & D & d & Lg & Nd & Dd).
  exists w'. split; [exact E |].
  assert (Pt : pointer_of w' = pointer_of w) by (unfold pointer_of; rewrite S4; reflexivity).
  assert (Al : all_lists w' = all_lists w) by (unfold all_lists; rewrite S5, S6; reflexivity).
  assert (Dead : forall p, l_dead w' p = false <-> lives s' p).
  { intros p. unfold lives. rewrite Em, Eg, El.
    rewrite (in_list_block w s' p Hf Hv).
    split.
    - intros Q. assert (Q0 : l_dead w p = false).
      { destruct (l_dead w p) eqn:Z; [| reflexivity]. rewrite (proj2 (D p) (or_introl Z)) in Q. discriminate. }
      apply Hd in Q0. destruct Q0 as (A & B & G). split; [exact A |]. split; [exact B |]. intros K.
      specialize (G K). apply Hls in K. destruct K as (b & Lb & Eb). exists b. split; [| exact Eb].
      rewrite <- Eb in G. apply Hin in G; [| exact Lb]. destruct G as [G | G]; [| exact G].
      apply times_in. destruct (times b (all_lists w)) eqn:Z; [| lia]. exfalso.
      rewrite (proj2 (D p)) in Q; [discriminate |]. right. exists b. auto.
    - intros (A & B & G). destruct (l_dead w' p) eqn:Q; [| reflexivity]. exfalso. apply D in Q. destruct Q as [Q | (b & Lb & Eb & Ib & Zb)].
      + assert (X : l_dead w p = false); [| congruence]. apply Hd. split; [exact A |]. split; [exact B |]. intros K.
        specialize (G K). destruct G as (b & Ib & Eb). rewrite <- Eb. apply Hin; [apply Hb; exact Ib | auto].
      + assert (K : In p (p_listed s)) by (apply Hls; exists b; auto). destruct (G K) as (a & Ia & Ea).
        assert (a = b) by (apply Hi; [apply Hb; exact Ia | exact Lb | congruence]). subst a. apply times_in in Ia. lia. }
  split; try (rewrite ?El, ?Ee, ?Eg, ?Em; assumption).
  - rewrite S1. exact Hm.
  - rewrite Pt, S5. exact Hf.
  - rewrite Pt, S6. exact Hv.
  - rewrite S3, Al. exact Hb.
  - rewrite S3, Al. exact C.
  - rewrite S3, S4. exact Hi.
  - rewrite S3, S4, El. exact Hls.
  - rewrite S2, Ee, El. exact Hj.
  - rewrite Lg. apply nodup_app; [exact Nd | exact Hn |]. intros x X Y. apply Dd in X. apply Hlog in Y.
    destruct X as (X & _). destruct Y as (_ & Y). congruence.
  - intros p. rewrite Lg, in_app_iff, Dd, Hlog, S1. split.
    + intros [(A & B) | (A & B)].
      * split; [| exact B]. apply Hd in A. destruct A as (A & _). lia.
      * split; [exact A |]. apply D. auto.
    + intros (A & B). destruct (l_dead w p); auto.
Qed.

Lemma pointer_ext : forall w w' l, blocks_of (l_blocks w) l -> (forall b, b < l_blocks w -> b_obj w' b = b_obj w b) ->
  map (pointer_of w') l = map (pointer_of w) l.
Proof.
  intros w w' l B E. apply map_ext_in. intros [b |] I; [| reflexivity]. cbn. rewrite E by (apply B; exact I). reflexivity.
Qed.

Lemma all_field : forall w b, In (Some b) (l_field w) -> In (Some b) (all_lists w).
Proof. intros. unfold all_lists. apply in_app_iff. auto. Qed.
Lemma all_var : forall w b l, In l (l_vars w) -> In (Some b) l -> In (Some b) (all_lists w).
Proof. intros. unfold all_lists. apply in_app_iff. right. apply in_concat_iff. eauto. Qed.

(** A shared pointer to an object that had none is appended. *)
Lemma put_sim : forall w s p js, Sim w s -> lives s p -> ~ In p (p_listed s) ->
  (forall q, js q = upd (l_js w) p false q) ->
  Sim (mkL (l_made w) (l_dead w) js (S (l_blocks w)) (upd (b_obj w) (l_blocks w) p) (upd (b_strong w) (l_blocks w) 1)
         (l_field w ++ [Some (l_blocks w)]) (l_vars w) (l_log w))
    (fst (plain_step s (LAppend (Some p)))).
Proof.
  intros w s p js S Lp Np J. set (w' := mkL _ _ _ _ _ _ _ _ _). cbn [plain_step fst].
  assert (O : forall b, b < l_blocks w -> b_obj w' b = b_obj w b) by (intros b L; unfold w'; cbn; apply upd_other; lia).
  assert (On : b_obj w' (l_blocks w) = p) by (unfold w'; cbn; apply upd_same).
  assert (Nb : times (l_blocks w) (all_lists w) = 0).
  { destruct (times (l_blocks w) (all_lists w)) eqn:Z; [reflexivity |].
    assert (K : In (Some (l_blocks w)) (all_lists w)) by (apply times_in; lia). apply (s_blocks _ _ S) in K. lia. }
  assert (Ta : forall b, times b (all_lists w') = times b (all_lists w) + if Nat.eqb (l_blocks w) b then 1 else 0).
  { intros b. unfold all_lists, w'. cbn [l_field l_vars]. rewrite !times_app. cbn [times]. lia. }
  assert (Ia : forall b, In (Some b) (all_lists w') <-> In (Some b) (all_lists w) \/ b = l_blocks w).
  { intros b. rewrite <- !times_in, Ta. destruct (Nat.eqb_spec (l_blocks w) b); [subst b; split; [auto | lia] |].
    split; [left; lia | intros [K | K]; [lia | congruence]]. }
  assert (Fp : map (pointer_of w') (l_field w') = p_field s ++ [Some p]).
  { unfold w' at 2. cbn [l_field]. rewrite map_app. f_equal.
    - rewrite <- (s_field _ _ S). apply pointer_ext; [| exact O]. intros b I. apply (s_blocks _ _ S), all_field, I.
    - cbn [map]. unfold pointer_of. cbn [option_map]. rewrite On. reflexivity. }
  assert (Vp : map (map (pointer_of w')) (l_vars w') = p_vars s).
  { rewrite <- (s_vars _ _ S). unfold w' at 2. cbn [l_vars]. apply map_ext_in. intros l I. apply pointer_ext; [| exact O].
    intros b K. apply (s_blocks _ _ S), (all_var w b l); assumption. }
  pose proof (s_range _ _ S) as Rg.
  split; cbn [p_made p_field p_vars p_listed p_engine p_gone].
  - exact (s_made _ _ S).
  - exact Fp.
  - exact Vp.
  - intros b I. apply Ia in I. unfold w'. cbn [l_blocks]. destruct I as [I | I]; [apply (s_blocks _ _ S) in I |]; lia.
  - intros b L. rewrite Ta. unfold w' in L |- *. cbn [l_blocks b_strong] in *. destruct (Nat.eqb_spec (l_blocks w) b) as [<- | N].
    + rewrite upd_same, Nb. reflexivity.
    + rewrite upd_other by congruence. rewrite (s_strong _ _ S) by lia. lia.
  - assert (X : forall b, b < l_blocks w -> b_obj w b <> p).
    { intros b L E. apply Np, (s_listed _ _ S). exists b. auto. }
    intros a b La Lb E. unfold w' in La, Lb. cbn [l_blocks] in La, Lb.
    destruct (Nat.eq_dec a (l_blocks w)) as [Ea | Na]; destruct (Nat.eq_dec b (l_blocks w)) as [Eb | Eb'].
    + congruence.
    + subst a. rewrite On, O in E by lia. exfalso. apply (X b); [lia | congruence].
    + subst b. rewrite On, O in E by lia. exfalso. apply (X a); [lia | congruence].
    + rewrite !O in E by lia. apply (s_inj _ _ S); [lia | lia | exact E].
  - intros q. cbn [In]. rewrite (s_listed _ _ S). split.
    + intros [<- | (b & L & E)].
      * exists (l_blocks w). split; [unfold w'; cbn; lia | exact On].
      * exists b. split; [unfold w'; cbn; lia | rewrite O by exact L; exact E].
    + intros (b & L & E). unfold w' in L. cbn [l_blocks] in L. destruct (Nat.eq_dec b (l_blocks w)) as [-> | N].
      * left. congruence.
      * right. exists b. rewrite O in E by lia. split; [lia | exact E].
  - intros q. change (l_dead w' q) with (l_dead w q). rewrite (s_dead _ _ S). unfold lives, in_list.
    cbn [p_made p_field p_vars p_listed p_engine p_gone]. split; intros (A & B & C); (split; [exact A |]); (split; [exact B |]).
    + intros [<- | K].
      * left. apply in_app_iff. right. left. reflexivity.
      * destruct (C K) as [D | D]; [left; apply in_app_iff; auto | auto].
    + intros K. destruct (C (or_intror K)) as [D | D]; [| auto]. apply in_app_iff in D. destruct D as [D | [D | []]]; [auto |].
      injection D as <-. contradiction.
  - intros q. change (l_js w' q) with (js q). rewrite J. destruct (Nat.eq_dec q p) as [-> | N].
    + rewrite upd_same. split; [discriminate |]. intros (_ & K). exfalso. apply K. left. reflexivity.
    + rewrite upd_other by exact N. rewrite (s_js _ _ S). split; intros (A & B); (split; [exact A |]).
      * intros [K | K]; [congruence | contradiction].
      * intros K. apply B. right. exact K.
  - exact (s_engine _ _ S).
  - intros q [<- | K]; [destruct Lp as (A & B & _); auto | exact (Rg q K)].
  - exact (s_gone _ _ S).
  - exact (s_log _ _ S).
  - exact (s_logged _ _ S).
Qed.

Lemma new_sim : forall w s js, Sim w s -> Sim (new_object w js) (fst (plain_step s (LNew js))).
Proof.
  intros w s js S. cbn [plain_step fst].
  assert (M := s_made _ _ S).
  assert (Dn : l_dead w (l_made w) = true).
  { destruct (l_dead w (l_made w)) eqn:Z; [reflexivity |]. apply (s_dead _ _ S) in Z. destruct Z as (Z & _). lia. }
  assert (Nl : forall p, In p (p_listed s) -> p <> l_made w).
  { intros p K. apply (s_range _ _ S) in K. lia. }
  split; cbn [p_made p_field p_vars p_listed p_engine p_gone new_object l_made l_blocks b_obj b_strong l_field l_vars l_log l_dead l_js].
  - congruence.
  - exact (s_field _ _ S).
  - exact (s_vars _ _ S).
  - exact (s_blocks _ _ S).
  - exact (s_strong _ _ S).
  - exact (s_inj _ _ S).
  - exact (s_listed _ _ S).
  - intros p. unfold lives, in_list. cbn [p_made p_field p_vars p_listed p_engine p_gone].
    destruct (Nat.eq_dec p (l_made w)) as [-> | N].
    + rewrite upd_same. split; [| reflexivity]. intros _. split; [lia |]. split.
      * intros K. apply (s_gone _ _ S) in K. lia.
      * intros K. exfalso. exact (Nl _ K eq_refl).
    + rewrite upd_other by exact N. rewrite (s_dead _ _ S). unfold lives, in_list. split; intros (A & B & C); (split; [lia | auto]).
  - intros p. destruct (Nat.eq_dec p (l_made w)) as [-> | N].
    + rewrite upd_same. split.
      * intros ->. split; [left; congruence |]. intros K. exact (Nl _ K eq_refl).
      * intros (A & _). destruct js; [reflexivity |]. apply (s_engine _ _ S) in A. lia.
    + rewrite upd_other by exact N. rewrite (s_js _ _ S). destruct js; [| reflexivity]. cbn [In].
      split; intros (A & B); (split; [| exact B]); [auto | destruct A as [A | A]; [lia | exact A]].
  - intros p K. destruct js; [destruct K as [K | K]; [lia |] |]; apply (s_engine _ _ S) in K; lia.
  - intros p K. destruct (s_range _ _ S p K) as (A & B). split; [lia | exact B].
  - intros p K. apply (s_gone _ _ S) in K. lia.
  - exact (s_log _ _ S).
  - intros p. rewrite (s_logged _ _ S). destruct (Nat.eq_dec p (l_made w)) as [-> | N].
    + rewrite upd_same. split; [lia | intros (_ & K); discriminate].
    + rewrite upd_other by exact N. split; intros (A & B); (split; [lia | exact B]).
Qed.

(** An object that is in no list is deleted. *)
Lemma delete_sim : forall w s p, Sim w s -> lives s p -> ~ In p (p_listed s) ->
  exists w', delete w p = Ok w'
    /\ Sim w' (mkP (p_made s) (p_field s) (p_vars s) (p_listed s) (p_engine s) (p :: p_gone s)).
Proof.
  intros w s p S L N. pose proof (proj2 (s_dead _ _ S p) L) as D. unfold delete. rewrite D.
  eexists. split; [reflexivity |].
  split; cbn [p_made p_field p_vars p_listed p_engine p_gone l_made l_blocks b_obj b_strong l_field l_vars l_log l_dead l_js].
  - exact (s_made _ _ S).
  - exact (s_field _ _ S).
  - exact (s_vars _ _ S).
  - exact (s_blocks _ _ S).
  - exact (s_strong _ _ S).
  - exact (s_inj _ _ S).
  - exact (s_listed _ _ S).
  - intros q. unfold lives, in_list. cbn [p_made p_field p_vars p_listed p_engine p_gone].
    destruct (Nat.eq_dec q p) as [-> | Nq].
    + rewrite upd_same. split; [discriminate |]. intros (_ & K & _). exfalso. apply K. left. reflexivity.
    + rewrite upd_other by exact Nq. rewrite (s_dead _ _ S). unfold lives, in_list.
      split; intros (A & B & C); (split; [exact A |]); (split; [| exact C]).
      * intros [K | K]; [congruence | contradiction].
      * intros K. apply B. right. exact K.
  - exact (s_js _ _ S).
  - exact (s_engine _ _ S).
  - intros q K. destruct (s_range _ _ S q K) as (A & B). split; [exact A |]. intros [E | E]; [subst; contradiction | contradiction].
  - intros q [<- | K]; [apply L | exact (s_gone _ _ S q K)].
  - constructor; [| exact (s_log _ _ S)]. intros K. apply (s_logged _ _ S) in K. destruct K as (_ & K). congruence.
  - intros q. cbn [In]. rewrite (s_logged _ _ S). destruct (Nat.eq_dec q p) as [-> | Nq].
    + rewrite upd_same. split; [| auto]. intros _. split; [| reflexivity]. rewrite (s_made _ _ S). apply L.
    + rewrite upd_other by exact Nq. split; [intros [E | E]; [congruence | exact E] | auto].
Qed.

Lemma in_remove : forall A k (l : list (list A)) m, nth_error l k = Some m ->
  forall x, In x (concat l) <-> In x m \/ In x (concat (remove_nth k l)).
Proof.
  intros A k l m H x. apply nth_error_split in H. destruct H as (a & b & -> & <-). unfold remove_nth.
  rewrite firstn_app, Nat.sub_diag, firstn_all. cbn [firstn]. rewrite app_nil_r.
  rewrite skipn_app, skipn_all2 by lia. replace (S (length a) - length a) with 1 by lia. cbn [skipn app].
  rewrite !concat_app. cbn [concat]. rewrite !in_app_iff. tauto.
Qed.

Lemma times_remove : forall k (l : list (list (option nat))) m, nth_error l k = Some m ->
  forall b, times b (concat l) = times b m + times b (concat (remove_nth k l)).
Proof.
  intros k l m H b. apply nth_error_split in H. destruct H as (x & y & -> & <-). unfold remove_nth.
  rewrite firstn_app, Nat.sub_diag, firstn_all. cbn [firstn]. rewrite app_nil_r.
  rewrite skipn_app, skipn_all2 by lia. replace (S (length x) - length x) with 1 by lia. cbn [skipn app].
  rewrite !concat_app. cbn [concat]. rewrite !times_app. lia.
Qed.

Lemma in_list_iff : forall w s b, Sim w s -> b < l_blocks w ->
  (in_list s (b_obj w b) <-> In (Some b) (all_lists w)).
Proof.
  intros w s b S L. rewrite (in_list_block w s _ (s_field _ _ S) (s_vars _ _ S)). split.
  - intros (a & I & E). replace b with a; [exact I |]. apply (s_inj _ _ S); [apply (s_blocks _ _ S); exact I | exact L | exact E].
  - intros I. exists b. auto.
Qed.

Lemma lstep_sim : forall w s x, Sim w s -> allowed s x ->
  exists w', lstep w x = Ok (w', snd (plain_step s x)) /\ Sim w' (fst (plain_step s x)).
Proof.
  intros w s x S A. pose proof (strong_alive w s) as SA.
  destruct x as [js | v | | i | | | | k | k | p | p]; cbn [lstep].
  - exists (new_object w js). split; [reflexivity | apply new_sim; exact S].
  - destruct v as [p |].
    + destruct A as (L & N). cbn [qmllistpropertyAppend]. rewrite (proj2 (s_dead _ _ S p) L). cbn [bind].
      eexists. split; [reflexivity |]. apply (put_sim w s p (upd (l_js w) p false) S L N). reflexivity.
    + cbn [qmllistpropertyAppend bind]. eexists. split; [reflexivity |]. cbn [plain_step fst].
      assert (T : forall b, times b (all_lists (set_field w (l_field w ++ [None]))) = times b (all_lists w)).
      { intros b. unfold all_lists. cbn [set_field l_field l_vars]. rewrite !times_app. cbn [times]. lia. }
      destruct S. split; cbn [p_made p_field p_vars p_listed p_engine p_gone]; try assumption.
      * cbn [set_field l_field]. rewrite map_app. cbn [map]. f_equal. exact s_field0.
      * intros b I. apply s_blocks0. apply times_in. rewrite <- T. apply times_in. exact I.
      * intros b L. rewrite T. apply s_strong0. exact L.
      * intros p. unfold lives, in_list in s_dead0 |- *. cbn [p_made p_field p_vars p_listed p_engine p_gone].
        change (l_dead (set_field w (l_field w ++ [None])) p) with (l_dead w p). rewrite s_dead0.
        rewrite in_app_iff. cbn [In].
        assert (X : In (Some p) (p_field s) \/ None = Some p \/ False <-> In (Some p) (p_field s)).
        { split; [intros [K | [K | []]]; [exact K | discriminate] | auto]. }
        rewrite X. reflexivity.
  - exists w. cbn [plain_step fst snd]. split; [| exact S]. unfold qmllistpropertyCount.
    rewrite <- (s_field _ _ S), map_length. reflexivity.
  - exists w. cbn [plain_step fst snd]. split; [| exact S]. cbn [allowed] in A. unfold qmllistpropertyAt.
    replace (i <? 0)%Z with false by (symmetry; apply Z.ltb_ge; lia).
    rewrite <- (s_field _ _ S) in A |- *. rewrite map_length in A.
    destruct (nth_error (l_field w) (Z.to_nat i)) as [e |] eqn:E.
    + assert (X : nth (Z.to_nat i) (map (pointer_of w) (l_field w)) None = pointer_of w e).
      { apply nth_error_nth. rewrite nth_error_map, E. reflexivity. }
      rewrite X. destruct e; reflexivity.
    + apply nth_error_None in E. lia.
  - unfold qmllistpropertyReset. pose proof (s_blocks _ _ S) as Bl. pose proof (s_strong _ _ S) as St.
    destruct (drop_sim (set_field w []) s (l_field w) (fst (plain_step s LClear))) as (w' & E & S').
    + exact (s_made _ _ S).
    + reflexivity.
    + exact (s_vars _ _ S).
    + intros b I. apply Bl. unfold all_lists in *. cbn [set_field l_field l_vars app] in I. apply in_app_iff. auto.
    + intros b I. apply Bl, all_field, I.
    + intros b L. change (b_strong (set_field w []) b) with (b_strong w b). rewrite St by exact L.
      unfold all_lists. cbn [set_field l_field l_vars app]. apply times_app.
    + exact (s_inj _ _ S).
    + exact (s_listed _ _ S).
    + intros b. exact (SA b S).
    + exact (s_dead _ _ S).
    + intros b L. change (b_obj (set_field w []) b) with (b_obj w b). rewrite (in_list_iff w s b S L).
      unfold all_lists. cbn [set_field l_field l_vars app]. apply in_app_iff.
    + exact (s_js _ _ S).
    + exact (s_engine _ _ S).
    + exact (s_range _ _ S).
    + exact (s_gone _ _ S).
    + exact (s_log _ _ S).
    + exact (s_logged _ _ S).
    + reflexivity.
    + reflexivity.
    + reflexivity.
    + reflexivity.
    + exists w'. rewrite E. cbn [bind]. auto.
  - eexists. split; [reflexivity |].
    pose proof (new_sim w s false S) as S1. cbn [plain_step fst] in S1.
    pose proof (put_sim _ _ (l_made w) (l_js (new_object w false)) S1) as P. cbn [plain_step fst p_made p_field p_vars p_listed p_engine p_gone] in P |- *.
    rewrite <- (s_made _ _ S) in P |- *. apply P.
    + unfold lives. cbn [p_made p_gone p_listed]. split; [lia |]. split.
      * intros K. apply (s_gone _ _ S) in K. rewrite (s_made _ _ S) in K. lia.
      * intros K. apply (s_range _ _ S) in K. rewrite (s_made _ _ S) in K. lia.
    + intros K. apply (s_range _ _ S) in K. rewrite (s_made _ _ S) in K. lia.
    + intros q. cbn [new_object l_js]. unfold upd. destruct (Nat.eqb q (l_made w)); reflexivity.
  - eexists. split; [reflexivity |]. cbn [plain_step fst].
    destruct (take_all_ok (l_field w) w) as ((S1 & S2 & S3 & S4 & S5 & S6) & D & G & C).
    set (w1 := take_all w (l_field w)) in *.
    assert (Pt : pointer_of (set_vars w1 (l_vars w ++ [l_field w])) = pointer_of w) by (unfold pointer_of; cbn; rewrite S4; reflexivity).
    assert (T : forall b, times b (all_lists (set_vars w1 (l_vars w ++ [l_field w]))) = times b (all_lists w) + times b (l_field w)).
    { intros b. unfold all_lists. cbn [set_vars l_field l_vars]. rewrite S5, concat_app, !times_app. cbn [concat]. rewrite times_app. cbn [times]. lia. }
    split; cbn [set_vars p_made p_field p_vars p_listed p_engine p_gone l_made l_blocks b_obj b_strong l_field l_vars l_log l_dead l_js];
      rewrite ?S1, ?S2, ?S3, ?S4, ?S5, ?D, ?G.
    + exact (s_made _ _ S).
    + change (map (pointer_of (set_vars w1 (l_vars w ++ [l_field w]))) (l_field w) = p_field s). rewrite Pt. exact (s_field _ _ S).
    + change (map (map (pointer_of (set_vars w1 (l_vars w ++ [l_field w])))) (l_vars w ++ [l_field w]) = p_vars s ++ [p_field s]).
      rewrite Pt, map_app, (s_vars _ _ S). cbn [map]. rewrite (s_field _ _ S). reflexivity.
    + intros b I. apply times_in in I. change (0 < times b (all_lists (set_vars w1 (l_vars w ++ [l_field w])))) in I.
      rewrite T in I. destruct (times b (l_field w)) eqn:Z.
      * apply (s_blocks _ _ S), times_in. lia.
      * apply (s_blocks _ _ S), all_field, times_in. lia.
    + intros b L. change (b_strong w1 b = times b (all_lists (set_vars w1 (l_vars w ++ [l_field w])))).
      rewrite T, C, (s_strong _ _ S) by exact L. reflexivity.
    + exact (s_inj _ _ S).
    + exact (s_listed _ _ S).
    + intros p. rewrite (s_dead _ _ S). unfold lives, in_list. cbn [p_made p_field p_vars p_listed p_engine p_gone].
      split; intros (X & Y & Z); (split; [exact X |]); (split; [exact Y |]); intros K; destruct (Z K) as [Q | (l & Q & Q')]; auto.
      * right. exists l. rewrite in_app_iff. auto.
      * apply in_app_iff in Q. destruct Q as [Q | [Q | []]]; [right; exists l; auto | subst l; auto].
    + exact (s_js _ _ S).
    + exact (s_engine _ _ S).
    + exact (s_range _ _ S).
    + exact (s_gone _ _ S).
    + exact (s_log _ _ S).
    + exact (s_logged _ _ S).
  - cbn [allowed] in A. rewrite <- (s_vars _ _ S), map_length in A.
    destruct (nth_error (l_vars w) k) as [l |] eqn:E; [| apply nth_error_None in E; lia].
    assert (X : nth k (p_vars s) [] = map (pointer_of w) l).
    { rewrite <- (s_vars _ _ S). apply nth_error_nth. rewrite nth_error_map, E. reflexivity. }
    pose proof (nth_error_In _ _ E) as Il. cbn [plain_step fst snd]. rewrite X. unfold set_list.
    destruct (pointers_eqb (map (pointer_of w) (l_field w)) (map (pointer_of w) l)) eqn:Q.
    + apply pointers_eqb_eq in Q. exists w. split; [reflexivity |]. rewrite <- Q, (s_field _ _ S). destruct s; exact S.
    + clear Q. destruct (take_all_ok l w) as ((S1 & S2 & S3 & S4 & S5 & S6) & D & G & C). set (w1 := take_all w l) in *.
      assert (Pt : pointer_of (set_field w1 l) = pointer_of w) by (unfold pointer_of; cbn; rewrite S4; reflexivity).
      assert (Bl : forall b, In (Some b) l -> b < l_blocks w) by (intros b I; apply (s_blocks _ _ S), (all_var w b l); assumption).
      assert (T : forall b, times b (all_lists (set_field w1 l)) = times b l + times b (concat (l_vars w))).
      { intros b. unfold all_lists. cbn [set_field l_field l_vars]. rewrite S6, times_app. reflexivity. }
      destruct (drop_sim (set_field w1 l) s (l_field w)
        (mkP (p_made s) (map (pointer_of w) l) (p_vars s) (p_listed s) (p_engine s) (p_gone s))) as (w' & E' & S');
        cbn [set_field p_made p_field p_vars p_listed p_engine p_gone l_made l_blocks b_obj b_strong l_field l_vars l_log l_dead l_js];
        rewrite ?S1, ?S2, ?S3, ?S4, ?S6, ?D, ?G; try reflexivity.
      * exact (s_made _ _ S).
      * change (map (pointer_of (set_field w1 l)) l = map (pointer_of w) l). rewrite Pt. reflexivity.
      * change (map (map (pointer_of (set_field w1 l))) (l_vars w) = p_vars s). rewrite Pt. exact (s_vars _ _ S).
      * intros b I. apply times_in in I. change (0 < times b (all_lists (set_field w1 l))) in I. rewrite T in I.
        destruct (times b l) eqn:Z; [| apply Bl, times_in; lia].
        apply (s_blocks _ _ S). unfold all_lists. apply in_app_iff. right. apply times_in. lia.
      * intros b I. apply (s_blocks _ _ S), all_field, I.
      * intros b L. change (b_strong w1 b = times b (l_field w) + times b (all_lists (set_field w1 l))).
        rewrite T, C, (s_strong _ _ S) by exact L. unfold all_lists. rewrite times_app. lia.
      * exact (s_inj _ _ S).
      * exact (s_listed _ _ S).
      * intros b L K. rewrite C in K. apply (SA b S L).
        rewrite (s_strong _ _ S) by exact L. apply times_in. destruct (times b l) eqn:Z.
        { apply times_in. rewrite <- (s_strong _ _ S) by exact L. lia. }
        { apply (all_var w b l Il). apply times_in. lia. }
      * exact (s_dead _ _ S).
      * intros b L. rewrite (in_list_iff w s b S L).
        change (In (Some b) (all_lists w) <-> In (Some b) (l_field w) \/ In (Some b) (all_lists (set_field w1 l))).
        rewrite <- !times_in, T. unfold all_lists at 1. rewrite times_app.
        assert (Y : 0 < times b l -> 0 < times b (concat (l_vars w))).
        { intros K. apply times_in, in_concat_iff. exists l. split; [exact Il | apply times_in; exact K]. }
        lia.
      * exact (s_js _ _ S).
      * exact (s_engine _ _ S).
      * exact (s_range _ _ S).
      * exact (s_gone _ _ S).
      * exact (s_log _ _ S).
      * exact (s_logged _ _ S).
      * exists w'. cbv zeta. rewrite E'. cbn [bind]. auto.
  - cbn [allowed] in A. rewrite <- (s_vars _ _ S), map_length in A.
    destruct (nth_error (l_vars w) k) as [l |] eqn:E; [| apply nth_error_None in E; lia].
    pose proof (in_remove _ k (l_vars w) l E) as Ir. pose proof (times_remove k (l_vars w) l E) as Tr.
    set (v := remove_nth k (l_vars w)) in *.
    destruct (drop_sim (set_vars w v) s l (fst (plain_step s (LDrop k)))) as (w' & E' & S');
      cbn [plain_step fst set_vars p_made p_field p_vars p_listed p_engine p_gone l_made l_blocks b_obj b_strong l_field l_vars l_log l_dead l_js];
      try reflexivity.
    + exact (s_made _ _ S).
    + exact (s_field _ _ S).
    + change (map (map (pointer_of w)) v = firstn k (p_vars s) ++ skipn (Datatypes.S k) (p_vars s)).
      rewrite <- (s_vars _ _ S). unfold v, remove_nth. rewrite map_app, firstn_map, skipn_map. reflexivity.
    + intros b I. apply (s_blocks _ _ S). unfold all_lists in *. cbn [set_vars l_field l_vars] in I.
      rewrite in_app_iff in *. rewrite Ir. tauto.
    + intros b I. apply (s_blocks _ _ S). unfold all_lists. rewrite in_app_iff, Ir. tauto.
    + intros b L. rewrite (s_strong _ _ S) by exact L. unfold all_lists. cbn [set_vars l_field l_vars].
      rewrite !times_app, Tr. lia.
    + exact (s_inj _ _ S).
    + exact (s_listed _ _ S).
    + intros b. exact (SA b S).
    + exact (s_dead _ _ S).
    + intros b L. rewrite (in_list_iff w s b S L). unfold all_lists. cbn [set_vars l_field l_vars].
      rewrite !in_app_iff, Ir. tauto.
    + exact (s_js _ _ S).
    + exact (s_engine _ _ S).
    + exact (s_range _ _ S).
    + exact (s_gone _ _ S).
    + exact (s_log _ _ S).
    + exact (s_logged _ _ S).
    + exists w'. rewrite E'. cbn [bind]. auto.
  - cbn [plain_step fst snd]. destruct (negb (l_dead w p) && l_js w p) eqn:Q.
    + apply andb_true_iff in Q. destruct Q as (Q & J). apply negb_true_iff in Q. apply (s_dead _ _ S) in Q.
      apply (s_js _ _ S) in J. destruct J as (J & N).
      destruct (delete_sim w s p S Q N) as (w' & E & S'). exists w'. rewrite E. cbn [bind]. split; [reflexivity |].
      destruct (in_dec eqb_dec p (p_engine s)); [| contradiction]. destruct (in_dec eqb_dec p (p_listed s)); [contradiction |].
      exact S'.
    + exists w. split; [reflexivity |]. destruct (in_dec eqb_dec p (p_engine s)) as [J | J]; [| exact S].
      destruct (in_dec eqb_dec p (p_listed s)) as [N | N]; [exact S |].
      assert (D : l_dead w p = true).
      { destruct (l_dead w p) eqn:Z; [reflexivity |]. cbn in Q. rewrite (proj2 (s_js _ _ S p)) in Q by auto. discriminate. }
      assert (Gp : In p (p_gone s)).
      { destruct (in_dec eqb_dec p (p_gone s)) as [K | K]; [exact K |]. exfalso.
        assert (Z : l_dead w p = false); [| congruence]. apply (s_dead _ _ S). split; [apply (s_engine _ _ S); exact J |].
        split; [exact K | intros; contradiction]. }
      assert (Gq : forall q, In q (p :: p_gone s) <-> In q (p_gone s)).
      { intros q. cbn [In]. split; [intros [<- | K]; assumption | auto]. }
      destruct S. split; cbn [p_made p_field p_vars p_listed p_engine p_gone]; try assumption.
      * intros q. rewrite s_dead0. unfold lives, in_list. cbn [p_made p_field p_vars p_listed p_engine p_gone]. rewrite Gq. reflexivity.
      * intros q K. rewrite Gq. exact (s_range0 q K).
      * intros q K. apply Gq in K. exact (s_gone0 q K).
  - destruct A as (L & N). destruct (delete_sim w s p S L N) as (w' & E & S'). exists w'. rewrite E. cbn [bind plain_step fst snd]. auto.
Qed.

Lemma sim_initial : Sim l_initial p_initial.
Proof.
  split; cbn; try reflexivity; try (intros; lia); try (intros; contradiction);
    try (constructor; fail); try (intros p; split; [discriminate | intros (L & _); cbn in L; lia]);
    try (intros p; split; [discriminate | intros ([] & _)]); try (intros p; split; [intros [] | lia]).
  - intros b [].
  - intros p. split; [intros [] | intros (b & L & _); lia].
Qed.

Lemma lrun_sim : forall xs w s, Sim w s -> allowed_run s xs ->
  exists w', lrun w xs = Ok (w', snd (plain_run s xs)) /\ Sim w' (fst (plain_run s xs)).
Proof.
  induction xs as [| x xs IH]; intros w s S A; cbn [lrun plain_run allowed_run] in *; [exists w; auto |].
  destruct A as (A & B). destruct (lstep_sim w s x S A) as (w1 & E & S1). rewrite E. cbn [bind fst snd].
  destruct (plain_step s x) as (s1, a). cbn [fst snd] in *. destruct (IH w1 s1 S1 B) as (w2 & E2 & S2). rewrite E2.
  cbn [bind fst snd]. destruct (plain_run s1 xs) as (s2, l). exists w2. auto.
Qed.

(** * The same object twice *)

Lemma drop_dead : forall w e w', drop w e = Ok w' ->
  b_obj w' = b_obj w /\ (forall p, l_dead w p = true -> l_dead w' p = true)
  /\ (forall b, b_strong w' b = b_strong w b - times b [e])
  /\ (forall b, e = Some b -> b_strong w b = 1 -> l_dead w (b_obj w b) = false).
Proof.
  intros w e w' H. destruct e as [a |]; cbn [drop] in H.
  - destruct (b_strong w a) as [| [| n]] eqn:Z; [discriminate | |].
    + unfold delete in H. cbn [set_strong l_dead b_obj] in H. destruct (l_dead w (b_obj w a)) eqn:D; [discriminate |].
      injection H as <-. cbn. split; [reflexivity |]. split; [| split].
      * intros p K. unfold upd. destruct (Nat.eqb p (b_obj w a)); [reflexivity | exact K].
      * intros b. unfold upd. rewrite (Nat.eqb_sym a b). destruct (Nat.eqb_spec b a); [subst |]; lia.
      * intros b K _. injection K as <-. exact D.
    + injection H as <-. cbn. split; [reflexivity |]. split; [auto |]. split.
      * intros b. unfold upd. rewrite (Nat.eqb_sym a b). destruct (Nat.eqb_spec b a); [subst |]; lia.
      * intros b K L. injection K as <-. lia.
  - injection H as <-. split; [reflexivity |]. split; [auto |]. split; [| discriminate]. intros b. cbn. lia.
Qed.

Lemma drop_all_dead : forall l w w', drop_all w l = Ok w' ->
  b_obj w' = b_obj w /\ (forall p, l_dead w p = true -> l_dead w' p = true)
  /\ (forall b, b_strong w' b = b_strong w b - times b l)
  /\ (forall b, In (Some b) l -> b_strong w b = times b l -> l_dead w (b_obj w b) = false).
Proof.
  induction l as [| e l IH]; intros w w' H; cbn [drop_all] in H.
  - injection H as <-. split; [reflexivity |]. split; [auto |]. split; [intros b; cbn; lia | intros b []].
  - destruct (drop_all w l) as [w1 | | |] eqn:E; try discriminate. cbn [bind] in H.
    destruct (IH w w1 E) as (O1 & D1 & S1 & A1). destruct (drop_dead w1 e w' H) as (O2 & D2 & S2 & A2).
    split; [congruence |]. split; [auto |]. split.
    + intros b. rewrite S2, S1. cbn [times]. lia.
    + intros b I C. destruct e as [a |].
      * cbn [times] in C. destruct (Nat.eqb_spec a b) as [-> | N].
        { destruct (l_dead w (b_obj w b)) eqn:Z; [| reflexivity]. apply D1 in Z.
          rewrite <- (A2 b eq_refl); [rewrite O1; congruence |]. rewrite S1. lia. }
        { apply A1; [destruct I as [I | I]; [congruence | exact I] | lia]. }
      * apply A1; [destruct I as [I | I]; [discriminate | exact I] | exact C].
Qed.

Lemma drop_all_total : forall l w, (exists w', drop_all w l = Ok w') \/ drop_all w l = UB DanglingRef.
Proof.
  induction l as [| e l IH]; intros w; cbn [drop_all]; [eauto |]. destruct (IH w) as [(w1 & ->) | ->]; [| auto]. cbn [bind].
  destruct e as [a |]; cbn [drop]; [| eauto]. destruct (b_strong w1 a) as [| [| n]]; [auto | | eauto].
  unfold delete. destruct (l_dead (set_strong w1 a 0) (b_obj w1 a)); eauto.
Qed.

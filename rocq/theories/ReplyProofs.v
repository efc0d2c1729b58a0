(** How a single reply evolves. *)

From Coq Require Import ZArith List Bool Lia.
From Verif Require Import Base Values FrameModel CallModel ReplyModel ReplySpec.
Import ListNotations.
Open Scope Z_scope.

Lemma set_reply_same i r : forall l, (i < length l)%nat -> nth_error (set_reply i r l) i = Some r.
Proof. induction i as [|i IH]; intros [|x l] L; cbn in *; auto; try lia. apply IH. lia. Qed.
Lemma set_reply_other i j r : i <> j -> forall l, nth_error (set_reply i r l) j = nth_error l j.
Proof. revert j. induction i as [|i IH]; intros [|j] N [|x l]; cbn; auto; try lia. Qed.
Lemma set_reply_length i r : forall l, length (set_reply i r l) = length l.
Proof. induction i as [|i IH]; intros [|x l]; cbn; auto. Qed.

Lemma has_spec x l : has x l = true <-> In x l.
Proof.
  unfold has. rewrite existsb_exists. split; [intros (y & I & E); apply Nat.eqb_eq in E; now subst | intro I; exists x; split; [exact I|]].
  apply Nat.eqb_refl.
Qed.
Lemma has_false x l : has x l = false <-> ~ In x l.
Proof. rewrite <- has_spec. destruct (has x l); split; intro H; congruence. Qed.

Lemma learnt_tell i j l w : learnt i (tell j l w) = learnt i w ++ (if Nat.eqb j i then l else []).
Proof.
  unfold learnt, tell. cbn [w_told]. rewrite filter_app, map_app. f_equal. induction l as [|x l IH]; cbn; [now destruct (Nat.eqb j i)|].
  destruct (Nat.eqb j i); cbn; [now rewrite IH | exact IH].
Qed.

(** What the slots of a method tell. *)
Definition slot_tells (decode : list Z -> list value * res unit) (gone : list nat) (r : reply) (s : signal) : list told :=
  if r_slots r then
    match r_style r, s with
    | AsCallback _, Finished d => [GotReply d]
    | AsScript _, Finished d => [GotObject (fst (decode d))]
    | AsScriptInto t _, Finished d => if has t gone then [] else [Stored t (fst (decode d))]
    | AsScript e, Error c => if e then [GotError c] else []
    | AsScriptInto _ e, Error c => if e then [GotError c] else []
    | _, _ => []
    end
  else [].
Definition slot_hands (r : reply) (s : signal) : nat :=
  match r_style r, s with AsCallback _, Finished _ => if r_slots r then 1 else 0 | _, _ => 0 end.

Section Evolution.
  Variable decode : list Z -> list value * res unit.

  Lemma read_object_value d obj errs : read_object decode d = Ok (obj, errs) -> obj = fst (decode d).
  Proof.
    unfold read_object. destruct (decode d) as [x o]. cbn [fst]. destruct (tryDeserialize true o) as [[c e]| | |]; cbn [bind]; intro H; try discriminate.
    now injection H.
  Qed.

  Lemma user_slot_spec i r s w w' : user_slot decode i r s w = Ok w' -> forall r0, nth_error (w_replies w) i = Some r0 ->
    w_client w' = w_client w /\ w_engine w' = w_engine w /\ w_channel w' = w_channel w /\ w_held w' = w_held w /\ w_gone w' = w_gone w /\
    w_replies w' = set_reply i (with_handles (r_handles r0 + slot_hands r s) r0) (w_replies w) /\
    w_told w' = w_told w ++ map (pair i) (slot_tells decode (w_gone w) r s).
  Proof.
    intros H r0 N.
    assert (Same : forall l, nth_error l i = Some r0 -> set_reply i (with_handles (r_handles r0 + 0) r0) l = l).
    { clear. rewrite Nat.add_0_r. intro l. revert i. induction l as [|x l IH]; intros [|i] N; cbn in *; try discriminate; auto.
      - injection N as ->. now destruct r0. - f_equal. now apply IH. }
    unfold user_slot, slot_tells, slot_hands in *. destruct (r_slots r).
    2:{ injection H as <-. destruct (r_style r), s; cbn [map]; rewrite app_nil_r, Same; auto 10. }
    destruct (r_style r) as [|x|e|t e], s as [d|c].
    all: try (injection H as <-; cbn [map]; rewrite ?app_nil_r, ?Same; auto 10; fail).
    - injection H as <-. unfold hand. rewrite N. cbn. rewrite Nat.add_1_r. auto 10.
    - destruct (read_object decode d) as [[obj errs]| | |] eqn:E; cbn [bind] in H; try discriminate. injection H as <-.
      apply read_object_value in E as ->. cbn. rewrite Same; auto 10.
    - destruct (has t (w_gone w)).
      + injection H as <-. cbn [map]. rewrite app_nil_r, Same; auto 10.
      + destruct (read_object decode d) as [[obj errs]| | |] eqn:E; cbn [bind] in H; try discriminate. injection H as <-.
        apply read_object_value in E as ->. cbn. rewrite Same; auto 10.
  Qed.

  (** The new signal, if any. *)
  Definition tells (gone : list nat) (r : reply) (c : call_state) : list told :=
    match skipn (length (c_signals (r_call r))) (c_signals c) with s :: _ => slot_tells decode gone r s | [] => [] end.
  Definition hands (r : reply) (c : call_state) : nat :=
    match skipn (length (c_signals (r_call r))) (c_signals c) with s :: _ => slot_hands r s | [] => 0%nat end.

  Definition after_call (r : reply) (c : call_state) : reply := mkReply c (r_style r) (r_channel r) (r_handles r + hands r c) (r_slots r).

  Lemma set_set i a b : forall l, set_reply i a (set_reply i b l) = set_reply i a l.
  Proof. induction i as [|i IH]; intros [|x l]; cbn; auto. now rewrite IH. Qed.

  Lemma call_changed_spec i r c w w' : call_changed decode i r c w = Ok w' -> nth_error (w_replies w) i = Some r ->
    w_client w' = w_client w /\ w_engine w' = w_engine w /\ w_channel w' = w_channel w /\ w_held w' = w_held w /\ w_gone w' = w_gone w /\
    w_replies w' = set_reply i (after_call r c) (w_replies w) /\
    w_told w' = w_told w ++ map (pair i) (tells (w_gone w) r c).
  Proof.
    intros H N. unfold call_changed, tells, hands in *. assert (L : (i < length (w_replies w))%nat) by (apply nth_error_Some; congruence).
    unfold after_call, hands. destruct (skipn (length (c_signals (r_call r))) (c_signals c)) as [|s l].
    - injection H as <-. cbn. rewrite app_nil_r, Nat.add_0_r. auto 10.
    - apply (user_slot_spec _ _ _ _ _) with (r0 := with_call c r) in H.
      + cbn in H. rewrite set_set in H. exact H.
      + cbn. now apply set_reply_same.
  Qed.

  (** *** Reply [i] in a step *)
  Definition lost (ch : nat) (w : world) : bool := negb (is_current ch w || has ch (w_held w)).

  Inductive evolves (i : nat) (w : world) (e : event) (w' : world) (r : reply) : reply -> list told -> Prop :=
  | ev_same : network_event i e = None \/ w_client w = false -> evolves i w e w' r r []
  | ev_stopped : network_event i e = None -> (exists ch, e = Attach ch \/ e = Release ch) -> ~ channel_lives (r_channel r) w' ->
      evolves i w e w' r (with_call (stop (r_call r)) r) []
  | ev_engine b : e = EngineGone -> r_style r = AsScript b -> evolves i w e w' r (without_slots r) []
  | ev_engine_into t b : e = EngineGone -> r_style r = AsScriptInto t b -> evolves i w e w' r (without_slots r) []
  | ev_gone x : e = Gone x -> r_style r = AsCallback x -> evolves i w e w' r (without_slots r) []
  | ev_client r' : e = ClientGone -> r_slots r' = false -> c_client (r_call r') = false ->
      c_connected (r_call r') = false -> c_abort (r_call r') = false -> c_signals (r_call r') = c_signals (r_call r) ->
      r_handles r' = r_handles r -> r_style r' = r_style r -> evolves i w e w' r r' []
  | ev_event ce c : network_event i e = Some ce -> w_client w = true -> http2_event (r_call r) ce = Ok c ->
      evolves i w e w' r (after_call r c) (tells (w_gone w) r c)
  | ev_abort : e = Abort i -> (0 < r_handles r)%nat -> w_client w = true ->
      evolves i w e w' r (after_call r (abort_call (r_call r))) (tells (w_gone w) r (abort_call (r_call r)))
  | ev_copy : e = Copy i -> (0 < r_handles r)%nat -> evolves i w e w' r (with_handles (S (r_handles r)) r) []
  | ev_drop n : e = Drop i -> r_handles r = S n -> evolves i w e w' r (with_handles n r) [].

  Lemma step_evolves i w e w' r : step decode w e = Ok w' -> nth_error (w_replies w) i = Some r ->
    exists r' l, nth_error (w_replies w') i = Some r' /\ learnt i w' = learnt i w ++ l /\ evolves i w e w' r r' l.
  Proof.
    intros H N. assert (L : (i < length (w_replies w))%nat) by (apply nth_error_Some; congruence).
    assert (Idle : nth_error (w_replies w') i = Some r -> w_told w' = w_told w -> network_event i e = None \/ w_client w = false ->
              exists r' l, nth_error (w_replies w') i = Some r' /\ learnt i w' = learnt i w ++ l /\ evolves i w e w' r r' l).
    { intros N' T E. exists r, []. rewrite app_nil_r. split; [exact N'|]. split; [unfold learnt; now rewrite T|]. now apply ev_same. }
    assert (Changed : forall j rj c, nth_error (w_replies w) j = Some rj -> call_changed decode j rj c w = Ok w' ->
              (j = i -> evolves i w e w' r (after_call r c) (tells (w_gone w) r c)) -> (j <> i -> network_event i e = None) ->
              exists r' l, nth_error (w_replies w') i = Some r' /\ learnt i w' = learnt i w ++ l /\ evolves i w e w' r r' l).
    { intros j rj c Nj Hc Ei Eo. destruct (call_changed_spec _ _ _ _ _ Hc Nj) as (_ & _ & _ & _ & _ & Er & Et).
      assert (El : learnt i w' = learnt i w ++ (if Nat.eqb j i then tells (w_gone w) rj c else [])).
      { rewrite <- (learnt_tell i j (tells (w_gone w) rj c) w). unfold learnt. now rewrite Et. }
      destruct (Nat.eqb_spec j i) as [->|Ne].
      - rewrite N in Nj. injection Nj as <-. exists (after_call r c), (tells (w_gone w) r c). rewrite Er, set_reply_same by auto.
        split; [reflexivity|]. split; [exact El | now apply Ei].
      - exists r, []. rewrite Er, set_reply_other by auto. split; [exact N|]. split; [exact El|]. apply ev_same. left. now apply Eo. }
    assert (Net : forall j ce, network decode j ce w = Ok w' -> (j = i -> network_event i e = Some ce) -> (j <> i -> network_event i e = None) ->
              exists r' l, nth_error (w_replies w') i = Some r' /\ learnt i w' = learnt i w ++ l /\ evolves i w e w' r r' l).
    { intros j ce Hn Ei Eo. unfold network in Hn. destruct (nth_error (w_replies w) j) as [rj|] eqn:Nj.
      - destruct (w_client w) eqn:C.
        + destruct (http2_event (r_call rj) ce) as [c| | |] eqn:Hc; cbn [bind] in Hn; try discriminate.
          apply (Changed j rj c Nj Hn); [|exact Eo]. intros ->. rewrite N in Nj. injection Nj as <-. apply (ev_event i w e w' r ce c); auto.
        + injection Hn as <-. apply Idle; auto.
      - injection Hn as <-. apply Idle; auto. left. apply Eo. intros ->. congruence. }
    assert (Stopped : forall ch w1, w_replies w1 = w_replies w -> w_told w1 = w_told w -> w' = channel_gone ch w1 ->
              network_event i e = None -> (exists x, e = Attach x \/ e = Release x) -> ~ channel_lives ch w' ->
              exists r' l, nth_error (w_replies w') i = Some r' /\ learnt i w' = learnt i w ++ l /\ evolves i w e w' r r' l).
    { intros ch w1 R1 T1 -> Ne Ex Dead. unfold channel_gone. cbn [with_replies w_replies]. rewrite R1.
      rewrite (map_nth_error _ _ _ N). destruct (Nat.eqb_spec (r_channel r) ch) as [Ec|Ec].
      - eexists _, []. rewrite app_nil_r. split; [reflexivity|]. split; [unfold learnt; cbn; now rewrite T1|].
        apply ev_stopped; auto. rewrite Ec. exact Dead.
      - exists r, []. rewrite app_nil_r. split; [reflexivity|]. split; [unfold learnt; cbn; now rewrite T1|]. apply ev_same. auto. }
    destruct e as [s v|j err st bd|j|j|j|j|j|j|ch|ch|x| |]; cbn [step network_event] in *.
    - (* Start *) destruct (w_client w) eqn:C; [|injection H as <-; apply Idle; auto]. unfold start in H.
      destruct ((match s with AsScript _ | AsScriptInto _ _ => true | _ => false end) && negb (v && w_engine w));
        [injection H as <-; apply Idle; auto|].
      destruct (w_channel w) as [ch|].
      + injection H as <-. apply Idle; auto. cbn. rewrite nth_error_app1; auto.
      + destruct s; try discriminate; injection H as <-; apply Idle; auto.
    - apply (Net j _ H); intro E; [subst; now rewrite Nat.eqb_refl|]. now destruct (Nat.eqb_spec j i).
    - apply (Net j _ H); intro E; [subst; now rewrite Nat.eqb_refl|]. now destruct (Nat.eqb_spec j i).
    - apply (Net j _ H); intro E; [subst; now rewrite Nat.eqb_refl|]. now destruct (Nat.eqb_spec j i).
    - (* Abort *) unfold through in H. destruct (nth_error (w_replies w) j) as [rj|] eqn:Nj; [|injection H as <-; apply Idle; auto].
      destruct (Nat.eqb_spec (r_handles rj) 0) as [E0|E0]; [injection H as <-; apply Idle; auto|].
      destruct (w_client w) eqn:C; [|discriminate]. apply (Changed j rj _ Nj H); auto. intros ->. rewrite N in Nj. injection Nj as <-.
      apply ev_abort; auto. lia.
    - (* Copy *) destruct (nth_error (w_replies w) j) as [rj|] eqn:Nj; [|injection H as <-; apply Idle; auto]. injection H as <-.
      destruct (Nat.eqb_spec (r_handles rj) 0) as [E0|E0]; [apply Idle; auto|].
      destruct (Nat.eq_dec j i) as [->|Ne].
      + rewrite N in Nj. injection Nj as <-. eexists _, []. cbn. rewrite set_reply_same, app_nil_r by auto.
        split; [reflexivity|]. split; [reflexivity|]. apply ev_copy; auto. lia.
      + apply Idle; auto. cbn. now rewrite set_reply_other.
    - (* Drop *) destruct (nth_error (w_replies w) j) as [rj|] eqn:Nj; [|injection H as <-; apply Idle; auto].
      destruct (r_handles rj) as [|n] eqn:Hn; [injection H as <-; apply Idle; auto|].
      destruct (Nat.eqb n 0 && negb (w_client w)); [discriminate|]. injection H as <-.
      destruct (Nat.eq_dec j i) as [->|Ne].
      + rewrite N in Nj. injection Nj as <-. eexists _, []. cbn. rewrite set_reply_same, app_nil_r by auto.
        split; [reflexivity|]. split; [reflexivity|]. now apply ev_drop.
      + apply Idle; auto. cbn. now rewrite set_reply_other.
    - (* Read *) unfold through in H. destruct (nth_error (w_replies w) j) as [rj|]; [|injection H as <-; apply Idle; auto].
      destruct (Nat.eqb (r_handles rj) 0); [injection H as <-; apply Idle; auto|].
      destruct (w_client w) eqn:C; [|discriminate]. destruct (read_object decode (c_data (r_call rj))) as [[o errs]| | |]; cbn [bind] in H; try discriminate.
      injection H as <-. apply Idle; auto.
    - (* Attach *) destruct (w_client w) eqn:C; [|injection H as <-; apply Idle; auto]. injection H as E. unfold attach in E.
      destruct (w_channel w) as [old|]; [|subst w'; apply Idle; auto]. cbn [w_held] in E.
      destruct (has old (ch :: w_held w)) eqn:Ho; [subst w'; apply Idle; auto|].
      eapply (Stopped old); [| |symmetry; exact E|reflexivity|eauto|]; [reflexivity | reflexivity|].
      apply has_false in Ho. subst w'. intros [[_ X]|X]; cbn in X; [injection X as ->; apply Ho; now left | contradiction].
    - (* Release *) injection H as E. unfold release_channel in E.
      destruct (is_current ch _) eqn:Cu; [subst w'; apply Idle; auto|].
      eapply (Stopped ch); [| |symmetry; exact E|reflexivity|eauto|]; [reflexivity | reflexivity|].
      subst w'. intros [[C X]|X]; cbn in *.
      + unfold is_current in Cu. cbn in Cu. rewrite X, C, Nat.eqb_refl in Cu. discriminate.
      + apply filter_In in X as [_ X]. now rewrite Nat.eqb_refl in X.
    - (* Gone *) injection H as <-. cbn [object_gone w_replies]. rewrite (map_nth_error _ _ _ N).
      destruct (r_style r) as [|y|b|t b] eqn:St; try (exists r, []; rewrite app_nil_r; repeat split; auto; apply ev_same; auto; fail).
      destruct (Nat.eqb_spec y x) as [->|Ne]; [|exists r, []; rewrite app_nil_r; repeat split; auto; apply ev_same; auto].
      eexists _, []. rewrite app_nil_r. split; [reflexivity|]. split; [reflexivity|]. now apply (ev_gone i w _ _ r x).
    - (* EngineGone *) injection H as <-. cbn [engine_gone w_replies]. rewrite (map_nth_error _ _ _ N).
      destruct (r_style r) as [|y|b|t b] eqn:St; try (exists r, []; rewrite app_nil_r; repeat split; auto; apply ev_same; auto; fail).
      + eexists _, []. rewrite app_nil_r. split; [reflexivity|]. split; [reflexivity|]. now apply (ev_engine i w _ _ r b).
      + eexists _, []. rewrite app_nil_r. split; [reflexivity|]. split; [reflexivity|]. now apply (ev_engine_into i w _ _ r t b).
    - (* ClientGone *) injection H as <-. unfold client_gone.
      assert (X : forall w2, w_replies w2 = map (fun r => without_slots (with_call (mkCall (c_running (r_call r)) false false false (c_data (r_call r)) (c_signals (r_call r))
                                          (c_errors (r_call r))) r)) (w_replies w) -> w_told w2 = w_told w -> forall w3,
                exists r' l, nth_error (w_replies w2) i = Some r' /\ learnt i w2 = learnt i w ++ l /\ evolves i w ClientGone w3 r r' l).
      { intros w2 E2 T2 w3. rewrite E2, (map_nth_error _ _ _ N). eexists _, []. rewrite app_nil_r. split; [reflexivity|].
        split; [unfold learnt; now rewrite T2|]. apply ev_client; auto. }
      destruct (w_channel w) as [ch|]; [|now apply X]. destruct (has ch (w_held w)); [now apply X|].
      unfold channel_gone. cbn [with_replies w_replies]. rewrite map_map, (map_nth_error _ _ _ N).
      eexists _, []. rewrite app_nil_r. split; [reflexivity|]. split; [reflexivity|].
      apply ev_client; auto; destruct (Nat.eqb _ _); reflexivity.
  Qed.

  (** *** A call after its end *)
  Definition ended (c : call_state) : Prop := c_connected c = false /\ c_client c = false /\ c_abort c = false.

  Lemma ended_event c ce c' : ended c -> ce <> UserAbort -> http2_event c ce = Ok c' -> ended c' /\ c_signals c' = c_signals c.
  Proof.
    intros (A & B & D) N H.
    assert (X : forall err st bd, network_done err st bd c = Ok c' -> ended c' /\ c_signals c' = c_signals c).
    { intros err st bd E. unfold network_done in E. destruct (c_running c); cbn [negb] in E; [rewrite A in E; cbn [negb] in E|]; injection E as <-;
        unfold ended; cbn; auto. }
    destruct ce; cbn [http2_event] in H; eauto. contradiction.
  Qed.
  Lemma ended_abort c : ended c -> ended (abort_call c) /\ c_signals (abort_call c) = c_signals c ++ [Error 10].
  Proof. intros (A & B & D). unfold ended, abort_call, emit_error. cbn. rewrite A, D. auto. Qed.

  Lemma skipn_same {A} (l : list A) : skipn (length l) l = [].
  Proof. apply skipn_all. Qed.
  Lemma skipn_new {A} (l m : list A) : skipn (length l) (l ++ m) = m.
  Proof. rewrite skipn_app, skipn_all, Nat.sub_diag. reflexivity. Qed.

  (** Nothing more is told: a call for JavaScript has no handles to abort it. *)
  Definition over (r : reply) : Prop :=
    ended (r_call r) /\ match r_style r with AsScript _ | AsScriptInto _ _ => r_handles r = 0%nat | _ => True end.

  Lemma network_not_abort i e ce : network_event i e = Some ce -> ce <> UserAbort.
  Proof. destruct e; cbn; try discriminate; destruct (Nat.eqb _ _); try discriminate; intro H; injection H as <-; discriminate. Qed.

  Lemma over_evolves i w e w' r r' l : over r -> evolves i w e w' r r' l -> over r' /\ l = [].
  Proof.
    intros [E K] V. destruct V as [|_ X Nd|b Ee St|t b Ee St|x Ee St|r' Ee A B C D F G H|ce c Ne C Hc|Ee Hh C|Ee Hh|n Ee Hh]; unfold over in *.
    - auto.
    - split; [|reflexivity]. destruct E as (E1 & E2 & E3). unfold ended. cbn. auto.
    - auto.
    - auto.
    - auto.
    - unfold ended. rewrite H, G. auto.
    - destruct (ended_event _ _ _ E (network_not_abort _ _ _ Ne) Hc) as [E' S'].
      unfold tells, after_call, hands. rewrite S', skipn_same. cbn. rewrite Nat.add_0_r. auto.
    - destruct (ended_abort _ E) as [E' S']. unfold tells, after_call, hands. rewrite S', skipn_new. cbn.
      destruct (r_style r) as [|x|b|t b] eqn:St; try lia; unfold slot_tells, slot_hands; rewrite St; destruct (r_slots r); auto.
    - cbn. destruct (r_style r); try lia; auto.
    - cbn. destruct (r_style r); try lia; auto.
  Qed.

  Lemma over_run i : forall evs w w' r, run decode w evs = Ok w' -> nth_error (w_replies w) i = Some r -> over r ->
    learnt i w' = learnt i w /\ exists r', nth_error (w_replies w') i = Some r' /\ over r'.
  Proof.
    induction evs as [|e evs IH]; intros w w' r R N O; cbn [run] in R.
    - injection R as <-. eauto.
    - destruct (step decode w e) as [w1| | |] eqn:S; cbn [bind] in R; try discriminate.
      destruct (step_evolves i w e w1 r S N) as (r1 & l & N1 & L1 & V). destruct (over_evolves _ _ _ _ _ _ _ O V) as [O1 ->].
      rewrite app_nil_r in L1. destruct (IH _ _ _ R N1 O1) as [L2 X]. split; [congruence | exact X].
  Qed.

  (** *** A call before its end *)
  Definition needs (r : reply) (w : world) : Prop :=
    client_lives w /\ channel_lives (r_channel r) w /\
    match r_style r with AsHandle => True | AsCallback x => object_lives x w | _ => engine_lives w end.

  Lemma first_event ce c : ce <> UserAbort -> http2_event new_call ce = Ok c -> exists s, c_signals c = [s] /\ ended c.
  Proof.
    intros N H.
    assert (X : forall err st bd, network_done err st bd new_call = Ok c -> exists s, c_signals c = [s] /\ ended c).
    { intros err st bd E. unfold network_done in E. cbn [new_call c_running c_connected negb] in E.
      destruct (processReply err st bd) as [[code data]| | |]; cbn [bind] in E; try discriminate. injection E as <-.
      destruct (code =? 0); cbn; eexists; split; try reflexivity; unfold ended; auto. }
    destruct ce; cbn [http2_event] in H; eauto. contradiction.
  Qed.

  Definition waiting (r : reply) : Prop := r_call r = new_call /\ (r_handles r = 0%nat \/ r_style r = AsHandle).

  (** Reply [i] waits as long as no network event and no abort comes. *)
  Lemma waiting_evolves i w e w' r r' l : waiting r -> needs r w -> needs r w' -> network_event i e = None -> (r_style r = AsHandle -> e <> Abort i) ->
    step decode w e = Ok w' -> evolves i w e w' r r' l ->
    l = [] /\ waiting r' /\ r_style r' = r_style r /\ r_channel r' = r_channel r /\ r_slots r' = r_slots r.
  Proof.
    intros [C K] (L1 & L2 & L3) (M1 & M2 & M3) Ne Na S V.
    destruct V as [|_ X Nd|b Ee St|t b Ee St|x Ee St|r' Ee A B D F G H|ce c Ne' Cl Hc|Ee Hh Cl|Ee Hh|n Ee Hh].
    - split; [reflexivity|]. split; [split; auto|]. auto.
    - contradiction.
    - subst e. cbn [step] in S. injection S as <-. rewrite St in M3. discriminate M3.
    - subst e. cbn [step] in S. injection S as <-. rewrite St in M3. discriminate M3.
    - subst e. cbn [step] in S. injection S as <-. rewrite St in M3. exfalso. apply M3. now left.
    - subst e. cbn [step] in S. injection S as <-. exfalso. unfold client_lives, client_gone in M1. destruct (w_channel w) as [ch|]; [|discriminate].
      destruct (has ch (w_held w)); discriminate.
    - congruence.
    - destruct K as [K|K]; [lia | now destruct (Na K)].
    - split; [reflexivity|]. split; [split; [exact C|] |cbn; auto]. cbn. destruct K as [K|K]; [lia | auto].
    - split; [reflexivity|]. split; [split; [exact C|] |cbn; auto]. cbn. destruct K as [K|K]; [lia | auto].
  Qed.

  Lemma needs_same r r' w : r_style r' = r_style r -> r_channel r' = r_channel r -> needs r w -> needs r' w.
  Proof. unfold needs. now intros -> ->. Qed.

  Lemma waiting_run i : forall evs w w' r, run decode w evs = Ok w' -> nth_error (w_replies w) i = Some r -> waiting r ->
    throughout decode (needs r) w evs -> silent i evs -> (r_style r = AsHandle -> ~ In (Abort i) evs) ->
    learnt i w' = learnt i w /\ exists r', nth_error (w_replies w') i = Some r' /\ waiting r' /\ r_style r' = r_style r /\
      r_channel r' = r_channel r /\ r_slots r' = r_slots r.
  Proof.
    induction evs as [|e evs IH]; intros w w' r R N W T Si Na; cbn [run] in R.
    - injection R as <-. split; [reflexivity|]. exists r. auto.
    - destruct (step decode w e) as [w1| | |] eqn:S; cbn [bind] in R; try discriminate. destruct T as [T1 T2]. specialize (T2 _ S).
      destruct (step_evolves i w e w1 r S N) as (r1 & l & N1 & L1 & V).
      assert (T3 : needs r w1) by (destruct evs; apply T2).
      destruct (waiting_evolves _ _ _ _ _ _ _ W T1 T3 (Si e (or_introl eq_refl)) (fun X Y => Na X (or_introl Y)) S V)
        as (-> & W1 & E1 & E2 & E3).
      rewrite app_nil_r in L1. destruct (IH _ _ _ R N1 W1) as (L2 & r' & X1 & X2 & X3 & X4 & X5).
      + clear - T2 E1 E2. revert w1 T2. induction evs as [|x evs IH]; intros w1 [A B]; (split; [now apply (needs_same r)|]); [exact Logic.I|].
        intros w2 S2. apply IH. now apply B.
      + intros x I. apply Si. now right.
      + intros X I. rewrite E1 in X. apply (Na X). now right.
      + split; [congruence|]. exists r'. rewrite X3, X4, X5. auto.
  Qed.

  (** The network event ends it. *)
  Lemma end_evolves i w e ce w' r r' l : waiting r -> client_lives w -> network_event i e = Some ce -> step decode w e = Ok w' ->
    evolves i w e w' r r' l -> exists s c, http2_event new_call ce = Ok c /\ c_signals c = [s] /\ ended c /\ r_call r' = c /\
      l = slot_tells decode (w_gone w) r s /\ r_handles r' = (r_handles r + slot_hands r s)%nat /\ r_style r' = r_style r /\
      r_channel r' = r_channel r /\ r_slots r' = r_slots r.
  Proof.
    intros [C K] L Ne S V.
    destruct V as [X|X X' Nd|b Ee St|t b Ee St|x Ee St|r' Ee A B D F G H|ce' c Ne' Cl Hc|Ee Hh Cl|Ee Hh|n Ee Hh]; try (subst e; discriminate Ne); try congruence.
    - destruct X as [X|X]; [congruence|]. unfold client_lives in L. congruence.
    - rewrite Ne in Ne'. injection Ne' as <-. rewrite C in Hc. destruct (first_event _ _ (network_not_abort _ _ _ Ne) Hc) as (s & Es & En).
      exists s, c. unfold tells, after_call, hands. rewrite C, Es. cbn. auto 12.
  Qed.
End Evolution.

Lemma run_app decode a : forall w b, run decode w (a ++ b) = (w' <- run decode w a ;; run decode w' b).
Proof. induction a as [|e a IH]; intros w b; cbn [app run bind]; [reflexivity|]. destruct (step decode w e); cbn [bind]; auto. Qed.

Lemma run_split decode a w b w' : run decode w (a ++ b) = Ok w' -> exists w1, run decode w a = Ok w1 /\ run decode w1 b = Ok w'.
Proof. rewrite run_app. destruct (run decode w a) as [w1| | |]; cbn [bind]; intro H; try discriminate. eauto. Qed.

Lemma throughout_app decode P a : forall w b, throughout decode P w (a ++ b) -> throughout decode P w a /\
  forall w', run decode w a = Ok w' -> throughout decode P w' b.
Proof.
  induction a as [|e a IH]; intros w b T; cbn [app] in T.
  - split; [|intros w' E; injection E as <-; exact T]. split; [destruct b; apply T | exact Logic.I].
  - destruct T as [T1 T2]. split.
    + split; [exact T1|]. intros w' S. exact (proj1 (IH _ _ (T2 _ S))).
    + intros w' R. cbn [run] in R. destruct (step decode w e) as [w1| | |] eqn:S; cbn [bind] in R; try discriminate.
      exact (proj2 (IH _ _ (T2 _ eq_refl)) _ R).
Qed.

Lemma throughout_impl decode (P Q : world -> Prop) : (forall w, P w -> Q w) -> forall evs w, throughout decode P w evs -> throughout decode Q w evs.
Proof. intro I. induction evs as [|e evs IH]; intros w [A B]; split; auto. Qed.

(** ** All histories *)

Definition tame (w : world) : Prop := forall i l, In (i, l) (w_told w) -> (i < length (w_replies w))%nat.

Lemma tame_step decode w e w' : tame w -> step decode w e = Ok w' -> tame w' /\ (length (w_replies w) <= length (w_replies w'))%nat.
Proof.
  intros T H.
  assert (Same : w_told w' = w_told w -> length (w_replies w') = length (w_replies w) -> tame w' /\ (length (w_replies w) <= length (w_replies w'))%nat).
  { intros A B. split; [|lia]. intros i l. rewrite A, B. apply T. }
  assert (Ch : forall i r c, nth_error (w_replies w) i = Some r -> call_changed decode i r c w = Ok w' -> tame w' /\ (length (w_replies w) <= length (w_replies w'))%nat).
  { intros i r c N Hc. destruct (call_changed_spec _ _ _ _ _ _ Hc N) as (_ & _ & _ & _ & _ & Er & Et). unfold tame. rewrite Er, Et, set_reply_length.
    split; [|lia]. intros j l I. apply in_app_or in I as [I|I]; [now apply T in I|]. apply in_map_iff in I as (x & E & _). injection E as <- _.
    apply nth_error_Some. congruence. }
  assert (Net : forall i ce, network decode i ce w = Ok w' -> tame w' /\ (length (w_replies w) <= length (w_replies w'))%nat).
  { intros i ce Hn. unfold network in Hn. destruct (nth_error (w_replies w) i) as [r|] eqn:N; [|injection Hn as <-; now apply Same].
    destruct (w_client w); [|injection Hn as <-; now apply Same].
    destruct (http2_event (r_call r) ce) as [c| | |]; cbn [bind] in Hn; try discriminate. eauto. }
  destruct e as [s v|j err st bd|j|j|j|j|j|j|ch|ch|x| |]; cbn [step] in *; eauto.
  - destruct (w_client w); [|injection H as <-; now apply Same]. unfold start in H.
    destruct ((match s with AsScript _ | AsScriptInto _ _ => true | _ => false end) && negb (v && w_engine w)); [injection H as <-; now apply Same|].
    destruct (w_channel w); [|destruct s; try discriminate; injection H as <-; now apply Same].
    injection H as <-. unfold tame. cbn. rewrite app_length. cbn. split; [|lia]. intros i l I. apply T in I. lia.
  - unfold through in H. destruct (nth_error (w_replies w) j) as [r|] eqn:N; [|injection H as <-; now apply Same].
    destruct (Nat.eqb _ 0); [injection H as <-; now apply Same|]. destruct (w_client w); [|discriminate]. eauto.
  - destruct (nth_error (w_replies w) j) as [r|] eqn:N; [|injection H as <-; now apply Same]. injection H as <-. apply Same; destruct (Nat.eqb _ 0); auto.
    cbn. apply set_reply_length.
  - destruct (nth_error (w_replies w) j) as [r|] eqn:N; [|injection H as <-; now apply Same].
    destruct (r_handles r) as [|n]; [injection H as <-; now apply Same|]. destruct (Nat.eqb n 0 && negb (w_client w)); [discriminate|].
    injection H as <-. apply Same; [reflexivity|]. cbn. apply set_reply_length.
  - unfold through in H. destruct (nth_error (w_replies w) j) as [r|] eqn:N; [|injection H as <-; now apply Same].
    destruct (Nat.eqb _ 0); [injection H as <-; now apply Same|]. destruct (w_client w); [|discriminate].
    destruct (read_object decode _) as [[o errs]| | |]; cbn [bind] in H; try discriminate. injection H as <-. now apply Same.
  - destruct (w_client w); injection H as <-; [|now apply Same]. apply Same; unfold attach; (destruct (w_channel w) as [old|]; [|reflexivity]);
      destruct (has old _); auto. cbn. apply map_length.
  - injection H as <-. apply Same; unfold release_channel; destruct (is_current ch _); auto. cbn. apply map_length.
  - injection H as <-. apply Same; auto. cbn. apply map_length.
  - injection H as <-. apply Same; auto. cbn. apply map_length.
  - injection H as <-. apply Same; unfold client_gone; (destruct (w_channel w) as [ch|]; [destruct (has ch (w_held w))|]); auto; cbn; rewrite ?map_length; auto.
Qed.

Lemma tame_run decode : forall evs w w', tame w -> run decode w evs = Ok w' -> tame w'.
Proof.
  induction evs as [|e evs IH]; intros w w' T R; cbn [run] in R; [injection R as <-; exact T|].
  destruct (step decode w e) as [w1| | |] eqn:S; cbn [bind] in R; try discriminate. apply (IH w1); [|exact R]. now apply (tame_step decode w e).
Qed.

Lemma nothing_learnt w : tame w -> learnt (length (w_replies w)) w = [].
Proof.
  intro T. unfold learnt. unfold tame in T. revert T. generalize (length (w_replies w)). induction (w_told w) as [|[j x] l IH]; intros n T; [reflexivity|]. cbn.
  destruct (Nat.eqb_spec j n) as [->|Ne]; [specialize (T _ _ (or_introl eq_refl)); lia|]. apply IH. intros i y I. apply (T i y). now right.
Qed.

(** What was destroyed stays destroyed. *)
Definition mono (w w' : world) : Prop :=
  (w_client w' = true -> w_client w = true) /\ (w_engine w' = true -> w_engine w = true) /\ incl (w_gone w) (w_gone w').
Lemma step_mono decode w e w' : step decode w e = Ok w' ->
  mono w w'.
Proof.
  intro H.
  assert (Same : w_client w' = w_client w -> w_engine w' = w_engine w -> w_gone w' = w_gone w ->
    mono w w').
  { intros A B C. unfold mono. rewrite A, B, C. split; [auto|]. split; [auto | apply incl_refl]. }
  assert (Ch : forall i r c, nth_error (w_replies w) i = Some r -> call_changed decode i r c w = Ok w' ->
    mono w w').
  { intros i r c N Hc. destruct (call_changed_spec _ _ _ _ _ _ Hc N) as (A & B & _ & _ & D & _). apply Same; auto. }
  assert (Net : forall i ce, network decode i ce w = Ok w' ->
    mono w w').
  { intros i ce Hn. unfold network in Hn. destruct (nth_error (w_replies w) i) as [r|] eqn:N; [|injection Hn as <-; apply Same; auto].
    destruct (w_client w) eqn:C; [|injection Hn as <-; apply Same; auto].
    destruct (http2_event (r_call r) ce) as [c| | |]; cbn [bind] in Hn; try discriminate. eauto. }
  destruct e as [s v|j err st bd|j|j|j|j|j|j|ch|ch|x| |]; cbn [step] in H; eauto.
  - destruct (w_client w) eqn:C; [|injection H as <-; apply Same; auto]. unfold start in H.
    destruct ((match s with AsScript _ | AsScriptInto _ _ => true | _ => false end) && negb (v && w_engine w)); [injection H as <-; apply Same; auto|].
    destruct (w_channel w); [|destruct s; try discriminate; injection H as <-; apply Same; auto].
    injection H as <-. apply Same; auto.
  - unfold through in H. destruct (nth_error (w_replies w) j) as [r|] eqn:N; [|injection H as <-; apply Same; auto].
    destruct (Nat.eqb _ 0); [injection H as <-; apply Same; auto|]. destruct (w_client w) eqn:C; [|discriminate]. eauto.
  - destruct (nth_error (w_replies w) j) as [r|] eqn:N; [|injection H as <-; apply Same; auto]. injection H as <-. destruct (Nat.eqb _ 0); apply Same; auto.
  - destruct (nth_error (w_replies w) j) as [r|] eqn:N; [|injection H as <-; apply Same; auto].
    destruct (r_handles r) as [|n]; [injection H as <-; apply Same; auto|]. destruct (Nat.eqb n 0 && negb (w_client w)); [discriminate|].
    injection H as <-. apply Same; auto.
  - unfold through in H. destruct (nth_error (w_replies w) j) as [r|] eqn:N; [|injection H as <-; apply Same; auto].
    destruct (Nat.eqb _ 0); [injection H as <-; apply Same; auto|]. destruct (w_client w) eqn:C; [|discriminate].
    destruct (read_object decode _) as [[o errs]| | |]; cbn [bind] in H; try discriminate. injection H as <-. apply Same; auto.
  - destruct (w_client w) eqn:C; injection H as <-; [|apply Same; auto].
    apply Same; unfold attach; (destruct (w_channel w) as [old|]; [destruct (has old _)|]); cbn; auto.
  - injection H as <-. apply Same; unfold release_channel; destruct (is_current ch _); auto.
  - injection H as <-. unfold mono. cbn. split; [auto|]. split; [auto|]. now right.
  - injection H as <-. unfold mono. cbn. split; [auto|]. split; [discriminate|]. apply incl_refl.
  - injection H as <-. unfold mono, client_gone. destruct (w_channel w) as [ch|]; [destruct (has ch (w_held w))|]; cbn; (split; [discriminate|]); (split; [auto|]); apply incl_refl.
Qed.

(** A new reply comes from a call. *)
Definition first_reply (s : style) (ch : nat) (slots : bool) : reply :=
  mkReply new_call s ch (match s with AsHandle => 1 | _ => 0 end) slots.
Definition first_slots (s : style) (w : world) : bool :=
  match s with AsHandle => false | AsCallback x => negb (has x (w_gone w)) | _ => true end.

Lemma step_length decode w e w' : step decode w e = Ok w' -> (forall s v, e <> Start s v) -> length (w_replies w') = length (w_replies w).
Proof.
  intros H Ns.
  assert (Ch : forall i r c, nth_error (w_replies w) i = Some r -> call_changed decode i r c w = Ok w' -> length (w_replies w') = length (w_replies w)).
  { intros i r c N Hc. destruct (call_changed_spec _ _ _ _ _ _ Hc N) as (_ & _ & _ & _ & _ & -> & _). apply set_reply_length. }
  assert (Net : forall i ce, network decode i ce w = Ok w' -> length (w_replies w') = length (w_replies w)).
  { intros i ce Hn. unfold network in Hn. destruct (nth_error (w_replies w) i) as [r|] eqn:N; [|injection Hn as <-; reflexivity].
    destruct (w_client w); [|injection Hn as <-; reflexivity].
    destruct (http2_event (r_call r) ce) as [c| | |]; cbn [bind] in Hn; try discriminate. eauto. }
  destruct e as [s v|j err st bd|j|j|j|j|j|j|ch|ch|x| |]; cbn [step] in *; eauto.
  - now destruct (Ns s v).
  - unfold through in H. destruct (nth_error (w_replies w) j) as [r|] eqn:N; [|injection H as <-; reflexivity].
    destruct (Nat.eqb _ 0); [injection H as <-; reflexivity|]. destruct (w_client w) eqn:C; [|discriminate]. eauto.
  - destruct (nth_error (w_replies w) j) as [r|] eqn:N; injection H as <-; [|reflexivity]. destruct (Nat.eqb _ 0); [reflexivity|]. cbn. apply set_reply_length.
  - destruct (nth_error (w_replies w) j) as [r|] eqn:N; [|injection H as <-; reflexivity].
    destruct (r_handles r) as [|n]; [injection H as <-; reflexivity|]. destruct (Nat.eqb n 0 && negb (w_client w)); [discriminate|].
    injection H as <-. cbn. apply set_reply_length.
  - unfold through in H. destruct (nth_error (w_replies w) j) as [r|] eqn:N; [|injection H as <-; reflexivity].
    destruct (Nat.eqb _ 0); [injection H as <-; reflexivity|]. destruct (w_client w) eqn:C; [|discriminate].
    destruct (read_object decode _) as [[o errs]| | |]; cbn [bind] in H; try discriminate. injection H as <-. reflexivity.
  - destruct (w_client w) eqn:C; injection H as <-; [|reflexivity].
    unfold attach; (destruct (w_channel w) as [old|]; [destruct (has old _)|]); cbn; auto. apply map_length.
  - injection H as <-. unfold release_channel; destruct (is_current ch _); auto. cbn. apply map_length.
  - injection H as <-. cbn. apply map_length.
  - injection H as <-. cbn. apply map_length.
  - injection H as <-. unfold client_gone. destruct (w_channel w) as [ch|]; [destruct (has ch (w_held w))|]; cbn; rewrite ?map_length; reflexivity.
Qed.

Lemma start_spec decode w s v w' : step decode w (Start s v) = Ok w' ->
  w_replies w' = w_replies w \/
  exists ch, w_client w = true /\ w_channel w = Some ch /\
    match s with AsScript _ | AsScriptInto _ _ => v = true /\ w_engine w = true | _ => True end /\
    w' = with_replies (w_replies w ++ [first_reply s ch (first_slots s w)]) w.
Proof.
  cbn [step]. intro H. destruct (w_client w) eqn:C; [|injection H as <-; now left]. unfold start in H.
  destruct ((match s with AsScript _ | AsScriptInto _ _ => true | _ => false end) && negb (v && w_engine w)) eqn:X; [injection H as <-; now left|].
  destruct (w_channel w) as [ch|]; [|destruct s; try discriminate; injection H as <-; now left].
  injection H as <-. right. exists ch. repeat split; auto.
  destruct s; auto; cbn in X; destruct v, (w_engine w); cbn in X; try discriminate; auto.
Qed.

Lemma step_new decode w e w' i r : step decode w e = Ok w' -> nth_error (w_replies w') i = Some r -> (length (w_replies w) <= i)%nat ->
  exists s v ch, e = Start s v /\ w_client w = true /\ w_channel w = Some ch /\ i = length (w_replies w) /\ r = first_reply s ch (first_slots s w) /\
    match s with AsScript _ | AsScriptInto _ _ => v = true /\ w_engine w = true | _ => True end /\
    w' = with_replies (w_replies w ++ [r]) w.
Proof.
  intros H N L.
  assert (X : (length (w_replies w) < length (w_replies w'))%nat).
  { enough (i < length (w_replies w'))%nat by lia. apply nth_error_Some. congruence. }
  assert (Y : exists s v, e = Start s v).
  { destruct e; eauto; apply (step_length decode) in H; try lia; discriminate. }
  destruct Y as (s & v & ->). destruct (start_spec _ _ _ _ _ H) as [E|(ch & A & B & D & E)]; [rewrite E in X; lia|].
  assert (I : i = length (w_replies w)).
  { enough (i < length (w_replies w'))%nat by (rewrite E in *; cbn in *; rewrite app_length in *; cbn in *; lia). apply nth_error_Some. congruence. }
  exists s, v, ch. subst i. rewrite E in N. cbn in N. rewrite nth_error_app2, Nat.sub_diag in N by auto. injection N as <-. auto 10.
Qed.

(** ** Phases of a reply, as long as the client exists *)
Definition phase (r : reply) : Prop :=
  (r_call r = new_call \/ r_call r = stop new_call) \/ (ended (r_call r) /\ c_signals (r_call r) <> []).
Definition good (w : world) (r : reply) : Prop :=
  phase r /\
  match r_style r with
  | AsHandle => r_slots r = false
  | AsCallback x => object_lives x w -> r_slots r = true
  | AsScript _ | AsScriptInto _ _ => r_handles r = 0%nat /\ (engine_lives w -> r_slots r = true)
  end.

Lemma after_call_phase r c : (exists s, c_signals c = c_signals (r_call r) ++ [s]) -> ended c -> phase (after_call r c).
Proof. intros (s & E) En. right. cbn. split; [exact En|]. rewrite E. now destruct (c_signals (r_call r)). Qed.

Lemma good_evolves decode i w e w' r r' l : w_client w' = true -> step decode w e = Ok w' -> good w r -> evolves decode i w e w' r r' l -> good w' r'.
Proof.
  intros C S [P K] V. destruct (step_mono _ _ _ _ S) as (M1 & M2 & M3).
  assert (K' : match r_style r with
    | AsHandle => r_slots r = false
    | AsCallback x => object_lives x w' -> r_slots r = true
    | AsScript _ | AsScriptInto _ _ => r_handles r = 0%nat /\ (engine_lives w' -> r_slots r = true)
    end).
  { destruct (r_style r); auto.
    - intro O. apply K. intro I. apply O. now apply M3.
    - destruct K as [K1 K2]. split; [exact K1|]. intro E. apply K2, M2, E.
    - destruct K as [K1 K2]. split; [exact K1|]. intro E. apply K2, M2, E. }
  unfold good. destruct V as [|_ X Nd|b Ee St|t b Ee St|x Ee St|r' Ee A B D F G H I|ce c Ne Cl Hc|Ee Hh Cl|Ee Hh|n Ee Hh].
  - auto.
  - split; [|exact K']. destruct P as [[P|P]|[(E1 & E2 & E3) P]]; cbn.
    + left. right. cbn. now rewrite P. + left. right. cbn. now rewrite P. + right. unfold ended. cbn. auto.
  - split; [exact P|]. subst e. cbn [step] in S. injection S as <-. cbn [without_slots r_style r_handles r_slots]. rewrite St in *.
    split; [apply K|]. discriminate.
  - split; [exact P|]. subst e. cbn [step] in S. injection S as <-. cbn [without_slots r_style r_handles r_slots]. rewrite St in *.
    split; [apply K|]. discriminate.
  - split; [exact P|]. subst e. cbn [step] in S. injection S as <-. cbn [without_slots r_style r_slots]. rewrite St in *. intro O. exfalso. apply O. now left.
  - subst e. cbn [step] in S. injection S as <-. exfalso. unfold client_gone in C. destruct (w_channel w) as [ch|]; [|discriminate].
    destruct (has ch (w_held w)); discriminate.
  - pose proof (network_not_abort _ _ _ Ne) as Nab. split.
    + destruct P as [[P|P]|[En P]].
      * rewrite P in Hc. destruct (first_event _ _ Nab Hc) as (s & Es & En). apply after_call_phase; [|exact En]. exists s. now rewrite P.
      * assert (c = stop new_call).
        { rewrite P in Hc. destruct ce; cbn in Hc; try (injection Hc as <-; reflexivity). contradiction. }
        left. right. exact H.
      * destruct (ended_event _ _ _ En Nab Hc) as [En' Es]. right. cbn. rewrite Es. auto.
    + cbn [after_call r_style r_slots r_handles]. destruct (r_style r) eqn:St; auto.
      all: destruct K' as [K1 K2]; split; [|exact K2]; unfold hands, slot_hands; rewrite St, K1; now destruct (skipn _ _).
  - split.
    + destruct P as [[P|P]|[En P]].
      * apply after_call_phase; rewrite P; [exists (Error 10); reflexivity | repeat split].
      * apply after_call_phase; rewrite P; [exists (Error 10); reflexivity | repeat split].
      * destruct (ended_abort _ En) as [En' Es]. apply after_call_phase; [exists (Error 10); exact Es | exact En'].
    + cbn [after_call r_style r_slots r_handles]. destruct (r_style r) eqn:St; auto; destruct K' as [K1 K2]; lia.
  - split; [exact P|]. cbn. destruct (r_style r); auto; destruct K' as [K1 K2]; lia.
  - split; [exact P|]. cbn. destruct (r_style r); auto; destruct K' as [K1 K2]; lia.
Qed.

Definition all_good (w : world) : Prop := w_client w = true -> forall i r, nth_error (w_replies w) i = Some r -> good w r.

Lemma good_step decode w e w' : all_good w -> step decode w e = Ok w' -> all_good w'.
Proof.
  intros G S C i r' N'. destruct (step_mono _ _ _ _ S) as (M1 & M2 & M3). specialize (G (M1 C)).
  destruct (Nat.lt_ge_cases i (length (w_replies w))) as [L|L].
  - destruct (nth_error (w_replies w) i) as [r|] eqn:N; [|now apply nth_error_None in N; lia].
    destruct (step_evolves decode i w e w' r S N) as (r1 & l & N1 & _ & V). rewrite N' in N1. injection N1 as <-.
    eapply good_evolves; eauto.
  - destruct (step_new _ _ _ _ _ _ S N' L) as (s & v & ch & -> & _ & _ & _ & Er & _ & Ew). assert (Wg : w_gone w' = w_gone w) by now rewrite Ew.
    rewrite Er. split; [left; left; reflexivity|].
    destruct s; cbn; auto. unfold object_lives. rewrite Wg. intro O. destruct (has context (w_gone w)) eqn:H; [|reflexivity]. apply has_spec in H. contradiction.
Qed.

Lemma good_run decode : forall evs w w', all_good w -> run decode w evs = Ok w' -> all_good w'.
Proof.
  induction evs as [|e evs IH]; intros w w' G R; cbn [run] in R; [injection R as <-; exact G|].
  destruct (step decode w e) as [w1| | |] eqn:S; cbn [bind] in R; try discriminate. eapply IH; [|exact R]. eapply good_step; eauto.
Qed.

Lemma good_new : all_good new_world.
Proof. intros _ [|i] r N; discriminate. Qed.

(** ** Running network operations have a channel *)
Definition served (w : world) : Prop := forall i r, nth_error (w_replies w) i = Some r -> c_running (r_call r) = true -> channel_lives (r_channel r) w.

Lemma not_running c ce c' : http2_event c ce = Ok c' -> c_running c' = true -> c_running c = true.
Proof.
  intros H R.
  assert (X : forall err st bd, network_done err st bd c = Ok c' -> c_running c = true).
  { intros err st bd E. unfold network_done in E. destruct (c_running c) eqn:Rc; [reflexivity|]. cbn in E. injection E as <-. congruence. }
  destruct ce; cbn [http2_event] in H; eauto. injection H as <-. exact R.
Qed.

Lemma served_step decode w e w' : served w -> step decode w e = Ok w' -> served w'.
Proof.
  intros G H.
  assert (Same : w_client w' = w_client w -> w_channel w' = w_channel w -> w_held w' = w_held w ->
     (forall i r', nth_error (w_replies w') i = Some r' -> c_running (r_call r') = true ->
        exists r, nth_error (w_replies w) i = Some r /\ r_channel r' = r_channel r /\ c_running (r_call r) = true) -> served w').
  { intros A B C D i r' N R. destruct (D i r' N R) as (r & N0 & -> & R0). specialize (G i r N0 R0). unfold channel_lives in *. rewrite A, B, C. exact G. }
  assert (Id : forall i r', nth_error (w_replies w) i = Some r' -> c_running (r_call r') = true ->
        exists r, nth_error (w_replies w) i = Some r /\ r_channel r' = r_channel r /\ c_running (r_call r) = true) by eauto.
  assert (Upd : forall j x, nth_error (w_replies w) j = Some x -> forall x', r_channel x' = r_channel x -> (c_running (r_call x') = true -> c_running (r_call x) = true) ->
     forall i r', nth_error (set_reply j x' (w_replies w)) i = Some r' -> c_running (r_call r') = true ->
        exists r, nth_error (w_replies w) i = Some r /\ r_channel r' = r_channel r /\ c_running (r_call r) = true).
  { intros j x N x' E1 E2 i r' Ni R. destruct (Nat.eq_dec j i) as [->|Ne].
    - rewrite set_reply_same in Ni by (apply nth_error_Some; congruence). injection Ni as <-. exists x. auto.
    - rewrite set_reply_other in Ni by auto. eauto. }
  assert (Ch : forall i r c, nth_error (w_replies w) i = Some r -> call_changed decode i r c w = Ok w' ->
     (c_running c = true -> c_running (r_call r) = true) -> served w').
  { intros i r c N Hc Rc. destruct (call_changed_spec _ _ _ _ _ _ Hc N) as (A & _ & B & C & _ & Er & _). apply Same; auto. rewrite Er.
    now apply (Upd i r N (after_call r c)). }
  assert (Net : forall i ce, network decode i ce w = Ok w' -> served w').
  { intros i ce Hn. unfold network in Hn. destruct (nth_error (w_replies w) i) as [r|] eqn:N; [|injection Hn as <-; exact G].
    destruct (w_client w) eqn:C; [|injection Hn as <-; exact G].
    destruct (http2_event (r_call r) ce) as [c| | |] eqn:Hc; cbn [bind] in Hn; try discriminate. apply (Ch i r c N Hn). eapply not_running; eauto. }
  assert (Lost : forall ch w1 i r', nth_error (w_replies (channel_gone ch w1)) i = Some r' -> c_running (r_call r') = true ->
            nth_error (w_replies w1) i = Some r' /\ r_channel r' <> ch).
  { intros ch w1 i r' N R. unfold channel_gone in N. cbn in N. rewrite nth_error_map in N. destruct (nth_error (w_replies w1) i) as [r|]; [|discriminate].
    cbn in N. destruct (Nat.eqb_spec (r_channel r) ch) as [E|E]; injection N as <-; [discriminate R | auto]. }
  destruct e as [s v|j err st bd|j|j|j|j|j|j|ch|ch|x| |]; cbn [step] in *; eauto.
  - destruct (start_spec decode w s v w' H) as [E|(ch & A & B & _ & ->)].
    + destruct (w_client w) eqn:C; [|injection H as <-; exact G]. unfold start in H.
      destruct ((match s with AsScript _ | AsScriptInto _ _ => true | _ => false end) && negb (v && w_engine w)); [injection H as <-; exact G|].
      destruct (w_channel w); [injection H as <-|destruct s; try discriminate; injection H as <-; exact G].
      exfalso. apply (f_equal (@length _)) in E. cbn in E. rewrite app_length in E. cbn in E. lia.
    + intros i r N R. cbn in N. destruct (Nat.lt_ge_cases i (length (w_replies w))) as [L|L].
      * rewrite nth_error_app1 in N by auto. exact (G i r N R).
      * rewrite nth_error_app2 in N by auto. destruct (i - length (w_replies w))%nat as [|n]; cbn in N; [|destruct n; discriminate]. injection N as <-.
        left. cbn. auto.
  - unfold through in H. destruct (nth_error (w_replies w) j) as [r|] eqn:N; [|injection H as <-; exact G].
    destruct (Nat.eqb _ 0); [injection H as <-; exact G|]. destruct (w_client w) eqn:C; [|discriminate]. apply (Ch j r _ N H). auto.
  - destruct (nth_error (w_replies w) j) as [r|] eqn:N; [|injection H as <-; exact G]. injection H as <-. destruct (Nat.eqb _ 0); [exact G|].
    apply Same; auto. cbn. now apply (Upd j r N).
  - destruct (nth_error (w_replies w) j) as [r|] eqn:N; [|injection H as <-; exact G].
    destruct (r_handles r) as [|n]; [injection H as <-; exact G|]. destruct (Nat.eqb n 0 && negb (w_client w)); [discriminate|].
    injection H as <-. apply Same; auto. cbn. now apply (Upd j r N).
  - unfold through in H. destruct (nth_error (w_replies w) j) as [r|] eqn:N; [|injection H as <-; exact G].
    destruct (Nat.eqb _ 0); [injection H as <-; exact G|]. destruct (w_client w) eqn:C; [|discriminate].
    destruct (read_object decode _) as [[o errs]| | |]; cbn [bind] in H; try discriminate. injection H as <-. apply Same; auto.
  - destruct (w_client w) eqn:C; injection H as <-; [|exact G]. unfold attach. destruct (w_channel w) as [old|] eqn:Wc.
    + cbn [w_held]. destruct (has old (ch :: w_held w)) eqn:Ho.
      * intros i r N R. cbn in N. destruct (G i r N R) as [[_ X]|X]; [|right; now right]. rewrite Wc in X. injection X as <-. right. now apply has_spec.
      * intros i r N R. destruct (Lost _ _ _ _ N R) as [N1 Ne]. cbn in N1. destruct (G i r N1 R) as [[_ X]|X]; [congruence | right; now right].
    + intros i r N R. destruct (G i r N R) as [[_ X]|X]; [congruence | right; now right].
  - injection H as <-. unfold release_channel. destruct (is_current ch _) eqn:Cu.
    + intros i r N R. destruct (G i r N R) as [X|X]; [now left|]. destruct (Nat.eq_dec (r_channel r) ch) as [E|E].
      * left. unfold is_current in Cu. cbn in *. destruct (w_channel w) as [x|]; [|discriminate]. apply andb_true_iff in Cu as [C1 C2]. apply Nat.eqb_eq in C2. subst x. auto.
      * right. cbn. apply filter_In. split; [exact X|]. apply negb_true_iff. now apply Nat.eqb_neq.
    + intros i r N R. destruct (Lost _ _ _ _ N R) as [N1 Ne]. cbn in N1. destruct (G i r N1 R) as [X|X]; [now left|].
      right. cbn. apply filter_In. split; [exact X|]. apply negb_true_iff. now apply Nat.eqb_neq.
  - injection H as <-. apply Same; auto. intros i r' N R. cbn in N. rewrite nth_error_map in N. destruct (nth_error (w_replies w) i) as [r|]; [|discriminate].
    cbn in N. exists r. split; [reflexivity|]. destruct (r_style r) as [|y|b|t b]; [| destruct (Nat.eqb y x) | |]; injection N as <-; auto.
  - injection H as <-. apply Same; auto. intros i r' N R. cbn in N. rewrite nth_error_map in N. destruct (nth_error (w_replies w) i) as [r|]; [|discriminate].
    cbn in N. exists r. split; [reflexivity|]. destruct (r_style r); injection N as <-; auto.
  - injection H as <-. unfold client_gone. set (f := fun r : reply => _).
    assert (X : forall i r', nth_error (map f (w_replies w)) i = Some r' -> c_running (r_call r') = true ->
               (w_client w = true /\ w_channel w = Some (r_channel r')) \/ In (r_channel r') (w_held w)).
    { intros i r' N R. rewrite nth_error_map in N. destruct (nth_error (w_replies w) i) as [r|] eqn:N1; [|discriminate]. cbn in N. injection N as <-.
      exact (G i r N1 R). }
    destruct (w_channel w) as [ch|] eqn:Wc.
    + destruct (has ch (w_held w)) eqn:Hc.
      * intros i r' N R. right. destruct (X i r' N R) as [[_ E]|E]; [|exact E]. injection E as <-. now apply has_spec.
      * intros i r' N R. destruct (Lost _ _ _ _ N R) as [N1 Ne]. right. destruct (X i r' N1 R) as [[_ E]|E]; [congruence | exact E].
    + intros i r' N R. right. destruct (X i r' N R) as [[_ E]|E]; [discriminate | exact E].
Qed.

Lemma served_run decode : forall evs w w', served w -> run decode w evs = Ok w' -> served w'.
Proof.
  induction evs as [|e evs IH]; intros w w' G R; cbn [run] in R; [injection R as <-; exact G|].
  destruct (step decode w e) as [w1| | |] eqn:S; cbn [bind] in R; try discriminate. eapply IH; [|exact R]. eapply served_step; eauto.
Qed.
Lemma served_new : served new_world.
Proof. intros [|i] r N; discriminate. Qed.

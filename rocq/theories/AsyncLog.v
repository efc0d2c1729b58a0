(** What is reported when handlers, slots and other threads use a reply or stream. *)

From Coq Require Import ZArith List Bool Arith Lia.
From Verif Require Import Base AsyncModel AsyncSpec AsyncProofs.
Import ListNotations.
Local Close Scope Z_scope.

(** Messages whose handlers are being called. *)
Definition inhand (l : list frame) : list data := flat_map (fun f => match f with Handling _ _ d => [d] | _ => [] end) l.

Lemma flat_map_snoc {A B} (f : A -> list B) l m : flat_map f (l ++ m) = flat_map f l ++ flat_map f m.
Proof. apply flat_map_app. Qed.
Lemma firstn_next {A} (l : list A) n k : nth_error l n = Some k -> firstn (S n) l = firstn n l ++ [k].
Proof.
  revert n; induction l as [|x l IH]; intros [|n] E; try discriminate; cbn in *; [now injection E as <-|]. now rewrite (IH n E).
Qed.
Lemma held_in l : In Decoding l \/ In Failing l -> 1 <= held l.
Proof.
  induction l as [|f l IH]; [intros [[]|[]]|]. cbn. intros [[->|I]|[->|I]]; cbn; try lia; assert (1 <= held l) by tauto; lia.
Qed.

Section Operation.
  Context (home : nat) (stream : bool) (decode : data -> bool) (listens : nat -> bool) (hs : list nat).
  Notation step := (step home stream decode listens).
  Notation turn := (turn home listens).
  Notation good := (good home).

  (** The handlers of a message have been called up to the [n]th. *)
  Definition opened (l : list report) (n last : nat) (d : data) : Prop :=
    exists a b, l = a ++ Sets d :: b /\ nothing_set b /\
      called b = map (fun k => (k, d)) (firstn n (hs ++ added a)) /\ last = length (hs ++ added a) /\ n <= last.
  (** A thread deserializes since it began to read. *)
  Definition reading (l : list report) (t : nat) : Prop :=
    exists a b, l = a ++ ReadBegins t :: b /\ nothing_set b /\ nothing_read b.
  (** What is to be said about a report. *)
  Definition fine (l : list report) (r : report) : Prop :=
    match r with
    | GotRead t d ok => d = latest l /\ ok = decode d /\ reading l t
    | Handled k d => stream = true -> exists a b pre post, l = a ++ Sets d :: b /\ nothing_set b /\
        hs ++ added a = pre ++ k :: post /\ called b = map (fun k => (k, d)) pre /\ nothing_added b
    | Received d => stream = true -> exists a b, l = a ++ Sets d :: b /\ nothing_set b /\
        called b = map (fun k => (k, d)) (hs ++ added a) /\ nothing_added b
    | _ => True
    end.

  Record Log (h : list data) (s : state) : Prop := {
    l_latest : latest (a_log s) = a_data s;
    l_handlers : a_handlers s = hs ++ added (a_log s);
    l_fine : forall l r m, a_log s = l ++ r :: m -> fine l r;
    l_reading : forall t, In Decoding (a_stacks s t) -> reading (a_log s) t;
    l_open : stream = true -> forall n last d, In (Handling n last d) (a_stacks s home) -> opened (a_log s) n last d;
    l_all : stream = true -> sets (a_log s) = received (a_log s) ++ h;
    l_notes : forall t, t <> home -> listens t = true -> received (a_log s) = noticed t (a_log s) ++ a_notes s t
  }.
  Definition logged (s : state) : Prop := Log (inhand (a_stacks s home)) s.

  (** One more report. *)
  Lemma fine_snoc l r (F : forall a x m, l = a ++ x :: m -> fine a x) : fine l r -> forall a x m, l ++ [r] = a ++ x :: m -> fine a x.
  Proof.
    intros X a x m E. destruct m as [|y m] using rev_ind.
    - apply app_inj_tail in E. now destruct E as [<- <-].
    - clear IHm. rewrite app_comm_cons, app_assoc in E. apply app_inj_tail in E. destruct E as [E _]. now apply (F a x m).
  Qed.
  Lemma reading_snoc l t r : reading l t -> (forall d, r <> Sets d) -> (forall u, r <> ReadBegins u) -> (forall u d ok, r <> GotRead u d ok) ->
    reading (l ++ [r]) t.
  Proof.
    intros (a & b & -> & S & R) A B C. exists a, (b ++ [r]). split; [now rewrite <- app_assoc|]. split.
    - intros d I. apply in_app_or in I. destruct I as [I|[I|[]]]; [now apply (S d)|now apply (A d)].
    - intros u d ok. split; intros I; apply in_app_or in I; destruct I as [I|[I|[]]]; try (now apply (R u d ok) in I); [now apply (B u)|now apply (C u d ok)].
  Qed.
  Lemma opened_snoc l n last d r : opened l n last d -> (forall d, r <> Sets d) -> (forall k d, r <> Handled k d) -> opened (l ++ [r]) n last d.
  Proof.
    intros (a & b & -> & S & C & L & N) A B. exists a, (b ++ [r]). split; [now rewrite <- app_assoc|]. split; [|split; [|split; auto]].
    - intros e I. apply in_app_or in I. destruct I as [I|[I|[]]]; [now apply (S e)|now apply (A e)].
    - unfold called. rewrite flat_map_app. fold (called b). rewrite C. destruct r; cbn; rewrite ?app_nil_r; auto. now destruct (B k d0).
  Qed.

  (** Frames that are not spoken of do not matter. *)
  Lemma log_frames h s s' : Log h s -> a_data s' = a_data s -> a_handlers s' = a_handlers s -> a_notes s' = a_notes s -> a_log s' = a_log s ->
    (forall t, In Decoding (a_stacks s' t) -> In Decoding (a_stacks s t)) ->
    (forall n last d, In (Handling n last d) (a_stacks s' home) -> In (Handling n last d) (a_stacks s home)) -> Log h s'.
  Proof.
    intros [A B C D E F G] E1 E2 E3 E4 X Y. constructor; rewrite ?E1, ?E2, ?E3, ?E4; auto.
  Qed.
  Lemma log_tell h s r : Log h s ->
    match r with Ended | ReadBegins _ => True | _ => False end -> (forall t, In Decoding (a_stacks s t) -> r = ReadBegins t \/ r = Ended) -> Log h (tell [r] s).
  Proof.
    intros [A B C D E F G] R X.
    assert (NS : forall d, r <> Sets d) by (intros d ->; destruct R).
    assert (NG : forall u d ok, r <> GotRead u d ok) by (intros u d ok ->; destruct R).
    assert (NH : forall k d, r <> Handled k d) by (intros k d ->; destruct R).
    constructor; cbn -[opened reading].
    - unfold latest in *. rewrite latest_from_app, A. destruct r; try destruct R; reflexivity.
    - unfold added. rewrite flat_map_app. rewrite B. unfold added. destruct r; try destruct R; cbn; now rewrite app_nil_r.
    - apply fine_snoc; auto. destruct r; try destruct R; exact Logic.I.
    - intros t I. destruct (X t I) as [->| ->].
      + exists (a_log s), []. split; auto. split; [intros d []|intros u d ok; split; intros []].
      + apply reading_snoc; auto; discriminate.
    - intros S n last d I. apply opened_snoc; auto.
    - intros S. unfold sets, received. rewrite !flat_map_app. unfold sets, received in F. rewrite F by auto.
      destruct r; try destruct R; cbn; now rewrite !app_nil_r.
    - intros t N L. unfold received, noticed. rewrite !flat_map_app. unfold received, noticed in G. rewrite (G t N L).
      destruct r; try destruct R; cbn; now rewrite !app_nil_r.
  Qed.
  Lemma log_begin h s t : Log h s -> (forall u, ~ In Decoding (a_stacks s u)) ->
    Log h (tell [ReadBegins t] (push t Decoding (with_lock (Some t) s))).
  Proof.
    intros V X. pose proof V as [A B C D E F G]. constructor; cbn -[opened reading put].
    - unfold latest in *. rewrite latest_from_app, A. reflexivity.
    - unfold added. rewrite flat_map_app. rewrite B. unfold added. cbn. now rewrite app_nil_r.
    - apply fine_snoc; auto. exact Logic.I.
    - intros u I. destruct (Nat.eq_dec u t) as [->|N]; [|rewrite put_other in I by auto; destruct (X u I)].
      exists (a_log s), []. split; auto. split; [intros d []|intros u d ok; split; intros []].
    - intros S n last d I. apply opened_snoc; auto; try discriminate. apply E; auto.
      destruct (Nat.eq_dec home t) as [->|N]; [rewrite put_same in I|rewrite put_other in I by auto; auto]. now destruct I as [I|I].
    - intros S. unfold sets, received. rewrite !flat_map_app. unfold sets, received in F. rewrite F by auto. cbn; now rewrite !app_nil_r.
    - intros u N L. unfold received, noticed. rewrite !flat_map_app. unfold received, noticed in G. rewrite (G u N L). cbn; now rewrite !app_nil_r.
  Qed.
  Lemma log_got h s s' t : Log h s -> In Decoding (a_stacks s t) -> a_data s' = a_data s -> a_handlers s' = a_handlers s -> a_notes s' = a_notes s ->
    a_log s' = a_log s ++ [GotRead t (a_data s) (decode (a_data s))] -> (forall u, ~ In Decoding (a_stacks s' u)) ->
    (forall n last d, In (Handling n last d) (a_stacks s' home) -> In (Handling n last d) (a_stacks s home)) -> Log h s'.
  Proof.
    intros [A B C D E F G] I E1 E2 E3 E4 X Y. constructor; rewrite ?E1, ?E2, ?E3, ?E4.
    - unfold latest in *. rewrite latest_from_app, A. reflexivity.
    - unfold added. rewrite flat_map_app. rewrite B. unfold added. cbn. now rewrite app_nil_r.
    - apply fine_snoc; auto. cbn -[reading]. repeat apply conj; auto.
    - intros u Z. destruct (X u Z).
    - intros S n last d Z. apply opened_snoc; auto; discriminate.
    - intros S. unfold sets, received. rewrite !flat_map_app. unfold sets, received in F. rewrite F by auto. cbn; now rewrite !app_nil_r.
    - intros u N L. unfold received, noticed. rewrite !flat_map_app. unfold received, noticed in G. rewrite (G u N L). cbn; now rewrite !app_nil_r.
  Qed.
  Lemma log_set h s d : Log h s -> (forall u, ~ In Decoding (a_stacks s u)) -> (stream = true -> forall n last d, ~ In (Handling n last d) (a_stacks s home)) ->
    Log (h ++ [d]) (set_data d s).
  Proof.
    intros [A B C D E F G] X Y. constructor; cbn -[opened reading].
    - unfold latest in *. rewrite latest_from_app, A. reflexivity.
    - unfold added. rewrite flat_map_app. rewrite B. unfold added. cbn. now rewrite app_nil_r.
    - apply fine_snoc; auto. exact Logic.I.
    - intros u I. destruct (X u I).
    - intros S n last e I. now apply Y in I.
    - intros S. unfold sets, received. rewrite !flat_map_app. unfold sets, received in F. rewrite F by auto. cbn. now rewrite app_nil_r, app_assoc.
    - intros u N L. unfold received, noticed. rewrite !flat_map_app. unfold received, noticed in G. rewrite (G u N L). cbn; now rewrite !app_nil_r.
  Qed.
  Lemma log_subscribe h s k : Log h s -> Log h (tell [Subscribed k] (with_handlers (a_handlers s ++ [k]) s)).
  Proof.
    intros [A B C D E F G]. constructor; cbn -[opened reading].
    - unfold latest in *. rewrite latest_from_app, A. reflexivity.
    - unfold added. rewrite flat_map_app. rewrite B. unfold added. cbn. now rewrite app_assoc.
    - apply fine_snoc; auto. exact Logic.I.
    - intros u I. apply reading_snoc; auto; discriminate.
    - intros S n last e I. apply opened_snoc; auto; discriminate.
    - intros S. unfold sets, received. rewrite !flat_map_app. unfold sets, received in F. rewrite F by auto. cbn. now rewrite !app_nil_r.
    - intros u N L. unfold received, noticed. rewrite !flat_map_app. unfold received, noticed in G. rewrite (G u N L). cbn; now rewrite !app_nil_r.
  Qed.
  Lemma log_take h s t d q : Log h s -> a_notes s t = d :: q -> a_stacks s t = [] ->
    Log h (tell [Noticed t d] (push t (Slot d) (with_notes (put (a_notes s) t q) s))).
  Proof.
    intros [A B C D E F G] NT ST. constructor; cbn -[opened reading put].
    - unfold latest in *. rewrite latest_from_app, A. reflexivity.
    - unfold added. rewrite flat_map_app. rewrite B. unfold added. cbn. now rewrite app_nil_r.
    - apply fine_snoc; auto. exact Logic.I.
    - intros u I. apply reading_snoc; auto; try discriminate. apply D. destruct (Nat.eq_dec u t) as [->|N].
      + rewrite put_same in I. now destruct I as [I|I].
      + now rewrite put_other in I.
    - intros S n last e I. apply opened_snoc; auto; try discriminate. apply E; auto. destruct (Nat.eq_dec home t) as [->|N].
      + rewrite put_same in I. now destruct I as [I|I].
      + now rewrite put_other in I.
    - intros S. unfold sets, received. rewrite !flat_map_app. unfold sets, received in F. rewrite F by auto. cbn. now rewrite !app_nil_r.
    - intros u N L. unfold received, noticed. rewrite !flat_map_app. unfold received, noticed in G. rewrite (G u N L). cbn -[put].
      rewrite app_nil_r. destruct (Nat.eqb_spec t u) as [->|Z].
      + rewrite put_same, NT, <- app_assoc. reflexivity.
      + rewrite put_other by auto. now rewrite app_nil_r.
  Qed.
  Lemma log_turn s n last d s' : Log [d] s -> a_stacks s home = [] -> (stream = true -> opened (a_log s) n last d) -> turn n last d s = Ok s' -> logged s'.
  Proof.
    intros V ST OP. unfold AsyncModel.turn. destruct (Nat.eqb_spec (length (a_handlers s)) last) as [L|]; [|discriminate].
    pose proof V as [A B C D E F G].
    assert (DEC : forall f u, f <> Decoding -> In Decoding (put (a_stacks s) home (f :: a_stacks s home) u) -> In Decoding (a_stacks s u)).
    { intros f u NF I. destruct (Nat.eq_dec u home) as [->|N]; [rewrite put_same in I; destruct I; [contradiction|auto]|now rewrite put_other in I]. }
    destruct (nth_error (a_handlers s) n) as [k|] eqn:K; intros Q; injection Q as <-.
    - unfold logged. constructor; cbn -[opened reading put fine]; try rewrite put_same.
      + unfold latest in *. rewrite latest_from_app, A. reflexivity.
      + unfold added. rewrite flat_map_app. rewrite B. unfold added. cbn. now rewrite app_nil_r.
      + apply fine_snoc; auto. intros S. destruct (OP S) as (a & b & Q & NS & CA & LA & NL). rewrite Q in B.
        assert (AB : added b = []).
        { apply (f_equal (@length nat)) in B. rewrite L, LA in B. unfold added in B |- *. rewrite flat_map_app in B. cbn in B. rewrite !app_length in B.
          destruct (flat_map _ b); auto. cbn in B. lia. }
        assert (HH : a_handlers s = hs ++ added a).
        { rewrite B. unfold added in AB |- *. rewrite flat_map_app. cbn. now rewrite AB, app_nil_r. }
        apply nth_error_split in K. destruct K as (pre & post & K & LP). exists a, b, pre, post. rewrite HH in K.
        repeat apply conj; auto.
        * rewrite CA, K, firstn_app, <- LP, Nat.sub_diag, firstn_all. cbn. now rewrite app_nil_r.
        * intros x I. assert (Z : In x (added b)) by (unfold added; apply in_flat_map; exists (Subscribed x); split; auto; now left). now rewrite AB in Z.
      + intros u I. apply reading_snoc; try discriminate. apply D. now apply DEC in I.
      + intros S n' last' e I. destruct I as [I|I]; [|now rewrite ST in I]. injection I as <- <- <-.
        destruct (OP S) as (a & b & Q & NS & CA & LA & NL). exists a, (b ++ [Handled k d]).
        rewrite Q in B.
        assert (HH : nth_error (hs ++ added a) n = Some k).
        { replace (hs ++ added a) with (a_handlers s); auto. rewrite B. unfold added. rewrite flat_map_app. cbn.
          apply (f_equal (@length nat)) in B. rewrite L, LA in B. unfold added in B. rewrite flat_map_app in B. cbn in B. rewrite !app_length in B.
          destruct (flat_map _ b); [now rewrite app_nil_r|]. cbn in B. lia. }
        repeat apply conj; auto.
        * rewrite Q, <- app_assoc. reflexivity.
        * intros e I. apply in_app_or in I. destruct I as [I|[I|[]]]; [now apply (NS e)|discriminate].
        * unfold called in *. rewrite flat_map_app, CA, (firstn_next _ _ _ HH), map_app. reflexivity.
        * assert (n < length (hs ++ added a)) by (apply nth_error_Some; congruence). lia.
      + intros S. unfold sets, received. rewrite !flat_map_app. unfold sets, received in F. rewrite F by auto. cbn. rewrite ST. cbn. now rewrite !app_nil_r.
      + intros u N LI. unfold received, noticed. rewrite !flat_map_app. unfold received, noticed in G. rewrite (G u N LI). cbn. now rewrite !app_nil_r.
    - unfold logged. constructor; cbn -[opened reading put fine]; try rewrite put_same.
      + unfold latest in *. rewrite latest_from_app, A. reflexivity.
      + unfold added. rewrite flat_map_app. rewrite B. unfold added. cbn. now rewrite app_nil_r.
      + apply fine_snoc; auto. intros S. destruct (OP S) as (a & b & Q & NS & CA & LA & NL). rewrite Q in B.
        assert (AB : added b = []).
        { apply (f_equal (@length nat)) in B. rewrite L, LA in B. unfold added in B |- *. rewrite flat_map_app in B. cbn in B. rewrite !app_length in B.
          destruct (flat_map _ b); auto. cbn in B. lia. }
        apply nth_error_None in K. exists a, b. repeat apply conj; auto.
        * rewrite CA. rewrite firstn_all2; auto. rewrite <- LA, <- L. exact K.
        * intros x I. assert (Z : In x (added b)) by (unfold added; apply in_flat_map; exists (Subscribed x); split; auto; now left). now rewrite AB in Z.
      + intros u I. apply reading_snoc; try discriminate. apply D. now apply DEC in I.
      + intros S n' last' e I. destruct I as [I|I]; [discriminate|now rewrite ST in I].
      + intros S. unfold sets, received. rewrite !flat_map_app. unfold sets, received in F. rewrite F by auto. cbn. rewrite ST. cbn. now rewrite !app_nil_r.
      + intros u N LI. unfold received, noticed. rewrite !flat_map_app. unfold received, noticed in G. rewrite (G u N LI). cbn.
        apply Nat.eqb_neq in N. rewrite LI, N. cbn. now rewrite app_nil_r, app_assoc.
  Qed.

  Lemma free_decoding s : good s -> a_lock s = None -> forall u, ~ In Decoding (a_stacks s u).
  Proof.
    intros V L u I. pose proof (v_hold _ _ _ _ V u) as H. rewrite L in H. cbn in H. pose proof (held_in (a_stacks s u) (or_introl I)). lia.
  Qed.
  Lemma bottom_inhand s f r : good s -> a_stacks s home = f :: r -> outermost f -> r = [].
  Proof. intros V E O. now apply (v_bottom _ _ _ _ V [] f r). Qed.

  Lemma log_push h s t f : Log h s -> f <> Decoding -> (forall n last d, f <> Handling n last d) -> Log h (push t f s).
  Proof.
    intros V N1 N2. apply (log_frames h s); auto; cbn -[put].
    - intros u I. destruct (Nat.eq_dec u t) as [->|N]; [rewrite put_same in I; destruct I as [I|I]; [contradiction|auto]|now rewrite put_other in I].
    - intros n last d I. destruct (Nat.eq_dec home t) as [->|N]; [rewrite put_same in I; destruct I as [I|I]; [now destruct (N2 n last d)|auto]|now rewrite put_other in I].
  Qed.
  Lemma log_pop h s t : Log h s -> Log h (pop t s).
  Proof.
    intros V. apply (log_frames h s); auto; cbn -[put].
    - intros u I. destruct (Nat.eq_dec u t) as [->|N]; [rewrite put_same in I; destruct (a_stacks s t); [destruct I|now right]|now rewrite put_other in I].
    - intros n last d I. destruct (Nat.eq_dec home t) as [->|N]; [rewrite put_same in I; destruct (a_stacks s t); [destruct I|now right]|now rewrite put_other in I].
  Qed.
  Lemma log_lock h s l : Log h s -> Log h (with_lock l s).
  Proof. intros V. now apply (log_frames h s). Qed.
  Lemma log_posted h s l : Log h s -> Log h (with_posted l s).
  Proof. intros V. now apply (log_frames h s). Qed.
  Lemma log_any h h' s : Log h s -> (stream = true -> h' = h) -> Log h' s.
  Proof. intros [A B C D E F G] X. constructor; auto. intros S. rewrite X; auto. Qed.

  Lemma log_abort h s who : Log h s -> (stream = false -> forall u, ~ In Decoding (a_stacks s u)) -> Log h (abort_now home stream who s).
  Proof.
    intros V X. unfold abort_now. assert (W : Log h (if stream then s else set_data [] s)).
    { destruct stream eqn:ST; auto. apply log_any with (h := h ++ [[]]); [|congruence]. apply log_set; auto. congruence. }
    apply log_tell; [|exact Logic.I|intros u I; now right]. apply log_push; auto; discriminate.
  Qed.
  Lemma log_deliver s d s' : Log [] s -> (forall u, ~ In Decoding (a_stacks s u)) -> a_stacks s home = [] -> deliver home listens d s = Ok s' -> logged s'.
  Proof.
    intros V X E. unfold deliver. apply log_turn; auto.
    - apply (log_set [] s d); auto. intros _ n last e I. now rewrite E in I.
    - intros S. exists (a_log s), []. repeat apply conj; auto; [intros e []|cbn; now rewrite <- (l_handlers _ _ V)|lia].
  Qed.

  Lemma logged_other s s' : Log (inhand (a_stacks s home)) s' -> inhand (a_stacks s' home) = inhand (a_stacks s home) -> logged s'.
  Proof. unfold logged. now intros V ->. Qed.
  Lemma inhand_put s t f : inhand [f] = [] -> inhand (put (a_stacks s) t (f :: a_stacks s t) home) = inhand (a_stacks s home).
  Proof.
    intros E. destruct (Nat.eq_dec home t) as [->|N]; [rewrite put_same|now rewrite put_other]. unfold inhand in *. cbn in *.
    destruct f; cbn in *; auto. discriminate.
  Qed.
  Lemma inhand_pop s t f r : a_stacks s t = f :: r -> inhand [f] = [] -> inhand (put (a_stacks s) t r home) = inhand (a_stacks s home).
  Proof.
    intros P E. destruct (Nat.eq_dec home t) as [->|N]; [rewrite put_same, P|now rewrite put_other]. unfold inhand in *. cbn in *.
    destruct f; cbn in *; auto. discriminate.
  Qed.

  Lemma logged_granted s t w s' : logged s -> good s -> a_lock s = None -> (forall d, w = WMessage d -> t = home /\ a_stacks s home = []) ->
    (forall who, w = WAbort who -> t = home) -> granted home stream listens t w s = Ok s' -> logged s'.
  Proof.
    intros V GD L M AB. pose proof (free_decoding s GD L) as X. destruct w as [|d|who]; cbn [granted].
    - intros Q. injection Q as <-. eapply logged_other; [apply log_begin; [exact V|exact X]|]. cbn -[put]. apply (inhand_put s). reflexivity.
    - destruct (M d eq_refl) as [-> E]. apply log_deliver; auto. unfold logged in V. now rewrite E in V.
    - intros Q. injection Q as <-. eapply logged_other; [apply log_abort; [exact V|auto]|]. unfold abort_now. destruct stream; cbn -[put]; now apply inhand_put.
  Qed.
  Lemma logged_ask s t w s' : logged s -> good s -> (forall d, w = WMessage d -> t = home /\ a_stacks s home = []) ->
    (forall who, w = WAbort who -> t = home) -> ask home stream listens t w s = Ok s' -> logged s'.
  Proof.
    intros V GD M AB. unfold ask. destruct (a_lock s) eqn:L; [|now apply logged_granted].
    intros Q. injection Q as <-. eapply logged_other; [apply log_push; [exact V|discriminate|discriminate]|]. cbn -[put]. now apply inhand_put.
  Qed.

  Lemma step_logged s e s' : good s -> logged s -> step s e = Ok s' -> logged s'.
  Proof.
    intros GD V. destruct e as [d|t|t|k|t|t| |t]; cbn [AsyncModel.step].
    - destruct (a_stacks s home) eqn:E; [|intros Q; now injection Q as <-]. apply logged_ask; auto.
    - destruct (runs s t) eqn:R; [|intros Q; now injection Q as <-]. apply logged_ask; auto; discriminate.
    - destruct (runs s t) eqn:R; [|intros Q; now injection Q as <-]. destruct (Nat.eqb_spec t home) as [->|N].
      + unfold do_abort. destruct stream eqn:ST.
        * intros Q. injection Q as <-. rewrite <- ST. eapply logged_other; [apply log_abort; [exact V|congruence]|]. unfold abort_now. rewrite ST. cbn -[put]. now apply inhand_put.
        * rewrite <- ST. apply logged_ask; auto; discriminate.
      + intros Q. injection Q as <-. eapply logged_other; [apply log_push; [apply log_posted; exact V|discriminate|discriminate]|].
        cbn -[put]. now apply inhand_put.
    - destruct (runs s home); intros Q; injection Q as <-; auto. eapply logged_other; [apply log_subscribe; exact V|reflexivity].
    - destruct (a_stacks s t) as [|f r] eqn:E; [intros Q; now injection Q as <-|].
      destruct f as [n last d|[u|]| | |w| |d]; try (intros Q; injection Q as <-; try exact V).
      + intros Q. assert (T : t = home) by (apply (v_place _ _ _ _ GD t (Handling n last d)); rewrite E; now left). subst t.
        assert (B : r = []) by (apply (bottom_inhand _ _ _ GD E); exact Logic.I). subst r. revert Q. apply log_turn.
        * apply log_pop. unfold logged in V. now rewrite E in V.
        * cbn. rewrite E. apply put_same.
        * intros S. cbn -[opened]. apply (l_open _ _ V S). rewrite E. now left.
      + assert (T : t = home) by (apply (v_place _ _ _ _ GD t (Emitting (Some u))); rewrite E; now left). subst t.
        destruct (inv_done _ _ _ _ _ _ GD E) as (q & RU & NU & Z). eapply logged_other; [apply log_pop, log_pop; exact V|].
        cbn -[put]. rewrite put_other by auto. rewrite put_same, E. reflexivity.
      + eapply logged_other; [apply log_pop; exact V|]. cbn -[put]. rewrite E. now apply inhand_pop with (f := Emitting None).
      + eapply logged_other; [apply log_lock, log_pop; exact V|]. cbn -[put]. rewrite E. now apply inhand_pop with (f := Failing).
      + eapply logged_other; [apply log_pop; exact V|]. cbn -[put]. rewrite E. now apply inhand_pop with (f := Slot d).
    - destruct (a_stacks s t) as [|f r] eqn:E; [intros Q; now injection Q as <-|].
      destruct f as [n last d|who| | |w| |d]; try (intros Q; injection Q as <-; try exact V).
      + assert (I : In Decoding (a_stacks s t)) by (rewrite E; now left).
        assert (ND : forall u, ~ In Decoding (put (a_stacks s) t r u)).
        { intros u J. destruct (Nat.eq_dec u t) as [->|N].
          - rewrite put_same in J. pose proof (v_shape _ _ _ _ GD _ _ _ E) as U. rewrite Forall_forall in U. apply (U _ J).
          - rewrite put_other in J by auto. pose proof (v_hold _ _ _ _ GD u) as A. pose proof (v_hold _ _ _ _ GD t) as B.
            pose proof (held_in _ (or_introl I)). pose proof (held_in _ (or_introl J)). unfold mine in *. destruct (a_lock s) as [x|]; [|lia].
            destruct (Nat.eqb_spec x t); destruct (Nat.eqb_spec x u); try lia; congruence. }
        destruct (decode (a_data s)) eqn:DE; intros Q; injection Q as <-.
        * eapply logged_other; [apply (log_got _ s _ t V I); cbn -[put]; rewrite ?E; cbn [tl]; auto; [now rewrite DE|]|cbn -[put]; rewrite E; now apply inhand_pop with (f := Decoding)].
          intros n last d J. destruct (Nat.eq_dec home t) as [->|N]; [rewrite put_same in J; rewrite E; now right|now rewrite put_other in J].
        * eapply logged_other; [apply (log_got _ s _ t V I); cbn -[put]; rewrite ?E; cbn [tl]; auto; [now rewrite DE| |]|].
          -- intros u J. rewrite put_put in J. destruct (Nat.eq_dec u t) as [->|N]; [rewrite put_same in J|rewrite put_other in J by auto; now apply (ND u); rewrite put_other].
             destruct J as [J|J]; [discriminate|]. now apply (ND t).
          -- intros n last d J. rewrite put_put in J. destruct (Nat.eq_dec home t) as [->|N]; [rewrite put_same in J; destruct J as [J|J]; [discriminate|]; rewrite put_same in J; rewrite E; now right|now rewrite put_other in J].
          -- cbn -[put]. rewrite E. cbn [tl]. rewrite put_put, put_same. destruct (Nat.eq_dec home t) as [->|N]; [rewrite put_same, E; reflexivity|now rewrite put_other].
      + destruct (a_lock s) eqn:L; [intros Q; now injection Q as <-|].
        assert (PL : place home t (Want w)) by (apply (v_place _ _ _ _ GD); rewrite E; now left).
        assert (W : logged (pop t s)).
        { eapply logged_other; [apply log_pop; exact V|]. cbn -[put]. rewrite E. now apply inhand_pop with (f := Want w). }
        destruct w as [|d|who].
        * apply logged_granted; auto; try discriminate. unfold AsyncProofs.good. cbn -[put]. rewrite E. assert (Z := inv_pop _ _ _ _ _ _ _ GD E eq_refl ltac:(discriminate)). exact Z.
        * cbn in PL. subst t. assert (B : r = []) by (apply (bottom_inhand _ _ _ GD E); exact Logic.I). subst r.
          apply logged_granted; auto; try discriminate.
          -- unfold AsyncProofs.good. cbn -[put]. rewrite E. assert (Z := inv_pop _ _ _ _ _ _ _ GD E eq_refl ltac:(discriminate)). exact Z.
          -- intros e _. split; auto. cbn. rewrite E. apply put_same.
        * cbn in PL. subst t. intros Q. cbn [granted] in Q. injection Q as <-. eapply logged_other; [apply log_abort; [exact W|]|].
          -- intros _ u J. cbn -[put] in J. rewrite E in J. cbn [tl] in J. pose proof (free_decoding s GD L) as FD.
             destruct (Nat.eq_dec u home) as [->|N]; [rewrite put_same in J; apply (FD home); rewrite E; now right|rewrite put_other in J by auto; now apply (FD u)].
          -- unfold abort_now. destruct stream; cbn -[put]; rewrite E, put_put, !put_same; reflexivity.
    - destruct (a_stacks s home) eqn:E; [|intros Q; now injection Q as <-]. destruct (a_posted s) as [|t q] eqn:P; [intros Q; now injection Q as <-|].
      unfold do_abort. destruct stream eqn:ST.
      + intros Q. injection Q as <-. rewrite <- ST. eapply logged_other; [apply log_abort; [apply log_posted; exact V|congruence]|].
        unfold abort_now. rewrite ST. cbn -[put]. now rewrite E, put_same.
      + rewrite <- ST. unfold ask. cbn [a_lock with_posted]. destruct (a_lock s) eqn:L; intros Q.
        * injection Q as <-. eapply logged_other; [apply log_push; [apply log_posted; exact V|discriminate|discriminate]|]. cbn -[put]. now rewrite E, put_same.
        * cbn [granted] in Q. injection Q as <-. eapply logged_other; [apply log_abort; [apply log_posted; exact V|]|].
          -- intros _. exact (free_decoding s GD L).
          -- unfold abort_now. rewrite ST. cbn -[put]. now rewrite E, put_same.
    - destruct (a_stacks s t) eqn:E; [|intros Q; now injection Q as <-]. destruct (a_notes s t) eqn:NT; intros Q; injection Q as <-; auto.
      eapply logged_other; [apply log_take; [exact V|exact NT|exact E]|]. cbn -[put]. now apply inhand_put.
  Qed.

  Lemma start_logged : logged (start hs).
  Proof.
    constructor; cbn; auto.
    - now rewrite app_nil_r.
    - intros [|]; discriminate.
    - intros t [].
    - intros _ n last d [].
  Qed.

  Lemma run_inv evs : forall s s', good s -> logged s -> run home stream decode listens s evs = Ok s' -> good s' /\ logged s'.
  Proof.
    induction evs as [|e evs IH]; cbn [run]; intros s s' G V R; [injection R as <-; auto|].
    destruct (step s e) as [s1| | |] eqn:E; try discriminate. cbn [bind] in R. apply (IH s1); auto.
    - now apply (step_good home stream decode listens s e).
    - now apply (step_logged s e).
  Qed.
  Lemma start_inv evs s : run home stream decode listens (start hs) evs = Ok s -> good s /\ logged s.
  Proof. apply run_inv; [apply inv_start|apply start_logged]. Qed.
End Operation.

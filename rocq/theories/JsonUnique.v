(** A text is a JSON text of at most one value. *)

From Coq Require Import String ZArith List Bool Lia.
From Verif Require Import Base Values JsonSpec JsonProofs.
Import ListNotations.
Open Scope Z_scope.

Definition stops (P : Z -> Prop) (r : list Z) : Prop := match r with [] => True | c :: _ => ~ P c end.

Lemma span (P : Z -> Prop) : forall a a' r r', Forall P a -> Forall P a' -> stops P r -> stops P r' ->
  a ++ r = a' ++ r' -> a = a' /\ r = r'.
Proof.
  induction a as [|c a IH]; intros a' r r' A A' R R' E; destruct a' as [|c' a'].
  - now split.
  - cbn in E. subst r. inversion A'; subst. now cbn in R.
  - cbn in E. subst r'. inversion A; subst. now cbn in R'.
  - cbn in E. injection E as <- E. inversion A; inversion A'; subst. destruct (IH a' r r') as [-> ->]; auto.
Qed.

(** White space, and the characters of numbers. *)
Definition wsc (c : Z) : Prop := c = 32 \/ c = 9 \/ c = 10 \/ c = 13.
Definition numc (c : Z) : Prop := digit c \/ c = 45 \/ c = 43 \/ c = 46 \/ c = 101 \/ c = 69.

Ltac nc := repeat (apply Forall_cons; [unfold numc, digit in *; lia|]); try apply Forall_nil; auto.

Lemma number_numc s : number s -> Forall numc s.
Proof.
  assert (D : forall ds, Forall digit ds -> Forall numc ds) by (intros ds H; eapply Forall_impl; [|exact H]; intros c; now left).
  intros [sign i f e Hs Hi Hf He]. apply Forall_app; split; [|apply Forall_app; split; [|apply Forall_app; split]].
  - destruct Hs as [-> | ->]; nc.
  - destruct Hi as [|d ds B F]; nc.
  - destruct Hf as [|d ds F]; nc.
  - destruct He as [|x sg d ds E Sg F]; nc.
    apply Forall_app; split; [|now apply D]. destruct Sg as [-> |[-> | ->]]; nc.
Qed.

Lemma number_head s : number s -> exists c s', s = c :: s' /\ (c = 45 \/ digit c).
Proof.
  intros [sign i f e Hs Hi Hf He]. destruct Hs as [-> | ->]; [|now eexists _, _; split; [reflexivity | left]].
  destruct Hi as [|d ds B F]; eexists _, _; (split; [reflexivity | right; unfold digit; lia]).
Qed.

Lemma text_head j t : text j t -> exists c t', t = c :: t' /\ ~ wsc c /\ c <> 93 /\ c <> 125.
Proof.
  intro H. destruct H as [ | | |s N| | | | | ]; try (eexists _, _; split; [reflexivity | unfold wsc; cbn; lia]).
  destruct (number_head s N) as (c & s' & -> & Hc). eexists _, _; split; [reflexivity | unfold wsc, digit in *; lia].
Qed.

Lemma ws_wsc w : ws w -> Forall wsc w.
Proof. exact (fun H => H). Qed.

Lemma hex_length h c : hex4 h = Some c -> List.length h = 4%nat.
Proof. destruct h as [|x [|y [|z [|w [|]]]]]; try discriminate. reflexivity. Qed.

Lemma app_inj_length {A} (a a' r r' : list A) : List.length a = List.length a' -> a ++ r = a' ++ r' -> a = a' /\ r = r'.
Proof.
  revert a'; induction a as [|x a IH]; intros [|x' a'] L E; try discriminate L; [now split|].
  cbn in E. injection E as <- E. injection L as L. destruct (IH a' L E) as [-> ->]. now split.
Qed.

Lemma chars_unique s t : chars s t -> forall s' t' r r', chars s' t' -> t ++ 34 :: r = t' ++ 34 :: r' ->
  s = s' /\ t = t' /\ r = r'.
Proof.
  induction 1 as [|c s t P C IH|e c s t E C IH|h c s t H B C IH|h1 c1 h2 c2 s t H1 B1 H2 B2 C IH];
    intros s' t' r r' H' Q; destruct H' as [|c' s' t' P' C'|e' c' s' t' E' C'|h' c' s' t' H' B' C'|h1' c1' h2' c2' s' t' H1' B1' H2' B2' C'];
    rewrite ?app_nil_l in Q; rewrite <- ?app_comm_cons in Q; rewrite <- ?app_assoc in Q; rewrite <- ?app_comm_cons in Q;
    try discriminate; try (exfalso; injection Q as Qh Qt; unfold plain in *; lia).
  - injection Q as ->. auto.
  - injection Q as -> Q. destruct (IH _ _ _ _ C' Q) as (-> & -> & ->). auto.
  - injection Q as -> Q. rewrite E in E'. injection E' as ->. destruct (IH _ _ _ _ C' Q) as (-> & -> & ->). auto.
  - injection Q as -> Q. discriminate E.
  - injection Q as -> Q. discriminate E.
  - injection Q as <- Q. discriminate E'.
  - injection Q as Q. apply app_inj_length in Q as [<- Q]; [|now rewrite (hex_length _ _ H), (hex_length _ _ H')].
    rewrite H in H'. injection H' as <-. destruct (IH _ _ _ _ C' Q) as (-> & -> & ->). auto.
  - injection Q as Q. apply app_inj_length in Q as [<- Q]; [|now rewrite (hex_length _ _ H), (hex_length _ _ H1')].
    rewrite H in H1'. injection H1' as <-. lia.
  - injection Q as <- Q. discriminate E'.
  - injection Q as Q. apply app_inj_length in Q as [<- Q]; [|now rewrite (hex_length _ _ H1), (hex_length _ _ H')].
    rewrite H1 in H'. injection H' as <-. lia.
  - injection Q as Q. apply app_inj_length in Q as [<- Q]; [|now rewrite (hex_length _ _ H1), (hex_length _ _ H1')].
    rewrite <- ?app_comm_cons in Q. injection Q as Q. rewrite <- !app_assoc in Q.
    apply app_inj_length in Q as [<- Q]; [|now rewrite (hex_length _ _ H2), (hex_length _ _ H2')].
    rewrite H1 in H1'. injection H1' as <-. rewrite H2 in H2'. injection H2' as <-.
    destruct (IH _ _ _ _ C' Q) as (-> & -> & ->). auto.
Qed.

Lemma ws_span w w' r r' : ws w -> ws w' -> stops wsc r -> stops wsc r' -> w ++ r = w' ++ r' -> w = w' /\ r = r'.
Proof. apply (span wsc). Qed.

Lemma stops_text j t r : text j t -> stops wsc (t ++ r).
Proof. intro H. destruct (text_head _ _ H) as (c & t' & -> & N & _). exact N. Qed.

Lemma stops_num w c r : ws w -> ~ numc c -> stops numc (w ++ c :: r).
Proof.
  intros [|x w' Hx Hw] N; [exact N|]. cbn. unfold numc, digit in *. lia.
Qed.

Lemma not_wsc_at c r : ~ wsc c -> stops wsc (c :: r).
Proof. exact (fun H => H). Qed.

Lemma ws_not_elements l t w r r' : ws w -> elements l t -> w ++ 93 :: r = t ++ 93 :: r' -> False.
Proof.
  intros W H. destruct H as [w1 w2 j t W1 W2 T|w1 w2 j t l t' W1 W2 T _]; rewrite <- !app_assoc; intro Q;
    apply ws_span in Q as [_ Q]; auto; try (eapply stops_text; eauto); try (cbn; unfold wsc; lia);
    destruct (text_head _ _ T) as (c & t0 & -> & _ & N & _); injection Q as Qh _; lia.
Qed.

Lemma ws_not_members l t w r r' : ws w -> members l t -> w ++ 125 :: r = t ++ 125 :: r' -> False.
Proof.
  intros W H. destruct H as [w1 w2 w3 w4 n nt j t W1 W2 W3 W4 C T|w1 w2 w3 w4 n nt j t l t' W1 W2 W3 W4 C T _]; rewrite <- !app_assoc; intro Q;
    apply ws_span in Q as [_ Q]; auto; try (cbn; unfold wsc; lia); discriminate Q.
Qed.

Lemma text_unique_all :
  (forall j t, text j t -> forall j' t' r r', text j' t' -> stops numc r -> stops numc r' -> t ++ r = t' ++ r' -> j = j' /\ t = t') /\
  (forall l t, elements l t -> forall l' t' r r', elements l' t' -> t ++ 93 :: r = t' ++ 93 :: r' -> l = l' /\ t = t') /\
  (forall l t, members l t -> forall l' t' r r', members l' t' -> t ++ 125 :: r = t' ++ 125 :: r' -> l = l' /\ t = t').
Proof.
  assert (N0 : forall s j' t' r r', number s -> text j' t' -> stops numc r -> stops numc r' -> s ++ r = t' ++ r' -> JNum s = j' /\ s = t').
  { intros s j' t' r r' N H R R' Q. destruct (number_head s N) as (c & s' & Es & Hc).
    destruct H; try (exfalso; rewrite Es in Q; injection Q as Qh Qt; unfold digit in *; lia).
    apply (span numc) in Q as [-> _]; auto; now apply number_numc. }
  apply (json_mind
    (fun j t _ => forall j' t' r r', text j' t' -> stops numc r -> stops numc r' -> t ++ r = t' ++ r' -> j = j' /\ t = t')
    (fun l t _ => forall l' t' r r', elements l' t' -> t ++ 93 :: r = t' ++ 93 :: r' -> l = l' /\ t = t')
    (fun l t _ => forall l' t' r r', members l' t' -> t ++ 125 :: r = t' ++ 125 :: r' -> l = l' /\ t = t')).
  - intros j' t' r r' H R R' Q. destruct H; try discriminate Q; auto.
    exfalso. symmetry in Q. apply (N0 _ JNull (bytes_of "null")) in Q; auto; [|constructor]. now destruct Q.
  - intros j' t' r r' H R R' Q. destruct H; try discriminate Q; auto.
    exfalso. symmetry in Q. apply (N0 _ (JBool true) (bytes_of "true")) in Q; auto; [|constructor]. now destruct Q.
  - intros j' t' r r' H R R' Q. destruct H; try discriminate Q; auto.
    exfalso. symmetry in Q. apply (N0 _ (JBool false) (bytes_of "false")) in Q; auto; [|constructor]. now destruct Q.
  - intros s N j' t' r r' H R R' Q. exact (N0 s j' t' r r' N H R R' Q).
  - intros s t C j' t' r r' H R R' Q. destruct H as [ | | |s0 N|s0 t0 C0| | | | ]; try discriminate Q.
    + exfalso. symmetry in Q. apply (N0 _ (JStr s) (34 :: t ++ [34])) in Q; auto; [|now constructor]. now destruct Q.
    + cbn [app] in Q. injection Q as Q. rewrite <- !app_assoc in Q. cbn [app] in Q.
      destruct (chars_unique _ _ C _ _ _ _ C0 Q) as (-> & -> & _). auto.
  - intros w W j' t' r r' H R R' Q. destruct H as [ | | |s0 N|s0 t0 C0|w0 W0|l0 t0 L0| | ]; try discriminate Q.
    + exfalso. symmetry in Q. apply (N0 _ (JArr []) (91 :: w ++ [93])) in Q; auto; [|now constructor]. now destruct Q.
    + cbn [app] in Q. injection Q as Q. rewrite <- !app_assoc in Q. cbn [app] in Q.
      apply ws_span in Q as [-> _]; auto; cbn; unfold wsc; lia.
    + cbn [app] in Q. injection Q as Q. rewrite <- !app_assoc in Q. cbn [app] in Q. destruct (ws_not_elements _ _ _ _ _ W L0 Q).
  - intros l t L IH j' t' r r' H R R' Q. destruct H as [ | | |s0 N|s0 t0 C0|w0 W0|l0 t0 L0| | ]; try discriminate Q.
    + exfalso. symmetry in Q. apply (N0 _ (JArr l) (91 :: t ++ [93])) in Q; auto; [|now constructor]. now destruct Q.
    + cbn [app] in Q. injection Q as Q. rewrite <- !app_assoc in Q. cbn [app] in Q. symmetry in Q. destruct (ws_not_elements _ _ _ _ _ W0 L Q).
    + cbn [app] in Q. injection Q as Q. rewrite <- !app_assoc in Q. cbn [app] in Q. destruct (IH _ _ _ _ L0 Q) as [-> ->]. auto.
  - intros w W j' t' r r' H R R' Q. destruct H as [ | | |s0 N|s0 t0 C0| | |w0 W0|l0 t0 L0]; try discriminate Q.
    + exfalso. symmetry in Q. apply (N0 _ (JObj []) (123 :: w ++ [125])) in Q; auto; [|now constructor]. now destruct Q.
    + cbn [app] in Q. injection Q as Q. rewrite <- !app_assoc in Q. cbn [app] in Q.
      apply ws_span in Q as [-> _]; auto; cbn; unfold wsc; lia.
    + cbn [app] in Q. injection Q as Q. rewrite <- !app_assoc in Q. cbn [app] in Q. destruct (ws_not_members _ _ _ _ _ W L0 Q).
  - intros l t L IH j' t' r r' H R R' Q. destruct H as [ | | |s0 N|s0 t0 C0| | |w0 W0|l0 t0 L0]; try discriminate Q.
    + exfalso. symmetry in Q. apply (N0 _ (JObj l) (123 :: t ++ [125])) in Q; auto; [|now constructor]. now destruct Q.
    + cbn [app] in Q. injection Q as Q. rewrite <- !app_assoc in Q. cbn [app] in Q. symmetry in Q. destruct (ws_not_members _ _ _ _ _ W0 L Q).
    + cbn [app] in Q. injection Q as Q. rewrite <- !app_assoc in Q. cbn [app] in Q. destruct (IH _ _ _ _ L0 Q) as [-> ->]. auto.
  - intros w1 w2 j t W1 W2 T IH l' t' r r' H Q.
    destruct H as [w1' w2' j' t' W1' W2' T'|w1' w2' j' t' l' s' W1' W2' T' L']; rewrite <- !app_assoc in Q.
    + apply ws_span in Q as [-> Q]; [|assumption ..|eapply stops_text; eauto|eapply stops_text; eauto].
      destruct (IH _ _ _ _ T' (stops_num w2 93 r W2 ltac:(unfold numc, digit; lia)) (stops_num w2' 93 r' W2' ltac:(unfold numc, digit; lia)) Q) as [-> ->].
      apply app_inv_head in Q. apply ws_span in Q as [-> _]; [auto| assumption ..|cbn; unfold wsc; lia|cbn; unfold wsc; lia].
    + exfalso. apply ws_span in Q as [-> Q]; [|assumption ..|eapply stops_text; eauto|eapply stops_text; eauto].
      cbn [app] in Q.
      destruct (IH _ _ _ _ T' (stops_num w2 93 r W2 ltac:(unfold numc, digit; lia)) (stops_num w2' 44 _ W2' ltac:(unfold numc, digit; lia)) Q) as [-> ->].
      apply app_inv_head in Q. apply ws_span in Q as [_ Q]; [discriminate Q| assumption ..|cbn; unfold wsc; lia|cbn; unfold wsc; lia].
  - intros w1 w2 j t l s W1 W2 T IH L IHL l' t' r r' H Q.
    destruct H as [w1' w2' j' t' W1' W2' T'|w1' w2' j' t' l' s' W1' W2' T' L']; rewrite <- !app_assoc in Q.
    + exfalso. apply ws_span in Q as [-> Q]; [|assumption ..|eapply stops_text; eauto|eapply stops_text; eauto].
      cbn [app] in Q.
      destruct (IH _ _ _ _ T' (stops_num w2 44 _ W2 ltac:(unfold numc, digit; lia)) (stops_num w2' 93 _ W2' ltac:(unfold numc, digit; lia)) Q) as [-> ->].
      apply app_inv_head in Q. apply ws_span in Q as [_ Q]; [discriminate Q| assumption ..|cbn; unfold wsc; lia|cbn; unfold wsc; lia].
    + apply ws_span in Q as [-> Q]; [|assumption ..|eapply stops_text; eauto|eapply stops_text; eauto].
      cbn [app] in Q.
      destruct (IH _ _ _ _ T' (stops_num w2 44 _ W2 ltac:(unfold numc, digit; lia)) (stops_num w2' 44 _ W2' ltac:(unfold numc, digit; lia)) Q) as [-> ->].
      apply app_inv_head in Q. apply ws_span in Q as [-> Q]; [|assumption ..|cbn; unfold wsc; lia|cbn; unfold wsc; lia].
      injection Q as Q. destruct (IHL _ _ _ _ L' Q) as [-> ->]. auto.
  - intros w1 w2 w3 w4 n nt j t W1 W2 W3 W4 C T IH l' t' r r' H Q.
    destruct H as [w1' w2' w3' w4' n' nt' j' t' W1' W2' W3' W4' C' T'|w1' w2' w3' w4' n' nt' j' t' l' s' W1' W2' W3' W4' C' T' L'];
      repeat (rewrite <- ?app_assoc in Q; cbn [app] in Q).
    + apply ws_span in Q as [-> Q]; [|assumption ..|cbn; unfold wsc; lia|cbn; unfold wsc; lia]. injection Q as Q.
      destruct (chars_unique _ _ C _ _ _ _ C' Q) as (-> & -> & Q2). clear Q.
      apply ws_span in Q2 as [-> Q]; [|assumption ..|cbn; unfold wsc; lia|cbn; unfold wsc; lia]. injection Q as Q.
      apply ws_span in Q as [-> Q]; [|assumption ..|eapply stops_text; eauto|eapply stops_text; eauto].
      destruct (IH _ _ _ _ T' (stops_num w4 125 r W4 ltac:(unfold numc, digit; lia)) (stops_num w4' 125 r' W4' ltac:(unfold numc, digit; lia)) Q) as [-> ->].
      apply app_inv_head in Q. apply ws_span in Q as [-> _]; [auto| assumption ..|cbn; unfold wsc; lia|cbn; unfold wsc; lia].
    + exfalso. apply ws_span in Q as [-> Q]; [|assumption ..|cbn; unfold wsc; lia|cbn; unfold wsc; lia]. injection Q as Q.
      destruct (chars_unique _ _ C _ _ _ _ C' Q) as (-> & -> & Q2). clear Q.
      apply ws_span in Q2 as [-> Q]; [|assumption ..|cbn; unfold wsc; lia|cbn; unfold wsc; lia]. injection Q as Q.
      apply ws_span in Q as [-> Q]; [|assumption ..|eapply stops_text; eauto|eapply stops_text; eauto].
      destruct (IH _ _ _ _ T' (stops_num w4 125 r W4 ltac:(unfold numc, digit; lia)) (stops_num w4' 44 _ W4' ltac:(unfold numc, digit; lia)) Q) as [-> ->].
      apply app_inv_head in Q. apply ws_span in Q as [_ Q]; [discriminate Q| assumption ..|cbn; unfold wsc; lia|cbn; unfold wsc; lia].
  - intros w1 w2 w3 w4 n nt j t l s W1 W2 W3 W4 C T IH L IHL l' t' r r' H Q.
    destruct H as [w1' w2' w3' w4' n' nt' j' t' W1' W2' W3' W4' C' T'|w1' w2' w3' w4' n' nt' j' t' l' s' W1' W2' W3' W4' C' T' L'];
      repeat (rewrite <- ?app_assoc in Q; cbn [app] in Q).
    + exfalso. apply ws_span in Q as [-> Q]; [|assumption ..|cbn; unfold wsc; lia|cbn; unfold wsc; lia]. injection Q as Q.
      destruct (chars_unique _ _ C _ _ _ _ C' Q) as (-> & -> & Q2). clear Q.
      apply ws_span in Q2 as [-> Q]; [|assumption ..|cbn; unfold wsc; lia|cbn; unfold wsc; lia]. injection Q as Q.
      apply ws_span in Q as [-> Q]; [|assumption ..|eapply stops_text; eauto|eapply stops_text; eauto].
      destruct (IH _ _ _ _ T' (stops_num w4 44 _ W4 ltac:(unfold numc, digit; lia)) (stops_num w4' 125 r' W4' ltac:(unfold numc, digit; lia)) Q) as [-> ->].
      apply app_inv_head in Q. apply ws_span in Q as [_ Q]; [discriminate Q| assumption ..|cbn; unfold wsc; lia|cbn; unfold wsc; lia].
    + apply ws_span in Q as [-> Q]; [|assumption ..|cbn; unfold wsc; lia|cbn; unfold wsc; lia]. injection Q as Q.
      destruct (chars_unique _ _ C _ _ _ _ C' Q) as (-> & -> & Q2). clear Q.
      apply ws_span in Q2 as [-> Q]; [|assumption ..|cbn; unfold wsc; lia|cbn; unfold wsc; lia]. injection Q as Q.
      apply ws_span in Q as [-> Q]; [|assumption ..|eapply stops_text; eauto|eapply stops_text; eauto].
      destruct (IH _ _ _ _ T' (stops_num w4 44 _ W4 ltac:(unfold numc, digit; lia)) (stops_num w4' 44 _ W4' ltac:(unfold numc, digit; lia)) Q) as [-> ->].
      apply app_inv_head in Q. apply ws_span in Q as [-> Q]; [|assumption ..|cbn; unfold wsc; lia|cbn; unfold wsc; lia].
      injection Q as Q. destruct (IHL _ _ _ _ L' Q) as [-> ->]. auto.
Qed.

Lemma stops_ws_num w : ws w -> stops numc w.
Proof. intros [|x w' Hx Hw]; [exact I|]. cbn. unfold numc, digit in *. lia. Qed.

Lemma json_text_unique j j' t : json_text j t -> json_text j' t -> j = j'.
Proof.
  intros (w1 & u & w2 & W1 & W2 & T & E) (w1' & u' & w2' & W1' & W2' & T' & E'). rewrite E in E'.
  apply ws_span in E' as [_ Q]; [|assumption ..|eapply stops_text; eauto|eapply stops_text; eauto].
  now destruct (proj1 text_unique_all _ _ T _ _ _ _ T' (stops_ws_num _ W2) (stops_ws_num _ W2') Q) as [-> _].
Qed.

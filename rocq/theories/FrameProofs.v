(** Proofs about message framing. *)

From Coq Require Import ZArith List Bool Lia.
From Verif Require Import Base FrameSpec FrameModel.
Import ListNotations.
Open Scope Z_scope.

(** ** Big-endian numbers *)

Lemma land_255 n : Z.land n 255 = n mod 256.
Proof. change 255 with (Z.ones 8). now rewrite Z.land_ones by lia. Qed.

Lemma big_endian_bytes n : bytes (big_endian n).
Proof. unfold big_endian. rewrite !land_255. repeat constructor; unfold is_byte; apply Z.mod_pos_bound; lia. Qed.

Lemma big_endian_number n : 0 <= n < 2 ^ 32 -> be_number (big_endian n) = n.
Proof.
  intro H. unfold big_endian, be_number. cbn [fold_left]. rewrite !land_255, !Z.shiftr_div_pow2 by lia.
  change (2 ^ 24) with (256 * 256 * 256). change (2 ^ 16) with (256 * 256). change (2 ^ 8) with 256.
  rewrite <- !Z.div_div by lia. change (2 ^ 32) with (256 * 256 * 256 * 256) in H.
  assert (E0 := Z.div_mod n 256 ltac:(lia)).
  assert (E1 := Z.div_mod (n / 256) 256 ltac:(lia)).
  assert (E2 := Z.div_mod (n / 256 / 256) 256 ltac:(lia)).
  assert (M : (n / 256 / 256 / 256) mod 256 = n / 256 / 256 / 256).
  { apply Z.mod_small. rewrite !Z.div_div by lia. split; [apply Z.div_pos; lia|]. apply Z.div_lt_upper_bound; lia. }
  lia.
Qed.

Lemma toS_small z : 0 <= z <= INT_MAX -> toS 32 z = z.
Proof.
  unfold toS, INT_MAX. intro H. rewrite Z.mod_small by (change (2 ^ 32) with 4294967296; lia).
  change (2 ^ (32 - 1)) with 2147483648. destruct (Z.ltb_spec z 2147483648); lia.
Qed.

Lemma lor_add x y n : 0 <= y < 2 ^ n -> 0 <= n -> Z.lor (Z.shiftl x n) y = x * 2 ^ n + y.
Proof.
  intros Y N. rewrite Z.shiftl_mul_pow2 by lia.
  assert (D : Z.land (x * 2 ^ n) y = 0).
  { apply Z.bits_inj'. intros i I. rewrite Z.land_spec, Z.bits_0. destruct (Z.ltb_spec i n) as [L|L].
    - rewrite Z.mul_pow2_bits_low by lia. reflexivity.
    - rewrite <- (Z.mod_small y (2 ^ n)) by lia. rewrite Z.mod_pow2_bits_high by lia. apply andb_false_r. }
  rewrite <- Z.lxor_lor by exact D. symmetry. now apply Z.add_nocarry_lxor.
Qed.

Lemma int_at_1_spec x len rest : bytes len -> length len = 4%nat ->
  int_at_1 (x :: len ++ rest) = toS 32 (be_number len).
Proof.
  intros B L. destruct len as [|a [|b [|c [|d [|? ?]]]]]; cbn in L; try discriminate.
  cbn [app int_at_1]. f_equal. unfold be_number. cbn [fold_left].
  inversion B as [|? ? A B']; subst. inversion B' as [|? ? B1 B'']; subst.
  inversion B'' as [|? ? C B3]; subst. inversion B3 as [|? ? D _]; subst. unfold is_byte in *.
  rewrite (lor_add c d 8) by (change (2 ^ 8) with 256; lia).
  rewrite (lor_add b _ 16) by (change (2 ^ 16) with 65536; change (2 ^ 8) with 256; lia).
  rewrite (lor_add a _ 24) by (change (2 ^ 24) with 16777216; change (2 ^ 16) with 65536; change (2 ^ 8) with 256; lia).
  change (2 ^ 24) with 16777216. change (2 ^ 16) with 65536. change (2 ^ 8) with 256. lia.
Qed.

Lemma be_number_bound len : bytes len -> length len = 4%nat -> 0 <= be_number len < 2 ^ 32.
Proof.
  intros B L. destruct len as [|a [|b [|c [|d [|? ?]]]]]; cbn in L; try discriminate.
  unfold be_number. cbn [fold_left].
  inversion B as [|? ? A B']; subst. inversion B' as [|? ? B1 B'']; subst.
  inversion B'' as [|? ? C B3]; subst. inversion B3 as [|? ? D _]; subst. unfold is_byte in *.
  change (2 ^ 32) with 4294967296. lia.
Qed.

Lemma Zlen_app {A} (a b : list A) : Zlen (a ++ b) = Zlen a + Zlen b.
Proof. unfold Zlen. rewrite app_length. lia. Qed.
Lemma Zlen_cons {A} (a : A) b : Zlen (a :: b) = 1 + Zlen b.
Proof. unfold Zlen. cbn [length]. lia. Qed.
Lemma Zlen_nonneg {A} (a : list A) : 0 <= Zlen a.
Proof. unfold Zlen. lia. Qed.
Lemma Zlen_nil {A} (a : list A) : Zlen a = 0 -> a = [].
Proof. destruct a; [reflexivity|]. rewrite Zlen_cons. pose proof (Zlen_nonneg a0). lia. Qed.

Lemma app_prefix {A} (a b c d : list A) : a ++ b = c ++ d -> (length a <= length c)%nat ->
  exists e, c = a ++ e /\ b = e ++ d.
Proof.
  revert c. induction a as [|x a IH]; intros c E L; cbn in *.
  - exists c. auto.
  - destruct c as [|y c]; cbn in L; [lia|]. cbn in E. injection E as -> E.
    destruct (IH c E) as (e & -> & ->); [lia|]. now exists e.
Qed.

(** ** Requests *)

Lemma request_framed args : fits args -> framed 0 args (request_body args).
Proof.
  unfold fits. intro F. pose proof (Zlen_nonneg args).
  exists (big_endian (toS 32 (Zlen args))). split; [|reflexivity].
  rewrite toS_small by lia. split; [reflexivity|]. split; [apply big_endian_bytes|].
  apply big_endian_number. unfold INT_MAX in F. change (2 ^ 32) with 4294967296. lia.
Qed.

Lemma be_inj n a b : length a = n -> length b = n -> bytes a -> bytes b -> be_number a = be_number b -> a = b.
Proof.
  unfold be_number.
  assert (G : forall n a b x y, length a = n -> length b = n -> bytes a -> bytes b ->
            fold_left (fun n b => 256 * n + b) a x = fold_left (fun n b => 256 * n + b) b y -> x = y /\ a = b).
  { clear. induction n; intros a b x y La Lb Ba Bb E.
    - destruct a, b; try discriminate. cbn in E. auto.
    - destruct a as [|p a], b as [|q b]; try discriminate. cbn in E.
      inversion Ba; subst. inversion Bb; subst. unfold is_byte in *.
      destruct (IHn a b (256 * x + p) (256 * y + q)) as [X Y]; auto. assert (p = q) by lia. subst.
      split; [lia | reflexivity]. }
  intros. now apply (G n a b 0 0).
Qed.

(** A frame determines its message. *)
Lemma framed_inj f p q a b : framed f p a -> framed f q (b) -> a = b -> p = q.
Proof.
  intros (l & (L & _) & ->) (l' & (L' & _) & ->) E. injection E as E.
  destruct (app_prefix l p l' q E) as (e & E1 & E2); [lia|]. subst l'. rewrite app_length in L'.
  destruct e; [exact E2 | cbn in L'; lia].
Qed.

(** ** Reading the length *)

Lemma expected_frame flag p f rest c : framed flag p f -> fits p -> f ++ rest = c ->
  getExpectedDataSize c = Ok (Zlen f).
Proof.
  intros (len & (L & B & N) & ->) F <-. unfold getExpectedDataSize.
  assert (Ll : Zlen len = 4) by (unfold Zlen; lia). pose proof (Zlen_nonneg p). pose proof (Zlen_nonneg rest).
  replace ((flag :: len ++ p) ++ rest) with (flag :: len ++ (p ++ rest)) by (cbn; now rewrite app_assoc).
  rewrite Zlen_cons, !Zlen_app.
  destruct (Z.ltb_spec (1 + (Zlen len + (Zlen p + Zlen rest))) 4) as [H1|_]; [lia|].
  replace ((flag :: len ++ p ++ rest) ++ [0]) with (flag :: len ++ (p ++ rest ++ [0]))
    by (cbn; now rewrite <- !app_assoc).
  rewrite int_at_1_spec by auto. unfold fits in F. rewrite N, toS_small by (unfold INT_MAX in *; lia).
  destruct (Z.ltb_spec INT_MAX (Zlen p + 5)) as [H1|_]; [unfold INT_MAX in *; lia|].
  rewrite Zlen_cons, Zlen_app. f_equal. lia.
Qed.

(** The header alone is enough. *)
Lemma expected_prefix flag p f c rest : framed flag p f -> fits p -> c ++ rest = f -> 5 <= Zlen c ->
  getExpectedDataSize c = Ok (Zlen f).
Proof.
  intros (len & (L & B & N) & ->) F E G. unfold getExpectedDataSize.
  assert (Ll : Zlen len = 4) by (unfold Zlen; lia). pose proof (Zlen_nonneg p). pose proof (Zlen_nonneg rest).
  destruct (Z.ltb_spec (Zlen c) 4) as [H1|_]; [lia|].
  destruct c as [|x c]; [cbn in G; lia|]. cbn [app] in E. injection E as -> E.
  assert (Lc : (length len <= length c)%nat) by (rewrite Zlen_cons in G; unfold Zlen in *; lia).
  assert (X : exists c2, c = len ++ c2).
  { exists (skipn (length len) c). assert (Hf : firstn (length len) (c ++ rest) = len).
    { rewrite E, firstn_app, Nat.sub_diag, firstn_all, firstn_O, app_nil_r. reflexivity. }
    rewrite firstn_app in Hf. replace (length len - length c)%nat with 0%nat in Hf by lia.
    rewrite firstn_O, app_nil_r in Hf. rewrite <- Hf at 1. symmetry. apply firstn_skipn. }
  destruct X as [c2 ->].
  replace ((flag :: len ++ c2) ++ [0]) with (flag :: len ++ (c2 ++ [0])) by (cbn; now rewrite <- !app_assoc).
  rewrite int_at_1_spec by auto. unfold fits in F. rewrite N, toS_small by (unfold INT_MAX in *; lia).
  destruct (Z.ltb_spec INT_MAX (Zlen p + 5)) as [H1|_]; [unfold INT_MAX in *; lia|].
  rewrite Zlen_cons, Zlen_app. f_equal. lia.
Qed.

Lemma frame_length flag p f : framed flag p f -> Zlen f = 5 + Zlen p.
Proof. intros (len & (L & _) & ->). rewrite Zlen_cons, Zlen_app. unfold Zlen at 1. lia. Qed.

Lemma mid5_frame flag p f rest : framed flag p f -> mid5 (f ++ rest) (Zlen f - 5) = p.
Proof.
  intro F. pose proof (frame_length _ _ _ F) as L. pose proof (Zlen_nonneg p). unfold mid5.
  destruct (Z.ltb_spec (Zlen f - 5) 0) as [H1|_]; [lia|].
  replace (Z.to_nat (Zlen f - 5)) with (length p) by (unfold Zlen in *; lia).
  destruct F as (len & (L4 & _) & ->). destruct len as [|a [|b [|c [|d [|? ?]]]]]; cbn in L4; try discriminate.
  cbn [app skipn]. rewrite firstn_app, Nat.sub_diag, firstn_all, firstn_O. now rewrite app_nil_r.
Qed.

Lemma remove0_frame f rest : 0 < Zlen f -> remove0 (f ++ rest) (Zlen f) = rest.
Proof.
  intro L. unfold remove0. destruct (Z.leb_spec (Zlen f) 0); [lia|]. unfold Zlen. rewrite Nat2Z.id.
  rewrite skipn_app, Nat.sub_diag, skipn_all. reflexivity.
Qed.

(** ** The loop on well-cut chunks *)

(** End of the data [c] in the frames [fs], which begin with it. *)
Definition ends (fs : list (list Z)) (c : list Z) : Prop :=
  exists done frame todo, fs = done ++ frame :: todo /\
    Zlen (concat done) < Zlen c <= Zlen (concat done) + Zlen frame /\
    (Zlen (concat done) + 5 < Zlen c \/ Zlen (concat done) + 5 = Zlen c /\ done = []).

(** What is left after the loop: the frames not delivered yet and the entry. *)
Definition pending (fs : list (list Z)) (en : entry) (c : list Z) : Prop :=
  match en with
  | None => c = []
  | Some (e, c') => c = c' /\ exists f fs', fs = f :: fs' /\ e = Zlen f /\ 5 <= Zlen c < Zlen f
  end.

Lemma deliver_frames : forall ps fs, frames_of ps fs -> Forall fits ps ->
  forall c rest k, c ++ rest = concat fs -> ends fs c ->
  exists out ps' del fs' c', ps = out ++ ps' /\ fs = del ++ fs' /\ frames_of ps' fs' /\ c' ++ rest = concat fs' /\
    exists n, forall fuel, (n <= fuel)%nat -> exists e' k', deliver fuel (fun _ => false) k (Zlen (hd [] fs)) c =
      (out, Ok (e', c', k')) /\
    pending fs' (if Zlen c' <? 5 then None else Some (e', c')) c'.
Proof.
  intros ps fs H. induction H as [|p f ps fs F H IH]; intros Ft c rest k E En.
  { destruct En as (d & fr & td & X & _). destruct d; discriminate. }
  inversion Ft as [|? ? Fp Fps]; subst. destruct F as [flag F]. pose proof (frame_length _ _ _ F) as Lf.
  pose proof (Zlen_nonneg p) as Lp. cbn [hd concat] in *.
  destruct (Z.leb_spec (Zlen f) (Zlen c)) as [Le|Lt].
  - (* complete frame *)
    symmetry in E. destruct (app_prefix f _ c rest E) as (c1 & -> & E1); [unfold Zlen in *; lia|].
    symmetry in E1.
    assert (Cases : c1 = [] \/ (5 < Zlen c1 /\ ends fs c1)).
    { destruct En as (d & fr & td & X & B & C). destruct d as [|f0 d]; cbn in X; injection X as <- X.
      - left. rewrite Zlen_app in B. cbn in B. apply Zlen_nil. pose proof (Zlen_nonneg c1). lia.
      - right. subst fs. cbn [concat] in *. rewrite !Zlen_app in *. destruct C as [C|[_ C]]; [|discriminate].
        pose proof (Zlen_nonneg (concat d)).
        split; [lia|]. exists d, fr, td. split; [reflexivity|]. split; [lia|]. left. lia. }
    destruct Cases as [->|[G En1]].
    + exists [p], ps, [f], fs, []. split; [reflexivity|]. split; [reflexivity|]. split; [exact H|]. split; [exact E1|].
      exists 2%nat. intros [|[|fuel]] L; try lia. exists (Zlen f), (S k). split; [|reflexivity].
      rewrite app_nil_r in *. cbn [deliver].
      replace (Zlen f <=? Zlen f) with true by (symmetry; apply Z.leb_refl).
      cbn [negb andb]. 
      pose proof (mid5_frame _ _ _ [] F) as M1. rewrite app_nil_r in M1. rewrite M1.
      pose proof (remove0_frame f [] ltac:(lia)) as M2. rewrite app_nil_r in M2. rewrite M2. change (Zlen ([] : list Z)) with 0.
      cbn [Z.ltb Z.compare].
      replace (Zlen f <=? 0) with false by (symmetry; apply Z.leb_gt; lia). reflexivity.
    + destruct (IH Fps c1 rest (S k) E1 En1) as (out & ps' & del & fs' & c' & -> & Efs & Fr & Ec & n & Hn).
      exists (p :: out), ps', (f :: del), fs', c'. split; [reflexivity|]. split; [cbn; now rewrite <- Efs|]. split; [exact Fr|]. split; [exact Ec|].
      exists (S n). intros [|fuel] L; [lia|]. destruct (Hn fuel) as (e' & k' & Hd & Hp); [lia|].
      exists e', k'. split; [|exact Hp]. cbn [deliver].
      rewrite Zlen_app. pose proof (Zlen_nonneg c1).
      replace (Zlen f <=? Zlen f + Zlen c1) with true by (symmetry; apply Z.leb_le; lia).
      cbn [negb andb]. rewrite (mid5_frame _ _ _ _ F), remove0_frame by lia.
      replace (5 <? Zlen c1) with true by (symmetry; apply Z.ltb_lt; lia).
      assert (X : getExpectedDataSize c1 = Ok (Zlen (hd [] fs))).
      { destruct En1 as (d & fr & td & Xd & B & _). destruct H as [|p2 f2 ps2 fs2 [flag2 F2] H2].
        - destruct d; discriminate.
        - cbn [hd concat] in *. inversion Fps; subst.
          destruct (Z.leb_spec (Zlen f2) (Zlen c1)) as [Le2|Lt2].
          + symmetry in E1. destruct (app_prefix f2 _ c1 rest E1) as (c2 & -> & _); [unfold Zlen in *; lia|].
            eapply expected_frame; eauto.
          + destruct (app_prefix c1 rest f2 _ E1) as (r2 & -> & _); [unfold Zlen in *; lia|].
            eapply expected_prefix; eauto. lia. }
      rewrite X, Hd. reflexivity.
  - (* incomplete frame *)
    exists [], (p :: ps), [], (f :: fs), c. split; [reflexivity|]. split; [reflexivity|]. split; [constructor; eauto|].
    split; [exact E|]. exists 1%nat. intros [|fuel] L; [lia|]. exists (Zlen f), k. cbn [deliver].
    replace (Zlen f <=? Zlen c) with false by (symmetry; apply Z.leb_gt; lia). cbn [andb].
    split; [reflexivity|].
    assert (G : 5 <= Zlen c).
    { destruct En as (d & fr & td & X & B & C). pose proof (Zlen_nonneg (concat d)).
      destruct C as [C|[C _]]; lia. }
    replace (Zlen c <? 5) with false by (symmetry; apply Z.ltb_ge; lia).
    split; [reflexivity|]. exists f, fs. repeat split; auto.
Qed.

Lemma ready_read_frames ps fs c en rest data :
  frames_of ps fs -> Forall fits ps -> pending fs en c -> (c ++ data) ++ rest = concat fs ->
  ends fs (c ++ data) ->
  exists out ps' del fs' c' en', ps = out ++ ps' /\ fs = del ++ fs' /\ frames_of ps' fs' /\ c' ++ rest = concat fs' /\
    pending fs' en' c' /\
    exists n, forall fuel, (n <= fuel)%nat -> ready_read fuel (fun _ => false) en data = (out, Ok en').
Proof.
  intros H Ft P E En.
  destruct (deliver_frames ps fs H Ft (c ++ data) rest 0 E En) as (out & ps' & del & fs' & c' & -> & Efs & Fr & Ec & n & Hn).
  destruct (Hn n) as (e' & k' & Hd & Hp); [lia|].
  exists out, ps', del, fs', c', (if Zlen c' <? 5 then None else Some (e', c')).
  split; [reflexivity|]. split; [exact Efs|]. split; [exact Fr|]. split; [exact Ec|]. split; [exact Hp|].
  (* the loop result does not depend on fuel *)
  assert (St : forall fuel, (n <= fuel)%nat ->
            deliver fuel (fun _ => false) 0 (Zlen (hd [] fs)) (c ++ data) = (out, Ok (e', c', k'))).
  { assert (Mono : forall a k e x o v, deliver a (fun _ => false) k e x = (o, Ok v) -> forall b, (a <= b)%nat ->
              deliver b (fun _ => false) k e x = (o, Ok v)).
    { clear. induction a; intros k e x o v Hx b L; cbn [deliver] in Hx; [discriminate|].
      destruct b as [|b]; [lia|]. cbn [deliver]. destruct ((e <=? Zlen x) && negb false); [|exact Hx].
      destruct (if 5 <? Zlen (remove0 x e) then getExpectedDataSize (remove0 x e) else Ok e); try discriminate.
      destruct (deliver a (fun _ => false) (S k) a0 (remove0 x e)) as [o2 r2] eqn:Q.
      injection Hx as <- ->. rewrite (IHa _ _ _ _ _ Q b) by lia. reflexivity. }
    intros fuel L. eapply Mono; eauto. }
  exists n. intros fuel L. unfold ready_read. rewrite <- (St fuel L) in *.
  assert (Fin : forall X, (let '(o, r) := deliver fuel (fun _ => false) 0 (Zlen (hd [] fs)) (c ++ data) in
     (o, '(e1, c1, k1) <- r ;; if (Zlen c1 <? 5) || false then Ok None else Ok (Some (e1, c1)))) = X ->
     X = (out, Ok (if Zlen c' <? 5 then None else Some (e', c')))).
  { intros X <-. rewrite (St fuel L). cbn [bind]. rewrite orb_false_r. now destruct (Zlen c' <? 5). }
  destruct en as [[e c0]|]; cbn in P.
  - destruct P as [<- (f & fs0 & -> & -> & _)]. cbn [hd] in *. now apply Fin.
  - subst c. cbn [app] in *. destruct H as [|p f ps0 fs0 [flag F] H].
    { destruct En as (d & fr & td & X & _). destruct d; discriminate. }
    inversion Ft; subst. cbn [hd concat] in *. pose proof (frame_length _ _ _ F) as Lf. pose proof (Zlen_nonneg p).
    assert (X : getExpectedDataSize data = Ok (Zlen f)).
    { destruct (Z.leb_spec (Zlen f) (Zlen data)) as [Le2|Lt2].
      - symmetry in E. destruct (app_prefix f _ data rest E) as (c2 & -> & _); [unfold Zlen in *; lia|].
        eapply expected_frame; eauto.
      - destruct (app_prefix data rest f _ E) as (r2 & -> & _); [unfold Zlen in *; lia|].
        eapply expected_prefix; eauto.
        destruct En as (d & fr & td & X & B & C). pose proof (Zlen_nonneg (concat d)).
        destruct C as [C|[C _]]; lia. }
    rewrite X. replace (Zlen f =? 0) with false by (symmetry; apply Z.eqb_neq; lia). now apply Fin.
Qed.

(** ** Streams *)

(** [well_cut] for the rest of a stream of which [off] bytes were received before. *)
Definition cuts (off : Z) (fs chunks : list (list Z)) : Prop :=
  forall before chunk after, chunks = before ++ chunk :: after ->
  exists done frame todo, fs = done ++ frame :: todo /\
    let start := Zlen (concat done) in
    let chunk_start := off + Zlen (concat before) in
    let chunk_end := off + Zlen (concat before) + Zlen chunk in
    chunk <> [] /\ start < chunk_end <= start + Zlen frame /\
    (start + 5 < chunk_end \/ start + 5 = chunk_end /\ start = chunk_start).

Lemma frames_nonempty ps fs : frames_of ps fs -> Forall (fun f => 5 <= Zlen f) fs.
Proof.
  intro H. induction H as [|p f ps fs [fl F] H IH]; constructor; auto.
  rewrite (frame_length _ _ _ F). pose proof (Zlen_nonneg p). lia.
Qed.

Lemma concat_zero (fs : list (list Z)) : Forall (fun f => 5 <= Zlen f) fs -> Zlen (concat fs) = 0 -> fs = [].
Proof.
  intros F Z0. destruct F; [reflexivity|]. cbn in Z0. rewrite Zlen_app in Z0. pose proof (Zlen_nonneg (concat l)). lia.
Qed.

Lemma cuts_first fs c en d chunks : Forall (fun f => 5 <= Zlen f) fs -> pending fs en c ->
  cuts (Zlen c) fs (d :: chunks) -> ends fs (c ++ d).
Proof.
  intros NE P W. destruct (W [] d chunks eq_refl) as (dn & fr & td & E & N & B & C). cbn in B, C.
  change (Zlen ([] : list Z)) with 0 in *.
  exists dn, fr, td. split; [exact E|]. rewrite Zlen_app. split; [lia|].
  destruct C as [C|[C C0]]; [left; lia | right; split; [lia|]].
  destruct en as [[e c0]|]; cbn in P.
  - destruct P as [<- (f & fs' & -> & -> & L1 & L2)]. destruct dn as [|f1 dn]; [reflexivity|].
    cbn in E. injection E as <- E. cbn in C0. rewrite Zlen_app in C0. pose proof (Zlen_nonneg (concat dn)). lia.
  - subst c. change (Zlen ([] : list Z)) with 0 in *. apply concat_zero; [|lia]. subst fs.
    now apply Forall_app in NE.
Qed.

Lemma split_prefix {A} (a b c d : list (list A)) (x : list A) : a ++ b = c ++ x :: d ->
  Zlen (concat a) < Zlen (concat c) + Zlen x -> exists c', c = a ++ c' /\ b = c' ++ x :: d.
Proof.
  revert c. induction a as [|y a IH]; intros c E L; cbn in *.
  - exists c. auto.
  - destruct c as [|z c]; cbn in E; injection E as -> E; cbn in L; rewrite ?Zlen_app in L.
    + pose proof (Zlen_nonneg (concat a)). change (Zlen ([] : list A)) with 0 in L. lia.
    + destruct (IH c E) as (c' & -> & ->); [lia|]. now exists c'.
Qed.

Lemma cuts_rest off fs del fs' d chunks off' : cuts off fs (d :: chunks) -> fs = del ++ fs' ->
  off + Zlen d = Zlen (concat del) + off' -> 0 <= off' -> cuts off' fs' chunks.
Proof.
  intros W -> E P before chunk after Ec. subst chunks.
  destruct (W (d :: before) chunk after eq_refl) as (dn & fr & td & E1 & N & B & C). cbn in B, C.
  rewrite Zlen_app in *. pose proof (Zlen_nonneg (concat before)).
  assert (0 < Zlen chunk) by (destruct chunk; [congruence|]; rewrite Zlen_cons; pose proof (Zlen_nonneg chunk); lia).
  destruct (split_prefix _ _ _ _ _ E1) as (dn' & -> & ->); [lia|].
  exists dn', fr, td. split; [reflexivity|]. cbn. split; [exact N|].
  rewrite concat_app, Zlen_app in *. split; [lia|]. destruct C as [C|[C C0]]; [left; lia | right; lia].
Qed.

Lemma ready_read_mono fin fuel en d o e : ready_read fuel fin en d = (o, Ok e) ->
  forall fuel', (fuel <= fuel')%nat -> ready_read fuel' fin en d = (o, Ok e).
Proof.
  assert (Mono : forall a k e x o v, deliver a fin k e x = (o, Ok v) -> forall b, (a <= b)%nat ->
            deliver b fin k e x = (o, Ok v)).
  { clear. induction a; intros k e x o v Hx b L; cbn [deliver] in Hx; [discriminate|].
    destruct b as [|b]; [lia|]. cbn [deliver]. destruct ((e <=? Zlen x) && negb (fin k)); [|exact Hx].
    destruct (if 5 <? Zlen (remove0 x e) then getExpectedDataSize (remove0 x e) else Ok e); try discriminate.
    destruct (deliver a fin (S k) a0 (remove0 x e)) as [o2 r2] eqn:Q.
    injection Hx as <- ->. rewrite (IHa _ _ _ _ _ Q b) by lia. reflexivity. }
  assert (Go : forall a b x c, (a <= b)%nat ->
    (let '(out, r) := deliver a fin 0 x c in
     (out, '(e', c', k) <- r ;; if (Zlen c' <? 5) || fin k then Ok None else Ok (Some (e', c')))) = (o, Ok e) ->
    (let '(out, r) := deliver b fin 0 x c in
     (out, '(e', c', k) <- r ;; if (Zlen c' <? 5) || fin k then Ok None else Ok (Some (e', c')))) = (o, Ok e)).
  { intros a b x c L H. destruct (deliver a fin 0 x c) as [o1 r1] eqn:Q. destruct r1 as [v| | |]; try discriminate.
    rewrite (Mono _ _ _ _ _ _ Q b L). exact H. }
  unfold ready_read. intros H fuel' L. destruct en as [[x c]|]; [eapply Go; eauto|].
  destruct (getExpectedDataSize d); try discriminate. destruct (a =? 0); [exact H|]. eapply Go; eauto.
Qed.

Lemma read_stream_frames : forall chunks ps fs c en rest,
  frames_of ps fs -> Forall fits ps -> pending fs en c -> (c ++ concat chunks) ++ rest = concat fs ->
  cuts (Zlen c) fs chunks ->
  exists out ps' del fs' c' en', ps = out ++ ps' /\ fs = del ++ fs' /\ frames_of out del /\ frames_of ps' fs' /\
    c' ++ rest = concat fs' /\ pending fs' en' c' /\
    exists n, forall fuel, (n <= fuel)%nat -> read_stream fuel (fun _ => false) en chunks = (out, Ok en').
Proof.
  induction chunks as [|d chunks IH]; intros ps fs c en rest Fr Ft P E W.
  - exists [], ps, [], fs, c, en. cbn in *. rewrite app_nil_r in E. split; [reflexivity|]. split; [reflexivity|].
    split; [constructor|]. split; [exact Fr|]. split; [exact E|]. split; [exact P|]. exists 0%nat. auto.
  - pose proof (cuts_first fs c en d chunks (frames_nonempty _ _ Fr) P W) as En. cbn [concat] in E.
    rewrite app_assoc, <- app_assoc in E.
    destruct (ready_read_frames ps fs c en (concat chunks ++ rest) d Fr Ft P E En)
      as (o1 & ps1 & del1 & fs1 & c1 & en1 & -> & Ef & Fr1 & E1 & P1 & n1 & R1).
    assert (Frd : frames_of o1 del1).
    { unfold frames_of in *. rewrite Ef in Fr. apply Forall2_app_inv_l in Fr.
      destruct Fr as (l1 & l2 & F1 & F2 & X).
      assert (Y : length l2 = length fs1) by (clear - F2 Fr1; revert fs1 Fr1; induction F2; intros fs1 Fr1;
        inversion Fr1; subst; cbn; auto).
      assert (Zl : length l1 = length del1) by (apply (f_equal (@length _)) in X; rewrite !app_length in X; lia).
      destruct (app_prefix _ _ _ _ X) as (z & Z1 & Z2); [unfold Zlen in *; lia|].
      subst l1. rewrite app_length in Zl. destruct z; [rewrite app_nil_r in F1; exact F1 | cbn in Zl; lia]. }
    assert (Ft1 : Forall fits ps1) by (now apply Forall_app in Ft).
    rewrite app_assoc in E1.
    assert (W1 : cuts (Zlen c1) fs1 chunks).
    { eapply cuts_rest; [exact W | exact Ef | | apply Zlen_nonneg].
      rewrite Ef, concat_app, <- E1, !app_assoc in E. apply app_inv_tail, app_inv_tail in E.
      apply (f_equal Zlen) in E. rewrite !Zlen_app in E. lia. }
    destruct (IH ps1 fs1 c1 en1 rest Fr1 Ft1 P1 E1 W1)
      as (o2 & ps2 & del2 & fs2 & c2 & en2 & -> & Ef2 & Frd2 & Fr2 & E2 & P2 & n2 & R2).
    exists (o1 ++ o2), ps2, (del1 ++ del2), fs2, c2, en2.
    split; [apply app_assoc|]. split; [rewrite Ef, Ef2; apply app_assoc|].
    split; [now apply Forall2_app|]. split; [exact Fr2|]. split; [exact E2|]. split; [exact P2|].
    exists (n1 + n2)%nat. intros fuel L. cbn [read_stream]. rewrite R1 by lia. rewrite R2 by lia. reflexivity.
Qed.

(** ** Arbitrary input *)

Lemma getExpected_safe c : bytes c -> 5 <= Zlen c -> ~ huge_length c ->
  exists e, getExpectedDataSize c = Ok e /\ 5 <= e.
Proof.
  intros B L H. unfold getExpectedDataSize. destruct (Z.ltb_spec (Zlen c) 4) as [X|_]; [lia|].
  destruct c as [|x c]; [cbn in L; lia|]. rewrite Zlen_cons in L.
  set (len := firstn 4 c).
  assert (Ll : length len = 4%nat) by (unfold len; rewrite firstn_length; unfold Zlen in L; lia).
  assert (Ec : c = len ++ skipn 4 c) by (symmetry; apply firstn_skipn).
  assert (Bl : bytes len).
  { inversion B as [|? ? _ Bc]; subst. rewrite Ec in Bc. apply Forall_app in Bc. apply Bc. }
  assert (Ex : (x :: c) ++ [0] = (x :: len ++ skipn 4 c) ++ [0]) by (now rewrite <- Ec). rewrite Ex.
  replace ((x :: len ++ skipn 4 c) ++ [0]) with (x :: len ++ (skipn 4 c ++ [0]))
    by (cbn; now rewrite <- app_assoc).
  rewrite int_at_1_spec by auto. pose proof (be_number_bound len Bl Ll).
  assert (S : be_number len <= INT_MAX - 5).
  { destruct (Z.le_gt_cases (be_number len) (INT_MAX - 5)); auto. exfalso. apply H.
    exists [x], len, (skipn 4 c). split; [cbn [app]; f_equal; exact Ec|]. split; [exact Ll | lia]. }
  rewrite toS_small by (unfold INT_MAX in *; lia).
  destruct (Z.ltb_spec INT_MAX (be_number len + 5)); [unfold INT_MAX in *; lia|].
  eexists. split; [reflexivity | lia].
Qed.

Lemma huge_suffix (a b : list Z) : huge_length b -> huge_length (a ++ b).
Proof. intros (x & w & y & -> & L & H). exists (a ++ x), w, y. rewrite app_assoc. auto. Qed.
Lemma huge_prefix a b : huge_length a -> huge_length (a ++ b).
Proof. intros (x & w & y & -> & L & H). exists x, w, (y ++ b). rewrite <- !app_assoc. auto. Qed.

Lemma remove0_suffix c e : exists p, c = p ++ remove0 c e.
Proof.
  unfold remove0. destruct (e <=? 0); [now exists []|]. exists (firstn (Z.to_nat e) c). symmetry. apply firstn_skipn.
Qed.

Lemma deliver_safe fin : forall fuel k e c, bytes c -> ~ huge_length c -> 5 <= e -> (length c < fuel)%nat ->
  exists out e' c' k' p, deliver fuel fin k e c = (out, Ok (e', c', k')) /\ 5 <= e' /\ c = p ++ c'.
Proof.
  induction fuel; intros k e c B H E L; [lia|]. cbn [deliver].
  destruct (Z.leb_spec e (Zlen c)) as [Le|]; [|exists [], e, c, k, []; auto]. destruct (fin k); cbn [negb andb].
  { exists [], e, c, k, []. auto. }
  destruct (remove0_suffix c e) as [p Ep].
  assert (B' : bytes (remove0 c e)) by (rewrite Ep in B; apply Forall_app in B; apply B).
  assert (H' : ~ huge_length (remove0 c e)) by (intro X; apply H; rewrite Ep; now apply huge_suffix).
  assert (L' : (length (remove0 c e) < fuel)%nat).
  { unfold remove0. destruct (Z.leb_spec e 0); [lia|]. rewrite skipn_length. unfold Zlen in Le. lia. }
  assert (X : exists e', (if 5 <? Zlen (remove0 c e) then getExpectedDataSize (remove0 c e) else Ok e) = Ok e' /\ 5 <= e').
  { destruct (Z.ltb_spec 5 (Zlen (remove0 c e))).
    - apply getExpected_safe; auto. lia.
    - exists e. auto. }
  destruct X as (e1 & -> & E1).
  destruct (IHfuel (S k) e1 (remove0 c e) B' H' E1 L') as (out & e' & c' & k' & p' & -> & E' & Ec).
  exists (mid5 c (e - 5) :: out), e', c', k', (p ++ p'). split; [reflexivity|]. split; [exact E'|].
  now rewrite <- app_assoc, <- Ec.
Qed.

(** Invariant of the entry: the container is a suffix of what was received. *)
Definition entry_ok (received : list Z) (en : entry) : Prop :=
  match en with None => True | Some (e, c) => 5 <= e /\ exists p, received = p ++ c end.

Lemma ready_read_safe fin received en d : bytes (received ++ d) -> ~ huge_length (received ++ d) ->
  5 <= Zlen d -> entry_ok received en ->
  exists out en' n, entry_ok (received ++ d) en' /\
    forall fuel, (n <= fuel)%nat -> ready_read fuel fin en d = (out, Ok en').
Proof.
  intros B H L I.
  assert (Go : forall e c p, received ++ d = p ++ c -> 5 <= e -> exists out en' n, entry_ok (received ++ d) en' /\
    forall fuel, (n <= fuel)%nat ->
    (let '(out, r) := deliver fuel fin 0 e c in
     (out, '(e', c', k) <- r ;; if (Zlen c' <? 5) || fin k then Ok None else Ok (Some (e', c')))) = (out, Ok en')).
  { intros e c p E Le.
    assert (Bc : bytes c) by (rewrite E in B; apply Forall_app in B; apply B).
    assert (Hc : ~ huge_length c) by (intro X; apply H; rewrite E; now apply huge_suffix).
    destruct (deliver_safe fin (S (length c)) 0 e c Bc Hc Le ltac:(lia)) as (out & e' & c' & k' & p' & R & E' & Ec).
    exists out, (if (Zlen c' <? 5) || fin k' then None else Some (e', c')), (S (length c)). split.
    - destruct ((Zlen c' <? 5) || fin k'); cbn; auto. split; [exact E'|]. exists (p ++ p').
      rewrite <- app_assoc, <- Ec. exact E.
    - intros fuel Lf.
      assert (Mono : forall a k e x o v, deliver a fin k e x = (o, Ok v) -> forall b, (a <= b)%nat ->
                deliver b fin k e x = (o, Ok v)).
      { clear. induction a; intros k e x o v Hx b L; cbn [deliver] in Hx; [discriminate|].
        destruct b as [|b]; [lia|]. cbn [deliver]. destruct ((e <=? Zlen x) && negb (fin k)); [|exact Hx].
        destruct (if 5 <? Zlen (remove0 x e) then getExpectedDataSize (remove0 x e) else Ok e); try discriminate.
        destruct (deliver a fin (S k) a0 (remove0 x e)) as [o2 r2] eqn:Q.
        injection Hx as <- ->. rewrite (IHa _ _ _ _ _ Q b) by lia. reflexivity. }
      rewrite (Mono _ _ _ _ _ _ R fuel Lf). cbn [bind]. now destruct ((Zlen c' <? 5) || fin k'). }
  unfold ready_read. destruct en as [[e c]|]; cbn in I.
  - destruct I as [Le [p ->]]. apply (Go e (c ++ d) p); [now rewrite app_assoc | exact Le].
  - assert (Bd : bytes d) by (apply Forall_app in B; apply B).
    destruct (getExpected_safe d Bd L) as (e & -> & Le); [intro X; apply H; now apply huge_suffix|].
    destruct (Z.eqb_spec e 0); [lia|]. now apply (Go e d received).
Qed.

Lemma read_stream_safe fin : forall chunks received en, bytes (received ++ concat chunks) ->
  ~ huge_length (received ++ concat chunks) -> Forall (fun d => 5 <= Zlen d) chunks -> entry_ok received en ->
  exists out en' n, forall fuel, (n <= fuel)%nat -> read_stream fuel fin en chunks = (out, Ok en').
Proof.
  induction chunks as [|d chunks IH]; intros received en B H L I.
  - exists [], en, 0%nat. reflexivity.
  - cbn [concat] in *. inversion L; subst. rewrite app_assoc in B, H.
    assert (B1 : bytes (received ++ d)) by (apply Forall_app in B; apply B).
    assert (H1 : ~ huge_length (received ++ d)) by (intro X; apply H; now apply huge_prefix).
    destruct (ready_read_safe fin received en d B1 H1) as (o1 & en1 & n1 & I1 & R1); auto.
    destruct (IH (received ++ d) en1) as (o2 & en2 & n2 & R2); auto.
    exists (o1 ++ o2), en2, (n1 + n2)%nat. intros fuel Lf. cbn [read_stream]. rewrite R1 by lia. rewrite R2 by lia.
    reflexivity.
Qed.

(** ** Hostile lengths *)

Lemma deliver_hangs fuel : forall k e c, e <= 0 -> 5 < Zlen c -> getExpectedDataSize c = Ok e ->
  snd (deliver fuel (fun _ => false) k e c) = OutOfFuel.
Proof.
  induction fuel; intros k e c E L G; [reflexivity|]. cbn [deliver].
  replace (e <=? Zlen c) with true by (symmetry; apply Z.leb_le; lia). cbn [negb andb].
  replace (remove0 c e) with c by (unfold remove0; now replace (e <=? 0) with true by (symmetry; apply Z.leb_le; lia)).
  replace (5 <? Zlen c) with true by (symmetry; apply Z.ltb_lt; lia). rewrite G.
  destruct (deliver fuel (fun _ => false) (S k) e c) eqn:Q. cbn [snd].
  change r with (snd (l, r)). rewrite <- Q. now apply IHfuel.
Qed.

Lemma negative_length flag len rest : bytes len -> length len = 4%nat -> 2 ^ 31 <= be_number len ->
  getExpectedDataSize (flag :: len ++ rest) = Ok (be_number len - 2 ^ 32 + 5).
Proof.
  intros B L N. pose proof (be_number_bound len B L) as Bd. unfold getExpectedDataSize.
  rewrite Zlen_cons, Zlen_app. pose proof (Zlen_nonneg rest).
  destruct (Z.ltb_spec (1 + (Zlen len + Zlen rest)) 4); [unfold Zlen in *; lia|].
  replace ((flag :: len ++ rest) ++ [0]) with (flag :: len ++ (rest ++ [0])) by (cbn; now rewrite <- app_assoc).
  rewrite int_at_1_spec by auto. unfold toS. rewrite Z.mod_small by lia.
  change (2 ^ (32 - 1)) with (2 ^ 31). destruct (Z.ltb_spec (be_number len) (2 ^ 31)); [lia|].
  destruct (Z.ltb_spec INT_MAX (be_number len - 2 ^ 32 + 5)); [|reflexivity].
  unfold INT_MAX in *. change (2 ^ 32) with 4294967296 in *. lia.
Qed.

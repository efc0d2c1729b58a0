(** A program that does what is expected of the library microjson, so that [right_on] is not asking for too much. *)

From Coq Require Import String ZArith List Bool Lia Permutation.
From Verif Require Import Base Values JsonSpec JsonProofs JsonUnique JsonReadModel JsonReadSpec.
Import ListNotations.
Open Scope Z_scope.

(** Inside a string, after a backslash in it, or outside. *)
Inductive place : Type := Outside | InString | Escaped.

(** The text up to the first comma or closing bracket that is not inside of strings and brackets, and the rest. *)
Fixpoint cut (d : nat) (p : place) (s : list Z) : list Z * list Z :=
  match s with
  | [] => ([], [])
  | c :: s' =>
      let go d p := let '(a, b) := cut d p s' in (c :: a, b) in
      match p with
      | Escaped => go d InString
      | InString => if c =? 34 then go d Outside else if c =? 92 then go d Escaped else go d InString
      | Outside =>
          if c =? 34 then go d InString
          else if (c =? 91) || (c =? 123) then go (S d) Outside
          else if (c =? 93) || (c =? 125) then match d with O => ([], s) | S d' => go d' Outside end
          else if c =? 44 then match d with O => ([], s) | S _ => go d Outside end
          else go d Outside
      end
  end.

Definition is_ws (c : Z) : bool := (c =? 32) || (c =? 9) || (c =? 10) || (c =? 13).
Fixpoint drop_ws (s : list Z) : list Z := match s with c :: s' => if is_ws c then drop_ws s' else s | [] => [] end.
Definition trim (s : list Z) : list Z := rev (drop_ws (rev (drop_ws s))).

(** The text of a string up to its quotation mark, and what follows. *)
Fixpoint string_end (esc : bool) (s : list Z) : list Z * list Z :=
  match s with
  | [] => ([], [])
  | c :: s' =>
      if negb esc && (c =? 34) then ([], s')
      else let '(a, b) := string_end (negb esc && (c =? 92)) s' in (c :: a, b)
  end.

Definition property_of (s : list Z) : list Z * jvalue :=
  let '(name, rest) := string_end false (tl (drop_ws s)) in (name, hand_over (trim (tl (drop_ws rest)))).

Definition after (piece rest : list Z) : nat := (List.length piece + match rest with [] => 0 | _ => 1 end)%nat.

(** The pieces of a list. *)
Fixpoint pieces (fuel : nat) (s : list Z) : list (list Z) :=
  match fuel with
  | O => []
  | S fuel' =>
      let '(a, b) := cut 0 Outside s in
      match trim a with
      | [] => []
      | x => x :: match b with c :: b' => if c =? 44 then pieces fuel' b' else [] | [] => [] end
      end
  end.

Definition scanner : microjson := mkMicrojson
  (fun t => map property_of (pieces (List.length t) (tl t)))
  (fun t => map hand_over (pieces (List.length t) (tl t)))
  (fun s _ => let '(a, b) := cut 0 Outside s in match trim a with [] => None | x => Some (after a b, hand_over x) end)
  (fun s _ => let '(a, b) := cut 0 Outside s in match trim a with [] => None | x => Some (after a b, property_of x) end).

(** ** Cutting *)

Definition pre (a : list Z) (r : list Z * list Z) : list Z * list Z := (a ++ fst r, snd r).

Lemma pre_app a b r : pre (a ++ b) r = pre a (pre b r).
Proof. unfold pre. cbn. now rewrite app_assoc. Qed.
Lemma pre_cons c b r : pre (c :: b) r = pre [c] (pre b r).
Proof. reflexivity. Qed.
Lemma go_pre c (r : list Z * list Z) : (let '(a, b) := r in (c :: a, b)) = pre [c] r.
Proof. now destruct r. Qed.

Definition quiet (c : Z) : Prop := c <> 34 /\ c <> 91 /\ c <> 123 /\ c <> 93 /\ c <> 125 /\ c <> 44.

Lemma cut_quiet1 d c r : quiet c -> cut d Outside (c :: r) = pre [c] (cut d Outside r).
Proof.
  intros (N1 & N2 & N3 & N4 & N5 & N6). apply Z.eqb_neq in N1, N2, N3, N4, N5, N6. cbn [cut]. rewrite N1, N2, N3, N4, N5, N6. apply go_pre.
Qed.
Lemma cut_quiet d t r : Forall quiet t -> cut d Outside (t ++ r) = pre t (cut d Outside r).
Proof.
  induction 1 as [|c t Qc Qt IH]; [cbn [app]; now destruct (cut d Outside r)|].
  cbn [app]. rewrite cut_quiet1, IH by exact Qc. reflexivity.
Qed.
Lemma cut_plain d t r : Forall plain t -> cut d InString (t ++ r) = pre t (cut d InString r).
Proof.
  induction 1 as [|c t (_ & N1 & N2) Qt IH]; [cbn [app]; now destruct (cut d InString r)|].
  cbn [app cut]. apply Z.eqb_neq in N1, N2. rewrite N1, N2, go_pre, IH. reflexivity.
Qed.
Lemma cut_escape d c r : cut d InString (92 :: c :: r) = pre [92; c] (cut d InString r).
Proof. cbn [cut]. change (92 =? 34) with false. change (92 =? 92) with true. cbn match. now destruct (cut d InString r). Qed.

Lemma cut_chars d s t : chars s t -> forall r, cut d InString (t ++ r) = pre t (cut d InString r).
Proof.
  induction 1 as [|c s t P C IH|e c s t E C IH|h c s t H B C IH|h1 c1 h2 c2 s t H1 B1 H2 B2 C IH]; intro r.
  - cbn [app]. now destruct (cut d InString r).
  - change ((c :: t) ++ r) with ([c] ++ (t ++ r)). rewrite cut_plain, IH by (constructor; [exact P | constructor]). reflexivity.
  - cbn [app]. rewrite cut_escape, IH. reflexivity.
  - cbn [app]. rewrite cut_escape, <- app_assoc, (cut_plain d h), IH by (eapply hex4_plain; exact H). rewrite <- !pre_app. reflexivity.
  - cbn [app]. rewrite cut_escape, <- app_assoc, (cut_plain d h1) by (eapply hex4_plain; exact H1). cbn [app].
    rewrite cut_escape, <- app_assoc, (cut_plain d h2), IH by (eapply hex4_plain; exact H2). rewrite <- !pre_app. f_equal. repeat (rewrite <- !app_assoc; cbn [app]). reflexivity.
Qed.

Lemma cut_open_quote d r : cut d Outside (34 :: r) = pre [34] (cut d InString r).
Proof. cbn [cut]. apply go_pre. Qed.
Lemma cut_close_quote d r : cut d InString (34 :: r) = pre [34] (cut d Outside r).
Proof. cbn [cut]. apply go_pre. Qed.
Lemma cut_quoted d s t r : chars s t -> cut d Outside (34 :: t ++ 34 :: r) = pre (34 :: t ++ [34]) (cut d Outside r).
Proof.
  intro C. rewrite cut_open_quote, (cut_chars d s t C), cut_close_quote. rewrite <- !pre_app. reflexivity.
Qed.
Lemma cut_open d c r : c = 91 \/ c = 123 -> cut d Outside (c :: r) = pre [c] (cut (S d) Outside r).
Proof. intros [-> | ->]; cbn [cut]; apply go_pre. Qed.
Lemma cut_close d c r : c = 93 \/ c = 125 -> cut (S d) Outside (c :: r) = pre [c] (cut d Outside r).
Proof. intros [-> | ->]; cbn [cut]; apply go_pre. Qed.
Lemma cut_comma d r : cut (S d) Outside (44 :: r) = pre [44] (cut (S d) Outside r).
Proof. cbn [cut]. apply go_pre. Qed.

Lemma ws_quiet w : ws w -> Forall quiet w.
Proof. intro H. eapply Forall_impl; [|exact H]. intros c. unfold quiet. lia. Qed.
Lemma number_quiet s : number s -> Forall quiet s.
Proof. intro H. eapply Forall_impl; [|apply number_numc; exact H]. intros c. unfold numc, digit, quiet. lia. Qed.

Lemma cut_text :
  (forall j t, text j t -> forall d r, cut d Outside (t ++ r) = pre t (cut d Outside r)) /\
  (forall l t, elements l t -> forall d r, cut (S d) Outside (t ++ r) = pre t (cut (S d) Outside r)) /\
  (forall l t, members l t -> forall d r, cut (S d) Outside (t ++ r) = pre t (cut (S d) Outside r)).
Proof.
  assert (K : forall s, Forall quiet (bytes_of s) -> forall d r, cut d Outside (bytes_of s ++ r) = pre (bytes_of s) (cut d Outside r)).
  { intros s H d r. now apply cut_quiet. }
  apply (json_mind
    (fun j t _ => forall d r, cut d Outside (t ++ r) = pre t (cut d Outside r))
    (fun l t _ => forall d r, cut (S d) Outside (t ++ r) = pre t (cut (S d) Outside r))
    (fun l t _ => forall d r, cut (S d) Outside (t ++ r) = pre t (cut (S d) Outside r))).
  - intros d r. apply K. cbn. repeat constructor; unfold quiet; lia.
  - intros d r. apply K. cbn. repeat constructor; unfold quiet; lia.
  - intros d r. apply K. cbn. repeat constructor; unfold quiet; lia.
  - intros s Ns d r. apply cut_quiet. now apply number_quiet.
  - intros s t C d r. cbn [app]. rewrite <- app_assoc. cbn [app]. now apply (cut_quoted d s).
  - intros w W d r. cbn [app]. rewrite <- app_assoc. rewrite cut_open by auto. rewrite cut_quiet by now apply ws_quiet. cbn [app].
    rewrite cut_close by auto. rewrite <- !pre_app. reflexivity.
  - intros l t _ IH d r. cbn [app]. rewrite <- app_assoc. rewrite cut_open by auto. rewrite IH. cbn [app].
    rewrite cut_close by auto. rewrite <- !pre_app. reflexivity.
  - intros w W d r. cbn [app]. rewrite <- app_assoc. rewrite cut_open by auto. rewrite cut_quiet by now apply ws_quiet. cbn [app].
    rewrite cut_close by auto. rewrite <- !pre_app. reflexivity.
  - intros l t _ IH d r. cbn [app]. rewrite <- app_assoc. rewrite cut_open by auto. rewrite IH. cbn [app].
    rewrite cut_close by auto. rewrite <- !pre_app. reflexivity.
  - intros w1 w2 j t W1 W2 _ IH d r. rewrite <- !app_assoc.
    rewrite cut_quiet, IH, cut_quiet by now apply ws_quiet. rewrite <- !pre_app. f_equal. repeat (rewrite <- !app_assoc; cbn [app]). reflexivity.
  - intros w1 w2 j t l t' W1 W2 _ IH _ IH' d r. rewrite <- !app_assoc.
    rewrite cut_quiet, IH, cut_quiet by now apply ws_quiet. cbn [app]. rewrite cut_comma, IH'. rewrite <- !pre_app. f_equal. repeat (rewrite <- !app_assoc; cbn [app]). reflexivity.
  - intros w1 w2 w3 w4 n nt j t W1 W2 W3 W4 C _ IH d r. repeat (rewrite <- !app_assoc; cbn [app]).
    rewrite (cut_quiet _ w1) by now apply ws_quiet. rewrite (cut_quoted _ n) by exact C. rewrite (cut_quiet _ w2) by now apply ws_quiet.
    rewrite cut_quiet1 by (unfold quiet; lia). rewrite (cut_quiet _ w3), IH, (cut_quiet _ w4) by now apply ws_quiet.
    rewrite <- !pre_app. f_equal. repeat (rewrite <- !app_assoc; cbn [app]). reflexivity.
  - intros w1 w2 w3 w4 n nt j t l t' W1 W2 W3 W4 C _ IH _ IH' d r. repeat (rewrite <- !app_assoc; cbn [app]).
    rewrite (cut_quiet _ w1) by now apply ws_quiet. rewrite (cut_quoted _ n) by exact C. rewrite (cut_quiet _ w2) by now apply ws_quiet.
    rewrite cut_quiet1 by (unfold quiet; lia). rewrite (cut_quiet _ w3), IH, (cut_quiet _ w4) by now apply ws_quiet.
    rewrite cut_comma, IH'.
    rewrite <- !pre_app. f_equal. repeat (rewrite <- !app_assoc; cbn [app]). reflexivity.
Qed.

(** ** Trimming *)

Lemma is_ws_spec c : is_ws c = true <-> wsc c.
Proof. unfold is_ws, wsc. rewrite !orb_true_iff, !Z.eqb_eq. tauto. Qed.
Lemma drop_ws_app w r : ws w -> drop_ws (w ++ r) = drop_ws r.
Proof. induction 1 as [|c w H W IH]; [reflexivity|]. cbn [app drop_ws]. now rewrite (proj2 (is_ws_spec c) H). Qed.
Lemma drop_ws_stop c r : ~ wsc c -> drop_ws (c :: r) = c :: r.
Proof. intro H. cbn [drop_ws]. destruct (is_ws c) eqn:E; [apply is_ws_spec in E; contradiction | reflexivity]. Qed.
Lemma ws_rev w : ws w -> ws (rev w).
Proof. intro H. apply Forall_rev. exact H. Qed.

Lemma text_last j t : text j t -> exists t' c, t = t' ++ [c] /\ ~ wsc c /\ c <> 92.
Proof.
  intro H. destruct H as [ | | |s Ns|s t C|w W|l t E|w W|l t M].
  - exists (bytes_of "nul"), 108. repeat split; unfold wsc; lia.
  - exists (bytes_of "tru"), 101. repeat split; unfold wsc; lia.
  - exists (bytes_of "fals"), 101. repeat split; unfold wsc; lia.
  - pose proof (number_numc s Ns) as F. destruct (number_head s Ns) as (c & s' & -> & _).
    destruct (exists_last (l := c :: s')) as (t' & x & E); [discriminate|]. rewrite E in *. exists t', x. split; [reflexivity|].
    apply Forall_app in F as [_ F]. inversion F as [|a b Fx _]; subst. unfold numc, digit, wsc in *. lia.
  - exists (34 :: t), 34. repeat split; unfold wsc; lia.
  - exists (91 :: w), 93. repeat split; unfold wsc; lia.
  - exists (91 :: t), 93. repeat split; unfold wsc; lia.
  - exists (123 :: w), 125. repeat split; unfold wsc; lia.
  - exists (123 :: t), 125. repeat split; unfold wsc; lia.
Qed.

Lemma trim_ends w1 w2 c t t' x : ws w1 -> ws w2 -> ~ wsc c -> ~ wsc x -> c :: t = t' ++ [x] -> trim (w1 ++ (c :: t) ++ w2) = c :: t.
Proof.
  intros W1 W2 Nc Nx E. unfold trim. rewrite drop_ws_app by exact W1. cbn [app]. rewrite drop_ws_stop by exact Nc.
  change (c :: t ++ w2) with ((c :: t) ++ w2). rewrite rev_app_distr, drop_ws_app by now apply ws_rev.
  rewrite E, rev_app_distr. cbn [rev app]. rewrite drop_ws_stop by exact Nx. cbn [rev]. now rewrite rev_involutive.
Qed.
Lemma trim_text w1 w2 j t : ws w1 -> ws w2 -> text j t -> trim (w1 ++ t ++ w2) = t.
Proof.
  intros W1 W2 T. destruct (text_head _ _ T) as (c & t0 & -> & Nc & _). destruct (text_last _ _ T) as (t' & x & E & Nx & _).
  now apply (trim_ends w1 w2 c t0 t' x).
Qed.
Lemma trim_ws w : ws w -> trim w = [].
Proof. intro W. unfold trim. rewrite <- (app_nil_r w), drop_ws_app by exact W. reflexivity. Qed.

(** ** Names *)

Lemma string_plain t r : Forall plain t -> string_end false (t ++ r) = pre t (string_end false r).
Proof.
  induction 1 as [|c t (_ & N1 & N2) Qt IH]; [cbn [app]; now destruct (string_end false r)|].
  cbn [app string_end]. apply Z.eqb_neq in N1, N2. rewrite N1, N2. cbn [negb andb]. now rewrite IH, go_pre.
Qed.
Lemma string_escape c r : string_end false (92 :: c :: r) = pre [92; c] (string_end false r).
Proof. cbn [string_end]. change (92 =? 34) with false. change (92 =? 92) with true. cbn [negb andb]. now destruct (string_end false r). Qed.
Lemma string_chars s t : chars s t -> forall r, string_end false (t ++ r) = pre t (string_end false r).
Proof.
  induction 1 as [|c s t P C IH|e c s t E C IH|h c s t H B C IH|h1 c1 h2 c2 s t H1 B1 H2 B2 C IH]; intro r.
  - cbn [app]. now destruct (string_end false r).
  - change ((c :: t) ++ r) with ([c] ++ (t ++ r)). rewrite string_plain, IH by (constructor; [exact P | constructor]). reflexivity.
  - cbn [app]. rewrite string_escape, IH. reflexivity.
  - cbn [app]. rewrite string_escape, <- app_assoc, (string_plain h), IH by (eapply hex4_plain; exact H). rewrite <- !pre_app. reflexivity.
  - cbn [app]. rewrite string_escape, <- app_assoc, (string_plain h1) by (eapply hex4_plain; exact H1). cbn [app].
    rewrite string_escape, <- app_assoc, (string_plain h2), IH by (eapply hex4_plain; exact H2). rewrite <- !pre_app. f_equal. repeat (rewrite <- !app_assoc; cbn [app]). reflexivity.
Qed.

Lemma property_text w1 w2 w3 w4 n nt j t : ws w1 -> ws w2 -> ws w3 -> ws w4 -> chars n nt -> text j t ->
  property_of (w1 ++ 34 :: nt ++ 34 :: w2 ++ 58 :: w3 ++ t ++ w4) = (nt, hand_over t).
Proof.
  intros W1 W2 W3 W4 C T. unfold property_of. rewrite drop_ws_app, drop_ws_stop by (auto; unfold wsc; lia). cbn [tl].
  rewrite (string_chars n nt C). cbn [string_end negb andb]. change (34 =? 34) with true. cbn match. unfold pre. cbn [fst snd]. rewrite app_nil_r.
  rewrite drop_ws_app, drop_ws_stop by (auto; unfold wsc; lia). cbn [tl]. now rewrite (trim_text w3 w4 j t).
Qed.

Lemma trim_property w1 w2 w3 w4 n nt j t : ws w1 -> ws w4 -> chars n nt -> text j t ->
  trim (w1 ++ 34 :: nt ++ 34 :: w2 ++ 58 :: w3 ++ t ++ w4) = 34 :: nt ++ 34 :: w2 ++ 58 :: w3 ++ t.
Proof.
  intros W1 W4 C T. destruct (text_last _ _ T) as (t' & x & -> & Nx & _).
  replace (w1 ++ 34 :: nt ++ 34 :: w2 ++ 58 :: w3 ++ (t' ++ [x]) ++ w4)
    with (w1 ++ (34 :: nt ++ 34 :: w2 ++ 58 :: w3 ++ t' ++ [x]) ++ w4) by (repeat (rewrite <- !app_assoc; cbn [app]); reflexivity).
  apply (trim_ends w1 w4 34 _ (34 :: nt ++ 34 :: w2 ++ 58 :: w3 ++ t') x); auto; [unfold wsc; lia|].
  cbn [app]. repeat (rewrite <- !app_assoc; cbn [app]). reflexivity.
Qed.

(** ** The parts of a text *)

Section Parts.
Variable ok : list Z -> Prop.
(** Parts of such texts are such texts. *)
Hypothesis ok_part : forall a t b c t', ok (a ++ t ++ b) -> t = t' ++ [c] -> c <> 92 -> ok t.

Lemma ok_part_text a t b j : ok (a ++ t ++ b) -> text j t -> ok t.
Proof. intros Q T. destruct (text_last _ _ T) as (t' & c & E & _ & N). now apply (ok_part a t b c t'). Qed.

(** What a cut finds: the first piece is [p], trimmed [x], and then comes a comma and [r], or the end. *)
Lemma cut_stop p c r : (forall d r, cut d Outside (p ++ r) = pre p (cut d Outside r)) -> c = 44 \/ c = 93 \/ c = 125 ->
  cut 0 Outside (p ++ c :: r) = (p, c :: r).
Proof. intros H C. rewrite H. destruct C as [-> |[-> | ->]]; unfold pre; cbn; now rewrite app_nil_r. Qed.

Lemma cut_element w1 w2 j t : ws w1 -> ws w2 -> text j t -> forall d r,
  cut d Outside ((w1 ++ t ++ w2) ++ r) = pre (w1 ++ t ++ w2) (cut d Outside r).
Proof.
  intros W1 W2 T d r. rewrite <- !app_assoc. rewrite (cut_quiet _ w1), (proj1 cut_text j t T), (cut_quiet _ w2) by now apply ws_quiet.
  rewrite <- !pre_app. now rewrite <- app_assoc.
Qed.
Lemma cut_member w1 w2 w3 w4 n nt j t : ws w1 -> ws w2 -> ws w3 -> ws w4 -> chars n nt -> text j t -> forall d r,
  cut d Outside ((w1 ++ 34 :: nt ++ 34 :: w2 ++ 58 :: w3 ++ t ++ w4) ++ r) = pre (w1 ++ 34 :: nt ++ 34 :: w2 ++ 58 :: w3 ++ t ++ w4) (cut d Outside r).
Proof.
  intros W1 W2 W3 W4 C T d r. repeat (rewrite <- !app_assoc; cbn [app]).
  rewrite (cut_quiet _ w1) by now apply ws_quiet. rewrite (cut_quoted _ n) by exact C. rewrite (cut_quiet _ w2) by now apply ws_quiet.
  rewrite cut_quiet1 by (unfold quiet; lia). rewrite (cut_quiet _ w3), (proj1 cut_text j t T), (cut_quiet _ w4) by now apply ws_quiet.
  rewrite <- !pre_app. f_equal. repeat (rewrite <- !app_assoc; cbn [app]). reflexivity.
Qed.

(** The first piece of a list of elements or members, and the rest. *)
Lemma text_not_nil j t : text j t -> t <> [].
Proof. intro T. destruct (text_head _ _ T) as (c & t' & -> & _). discriminate. Qed.

Lemma pieces_step f p c r x : cut 0 Outside (p ++ c :: r) = (p, c :: r) -> trim p = x -> x <> [] ->
  pieces (S f) (p ++ c :: r) = x :: if c =? 44 then pieces f r else [].
Proof. intros E T Nx. cbn [pieces]. rewrite E, T. destruct x; [contradiction | reflexivity]. Qed.

Lemma pieces_elements l t : elements l t -> forall a b f, ok (a ++ t ++ 93 :: b) -> (List.length l <= f)%nat ->
  Forall2 (fun j x => ok x /\ text j x) l (pieces f (t ++ 93 :: b)).
Proof.
  induction 1 as [w1 w2 j t W1 W2 T|w1 w2 j t l t' W1 W2 T E IH]; intros a b f Qt L; (destruct f as [|f]; [cbn in L; lia|]).
  - rewrite (pieces_step f (w1 ++ t ++ w2) 93 b t); [|apply cut_stop; [now apply (cut_element _ _ j)|auto] | now apply (trim_text _ _ j) | now apply (text_not_nil j)].
    constructor; [|constructor]. split; [|exact T]. apply (ok_part_text (a ++ w1) t (w2 ++ 93 :: b) j); [|exact T].
    repeat (rewrite <- !app_assoc in *; cbn [app] in * ). exact Qt.
  - replace ((w1 ++ t ++ w2 ++ 44 :: t') ++ 93 :: b) with ((w1 ++ t ++ w2) ++ 44 :: t' ++ 93 :: b) by (repeat (rewrite <- !app_assoc; cbn [app]); reflexivity).
    rewrite (pieces_step f (w1 ++ t ++ w2) 44 (t' ++ 93 :: b) t); [|apply cut_stop; [now apply (cut_element _ _ j)|auto] | now apply (trim_text _ _ j) | now apply (text_not_nil j)].
    change (44 =? 44) with true. cbn match. constructor.
    + split; [|exact T]. apply (ok_part_text (a ++ w1) t (w2 ++ 44 :: t' ++ 93 :: b) j); [|exact T].
      repeat (rewrite <- !app_assoc in *; cbn [app] in * ). exact Qt.
    + apply (IH (a ++ w1 ++ t ++ w2 ++ [44]) b f); [|cbn in L; lia]. repeat (rewrite <- !app_assoc in *; cbn [app] in * ). exact Qt.
Qed.

Definition member_piece (p : list Z * json) (x : list Z) : Prop :=
  exists nt w2 w3 t, chars (fst p) nt /\ ws w2 /\ ws w3 /\ text (snd p) t /\ ok (34 :: nt ++ [34]) /\ ok t /\
    x = 34 :: nt ++ 34 :: w2 ++ 58 :: w3 ++ t.

Lemma member_property p x : member_piece p x -> handed_member ok p (property_of x).
Proof.
  intros (nt & w2 & w3 & t & C & W2 & W3 & T & Q1 & Q2 & ->).
  pose proof (property_text [] w2 w3 [] (fst p) nt (snd p) t ltac:(constructor) W2 W3 ltac:(constructor) C T) as E.
  cbn [app] in E. rewrite app_nil_r in E. rewrite E. split; [exact Q1|]. split; [exact C|]. exists t. auto.
Qed.

Lemma ok_name a nt b : ok (a ++ 34 :: nt ++ 34 :: b) -> ok (34 :: nt ++ [34]).
Proof.
  intro H. apply (ok_part a (34 :: nt ++ [34]) b 34 (34 :: nt)); auto; [|lia].
  cbn [app]. rewrite <- app_assoc. exact H.
Qed.

Ltac lists := repeat (rewrite <- !app_assoc in *; cbn [app] in * ).

Lemma pieces_members l t : members l t -> forall a b f, ok (a ++ t ++ 125 :: b) -> (List.length l <= f)%nat ->
  Forall2 member_piece l (pieces f (t ++ 125 :: b)).
Proof.
  induction 1 as [w1 w2 w3 w4 n nt j t W1 W2 W3 W4 C T|w1 w2 w3 w4 n nt j t l t' W1 W2 W3 W4 C T E IH]; intros a b f Qt L; (destruct f as [|f]; [cbn in L; lia|]).
  - rewrite (pieces_step f (w1 ++ 34 :: nt ++ 34 :: w2 ++ 58 :: w3 ++ t ++ w4) 125 b (34 :: nt ++ 34 :: w2 ++ 58 :: w3 ++ t));
      [|apply cut_stop; [now apply (cut_member _ _ _ _ n nt j)|auto] | now apply (trim_property _ _ _ _ n _ j) | discriminate].
    constructor; [|constructor]. exists nt, w2, w3, t. cbn [fst snd]. repeat split; auto.
    + apply (ok_name (a ++ w1) nt (w2 ++ 58 :: w3 ++ t ++ w4 ++ 125 :: b)). lists. exact Qt.
    + apply (ok_part_text (a ++ w1 ++ 34 :: nt ++ 34 :: w2 ++ 58 :: w3) t (w4 ++ 125 :: b) j); [|exact T]. lists. exact Qt.
  - replace ((w1 ++ 34 :: nt ++ 34 :: w2 ++ 58 :: w3 ++ t ++ w4 ++ 44 :: t') ++ 125 :: b)
      with ((w1 ++ 34 :: nt ++ 34 :: w2 ++ 58 :: w3 ++ t ++ w4) ++ 44 :: t' ++ 125 :: b) by (lists; reflexivity).
    rewrite (pieces_step f (w1 ++ 34 :: nt ++ 34 :: w2 ++ 58 :: w3 ++ t ++ w4) 44 (t' ++ 125 :: b) (34 :: nt ++ 34 :: w2 ++ 58 :: w3 ++ t));
      [|apply cut_stop; [now apply (cut_member _ _ _ _ n nt j)|auto] | now apply (trim_property _ _ _ _ n _ j) | discriminate].
    change (44 =? 44) with true. cbn match. constructor.
    + exists nt, w2, w3, t. cbn [fst snd]. repeat split; auto.
      * apply (ok_name (a ++ w1) nt (w2 ++ 58 :: w3 ++ t ++ w4 ++ 44 :: t' ++ 125 :: b)). lists. exact Qt.
      * apply (ok_part_text (a ++ w1 ++ 34 :: nt ++ 34 :: w2 ++ 58 :: w3) t (w4 ++ 44 :: t' ++ 125 :: b) j); [|exact T]. lists. exact Qt.
    + apply (IH (a ++ w1 ++ 34 :: nt ++ 34 :: w2 ++ 58 :: w3 ++ t ++ w4 ++ [44]) b f); [|cbn in L; lia]. lists. exact Qt.
Qed.

Lemma elements_length l t : elements l t -> (List.length l <= List.length t)%nat.
Proof.
  induction 1 as [w1 w2 j t W1 W2 T|w1 w2 j t l t' W1 W2 T E IH]; cbn [List.length].
  - destruct (text_head _ _ T) as (c & t' & -> & _). rewrite !app_length. cbn [List.length]. lia.
  - rewrite !app_length. cbn [List.length]. lia.
Qed.
Lemma members_length l t : members l t -> (List.length l <= List.length t)%nat.
Proof.
  induction 1 as [w1 w2 w3 w4 n nt j t W1 W2 W3 W4 C T|w1 w2 w3 w4 n nt j t l t' W1 W2 W3 W4 C T E IH]; cbn [List.length].
  - rewrite !app_length. cbn [List.length]. lia.
  - rewrite !app_length. cbn [List.length]. rewrite !app_length. cbn [List.length]. rewrite !app_length. cbn [List.length]. rewrite !app_length. cbn [List.length]. lia.
Qed.

Lemma pieces_ws f w c b : ws w -> c = 44 \/ c = 93 \/ c = 125 -> pieces (S f) (w ++ c :: b) = [].
Proof.
  intros W C. cbn [pieces]. rewrite cut_stop; [|intros; now apply cut_quiet, ws_quiet | exact C]. now rewrite trim_ws.
Qed.

Lemma Forall2_map_r {A B C} (P : A -> C -> Prop) (f : B -> C) l l' : Forall2 (fun a b => P a (f b)) l l' -> Forall2 P l (map f l').
Proof. induction 1; cbn [map]; constructor; auto. Qed.
Lemma Forall2_weaken {A B} (P Q : A -> B -> Prop) l l' : (forall a b, P a b -> Q a b) -> Forall2 P l l' -> Forall2 Q l l'.
Proof. intro H. induction 1; constructor; auto. Qed.

Lemma split_object l t : ok t -> text (JObj l) t -> Forall2 (handed_member ok) l (parseJsonObject scanner t).
Proof.
  intros Qt T. cbn [parseJsonObject scanner]. apply Forall2_map_r. apply (Forall2_weaken member_piece); [apply member_property|].
  inversion T as [| | | | | | |w W|l' t' M]; subst; cbn [tl List.length].
  - rewrite pieces_ws by auto. constructor.
  - apply (pieces_members l t' M [123]); [exact Qt|]. apply members_length in M. rewrite app_length. lia.
Qed.
Lemma split_array l t : ok t -> text (JArr l) t -> Forall2 (handed ok) l (parseJsonArray scanner t).
Proof.
  intros Qt T. cbn [parseJsonArray scanner]. apply Forall2_map_r. apply (Forall2_weaken (fun j x => ok x /\ text j x)); [intros j x []; exists x; auto|].
  inversion T as [| | | | |w W|l' t' M| |]; subst; cbn [tl List.length].
  - rewrite pieces_ws by auto. constructor.
  - apply (pieces_elements l t' M [91]); [exact Qt|]. apply elements_length in M. rewrite app_length. lia.
Qed.

(** The calls one after the other give the same pieces. *)
Lemma unopened_other c s : (forall r, s <> c :: r) -> unopened c s = s.
Proof. destruct s as [|x s]; [intros _; unfold unopened; now destruct (hd 0 [] =? c)|]. intro H. unfold unopened. cbn [hd tl]. destruct (Z.eqb_spec x c) as [->|]; [exfalso; now apply (H s) | reflexivity]. Qed.

Lemma after_skip (p : list Z) c r : skipn (after p (c :: r)) (p ++ c :: r) = r /\ (after p (c :: r) <= List.length (p ++ c :: r))%nat.
Proof.
  unfold after. split; [|rewrite app_length; cbn [List.length]; lia].
  rewrite skipn_app, skipn_all2 by lia. replace (List.length p + 1 - List.length p)%nat with 1%nat by lia. reflexivity.
Qed.

Lemma values_elements l t : elements l t -> Forall is_jobject l -> forall a s, ok (a ++ t ++ [93]) -> unopened 91 s = t ++ [93] ->
  exists vs, values scanner s vs /\ Forall2 (handed ok) l vs.
Proof.
  assert (First : forall w1 j t r, ws w1 -> text j t -> is_jobject j -> forall x, w1 ++ t ++ r <> 91 :: x).
  { clear l t. intros w1 j t r W T J x E. destruct W as [|c w Hc W]; [|cbn in E; injection E as -> _; lia].
    destruct j; try contradiction. inversion T; subst; discriminate E. }
  assert (Step : forall w1 w2 j t c r s, ws w1 -> ws w2 -> text j t -> (c = 44 \/ c = 93 \/ c = 125) -> unopened 91 s = (w1 ++ t ++ w2) ++ c :: r ->
            forall vs, values scanner r vs -> values scanner s (hand_over t :: vs)).
  { clear l t. intros w1 w2 j t c r s W1 W2 T Hc Es vs V. destruct (after_skip (w1 ++ t ++ w2) c r) as [A1 A2]. rewrite <- Es in A1, A2.
    apply (values_next scanner s (after (w1 ++ t ++ w2) (c :: r))).
    - intros ->. cbn in Es. destruct w1; [|discriminate]. destruct (text_head _ _ T) as (x & t0 & -> & _). discriminate Es.
    - cbn [extractValue scanner]. rewrite Es, cut_stop; [|now apply (cut_element _ _ j) | exact Hc]. rewrite (trim_text w1 w2 j t) by auto.
      destruct (text_head _ _ T) as (x & t0 & -> & _). reflexivity.
    - exact A2.
    - rewrite A1. exact V. }
  induction 1 as [w1 w2 j t W1 W2 T|w1 w2 j t l t' W1 W2 T E IH]; intros J a s Qt Es.
  - exists [hand_over t]. split.
    + apply (Step w1 w2 j t 93 [] s); auto. constructor.
    + constructor; [|constructor]. exists t. split; [|now split]. apply (ok_part_text (a ++ w1) t (w2 ++ [93]) j); [|exact T]. lists. exact Qt.
  - inversion J as [|x y J1 J2]; subst.
    destruct (IH J2 (a ++ w1 ++ t ++ w2 ++ [44]) (t' ++ [93])) as (vs & V & H).
    + lists. exact Qt.
    + apply unopened_other. intros r Er. destruct E as [v1 v2 j' u V1 V2 U|v1 v2 j' u l' u' V1 V2 U E'].
      * inversion J2; subst. rewrite <- !app_assoc in Er. now apply (First v1 j' u (v2 ++ [93])) in Er.
      * inversion J2; subst. rewrite <- !app_assoc in Er. now apply (First v1 j' u (v2 ++ (44 :: u') ++ [93])) in Er.
    + exists (hand_over t :: vs). split.
      * apply (Step w1 w2 j t 44 (t' ++ [93]) s); auto. rewrite Es. lists. reflexivity.
      * constructor; [|exact H]. exists t. split; [|now split]. apply (ok_part_text (a ++ w1) t (w2 ++ 44 :: t' ++ [93]) j); [|exact T]. lists. exact Qt.
Qed.

Lemma properties_members l t : members l t -> forall a s, ok (a ++ t ++ [125]) -> unopened 123 s = t ++ [125] ->
  exists ps, properties scanner s ps /\ Forall2 (handed_member ok) l ps.
Proof.
  assert (Step : forall w1 w2 w3 w4 n nt j t c r s, ws w1 -> ws w2 -> ws w3 -> ws w4 -> chars n nt -> text j t -> (c = 44 \/ c = 93 \/ c = 125) ->
            unopened 123 s = (w1 ++ 34 :: nt ++ 34 :: w2 ++ 58 :: w3 ++ t ++ w4) ++ c :: r ->
            forall vs, properties scanner r vs -> properties scanner s (property_of (34 :: nt ++ 34 :: w2 ++ 58 :: w3 ++ t) :: vs)).
  { clear l t. intros w1 w2 w3 w4 n nt j t c r s W1 W2 W3 W4 C T Hc Es vs V. destruct (after_skip (w1 ++ 34 :: nt ++ 34 :: w2 ++ 58 :: w3 ++ t ++ w4) c r) as [A1 A2].
    rewrite <- Es in A1, A2. apply (properties_next scanner s (after (w1 ++ 34 :: nt ++ 34 :: w2 ++ 58 :: w3 ++ t ++ w4) (c :: r))).
    - intros ->. cbn in Es. destruct w1; discriminate Es.
    - cbn [extractProperty scanner]. rewrite Es, cut_stop; [|now apply (cut_member _ _ _ _ n nt j) | exact Hc].
      rewrite (trim_property w1 w2 w3 w4 n nt j t) by auto. reflexivity.
    - exact A2.
    - rewrite A1. exact V. }
  induction 1 as [w1 w2 w3 w4 n nt j t W1 W2 W3 W4 C T|w1 w2 w3 w4 n nt j t l t' W1 W2 W3 W4 C T E IH]; intros a s Qt Es.
  - exists [property_of (34 :: nt ++ 34 :: w2 ++ 58 :: w3 ++ t)]. split.
    + apply (Step w1 w2 w3 w4 n nt j t 125 [] s); auto. constructor.
    + constructor; [|constructor]. apply member_property. exists nt, w2, w3, t. cbn [fst snd]. repeat split; auto.
      * apply (ok_name (a ++ w1) nt (w2 ++ 58 :: w3 ++ t ++ w4 ++ [125])). lists. exact Qt.
      * apply (ok_part_text (a ++ w1 ++ 34 :: nt ++ 34 :: w2 ++ 58 :: w3) t (w4 ++ [125]) j); [|exact T]. lists. exact Qt.
  - destruct (IH (a ++ w1 ++ 34 :: nt ++ 34 :: w2 ++ 58 :: w3 ++ t ++ w4 ++ [44]) (t' ++ [125])) as (vs & V & H).
    + lists. exact Qt.
    + apply unopened_other. intros r Er.
      destruct E as [v1 v2 v3 v4 n' nt' j' u V1 V2 V3 V4 C' U|v1 v2 v3 v4 n' nt' j' u l' u' V1 V2 V3 V4 C' U E'];
        (destruct V1 as [|c w Hc V1]; cbn [app] in Er; injection Er as Er _; lia).
    + exists (property_of (34 :: nt ++ 34 :: w2 ++ 58 :: w3 ++ t) :: vs). split.
      * apply (Step w1 w2 w3 w4 n nt j t 44 (t' ++ [125]) s); auto. rewrite Es. lists. reflexivity.
      * constructor; [|exact H]. apply member_property. exists nt, w2, w3, t. cbn [fst snd]. repeat split; auto.
        -- apply (ok_name (a ++ w1) nt (w2 ++ 58 :: w3 ++ t ++ w4 ++ 44 :: t' ++ [125])). lists. exact Qt.
        -- apply (ok_part_text (a ++ w1 ++ 34 :: nt ++ 34 :: w2 ++ 58 :: w3) t (w4 ++ 44 :: t' ++ [125]) j); [|exact T]. lists. exact Qt.
Qed.

Lemma scanner_right_on : right_on scanner ok.
Proof.
  split; [|split; [|split]].
  - intros l t Qt T _. exists (parseJsonObject scanner t). split; [reflexivity|]. now apply split_object.
  - intros js t Qt T. now apply split_array.
  - intros js t Qt T J. inversion T as [| | | | |w W|l' t' M| |]; subst.
    + exists []. split; [|constructor]. apply values_stop; [discriminate|]. cbn [extractValue scanner]. unfold unopened. cbn [hd tl].
      change (91 =? 91) with true. cbn match. rewrite cut_stop; [|intros; now apply cut_quiet, ws_quiet | auto]. now rewrite trim_ws.
    + apply (values_elements js t' M J [91]); [exact Qt | reflexivity].
  - intros l t Qt T. inversion T as [| | | | | | |w W|l' t' M]; subst.
    + exists []. split; [|constructor]. apply properties_stop; [discriminate|]. cbn [extractProperty scanner]. unfold unopened. cbn [hd tl].
      change (123 =? 123) with true. cbn match. rewrite cut_stop; [|intros; now apply cut_quiet, ws_quiet | auto]. now rewrite trim_ws.
    + apply (properties_members l t' M [123]); [exact Qt | reflexivity].
Qed.
End Parts.

Lemma quotes_part a t b c t' : quotes_only (a ++ t ++ b) -> t = t' ++ [c] -> c <> 92 -> quotes_only t.
Proof.
  intros Q E Nc x y Exy. destruct (Q (a ++ x) (y ++ b)) as (b' & Eb).
  - rewrite Exy. repeat (rewrite <- !app_assoc; cbn [app]). reflexivity.
  - destruct y as [|z y]; [|injection Eb as -> _; now exists y].
    exfalso. rewrite E in Exy. apply app_inj_tail in Exy as [_ X]. contradiction.
Qed.

(** All that is expected of microjson can be met. *)
Theorem scanner_right : right_on scanner quotes_only.
Proof. exact (scanner_right_on quotes_only quotes_part). Qed.

Theorem scanner_right_always : right_on scanner (fun _ => True).
Proof. apply scanner_right_on. auto. Qed.

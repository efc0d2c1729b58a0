(** What the JSON writer produces. *)

From Coq Require Import String ZArith List Bool Lia.
From Verif Require Import Base Values WireSpec MessageModel SerializeProofs JsonSpec JsonModel.
Import ListNotations.
Open Scope Z_scope.

Lemma bind_ok {A B} (r : res A) (f : A -> res B) b : (x <- r ;; f x) = Ok b -> exists a, r = Ok a /\ f a = Ok b.
Proof. destruct r; cbn; intro H; try discriminate; eauto. Qed.

(** ** Integers *)

Lemma digits_spec : forall fuel n acc, (0 < fuel)%nat -> 0 <= n < 2 ^ Z.of_nat fuel ->
  exists ds, digits fuel n acc = ds ++ acc /\ int_part ds /\ decimal_value ds = n.
Proof.
  induction fuel as [|fuel IH]; intros n acc F B; [lia|]. cbn [digits].
  destruct (Z.ltb_spec n 10).
  - exists [48 + n]. split; [reflexivity|]. split; [|unfold decimal_value; cbn [fold_left]; lia].
    destruct (Z.eq_dec n 0) as [->|]; [constructor | constructor; [lia | constructor]].
  - assert (Q : n = 10 * (n / 10) + n mod 10) by (apply Z.div_mod; lia).
    assert (M : 0 <= n mod 10 < 10) by (apply Z.mod_pos_bound; lia).
    assert (1 <= n / 10) by (apply Z.div_le_lower_bound; lia).
    rewrite Nat2Z.inj_succ, Z.pow_succ_r in B by lia.
    assert (n / 10 < 2 ^ Z.of_nat fuel) by (apply Z.div_lt_upper_bound; lia).
    assert (P : (0 < fuel)%nat). { destruct fuel; [change (2 ^ Z.of_nat 0) with 1 in *; lia | lia]. }
    destruct (IH (n / 10) ((48 + n mod 10) :: acc) P ltac:(lia)) as (ds & -> & I & V).
    exists (ds ++ [48 + n mod 10]). rewrite <- app_assoc. split; [reflexivity|]. split.
    + destruct I as [|d ds D Ds]; [cbn in V; lia|]. cbn [app]. constructor; [exact D|]. apply Forall_app. split; [exact Ds|].
      constructor; [clear - M; unfold digit; lia | constructor].
    + unfold decimal_value in *. rewrite fold_left_app. cbn [fold_left]. rewrite V. lia.
Qed.

Lemma decimal_spec z : integer_text z (decimal z).
Proof.
  unfold decimal, integer_text.
  destruct (digits_spec (S (Z.to_nat (Z.log2 (Z.abs z)))) (Z.abs z) []) as (ds & E & I & V).
  - lia.
  - split; [lia|]. rewrite Nat2Z.inj_succ, Z2Nat.id by apply Z.log2_nonneg.
    destruct (Z.eq_dec z 0) as [->|]; [reflexivity|]. apply Z.log2_spec. lia.
  - rewrite E, app_nil_r. destruct (Z.ltb_spec z 0).
    + right. split; [lia|]. exists ds. rewrite V. repeat split; auto. lia.
    + left. rewrite V. repeat split; auto. lia.
Qed.

Lemma integer_number z s : integer_text z s -> number s.
Proof.
  intros [(_ & I & _)|(_ & ds & -> & I & _)].
  - replace s with ([] ++ s ++ [] ++ []) by now rewrite !app_nil_r.
    constructor; [auto | exact I | constructor | constructor].
  - replace (45 :: ds) with ([45] ++ ds ++ [] ++ []) by now rewrite !app_nil_r.
    constructor; [auto | exact I | constructor | constructor].
Qed.

Lemma int_plain s : int_part s -> Forall plain s.
Proof.
  intros [|d ds D Ds]; [repeat constructor; unfold plain; lia|]. constructor; [unfold plain; lia|].
  eapply Forall_impl; [|exact Ds]. unfold digit, plain. intros; lia.
Qed.

Lemma integer_plain z s : integer_text z s -> Forall plain s.
Proof.
  intros [(_ & I & _)|(_ & ds & -> & I & _)]; [now apply int_plain|]. constructor; [unfold plain; lia | now apply int_plain].
Qed.

(** ** Strings *)

Lemma plain_chars s : Forall plain s -> chars s s.
Proof. induction 1; constructor; auto. Qed.

Lemma base64_char_plain v : 0 <= v -> plain (base64_char v).
Proof.
  intros B. unfold base64_char, plain.
  destruct (Z.ltb_spec v 26); [lia|]. destruct (Z.ltb_spec v 52); [lia|]. destruct (Z.ltb_spec v 62); [lia|].
  destruct (Z.eqb_spec v 62); lia.
Qed.

Lemma base64_plain : forall n bs, (length bs <= n)%nat -> bytes bs -> Forall plain (base64 bs).
Proof.
  induction n as [|n IH]; intros bs L B; [destruct bs; [constructor | cbn in L; lia]|].
  assert (P : forall a k, 0 <= a -> 0 <= a / Z.pos k) by (intros; apply Z.div_pos; lia).
  assert (Q : forall a k, 0 <= a -> 0 <= a mod Z.pos k) by (intros; apply Z.mod_pos_bound; lia).
  assert (E : plain 61) by (unfold plain; lia).
  assert (G : forall x, 0 <= x -> plain (base64_char x)) by (intros; now apply base64_char_plain).
  destruct bs as [|a [|b [|c bs]]]; cbn [base64].
  - constructor.
  - assert (0 <= a) by (inversion B; subst; unfold is_byte in *; lia).
    repeat apply Forall_cons; auto. apply G. specialize (Q a 4%positive). lia.
  - assert (0 <= a /\ 0 <= b) as [] by (inversion B as [|? ? ? B']; inversion B'; subst; unfold is_byte in *; lia).
    pose proof (Q a 4%positive). pose proof (Q b 16%positive). pose proof (P b 16%positive).
    repeat apply Forall_cons; auto; apply G; lia.
  - inversion B as [|? ? Ba B']; inversion B' as [|? ? Bb B'']; inversion B'' as [|? ? Bc B3]; subst. unfold is_byte in *.
    pose proof (Q a 4%positive). pose proof (Q b 16%positive). pose proof (P b 16%positive). pose proof (P c 64%positive).
    pose proof (Q c 64%positive). pose proof (P a 4%positive).
    repeat apply Forall_cons; try (apply G; lia). apply IH; [cbn in L; lia | exact B3].
Qed.

Section Fine.
  Variable sch : schema.
  Variable nm : names.
  Variable fm : formats.
  Variable naming : list (list Z * Z) -> Z -> list Z -> Prop.
  Variable ok_enum : list (list Z * Z) -> Z -> Prop.
  Variable floating : sty -> Z -> list Z -> Prop.
  Variable ok_float : sty -> Z -> list Z -> Prop.
  Hypothesis floats : forall t x s, qt_text fm t x s -> ok_float t x s -> floating t x s /\ number s.
  Hypothesis enums : forall en z, ok_enum en z -> naming en z (enum_key en z) /\ Forall plain (enum_key en z).
  Notation fine_scalar := (fine_scalar fm ok_enum ok_float).
  Notation fine_element := (fine_element fm ok_enum ok_float).
  Notation fine := (fine sch nm fm ok_enum ok_float).
  Notation nowhere_empty := (nowhere_empty sch).
  Notation object_of := (object_of sch).

  (** ** Well-formedness *)

  Lemma scalar_text en t v : fine_scalar en t v -> exists j, shows_scalar floating naming en t v j /\ text j (json_scalar fm en t v).
  Proof.
    intro F. assert (Int : exists j, (exists s, integer_text (num_of v) s /\ j = JNum s) /\ text j (decimal (num_of v))).
    { pose proof (decimal_spec (num_of v)) as D. exists (JNum (decimal (num_of v))). split; [eauto|].
      constructor. now apply integer_number in D. }
    destruct t; cbn in F |- *; try exact Int.
    - apply floats in F as [F1 F2]; [|reflexivity]. eexists. split; [eauto|]. now constructor.
    - apply floats in F as [F1 F2]; [|now left]. eexists. split; [eauto|]. now constructor.
    - eexists. split; [reflexivity|]. destruct (num_of v =? 0); constructor.
    - destruct (enums _ _ F) as [F1 F2]. eexists. split; [eauto|]. constructor. now apply plain_chars.
    - eexists. split; [reflexivity|]. constructor. now apply plain_chars.
    - eexists. split; [reflexivity|]. constructor. apply plain_chars. eapply base64_plain; [reflexivity | exact F].
  Qed.

  Lemma element_text en t v : t <> TBool -> fine_element en t v -> exists j, shows_scalar floating naming en t v j /\ text j (json_element fm en t v).
  Proof.
    intros N F. destruct t; try exact (scalar_text en _ v F); try congruence.
    cbn in *. apply floats in F as [F1 F2]; [|now right]. eexists. split; [eauto|]. now constructor.
  Qed.

  Lemma key_text k v : fine_key k v -> Forall plain (toString fm k v) /\ shows_key k v (toString fm k v).
  Proof.
    intro F. assert (I := decimal_spec (num_of v)). pose proof (integer_plain _ _ I).
    destruct k; cbn in *; try contradiction; auto.
    split; [|reflexivity]. destruct (num_of v =? 0); repeat constructor; lia.
  Qed.

  Lemma join_elements {A} (f : A -> res (list Z)) (keep : A -> bool) (R : A -> json -> Prop) : forall l t,
    concat_res (map f l) = Ok t ->
    (forall x, In x l -> keep x = false -> f x = Ok []) ->
    (forall x u, In x l -> keep x = true -> f x = Ok u -> exists j tx, R x j /\ text j tx /\ u = tx ++ [44]) ->
    exists js, Forall2 R (filter keep l) js /\
      ((js = [] /\ t = []) \/ exists body, t = body ++ [44] /\ elements js body).
  Proof.
    induction l as [|x l IH]; intros t H H1 H2.
    - cbn in H. injection H as <-. exists []. split; [constructor | auto].
    - cbn [map] in H. apply concat_res_cons in H as (a & b & Ha & Hb & ->).
      destruct (IH b Hb) as (js & F & C); [intros; apply H1; cbn; auto | intros; apply H2; cbn; auto |].
      cbn [filter]. destruct (keep x) eqn:K.
      + destruct (H2 x a (or_introl eq_refl) K Ha) as (j & tx & Rx & T & ->). exists (j :: js). split; [now constructor|]. right.
        destruct C as [[-> ->]|(body & -> & E)].
        * exists tx. split; [now rewrite app_nil_r|]. rewrite <- (app_nil_r tx). rewrite <- (app_nil_l (tx ++ [])).
          constructor; [constructor | constructor | exact T].
        * exists (tx ++ 44 :: body). split; [rewrite <- !app_assoc; reflexivity|].
          apply (elements_more [] [] j tx js body); [constructor | constructor | exact T | exact E].
      + rewrite (H1 x (or_introl eq_refl) K) in Ha. injection Ha as <-. exists js. auto.
  Qed.

  Lemma join_members {A} (f : A -> res (list Z)) (keep : A -> bool) (R : A -> list Z * json -> Prop) : forall l t,
    concat_res (map f l) = Ok t ->
    (forall x, In x l -> keep x = false -> f x = Ok []) ->
    (forall x u, In x l -> keep x = true -> f x = Ok u ->
       exists n j tx, R x (n, j) /\ Forall plain n /\ text j tx /\ u = 34 :: n ++ 34 :: 58 :: tx ++ [44]) ->
    exists js, Forall2 R (filter keep l) js /\
      ((js = [] /\ t = []) \/ exists body, t = body ++ [44] /\ members js body).
  Proof.
    induction l as [|x l IH]; intros t H H1 H2.
    - cbn in H. injection H as <-. exists []. split; [constructor | auto].
    - cbn [map] in H. apply concat_res_cons in H as (a & b & Ha & Hb & ->).
      destruct (IH b Hb) as (js & F & C); [intros; apply H1; cbn; auto | intros; apply H2; cbn; auto |].
      cbn [filter]. destruct (keep x) eqn:K.
      + destruct (H2 x a (or_introl eq_refl) K Ha) as (n & j & tx & Rx & P & T & ->). exists ((n, j) :: js). split; [now constructor|]. right.
        apply plain_chars in P. destruct C as [[-> ->]|(body & -> & E)].
        * exists (34 :: n ++ 34 :: 58 :: tx). split; [rewrite app_nil_r; cbn [app]; rewrite <- app_assoc; reflexivity|].
          pose proof (members_one [] [] [] [] n n j tx) as M. cbn in M. rewrite app_nil_r in M. apply M; try constructor; auto.
        * exists (34 :: n ++ 34 :: 58 :: tx ++ 44 :: body). split.
          { cbn [app]. rewrite <- !app_assoc. cbn [app]. rewrite <- !app_assoc. reflexivity. }
          pose proof (members_more [] [] [] [] n n j tx js body) as M. cbn in M. apply M; try constructor; auto.
      + rewrite (H1 x (or_introl eq_refl) K) in Ha. injection Ha as <-. exists js. auto.
  Qed.

  Lemma concat_ok {A} (g : A -> list Z) l : concat_res (map (fun x => Ok (g x)) l) = Ok (concat (map g l)).
  Proof. induction l as [|x l IH]; [reflexivity|]. cbn [map concat_res concat]. rewrite IH. reflexivity. Qed.

  Lemma chop_comma c body : chop (c :: body ++ [44]) = c :: body.
  Proof. unfold chop. change (c :: body ++ [44]) with ((c :: body) ++ [44]). rewrite removelast_app by discriminate. cbn [removelast]. now rewrite app_nil_r. Qed.

  Lemma close_comma c body d : close (c :: body ++ [44]) d = c :: body ++ [d].
  Proof.
    unfold close. change (c :: body ++ [44]) with ((c :: body) ++ [44]). rewrite last_last. cbn [Z.eqb].
    change ((c :: body) ++ [44]) with (c :: body ++ [44]). change (44 =? 44) with true. cbn match. rewrite chop_comma. reflexivity.
  Qed.

  Lemma close_empty c d : c <> 44 -> close [c] d = [c; d].
  Proof. intro N. unfold close. cbn [last]. apply Z.eqb_neq in N. rewrite N. reflexivity. Qed.

  Lemma scalar_list_text en t l : t <> TBool -> Forall (fine_element en t) l ->
    exists js, Forall2 (shows_scalar floating naming en t) l js /\ text (JArr js) (json_scalar_list fm en t l).
  Proof.
    intros N F. assert (E : json_scalar_list fm en t l =
      (match l with [] => 91 :: concat (map (fun v => json_element fm en t v ++ [44]) l)
       | _ => chop (91 :: concat (map (fun v => json_element fm en t v ++ [44]) l)) end) ++ [93]) by (destruct t; congruence || reflexivity).
    destruct (join_elements (fun v => Ok (json_element fm en t v ++ [44])) (fun _ => true) (shows_scalar floating naming en t) l _ (concat_ok _ l))
      as (js & F2 & C); [discriminate| |].
    { intros x u Ix _ Hu. injection Hu as <-. rewrite Forall_forall in F.
      destruct (element_text en t x N (F x Ix)) as (j & S & T). eauto. }
    assert (Fi : filter (fun _ : scalar => true) l = l) by (clear; induction l; cbn; congruence). rewrite Fi in F2.
    exists js. split; [exact F2|]. rewrite E. destruct C as [[-> ->]|(body & -> & M)].
    - inversion F2; subst. apply (text_arr0 []). constructor.
    - destruct l; [inversion F2; subst; inversion M|]. rewrite chop_comma. now constructor.
  Qed.

  Lemma object_text : forall fuel m obj t, json_object fuel sch nm fm m obj = Ok t -> fine m obj -> nowhere_empty m obj ->
    exists l, Forall2 (fun i p => fst p = n_json nm m i /\ shows_field sch nm floating naming m i (nth i obj VNull) (snd p)) (md_order (msg_at sch m)) l /\
      text (JObj l) t.
  Proof.
    induction fuel as [|fuel IH]; intros m obj t H F E; [discriminate H|]. cbn [json_object] in H.
    apply bind_ok in H as (body & H & Ht). injection Ht as <-.
    assert (Sub : forall m' v i u, In i (md_order (msg_at sch m)) -> f_ty (field_at sch m i) = FSing (EM m') -> v = nth i obj VNull ->
              json_object fuel sch nm fm m' (object_of m' v) = Ok u ->
              exists l, Forall2 (fun i p => fst p = n_json nm m' i /\ shows_field sch nm floating naming m' i (nth i (object_of m' v) VNull) (snd p)) (md_order (msg_at sch m')) l /\ text (JObj l) u).
    { intros m' v i u Hi Ty -> Hu. apply (IH _ _ _ Hu); intros M O P; [apply F | apply (E M O)]; eapply part_sing; eauto. }
    assert (SubL : forall m' sub i u, In i (md_order (msg_at sch m)) -> f_ty (field_at sch m i) = FRep (EM m') -> In (VMsg sub) (list_of (nth i obj VNull)) ->
              json_object fuel sch nm fm m' sub = Ok u ->
              exists l, Forall2 (fun i p => fst p = n_json nm m' i /\ shows_field sch nm floating naming m' i (nth i sub VNull) (snd p)) (md_order (msg_at sch m')) l /\ text (JObj l) u).
    { intros m' sub i u Hi Ty Hs Hu. apply (IH _ _ _ Hu); intros M O P; [apply F | apply (E M O)]; eapply part_list; eauto. }
    assert (SubM : forall m' k kv i u, In i (md_order (msg_at sch m)) -> f_ty (field_at sch m i) = FMap k (EM m') -> In kv (map_of (nth i obj VNull)) -> snd kv <> VNull ->
              json_object fuel sch nm fm m' (object_of m' (snd kv)) = Ok u ->
              exists l, Forall2 (fun i p => fst p = n_json nm m' i /\ shows_field sch nm floating naming m' i (nth i (object_of m' (snd kv)) VNull) (snd p)) (md_order (msg_at sch m')) l /\ text (JObj l) u).
    { intros m' k kv i u Hi Ty Hs Nn Hu. apply (IH _ _ _ Hu); intros M O P; [apply F | apply (E M O)]; eapply part_map; eauto. }
    assert (Mk : forall en m' v l, Forall2 (fun i p => fst p = n_json nm m' i /\ shows_field sch nm floating naming m' i (nth i (object_of m' v) VNull) (snd p)) (md_order (msg_at sch m')) l ->
              shows sch nm floating naming en (EM m') v (JObj l)).
    { intros en m' v l X. destruct v; try (apply shows_default; [discriminate|]; now constructor). now constructor. }
    destruct (join_members (fun i => json_property sch nm fm (json_object fuel sch nm fm) m i (nth i obj VNull)) (fun _ => true)
      (fun i p => fst p = n_json nm m i /\ shows_field sch nm floating naming m i (nth i obj VNull) (snd p)) (md_order (msg_at sch m)) body H) as (js & F2 & C).
    { discriminate. }
    { intros i u Hi _ Hu. unfold json_property in Hu. apply bind_ok in Hu as (tx & Hu & Hx). injection Hx as <-.
      destruct (F m obj (part_self sch m obj) i Hi) as [Pn Ff]. unfold fine_field in Ff. unfold json_field in Hu.
      exists (n_json nm m i). cbn [fst snd].
      enough (X : exists j, shows_field sch nm floating naming m i (nth i obj VNull) j /\ text j tx).
      { destruct X as (j & X1 & X2). exists j, tx. auto. }
      destruct (f_ty (field_at sch m i)) as [[t|m']|[t|m']|k e] eqn:Ty.
      - cbn [json_value] in Hu. injection Hu as <-. destruct (scalar_text _ _ _ Ff) as (j & S & T). exists j. split; [|exact T].
        eapply shows_sing; [exact Ty|]. now constructor.
      - cbn [json_value] in Hu.
        assert (Hu' : json_object fuel sch nm fm m' (object_of m' (nth i obj VNull)) = Ok tx) by (destruct (nth i obj VNull); exact Hu).
        destruct (Sub m' _ i tx Hi Ty eq_refl Hu') as (l & L & T). exists (JObj l). split; [|exact T].
        eapply shows_sing; [exact Ty|]. now apply Mk.
      - injection Hu as <-. destruct Ff as [Nb Ff]. destruct (scalar_list_text _ _ _ Nb Ff) as (l & L & T). exists (JArr l). split; [|exact T].
        eapply shows_list_s; [exact Ty|]. clear - L. remember (map scalar_of (list_of (nth i obj VNull))) as sl eqn:Es.
        revert Es. generalize (list_of (nth i obj VNull)). induction L as [|x y sl l H L IHL]; intros vs Es.
        + symmetry in Es. apply map_eq_nil in Es. subst. constructor.
        + destruct vs as [|v vs]; [discriminate|]. injection Es as -> ->. constructor; [now constructor | now apply IHL].
      - apply bind_ok in Hu as (b & Hb & Hx). injection Hx as <-.
        destruct (join_elements (json_list_object (json_object fuel sch nm fm) m') (fun x => match x with VMsg _ => true | _ => false end)
                   (shows sch nm floating naming (n_enum nm m i) (EM m')) (list_of (nth i obj VNull)) b Hb) as (l & L & Cl).
        { intros x _ K. destruct x; try discriminate; reflexivity. }
        { intros x u Ix K Hx. destruct x as [| |sub| |]; try discriminate. cbn [json_list_object] in Hx. apply bind_ok in Hx as (tx & Hx & Hy). injection Hy as <-.
          destruct (SubL m' sub i tx Hi Ty Ix Hx) as (l & L & T). exists (JObj l), tx. split; [now constructor | auto]. }
        exists (JArr l). split; [eapply shows_list_m; eauto|].
        destruct Cl as [[-> ->]|(bd & -> & El)]; [rewrite close_empty by lia; apply (text_arr0 []); constructor|].
        rewrite close_comma. now constructor.
      - apply bind_ok in Hu as (b & Hb & Hx). injection Hx as <-. rewrite Forall_forall in Ff.
        destruct (join_members (json_map_pair sch fm (json_object fuel sch nm fm) (n_enum nm m i) k e) (fun kv => match e, snd kv with EM _, VNull => false | _, _ => true end)
                   (fun kv p => shows_key k (fst kv) (fst p) /\ shows sch nm floating naming (n_enum nm m i) e (snd kv) (snd p)) (map_of (nth i obj VNull)) b Hb) as (l & L & Cl).
        { intros [kk x] _ K. cbn [snd] in K. unfold json_map_pair. cbn [snd fst]. destruct e as [t|m']; [discriminate|]. destruct x; try discriminate. reflexivity. }
        { intros [kk x] u Ix K Hx. destruct (Ff _ Ix) as [Fk Fe]. cbn [fst snd] in *. destruct (key_text _ _ Fk) as [Kp Ks].
          unfold json_map_pair in Hx. cbn [fst snd] in Hx.
          assert (Hx' : exists tx, json_value sch fm (json_object fuel sch nm fm) (n_enum nm m i) e x = Ok tx /\ u = 34 :: toString fm k kk ++ 34 :: 58 :: tx ++ [44]).
          { destruct e as [t|m'].
            - apply bind_ok in Hx as (tx & Hx & Hy). injection Hy as <-. eauto.
            - destruct x; try discriminate K; apply bind_ok in Hx as (tx & Hx & Hy); injection Hy as <-; eauto. }
          destruct Hx' as (tx & Hv & ->). exists (toString fm k kk).
          enough (X : exists j, shows sch nm floating naming (n_enum nm m i) e x j /\ text j tx) by (destruct X as (j & X1 & X2); exists j, tx; auto).
          destruct e as [t|m']; cbn [json_value] in Hv.
          - injection Hv as <-. destruct (scalar_text _ _ _ Fe) as (j & S & T). exists j. split; [now constructor | exact T].
          - assert (Hv' : json_object fuel sch nm fm m' (object_of m' x) = Ok tx) by (destruct x; exact Hv).
            assert (Nn : snd (kk, x) <> VNull) by (cbn; destruct x; discriminate).
            destruct (SubM m' k (kk, x) i tx Hi Ty Ix Nn Hv') as (l & L & T). exists (JObj l). split; [now apply Mk | exact T]. }
        exists (JObj l). split; [eapply shows_map; eauto|].
        destruct Cl as [[-> ->]|(bd & -> & El)]; [rewrite close_empty by lia; apply (text_obj0 []); constructor|].
        rewrite close_comma. now constructor. }
    assert (Fi : forall l : list nat, filter (fun _ => true) l = l) by (induction l; cbn; congruence). rewrite Fi in F2.
    exists js. split; [exact F2|]. destruct C as [[-> ->]|(bd & -> & M)].
    - exfalso. inversion F2. apply (E m obj (part_self sch m obj)). auto.
    - change (text (JObj js) (chop (123 :: bd ++ [44]) ++ [125])). rewrite chop_comma. now constructor.
  Qed.
End Fine.

(** ** Texts that are not JSON

    A scanner that follows strings, the literal null, the characters allowed outside of strings and the number of
    open brackets.  It accepts every JSON text. *)

Inductive lex : Type := Out | Inside | Esc | Nul | Bad.

Definition out_char (c : Z) : bool := existsb (Z.eqb c) ([9; 10; 13; 32] ++ bytes_of "0123456789+-.eEtrufals,:").

Definition lex_step (s : lex * Z) (c : Z) : lex * Z :=
  let d := snd s in
  match fst s with
  | Out => if c =? 34 then (Inside, d) else if c =? 110 then (Nul, d)
           else if (c =? 123) || (c =? 91) then (Out, d + 1)
           else if (c =? 125) || (c =? 93) then (Out, d - 1)
           else if out_char c then (Out, d) else (Bad, d)
  | Inside => if c =? 34 then (Out, d) else if c =? 92 then (Esc, d) else if c <? 32 then (Bad, d) else (Inside, d)
  | Esc => match escape c with Some _ => (Inside, d) | None => if c =? 117 then (Inside, d) else (Bad, d) end
  | Nul => if c =? 117 then (Out, d) else (Bad, d)
  | Bad => (Bad, d)
  end.

Definition scan (t : list Z) (s : lex * Z) : lex * Z := fold_left lex_step t s.

Lemma scan_app a b s : scan (a ++ b) s = scan b (scan a s).
Proof. apply fold_left_app. Qed.

Lemma scan_cons c t s : scan (c :: t) s = scan t (lex_step s c).
Proof. reflexivity. Qed.

Lemma scan_bad : forall t d, scan t (Bad, d) = (Bad, d).
Proof. induction t as [|c t IH]; intro d; [reflexivity|]. apply IH. Qed.

Lemma step_plain c d : plain c -> lex_step (Inside, d) c = (Inside, d).
Proof.
  intros (A & B & C). cbn. apply Z.eqb_neq in B, C. rewrite B, C. destruct (Z.ltb_spec c 32); [lia | reflexivity].
Qed.

Lemma scan_plain d : forall t, Forall plain t -> scan t (Inside, d) = (Inside, d).
Proof. induction 1 as [|c t P F IH]; [reflexivity|]. rewrite scan_cons, step_plain by exact P. exact IH. Qed.

Lemma hex_plain c v : hex_digit c = Some v -> plain c.
Proof.
  unfold hex_digit, plain. intro H.
  destruct (Z.leb_spec 48 c), (Z.leb_spec c 57); cbn in H; try lia;
  destruct (Z.leb_spec 65 c), (Z.leb_spec c 70); cbn in H; try lia;
  destruct (Z.leb_spec 97 c), (Z.leb_spec c 102); cbn in H; try lia; discriminate.
Qed.

Lemma hex4_plain h c : hex4 h = Some c -> Forall plain h.
Proof.
  intro H. destruct h as [|x [|y [|z [|w [|]]]]]; try discriminate. cbn [hex4] in H.
  destruct (hex_digit x) eqn:X, (hex_digit y) eqn:Y, (hex_digit z) eqn:Z, (hex_digit w) eqn:W; try discriminate.
  repeat constructor; eapply hex_plain; eauto.
Qed.

Lemma scan_chars d s t : chars s t -> scan t (Inside, d) = (Inside, d).
Proof.
  induction 1 as [|c s t P C IH|e c s t E C IH|h c s t H B C IH|h1 c1 h2 c2 s t H1 B1 H2 B2 C IH].
  - reflexivity.
  - rewrite scan_cons, step_plain by exact P. exact IH.
  - cbn [scan fold_left]. change (lex_step (Inside, d) 92) with (Esc, d). cbn [lex_step fst snd]. rewrite E. exact IH.
  - rewrite !scan_cons. change (lex_step (lex_step (Inside, d) 92) 117) with (Inside, d).
    rewrite scan_app, scan_plain by (eapply hex4_plain; eauto). exact IH.
  - rewrite !scan_cons. change (lex_step (lex_step (Inside, d) 92) 117) with (Inside, d).
    rewrite scan_app, scan_plain by (eapply hex4_plain; eauto).
    rewrite !scan_cons. change (lex_step (lex_step (Inside, d) 92) 117) with (Inside, d).
    rewrite scan_app, scan_plain by (eapply hex4_plain; eauto). exact IH.
Qed.

Lemma step_out c d : out_char c = true -> lex_step (Out, d) c = (Out, d).
Proof.
  intro H. pose proof H as H'. unfold out_char in H'. apply existsb_exists in H' as (x & I & E). apply Z.eqb_eq in E. subst x.
  vm_compute in I. repeat destruct I as [<-|I]; [reflexivity ..| contradiction].
Qed.

Lemma scan_out d : forall t, Forall (fun c => out_char c = true) t -> scan t (Out, d) = (Out, d).
Proof. induction 1 as [|c t P F IH]; [reflexivity|]. rewrite scan_cons, step_out by exact P. exact IH. Qed.

Lemma out_ws w : ws w -> Forall (fun c => out_char c = true) w.
Proof. intro H. eapply Forall_impl; [|exact H]. intros c [->|[->|[->| ->]]]; reflexivity. Qed.

Lemma out_digit c : digit c -> out_char c = true.
Proof.
  unfold digit. intro B. unfold out_char. apply existsb_exists. exists c. split; [|apply Z.eqb_refl].
  assert (c = 48 \/ c = 49 \/ c = 50 \/ c = 51 \/ c = 52 \/ c = 53 \/ c = 54 \/ c = 55 \/ c = 56 \/ c = 57) as H by lia.
  vm_compute. repeat destruct H as [->|H]; try subst c; tauto.
Qed.

Lemma out_digits ds : Forall digit ds -> Forall (fun c => out_char c = true) ds.
Proof. apply Forall_impl. exact out_digit. Qed.

Lemma out_number s : number s -> Forall (fun c => out_char c = true) s.
Proof.
  intros [sign i f e S I F E]. rewrite !Forall_app. split; [destruct S as [->| ->]; repeat constructor|].
  split; [destruct I; [repeat constructor|]; constructor; [apply out_digit; unfold digit; lia | now apply out_digits]|].
  split; [destruct F as [|d ds D]; [constructor | constructor; [reflexivity | now apply out_digits]]|].
  destruct E as [|e sg d ds Ee Es D]; [constructor|]. constructor; [destruct Ee as [->| ->]; reflexivity|].
  apply Forall_app. split; [destruct Es as [->|[->| ->]]; repeat constructor | now apply out_digits].
Qed.

Scheme text_mind := Induction for text Sort Prop
  with elements_mind := Induction for elements Sort Prop
  with members_mind := Induction for members Sort Prop.
Combined Scheme json_mind from text_mind, elements_mind, members_mind.

Lemma scan_json :
  (forall j t, text j t -> forall d, scan t (Out, d) = (Out, d)) /\
  (forall l t, elements l t -> forall d, scan t (Out, d) = (Out, d)) /\
  (forall l t, members l t -> forall d, scan t (Out, d) = (Out, d)).
Proof.
  assert (W : forall w d, ws w -> scan w (Out, d) = (Out, d)) by (intros w d H; apply scan_out; now apply out_ws).
  assert (Str : forall n nt d, chars n nt -> forall rest, scan (34 :: nt ++ 34 :: rest) (Out, d) = scan rest (Out, d)).
  { intros n nt d H rest. rewrite scan_cons. change (lex_step (Out, d) 34) with (Inside, d).
    rewrite scan_app, (scan_chars d n nt H). reflexivity. }
  assert (Comma : forall d, lex_step (Out, d) 44 = (Out, d)) by reflexivity.
  assert (Colon : forall d, lex_step (Out, d) 58 = (Out, d)) by reflexivity.
  apply (json_mind (fun j t _ => forall d, scan t (Out, d) = (Out, d))
                   (fun l t _ => forall d, scan t (Out, d) = (Out, d))
                   (fun l t _ => forall d, scan t (Out, d) = (Out, d))).
  - reflexivity.
  - reflexivity.
  - reflexivity.
  - intros s N d. apply scan_out. now apply out_number.
  - intros s t H d. apply (Str s t d H []).
  - intros w Hw d. rewrite scan_cons. change (lex_step (Out, d) 91) with (Out, d + 1). rewrite scan_app, W by exact Hw.
    cbn. f_equal. lia.
  - intros l t _ IH d. rewrite scan_cons. change (lex_step (Out, d) 91) with (Out, d + 1). rewrite scan_app, IH. cbn. f_equal. lia.
  - intros w Hw d. rewrite scan_cons. change (lex_step (Out, d) 123) with (Out, d + 1). rewrite scan_app, W by exact Hw. cbn. f_equal. lia.
  - intros l t _ IH d. rewrite scan_cons. change (lex_step (Out, d) 123) with (Out, d + 1). rewrite scan_app, IH. cbn. f_equal. lia.
  - intros w1 w2 j t H1 H2 _ IH d. rewrite !scan_app, W, IH, W; auto.
  - intros w1 w2 j t l t' H1 H2 _ IH _ IH' d. rewrite !scan_app, W, IH by exact H1. rewrite scan_app || idtac.
    rewrite W by exact H2. rewrite scan_cons, Comma. apply IH'.
  - intros w1 w2 w3 w4 n nt j t H1 H2 H3 H4 Hn _ IH d. rewrite scan_app, W by exact H1. rewrite (Str n nt d Hn).
    rewrite scan_app, W by exact H2. rewrite scan_cons, Colon. rewrite !scan_app, W, IH, W; auto.
  - intros w1 w2 w3 w4 n nt j t l t' H1 H2 H3 H4 Hn _ IH _ IH' d. rewrite scan_app, W by exact H1. rewrite (Str n nt d Hn).
    rewrite scan_app, W by exact H2. rewrite scan_cons, Colon. rewrite !scan_app, W, IH, W by auto. rewrite scan_cons, Comma. apply IH'.
Qed.

Lemma scan_well_formed t : well_formed t -> scan t (Out, 0) = (Out, 0).
Proof.
  intros (j & w1 & t' & w2 & H1 & H2 & T & ->). rewrite !scan_app.
  rewrite (scan_out 0 w1) by now apply out_ws. rewrite (proj1 scan_json _ _ T). apply scan_out. now apply out_ws.
Qed.

Lemma step_comma s d : lex_step s 44 = (Out, d) -> s = (Out, d).
Proof. destruct s as [[] e]; cbn; intro H; try discriminate; auto. Qed.

Section Balance.
  Variable sch : schema.
  Variable nm : names.
  Variable fm : formats.
  Variable naming : list (list Z * Z) -> Z -> list Z -> Prop.
  Variable ok_enum : list (list Z * Z) -> Z -> Prop.
  Variable floating : sty -> Z -> list Z -> Prop.
  Variable ok_float : sty -> Z -> list Z -> Prop.
  Hypothesis floats : forall t x s, qt_text fm t x s -> ok_float t x s -> floating t x s /\ number s.
  Hypothesis enums : forall en z, ok_enum en z -> naming en z (enum_key en z) /\ Forall plain (enum_key en z).

  (** [u] closes [k] more brackets than it opens. *)
  Definition sinks (u : list Z) (k : Z) : Prop := forall d, scan u (Out, d) = (Out, d - k).

  Lemma sinks_text j t : text j t -> sinks t 0.
  Proof. intros T d. rewrite (proj1 scan_json _ _ T). f_equal. lia. Qed.

  Definition ends (u : list Z) : Prop := u = [] \/ exists b, u = b ++ [44].

  Lemma join_sinks {A} (f : A -> res (list Z)) (P : A -> Prop) : forall l t, concat_res (map f l) = Ok t ->
    (forall x u, In x l -> f x = Ok u -> ends u /\ exists k, 0 <= k /\ (k = 0 -> P x) /\ sinks u k) ->
    ends t /\ exists k, 0 <= k /\ (k = 0 -> forall x, In x l -> P x) /\ sinks t k.
  Proof.
    induction l as [|x l IH]; intros t H Hf.
    - cbn in H. injection H as <-. split; [now left|]. exists 0. split; [lia|]. split; [intros _ x []|]. intro d. cbn. f_equal. lia.
    - cbn [map] in H. apply concat_res_cons in H as (a & b & Ha & Hb & ->).
      destruct (Hf x a (or_introl eq_refl) Ha) as (Ea & k & K & Kp & S).
      destruct (IH b Hb) as (Eb & k' & K' & Kp' & S'); [intros; apply Hf; cbn; auto|].
      split.
      + destruct Eb as [->|[b' ->]]; [now rewrite app_nil_r|]. right. exists (a ++ b'). now rewrite app_assoc.
      + exists (k + k'). split; [lia|]. split.
        * intros Z y [<-|Hy]; [apply Kp; lia | apply Kp'; [lia | exact Hy]].
        * intro d. rewrite scan_app, S, S'. f_equal. lia.
  Qed.

  Lemma sinks_comma u k : sinks u k -> sinks (u ++ [44]) k.
  Proof. intros S d. rewrite scan_app, S. reflexivity. Qed.

  Lemma sinks_unclosed b k : sinks (b ++ [44]) k -> sinks b k.
  Proof. intros S d. specialize (S d). rewrite scan_app in S. cbn [scan fold_left] in S. now apply step_comma in S. Qed.

  Lemma sinks_member n u k : Forall plain n -> sinks u k -> sinks (34 :: n ++ 34 :: 58 :: u ++ [44]) k.
  Proof.
    intros P S d. rewrite scan_cons. change (lex_step (Out, d) 34) with (Inside, d). rewrite scan_app, scan_plain by exact P.
    rewrite !scan_cons. change (lex_step (lex_step (Inside, d) 34) 58) with (Out, d). now apply sinks_comma.
  Qed.

  Lemma ends_comma u : ends (u ++ [44]).
  Proof. right. now exists u. Qed.

  Lemma ends_member n u : ends (34 :: n ++ 34 :: 58 :: u ++ [44]).
  Proof. right. exists (34 :: n ++ 34 :: 58 :: u). cbn. rewrite <- app_assoc. reflexivity. Qed.

  Lemma sinks_close o c t k : (o = 91 /\ c = 93 \/ o = 123 /\ c = 125) -> ends t -> sinks t k -> sinks (close (o :: t) c) k.
  Proof.
    intros B E S.
    assert (G : forall b, sinks b k -> sinks (o :: b ++ [c]) k).
    { intros b Sb d. rewrite scan_cons. assert (lex_step (Out, d) o = (Out, d + 1)) as -> by (destruct B as [[-> ->]|[-> ->]]; reflexivity).
      rewrite scan_app, Sb. cbn [scan fold_left]. destruct B as [[-> ->]|[-> ->]]; cbn; f_equal; lia. }
    destruct E as [->|[b ->]].
    - rewrite close_empty by lia. apply (G [] S).
    - rewrite close_comma. apply G. now apply sinks_unclosed.
  Qed.

  Lemma object_sinks : forall fuel m obj t, json_object fuel sch nm fm m obj = Ok t -> fine sch nm fm ok_enum ok_float m obj ->
    exists k, 0 <= k /\ (k = 0 -> nowhere_empty sch m obj) /\ sinks t k.
  Proof.
    induction fuel as [|fuel IH]; intros m obj t H F; [discriminate H|]. cbn [json_object] in H.
    apply bind_ok in H as (body & H & Ht). assert (Et : t = chop (123 :: body) ++ [125]) by now injection Ht as <-. clear Ht.
    set (P := fun i => forall M O,
      match f_ty (field_at sch m i) with
      | FSing (EM m') => part sch m' (object_of sch m' (nth i obj VNull)) M O
      | FRep (EM m') => exists sub, In (VMsg sub) (list_of (nth i obj VNull)) /\ part sch m' sub M O
      | FMap _ (EM m') => exists kv, In kv (map_of (nth i obj VNull)) /\ snd kv <> VNull /\ part sch m' (object_of sch m' (snd kv)) M O
      | _ => False
      end -> md_order (msg_at sch M) <> []).
    destruct (join_sinks (fun i => json_property sch nm fm (json_object fuel sch nm fm) m i (nth i obj VNull)) P (md_order (msg_at sch m)) body H)
      as (Eb & k & K & Kp & Sk).
    { intros i u Hi Hu. unfold json_property in Hu. apply bind_ok in Hu as (tx & Hu & Hx). injection Hx as <-.
      split; [apply ends_member|]. destruct (F m obj (part_self sch m obj) i Hi) as [Pn Ff]. unfold fine_field in Ff. unfold json_field in Hu.
      enough (X : exists k, 0 <= k /\ (k = 0 -> P i) /\ sinks tx k) by (destruct X as (k & X1 & X2 & X3); exists k; split; [exact X1|]; split; [exact X2 | now apply sinks_member]).
      destruct (f_ty (field_at sch m i)) as [[t0|m']|[t0|m']|kt e] eqn:Ty.
      - cbn [json_value] in Hu. injection Hu as <-. destruct (scalar_text fm naming ok_enum floating ok_float floats enums _ _ _ Ff) as (j & _ & T).
        exists 0. split; [lia|]. split; [|eapply sinks_text; exact T]. intros _ M O X. rewrite Ty in X. contradiction.
      - cbn [json_value] in Hu.
        assert (Hu' : json_object fuel sch nm fm m' (object_of sch m' (nth i obj VNull)) = Ok tx) by (destruct (nth i obj VNull); exact Hu).
        destruct (IH _ _ _ Hu') as (k & K & Kp & S); [intros M O X; apply F; eapply part_sing; eauto|].
        exists k. split; [exact K|]. split; [|exact S]. intros Z M O X. rewrite Ty in X. apply (Kp Z M O X).
      - injection Hu as <-. destruct Ff as [Nb Ff]. destruct (scalar_list_text fm naming ok_enum floating ok_float floats enums _ _ _ Nb Ff) as (l & _ & T).
        exists 0. split; [lia|]. split; [|eapply sinks_text; exact T]. intros _ M O X. rewrite Ty in X. contradiction.
      - apply bind_ok in Hu as (b & Hb & Hx). injection Hx as <-.
        destruct (join_sinks _ (fun v => forall sub, v = VMsg sub -> nowhere_empty sch m' sub) _ _ Hb) as (El & k & K & Kp & S).
        { intros x u Ix Hx. destruct x as [s| |sub|l|l]; cbn [json_list_object] in Hx;
            try (injection Hx as <-; split; [now left|]; exists 0; split; [lia|]; split; [discriminate|]; intro d; cbn; f_equal; lia).
          apply bind_ok in Hx as (tx & Hx & Hy). injection Hy as <-. split; [apply ends_comma|].
          destruct (IH _ _ _ Hx) as (k & K & Kp & S); [intros M O X; apply F; eapply part_list; eauto|].
          exists k. split; [exact K|]. split; [|now apply sinks_comma]. intros Z sub' E'. injection E' as <-. now apply Kp. }
        exists k. split; [exact K|]. split; [|apply sinks_close; auto].
        intros Z M O X. rewrite Ty in X. destruct X as (sub & I & X). exact (Kp Z _ I sub eq_refl M O X).
      - apply bind_ok in Hu as (b & Hb & Hx). injection Hx as <-. rewrite Forall_forall in Ff.
        destruct (join_sinks _ (fun kv => forall m', e = EM m' -> snd kv <> VNull -> nowhere_empty sch m' (object_of sch m' (snd kv))) _ _ Hb) as (El & k & K & Kp & S).
        { intros [kk x] u Ix Hx. destruct (Ff _ Ix) as [Fk Fe]. cbn [fst snd] in *. destruct (key_text fm _ _ Fk) as [Kk _].
          unfold json_map_pair in Hx. cbn [fst snd] in Hx. destruct e as [t0|m'].
          - apply bind_ok in Hx as (tx & Hx & Hy). injection Hy as <-. cbn [json_value] in Hx. injection Hx as <-.
            split; [apply ends_member|]. destruct (scalar_text fm naming ok_enum floating ok_float floats enums _ _ _ Fe) as (j & _ & T).
            exists 0. split; [lia|]. split; [discriminate|]. apply sinks_member; [exact Kk | eapply sinks_text; exact T].
          - destruct (match x with VNull => true | _ => false end) eqn:Ex.
            + destruct x; try discriminate. injection Hx as <-. split; [now left|]. exists 0. split; [lia|]. split; [congruence|]. intro d; cbn; f_equal; lia.
            + assert (Hx' : exists tx, json_object fuel sch nm fm m' (object_of sch m' x) = Ok tx /\ u = 34 :: toString fm kt kk ++ 34 :: 58 :: tx ++ [44]).
              { destruct x; try discriminate Ex; apply bind_ok in Hx as (tx & Hx & Hy); injection Hy as <-; eauto. }
              destruct Hx' as (tx & Hv & ->). split; [apply ends_member|].
              destruct (IH _ _ _ Hv) as (k & K & Kp & S).
              { intros M O X. apply F. eapply (part_map sch m obj i kt m' (kk, x)); eauto. cbn. destruct x; discriminate. }
              exists k. split; [exact K|]. split; [|now apply sinks_member]. intros Z m'' E' _. injection E' as <-. now apply Kp. }
        exists k. split; [exact K|]. split; [|apply sinks_close; auto].
        intros Z M O X. rewrite Ty in X. destruct e as [t0|m']; [contradiction|]. destruct X as (kv & I & N & X). exact (Kp Z _ I m' eq_refl N M O X). }
    destruct Eb as [->|[b ->]].
    - exists 1. split; [lia|]. split; [lia|]. intro d. subst t. cbn. f_equal; lia.
    - exists k. split; [exact K|]. rewrite chop_comma in Et. split.
      + intros Z M O X. specialize (Kp Z). clear Z.
        inversion X as [|m0 obj0 i m' M0 O0 Hi Ty Hp|m0 obj0 i m' sub M0 O0 Hi Ty Hs Hp|m0 obj0 i k0 m' kv M0 O0 Hi Ty Hs Nn Hp]; subst.
        * intro E0. rewrite E0 in H. cbn in H. injection H as H. now destruct b.
        * apply (Kp i Hi M O). rewrite Ty. exact Hp.
        * apply (Kp i Hi M O). rewrite Ty. eauto.
        * apply (Kp i Hi M O). rewrite Ty. eauto.
      + subst t. intro d. cbn [app]. rewrite scan_cons. change (lex_step (Out, d) 123) with (Out, d + 1).
        rewrite scan_app, (sinks_unclosed _ _ Sk). cbn. f_equal; lia.
  Qed.

  Lemma well_formed_iff fuel m obj t : json_object fuel sch nm fm m obj = Ok t -> fine sch nm fm ok_enum ok_float m obj ->
    (well_formed t <-> nowhere_empty sch m obj).
  Proof.
    intros H F. split.
    - intro W. apply scan_well_formed in W. destruct (object_sinks _ _ _ _ H F) as (k & K & Kp & S). apply Kp.
      specialize (S 0). rewrite W in S. injection S as S. lia.
    - intro E. destruct (object_text sch nm fm naming ok_enum floating ok_float floats enums _ _ _ _ H F E) as (l & _ & T). exists (JObj l), [], t, [].
      split; [constructor|]. split; [constructor|]. split; [exact T | now rewrite app_nil_r].
  Qed.
End Balance.

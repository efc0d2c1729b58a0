(** Concrete schemas and values used by the non-vacuity examples. *)

From Coq Require Import ZArith List Bool Lia.
From Verif Require Import Base WireModel Values MessageModel WireSpec MessageSpec.
Import ListNotations.
Open Scope Z_scope.

(** Message 0 has a field of every kind, message 1 is used for nesting; the emission order is not
    the declaration order. *)
Definition ex_sch : schema :=
  [ mkMsg
      [ mkField 1 (FSing (ES TInt32));
        mkField 3 (FRep (ES TDouble));
        mkField 2 (FRep (ES TString));
        mkField 17 (FMap TString (EM 1));
        mkField 5 (FSing (EM 1));
        mkField 6 (FRep (EM 1));
        mkField 7 (FSing (ES TEnum));
        mkField 8 (FRep (ES TEnum));
        mkField 9 (FMap TSInt32 (ES TBytes)) ]
      [4; 0; 1; 3; 2; 8; 6; 7; 5]%nat;
    mkMsg [ mkField 2 (FSing (ES TSInt64)); mkField 1 (FSing (ES TString)) ] [1; 0]%nat ].

Lemma ex_sch_ok : schema_ok ex_sch.
Proof.
  unfold schema_ok, ex_sch.
  constructor; [|constructor; [|constructor]]; unfold msg_ok; cbn [md_fields md_order map f_num].
  - split; [|split; [|split]].
    + repeat (apply NoDup_cons; [cbn; lia|]). apply NoDup_nil.
    + repeat (apply Forall_cons; [split; [vm_compute; split; congruence | cbn; exact I]|]).
      apply Forall_nil.
    + repeat (apply NoDup_cons; [cbn; lia|]). apply NoDup_nil.
    + intro i. cbn. lia.
  - split; [|split; [|split]].
    + repeat (apply NoDup_cons; [cbn; lia|]). apply NoDup_nil.
    + repeat (apply Forall_cons; [split; [vm_compute; split; congruence | cbn; exact I]|]).
      apply Forall_nil.
    + repeat (apply NoDup_cons; [cbn; lia|]). apply NoDup_nil.
    + intro i. cbn. lia.
Qed.

Lemma ex_sch_acyclic : acyclic ex_sch.
Proof.
  exists (fun m => match m with O => 1%nat | _ => 0%nat end). intros m f m' Hin Ty.
  destruct m as [|[|m]]; cbn in Hin.
  - repeat (destruct Hin as [<-|Hin]; [cbn in Ty; try discriminate; injection Ty as <-; lia|]).
    contradiction.
  - repeat (destruct Hin as [<-|Hin]; [discriminate|]). contradiction.
  - destruct m; contradiction.
Qed.

Definition str (l : list Z) : scalar := SStr false l.
Definition inner (n : Z) (s : list Z) : value := VMsg [VScalar (SNum n); VScalar (str s)].

(** An object of type 0: -5; doubles 0 (+0.0), 1.0; strings "", "a", and a NUL; a map with two keys, one of them
    the empty string; nested messages, a null list element; enums 3 and [-1; 0]; a map with key 0. *)
Definition ex_obj : list value :=
  [ VScalar (SNum (-5));
    VList [VScalar (SNum 0); VScalar (SNum 4607182418800017408)];
    VList [VScalar (str []); VScalar (str [97]); VScalar (str [0])];
    VMap [(str [], inner 1 []); (str [98], inner (-1) [99])];
    inner (- 2 ^ 63) [1; 2];
    VList [inner 0 [7]; VNull; inner 5 []];
    VScalar (SNum 3);
    VList [VScalar (SNum (-1)); VScalar (SNum 0)];
    VMap [(SNum (-7), VScalar (str [10])); (SNum 0, VScalar (str [8; 1]))] ].

Lemma ex_obj_ok : object_ok ex_sch 0 ex_obj.
Proof.
  unfold object_ok, ex_obj, inner, str. cbn -[Z.pow in_s in_u bytes Z.opp].
  repeat split; try (intro; discriminate); try (unfold in_s, in_u; lia);
    repeat constructor; unfold is_byte; lia.
Qed.

Definition ex_bytes : list Z :=
  match serializeMessage 3 ex_sch 0 ex_obj with Ok bs => bs | _ => [] end.

Lemma ex_serializes : serializes ex_sch 0 ex_obj ex_bytes.
Proof. exists 3%nat. vm_compute. reflexivity. Qed.

Lemma ex_bytes_small : Zlen ex_bytes <= INT_MAX.
Proof. vm_compute. congruence. Qed.

Lemma ex_bytes_long : Zlen ex_bytes = 112.
Proof. vm_compute. reflexivity. Qed.

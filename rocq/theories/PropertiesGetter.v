(** Property C59: changes made through the getters of a message object. *)

From Coq Require Import ZArith List Bool Lia.
From Verif Require Import Base Values MessageSpec ObjectModel ObjectSpec ObjectProofs ObjectFacts
  GetterSpec GetterProofs PropertiesObject.
Import ListNotations.
Open Scope Z_scope.

(** ** C59 Changes through getters show in the outer message *)

(** The field [i] of a nested message that a chain of getters gives is set: afterwards the outer
    object has the value it had before, with just this field of this nested message replaced. *)
Theorem C59_nested_change : forall sch h m xs vs path n ys i new w,
  denotes sch h m xs vs -> reads sch h (map Nested path) m xs n ys ->
  (i < length (md_fields (msg_at sch n)))%nat -> den_field sch h (f_ty (field_at sch n i)) new w ->
  exists xs', modify sch (map Nested path) i new m xs h = Some (xs', h) /\
    denotes sch h m xs' (put sch path i w m vs).
Proof. intros sch h m xs vs path n ys i new w D R L W. exact (modify_put sch h i new w path m xs vs n ys D R L W). Qed.

(** The same through elements of repeated messages and values of maps: the chain of getters that was
    used for the change gives the changed object afterwards. *)
Theorem C59_read_back : forall sch h m xs vs path n ys i new,
  denotes sch h m xs vs -> reads sch h path m xs n ys ->
  exists xs' h', modify sch path i new m xs h = Some (xs', h') /\ reads sch h' path m xs' n (upd i new ys).
Proof.
  intros sch h m xs vs path n ys i new D R. destruct (reads_visits _ _ _ _ _ _ _ R) as [as_ V].
  assert (ND := visits_distinct _ _ _ _ _ _ V _ D).
  destruct (modify_reads sch h i new path m xs as_ V ND n ys R) as (xs' & h' & M & R' & _). eauto.
Qed.

(** A nested message that was not created yet, and an element of a repeated field. *)
Example C59_case :
  reads pr_sch pr_heap [Nested 3] 0 pr_mems0 1 (default_mems pr_sch 1) /\
  put pr_sch [3%nat] 0 (VScalar (SNum 9)) 0 pr_obj0 = upd 3 (VMsg [VScalar (SNum 9); VScalar (SStr true [])]) pr_obj0 /\
  reads pr_sch pr_heap [Element 4 1] 0 pr_mems 1 [MScalar (SNum (-1)); MScalar (SStr false [])] /\
  denotes pr_sch pr_heap 0 pr_mems pr_obj.
Proof.
  split; [eapply reads_not_created; [reflexivity | reflexivity | constructor]|]. split; [reflexivity|].
  split; [eapply reads_element; try reflexivity; constructor | exact pr_denotes].
Qed.

Print Assumptions C59_nested_change.
Print Assumptions C59_read_back.

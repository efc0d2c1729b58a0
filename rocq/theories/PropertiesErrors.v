(** Property C100: the error signal of a client tells each failure exactly once. *)

From Coq Require Import ZArith List Bool Lia Permutation.
From Verif Require Import Base Values FrameModel CallModel ReplyModel ReplySpec ReplyProofs ErrorSpec ErrorProofs PropertiesReply.
Import ListNotations.
Open Scope Z_scope.

(** C100: after any history, the error signals of the client are, each exactly once, the status codes of the calls that failed, one Unknown for each call
    that was refused without a channel, and the codes of the responses that could not be read. *)
Theorem C100_exactly_once : forall decode evs w, run decode new_world evs = Ok w ->
  Permutation (w_errors w)
    (flat_map call_failed (w_replies w) ++ repeat 2 (refused evs) ++ flat_map (unreadable decode w) (w_told w) ++ reads_failed decode new_world evs).
Proof.
  intros decode evs w R. destruct (run_accounts decode evs _ _ _ _ (new_accounts decode) R) as (C & _).
  rewrite (refusals_refused decode evs new_world w eq_refl eq_refl R) in C.
  apply (Permutation_count_occ Z.eq_dec). intro z. specialize (C z). unfold cnt in C. rewrite !count_occ_app. cbn [Nat.add app] in C. lia.
Qed.

(** C100: a failure is told in the step in which the call ends, as the next signal of the client. *)
Theorem C100_at_once : forall decode evs w e w' i c, run decode new_world evs = Ok w -> step decode w e = Ok w' -> ends_with i w w' (Error c) ->
  w_errors w' = w_errors w ++ [c].
Proof. intros decode evs w e w' i c R E H. destruct (ending decode evs w e w' i _ R E H) as (r & _ & ->). reflexivity. Qed.

(** C100: a call that succeeds causes no error signal, unless JavaScript code gets its response and this cannot be read. *)
Theorem C100_success : forall decode evs w e w' i d, run decode new_world evs = Ok w -> step decode w e = Ok w' -> ends_with i w w' (Finished d) ->
  w_errors w' = w_errors w
  \/ (exists r x, nth_error (w_replies w) i = Some r /\ (r_style r = AsScript x \/ exists t, r_style r = AsScriptInto t x)) /\
     w_errors w' = w_errors w ++ failure_code (snd (decode d)).
Proof.
  intros decode evs w e w' i d R E H. destruct (ending decode evs w e w' i _ R E H) as (r & N & ->). cbn [error_of app]. unfold slot_errors, object_errors, slot_tells.
  destruct (r_slots r); [|left; apply app_nil_r].
  destruct (r_style r) as [|x|b|t b] eqn:St; cbn [flat_map]; [left; apply app_nil_r | left; apply app_nil_r | right | destruct (has t (w_gone w)); cbn; [left; apply app_nil_r | right]].
  - split; [eauto|]. cbn. now rewrite app_nil_r.
  - split; [eauto 6|]. now rewrite app_nil_r.
Qed.

(** C100: nothing else causes an error signal. *)
Theorem C100_nothing_else : forall decode evs w e w', run decode new_world evs = Ok w -> step decode w e = Ok w' ->
  (forall i s, ~ ends_with i w w' s) -> (forall s v, e <> Start s v) -> (forall i, e <> Read i) -> w_errors w' = w_errors w.
Proof. exact nothing_else. Qed.

(** Two calls are refused, then one is answered with status 14, one is aborted, twice, one times out, one answer cannot be read by JavaScript code and one
    not through its handle. *)
Example C100_case :
  let evs := [Start AsHandle true; Start (AsCallback 8) true; Attach 1; Start (AsScript true) true; Start AsHandle true; Start AsHandle true;
              Start (AsScript true) true; Start AsHandle true;
              Network 0 0 [49; 52] []; Abort 1; Abort 1; Expire 2; Network 3 0 [48] [0; 0; 0; 0; 0]; Network 4 0 [48] [0; 0; 0; 0; 2; 7; 7]; Read 4; Network 2 0 [48] []] in
  match run ex_decode new_world evs with
  | Ok w => w_errors w = [2; 2; 14; 10; 14; 11; 11] /\ flat_map call_failed (w_replies w) = [14; 10; 14] /\ refused evs = 2%nat /\
            flat_map (unreadable ex_decode w) (w_told w) = [11] /\ reads_failed ex_decode new_world evs = [11]
  | _ => False
  end.
Proof. vm_compute. auto 10. Qed.

Example C100_at_once_case :
  let evs := [Attach 1; Start AsHandle true] in
  exists w w', run ex_decode new_world evs = Ok w /\ step ex_decode w (Abort 0) = Ok w' /\ ends_with 0 w w' (Error 10).
Proof. eexists _, _. split; [vm_compute; reflexivity|]. split; [vm_compute; reflexivity|]. eexists _, _. split; [reflexivity|]. split; [reflexivity|]. split; reflexivity. Qed.

Example C100_success_case :
  let evs := [Attach 1; Start (AsScript true) true] in
  exists w w', run ex_decode new_world evs = Ok w /\ step ex_decode w (Network 0 0 [48] [0; 0; 0; 0; 1; 5]) = Ok w' /\ ends_with 0 w w' (Finished [5]).
Proof. eexists _, _. split; [vm_compute; reflexivity|]. split; [vm_compute; reflexivity|]. eexists _, _. split; [reflexivity|]. split; [reflexivity|]. split; reflexivity. Qed.

Print Assumptions C100_exactly_once.
Print Assumptions C100_at_once.
Print Assumptions C100_success.
Print Assumptions C100_nothing_else.

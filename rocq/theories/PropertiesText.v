(** Properties C80 and C81: texts.

    [character], [utf8], [utf16], [well_formed], [valid_utf8], [lone], [percent_encoded] are in TextSpec, [faithful] and
    [text_object_ok] in TextMessageSpec.  [to_utf8] and [from_utf8] are what the serializers do with the QString of a string
    field, [text_serializes] and [text_deserializes] what they do with messages that hold such strings. *)

From Coq Require Import ZArith List Bool Lia.
From Verif Require Import Base Values MessageModel WireSpec MessageSpec MessageProofs SerializeProofs RunFacts CycleSpec CycleProofs
  ObjectProofs Examples TextSpec TextModel TextProofs TextMessageSpec TextMessageProofs PropertiesMessage PropertiesObject.
Import ListNotations.
Local Open Scope Z_scope.

(** ** C80 Texts survive serialization *)

(** The bytes written for a text are its UTF-8. *)
Theorem C80_written : forall cs, Forall character cs -> to_utf8 (utf16 cs) = utf8 cs.
Proof. exact written_text. Qed.

(** Whatever a QString holds, valid UTF-8 is written, as proto3 demands. *)
Theorem C80_valid : forall us, units us -> valid_utf8 (to_utf8 us).
Proof. intros us U. exists (chars us). split; [now apply chars_characters | now apply to_utf8_chars]. Qed.

(** Texts that others write are read as they are, without U+0000 and not beginning with U+FEFF. *)
Theorem C80_read : forall cs, Forall character cs -> ~ In 0 cs -> (forall t, cs <> 65279 :: t) ->
  from_utf8 (utf8 cs) = utf16 cs.
Proof.
  intros cs C N0 M. rewrite read_utf8, before_nul_none by assumption. destruct cs as [| c cs]; [reflexivity |].
  rewrite without_mark_other; [reflexivity |]. intros ->. now apply (M cs).
Qed.

(** Any bytes, valid UTF-8 or not, are read as some text. *)
Theorem C80_read_any : forall bs, bytes bs -> well_formed (from_utf8 bs) /\ ~ In 0 (from_utf8 bs).
Proof.
  intros bs B. destruct (read_text bs) as (cs & C & N0 & E).
  - eapply Forall_impl; [| exact B]. unfold is_byte. intros; lia.
  - rewrite E. split; [now exists cs |]. now rewrite utf16_zero.
Qed.

(** What comes back is what was written exactly for texts without U+0000 that do not begin with U+FEFF. *)
Theorem C80_round_trip : forall us, units us -> (from_utf8 (to_utf8 us) = us <-> faithful us).
Proof.
  intros us U. split; [| apply faithful_back]. intro E. destruct (C80_read_any (to_utf8 us) (to_utf8_bytes us U)) as (W & N0).
  rewrite E in W, N0. split; [exact W |]. split; [exact N0 |]. intros t M. destruct W as (cs & C & ->).
  assert (M' := M). apply utf16_first in M'; [| exact C]. destruct M' as (cs' & -> & ->).
  rewrite written_text, read_utf8, before_nul_none in E; [| | exact C | exact C].
  - cbn [without_mark] in E. apply (f_equal (@length Z)) in E. change (utf16 (65279 :: cs')) with (65279 :: utf16 cs') in E.
    cbn [length] in E. lia.
  - now rewrite <- utf16_zero.
Qed.

(** A text with U+0000 comes back cut off there, whatever follows. *)
Theorem C80_nul_refuted : forall a b, units a -> units b -> from_utf8 (to_utf8 (a ++ 0 :: b)) = from_utf8 (to_utf8 a).
Proof. exact nul_read. Qed.

(** The first U+FEFF is lost. *)
Theorem C80_mark_refuted : forall cs, Forall character cs -> ~ In 0 cs ->
  from_utf8 (to_utf8 (utf16 (65279 :: cs))) = utf16 cs.
Proof.
  intros cs C N0. rewrite written_text, read_utf8, before_nul_none; [reflexivity | | |].
  - intros [F | F]; [discriminate F | auto].
  - constructor; [unfold character; lia | exact C].
  - constructor; [unfold character; lia | exact C].
Qed.

(** A half of a surrogate pair without the other half is written as a question mark. *)
Theorem C80_lone_refuted : forall a u b, units (a ++ u :: b) -> lone a u b ->
  to_utf8 (a ++ u :: b) = to_utf8 a ++ 63 :: to_utf8 b.
Proof. exact lone_written. Qed.

(** So the reader cannot tell which half it was, nor whether it was a question mark; two entries of a map with such keys end up
    with one key. *)
Theorem C80_lone_keys_refuted : forall a u v b, units (a ++ u :: b) -> units (a ++ v :: b) -> lone a u b -> lone a v b ->
  to_utf8 (a ++ u :: b) = to_utf8 (a ++ v :: b) /\ to_utf8 (a ++ u :: b) = to_utf8 (a ++ 63 :: b).
Proof.
  intros a u v b Uu Uv Lu Lv. rewrite !lone_written by assumption. split; [reflexivity |].
  apply units_app in Uu. destruct Uu as (Ua & Ub). inversion Ub; subst.
  rewrite (to_utf8_chars (a ++ 63 :: b)) by (apply units_app; split; [exact Ua | constructor; [lia | assumption]]).
  rewrite chars_app.
  - assert (Q : chars (63 :: b) = 63 :: chars b) by (destruct b; reflexivity). rewrite Q, !to_utf8_chars by assumption.
    unfold utf8. now rewrite flat_map_app.
  - intros t x w s _ E _ L. injection E as <- _. unfold low in L. lia.
Qed.

(** Messages: if all texts in it are of that kind, an object of a type that cannot hold a cycle of singular message fields comes
    back as it was. *)
Theorem C80_message_round_trip : forall sch m obj,
  schema_ok sch -> ~ can_hold_cycle sch m -> text_object_ok faithful sch m obj ->
  exists bs, text_serializes sch m obj bs /\
    (Zlen bs <= INT_MAX ->
     exists r, text_deserializes sch m bs r (Ok tt) /\ same sch m r (map drop_nulls obj)).
Proof.
  intros sch m obj S A O.
  destruct (C12_message_round_trip sch m (convert_object to_utf8 sch m obj) S A) as (bs & Sr & R).
  { apply converted_object_ok. now apply faithful_object_units. }
  exists bs. split; [exact Sr |]. intro B. destruct (R B) as (r & D & E).
  exists (convert_object from_utf8 sch m r). split; [exists r; auto |].
  apply (same_converted from_utf8 sch eq_refl) in E. now rewrite object_there_and_back in E.
Qed.

(** Every string in the message that is written, in fields, lists, keys and values of maps, is valid UTF-8, whatever the
    QStrings hold. *)
Theorem C80_message_valid : forall sch m obj, text_object_ok units sch m obj ->
  text_object_ok valid_utf8 sch m (convert_object to_utf8 sch m obj).
Proof. intros sch m obj O. apply (converted_object_typed units valid_utf8); [exact C80_valid | reflexivity | exact O]. Qed.

(** Whatever bytes a message is read from, every string in it is a text. *)
Theorem C80_message_read : forall sch m data r o, bytes data -> text_deserializes sch m data r o ->
  text_object_ok (fun us => well_formed us /\ ~ In 0 us) sch m r.
Proof.
  intros sch m data r o B (r0 & D & ->). apply (converted_object_typed bytes).
  - exact C80_read_any.
  - reflexivity.
  - apply text_object_bytes. exact (C53_result_well_typed _ _ _ _ _ B D).
Qed.

(** A reader that has read a text once loses nothing by sending it on: what is written from it is read as the same text, but for a
    U+FEFF at its start. *)
Theorem C80_relay : forall bs, bytes bs -> (forall t, from_utf8 bs <> 65279 :: t) ->
  from_utf8 (to_utf8 (from_utf8 bs)) = from_utf8 bs.
Proof. intros bs B M. destruct (C80_read_any bs B) as (W & N0). apply faithful_back. repeat split; assumption. Qed.

(** "aé€𝄞": one character of each length. *)
Definition ex_text : list Z := [97; 233; 8364; 119070].
Example C80_case :
  utf16 ex_text = [97; 233; 8364; 55348; 56606] /\ utf8 ex_text = [97; 195; 169; 226; 130; 172; 240; 157; 132; 158] /\
  Forall character ex_text /\ ~ In 0 ex_text /\ faithful (utf16 ex_text) /\
  to_utf8 (utf16 ex_text) = utf8 ex_text /\ from_utf8 (utf8 ex_text) = utf16 ex_text.
Proof.
  assert (C : Forall character ex_text) by (repeat constructor; unfold character; lia).
  split; [reflexivity |]. split; [reflexivity |]. split; [exact C |]. split; [intros [X | [X | [X | [X | []]]]]; discriminate X |].
  split; [apply C80_round_trip; [repeat constructor; lia | reflexivity] |]. split; reflexivity.
Qed.
(** Bytes that are no UTF-8: an overlong NUL, a surrogate, a byte that follows nothing, a character that is cut off. *)
Example C80_bad_case :
  from_utf8 [192; 128] = [65533; 65533] /\ from_utf8 [237; 160; 128; 98] = [65533; 65533; 65533; 98] /\
  from_utf8 [97; 128; 226; 130] = [97; 65533; 65533; 65533] /\ from_utf8 [244; 144; 128; 128] = [65533; 65533; 65533; 65533].
Proof. repeat split; reflexivity. Qed.
Example C80_refuted_case :
  from_utf8 (to_utf8 [97; 0; 98]) = [97] /\ from_utf8 (to_utf8 [65279; 97]) = [97] /\
  lone [97] 55348 [98] /\ from_utf8 (to_utf8 [97; 55348; 98]) = [97; 63; 98] /\ lone [97] 56606 [98].
Proof.
  repeat split; try reflexivity.
  - left. split; [unfold high; lia |]. intros v t E. injection E as <- _. unfold low. lia.
  - right. split; [unfold low; lia |]. intros t v E. destruct t as [| x [|]]; try discriminate E. injection E as <-. unfold high. lia.
Qed.

(** A message of every kind of field, with texts; a map whose keys are in another order as units than as bytes. *)
Definition ex_texts : list value :=
  [ VScalar (SNum (-5));
    VList [];
    VList [VScalar (str []); VScalar (str [233]); VScalar (str (utf16 ex_text))];
    VMap [(str [55348; 56606], inner 1 [8364]); (str [57344], inner (-1) [99])];
    inner (- 2 ^ 63) [233; 2];
    VList [inner 0 [7]; VNull; inner 5 []];
    VScalar (SNum 3);
    VList [];
    VMap [(SNum (-7), VScalar (str [10])); (SNum 0, VScalar (str [0; 255]))] ].
Lemma ex_texts_ok : text_object_ok faithful ex_sch 0 ex_texts.
Proof.
  unfold text_object_ok, ex_texts, inner, str. cbn -[Z.pow in_s in_u bytes Z.opp faithful utf16 ex_text].
  repeat match goal with |- faithful _ => fail 1 | |- _ /\ _ => split | |- True => exact Logic.I end; try (intro; discriminate);
    try (unfold in_s, in_u; lia); try (repeat constructor; unfold is_byte; lia).
  all: try (apply C80_round_trip; [repeat constructor; lia | reflexivity]); reflexivity.
Qed.
Definition ex_text_bytes : list Z := Eval vm_compute in match serializeMessage 3 ex_sch 0 (convert_object to_utf8 ex_sch 0 ex_texts) with Ok bs => bs | _ => [] end.
Lemma ex_texts_written : text_serializes ex_sch 0 ex_texts ex_text_bytes.
Proof. exists 3%nat. vm_compute. reflexivity. Qed.
Lemma ex_texts_bytes : bytes ex_text_bytes.
Proof.
  assert (F : forall l, forallb (fun b => (0 <=? b) && (b <? 256)) l = true -> bytes l).
  { intros l L. apply Forall_forall. intros x I. rewrite forallb_forall in L. specialize (L x I). unfold is_byte. lia. }
  apply F. vm_compute. reflexivity.
Qed.
Example C80_message_case : schema_ok ex_sch /\ ~ can_hold_cycle ex_sch 0 /\ text_object_ok faithful ex_sch 0 ex_texts /\
  text_object_ok units ex_sch 0 ex_texts /\ text_serializes ex_sch 0 ex_texts ex_text_bytes /\ Zlen ex_text_bytes = 101 /\ bytes ex_text_bytes.
Proof.
  split; [exact ex_sch_ok |]. split; [apply C12_case |]. split; [exact ex_texts_ok |].
  split; [apply faithful_object_units; exact ex_texts_ok |]. split; [exact ex_texts_written |]. split; [reflexivity | exact ex_texts_bytes].
Qed.

(** ** C81 Messages of a status arrive as the server sent them *)

(** The native channel: the text that the gRPC library gives, without U+0000 and not beginning with U+FEFF. *)
Theorem C81_native_message : forall cs, Forall character cs -> ~ In 0 cs -> (forall t, cs <> 65279 :: t) ->
  native_message (utf8 cs) = utf16 cs.
Proof. exact C80_read. Qed.

(** The HTTP/2 channel gives a message as the server sent it exactly if it is of printable ASCII without percent signs. *)
Theorem C81_http2_message : forall cs, Forall character cs ->
  (http2_message (percent_encoded (utf8 cs)) = utf16 cs <-> Forall plain cs).
Proof. exact status_read. Qed.

(** Otherwise the client sees the percent signs and digits that the server wrote for the header: whatever the message, what it
    gets is the value of the header. *)
Theorem C81_http2_encoded_refuted : forall bs, bytes bs -> http2_message (percent_encoded bs) = percent_encoded bs.
Proof. intros bs B. apply ascii_read, percent_ascii. eapply Forall_impl; [| exact B]. unfold is_byte. intros; lia. Qed.

(** Different messages are still different texts. *)
Theorem C81_http2_distinct : forall a b, bytes a -> bytes b ->
  http2_message (percent_encoded a) = http2_message (percent_encoded b) -> a = b.
Proof. intros a b A B. rewrite !C81_http2_encoded_refuted by assumption. now apply percent_injective. Qed.

(** "100% naïve" arrives as "100%25 na%C3%AFve". *)
Example C81_case :
  Forall plain [97; 32; 126] /\ http2_message (percent_encoded (utf8 [97; 32; 126])) = [97; 32; 126] /\
  http2_message (percent_encoded (utf8 [49; 37; 239])) = [49; 37; 50; 53; 37; 67; 51; 37; 65; 70] /\
  native_message (utf8 [49; 37; 239]) = [49; 37; 239].
Proof. split; [repeat constructor; lia |]. repeat split; reflexivity. Qed.

Print Assumptions C80_written.
Print Assumptions C80_valid.
Print Assumptions C80_read.
Print Assumptions C80_read_any.
Print Assumptions C80_round_trip.
Print Assumptions C80_nul_refuted.
Print Assumptions C80_mark_refuted.
Print Assumptions C80_lone_refuted.
Print Assumptions C80_lone_keys_refuted.
Print Assumptions C80_message_round_trip.
Print Assumptions C80_message_valid.
Print Assumptions C80_message_read.
Print Assumptions C80_relay.
Print Assumptions C81_native_message.
Print Assumptions C81_http2_message.
Print Assumptions C81_http2_encoded_refuted.
Print Assumptions C81_http2_distinct.

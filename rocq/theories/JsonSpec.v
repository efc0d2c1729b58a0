(** Specification of JSON texts (RFC 8259) and of the JSON value that belongs to a message.  Texts are lists of
    bytes, in UTF-8; that the bytes from 128 on form valid UTF-8 is not required. *)

From Coq Require Import String Ascii ZArith List Bool.
From Verif Require Import Base Values.
Import ListNotations.
Open Scope Z_scope.

(** The bytes of an ASCII literal. *)
Fixpoint bytes_of (s : string) : list Z :=
  match s with
  | EmptyString => []
  | String c s' => Z.of_nat (nat_of_ascii c) :: bytes_of s'
  end.

(** ** JSON values; a number is given by its text, a string by its characters (in UTF-8). *)
Inductive json : Type :=
| JNull
| JBool (b : bool)
| JNum (s : list Z)
| JStr (s : list Z)
| JArr (l : list json)
| JObj (l : list (list Z * json)).

(** ** RFC 8259, section 6: numbers *)
Definition digit (c : Z) : Prop := 48 <= c <= 57.
Inductive int_part : list Z -> Prop :=
| int_zero : int_part [48]
| int_other d ds : 49 <= d <= 57 -> Forall digit ds -> int_part (d :: ds).
Inductive frac_part : list Z -> Prop :=
| frac_none : frac_part []
| frac_some d ds : Forall digit (d :: ds) -> frac_part (46 :: d :: ds).
Inductive exp_part : list Z -> Prop :=
| exp_none : exp_part []
| exp_some e sign d ds : e = 101 \/ e = 69 -> sign = [] \/ sign = [43] \/ sign = [45] -> Forall digit (d :: ds) ->
    exp_part (e :: sign ++ d :: ds).
Inductive number : list Z -> Prop :=
| number_of sign i f e : sign = [] \/ sign = [45] -> int_part i -> frac_part f -> exp_part e -> number (sign ++ i ++ f ++ e).

(** ** Section 7: strings.  [chars s t]: [t] is a text, without the quotation marks, for the characters [s]. *)
Definition hex_digit (c : Z) : option Z :=
  if (48 <=? c) && (c <=? 57) then Some (c - 48)
  else if (65 <=? c) && (c <=? 70) then Some (c - 55)
  else if (97 <=? c) && (c <=? 102) then Some (c - 87)
  else None.
Definition hex4 (t : list Z) : option Z :=
  match t with
  | [a; b; c; d] =>
      match hex_digit a, hex_digit b, hex_digit c, hex_digit d with
      | Some x, Some y, Some z, Some w => Some (((x * 16 + y) * 16 + z) * 16 + w)
      | _, _, _, _ => None
      end
  | _ => None
  end.
Definition utf8 (c : Z) : list Z :=
  if c <? 128 then [c]
  else if c <? 2048 then [192 + c / 64; 128 + c mod 64]
  else if c <? 65536 then [224 + c / 4096; 128 + c / 64 mod 64; 128 + c mod 64]
  else [240 + c / 262144; 128 + c / 4096 mod 64; 128 + c / 64 mod 64; 128 + c mod 64].
Definition plain (c : Z) : Prop := 32 <= c /\ c <> 34 /\ c <> 92.
Definition escape (e : Z) : option Z :=
  if (e =? 34) || (e =? 92) || (e =? 47) then Some e
  else if e =? 98 then Some 8 else if e =? 102 then Some 12 else if e =? 110 then Some 10
  else if e =? 114 then Some 13 else if e =? 116 then Some 9 else None.
Inductive chars : list Z -> list Z -> Prop :=
| chars_nil : chars [] []
| chars_plain c s t : plain c -> chars s t -> chars (c :: s) (c :: t)
| chars_escape e c s t : escape e = Some c -> chars s t -> chars (c :: s) (92 :: e :: t)
| chars_hex h c s t : hex4 h = Some c -> c < 55296 \/ 57344 <= c -> chars s t -> chars (utf8 c ++ s) (92 :: 117 :: h ++ t)
| chars_pair h1 c1 h2 c2 s t : hex4 h1 = Some c1 -> 55296 <= c1 < 56320 -> hex4 h2 = Some c2 -> 56320 <= c2 < 57344 ->
    chars s t -> chars (utf8 (65536 + (c1 - 55296) * 1024 + (c2 - 56320)) ++ s) (92 :: 117 :: h1 ++ 92 :: 117 :: h2 ++ t).

(** ** Sections 2-5: values, arrays, objects *)
Definition ws (w : list Z) : Prop := Forall (fun c => c = 32 \/ c = 9 \/ c = 10 \/ c = 13) w.

(** [text j t]: [t] is a text of the value [j], without white space around it. *)
Inductive text : json -> list Z -> Prop :=
| text_null : text JNull (bytes_of "null")
| text_true : text (JBool true) (bytes_of "true")
| text_false : text (JBool false) (bytes_of "false")
| text_num s : number s -> text (JNum s) s
| text_str s t : chars s t -> text (JStr s) (34 :: t ++ [34])
| text_arr0 w : ws w -> text (JArr []) (91 :: w ++ [93])
| text_arr l t : elements l t -> text (JArr l) (91 :: t ++ [93])
| text_obj0 w : ws w -> text (JObj []) (123 :: w ++ [125])
| text_obj l t : members l t -> text (JObj l) (123 :: t ++ [125])
with elements : list json -> list Z -> Prop :=
| elements_one w1 w2 j t : ws w1 -> ws w2 -> text j t -> elements [j] (w1 ++ t ++ w2)
| elements_more w1 w2 j t l t' : ws w1 -> ws w2 -> text j t -> elements l t' -> elements (j :: l) (w1 ++ t ++ w2 ++ 44 :: t')
with members : list (list Z * json) -> list Z -> Prop :=
| members_one w1 w2 w3 w4 n nt j t : ws w1 -> ws w2 -> ws w3 -> ws w4 -> chars n nt -> text j t ->
    members [(n, j)] (w1 ++ 34 :: nt ++ 34 :: w2 ++ 58 :: w3 ++ t ++ w4)
| members_more w1 w2 w3 w4 n nt j t l t' : ws w1 -> ws w2 -> ws w3 -> ws w4 -> chars n nt -> text j t -> members l t' ->
    members ((n, j) :: l) (w1 ++ 34 :: nt ++ 34 :: w2 ++ 58 :: w3 ++ t ++ w4 ++ 44 :: t').

(** [t] is a JSON text of the value [j]. *)
Definition json_text (j : json) (t : list Z) : Prop :=
  exists w1 t' w2, ws w1 /\ ws w2 /\ text j t' /\ t = w1 ++ t' ++ w2.
Definition well_formed (t : list Z) : Prop := exists j, json_text j t.

(** ** The JSON value of a message *)

(** The number a text of digits stands for. *)
Definition decimal_value (ds : list Z) : Z := fold_left (fun v d => v * 10 + (d - 48)) ds 0.
Definition integer_text (z : Z) (s : list Z) : Prop :=
  (0 <= z /\ int_part s /\ decimal_value s = z) \/
  (z < 0 /\ exists ds, s = 45 :: ds /\ int_part ds /\ decimal_value ds = - z).

(** Names known from the proto file: the JSON name of a field, and the enumerators of the enum type of a field
    with their values. *)
Record names : Type := mkNames {
  n_json : nat -> nat -> list Z;
  n_enum : nat -> nat -> list (list Z * Z)
}.

(** Base64 (RFC 4648, section 4). *)
Definition base64_char (v : Z) : Z :=
  if v <? 26 then 65 + v else if v <? 52 then 71 + v else if v <? 62 then v - 4 else if v =? 62 then 43 else 47.
Fixpoint base64 (bs : list Z) : list Z :=
  match bs with
  | [] => []
  | [a] => [base64_char (a / 4); base64_char (a mod 4 * 16); 61; 61]
  | [a; b] => [base64_char (a / 4); base64_char (a mod 4 * 16 + b / 16); base64_char (b mod 16 * 4); 61]
  | a :: b :: c :: bs' =>
      base64_char (a / 4) :: base64_char (a mod 4 * 16 + b / 16) :: base64_char (b mod 16 * 4 + c / 64) ::
      base64_char (c mod 64) :: base64 bs'
  end.

Definition is_float (t : sty) : bool := match t with TFloat | TDouble => true | _ => false end.
Definition is_integer (t : sty) : bool :=
  match t with
  | TInt32 | TInt64 | TUInt32 | TUInt64 | TSInt32 | TSInt64 | TFixed32 | TFixed64 | TSFixed32 | TSFixed64 => true
  | _ => false
  end.

(** The name of an enumerator with the given value. *)
Definition named (en : list (list Z * Z)) (z : Z) (name : list Z) : Prop := In (name, z) en.

(** The JSON value of a scalar.  Enums are given by name, bytes in base64.  [floating t x s]: [s] is a text for the
    floating point number of type [t] with the bits [x].  [naming] is [named] where names matter. *)
Definition shows_scalar (floating : sty -> Z -> list Z -> Prop) (naming : list (list Z * Z) -> Z -> list Z -> Prop)
  (en : list (list Z * Z)) (t : sty) (v : scalar) (j : json) : Prop :=
  match t with
  | TString => j = JStr (blob_of v)
  | TBytes => j = JStr (base64 (blob_of v))
  | TBool => j = JBool (negb (num_of v =? 0))
  | TEnum => exists name, naming en (num_of v) name /\ j = JStr name
  | _ => if is_float t then exists s, floating t (num_of v) s /\ j = JNum s else exists s, integer_text (num_of v) s /\ j = JNum s
  end.

(** The member name of a map key. *)
Definition shows_key (k : sty) (v : scalar) (name : list Z) : Prop :=
  match k with
  | TString => name = blob_of v
  | TBool => name = if num_of v =? 0 then bytes_of "false" else bytes_of "true"
  | _ => integer_text (num_of v) name
  end.

Section Shows.
  Variable sch : schema.
  Variable nm : names.
  Variable floating : sty -> Z -> list Z -> Prop.
  Variable naming : list (list Z * Z) -> Z -> list Z -> Prop.

  (** [shows e v j] with the enumerators of the field; null messages are shown as default messages in a
      singular field and left out in lists and maps. *)
  Inductive shows : list (list Z * Z) -> elty -> value -> json -> Prop :=
  | shows_sc en t v j : shows_scalar floating naming en t (scalar_of v) j -> shows en (ES t) v j
  | shows_msg en m obj l : Forall2 (fun i p => fst p = n_json nm m i /\ shows_field m i (nth i obj VNull) (snd p)) (md_order (msg_at sch m)) l ->
      shows en (EM m) (VMsg obj) (JObj l)
  | shows_default en m v j : (forall obj, v <> VMsg obj) -> shows en (EM m) (VMsg (default_obj sch m)) j -> shows en (EM m) v j
  with shows_field : nat -> nat -> value -> json -> Prop :=
  | shows_sing m i e v j : f_ty (field_at sch m i) = FSing e -> shows (n_enum nm m i) e v j -> shows_field m i v j
  | shows_list_s m i t v l : f_ty (field_at sch m i) = FRep (ES t) ->
      Forall2 (shows (n_enum nm m i) (ES t)) (list_of v) l -> shows_field m i v (JArr l)
  | shows_list_m m i m' v l : f_ty (field_at sch m i) = FRep (EM m') ->
      Forall2 (shows (n_enum nm m i) (EM m')) (filter (fun x => match x with VMsg _ => true | _ => false end) (list_of v)) l ->
      shows_field m i v (JArr l)
  | shows_map m i k e v l : f_ty (field_at sch m i) = FMap k e ->
      Forall2 (fun kv p => shows_key k (fst kv) (fst p) /\ shows (n_enum nm m i) e (snd kv) (snd p))
        (filter (fun kv => match e, snd kv with EM _, VNull => false | _, _ => true end) (map_of v)) l ->
      shows_field m i v (JObj l).
End Shows.

(** ** Messages whose content needs no escaping *)

(** QString::number of floating point numbers is Qt's: the texts of a float, of a double in a list (both with format
    'g', 6 digits) and of a double in QVariant::toString, as functions of the bit pattern. *)
Record formats : Type := mkFormats { fmt_float : Z -> list Z; fmt_double6 : Z -> list Z; fmt_double : Z -> list Z }.

(** [s] is one of the texts Qt gives to the floating point number of type [t] with the bits [x]. *)
Definition qt_text (fm : formats) (t : sty) (x : Z) (s : list Z) : Prop :=
  match t with TFloat => s = fmt_float fm x | _ => s = fmt_double fm x \/ s = fmt_double6 fm x end.

Section Fine.
  Variable sch : schema.
  Variable nm : names.
  Variable fm : formats.
  (** The condition on an enum value, given the enumerators. *)
  Variable ok_enum : list (list Z * Z) -> Z -> Prop.
  (** The condition on the text of a floating point number. *)
  Variable ok_float : sty -> Z -> list Z -> Prop.

  (** The object that a message field stands for. *)
  Definition object_of (m : nat) (v : value) : list value := match v with VMsg obj => obj | _ => default_obj sch m end.

  (** [part m obj M O]: the object [O] of type [M] is [obj], of type [m], or written as part of it. *)
  Inductive part : nat -> list value -> nat -> list value -> Prop :=
  | part_self m obj : part m obj m obj
  | part_sing m obj i m' M O : In i (md_order (msg_at sch m)) -> f_ty (field_at sch m i) = FSing (EM m') ->
      part m' (object_of m' (nth i obj VNull)) M O -> part m obj M O
  | part_list m obj i m' sub M O : In i (md_order (msg_at sch m)) -> f_ty (field_at sch m i) = FRep (EM m') ->
      In (VMsg sub) (list_of (nth i obj VNull)) -> part m' sub M O -> part m obj M O
  | part_map m obj i k m' kv M O : In i (md_order (msg_at sch m)) -> f_ty (field_at sch m i) = FMap k (EM m') ->
      In kv (map_of (nth i obj VNull)) -> snd kv <> VNull -> part m' (object_of m' (snd kv)) M O -> part m obj M O.

  (** No message without fields occurs. *)
  Definition nowhere_empty (m : nat) (obj : list value) : Prop := forall M O, part m obj M O -> md_order (msg_at sch M) <> [].

  (** Strings have no quotation marks, backslashes or control characters, the texts of floating point numbers meet
      the condition. *)
  Definition fine_scalar (en : list (list Z * Z)) (t : sty) (v : scalar) : Prop :=
    match t with
    | TString => Forall plain (blob_of v)
    | TBytes => bytes (blob_of v)
    | TFloat => ok_float TFloat (num_of v) (fmt_float fm (num_of v))
    | TDouble => ok_float TDouble (num_of v) (fmt_double fm (num_of v))
    | TEnum => ok_enum en (num_of v)
    | _ => True
    end.
  Definition fine_element (en : list (list Z * Z)) (t : sty) (v : scalar) : Prop :=
    match t with
    | TDouble => ok_float TDouble (num_of v) (fmt_double6 fm (num_of v))
    | _ => fine_scalar en t v
    end.
  (** Protobuf allows integers, bools and strings as keys. *)
  Definition fine_key (k : sty) (v : scalar) : Prop :=
    match k with
    | TString => Forall plain (blob_of v)
    | TBytes | TFloat | TDouble | TEnum => False
    | _ => True
    end.
  (** Lists of bools are left out: the generated code does not compile. *)
  Definition fine_field (m i : nat) (v : value) : Prop :=
    match f_ty (field_at sch m i) with
    | FSing (ES t) => fine_scalar (n_enum nm m i) t (scalar_of v)
    | FRep (ES t) => t <> TBool /\ Forall (fine_element (n_enum nm m i) t) (map scalar_of (list_of v))
    | FMap k e => Forall (fun kv => fine_key k (fst kv) /\
                                    match e with ES t => fine_scalar (n_enum nm m i) t (scalar_of (snd kv)) | EM _ => True end) (map_of v)
    | _ => True
    end.
  Definition fine_object (m : nat) (obj : list value) : Prop :=
    forall i, In i (md_order (msg_at sch m)) -> Forall plain (n_json nm m i) /\ fine_field m i (nth i obj VNull).
  Definition fine (m : nat) (obj : list value) : Prop := forall M O, part m obj M O -> fine_object M O.
End Fine.

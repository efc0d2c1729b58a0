(** Specification of reading JSON: which JSON values stand for which messages, and what is expected of the library
    microjson. *)

From Coq Require Import String ZArith List Bool Permutation.
From Verif Require Import Base Values MessageSpec JsonSpec JsonReadModel.
Import ListNotations.
Open Scope Z_scope.

(** ** The messages that a JSON value stands for

    This is the JSON mapping of proto3 for readers, without null in lists, NaN and the infinities, enums given as
    numbers, integers with a fraction or an exponent, and bools as map keys. *)

Section Says.
  Variable sch : schema.
  Variable nm : names.
  (** [floating t x s]: [s] is a text for the floating point number of type [t] with the bits [x]. *)
  Variable floating : sty -> Z -> list Z -> Prop.

  (** Numbers may be quoted. *)
  Definition says_scalar (en : list (list Z * Z)) (t : sty) (v : scalar) (j : json) : Prop :=
    shows_scalar floating named en t v j \/
    (is_integer t = true /\ exists s, integer_text (num_of v) s /\ j = JStr s) \/
    (is_float t = true /\ exists s, number s /\ floating t (num_of v) s /\ j = JStr s).

  (** Texts of integers, whatever their size, also with a plus sign or more zeros than JSON allows. *)
  Definition looks_integer (u : list Z) : Prop :=
    exists sign ds, u = sign ++ ds /\ (sign = [] \/ sign = [43] \/ sign = [45]) /\ ds <> [] /\ Forall digit ds.

  (** The kinds of JSON values that no value of a field is written with: also strings for numbers if they are no texts of numbers
      ([chars s u]: [u] is how [s] is written). *)
  Definition wrong_kind (ty : fty) (j : json) : Prop :=
    match ty, j with
    | _, JNull => False
    | FSing (ES ((TFloat | TDouble) as t)), JBool b => forall x, ~ floating t x (if b then bytes_of "true" else bytes_of "false")
    | FSing (ES ((TFloat | TDouble) as t)), (JArr _ | JObj _) => forall s x, text j s -> ~ floating t x s
    | FSing (ES ((TFloat | TDouble) as t)), JStr s =>
        (forall u x, chars s u -> ~ floating t x u) /\ ~ In s [bytes_of "NaN"; bytes_of "Infinity"; bytes_of "-Infinity"]
    | FSing (ES (TFloat | TDouble | TEnum)), _ => False
    | FSing (ES (TString | TBytes)), JStr _ => False
    | FSing (ES (TString | TBytes)), _ => True
    | FSing (ES TBool), JBool _ => False
    | FSing (ES TBool), _ => True
    | FSing (ES _), (JBool _ | JArr _ | JObj _) => True
    | FSing (ES _), JStr s => forall u, chars s u -> ~ looks_integer u
    | FSing (ES _), _ => False
    | FRep (ES TEnum), _ => False
    | FRep (ES _), JArr _ => False
    | FRep (ES _), _ => True
    | _, _ => False
    end.

  (** [says en e v j]: the JSON value [j] stands for the value [v] of type [e]; [en] are the enumerators if it is an enum. *)
  Inductive says : list (list Z * Z) -> elty -> value -> json -> Prop :=
  | says_basic en t v j : says_scalar en t v j -> says en (ES t) (VScalar v) j
  | says_message en m obj l : says_object m (default_obj sch m) obj l -> says en (EM m) (VMsg obj) (JObj l)
  (** [says_object m base obj l]: the members [l] change the object [base] of type [m] to [obj].  Each field is given by
      the member with its name; without such a member it is left as it is; members with other names mean nothing, nor do
      those with a value of a wrong kind. *)
  with says_object : nat -> list value -> list value -> list (list Z * json) -> Prop :=
  | says_members m base obj l : NoDup (map fst l) -> length obj = length (md_fields (msg_at sch m)) ->
      (forall i, (i < length (md_fields (msg_at sch m)))%nat -> says_member m i (nth i base VNull) (nth i obj VNull) l) ->
      says_object m base obj l
  with says_member : nat -> nat -> value -> value -> list (list Z * json) -> Prop :=
  | says_present m i old v l j : In (n_json nm m i, j) l -> says_field m i v j -> says_member m i old v l
  | says_absent m i old l : ~ In (n_json nm m i) (map fst l) -> says_member m i old old l
  | says_wrong m i old l j : In (n_json nm m i, j) l -> wrong_kind (f_ty (field_at sch m i)) j -> says_member m i old old l
  (** [says_field m i v j]: the JSON value [j] stands for the value [v] of the field [i]. *)
  with says_field : nat -> nat -> value -> json -> Prop :=
  | says_null m i : f_ty (field_at sch m i) <> FSing (ES TEnum) -> says_field m i (default_field (f_ty (field_at sch m i))) JNull
  | says_single m i e v j : f_ty (field_at sch m i) = FSing e -> says (n_enum nm m i) e v j -> says_field m i v j
  | says_unset m i m' j : f_ty (field_at sch m i) = FSing (EM m') -> says (n_enum nm m i) (EM m') (VMsg (default_obj sch m')) j ->
      says_field m i VNull j
  | says_list m i e vs js : f_ty (field_at sch m i) = FRep e -> Forall2 (says (n_enum nm m i) e) vs js ->
      says_field m i (VList vs) (JArr js)
  | says_map m i k e kvs kvs' l : f_ty (field_at sch m i) = FMap k e -> k <> TBool -> Permutation kvs kvs' ->
      Forall2 (fun kv p => shows_key k (fst kv) (fst p) /\ says (n_enum nm m i) e (snd kv) (snd p)) kvs' l ->
      says_field m i (VMap kvs) (JObj l).
End Says.

(** The names of the fields of a message type are distinct and need no escaping; the enumerators of an enum have
    distinct names, none of them "null". *)
Definition names_ok (sch : schema) (nm : names) : Prop :=
  (forall m, NoDup (map (n_json nm m) (md_order (msg_at sch m)))) /\
  (forall m i, Forall plain (n_json nm m i)) /\
  (forall m i, NoDup (map fst (n_enum nm m i)) /\
     forall p, In p (n_enum nm m i) -> Forall plain (fst p) /\ fst p <> [] /\ fst p <> bytes_of "null").

(** ** What is expected of microjson *)

(** The value handed over for a text: a string without the quotation marks, everything else as it is. *)
Definition hand_over (t : list Z) : jvalue :=
  match t with
  | c :: t' =>
      if c =? 34 then (StringType, removelast t')
      else if c =? 91 then (ArrayType, t)
      else if (c =? 123) || (c =? 110) then (ObjectType, t)
      else if (c =? 116) || (c =? 102) then (BoolType, t)
      else (NumberType, t)
  | [] => (NumberType, [])
  end.

Section Expected.
  Variable mj : microjson.
  (** The texts for which microjson works. *)
  Variable ok : list Z -> Prop.

  Definition handed (j : json) (v : jvalue) : Prop := exists t, ok t /\ text j t /\ v = hand_over t.
  (** Names are handed over as they are written, without the quotation marks. *)
  Definition handed_member (p : list Z * json) (q : list Z * jvalue) : Prop :=
    ok (34 :: fst q ++ [34]) /\ chars (fst p) (fst q) /\ handed (snd p) (snd q).

  (** The text without the opening character [c], if it begins with it. *)
  Definition unopened (c : Z) (s : list Z) : list Z := if hd 0 s =? c then tl s else s.
  (** What the calls of extractValue for the elements of an array give, if each goes on where the one before stopped. *)
  Inductive values : list Z -> list jvalue -> Prop :=
  | values_end : values [] []
  | values_stop s : s <> [] -> extractValue mj (unopened 91 s) 93 = None -> values s []
  | values_next s i v vs : s <> [] -> extractValue mj (unopened 91 s) 93 = Some (i, v) ->
      (i <= length (unopened 91 s))%nat -> values (skipn i (unopened 91 s)) vs -> values s (v :: vs).
  (** The same for the members of an object. *)
  Inductive properties : list Z -> list (list Z * jvalue) -> Prop :=
  | properties_end : properties [] []
  | properties_stop s : s <> [] -> extractProperty mj (unopened 123 s) 125 = None -> properties s []
  | properties_next s i v vs : s <> [] -> extractProperty mj (unopened 123 s) 125 = Some (i, v) ->
      (i <= length (unopened 123 s))%nat -> properties (skipn i (unopened 123 s)) vs -> properties s (v :: vs).

  Definition is_jobject (j : json) : Prop := match j with JObj _ => True | _ => False end.

  (** microjson splits the texts of objects and arrays into the texts of their parts.  parseJsonObject may return the
      members in any order. *)
  Definition right_on : Prop :=
    (forall l t, ok t -> text (JObj l) t -> NoDup (map fst l) ->
       exists ps, Permutation (parseJsonObject mj t) ps /\ Forall2 handed_member l ps) /\
    (forall js t, ok t -> text (JArr js) t -> Forall2 handed js (parseJsonArray mj t)) /\
    (forall js t, ok t -> text (JArr js) t -> Forall is_jobject js -> exists vs, values t vs /\ Forall2 handed js vs) /\
    (forall l t, ok t -> text (JObj l) t -> exists ps, properties t ps /\ Forall2 handed_member l ps).
End Expected.

(** The only escape sequence is the one of the quotation mark. *)
Definition quotes_only (t : list Z) : Prop := forall a b, t = a ++ 92 :: b -> exists b', b = 34 :: b'.
